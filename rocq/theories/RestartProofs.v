(** Restarting a lexer in the middle of a text. *)
From Verif Require Import Base BaseFacts TargetModel TargetSpec TargetProofs LexerModel LexerSpec LexerProofs BuildProofs RebuildModel RebuildSpec.
From Coq Require Import ZArith ZifyBool.

Local Arguments f_add : simpl never.
Local Arguments l_clip : simpl never.
Local Arguments f_init : simpl never.

Section Proofs.
Variables L A : Type.
Variable consume : L -> bool.
Variable parse : L -> str -> nat -> gen (item L A).
Variable K : nat.
Hypothesis HL : local_parse K parse.
Local Notation step := (l_step consume parse).
Local Notation all := (l_all consume parse).

Lemma local_pieces text : parse_pieces L A parse text.
Proof. intros l pos H. apply (lp_pieces HL). exact H. Qed.

(** The events, as the model of the lexer yields them. *)
Lemma all_run text n : forall s es fin, all text n s = Some (es, fin) ->
  exists evs, l_run consume parse text n s = (evs, None) /\ map fst evs = es.
Proof.
  induction n as [|n IH]; intros s es fin H; [discriminate|]. cbn [l_all] in H. cbn [l_run].
  destruct (step text s) as [[evs s']|].
  - destruct (all text n s') as [[r f]|] eqn:E; [|discriminate]. injection H as <- <-.
    destruct (IH _ _ _ E) as (evs' & E1 & E2). rewrite E1. exists (evs ++ evs'). split; [reflexivity|].
    rewrite map_app. f_equal. exact E2.
  - injection H as <- <-. exists []. auto.
Qed.

Lemma all_mono text n : forall m s r, n <= m -> all text n s = Some r -> all text m s = Some r.
Proof.
  induction n as [|n IH]; intros m s r Hm H; [discriminate|]. destruct m as [|m]; [lia|]. cbn [l_all] in *.
  destruct (step text s) as [[evs s']|]; [|exact H].
  destruct (all text n s') as [[r' f]|] eqn:E; [|discriminate].
  rewrite (IH m s' (r', f) ltac:(lia) E). exact H.
Qed.

(** The stack at the end. *)
Lemma all_stack text n : forall st s es fin, stack_inv L st s -> all text n s = Some (es, fin) ->
  exists s', s_lex s' = fin /\ stack_inv L (replay st es) s'.
Proof.
  induction n as [|n IH]; intros st s es fin Hi H; [discriminate|]. cbn [l_all] in H.
  destruct (step text s) as [[evs s']|] eqn:Es.
  - destruct (all text n s') as [[r f]|] eqn:E; [|discriminate]. injection H as <- <-.
    destruct (step_stack L A consume parse _ _ _ _ _ Hi Es) as [[-> Hi']|(x & -> & Hx & Hn & Hi')].
    + exact (IH _ _ _ _ Hi' E).
    + destruct (IH _ _ _ _ Hi' E) as (s2 & E1 & E2). exists s2. split; [exact E1|].
      unfold replay in *. cbn [map app fold_left]. destruct Hx as [Ex _]. rewrite <- Ex. exact E2.
  - injection H as <- <-. exists s. split; [reflexivity|exact Hi].
Qed.

(** ** The same events after an event *)

(** Two states that go on in the same way: the same lexicons and pending target, generators that yield the same items, all at
    or after [B], and sets that agree about what can still come. *)
Definition sim text (B : nat) (s s' : lstate L) : Prop :=
  s_lex s = s_lex s' /\ s_fac s = s_fac s' /\ s_pos s <= length text /\ s_pos s' <= length text
  /\ (forall l j, last_opt (s_lex s) = Some l ->
        parse l text (s_pos s) (s_idx s + j) = parse l text (s_pos s') (s_idx s' + j))
  /\ (forall l j it, last_opt (s_lex s) = Some l -> parse l text (s_pos s) (s_idx s + j) = Some it -> B <= i_pos it)
  /\ (forall tr, B <= fst3 tr -> existsb (triple_eqb tr) (s_circ s) = existsb (triple_eqb tr) (s_circ s')).

Lemma parse_low text l q k it : q <= length text -> parse l text q k = Some it -> q <= i_pos it.
Proof. intros Hq E. destruct (lp_pieces HL l text q Hq) as (_ & P & _). apply (P _ _ E). Qed.
Lemma parse_high text l q k it : q <= length text -> parse l text q k = Some it -> i_end it <= length text.
Proof. intros Hq E. destruct (lp_pieces HL l text q Hq) as (_ & P & _). apply (P _ _ E). Qed.

Lemma circle_low text circ p n push : p <= length text -> p <= fst (l_circle (L:=L) text circ p n push) <= length text.
Proof.
  intros H. unfold l_circle. destruct (existsb _ _); cbn [fst]; [|lia]. destruct (negb (length push =? 0) && (p <? length text)) eqn:E; lia.
Qed.

Lemma sim_same text B s : s_pos s <= length text -> s_idx s = 0 -> B <= s_pos s -> sim text B s s.
Proof.
  intros Hp Hi HB. repeat (split; [solve [auto]|]). split; [|auto]. intros l j it _ E. apply parse_low in E; [lia|exact Hp].
Qed.

Lemma sim_step text B s s' : sim text B s s' ->
  match step text s, step text s' with
  | None, None => True
  | Some (e, r), Some (e', r') => e = e' /\ sim text B r r'
  | _, _ => False
  end.
Proof.
  intros (E1 & E2 & Hp & Hp' & Hg & Hb & Hc). unfold l_step. rewrite <- E1.
  destruct (last_opt (s_lex s)) as [l|] eqn:El; [|exact I].
  pose proof (Hg l 0 eq_refl) as Hg0. rewrite !Nat.add_0_r in Hg0. rewrite <- Hg0. rewrite <- E2.
  destruct (parse l text (s_pos s) (s_idx s)) as [it|] eqn:Eit; [|exact I].
  assert (HB : B <= i_pos it) by (apply (Hb l 0 it); [reflexivity|rewrite Nat.add_0_r; exact Eit]).
  pose proof (parse_high _ _ _ _ _ Hp Eit) as Hend. unfold i_end in Hend.
  assert (Hfresh : forall lex f circ circ' p, B <= p -> p <= length text ->
    (forall tr, B <= fst3 tr -> existsb (triple_eqb tr) circ = existsb (triple_eqb tr) circ') ->
    sim text B (LState lex f circ p 0) (LState lex f circ' p 0)).
  { intros lex f circ circ' p H1 H2 H3. repeat (split; [solve [auto]|]). split; [|exact H3].
    intros l' j it' _ E. cbn [s_pos s_idx] in E. apply parse_low in E; [lia|exact H2]. }
  destruct (i_target it) as [t0|].
  - destruct (i_txt it) as [|c txt].
    + set (t := l_clip (length (s_lex s)) t0). set (n := length (drop_last (t_pop t) (s_lex s))).
      pose proof (circle_low text (s_circ s) (i_pos it) n (t_push t) ltac:(cbn in Hend; lia)) as Hlo.
      assert (Hcc : fst (l_circle (L:=L) text (s_circ s') (i_pos it) n (t_push t)) = fst (l_circle (L:=L) text (s_circ s) (i_pos it) n (t_push t))
        /\ forall tr, B <= fst3 tr -> existsb (triple_eqb tr) (snd (l_circle (L:=L) text (s_circ s) (i_pos it) n (t_push t)))
             = existsb (triple_eqb tr) (snd (l_circle (L:=L) text (s_circ s') (i_pos it) n (t_push t)))).
      { unfold l_circle. rewrite <- (Hc (i_pos it, n, length (t_push t))) by exact HB.
        destruct (existsb _ _); [split; [reflexivity|reflexivity]|]. split; [reflexivity|].
        intros tr Htr. cbn [snd existsb]. rewrite (Hc tr Htr). reflexivity. }
      destruct (l_circle (L:=L) text (s_circ s) (i_pos it) n (t_push t)) as [p c1] eqn:Ec1.
      destruct (l_circle (L:=L) text (s_circ s') (i_pos it) n (t_push t)) as [p' c2] eqn:Ec2.
      cbn [fst snd] in Hcc, Hlo. destruct Hcc as [-> Hcc].
      split; [reflexivity|]. apply Hfresh; [lia|lia|exact Hcc].
    + destruct (l_consumes consume _).
      * destruct (l_emit _ it _) as [ev f']. split; [reflexivity|]. apply Hfresh; [lia|cbn in *; lia|reflexivity].
      * destruct (l_emit _ it _) as [ev f']. split; [reflexivity|]. apply Hfresh; [lia|cbn in *; lia|reflexivity].
  - assert (Hnext : forall f, sim text B (LState (s_lex s) f (s_circ s) (s_pos s) (S (s_idx s)))
                                      (LState (s_lex s) f (s_circ s') (s_pos s') (S (s_idx s')))).
    { intros f. repeat (split; [solve [auto]|]). cbn [s_lex s_pos s_idx s_circ]. split; [|split; [|exact Hc]].
      - intros l' j E. rewrite !Nat.add_succ_comm. apply Hg. congruence.
      - intros l' j it' E. rewrite !Nat.add_succ_comm. apply Hb. congruence. }
    destruct (i_txt it) as [|c txt]; [split; [reflexivity|apply Hnext]|].
    destruct (l_emit _ it _) as [ev f']. split; [reflexivity|apply Hnext].
Qed.

Lemma sim_all text n : forall B s s', sim text B s s' -> all text n s = all text n s'.
Proof.
  induction n as [|n IH]; intros B s s' H; [reflexivity|]. cbn [l_all]. pose proof (sim_step _ _ _ _ H) as Hs.
  destruct (step text s) as [[e r]|], (step text s') as [[e' r']|]; try contradiction.
  - destruct Hs as [-> Hs]. rewrite (IH _ _ _ Hs). reflexivity.
  - destruct H as [-> _]. reflexivity.
Qed.

(** Entries of the set do not lie after the position of the generator. *)
Definition circ_inv (text : str) (s : lstate L) : Prop :=
  s_pos s <= length text /\ forall tr, In tr (s_circ s) -> fst3 tr <= s_pos s.

Lemma circ_step text s evs s' : circ_inv text s -> step text s = Some (evs, s') -> circ_inv text s'.
Proof.
  intros [Hp Hc] Hs. unfold l_step in Hs. destruct (last_opt (s_lex s)) as [l|]; [|discriminate].
  destruct (parse l text (s_pos s) (s_idx s)) as [it|] eqn:Eit; [|discriminate].
  pose proof (parse_low _ _ _ _ _ Hp Eit) as Hlo. pose proof (parse_high _ _ _ _ _ Hp Eit) as Hhi. unfold i_end in Hhi.
  destruct (i_target it) as [t0|].
  - destruct (i_txt it) as [|c txt].
    + destruct (l_circle text (s_circ s) (i_pos it) _ _) as [p c1] eqn:Ec. injection Hs as <- <-.
      pose proof (circle_low text (s_circ s) (i_pos it) (length (drop_last (t_pop (l_clip (length (s_lex s)) t0)) (s_lex s)))
        (t_push (l_clip (length (s_lex s)) t0)) ltac:(cbn in Hhi; lia)) as Hl. rewrite Ec in Hl. cbn [fst] in Hl.
      split; cbn [s_pos s_circ]; [lia|]. intros tr Htr. unfold l_circle in Ec. destruct (existsb _ _).
      * injection Ec as <- <-. destruct Htr.
      * injection Ec as <- <-. destruct Htr as [<-|Htr]; [cbn; lia|]. apply Hc in Htr. lia.
    + destruct (l_consumes consume _); destruct (l_emit _ it _) as [ev f']; injection Hs as <- <-;
        (split; cbn [s_pos s_circ]; [cbn in *; lia|intros tr []]).
  - destruct (i_txt it) as [|c txt].
    + injection Hs as <- <-. split; cbn [s_pos s_circ]; [exact Hp|exact Hc].
    + destruct (l_emit _ it _) as [ev f']. injection Hs as <- <-. split; cbn [s_pos s_circ]; [exact Hp|exact Hc].
Qed.

(** The event was not put in a new context that takes it over from the lexicon that found it. *)
Definition plain (e : event L A) : Prop :=
  match e_target e with None => True | Some t => l_consumes consume t = false end.

Lemma f_get_fresh : @f_get L f_init = (None, f_init).
Proof. reflexivity. Qed.

(** A factory whose last lexicon consumes gives such a target. *)
Lemma add_consumes f (t : target L) : l_consumes consume t = true ->
  exists u, fst (f_get (f_add f (Some t))) = Some u /\ l_consumes consume u = true.
Proof.
  unfold l_consumes. intros H. destruct (last_opt (t_push t)) as [l|] eqn:El; [|discriminate].
  apply last_opt_some in El as (ls & El).
  assert (Hp : exists k, f_push (f_add f (Some t)) = k ++ [l]).
  { unfold f_add. rewrite El. destruct (t_pop t =? 0); [cbn [f_push]; exists (f_push f ++ ls); rewrite app_assoc; reflexivity|].
    destruct (t_pop t <=? length (f_push f)); cbn [f_push]; [|exists ls; reflexivity].
    exists (drop_last (t_pop t) (f_push f) ++ ls). rewrite app_assoc. reflexivity. }
  destruct Hp as (k & Hp). unfold f_get. rewrite Hp, app_length. cbn [length].
  replace (length k + 1 =? 0) with false by lia. rewrite orb_true_r. cbn [fst]. eexists. split; [reflexivity|].
  cbn [t_push]. rewrite last_opt_app. exact H.
Qed.

Lemma restart_event text n : forall st s pre e post fin,
  stack_inv L st s -> circ_inv text s ->
  all text n s = Some (pre ++ e :: post, fin) -> plain e ->
  match e_lexemes e with [] => False | x :: _ =>
    x_pos x <= length text /\
    all text n (l_init (replay st (pre ++ [e])) (x_pos x)) = Some (Event None (e_lexemes e) :: post, fin) end.
Proof.
  induction n as [|n IH]; intros st s pre e post fin Hi Hc H Hpl; [discriminate|]. cbn [l_all] in H.
  destruct (step text s) as [[evs s']|] eqn:Es; [|injection H as H _; destruct pre; discriminate].
  destruct (all text n s') as [[r f]|] eqn:Er; [|discriminate].
  injection H as H Hf. subst f.
  pose proof (step_stack L A consume parse _ _ _ _ _ Hi Es) as Hst. pose proof (circ_step _ _ _ _ Hc Es) as Hc'.
  destruct Hst as [[-> Hi']|(x & -> & Hx & Hn & Hi')].
  - cbn [map app] in H. subst r. specialize (IH _ _ _ _ _ _ Hi' Hc' Er Hpl).
    destruct (e_lexemes e) as [|y ys]; [exact IH|]. destruct IH as [IH1 IH2]. split; [exact IH1|].
    eapply all_mono; [|exact IH2]. lia.
  - cbn [map app] in H. destruct pre as [|p pre].
    + (* the event itself *)
      cbn [app] in H. injection H as Hx1 ->. cbn [app].
      assert (Est : replay st [e] = snd x) by (destruct Hx as [Hx _]; rewrite Hx, Hx1; reflexivity).
      rewrite Est. clear IH.
      destruct Hc as [Hp Hc]. unfold l_step in Es. destruct (last_opt (s_lex s)) as [l|] eqn:El; [|discriminate].
      destruct (parse l text (s_pos s) (s_idx s)) as [it|] eqn:Eit; [|discriminate].
      pose proof (parse_low _ _ _ _ _ Hp Eit) as Hlo. pose proof (parse_high _ _ _ _ _ Hp Eit) as Hhi. unfold i_end in Hhi.
      assert (Hres : i_txt it <> [] -> forall j, parse l text (i_pos it) j = parse l text (s_pos s) (s_idx s + j))
        by (intros Hne j; apply (lp_resume HL); assumption).
      assert (Hemit : forall f lex ev f', l_emit f it lex = (ev, f') -> ev = [x] ->
                exists y ys, i_lexemes it = y :: ys /\ e_lexemes e = y :: ys /\ x_pos y = i_pos it /\ snd x = lex
                /\ e_target e = fst (f_get f) /\ f' = f_init).
      { intros f lex ev f' He Hev. unfold l_emit in He. destruct (i_lexemes it) as [|y ys] eqn:Ely; [injection He as <- _; discriminate|].
        exists y, ys. destruct (f_get f) as [tg f2] eqn:Eg. injection He as <- <-. injection Hev as <-. cbn [fst snd] in *.
        rewrite <- Hx1. cbn [e_lexemes e_target]. split; [reflexivity|]. split; [reflexivity|].
        split; [apply (lp_starts HL l text (s_pos s) (s_idx s) it y ys Hp Eit Ely)|]. split; [reflexivity|].
        split; [reflexivity|]. pose proof (f_get_snd L f) as Hs. rewrite Eg in Hs. exact Hs. }
      destruct (i_target it) as [t0|] eqn:Etg.
      * destruct (i_txt it) as [|c txt] eqn:Etx; [destruct (l_circle _ _ _ _ _); discriminate|].
        destruct (l_consumes consume (l_clip (length (s_lex s)) t0)) eqn:Econ.
        -- exfalso. destruct (l_emit (f_add _ _) it _) as [ev f'] eqn:Ee. injection Es as Ev _.
           destruct (Hemit _ _ _ _ Ee Ev) as (y & ys & _ & _ & _ & _ & Et & _).
           destruct (add_consumes (s_fac s) _ Econ) as (u & Eu & Hu). unfold plain in Hpl. rewrite Et, Eu in Hpl. congruence.
        -- destruct (l_emit (s_fac s) it (s_lex s)) as [ev f'] eqn:Ee. injection Es as Ev Es'.
           destruct (Hemit _ _ _ _ Ee Ev) as (y & ys & Ely & Ele & Ey & Elex & Et & ->). rewrite Ele, Ey. split; [lia|].
           cbn [l_all]. unfold l_step. cbn [l_init s_lex s_pos s_idx s_fac s_circ]. rewrite Elex, El.
           rewrite (Hres ltac:(discriminate) 0), Nat.add_0_r, Eit, Etg, Etx, Econ.
           unfold l_emit. rewrite Ely, f_get_fresh. cbn iota beta. cbn [length]. rewrite Es'. rewrite Er. cbn [map app fst]. reflexivity.
      * destruct (i_txt it) as [|c txt] eqn:Etx; [discriminate|].
        destruct (l_emit (s_fac s) it (s_lex s)) as [ev f'] eqn:Ee. injection Es as Ev Es'.
        destruct (Hemit _ _ _ _ Ee Ev) as (y & ys & Ely & Ele & Ey & Elex & Et & ->). rewrite Ele, Ey. split; [lia|].
        cbn [l_all]. unfold l_step. cbn [l_init s_lex s_pos s_idx s_fac s_circ]. rewrite Elex, El.
        rewrite (Hres ltac:(discriminate) 0), Nat.add_0_r, Eit, Etg, Etx.
        unfold l_emit. rewrite Ely, f_get_fresh. cbn iota beta.
        assert (Hsim : sim text (S (i_pos it)) s' (LState (s_lex s) f_init [] (i_pos it) 1)).
        { rewrite <- Es'. unfold sim. cbn [s_lex s_pos s_idx s_fac s_circ]. repeat (split; [solve [reflexivity | lia]|]). split; [|split].
          - intros l' j E. assert (l' = l) by congruence. subst l'. rewrite !Nat.add_succ_comm. rewrite Nat.add_0_l. symmetry. apply Hres. discriminate.
          - intros l' j it' E E'. assert (l' = l) by congruence. subst l'.
            destruct (lp_pieces HL l text (s_pos s) Hp) as (P1 & P2 & P3).
            assert (Hmon : forall j it', parse l text (s_pos s) (S (s_idx s) + j) = Some it' -> S (i_pos it) <= i_pos it').
            { clear j it' E E'. induction j as [|j IHj]; intros it' E'.
              - rewrite Nat.add_0_r in E'. pose proof (P3 _ _ _ Eit E') as Hm. rewrite Etx in Hm. cbn [length] in Hm. lia.
              - destruct (parse l text (s_pos s) (S (s_idx s) + j)) as [it2|] eqn:E2.
                + specialize (IHj _ eq_refl). rewrite Nat.add_succ_r in E'. pose proof (P3 _ _ _ E2 E') as Hm. lia.
                + apply P1 in E2. rewrite Nat.add_succ_r in E'. congruence. }
            exact (Hmon j it' E').
          - intros tr Htr. cbn [existsb]. apply not_true_is_false. intros Hex. apply existsb_exists in Hex as (tr' & Hin & Heq).
            specialize (Hc _ Hin). unfold triple_eqb in Heq. lia. }
        rewrite <- (sim_all _ _ _ _ _ Hsim), Er. cbn [map app fst]. reflexivity.
    + cbn [app] in H. injection H as Hx1 ->.
      specialize (IH _ _ _ _ _ _ Hi' Hc' Er Hpl). 
      replace (replay st ((p :: pre) ++ [e])) with (replay (snd x) (pre ++ [e])).
      2:{ destruct Hx as [Hx _]. rewrite Hx, Hx1. reflexivity. }
      destruct (e_lexemes e) as [|y ys]; [exact IH|]. destruct IH as [IH1 IH2]. split; [exact IH1|].
      eapply all_mono; [|exact IH2]. lia.
Qed.

(** ** Only the text from the position on matters *)

Definition shift_circ (d : Z) (tr : nat * nat * nat) : nat * nat * nat := (move_pos d (fst3 tr), snd3 tr, thd3 tr).

Lemma skipn_further (a b : str) q q' k : skipn q a = skipn q' b -> skipn (q + k) a = skipn (q' + k) b.
Proof. intros H. rewrite <- (skipn_skipn a k q), <- (skipn_skipn b k q'). congruence. Qed.

Lemma suffix_step text text' q q' s : q <= length text -> q' <= length text' -> skipn q text = skipn q' text' ->
  forall d : Z, d = (Z.of_nat q' - Z.of_nat q)%Z ->
  q <= s_pos s <= length text -> Forall (fun tr => q <= fst3 tr) (s_circ s) ->
  match step text s with
  | None => step text' (LState (s_lex s) (s_fac s) (map (shift_circ d) (s_circ s)) (move_pos d (s_pos s)) (s_idx s)) = None
  | Some (evs, s') => exists evs', map fst evs' = map (shift_event d) (map fst evs) /\
      (step text' (LState (s_lex s) (s_fac s) (map (shift_circ d) (s_circ s)) (move_pos d (s_pos s)) (s_idx s)))
        = Some (evs', LState (s_lex s') (s_fac s') (map (shift_circ d) (s_circ s')) (move_pos d (s_pos s')) (s_idx s'))
      /\ q <= s_pos s' <= length text /\ Forall (fun tr => q <= fst3 tr) (s_circ s')
  end.
Proof.
  intros Hq Hq' Hsk d Hd Hp Hc.
  assert (Hlen : length text - q = length text' - q') by (apply (f_equal (@length nat)) in Hsk; rewrite !skipn_length in Hsk; exact Hsk).
  unfold l_step. cbn [s_lex s_fac s_circ s_pos s_idx].
  destruct (last_opt (s_lex s)) as [l|]; [|reflexivity].
  assert (Hpar : parse l text' (move_pos d (s_pos s)) (s_idx s) = option_map (shift_item d) (parse l text (s_pos s) (s_idx s))).
  { rewrite (lp_suffix HL l text text' (s_pos s) (move_pos d (s_pos s)) (s_idx s)).
    - f_equal. f_equal. unfold move_pos; try subst d. lia.
    - lia.
    - unfold move_pos; try subst d. lia.
    - replace (s_pos s) with (q + (s_pos s - q)) at 1 by lia.
      replace (move_pos d (s_pos s)) with (q' + (s_pos s - q)) by (unfold move_pos; try subst d; lia). apply skipn_further, Hsk. }
  rewrite Hpar. destruct (parse l text (s_pos s) (s_idx s)) as [it|] eqn:Eit; [|reflexivity]. cbn [option_map shift_item i_target i_txt i_pos].
  pose proof (parse_low _ _ _ _ _ (proj2 Hp) Eit) as Hlo. pose proof (parse_high _ _ _ _ _ (proj2 Hp) Eit) as Hhi. unfold i_end in Hhi.
  assert (Hem : forall f lex, map fst (fst (l_emit f (shift_item d it) lex)) = map (shift_event d) (map fst (fst (l_emit f it lex)))
                       /\ snd (l_emit f (shift_item d it) lex) = snd (l_emit f it lex)).
  { intros f lex. unfold l_emit. cbn [shift_item i_lexemes]. destruct (i_lexemes it) as [|y ys]; [split; reflexivity|].
    cbn [map]. destruct (f_get f) as [t f']. split; reflexivity. }
  destruct (i_target it) as [t0|].
  - destruct (i_txt it) as [|c txt] eqn:Etx.
    + set (t := l_clip (length (s_lex s)) t0). set (k := length (drop_last (t_pop t) (s_lex s))).
      assert (Hex : existsb (triple_eqb (move_pos d (i_pos it), k, length (t_push t))) (map (shift_circ d) (s_circ s))
                    = existsb (triple_eqb (i_pos it, k, length (t_push t))) (s_circ s)).
      { revert Hc. generalize (s_circ s) as cs. induction cs as [|tr cs IH]; intros Hc; [reflexivity|].
        inversion Hc as [|? ? Hc1 Hc2]; subst. cbn [map existsb]. rewrite (IH Hc2). f_equal.
        unfold triple_eqb, shift_circ, fst3, snd3, thd3 in *. cbn [fst snd]. unfold move_pos; try subst d. f_equal. f_equal. lia. }
      unfold l_circle. rewrite Hex. destruct (existsb (triple_eqb (i_pos it, k, length (t_push t))) (s_circ s)).
      * cbv beta iota zeta. exists []. split; [reflexivity|]. cbn [s_lex s_fac s_circ s_pos s_idx map].
        assert (Hlt : (move_pos d (i_pos it) <? length text') = (i_pos it <? length text)).
        { unfold move_pos; try subst d. cbn [length] in Hhi. apply eq_true_iff_eq. rewrite !Nat.ltb_lt. lia. }
        rewrite Hlt. destruct (negb (length (t_push t) =? 0) && (i_pos it <? length text)) eqn:Eb.
        -- split; [|split; [lia|constructor]]. do 3 f_equal. unfold move_pos; try subst d. lia.
        -- split; [reflexivity|]. split; [cbn [length] in Hhi; lia|constructor].
      * exists []. split; [reflexivity|]. cbn [s_lex s_fac s_circ s_pos s_idx map].
        split; [reflexivity|]. split; [cbn [length] in Hhi; lia|]. constructor; [cbn; lia|exact Hc].
    + destruct (l_consumes consume _).
      * set (f := f_add _ _). set (lex := drop_last _ _ ++ _). destruct (Hem f lex) as [He1 He2].
        destruct (l_emit f it lex) as [ev f1]. destruct (l_emit f (shift_item d it) lex) as [ev' f2]. cbn [fst snd] in He1, He2. subst f2.
        exists ev'. split; [exact He1|]. cbn [s_lex s_fac s_circ s_pos s_idx map]. split; [|split; [cbn [length] in *; lia|constructor]].
        do 3 f_equal. unfold move_pos; try subst d. lia.
      * destruct (Hem (s_fac s) (s_lex s)) as [He1 He2].
        destruct (l_emit (s_fac s) it (s_lex s)) as [ev f1]. destruct (l_emit (s_fac s) (shift_item d it) (s_lex s)) as [ev' f2]. cbn [fst snd] in He1, He2. subst f2.
        exists ev'. split; [exact He1|]. cbn [s_lex s_fac s_circ s_pos s_idx map]. split; [|split; [cbn [length] in *; lia|constructor]].
        do 3 f_equal. unfold move_pos; try subst d. lia.
  - destruct (i_txt it) as [|c txt] eqn:Etx.
    + exists []. split; [reflexivity|]. cbn [s_lex s_fac s_circ s_pos s_idx]. split; [reflexivity|]. split; [lia|exact Hc].
    + destruct (Hem (s_fac s) (s_lex s)) as [He1 He2].
      destruct (l_emit (s_fac s) it (s_lex s)) as [ev f1]. destruct (l_emit (s_fac s) (shift_item d it) (s_lex s)) as [ev' f2]. cbn [fst snd] in He1, He2. subst f2.
      exists ev'. split; [exact He1|]. cbn [s_lex s_fac s_circ s_pos s_idx]. split; [reflexivity|]. split; [lia|exact Hc].
Qed.

Lemma suffix_all text text' q q' n : q <= length text -> q' <= length text' -> skipn q text = skipn q' text' ->
  forall d : Z, d = (Z.of_nat q' - Z.of_nat q)%Z -> forall s,
  q <= s_pos s <= length text -> Forall (fun tr => q <= fst3 tr) (s_circ s) ->
  all text' n (LState (s_lex s) (s_fac s) (map (shift_circ d) (s_circ s)) (move_pos d (s_pos s)) (s_idx s))
    = match all text n s with None => None | Some (es, fin) => Some (map (shift_event d) es, fin) end.
Proof.
  intros Hq Hq' Hsk d Hd. induction n as [|n IH]; intros s Hp Hc; [reflexivity|]. cbn [l_all].
  pose proof (suffix_step text text' q q' s Hq Hq' Hsk d Hd Hp Hc) as Hs.
  destruct (step text s) as [[evs s']|].
  - destruct Hs as (evs' & E1 & E2 & Hp' & Hc'). rewrite E2, (IH s' Hp' Hc'). destruct (all text n s') as [[r f]|]; [|reflexivity].
    rewrite E1, map_app. reflexivity.
  - rewrite Hs. reflexivity.
Qed.

Lemma suffix_events text text' q q' n lexs : q <= length text -> q' <= length text' -> skipn q text = skipn q' text' ->
  all text' n (l_init lexs q')
    = match all text n (l_init lexs q) with
      | None => None
      | Some (es, fin) => Some (map (shift_event (Z.of_nat q' - Z.of_nat q)) es, fin)
      end.
Proof.
  intros Hq Hq' Hsk. rewrite <- (suffix_all text text' q q' n Hq Hq' Hsk _ eq_refl (l_init lexs q)); [|cbn; lia|constructor].
  cbn [l_init s_lex s_fac s_circ s_pos s_idx map]. unfold l_init. do 2 f_equal. unfold move_pos. lia.
Qed.

(** ** Events far enough before a change *)

Definition before_m (m : nat) (es : list (event L A)) : Prop := Forall (fun x => x_end x <= m) (all_lexemes es).

Lemma count_events text m : forall (es1 es2 : list (event L A)) b hi, pieces text b hi (all_lexemes (es1 ++ es2)) -> b <= m ->
  Forall (fun e => e_lexemes e <> []) es1 -> before_m m es1 -> b + length es1 <= m.
Proof.
  assert (Hend : forall (xs : list (lexeme A)) ys b hi, pieces text b hi (xs ++ ys) -> Forall (fun x => x_end x <= m) xs -> b <= m -> xs <> [] ->
            exists b', b < b' <= m /\ pieces text b' hi ys).
  { induction xs as [|x xs IH]; intros ys b hi Hp Hf Hb Hne; [congruence|]. cbn [app pieces] in Hp.
    destruct Hp as (P1 & P2 & P3 & P4 & P5 & P6). inversion Hf as [|? ? F1 F2]; subst.
    assert (b < x_end x) by (unfold x_end; destruct (x_text x); [congruence|cbn [length]; lia]).
    destruct xs as [|y xs]; [exists (x_end x); split; [lia|exact P6]|].
    destruct (IH ys (x_end x) hi P6 F2 ltac:(lia) ltac:(discriminate)) as (b' & H1 & H2). exists b'. split; [lia|exact H2]. }
  induction es1 as [|e es1 IH]; intros es2 b hi Hp Hb Hne Hm; [cbn; lia|].
  inversion Hne as [|? ? N1 N2]; subst. unfold before_m, all_lexemes in *. cbn [app map concat length] in *.
  apply Forall_app in Hm as [M1 M2]. destruct (Hend _ _ _ _ Hp M1 Hb N1) as (b' & H1 & H2).
  specialize (IH es2 b' hi H2 ltac:(lia) N2 M2). lia.
Qed.

Lemma step_item text b s evs s' : low_inv L A parse text b s -> step text s = Some (evs, s') ->
  exists l it, last_opt (s_lex s) = Some l /\ parse l text (s_pos s) (s_idx s) = Some it
    /\ low_inv L A parse text (i_end it) s' /\ length evs <= 1
    /\ (i_target it = None -> s_lex s' = s_lex s /\ s_pos s' = s_pos s /\ s_idx s' = S (s_idx s)).
Proof.
  intros (Hp & _ & _) Hs. unfold l_step in Hs. destruct (last_opt (s_lex s)) as [l|] eqn:El; [|discriminate].
  destruct (parse l text (s_pos s) (s_idx s)) as [it|] eqn:Eit; [|discriminate]. exists l, it. split; [reflexivity|]. split; [exact Eit|].
  pose proof (parse_low _ _ _ _ _ Hp Eit) as Hlo. pose proof (parse_high _ _ _ _ _ Hp Eit) as Hhi.
  assert (Hem : forall f lex, length (fst (l_emit f it lex)) <= 1).
  { intros f lex. unfold l_emit. destruct (i_lexemes it); [cbn; lia|]. destruct (f_get f). cbn. lia. }
  unfold low_inv, i_end in *. destruct (i_target it) as [t0|] eqn:Etg.
  - destruct (i_txt it) as [|c txt] eqn:Etx.
    + destruct (l_circle text (s_circ s) (i_pos it) _ _) as [p c1] eqn:Ec. injection Hs as <- <-.
      pose proof (circle_low text (s_circ s) (i_pos it) (length (drop_last (t_pop (l_clip (length (s_lex s)) t0)) (s_lex s)))
        (t_push (l_clip (length (s_lex s)) t0)) ltac:(cbn in Hhi; lia)) as Hl. rewrite Ec in Hl. cbn [fst] in Hl.
      cbn [s_pos s_idx length] in *. split; [lia|]. split; [lia|discriminate].
    + destruct (l_consumes consume _).
      * pose proof (Hem (f_add (s_fac s) (Some (l_clip (length (s_lex s)) t0))) (drop_last (t_pop (l_clip (length (s_lex s)) t0)) (s_lex s) ++ t_push (l_clip (length (s_lex s)) t0))) as He.
        destruct (l_emit _ it _) as [ev f']. injection Hs as <- <-. cbn [fst s_pos s_idx] in *. cbn [length] in *. split; [lia|]. split; [exact He|discriminate].
      * pose proof (Hem (s_fac s) (s_lex s)) as He. destruct (l_emit _ it _) as [ev f']. injection Hs as <- <-.
        cbn [fst s_pos s_idx] in *. cbn [length] in *. split; [lia|]. split; [exact He|discriminate].
  - assert (Hl : forall f, low_inv L A parse text (i_pos it + length (i_txt it)) (LState (s_lex s) f (s_circ s) (s_pos s) (S (s_idx s)))).
    { intros f. unfold low_inv. cbn [s_pos s_idx s_lex]. split; [lia|]. split; [lia|]. intros l' E. exists it. split; [congruence|lia]. }
    destruct (i_txt it) as [|c txt] eqn:Etx.
    + injection Hs as <- <-. split; [apply Hl|]. split; [cbn; lia|auto].
    + pose proof (Hem (s_fac s) (s_lex s)) as He. destruct (l_emit _ it _) as [ev f']. injection Hs as <- <-.
      split; [apply Hl|]. split; [exact He|auto].
Qed.

Lemma all_pieces text n b s es fin : low_inv L A parse text b s -> all text n s = Some (es, fin) -> pieces text b (length text) (all_lexemes es).
Proof.
  intros Hi H. destruct (all_run _ _ _ _ _ H) as (evs & Hr & <-). eapply run_pieces; [apply local_pieces|exact Hi|exact Hr].
Qed.

Lemma all_nonempty text n st s es fin : stack_inv L st s -> all text n s = Some (es, fin) -> Forall (fun e => e_lexemes e <> []) es.
Proof.
  intros Hi H. destruct (all_run _ _ _ _ _ H) as (evs & Hr & <-). apply Forall_forall. intros e He.
  apply in_map_iff in He as (x & <- & Hx). apply in_split in Hx as (a & b & ->).
  apply (proj1 (run_stack L A consume parse text n _ _ _ _ Hi Hr) a x b eq_refl).
Qed.

Lemma list_split_app {T} (a b c : list T) : length a <= 1 -> forall x d, a ++ b = c ++ x :: d ->
  (exists c', c = a ++ c' /\ b = c' ++ x :: d) \/ (c = [] /\ a = [x] /\ b = d).
Proof.
  intros Ha x d H. destruct a as [|y [|z a]]; [left; exists c; auto| |cbn in Ha; lia].
  destruct c as [|y' c]; cbn in H; injection H as -> H; [right; auto|]. left. exists c. auto.
Qed.

Lemma look_event text text' m : m <= length text -> m <= length text' -> firstn m text = firstn m text' -> K <= 9 ->
  forall n st b s pre e post1 post2 fin n' r' fin',
  stack_inv L st s -> low_inv L A parse text b s ->
  all text n s = Some (pre ++ e :: post1 ++ post2, fin) -> length post1 = 10 -> before_m m (pre ++ e :: post1) ->
  all text' n' s = Some (r', fin') -> exists post', r' = pre ++ e :: post'.
Proof.
  intros Hm Hm' Hag HK n. induction n as [|n IH]; intros st b s pre e post1 post2 fin n' r' fin' Hi Hlo H H10 Hbm H'; [discriminate|].
  cbn [l_all] in H. destruct (step text s) as [[evs s']|] eqn:Es; [|injection H as H _; destruct pre; discriminate].
  destruct (all text n s') as [[r f]|] eqn:Er; [|discriminate]. injection H as H Hf. subst f.
  destruct (step_item _ _ _ _ _ Hlo Es) as (l & it & El & Eit & Hlo' & Hev & Hnt).
  assert (Hi' : exists st', stack_inv L st' s').
  { destruct (step_stack L A consume parse _ _ _ _ _ Hi Es) as [[_ Hi']|(x & _ & _ & _ & Hi')]; eauto. }
  destruct Hi' as (st' & Hi').
  (* what comes after this step contains at least ten events *)
  assert (Hrest : exists r1 r2, r = r1 ++ r2 /\ 10 <= length r1 /\ before_m m r1).
  { destruct (list_split_app (map fst evs) r pre ltac:(rewrite map_length; exact Hev) e (post1 ++ post2) H) as [(c' & Ec & Er')|(Ec & Ea & Er')].
    - exists (c' ++ e :: post1), post2. rewrite Er'. split; [rewrite <- app_assoc; reflexivity|]. split; [rewrite app_length; cbn; lia|].
      unfold before_m in *. rewrite Ec, <- app_assoc, all_lexemes_app in Hbm. apply Forall_app in Hbm. apply Hbm.
    - exists post1, post2. split; [exact Er'|]. split; [lia|]. unfold before_m in *. rewrite Ec in Hbm. cbn [app] in Hbm.
      change (e :: post1) with ([e] ++ post1) in Hbm. rewrite all_lexemes_app in Hbm. apply Forall_app in Hbm. apply Hbm. }
  destruct Hrest as (r1 & r2 & Er1 & Hr1 & Hbr).
  assert (Hne : Forall (fun e => e_lexemes e <> []) r) by (eapply all_nonempty; [exact Hi'|exact Er]).
  assert (Hpc : pieces text (i_end it) (length text) (all_lexemes r)) by (eapply all_pieces; [exact Hlo'|exact Er]).
  assert (Hle : forall a c rr, pieces text a (length text) (all_lexemes (c ++ rr)) -> c <> [] -> Forall (fun e => e_lexemes e <> []) c -> before_m m c -> a <= m).
  { intros a c rr Hp Hcn Hc Hb. destruct c as [|e0 c]; [congruence|]. inversion Hc as [|? ? C1 C2]; subst.
    unfold before_m, all_lexemes in *. cbn [app map concat] in *. destruct (e_lexemes e0) as [|x xs]; [congruence|].
    cbn [app pieces] in *. destruct Hp as (P1 & _). inversion Hb as [|? ? B1 B2]; subst. unfold x_end in B1. lia. }
  assert (Hne1 : Forall (fun e => e_lexemes e <> []) r1) by (rewrite Er1 in Hne; apply Forall_app in Hne; apply Hne).
  assert (Hcnt : i_end it + 10 <= m).
  { rewrite Er1 in Hpc. assert (i_end it <= m) by (eapply Hle; [exact Hpc|destruct r1; [cbn in Hr1; lia|discriminate]|exact Hne1|exact Hbr]).
    pose proof (count_events text m r1 r2 _ _ Hpc ltac:(lia) Hne1 Hbr). lia. }
  assert (Hsp : s_pos s <= length text) by (destruct Hlo as (Hlo1 & _); exact Hlo1).
  assert (Hilow : s_pos s <= i_pos it) by (eapply parse_low; [exact Hsp|exact Eit]).
  assert (Epar : parse l text' (s_pos s) (s_idx s) = Some it).
  { apply (lp_look HL l text text' (s_pos s) (s_idx s) it m); [unfold i_end in Hcnt; lia|exact Hm'|exact Hag|exact Eit|].
    destruct (i_target it) as [t0|] eqn:Etg; [left; split; [discriminate|lia]|]. right.
    destruct (Hnt eq_refl) as (E1 & E2 & E3).
    destruct n as [|n]; [discriminate|]. cbn [l_all] in Er. destruct (step text s') as [[evs2 s2]|] eqn:Es2.
    - destruct (step_item _ _ _ _ _ Hlo' Es2) as (l2 & it2 & El2 & Eit2 & Hlo2 & Hev2 & _).
      rewrite E1 in El2. assert (l2 = l) by congruence. subst l2. rewrite E2, E3 in Eit2. exists it2. split; [exact Eit2|].
      destruct (all text n s2) as [[rr ff]|] eqn:Err; [|discriminate]. injection Er as Er _.
      assert (Hpc2 : pieces text (i_end it2) (length text) (all_lexemes rr)) by (eapply all_pieces; [exact Hlo2|exact Err]).
      assert (Hs2 : exists c, rr = c ++ r2 /\ 9 <= length c /\ Forall (fun e => e_lexemes e <> []) c /\ before_m m c).
      { rewrite Er1 in Er. destruct (map fst evs2) as [|x [|y l0]] eqn:Em.
        - exists r1. cbn [app] in Er. split; [exact Er|]. split; [lia|]. split; [exact Hne1|exact Hbr].
        - destruct r1 as [|x1 r1]; [cbn in Hr1; lia|]. cbn [app] in Er. injection Er as -> Er. exists r1. split; [exact Er|].
          cbn [length] in Hr1. split; [lia|]. inversion Hne1; subst. split; [assumption|].
          unfold before_m, all_lexemes in *. cbn [map concat] in Hbr. apply Forall_app in Hbr. apply Hbr.
        - apply (f_equal (@length _)) in Em. rewrite map_length in Em. cbn in Em. unfold seen in *. lia. }
      destruct Hs2 as (c & Ec & Hc9 & Hcn & Hcb). rewrite Ec in Hpc2.
      assert (i_end it2 <= m) by (eapply Hle; [exact Hpc2|destruct c; [cbn in Hc9; lia|discriminate]|exact Hcn|exact Hcb]).
      pose proof (count_events text m c r2 _ _ Hpc2 ltac:(lia) Hcn Hcb). lia.
    - injection Er as Er _. rewrite Er1 in Er. destruct r1; [cbn in Hr1; lia|discriminate]. }
  assert (Es' : step text' s = Some (evs, s')).
  { rewrite <- Es. unfold l_step. rewrite El, Eit, Epar. destruct (i_target it) as [t0|]; [|reflexivity].
    destruct (i_txt it) as [|c txt]; [|reflexivity]. unfold l_circle.
    replace (i_pos it <? length text') with (i_pos it <? length text); [reflexivity|].
    unfold i_end in Hcnt. apply eq_true_iff_eq. rewrite !Nat.ltb_lt. lia. }
  destruct n' as [|n']; [discriminate|]. cbn [l_all] in H'. rewrite Es' in H'.
  destruct (all text' n' s') as [[rr ff]|] eqn:Err; [|discriminate]. injection H' as <- <-.
  destruct (list_split_app (map fst evs) r pre ltac:(rewrite map_length; exact Hev) e (post1 ++ post2) H) as [(c' & Ec & Er')|(Ec & Ea & Er')].
  - rewrite Er' in Er. rewrite Ec. rewrite Ec, <- app_assoc in Hbm. unfold before_m in Hbm. rewrite all_lexemes_app in Hbm. apply Forall_app in Hbm as [_ Hbm].
    destruct (IH _ _ _ _ _ _ _ _ _ _ _ Hi' Hlo' Er H10 Hbm Err) as (post' & ->). exists post'. rewrite <- app_assoc. reflexivity.
  - exists rr. rewrite Ec, Ea. reflexivity.
Qed.

End Proofs.
