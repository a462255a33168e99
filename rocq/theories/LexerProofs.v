From Verif Require Import Base BaseFacts TargetModel TargetSpec TargetProofs LexerModel LexerSpec.

Local Arguments f_add : simpl never.
Local Arguments l_clip : simpl never.
Local Arguments f_init : simpl never.

Section Proofs.
Variables L A : Type.
Variable consume : L -> bool.
Variable parse : L -> str -> nat -> gen (item L A).
Local Notation step := (l_step consume parse).
Local Notation run := (l_run consume parse).

(** ** The stack of lexicons *)

(** [st] is the stack reached by replaying the events yielded so far. *)
Definition stack_inv (st : list L) (s : lstate L) : Prop :=
  s_lex s = f_sem L (s_fac s) st /\ f_pop (s_fac s) < length st.

Lemma stack_inv_nonempty st s : stack_inv st s -> s_lex s <> [].
Proof.
  intros [E H] C. rewrite C in E. unfold f_sem in E.
  symmetry in E. apply app_eq_nil in E as [E _].
  apply (f_equal (@length L)) in E. rewrite drop_last_length in E. simpl in E. lia.
Qed.

Lemma f_add_pop_bound st f t :
  f_pop f < length st -> t_pop t < length (f_sem L f st) -> f_pop (f_add f (Some t)) < length st.
Proof.
  intros H1 H2. unfold f_add. unfold f_sem in H2. rewrite app_length, drop_last_length in H2.
  destruct (t_pop t =? 0); [exact H1|].
  destruct (Nat.leb_spec (t_pop t) (length (f_push f))); simpl; lia.
Qed.

Lemma l_clip_bound n (t : target L) : 0 < n -> t_pop (l_clip n t) < n.
Proof.
  intros H. unfold l_clip. destruct (Nat.eqb_spec (t_pop t) 0); simpl; [lia|].
  destruct (Nat.leb_spec n (t_pop t)); simpl; lia.
Qed.

Definition seen_ok (st : list L) (x : seen L A) : Prop :=
  snd x = follow st (e_target (fst x)) /\ keeps_root st (e_target (fst x)) /\ e_lexemes (fst x) <> [].

Lemma get_follow (f : factory L) st : follow st (fst (f_get f)) = f_sem L f st.
Proof. apply f_get_follow. Qed.

Lemma get_keeps (f : factory L) st : f_pop f < length st -> keeps_root st (fst (f_get f)).
Proof.
  intros H. unfold f_get. destruct (_ || _); simpl; [exact H|exact I].
Qed.

Lemma l_emit_spec st f (it : item L A) lex evs f' :
  lex = f_sem L f st -> f_pop f < length st -> lex <> [] ->
  l_emit f it lex = (evs, f') ->
  (evs = [] /\ f' = f /\ i_lexemes it = []) \/
  (exists x, evs = [x] /\ seen_ok st x /\ e_lexemes (fst x) = i_lexemes it /\ f' = f_init
             /\ snd x = lex).
Proof.
  intros Hl Hp Hn. unfold l_emit. destruct (i_lexemes it) as [|y ys] eqn:El.
  - intros [= <- <-]. left; auto.
  - destruct (f_get f) as [t f2] eqn:G. intros [= <- <-]. right.
    exists (Event t (y :: ys), lex). split; [reflexivity|].
    assert (Ht : t = fst (f_get f)) by (rewrite G; reflexivity).
    assert (Hf : f2 = snd (f_get f)) by (rewrite G; reflexivity).
    unfold seen_ok. simpl. rewrite Ht, Hf, get_follow, f_get_snd. repeat split; auto.
    + apply get_keeps; exact Hp.
    + discriminate.
Qed.

Lemma stack_inv_init_fac st s lexs : lexs <> [] -> st = lexs ->
  s = LState lexs f_init (s_circ s) (s_pos s) (s_idx s) -> stack_inv st s.
Proof.
  intros H -> ->. split; simpl.
  - rewrite f_sem_init. reflexivity.
  - destruct lexs; [congruence|simpl; lia].
Qed.

(** One step: at most one event is yielded; the stack of the event is the replayed stack. *)
Lemma step_stack st s text evs s' :
  stack_inv st s -> step text s = Some (evs, s') ->
  (evs = [] /\ stack_inv st s') \/
  (exists x, evs = [x] /\ seen_ok st x /\ snd x <> [] /\ stack_inv (snd x) s').
Proof.
  intros Hinv Hs. pose proof (stack_inv_nonempty _ _ Hinv) as Hne.
  destruct Hinv as [Hlex Hpop].
  assert (Hlen : 0 < length (s_lex s)) by (destruct (s_lex s); [congruence|simpl; lia]).
  unfold l_step in Hs. destruct (last_opt (s_lex s)) as [l|]; [|discriminate].
  destruct (parse l text (s_pos s) (s_idx s)) as [it|]; [|discriminate].
  destruct (i_target it) as [t0|].
  - remember (l_clip (length (s_lex s)) t0) as t eqn:Ht.
    assert (Hb : t_pop t < length (s_lex s)) by (subst t; apply l_clip_bound; exact Hlen).
    remember (drop_last (t_pop t) (s_lex s)) as lex1 eqn:E1.
    assert (H2 : lex1 ++ t_push t = f_sem L (f_add (s_fac s) (Some t)) st).
    { rewrite f_sem_add, <- Hlex, E1. reflexivity. }
    assert (Hp2 : f_pop (f_add (s_fac s) (Some t)) < length st).
    { apply f_add_pop_bound; [exact Hpop|rewrite <- Hlex; exact Hb]. }
    assert (Hn2 : lex1 ++ t_push t <> []).
    { intros C. apply app_eq_nil in C as [C _]. apply (f_equal (@length L)) in C.
      rewrite E1, drop_last_length in C. simpl in C. lia. }
    destruct (i_txt it) as [|c txt].
    + destruct (l_circle text (s_circ s) (i_pos it) (length lex1) (t_push t)) as [pos circ].
      injection Hs as <- <-. left. split; [reflexivity|]. split; simpl; assumption.
    + destruct (l_consumes consume t).
      * destruct (l_emit (f_add (s_fac s) (Some t)) it (lex1 ++ t_push t)) as [ev f'] eqn:Ee.
        injection Hs as <- <-.
        destruct (l_emit_spec st _ _ _ _ _ H2 Hp2 Hn2 Ee) as [[-> [-> _]]|[x [-> [Hx [_ [-> Hsx]]]]]].
        -- left. split; [reflexivity|]. split; simpl; assumption.
        -- right. exists x. split; [reflexivity|]. split; [exact Hx|].
           rewrite Hsx. split; [exact Hn2|]. split; simpl.
           ++ rewrite f_sem_init. reflexivity.
           ++ destruct (lex1 ++ t_push t); [congruence|simpl; lia].
      * destruct (l_emit (s_fac s) it (s_lex s)) as [ev f'] eqn:Ee.
        injection Hs as <- <-.
        destruct (l_emit_spec st _ _ _ _ _ Hlex Hpop Hne Ee) as [[-> [-> _]]|[x [-> [Hx [_ [-> Hsx]]]]]].
        -- left. split; [reflexivity|]. split; simpl; assumption.
        -- right. exists x. split; [reflexivity|]. split; [exact Hx|].
           rewrite Hsx. split; [exact Hne|]. split; cbn [s_lex s_fac].
           ++ rewrite f_sem_add, f_sem_init, E1. reflexivity.
           ++ apply f_add_pop_bound; [exact Hlen|]. rewrite f_sem_init. exact Hb.
  - destruct (i_txt it) as [|c txt].
    + injection Hs as <- <-. left. split; [reflexivity|]. split; assumption.
    + destruct (l_emit (s_fac s) it (s_lex s)) as [ev f'] eqn:Ee.
      injection Hs as <- <-.
      destruct (l_emit_spec st _ _ _ _ _ Hlex Hpop Hne Ee) as [[-> [-> _]]|[x [-> [Hx [_ [-> Hsx]]]]]].
      * left. split; [reflexivity|]. split; assumption.
      * right. exists x. split; [reflexivity|]. split; [exact Hx|].
        rewrite Hsx. split; [exact Hne|]. split; simpl.
        -- rewrite f_sem_init. reflexivity.
        -- exact Hlen.
Qed.

(** Every event of a stream, with the events before it. *)
Lemma run_stack text n : forall st s evs r,
  stack_inv st s -> run text n s = (evs, r) ->
  (forall before x after, evs = before ++ x :: after ->
     seen_ok (replay st (map fst before)) x)
  /\ (forall s', r = Some s' -> stack_inv (replay st (map fst evs)) s').
Proof.
  induction n as [|n IH]; intros st s evs r Hinv Hr; simpl in Hr.
  - injection Hr as <- <-. split.
    + intros before x after E. destruct before; discriminate.
    + intros s' [= <-]. exact Hinv.
  - destruct (step text s) as [[ev s']|] eqn:Es.
    + destruct (run text n s') as [ev' r'] eqn:Er. injection Hr as <- <-.
      destruct (step_stack _ _ _ _ _ Hinv Es) as [[-> Hinv']|[x [-> [Hx [Hnx Hinv']]]]].
      * simpl. exact (IH _ _ _ _ Hinv' Er).
      * destruct (IH _ _ _ _ Hinv' Er) as [H1 H2]. simpl.
        assert (Ex : snd x = follow st (e_target (fst x))) by apply Hx.
        split.
        -- intros before y after E. destruct before as [|b before]; simpl in E.
           ++ injection E as <- _. exact Hx.
           ++ injection E as <- E. simpl. unfold replay in *. simpl. rewrite <- Ex. eapply H1, E.
        -- unfold replay in *; simpl. rewrite <- Ex. exact H2.
    + injection Hr as <- <-. split.
      * intros before x after E. destruct before; discriminate.
      * intros s' [=].
Qed.

Lemma stack_inv_start lexs pos : lexs <> [] -> stack_inv lexs (l_init lexs pos).
Proof.
  intros H; split; simpl; [rewrite f_sem_init; reflexivity|].
  destruct lexs; [congruence|simpl; lia].
Qed.

Lemma replay_app (st : list L) (a b : list (event L A)) : replay st (a ++ b) = replay (replay st a) b.
Proof. unfold replay. apply fold_left_app. Qed.

(** The state after [n] steps: the lexicons are never empty. *)
Lemma run_lex_nonempty text n lexs pos evs s' :
  lexs <> [] -> run text n (l_init lexs pos) = (evs, Some s') -> s_lex s' <> [].
Proof.
  intros H Hr. apply (stack_inv_nonempty (replay lexs (map fst evs))).
  exact (proj2 (run_stack text n _ _ _ _ (stack_inv_start lexs pos H) Hr) _ eq_refl).
Qed.

Lemma seen_ok_hd st x : st <> [] -> seen_ok st x -> hd_error (snd x) = hd_error st /\ snd x <> [].
Proof.
  intros Hn [E [K _]]. rewrite E. destruct (e_target (fst x)) as [t|]; simpl in *; [|auto].
  destruct st as [|r st]; [congruence|].
  unfold drop_last. simpl length in *.
  replace (S (length st) - t_pop t) with (S (length st - t_pop t)) by lia.
  simpl. split; [reflexivity|discriminate].
Qed.

Lemma replay_hd text n lexs pos evs r : lexs <> [] ->
  run text n (l_init lexs pos) = (evs, r) ->
  forall before after, evs = before ++ after ->
  replay lexs (map fst before) <> [] /\ hd_error (replay lexs (map fst before)) = hd_error lexs.
Proof.
  intros Hl Hr before. induction before as [|x before IH] using rev_ind; intros after E.
  - simpl. auto.
  - rewrite <- app_assoc in E. simpl in E.
    destruct (IH _ E) as [Hn Hh].
    destruct (proj1 (run_stack text n _ _ _ _ (stack_inv_start lexs pos Hl) Hr) _ _ _ E) as [E1 E2].
    destruct (seen_ok_hd _ _ Hn (conj E1 E2)) as [H1 H2].
    assert (E3 : replay lexs (map fst (before ++ [x])) = snd x).
    { rewrite map_app, replay_app, E1. reflexivity. }
    rewrite E3. split; [exact H2|]. rewrite H1. exact Hh.
Qed.

(** ** Positions of the lexemes *)

Lemma pieces_weaken text : forall (xs : list (lexeme A)) lo lo' hi,
  lo' <= lo -> pieces text lo hi xs -> pieces text lo' hi xs.
Proof.
  intros [|x xs] lo lo' hi H; simpl; intros P; [lia|].
  destruct P as [P1 P2]. split; [lia|exact P2].
Qed.

Lemma pieces_hi text : forall (xs : list (lexeme A)) lo hi hi',
  hi <= hi' -> pieces text lo hi xs -> pieces text lo hi' xs.
Proof.
  induction xs as [|x xs IH]; intros lo hi hi' H; simpl; [lia|].
  intros (P1 & P2 & P3 & P4 & P5 & P6).
  repeat split; auto; try lia. eapply IH; [|exact P6]; lia.
Qed.

Lemma pieces_app text : forall (xs ys : list (lexeme A)) lo mid hi,
  mid <= hi ->
  pieces text lo mid xs -> pieces text mid hi ys -> pieces text lo hi (xs ++ ys).
Proof.
  induction xs as [|x xs IH]; intros ys lo mid hi Hm; simpl.
  - intros H1 H2. eapply pieces_weaken; eassumption.
  - intros (P1 & P2 & P3 & P4 & P5 & P6) H2.
    repeat split; auto; try lia. eapply IH; eassumption.
Qed.

Lemma pieces_bound text : forall (xs : list (lexeme A)) lo hi, pieces text lo hi xs -> lo <= hi.
Proof.
  induction xs as [|x xs IH]; intros lo hi; simpl; [auto|].
  intros (P1 & P2 & P3 & P4 & P5 & P6). apply IH in P6. unfold x_end in *. lia.
Qed.

Definition parse_pieces text : Prop := forall l pos, pos <= length text -> gen_pieces text pos (parse l text pos).

(** [b] is a position such that everything yielded from now on comes at or after [b]. *)
Definition low_inv text (b : nat) (s : lstate L) : Prop :=
  s_pos s <= length text /\ b <= length text /\
  match s_idx s with
  | 0 => b <= s_pos s
  | S k => forall l, last_opt (s_lex s) = Some l ->
           exists it, parse l text (s_pos s) k = Some it /\ b <= i_pos it + length (i_txt it)
  end.

Lemma l_emit_lexemes f (it : item L A) lex evs f' :
  l_emit f it lex = (evs, f') -> all_lexemes (map fst evs) = i_lexemes it.
Proof.
  unfold l_emit. destruct (i_lexemes it) as [|x xs] eqn:E.
  - intros [= <- <-]. reflexivity.
  - destruct (f_get f) as [t f2]. intros [= <- <-]. unfold all_lexemes; simpl.
    rewrite app_nil_r. reflexivity.
Qed.

Lemma low_inv_item text b s l it : parse_pieces text ->
  low_inv text b s -> last_opt (s_lex s) = Some l ->
  parse l text (s_pos s) (s_idx s) = Some it ->
  b <= i_pos it.
Proof.
  intros HP (H1 & H2 & H3) Hl Hit. destruct (HP l (s_pos s) H1) as (_ & P2 & P3).
  destruct (s_idx s) as [|k].
  - destruct (P2 _ _ Hit) as [P _]. lia.
  - destruct (H3 l Hl) as (it0 & E0 & Hb). specialize (P3 _ _ _ E0 Hit). lia.
Qed.

Lemma step_pieces text b s evs s' : parse_pieces text ->
  low_inv text b s -> step text s = Some (evs, s') ->
  exists b', low_inv text b' s' /\ b <= b' /\ pieces text b b' (all_lexemes (map fst evs)).
Proof.
  intros HP Hinv Hs. unfold l_step in Hs.
  destruct (last_opt (s_lex s)) as [l|] eqn:El; [|discriminate].
  destruct (parse l text (s_pos s) (s_idx s)) as [it|] eqn:Eit; [|discriminate].
  pose proof (low_inv_item _ _ _ _ _ HP Hinv El Eit) as Hb.
  destruct Hinv as (H1 & H2 & H3).
  destruct (HP l (s_pos s) H1) as (_ & P2 & P3).
  destruct (P2 _ _ Eit) as (Q1 & Q2 & Q3 & Q4).
  destruct (i_target it) as [t0|].
  - destruct (i_txt it) as [|c txt] eqn:Et.
    + destruct (l_circle text (s_circ s) (i_pos it) _ _) as [pos circ] eqn:Ec.
      injection Hs as <- <-. exists b.
      assert (i_pos it <= pos <= length text).
      { unfold l_circle in Ec. simpl in Q3. destruct (existsb _ _); injection Ec as <- _; [|lia].
        destruct (_ && _) eqn:Ex; [|lia]. apply andb_prop in Ex as [_ Ex].
        apply Nat.ltb_lt in Ex. lia. }
      repeat split; simpl; try lia.
    + assert (Hev : all_lexemes (map fst evs) = i_lexemes it /\
        s_pos s' = i_pos it + length (c :: txt) /\ s_idx s' = 0).
      { destruct (l_consumes consume _).
        - destruct (l_emit (f_add _ _) it _) as [ev f'] eqn:Ee. injection Hs as <- <-.
          split; [eapply l_emit_lexemes; exact Ee|auto].
        - destruct (l_emit (s_fac s) it _) as [ev f'] eqn:Ee. injection Hs as <- <-.
          split; [eapply l_emit_lexemes; exact Ee|auto]. }
      destruct Hev as (Hev & Hp & Hi). clear Hs.
      exists (i_pos it + length (c :: txt)). unfold low_inv. rewrite Hi, Hp, Hev.
      repeat split; try lia. eapply pieces_weaken; eassumption.
  - destruct (i_txt it) as [|c txt] eqn:Et.
    + injection Hs as <- <-. exists b. unfold low_inv; simpl. repeat split; try lia.
      intros l' El'. rewrite El in El'. injection El' as <-. exists it. split; [exact Eit|].
      rewrite Et; simpl. lia.
    + destruct (l_emit (s_fac s) it _) as [ev f'] eqn:Ee. injection Hs as <- <-.
      exists (i_pos it + length (c :: txt)). rewrite (l_emit_lexemes _ _ _ _ _ Ee).
      unfold low_inv; cbn [s_pos s_idx s_lex]. repeat split; try lia.
      * intros l' El'. rewrite El in El'. injection El' as <-. exists it. split; [exact Eit|].
        rewrite Et. lia.
      * eapply pieces_weaken; eassumption.
Qed.

Lemma all_lexemes_app (a b : list (event L A)) : all_lexemes (a ++ b) = all_lexemes a ++ all_lexemes b.
Proof. unfold all_lexemes. rewrite map_app, concat_app. reflexivity. Qed.

Lemma run_pieces text n : parse_pieces text -> forall b s evs r,
  low_inv text b s -> run text n s = (evs, r) ->
  pieces text b (length text) (all_lexemes (map fst evs)).
Proof.
  intros HP. induction n as [|n IH]; intros b s evs r Hinv Hr; simpl in Hr.
  - injection Hr as <- <-. simpl. apply Hinv.
  - destruct (step text s) as [[ev s']|] eqn:Es.
    + destruct (run text n s') as [ev' r'] eqn:Er. injection Hr as <- <-.
      destruct (step_pieces _ _ _ _ _ HP Hinv Es) as (b' & Hinv' & Hb & Hp).
      rewrite map_app, all_lexemes_app.
      eapply pieces_app; [|exact Hp|eapply IH; eassumption]. apply Hinv'.
    + injection Hr as <- <-. simpl. apply Hinv.
Qed.

Lemma low_inv_start text lexs pos : pos <= length text -> low_inv text pos (l_init lexs pos).
Proof. intros H. repeat split; simpl; lia. Qed.

(** ** Nothing lost *)

Lemma tiles_app text : forall (xs ys : list (lexeme A)) lo mid hi,
  tiles text lo mid xs -> tiles text mid hi ys -> tiles text lo hi (xs ++ ys).
Proof.
  induction xs as [|x xs IH]; intros ys lo mid hi; simpl.
  - intros -> H; exact H.
  - intros (P1 & P2 & P3 & P4 & P5) H2. repeat split; auto. eapply IH; eassumption.
Qed.

Lemma tiles_le text : forall (xs : list (lexeme A)) lo hi, tiles text lo hi xs -> lo <= hi.
Proof.
  induction xs as [|x xs IH]; intros lo hi; simpl; [lia|].
  intros (P1 & P2 & P3 & P4 & P5). apply IH in P5. unfold x_end in *. lia.
Qed.

Lemma tiles_texts text : forall (xs : list (lexeme A)) lo hi, hi <= length text ->
  tiles text lo hi xs -> texts xs = slice text lo hi.
Proof.
  induction xs as [|x xs IH]; intros lo hi Hh; simpl.
  - intros ->. unfold texts; simpl. rewrite slice_nil by lia. reflexivity.
  - intros (P1 & P2 & P3 & P4 & P5). unfold texts in *; simpl. rewrite (IH _ _ Hh P5).
    pose proof (tiles_le _ _ _ _ P5). rewrite P3 at 1. rewrite P1 in *.
    apply slice_app_slice; [unfold x_end; lia|assumption].
Qed.

Definition parse_tiles text : Prop := forall l pos, pos <= length text -> gen_tiles text pos (parse l text pos).
Definition parse_finite text : Prop := forall l pos, pos <= length text -> gen_finite (parse l text pos).
(** No item that carries a target has an empty text. *)
Definition targets_advance text : Prop := forall l pos k it, pos <= length text ->
  parse l text pos k = Some it -> i_target it <> None -> i_txt it <> [].

(** Exactly [b] is where the next item starts. *)
Definition at_inv text (b : nat) (s : lstate L) : Prop :=
  s_lex s <> [] /\ s_pos s <= length text /\ b <= length text /\
  match s_idx s with
  | 0 => b = s_pos s
  | S k => forall l, last_opt (s_lex s) = Some l ->
           exists it, parse l text (s_pos s) k = Some it /\ b = i_pos it + length (i_txt it)
  end.

Lemma step_nonempty text s evs s' : s_lex s <> [] -> step text s = Some (evs, s') -> s_lex s' <> [].
Proof.
  intros Hne Hs.
  assert (Hlen : 0 < length (s_lex s)) by (destruct (s_lex s); [congruence|simpl; lia]).
  unfold l_step in Hs. destruct (last_opt (s_lex s)) as [l|]; [|discriminate].
  destruct (parse l text (s_pos s) (s_idx s)) as [it|]; [|discriminate].
  assert (H2 : forall t0, drop_last (t_pop (l_clip (length (s_lex s)) t0)) (s_lex s) ++ 
                          t_push (l_clip (length (s_lex s)) t0) <> []).
  { intros t0 C. apply app_eq_nil in C as [C _]. apply (f_equal (@length L)) in C.
    rewrite drop_last_length in C. pose proof (l_clip_bound _ t0 Hlen). simpl in C. lia. }
  destruct (i_target it) as [t0|].
  - destruct (i_txt it).
    + destruct (l_circle _ _ _ _ _). injection Hs as <- <-. apply H2.
    + destruct (l_consumes consume _); destruct (l_emit _ _ _); injection Hs as <- <-; apply H2.
  - destruct (i_txt it); [injection Hs as <- <-; exact Hne|].
    destruct (l_emit _ _ _); injection Hs as <- <-; exact Hne.
Qed.

Lemma at_inv_item text b s l it : parse_tiles text ->
  at_inv text b s -> last_opt (s_lex s) = Some l ->
  parse l text (s_pos s) (s_idx s) = Some it -> i_pos it = b.
Proof.
  intros HP (_ & H1 & H2 & H3) Hl Hit. destruct (HP l (s_pos s) H1) as (_ & _ & P2 & _ & P3 & _).
  destruct (s_idx s) as [|k].
  - rewrite (P2 _ Hit). congruence.
  - destruct (H3 l Hl) as (it0 & E0 & Hb). rewrite (P3 _ _ _ E0 Hit). congruence.
Qed.

Lemma step_tiles text b s evs s' : parse_tiles text -> targets_advance text ->
  at_inv text b s -> step text s = Some (evs, s') ->
  exists b', at_inv text b' s' /\ tiles text b b' (all_lexemes (map fst evs)).
Proof.
  intros HP HT Hinv Hs.
  assert (Hne' : s_lex s' <> []) by (eapply step_nonempty; [apply Hinv|exact Hs]).
  unfold l_step in Hs.
  destruct (last_opt (s_lex s)) as [l|] eqn:El; [|discriminate].
  destruct (parse l text (s_pos s) (s_idx s)) as [it|] eqn:Eit; [|discriminate].
  pose proof (at_inv_item _ _ _ _ _ HP Hinv El Eit) as Hb.
  destruct Hinv as (Hne & H1 & H2 & H3).
  destruct (HP l (s_pos s) H1) as (_ & _ & _ & P2 & _ & _).
  destruct (P2 _ _ Eit) as (Q2 & Q3 & Q4). subst b.
  destruct (i_target it) as [t0|] eqn:Etg.
  - destruct (i_txt it) as [|c txt] eqn:Et.
    + exfalso. apply (HT l (s_pos s) (s_idx s) it H1 Eit); congruence.
    + assert (Hev : all_lexemes (map fst evs) = i_lexemes it /\
        s_pos s' = i_pos it + length (c :: txt) /\ s_idx s' = 0).
      { destruct (l_consumes consume _).
        - destruct (l_emit (f_add _ _) it _) as [ev f'] eqn:Ee. injection Hs as <- <-.
          split; [eapply l_emit_lexemes; exact Ee|auto].
        - destruct (l_emit (s_fac s) it _) as [ev f'] eqn:Ee. injection Hs as <- <-.
          split; [eapply l_emit_lexemes; exact Ee|auto]. }
      destruct Hev as (Hev & Hp & Hi). clear Hs.
      exists (i_pos it + length (c :: txt)). unfold at_inv. rewrite Hi, Hp, Hev.
      repeat split; try lia; assumption.
  - destruct (i_txt it) as [|c txt] eqn:Et.
    + injection Hs as <- <-. exists (i_pos it). unfold at_inv; simpl. repeat split; try lia; try assumption.
      intros l' El'. rewrite El in El'. injection El' as <-. exists it. split; [exact Eit|].
      rewrite Et; simpl. lia.
    + destruct (l_emit (s_fac s) it _) as [ev f'] eqn:Ee. injection Hs as <- <-.
      exists (i_pos it + length (c :: txt)). rewrite (l_emit_lexemes _ _ _ _ _ Ee).
      unfold at_inv; cbn [s_pos s_idx s_lex]. repeat split; try lia; try assumption.
      intros l' El'. rewrite El in El'. injection El' as <-. exists it. split; [exact Eit|].
      rewrite Et. lia.
Qed.

Lemma step_done_tiles text b s : parse_tiles text ->
  at_inv text b s -> step text s = None -> b = length text.
Proof.
  intros HP (Hne & H1 & H2 & H3) Hs. unfold l_step in Hs.
  destruct (last_opt (s_lex s)) as [l|] eqn:El.
  2:{ apply last_opt_none in El. congruence. }
  destruct (parse l text (s_pos s) (s_idx s)) as [it|] eqn:Eit.
  { exfalso. destruct (i_target it); destruct (i_txt it).
    - destruct (l_circle _ _ _ _ _); discriminate.
    - destruct (l_consumes consume _); destruct (l_emit _ _ _); discriminate.
    - discriminate.
    - destruct (l_emit _ _ _); discriminate. }
  destruct (HP l (s_pos s) H1) as (_ & P0 & _ & _ & _ & P5).
  destruct (s_idx s) as [|k].
  - rewrite H3. apply P0, Eit.
  - destruct (H3 l eq_refl) as (it0 & E0 & ->). exact (P5 _ _ E0 Eit).
Qed.

Lemma run_tiles text n : parse_tiles text -> targets_advance text -> forall b s evs r,
  at_inv text b s -> run text n s = (evs, r) ->
  exists b', tiles text b b' (all_lexemes (map fst evs)) /\
    match r with None => b' = length text | Some s' => at_inv text b' s' end.
Proof.
  intros HP HT. induction n as [|n IH]; intros b s evs r Hinv Hr; simpl in Hr.
  - injection Hr as <- <-. exists b. split; [reflexivity|exact Hinv].
  - destruct (step text s) as [[ev s']|] eqn:Es.
    + destruct (run text n s') as [ev' r'] eqn:Er. injection Hr as <- <-.
      destruct (step_tiles _ _ _ _ _ HP HT Hinv Es) as (b' & Hinv' & Hp).
      destruct (IH _ _ _ _ Hinv' Er) as (b2 & Hp2 & Hr2).
      exists b2. split; [|exact Hr2].
      rewrite map_app, all_lexemes_app. eapply tiles_app; eassumption.
    + injection Hr as <- <-. exists b. split; [reflexivity|].
      eapply step_done_tiles; eassumption.
Qed.

(** ** Termination *)

Lemma run_app text n m : forall s evs s' evs' r,
  run text n s = (evs, Some s') -> run text m s' = (evs', r) -> run text (n + m) s = (evs ++ evs', r).
Proof.
  induction n as [|n IH]; intros s evs s' evs' r H1 H2; simpl in *.
  - injection H1 as <- <-. exact H2.
  - destruct (step text s) as [[ev s1]|]; [|discriminate].
    destruct (run text n s1) as [ev1 r1] eqn:E1. injection H1 as <- ->.
    rewrite (IH _ _ _ _ _ E1 H2). rewrite app_assoc. reflexivity.
Qed.

Lemma run_None_more text n m : forall s evs,
  run text n s = (evs, None) -> run text (n + m) s = (evs, None).
Proof.
  induction n as [|n IH]; intros s evs H; simpl in *; [discriminate|].
  destruct (step text s) as [[ev s1]|]; [|exact H].
  destruct (run text n s1) as [ev1 r1] eqn:E1. injection H as <- ->.
  rewrite (IH _ _ E1). reflexivity.
Qed.

(** The events do not depend on how long one waits. *)
Lemma l_events_unique text lexs pos evs evs' :
  l_events consume parse text lexs pos evs -> l_events consume parse text lexs pos evs' -> evs = evs'.
Proof.
  intros [n H] [m H']. apply (run_None_more _ _ m) in H. apply (run_None_more _ _ n) in H'.
  rewrite Nat.add_comm in H'. congruence.
Qed.

Definition step_shape (text : str) s (evs : list (seen L A)) (s' : lstate L) : Prop :=
  (s_lex s' = s_lex s /\ s_pos s' = s_pos s /\ s_idx s' = S (s_idx s)) \/
  (s_idx s' = 0 /\ s_pos s < s_pos s').

Lemma step_shape_ok text s evs s' : parse_pieces text -> targets_advance text ->
  s_pos s <= length text -> step text s = Some (evs, s') ->
  step_shape text s evs s' /\ s_pos s' <= length text.
Proof.
  intros HP HT Hle Hs. unfold l_step in Hs.
  destruct (last_opt (s_lex s)) as [l|] eqn:El; [|discriminate].
  destruct (parse l text (s_pos s) (s_idx s)) as [it|] eqn:Eit; [|discriminate].
  destruct (HP l (s_pos s) Hle) as (_ & P2 & P3).
  destruct (P2 _ _ Eit) as (Q1 & Q2 & Q3 & Q4).
  destruct (i_target it) as [t0|] eqn:Etg.
  - destruct (i_txt it) as [|c txt] eqn:Et.
    + exfalso. apply (HT l (s_pos s) (s_idx s) it Hle Eit); congruence.
    + simpl length in *. destruct (l_consumes consume _); destruct (l_emit _ _ _);
        injection Hs as <- <-; (split; [right; split; simpl; [reflexivity|lia] | simpl; lia]).
  - destruct (i_txt it) as [|c txt] eqn:Et.
    + injection Hs as <- <-. split; [left; auto|exact Hle].
    + destruct (l_emit _ _ _). injection Hs as <- <-. split; [left; auto|exact Hle].
Qed.

Lemma gen_closed_le {T} (g : gen T) k j : gen_closed g -> g k = None -> k <= j -> g j = None.
Proof.
  intros Hc Hk Hle. induction Hle as [|j Hle IH]; [exact Hk|]. apply Hc, IH.
Qed.

Lemma run_terminates text : parse_pieces text -> parse_finite text -> targets_advance text ->
  forall m s, s_pos s <= length text -> length text - s_pos s < m ->
  exists n evs, run text n s = (evs, None).
Proof.
  intros HP HF HT. induction m as [|m IHm]; intros s Hle Hm; [lia|].
  destruct (last_opt (s_lex s)) as [l|] eqn:El.
  2:{ exists 1, []. simpl. unfold l_step. rewrite El. reflexivity. }
  destruct (HF l (s_pos s) Hle) as [K HK].
  destruct (HP l (s_pos s) Hle) as (Hcl & _ & _).
  assert (Hin : forall d s1, s_lex s1 = s_lex s -> s_pos s1 = s_pos s -> K - s_idx s1 <= d ->
    exists n evs, run text n s1 = (evs, None)).
  { induction d as [|d IHd]; intros s1 E1 E2 Hd.
    - exists 1, []. simpl. unfold l_step. rewrite E1, El, E2.
      rewrite (gen_closed_le _ K _ Hcl HK) by lia. reflexivity.
    - destruct (step text s1) as [[ev s2]|] eqn:Es.
      2:{ exists 1, []. simpl. rewrite Es. reflexivity. }
      assert (Hle1 : s_pos s1 <= length text) by (rewrite E2; exact Hle).
      destruct (step_shape_ok _ _ _ _ HP HT Hle1 Es) as [[(F1 & F2 & F3)|(F1 & F2)] F4].
      + assert (Hd2 : s_idx s1 < K \/ K <= s_idx s1) by lia. destruct Hd2 as [Hd2|Hd2].
        * destruct (IHd s2) as (n & evs & Hn); [congruence|congruence|lia|].
          exists (S n), (ev ++ evs). simpl. rewrite Es, Hn. reflexivity.
        * exfalso. unfold l_step in Es. rewrite E1, El, E2 in Es.
          rewrite (gen_closed_le _ K _ Hcl HK Hd2) in Es. discriminate.
      + destruct (IHm s2) as (n & evs & Hn); [exact F4|lia|].
        exists (S n), (ev ++ evs). simpl. rewrite Es, Hn. reflexivity. }
  apply (Hin (K - s_idx s) s); auto.
Qed.

Lemma tiles_pieces text : forall (xs : list (lexeme A)) lo hi,
  tiles text lo hi xs -> pieces text lo hi xs.
Proof.
  induction xs as [|x xs IH]; intros lo hi; simpl; [lia|].
  intros (P1 & P2 & P3 & P4 & P5). pose proof (tiles_le _ _ _ _ P5).
  repeat split; auto; lia.
Qed.

Lemma parse_tiles_pieces text : parse_tiles text -> parse_pieces text.
Proof.
  intros HP l pos Hle. destruct (HP l pos Hle) as (H0 & H1 & H2 & H3 & H4 & H5).
  split; [exact H0|]. split.
  - intros k it E. destruct (H3 _ _ E) as (Q1 & Q2 & Q3).
    assert (Hp : pos <= i_pos it).
    { clear -H0 H2 H4 E. revert it E. induction k as [|k IH]; intros it E.
      - rewrite (H2 _ E). lia.
      - destruct (parse l text pos k) as [it0|] eqn:E0.
        + rewrite (H4 _ _ _ E0 E). specialize (IH _ eq_refl). lia.
        + rewrite (H0 _ E0) in E. discriminate. }
    split; [exact Hp|]. split; [exact Q1|]. split; [exact Q2|]. apply tiles_pieces, Q3.
  - intros k it it' E E'. rewrite (H4 _ _ _ E E'). lia.
Qed.

Lemma lossless text lexs pos : lexs <> [] -> pos <= length text ->
  parse_tiles text -> parse_finite text -> targets_advance text ->
  exists evs, l_events consume parse text lexs pos evs
    /\ tiles text pos (length text) (all_lexemes (map fst evs))
    /\ texts (all_lexemes (map fst evs)) = skipn pos text.
Proof.
  intros Hl Hp HP HF HT.
  destruct (run_terminates text (parse_tiles_pieces _ HP) HF HT _ (l_init lexs pos) Hp (Nat.lt_succ_diag_r _))
    as (n & evs & Hn).
  exists evs. split; [exists n; exact Hn|].
  assert (Ha : at_inv text pos (l_init lexs pos)) by (unfold at_inv; simpl; auto).
  destruct (run_tiles text n HP HT pos _ _ _ Ha Hn) as (b & Hb & ->).
  split; [exact Hb|]. rewrite (tiles_texts _ _ _ _ (Nat.le_refl _) Hb). apply slice_from.
Qed.

End Proofs.
