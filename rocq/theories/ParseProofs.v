(** Where the items of a parse generator come from, and what one step of the lexer does. *)
From Verif Require Import Base BaseFacts TargetModel TargetSpec LexerModel LexerSpec LexerProofs LexiconModel LexiconSpec
  LexiconProofs FastPathProofs LexerTheorems.
From Coq Require Import ZArith ZifyBool.

Section Proofs.
Variables L B : Type.
Variable sublex : L -> str -> list (lexeme B).
Notation item := (item L B).
Implicit Types (it : item) (c : compiled L B).

(** ** The scanner finds the leftmost matches *)

Fixpoint qchain (mat : bool -> str -> nat -> option mtch) (text : str) (pos : nat) (ms : list mtch) : Prop :=
  match ms with
  | [] => quiet mat text pos (S (length text))
  | m :: ms => pos <= m_start m /\ m_start m <= m_end m /\ m_end m <= length text
               /\ quiet mat text pos (m_start m)
               /\ (exists adv, mat adv text (m_start m) = Some m)
               /\ qchain mat text (m_end m) ms
  end.

Lemma quiet_nil mat text i j : j <= i -> quiet mat text i j.
Proof. intros H. split; [lia|]. intros p Hp. lia. Qed.

Lemma quiet_cons mat text i j adv : mat adv text i = None -> quiet mat text (S i) j ->
  (S i < j -> mat false text (S i) = None) -> quiet mat text i j.
Proof.
  intros H [_ H2] H3. split; [eauto|]. intros p Hp.
  destruct (Nat.eq_dec p (S i)) as [->|]; [apply H3; lia|apply H2; lia].
Qed.

Lemma quiet_sub mat text i j i' j' : quiet mat text i j -> i <= i' -> j' <= j -> quiet mat text i' j'.
Proof.
  intros [H1 H2] Hi Hj. split.
  - intros H. destruct (Nat.eq_dec i' i) as [->|]; [apply H1; lia|]. exists false. apply H2. lia.
  - intros p Hp. apply H2. lia.
Qed.

Lemma scan_qchain mat text : match_ok mat text -> forall fuel (adv : bool) pos,
  2 * (S (length text) - pos) <= fuel + (if adv then 1 else 0) ->
  pos <= S (length text) ->
  qchain mat text pos (scan mat text fuel adv pos) /\
  (match scan mat text fuel adv pos with
   | [] => forall p, pos < p -> p <= length text -> mat false text p = None
   | m :: _ => forall p, pos < p -> p < m_start m -> mat false text p = None
   end) /\
  (match scan mat text fuel adv pos with
   | [] => pos <= length text -> mat adv text pos = None
   | m :: _ => pos < m_start m -> mat adv text pos = None
   end).
Proof.
  intros Hm. induction fuel as [|fuel IH]; intros adv pos Hf Hp.
  - simpl. assert (pos = S (length text)) by (destruct adv; lia). subst pos.
    split; [apply quiet_nil; lia|]. split; intros; lia.
  - cbn [scan]. destruct (Nat.ltb_spec (length text) pos) as [H|H].
    + simpl. split; [apply quiet_nil; lia|]. split; intros; lia.
    + destruct (mat adv text pos) as [m|] eqn:E.
      * destruct (Hm _ _ _ H E) as (H1 & H2 & H3 & H4).
        assert (Hf' : 2 * (S (length text) - m_end m) <= fuel + (if m_end m =? m_start m then 1 else 0)).
        { destruct (m_end m =? m_start m) eqn:E1.
          - destruct adv; [specialize (H4 eq_refl)|]; lia.
          - destruct adv; lia. }
        destruct (IH (m_end m =? m_start m) (m_end m) Hf' ltac:(lia)) as (I1 & _ & _).
        split; [|split; intros; lia]. cbn [qchain]. rewrite H1. repeat split; try lia.
        -- exists adv. exact E.
        -- rewrite H1 in I1; exact I1.
      * assert (Hf' : 2 * (S (length text) - S pos) <= fuel + 0)
          by (destruct adv; lia).
        destruct (IH false (S pos) Hf' ltac:(lia)) as (I1 & I2 & I3).
        destruct (scan mat text fuel false (S pos)) as [|m ms].
        -- split; [|split; [|auto]].
           ++ apply (quiet_cons _ _ _ _ adv); [exact E|exact I1|]. intros Hl. apply I3. lia.
           ++ intros p Hp1 Hp2. destruct (Nat.eq_dec p (S pos)) as [->|]; [apply I3; lia|apply I2; lia].
        -- cbn [qchain] in I1 |- *. destruct I1 as (J1 & J2 & J3 & J4 & J5 & J6).
           split; [|split; [|auto]].
           ++ repeat split; try assumption; try lia.
              ** intros _. exists adv. exact E.
              ** intros p Hp1. destruct (Nat.eq_dec p (S pos)) as [->|]; [apply I3; lia|apply I2; lia].
           ++ intros p Hp1 Hp2. destruct (Nat.eq_dec p (S pos)) as [->|]; [apply I3; lia|apply I2; lia].
Qed.

Lemma finditer_qchain mat text pos : match_ok mat text -> pos <= length text ->
  qchain mat text pos (finditer mat text pos).
Proof.
  intros Hm Hp. unfold finditer.
  destruct (scan_qchain mat text Hm (2 * S (length text - pos)) false pos) as [H _]; [lia|lia|exact H].
Qed.

(** ** Items *)

Definition known self c text it : Prop :=
  from_match sublex self c text it \/ from_gap sublex c text it \/ from_default_target c text it.

(** A list of items that accounts for all matches from [e]. *)
Fixpoint ichain self c text (e : nat) (l : list item) : Prop :=
  match l with
  | [] => quiet (c_match c) text e (S (length text))
  | it :: l => known self c text it /\ e <= i_pos it /\ quiet (c_match c) text e (i_pos it)
               /\ ichain self c text (i_pos it + length (i_txt it)) l
  end.

Lemma token_from_match self c text m adv : rules_ok c text -> m_start m <= m_end m -> m_end m <= length text ->
  c_match c adv text (m_start m) = Some m ->
  from_match sublex self c text (token sublex self (c_rules c) text m)
  /\ i_pos (token sublex self (c_rules c) text m) = m_start m
  /\ i_pos (token sublex self (c_rules c) text m) + length (i_txt (token sublex self (c_rules c) text m)) = m_end m.
Proof.
  intros Hr H1 H2 E.
  pose proof (Hr adv (m_start m) m ltac:(lia) E) as Hlt.
  destruct (nth_error (c_rules c) (m_rule m)) as [r|] eqn:En; [|apply nth_error_None in En; lia].
  assert (Hp : exists a t, rule_parts (c_rules c) text m = Some (a, t) /\
    token sublex self (c_rules c) text m =
    mk_item sublex text (m_start m) (slice text (m_start m) (m_end m)) (Some m) (Some a) (t_make self t)).
  { unfold rule_parts, token. rewrite En. destruct r as [a t|ev]; [eauto|].
    destruct (ev m (slice text (m_start m) (m_end m))) as [a t]. eauto. }
  destruct Hp as (a & t & Hp & ->).
  split; [|split; [reflexivity|simpl; rewrite slice_len by lia; lia]].
  exists adv, m, a, t. simpl. repeat split; auto.
  - intros Hne. destruct (slice text (m_start m) (m_end m)); [congruence|reflexivity].
  - intros ->. reflexivity.
Qed.

Lemma da_from_gap c text i j : i < j -> j <= length text -> quiet (c_match c) text i j -> c_da c <> NoDA ->
  from_gap sublex c text (da_item sublex text (c_da c) i (slice text i j)).
Proof.
  intros H1 H2 Hq Hda.
  assert (Hl : length (slice text i j) = j - i) by (apply slice_len; lia).
  assert (Hne : slice text i j <> []) by (intros E; rewrite E in Hl; simpl in Hl; lia).
  unfold from_gap, da_item. destruct (c_da c) as [|a|f] eqn:E; [congruence| |].
  - exists a. simpl. rewrite Hl. replace (i + (j - i)) with j by lia.
    repeat split; auto; try apply Hq. destruct (slice text i j); [congruence|reflexivity].
  - exists (f (slice text i j)). simpl. rewrite Hl. replace (i + (j - i)) with j by lia.
    repeat split; auto; try apply Hq. destruct (slice text i j); [congruence|reflexivity].
Qed.

Lemma da_item_span c text i t : i_pos (da_item sublex text (c_da c) i t) = i
  /\ i_txt (da_item sublex text (c_da c) i t) = t.
Proof. unfold da_item. destruct (c_da c); split; reflexivity. Qed.

Lemma gaps_ichain self c text : rules_ok c text -> c_da c <> NoDA -> forall ms pos, pos <= length text ->
  qchain (c_match c) text pos ms ->
  ichain self c text pos (gaps sublex self (c_rules c) (c_da c) text pos ms).
Proof.
  intros Hr Hda. induction ms as [|m ms IH]; intros pos Hp H.
  - cbn [gaps]. cbn [qchain] in H. destruct (pos <? length text) eqn:E; [|exact H].
    assert (Ef : from text pos = slice text pos (length text)).
    { unfold from, slice. rewrite firstn_all2; [reflexivity|]. rewrite skipn_length. lia. }
    rewrite Ef. destruct (da_item_span c text pos (slice text pos (length text))) as [E1 E2].
    cbn [ichain]. rewrite E1, E2. rewrite slice_len by lia. split; [|split; [lia|split]].
    + right; left. apply da_from_gap; try lia; auto. apply (quiet_sub _ _ _ _ _ _ H); lia.
    + apply quiet_nil. lia.
    + apply (quiet_sub _ _ _ _ _ _ H); lia.
  - cbn [gaps]. cbn [qchain] in H. destruct H as (H1 & H2 & H3 & H4 & (adv & H5) & H6).
    destruct (token_from_match self c text m adv Hr H2 H3 H5) as (T1 & T2 & T3).
    assert (Htail : ichain self c text (m_start m)
              (token sublex self (c_rules c) text m :: gaps sublex self (c_rules c) (c_da c) text (m_end m) ms)).
    { cbn [ichain]. rewrite T2. split; [left; exact T1|]. split; [lia|]. split; [apply quiet_nil; lia|].
      rewrite T2 in T3. rewrite T3. apply IH; assumption. }
    destruct (pos <? m_start m) eqn:E.
    + destruct (da_item_span c text pos (slice text pos (m_start m))) as [E1 E2].
      cbn [app ichain]. rewrite E1, E2. rewrite slice_len by lia.
      split; [|split; [lia|split; [apply quiet_nil; lia|]]].
      * right; left. apply da_from_gap; try lia; auto.
      * replace (pos + (m_start m - pos)) with (m_start m) by lia. exact Htail.
    + replace pos with (m_start m) by lia. exact Htail.
Qed.

Lemma plain_ichain self c text : rules_ok c text -> forall ms pos, pos <= length text ->
  qchain (c_match c) text pos ms ->
  ichain self c text pos (map (token sublex self (c_rules c) text) ms).
Proof.
  intros Hr. induction ms as [|m ms IH]; intros pos Hp H; [exact H|].
  cbn [map ichain]. cbn [qchain] in H. destruct H as (H1 & H2 & H3 & H4 & (adv & H5) & H6).
  destruct (token_from_match self c text m adv Hr H2 H3 H5) as (T1 & T2 & T3). rewrite T2 in *.
  split; [left; exact T1|]. split; [lia|]. split; [exact H4|]. rewrite T3. apply IH; assumption.
Qed.

Lemma ichain_nth self c text : forall l e k it, ichain self c text e l -> nth_error l k = Some it ->
  known self c text it /\
  forall e', before_item (nth_error l) e k e' -> e' <= i_pos it /\ quiet (c_match c) text e' (i_pos it).
Proof.
  induction l as [|x l IH]; intros e k it H E; [destruct k; discriminate|].
  cbn [ichain] in H. destruct H as (H1 & H2 & H3 & H4). destruct k as [|k].
  - injection E as ->. split; [exact H1|]. intros e' ->. auto.
  - cbn [nth_error] in E. destruct (IH _ k it H4 E) as [I1 I2]. split; [exact I1|].
    intros e' (it' & Hit & ->). destruct k as [|k].
    + injection Hit as ->. apply I2. reflexivity.
    + apply I2. exists it'. auto.
Qed.

Lemma ichain_end self c text : forall l e k e', ichain self c text e l -> nth_error l k = None ->
  before_item (nth_error l) e k e' -> quiet (c_match c) text e' (S (length text)).
Proof.
  induction l as [|x l IH]; intros e k e' H E Hb.
  - destruct k as [|k]; [simpl in Hb; subst; exact H|]. destruct Hb as (it & Hit & _). destruct k; discriminate.
  - destruct k as [|k]; [discriminate|]. cbn [ichain] in H. destruct H as (_ & _ & _ & H).
    cbn [nth_error] in E. destruct Hb as (it & Hit & ->). destruct k as [|k].
    + injection Hit as ->. apply (IH _ 0 _ H E). reflexivity.
    + apply (IH _ (S k) _ H E). exists it. auto.
Qed.

Definition gen_known self c text pos (g : gen item) : Prop :=
  (forall k it, g k = Some it -> known self c text it /\
     forall e, before_item g pos k e -> e <= i_pos it /\ quiet (c_match c) text e (i_pos it)) /\
  (c_da c <> NoDA \/ c_dt c = None ->
   forall k e, g k = None -> before_item g pos k e -> quiet (c_match c) text e (S (length text))).

Lemma ichain_gen self c text pos l : ichain self c text pos l -> gen_known self c text pos (nth_error l).
Proof.
  intros H. split.
  - intros k it E. exact (ichain_nth self c text l pos k it H E).
  - intros _ k e E Hb. exact (ichain_end self c text l pos k e H E Hb).
Qed.

Lemma dt_gen_known self c text dt : match_ok (c_match c) text -> rules_ok c text -> c_da c = NoDA -> c_dt c = Some dt ->
  forall k pos it, pos <= length text ->
  dt_gen sublex self (c_rules c) (c_match c) (Some dt) text pos k = Some it ->
  known self c text it /\
  forall e, before_item (dt_gen sublex self (c_rules c) (c_match c) (Some dt) text pos) pos k e ->
    e = i_pos it.
Proof.
  intros Hm Hr Hda Hdt. induction k as [|k IH]; intros pos it Hp E.
  - cbn [dt_gen] in E. destruct (c_match c false text pos) as [m|] eqn:Em.
    + injection E as <-. destruct (Hm _ _ _ Hp Em) as (H1 & H2 & H3 & _).
      destruct (token_from_match self c text m false Hr) as (T1 & T2 & T3); try lia; [rewrite H1; exact Em|].
      split; [left; exact T1|]. intros e ->. rewrite T2. auto.
    + destruct (pos <? length text) eqn:El; [|discriminate]. injection E as <-. simpl.
      split; [|intros e ->; reflexivity]. right; right. repeat split; auto; simpl; try congruence; lia.
  - cbn [dt_gen] in E. destruct (c_match c false text pos) as [m|] eqn:Em; [|discriminate].
    destruct (Hm _ _ _ Hp Em) as (H1 & H2 & H3 & _). destruct (IH (m_end m) it H3 E) as [I1 I2].
    split; [exact I1|]. intros e (it' & Hit & ->). destruct k as [|k].
    + apply I2. cbn [dt_gen] in Hit. rewrite Em in Hit. injection Hit as <-.
      destruct (token_from_match self c text m false Hr) as (_ & _ & T3); try lia; [rewrite H1; exact Em|].
      rewrite T3. reflexivity.
    + apply I2. exists it'. split; [|reflexivity]. cbn [dt_gen] in Hit. rewrite Em in Hit. exact Hit.
Qed.

Lemma parse_regex_known self c text pos : match_ok (c_match c) text -> rules_ok c text -> pos <= length text ->
  gen_known self c text pos (parse_regex sublex self c text pos).
Proof.
  intros Hm Hr Hp. pose proof (finditer_qchain _ text pos Hm Hp) as Hq. unfold parse_regex.
  destruct (c_da c) as [|a|f] eqn:Eda.
  - destruct (c_dt c) as [dt|] eqn:Edt.
    + split.
      * intros k it E. destruct (dt_gen_known self c text dt Hm Hr Eda Edt k pos it Hp E) as [H1 H2].
        split; [exact H1|]. intros e He. rewrite (H2 e He). split; [lia|apply quiet_nil; lia].
      * intros [H|H]; congruence.
    + apply ichain_gen, plain_ichain; assumption.
  - rewrite <- Eda. destruct (c_dt c); apply ichain_gen, gaps_ichain; try assumption; congruence.
  - rewrite <- Eda. destruct (c_dt c); apply ichain_gen, gaps_ichain; try assumption; congruence.
Qed.

Lemma parse_empty_known self c text pos : rules_ok c text -> c_rules c = [] -> pos <= length text ->
  gen_known self c text pos (parse_empty sublex c text pos).
Proof.
  intros Hr He Hp.
  assert (Hno : forall adv p, p <= length text -> c_match c adv text p = None).
  { intros adv p Hpl. destruct (c_match c adv text p) as [m|] eqn:E; [|reflexivity].
    specialize (Hr adv p m Hpl E). rewrite He in Hr. simpl in Hr. lia. }
  assert (Hq : forall i, i <= S (length text) -> quiet (c_match c) text i (S (length text))).
  { intros i Hi. split; [intros H; exists false; apply Hno; lia|]. intros p H. apply Hno. lia. }
  unfold parse_empty. destruct (pos <? length text) eqn:E.
  2:{ apply ichain_gen. apply Hq. lia. }
  assert (Hda : c_da c <> NoDA -> ichain self c text pos [da_item sublex text (c_da c) pos (from text pos)]).
  { intros Hd. pose proof (gaps_ichain self c text Hr Hd [] pos Hp (Hq pos ltac:(lia))) as H.
    cbn [gaps] in H. rewrite E in H. exact H. }
  destruct (c_da c) as [|a|f] eqn:Eda.
  - destruct (c_dt c) as [dt|] eqn:Edt.
    + split.
      * intros [|k] it Hit; [|destruct k; discriminate]. injection Hit as <-. simpl. split.
        -- right; right. repeat split; auto; simpl; try congruence; try lia; apply Hno; lia.
        -- intros e ->. split; [lia|apply quiet_nil; lia].
      * intros [H|H]; congruence.
    + apply ichain_gen. apply Hq. lia.
  - destruct (c_dt c); apply ichain_gen, Hda; congruence.
  - destruct (c_dt c); apply ichain_gen, Hda; congruence.
Qed.

Lemma gen_known_ext self c text pos (g h : gen item) : (forall k, g k = h k) ->
  gen_known self c text pos g -> gen_known self c text pos h.
Proof.
  intros E [H1 H2]. split.
  - intros k it Hk. rewrite <- E in Hk. destruct (H1 k it Hk) as [H3 H4]. split; [exact H3|].
    intros e He. apply H4. destruct k as [|k]; [exact He|]. destruct He as (it' & Hi & ->). exists it'.
    rewrite E. auto.
  - intros Hc k e Hk He. rewrite <- E in Hk. apply (H2 Hc k e Hk). destruct k as [|k]; [exact He|].
    destruct He as (it' & Hi & ->). exists it'. rewrite E. auto.
Qed.

Lemma lexicon_known self c text pos : match_ok (c_match c) text -> rules_ok c text -> pos <= length text ->
  (forall needle a t, c_needle c = Some needle -> c_rules c = [SRule a t] -> needle <> [] ->
     literal_match (c_match c) needle /\
     forall p m, act_lexemes sublex text a p needle (Some m) = act_lexemes sublex text a p needle None) ->
  gen_known self c text pos (lexicon_parse sublex self c text pos).
Proof.
  intros Hm Hr Hp Hn. pose proof (parse_regex_known self c text pos Hm Hr Hp) as Hrx.
  unfold lexicon_parse. destruct (c_rules c) as [|[a t|ev] [|r2 rs]] eqn:Erules.
  - apply parse_empty_known; assumption.
  - destruct (c_needle c) as [[|x needle]|] eqn:En; try exact Hrx.
    destruct (Hn _ a t eq_refl eq_refl ltac:(discriminate)) as [H1 H2].
    apply (gen_known_ext self c text pos (parse_regex sublex self c text pos)); [|exact Hrx].
    intros k. symmetry. apply (parse_fast_regex L B sublex (c_match c) (x :: needle) H1 ltac:(discriminate) text self a t H2 c pos k eq_refl Erules).
  - destruct (c_needle c); exact Hrx.
  - destruct (c_needle c); exact Hrx.
  - destruct (c_needle c); exact Hrx.
Qed.

End Proofs.

(** ** One step of the lexer *)

Section Step.
Variables L A : Type.
Variable consume : L -> bool.
Variable parse : L -> str -> nat -> gen (item L A).

Lemma step_spec text n lexs pos evs s l it : l_run consume parse text n (l_init lexs pos) = (evs, Some s) ->
  last_opt (s_lex s) = Some l -> parse l text (s_pos s) (s_idx s) = Some it ->
  exists more s', l_run consume parse text (n + 1) (l_init lexs pos) = (evs ++ more, Some s')
    /\ s_lex s' = match i_target it with
                  | None => s_lex s
                  | Some t => firstn (if t_pop t =? 0 then length (s_lex s) else Nat.max 1 (length (s_lex s) - t_pop t)) (s_lex s)
                              ++ t_push t
                  end
    /\ (if (length (i_txt it) =? 0) || (length (i_lexemes it) =? 0) then more = []
        else exists tg, more = [(Event tg (i_lexemes it),
               match i_target it with
               | Some t => match last_opt (t_push t) with
                           | Some l' => if consume l' then s_lex s' else s_lex s
                           | None => s_lex s
                           end
               | None => s_lex s
               end)])
    /\ match i_target it with
       | None => s_pos s' = s_pos s /\ s_idx s' = S (s_idx s)
       | Some t => s_idx s' = 0 /\ (i_txt it <> [] -> s_pos s' = i_pos it + length (i_txt it))
                   /\ (i_txt it = [] -> s_pos s' = i_pos it \/
                         (s_pos s' = i_pos it + 1 /\ i_pos it < length text /\ t_push t <> []))
       end.
Proof.
  intros Hr Hl Hp.
  assert (Hlen : 1 <= length (s_lex s)) by (destruct (s_lex s); [discriminate|simpl; lia]).
  rewrite (run_Some_app L A consume parse text n 1 _ _ _ Hr).
  assert (Hclip : forall t : target L, drop_last (t_pop (l_clip (length (s_lex s)) t)) (s_lex s)
     = firstn (if t_pop t =? 0 then length (s_lex s) else Nat.max 1 (length (s_lex s) - t_pop t)) (s_lex s)
     /\ t_push (l_clip (length (s_lex s)) t) = t_push t).
  { intros t. unfold l_clip, drop_last. destruct (Nat.eqb_spec (t_pop t) 0) as [E0|E0]; cbn [negb andb].
    - split; [|reflexivity]. rewrite E0. f_equal. lia.
    - destruct (Nat.leb_spec (length (s_lex s)) (t_pop t)) as [E1|E1]; cbn [t_pop t_push]; (split; [|reflexivity]); f_equal; lia. }
  cbn [l_run]. unfold l_step. rewrite Hl, Hp.
  assert (Hemit : forall f (lex : list L), exists f',
     l_emit f it lex = (match i_lexemes it with [] => [] | ls => [(Event (fst (f_get f)) ls, lex)] end, f')).
  { intros f lex. unfold l_emit. destruct (i_lexemes it); [eauto|].
    destruct (f_get f) as [t f']. eauto. }
  destruct (i_target it) as [t0|].
  - destruct (Hclip t0) as [C1 C2]. set (t := l_clip (length (s_lex s)) t0) in *.
    destruct (i_txt it) as [|x txt] eqn:Et.
    + destruct (l_circle text (s_circ s) (i_pos it) (length (drop_last (t_pop t) (s_lex s))) (t_push t))
        as [p circ] eqn:Ec.
      do 2 eexists. split; [reflexivity|]. simpl. rewrite C1, C2. split; [reflexivity|]. split; [reflexivity|].
      split; [reflexivity|]. split; [congruence|]. intros _. unfold l_circle in Ec.
      destruct (existsb _ _); [|injection Ec as <- _; left; reflexivity].
      injection Ec as <- _. rewrite C2. destruct (negb (length (t_push t0) =? 0) && (i_pos it <? length text)) eqn:Eb;
        [|left; reflexivity]. right. split; [reflexivity|]. split; [lia|].
      intros E; rewrite E in Eb; simpl in Eb; discriminate.
    + unfold l_consumes. rewrite C2.
      destruct (match last_opt (t_push t0) with None => false | Some l' => consume l' end) eqn:Ecs.
      * destruct (Hemit (f_add (s_fac s) (Some t)) (drop_last (t_pop t) (s_lex s) ++ t_push t0)) as [f' Ef].
        rewrite Ef. do 2 eexists. split; [simpl; rewrite app_nil_r; reflexivity|]. simpl. rewrite C1.
        split; [reflexivity|]. split; [|split; [reflexivity|split; [reflexivity|discriminate]]].
        destruct (i_lexemes it); [reflexivity|]. simpl. eexists.
        destruct (last_opt (t_push t0)) as [l'|]; [rewrite Ecs|discriminate]. reflexivity.
      * destruct (Hemit (s_fac s) (s_lex s)) as [f' Ef].
        rewrite Ef. do 2 eexists. split; [simpl; rewrite app_nil_r; reflexivity|]. simpl. rewrite C1.
        split; [reflexivity|]. split; [|split; [reflexivity|split; [reflexivity|discriminate]]].
        destruct (i_lexemes it); [reflexivity|]. simpl. eexists.
        destruct (last_opt (t_push t0)) as [l'|]; [rewrite Ecs|]; reflexivity.
  - destruct (i_txt it) as [|x txt] eqn:Et.
    + do 2 eexists. split; [reflexivity|]. simpl. auto.
    + destruct (Hemit (s_fac s) (s_lex s)) as [f' Ef]. rewrite Ef.
      do 2 eexists. split; [simpl; rewrite app_nil_r; reflexivity|]. simpl. split; [reflexivity|]. split; [|auto].
      destruct (i_lexemes it); [reflexivity|]. simpl. eauto.
Qed.
End Step.
