From Verif Require Import Base BaseFacts TargetModel LexerModel LexerSpec LexerProofs LexiconModel LexiconSpec.

Section Proofs.
Variables L B : Type.
Variable sublex : L -> str -> list (lexeme B).
Local Notation item := (item L B).
Definition i_end (it : item) : nat := i_pos it + length (i_txt it).

(** ** Generators made of a list of items *)

Definition item_ok (Q : str -> nat -> nat -> list (lexeme B) -> Prop) (text : str) (it : item) : Prop :=
  i_txt it = slice text (i_pos it) (i_end it) /\ i_end it <= length text
  /\ Q text (i_pos it) (i_end it) (i_lexemes it).

Fixpoint chain (text : str) (pos : nat) (l : list item) : Prop :=
  match l with
  | [] => True
  | it :: l => item_ok pieces text it /\ pos <= i_pos it /\ chain text (i_end it) l
  end.

Fixpoint tchain (text : str) (pos : nat) (l : list item) : Prop :=
  match l with
  | [] => pos = length text
  | it :: l => item_ok tiles text it /\ pos = i_pos it /\ tchain text (i_end it) l
  end.

Lemma nth_error_closed {T} (l : list T) : gen_closed (nth_error l).
Proof.
  intros k H. apply nth_error_None in H. apply nth_error_None. lia.
Qed.

Lemma nth_error_finite {T} (l : list T) : gen_finite (nth_error l).
Proof. exists (length l). apply nth_error_None. lia. Qed.

Lemma chain_weaken text pos pos' l : pos' <= pos -> chain text pos l -> chain text pos' l.
Proof. destruct l as [|it l]; simpl; [auto|]. intros H (H1 & H2 & H3). repeat split; auto; try apply H1; lia. Qed.

Lemma chain_nth text : forall l pos k it, chain text pos l -> nth_error l k = Some it ->
  item_ok pieces text it /\ pos <= i_pos it.
Proof.
  induction l as [|x l IH]; intros pos k it; simpl; [destruct k; discriminate|].
  intros (H1 & H2 & H3) E. destruct k as [|k]; simpl in E.
  - injection E as <-. auto.
  - destruct (IH _ _ _ H3 E). split; [assumption|]. unfold i_end in *. lia.
Qed.

Lemma chain_succ text : forall l pos k it it', chain text pos l ->
  nth_error l k = Some it -> nth_error l (S k) = Some it' -> i_end it <= i_pos it'.
Proof.
  induction l as [|x l IH]; intros pos k it it'; simpl; [destruct k; discriminate|].
  intros (H1 & H2 & H3) E E'. destruct k as [|k]; simpl in E.
  - injection E as ->. destruct l as [|y l]; [discriminate|]. simpl in E', H3.
    injection E' as <-. apply H3.
  - destruct l as [|y l]; [destruct k; discriminate|]. eapply IH; eassumption.
Qed.

Lemma chain_gen text pos l : chain text pos l -> gen_pieces text pos (nth_error l).
Proof.
  intros H. split; [apply nth_error_closed|]. split.
  - intros k it E. destruct (chain_nth _ _ _ _ _ H E) as [(H1 & H2 & H3) H4].
    unfold i_end in *. auto.
  - intros k it it' E E'. eapply chain_succ; eassumption.
Qed.

Lemma tchain_nth text : forall l pos k it, tchain text pos l -> nth_error l k = Some it ->
  item_ok tiles text it.
Proof.
  induction l as [|x l IH]; intros pos k it; simpl; [destruct k; discriminate|].
  intros (H1 & H2 & H3) E. destruct k as [|k]; simpl in E.
  - injection E as <-. auto.
  - eapply IH; eassumption.
Qed.

Lemma tchain_succ text : forall l pos k it it', tchain text pos l ->
  nth_error l k = Some it -> nth_error l (S k) = Some it' -> i_pos it' = i_end it.
Proof.
  induction l as [|x l IH]; intros pos k it it'; simpl; [destruct k; discriminate|].
  intros (H1 & H2 & H3) E E'. destruct k as [|k]; simpl in E.
  - injection E as ->. destruct l as [|y l]; [discriminate|]. simpl in E', H3.
    injection E' as <-. symmetry. apply H3.
  - destruct l as [|y l]; [destruct k; discriminate|]. eapply IH; eassumption.
Qed.

Lemma tchain_last text : forall l pos k it, tchain text pos l ->
  nth_error l k = Some it -> nth_error l (S k) = None -> i_end it = length text.
Proof.
  induction l as [|x l IH]; intros pos k it; simpl; [destruct k; discriminate|].
  intros (H1 & H2 & H3) E E'. destruct k as [|k]; simpl in E.
  - injection E as ->. destruct l as [|y l]; [exact H3|discriminate].
  - eapply IH; eassumption.
Qed.

Lemma tchain_gen text pos l : tchain text pos l -> gen_tiles text pos (nth_error l).
Proof.
  intros H. split; [apply nth_error_closed|]. split; [|split; [|split; [|split]]].
  - destruct l; [intros _; exact H|discriminate].
  - intros it E. destruct l as [|x l]; [discriminate|]. injection E as ->. symmetry; apply H.
  - intros k it E. destruct (tchain_nth _ _ _ _ _ H E) as (H1 & H2 & H3). auto.
  - intros k it it' E E'. eapply tchain_succ; eassumption.
  - intros k it E E'. eapply tchain_last; eassumption.
Qed.

(** ** finditer *)

(** Matches in order, from [pos]. *)
Fixpoint mchain (mat : bool -> str -> nat -> option mtch) (text : str) (pos : nat) (ms : list mtch) : Prop :=
  match ms with
  | [] => True
  | m :: ms => pos <= m_start m /\ m_start m <= m_end m /\ m_end m <= length text
               /\ (exists adv, mat adv text (m_start m) = Some m)
               /\ mchain mat text (m_end m) ms
  end.

Lemma mchain_weaken mat text pos pos' ms : pos' <= pos -> mchain mat text pos ms -> mchain mat text pos' ms.
Proof. destruct ms; simpl; [auto|]. intros H (H1 & H2). split; [lia|auto]. Qed.

Lemma scan_mchain mat text : match_ok mat text -> forall fuel adv pos,
  mchain mat text pos (scan mat text fuel adv pos).
Proof.
  intros Hm. induction fuel as [|fuel IH]; intros adv pos; simpl; [exact I|].
  destruct (Nat.ltb_spec (length text) pos) as [H|H]; [exact I|].
  destruct (mat adv text pos) as [m|] eqn:E.
  - destruct (Hm _ _ _ H E) as (H1 & H2 & H3 & _). simpl. rewrite H1.
    repeat split; try lia; [exists adv; exact E|apply IH].
  - apply (mchain_weaken _ _ (S pos)); [lia|apply IH].
Qed.

Lemma finditer_mchain mat text pos : match_ok mat text -> mchain mat text pos (finditer mat text pos).
Proof. intros Hm; apply scan_mchain, Hm. Qed.

(** ** Items *)

Lemma slice_len (text : str) i j : i <= j -> j <= length text -> length (slice text i j) = j - i.
Proof. intros. rewrite slice_length. lia. Qed.

Lemma mk_item_ok (Q : str -> nat -> nat -> list (lexeme B) -> Prop) text pos j m a t :
  pos <= j -> j <= length text ->
  (pos = j -> Q text pos j []) ->
  (pos < j -> exists a', a = Some a' /\ Q text pos j (act_lexemes sublex text a' pos (slice text pos j) m)) ->
  item_ok Q text (mk_item sublex text pos (slice text pos j) m a t).
Proof.
  intros H1 H2 H3 H4. unfold item_ok, i_end; simpl. rewrite slice_len by lia.
  replace (pos + (j - pos)) with j by lia. split; [reflexivity|]. split; [exact H2|].
  pose proof (slice_len text pos j H1 H2) as Hl.
  destruct (slice text pos j) as [|x xs] eqn:E; simpl in Hl.
  - apply H3. lia.
  - destruct H4 as (a' & -> & H4); [lia|]. exact H4.
Qed.

Lemma mk_item_end text pos j m a t : pos <= j -> j <= length text ->
  i_end (mk_item sublex text pos (slice text pos j) m a t) = j.
Proof. intros. unfold i_end; simpl. rewrite slice_len by lia. lia. Qed.

Variable c : compiled L B.
Variable text : str.
Hypothesis Hmat : match_ok (c_match c) text.
Hypothesis Hrules : rules_ok c text.

Lemma token_ok (Q : str -> nat -> nat -> list (lexeme B) -> Prop) self pos ms : actions_sat sublex Q c text ->
  (forall p, p <= length text -> Q text p p []) ->
  mchain (c_match c) text pos ms ->
  forall m, In m ms -> item_ok Q text (token sublex self (c_rules c) text m)
    /\ i_pos (token sublex self (c_rules c) text m) = m_start m
    /\ i_end (token sublex self (c_rules c) text m) = m_end m.
Proof.
  intros (HA & _ & _) HQ0. revert pos. induction ms as [|m0 ms IH]; intros pos Hc m Hin; [destruct Hin|].
  simpl in Hc. destruct Hc as (H1 & H2 & H3 & (adv & H4) & H5).
  destruct Hin as [->|Hin]; [|eapply IH; eassumption].
  assert (Hle : m_start m <= length text) by lia.
  pose proof (Hrules _ _ _ Hle H4) as Hr.
  unfold token. destruct (nth_error (c_rules c) (m_rule m)) as [r|] eqn:En.
  2:{ apply nth_error_None in En. lia. }
  assert (Hgo : forall a t, rule_action (c_rules c) text m = Some a ->
    item_ok Q text (mk_item sublex text (m_start m) (slice text (m_start m) (m_end m)) (Some m) (Some a) t)
    /\ m_start m = m_start m
    /\ i_end (mk_item sublex text (m_start m) (slice text (m_start m) (m_end m)) (Some m) (Some a) t) = m_end m).
  { intros a t Ha. split; [|split; [reflexivity|apply mk_item_end; lia]].
    apply mk_item_ok; try lia.
    - intros <-. apply HQ0; lia.
    - intros Hlt. exists a. split; [reflexivity|]. eapply HA; eassumption. }
  destruct r as [a t|eval].
  - apply Hgo. unfold rule_action. rewrite En. reflexivity.
  - destruct (eval m (slice text (m_start m) (m_end m))) as [a t] eqn:Ee.
    apply Hgo. unfold rule_action. rewrite En, Ee. reflexivity.
Qed.

Lemma da_item_ok (Q : str -> nat -> nat -> list (lexeme B) -> Prop) i j : actions_sat sublex Q c text -> i < j -> j <= length text -> c_da c <> NoDA ->
  item_ok Q text (da_item sublex text (c_da c) i (slice text i j))
  /\ i_pos (da_item sublex text (c_da c) i (slice text i j)) = i
  /\ i_end (da_item sublex text (c_da c) i (slice text i j)) = j.
Proof.
  intros (_ & HD & _) Hi Hj Hda. unfold da_item. unfold da_action in HD.
  destruct (c_da c) as [|a|f]; [congruence| |];
    (split; [apply mk_item_ok; try lia; intros _; eexists; split; [reflexivity|apply HD; auto]
            |split; [reflexivity|apply mk_item_end; lia]]).
Qed.

Lemma gaps_chain self : actions_sat sublex pieces c text -> c_da c <> NoDA ->
  forall ms pos, pos <= length text -> mchain (c_match c) text pos ms ->
  chain text pos (gaps sublex self (c_rules c) (c_da c) text pos ms).
Proof.
  intros HA Hda. assert (HQ0 : forall p, p <= length text -> @pieces B text p p []) by (intros; simpl; lia).
  induction ms as [|m ms IH]; intros pos Hp Hc.
  - simpl. destruct (Nat.ltb_spec pos (length text)) as [H|H]; [|exact I].
    change (from text pos) with (skipn pos text). rewrite <- slice_from. destruct (da_item_ok _ pos (length text) HA H (Nat.le_refl _) Hda) as (H1 & H2 & H3).
    simpl. rewrite H2. auto.
  - destruct (token_ok _ self pos (m :: ms) HA HQ0 Hc m (or_introl eq_refl)) as (T1 & T2 & T3).
    simpl in Hc. destruct Hc as (H1 & H2 & H3 & _ & H5).
    assert (Hrest : chain text (m_start m) (token sublex self (c_rules c) text m
              :: gaps sublex self (c_rules c) (c_da c) text (m_end m) ms)).
    { simpl. rewrite T2, T3. repeat split; try apply T1; auto. }
    cbn [gaps]. destruct (Nat.ltb_spec pos (m_start m)) as [H|H]; [|eapply chain_weaken; [|exact Hrest]; lia].
    destruct (da_item_ok _ pos (m_start m) HA H ltac:(lia) Hda) as (D1 & D2 & D3).
    cbn [app]. cbn [chain]. rewrite D2, D3. split; [exact D1|]. split; [lia|exact Hrest].
Qed.

Lemma gaps_tchain self : actions_sat sublex tiles c text -> c_da c <> NoDA ->
  forall ms pos, pos <= length text -> mchain (c_match c) text pos ms ->
  tchain text pos (gaps sublex self (c_rules c) (c_da c) text pos ms).
Proof.
  intros HA Hda. assert (HQ0 : forall p, p <= length text -> @tiles B text p p []) by (intros; simpl; lia).
  induction ms as [|m ms IH]; intros pos Hp Hc.
  - simpl. destruct (Nat.ltb_spec pos (length text)) as [H|H]; [|simpl; lia].
    change (from text pos) with (skipn pos text). rewrite <- slice_from. destruct (da_item_ok _ pos (length text) HA H (Nat.le_refl _) Hda) as (H1 & H2 & H3).
    simpl. rewrite H2, H3. auto.
  - destruct (token_ok _ self pos (m :: ms) HA HQ0 Hc m (or_introl eq_refl)) as (T1 & T2 & T3).
    simpl in Hc. destruct Hc as (H1 & H2 & H3 & _ & H5).
    assert (Hrest : tchain text (m_start m) (token sublex self (c_rules c) text m
              :: gaps sublex self (c_rules c) (c_da c) text (m_end m) ms)).
    { cbn [tchain]. rewrite T2, T3. repeat split; try apply T1; auto. }
    cbn [gaps]. destruct (Nat.ltb_spec pos (m_start m)) as [H|H].
    2:{ replace pos with (m_start m) by lia. exact Hrest. }
    destruct (da_item_ok _ pos (m_start m) HA H ltac:(lia) Hda) as (D1 & D2 & D3).
    cbn [app]. cbn [tchain]. rewrite D2, D3. split; [exact D1|]. split; [lia|exact Hrest].
Qed.

Lemma tokens_chain self : actions_sat sublex pieces c text ->
  forall ms pos, mchain (c_match c) text pos ms ->
  chain text pos (map (token sublex self (c_rules c) text) ms).
Proof.
  intros HA. assert (HQ0 : forall p, p <= length text -> @pieces B text p p []) by (intros; simpl; lia).
  induction ms as [|m ms IH]; intros pos Hc; [exact I|].
  destruct (token_ok _ self pos (m :: ms) HA HQ0 Hc m (or_introl eq_refl)) as (T1 & T2 & T3).
  simpl in Hc. destruct Hc as (H1 & H2 & H3 & _ & H5).
  cbn [map chain]. rewrite T2, T3. auto.
Qed.

(** The default target variant. *)
Lemma dt_gen_pieces self dt : actions_sat sublex pieces c text ->
  forall k pos, pos <= length text ->
  (forall it, dt_gen sublex self (c_rules c) (c_match c) dt text pos k = Some it ->
     item_ok pieces text it /\ pos <= i_pos it) /\
  (dt_gen sublex self (c_rules c) (c_match c) dt text pos k = None ->
     dt_gen sublex self (c_rules c) (c_match c) dt text pos (S k) = None) /\
  (forall it it', dt_gen sublex self (c_rules c) (c_match c) dt text pos k = Some it ->
     dt_gen sublex self (c_rules c) (c_match c) dt text pos (S k) = Some it' -> i_end it <= i_pos it').
Proof.
  intros HA. assert (HQ0 : forall p, p <= length text -> @pieces B text p p []) by (intros; simpl; lia).
  assert (Htok : forall pos m, pos <= length text -> c_match c false text pos = Some m ->
    pos = m_start m /\ pos <= m_end m /\ m_end m <= length text /\
    item_ok pieces text (token sublex self (c_rules c) text m)
    /\ i_pos (token sublex self (c_rules c) text m) = m_start m
    /\ i_end (token sublex self (c_rules c) text m) = m_end m).
  { intros pos m Hp E. destruct (Hmat _ _ _ Hp E) as (H1 & H2 & H3 & _).
    repeat split; try lia; try (eapply (token_ok pieces self pos [m] HA HQ0); [|left; reflexivity];
      simpl; repeat split; try lia; exists false; rewrite H1; exact E). }
  assert (Hempty : forall pos, pos < length text ->
    item_ok pieces text (mk_item sublex text pos [] None None dt)).
  { intros pos Hp. unfold item_ok, i_end; simpl. rewrite Nat.add_0_r, slice_nil by lia. repeat split; lia. }
  assert (Hfirst : forall k pos, pos <= length text -> forall it,
     dt_gen sublex self (c_rules c) (c_match c) dt text pos k = Some it ->
     item_ok pieces text it /\ pos <= i_pos it).
  { induction k as [|k IH]; intros pos Hp it E; simpl in E;
      destruct (c_match c false text pos) as [m|] eqn:Em.
    - injection E as <-. destruct (Htok _ _ Hp Em) as (T1 & T2 & T3 & T4 & T5 & T6).
      split; [exact T4|]. lia.
    - destruct (Nat.ltb_spec pos (length text)); [|discriminate]. injection E as <-.
      split; [apply Hempty; assumption|simpl; lia].
    - destruct (Htok _ _ Hp Em) as (T1 & T2 & T3 & T4 & T5 & T6).
      destruct (IH (m_end m) T3 it E). split; [assumption|lia].
    - discriminate. }
  induction k as [|k IH]; intros pos Hp.
  - split; [apply Hfirst, Hp|]. simpl.
    destruct (c_match c false text pos) as [m|] eqn:Em.
    + split; [discriminate|]. intros it it' [= <-] E'.
      destruct (Htok _ _ Hp Em) as (T1 & T2 & T3 & T4 & T5 & T6). rewrite T6.
      destruct (Hfirst 0 (m_end m) T3 it' E') as [_ H]. exact H.
    + split; [reflexivity|]. intros it it' _ [=].
  - split; [apply Hfirst, Hp|].
    cbn [dt_gen]. destruct (c_match c false text pos) as [m|] eqn:Em.
    + destruct (Htok _ _ Hp Em) as (T1 & T2 & T3 & T4 & T5 & T6).
      apply IH, T3.
    + split; [reflexivity|]. intros it it' [=].
Qed.

Lemma dt_gen_finite self dt : no_empty_match (c_match c) text ->
  forall n pos, pos <= length text -> length text - pos < n ->
  gen_finite (dt_gen sublex self (c_rules c) (c_match c) dt text pos).
Proof.
  intros Hne. induction n as [|n IH]; intros pos Hp Hn; [lia|].
  destruct (c_match c false text pos) as [m|] eqn:Em.
  - destruct (Hmat _ _ _ Hp Em) as (H1 & H2 & H3 & _).
    pose proof (Hne _ _ _ Hp Em) as H4.
    destruct (IH (m_end m) H3 ltac:(lia)) as [k Hk].
    exists (S k). simpl. rewrite Em. exact Hk.
  - exists 1. simpl. rewrite Em. reflexivity.
Qed.

(** ** The literal variants *)

Lemma find_from_spec needle t : forall fuel pos i, find_from needle t fuel pos = Some i ->
  pos <= i /\ i + length needle <= length t /\ needle = slice t i (i + length needle).
Proof.
  induction fuel as [|fuel IH]; intros pos i; simpl; [discriminate|].
  destruct (Nat.ltb_spec (length t) (pos + length needle)) as [H|H]; [discriminate|].
  destruct (str_eqb needle (slice t pos (pos + length needle))) eqn:E.
  - intros [= <-]. apply str_eqb_spec in E. auto.
  - intros H1. apply IH in H1. destruct H1 as (H1 & H2). split; [lia|exact H2].
Qed.

Lemma str_find_spec needle t pos i : str_find needle t pos = Some i ->
  pos <= i /\ i + length needle <= length t /\ needle = slice t i (i + length needle).
Proof. apply find_from_spec. Qed.

Lemma needle_item_ok (Q : str -> nat -> nat -> list (lexeme B) -> Prop) needle a t tgt i : actions_sat sublex Q c text ->
  c_rules c = [SRule a t] -> c_needle c = Some needle -> needle <> [] ->
  i + length needle <= length text -> needle = slice text i (i + length needle) ->
  item_ok Q text (mk_item sublex text i needle None (Some a) tgt).
Proof.
  intros (_ & _ & HN) H1 H2 H3 H4 H5. unfold item_ok, i_end; simpl.
  split; [exact H5|]. split; [exact H4|].
  specialize (HN needle a t i H1 H2 H3 H4 H5).
  destruct needle; [congruence|exact HN].
Qed.

Lemma fast_find_chain needle a t tgt : actions_sat sublex pieces c text ->
  c_rules c = [SRule a t] -> c_needle c = Some needle -> needle <> [] ->
  forall fuel pos, pos <= length text ->
  chain text pos (fast_find sublex text needle (c_da c) a tgt fuel pos).
Proof.
  intros HA H1 H2 H3. induction fuel as [|fuel IH]; intros pos Hp; [exact I|].
  cbn [fast_find]. destruct (str_find needle text pos) as [i|] eqn:Ef.
  - destruct (str_find_spec _ _ _ _ Ef) as (F1 & F2 & F3).
    assert (Hrest : chain text i (mk_item sublex text i needle None (Some a) tgt
               :: fast_find sublex text needle (c_da c) a tgt fuel (i + length needle))).
    { cbn [chain]. split; [eapply needle_item_ok; eassumption|]. split; [simpl; lia|].
      unfold i_end; simpl. apply IH. lia. }
    destruct (c_da c) as [|a0|f] eqn:Eda.
    + simpl app. eapply chain_weaken; [|exact Hrest]. exact F1.
    + destruct (Nat.ltb_spec pos i) as [Hlt|]; [|eapply chain_weaken; [|exact Hrest]; lia].
      destruct (da_item_ok pieces pos i HA Hlt ltac:(lia) ltac:(congruence)) as (D1 & D2 & D3).
      rewrite Eda in *. cbn [app chain]. rewrite D2, D3. split; [exact D1|]. split; [lia|exact Hrest].
    + destruct (Nat.ltb_spec pos i) as [Hlt|]; [|eapply chain_weaken; [|exact Hrest]; lia].
      destruct (da_item_ok pieces pos i HA Hlt ltac:(lia) ltac:(congruence)) as (D1 & D2 & D3).
      rewrite Eda in *. cbn [app chain]. rewrite D2, D3. split; [exact D1|]. split; [lia|exact Hrest].
  - destruct (c_da c) as [|a0|f] eqn:Eda; [exact I| |];
    (destruct (Nat.ltb_spec pos (length text)) as [H|H]; [|exact I];
     change (from text pos) with (skipn pos text); rewrite <- slice_from;
     destruct (da_item_ok pieces pos (length text) HA H (Nat.le_refl _) ltac:(congruence)) as (D1 & D2 & D3);
     rewrite Eda in *; cbn [chain]; rewrite D2; auto).
Qed.

Lemma str_find_advances needle t pos i : needle <> [] -> str_find needle t pos = Some i ->
  length t - (i + length needle) < length t - pos.
Proof.
  intros Hn H. apply str_find_spec in H. destruct needle; [congruence|]. simpl in *. lia.
Qed.

Lemma fast_find_tchain needle a t tgt : actions_sat sublex tiles c text ->
  c_rules c = [SRule a t] -> c_needle c = Some needle -> needle <> [] -> c_da c <> NoDA ->
  forall fuel pos, pos <= length text -> length text - pos < fuel ->
  tchain text pos (fast_find sublex text needle (c_da c) a tgt fuel pos).
Proof.
  intros HA H1 H2 H3 Hda. induction fuel as [|fuel IH]; intros pos Hp Hfuel; [lia|].
  cbn [fast_find]. destruct (str_find needle text pos) as [i|] eqn:Ef.
  - destruct (str_find_spec _ _ _ _ Ef) as (F1 & F2 & F3).
    pose proof (str_find_advances _ _ _ _ H3 Ef) as F4.
    assert (Hrest : tchain text i (mk_item sublex text i needle None (Some a) tgt
               :: fast_find sublex text needle (c_da c) a tgt fuel (i + length needle))).
    { cbn [tchain]. split; [eapply needle_item_ok; eassumption|]. split; [reflexivity|].
      unfold i_end; simpl. apply IH; lia. }
    destruct (c_da c) as [|a0|f] eqn:Eda; [congruence| |];
    (destruct (Nat.ltb_spec pos i) as [Hlt|]; [|replace pos with i by lia; exact Hrest];
      destruct (da_item_ok tiles pos i HA Hlt ltac:(lia) ltac:(congruence)) as (D1 & D2 & D3);
      rewrite Eda in *; cbn [app tchain]; rewrite D2, D3; split; [exact D1|]; split; [lia|exact Hrest]).
  - destruct (c_da c) as [|a0|f] eqn:Eda; [congruence| |];
    (destruct (Nat.ltb_spec pos (length text)) as [H|H]; [|simpl; lia];
     change (from text pos) with (skipn pos text); rewrite <- slice_from;
     destruct (da_item_ok tiles pos (length text) HA H (Nat.le_refl _) ltac:(congruence)) as (D1 & D2 & D3);
     rewrite Eda in *; cbn [tchain]; rewrite D2, D3; auto).
Qed.

Lemma fast_dt_chain needle a t tgt dt : actions_sat sublex pieces c text ->
  c_rules c = [SRule a t] -> c_needle c = Some needle -> needle <> [] ->
  forall fuel pos, pos <= length text ->
  chain text pos (fast_dt sublex text needle a tgt dt fuel pos).
Proof.
  intros HA H1 H2 H3. induction fuel as [|fuel IH]; intros pos Hp; [exact I|].
  cbn [fast_dt]. destruct (str_eqb needle (slice text pos (pos + length needle))) eqn:E.
  - apply str_eqb_spec in E.
    assert (Hle : pos + length needle <= length text).
    { pose proof (f_equal (@length nat) E) as El. rewrite slice_length in El.
      destruct needle; [congruence|]. simpl in *. lia. }
    cbn [chain]. split; [eapply needle_item_ok; eassumption|]. split; [simpl; lia|].
    unfold i_end; simpl. apply IH, Hle.
  - destruct (Nat.ltb_spec pos (length text)); [|exact I].
    cbn [chain]. unfold item_ok, i_end; simpl. rewrite Nat.add_0_r, slice_nil by lia. repeat split; lia.
Qed.

(** ** All variants *)

Lemma lexicon_pieces self pos : actions_sat sublex pieces c text -> pos <= length text ->
  gen_pieces text pos (lexicon_parse sublex self c text pos).
Proof.
  intros HA Hp.
  assert (Hregex : gen_pieces text pos (parse_regex sublex self c text pos)).
  { unfold parse_regex. pose proof (finditer_mchain _ _ pos Hmat) as Hf.
    destruct (c_da c) as [|a|f] eqn:Eda.
    - destruct (c_dt c) as [dt|].
      + pose proof (dt_gen_pieces self (Some dt) HA) as HD.
        split; [|split].
        * intros k. apply HD, Hp.
        * intros k it E. destruct (proj1 (HD k pos Hp) it E) as [(I1 & I2 & I3) I4]. auto.
        * intros k it it'. apply HD, Hp.
      + apply chain_gen, tokens_chain; assumption.
    - apply chain_gen. rewrite <- Eda. apply gaps_chain; auto. congruence.
    - apply chain_gen. rewrite <- Eda. apply gaps_chain; auto. congruence. }
  unfold lexicon_parse. destruct (c_rules c) as [|r [|r' rs]] eqn:Er.
  - unfold parse_empty. apply chain_gen.
    destruct (Nat.ltb_spec pos (length text)) as [H|H]; [|exact I].
    change (from text pos) with (skipn pos text). rewrite <- slice_from.
    destruct (c_da c) as [|a|f] eqn:Eda.
    + destruct (c_dt c); [|exact I].
      cbn [chain]. unfold item_ok, i_end; simpl. rewrite Nat.add_0_r, slice_nil by lia. repeat split; lia.
    + destruct (da_item_ok pieces pos (length text) HA H (Nat.le_refl _) ltac:(congruence)) as (D1 & D2 & D3).
      rewrite Eda in *. cbn [chain]. rewrite D2. auto.
    + destruct (da_item_ok pieces pos (length text) HA H (Nat.le_refl _) ltac:(congruence)) as (D1 & D2 & D3).
      rewrite Eda in *. cbn [chain]. rewrite D2. auto.
  - destruct r as [a t|eval]; [|exact Hregex].
    destruct (c_needle c) as [[|n needle]|] eqn:En; [exact Hregex| |exact Hregex].
    unfold parse_fast. destruct (c_da c) as [|a0|f] eqn:Eda.
    + destruct (c_dt c) as [dt|].
      * apply chain_gen. eapply fast_dt_chain; eauto. discriminate.
      * apply chain_gen. rewrite <- Eda. eapply fast_find_chain; eauto. discriminate.
    + apply chain_gen. rewrite <- Eda. eapply fast_find_chain; eauto. discriminate.
    + apply chain_gen. rewrite <- Eda. eapply fast_find_chain; eauto. discriminate.
  - destruct r; exact Hregex.
Qed.

Lemma lexicon_tiles self pos : actions_sat sublex tiles c text -> c_da c <> NoDA -> pos <= length text ->
  gen_tiles text pos (lexicon_parse sublex self c text pos).
Proof.
  intros HA Hda Hp.
  assert (Hregex : gen_tiles text pos (parse_regex sublex self c text pos)).
  { unfold parse_regex. pose proof (finditer_mchain _ _ pos Hmat) as Hf.
    destruct (c_da c) as [|a|f] eqn:Eda; [congruence| |];
    apply tchain_gen; rewrite <- Eda; apply gaps_tchain; auto; congruence. }
  unfold lexicon_parse. destruct (c_rules c) as [|r [|r' rs]] eqn:Er.
  - unfold parse_empty. apply tchain_gen.
    destruct (Nat.ltb_spec pos (length text)) as [H|H]; [|simpl; lia].
    change (from text pos) with (skipn pos text). rewrite <- slice_from.
    destruct (da_item_ok tiles pos (length text) HA H (Nat.le_refl _) Hda) as (D1 & D2 & D3).
    destruct (c_da c) as [|a|f] eqn:Eda; [congruence| |]; cbn [tchain]; rewrite ?D2, ?D3; auto.
  - destruct r as [a t|eval]; [|exact Hregex].
    destruct (c_needle c) as [[|n needle]|] eqn:En; [exact Hregex| |exact Hregex].
    unfold parse_fast. destruct (c_da c) as [|a0|f] eqn:Eda; [congruence| |];
      (apply tchain_gen; rewrite <- Eda; eapply fast_find_tchain; eauto; try discriminate; try congruence; lia).
  - destruct r; exact Hregex.
Qed.

Lemma lexicon_finite self pos : pos <= length text ->
  no_empty_match (c_match c) text \/ c_da c <> NoDA \/ c_dt c = None ->
  gen_finite (lexicon_parse sublex self c text pos).
Proof.
  intros Hp Hor.
  assert (Hregex : gen_finite (parse_regex sublex self c text pos)).
  { unfold parse_regex. destruct (c_da c) as [|a|f]; [|apply nth_error_finite|apply nth_error_finite].
    destruct (c_dt c) as [dt|]; [|apply nth_error_finite].
    destruct Hor as [Hne|[Hx|Hx]]; [|congruence|congruence].
    eapply dt_gen_finite; [exact Hne|exact Hp|apply Nat.lt_succ_diag_r]. }
  unfold lexicon_parse. destruct (c_rules c) as [|r [|r' rs]].
  - apply nth_error_finite.
  - destruct r as [a t|eval]; [|exact Hregex].
    destruct (c_needle c) as [[|n needle]|]; [exact Hregex| |exact Hregex].
    apply nth_error_finite.
  - destruct r; exact Hregex.
Qed.

End Proofs.
