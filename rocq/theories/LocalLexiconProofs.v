(** A local lexicon gives a local parse function. *)
From Verif Require Import Base BaseFacts TargetModel LexerModel LexerSpec LexiconModel LexiconSpec LexiconProofs FastPathProofs ActionProofs
  RebuildSpec LocalLexiconSpec.
From Coq Require Import ZArith ZifyBool.

Lemma move_0 p : move_pos 0 p = p.
Proof. unfold move_pos. lia. Qed.

Lemma slice_same {T} (a b : list T) m i j : firstn m a = firstn m b -> j <= m -> slice a i j = slice b i j.
Proof.
  intros H Hj. unfold slice.
  assert (E : forall l : list T, firstn (j - i) (skipn i l) = skipn i (firstn j (firstn m l))).
  { intros l. rewrite firstn_firstn, Nat.min_l by lia. rewrite skipn_firstn_comm. reflexivity. }
  rewrite !E, H. reflexivity.
Qed.

Lemma slice_moved {T} (a b : list T) q q' i j d : skipn q a = skipn q' b -> d = (Z.of_nat q' - Z.of_nat q)%Z -> q <= i -> q <= j ->
  slice b (move_pos d i) (move_pos d j) = slice a i j.
Proof.
  intros H -> Hi Hj. unfold slice. replace (move_pos _ j - move_pos _ i) with (j - i) by (unfold move_pos; lia). f_equal.
  replace (move_pos (Z.of_nat q' - Z.of_nat q) i) with (q' + (i - q)) by (unfold move_pos; lia). replace i with (q + (i - q)) at 2 by lia.
  rewrite <- !skipn_skipn, H. reflexivity.
Qed.

Section Proofs.
Variables L B : Type.
Variable sublex : L -> str -> list (lexeme B).
Notation item := (item L B).

(** ** Actions *)

Definition group_moved (d : Z) (text text' : str) (g : option (nat * nat)) : Prop :=
  match g with
  | Some (i, j) => (0 <= Z.of_nat i + d)%Z /\ slice text' (move_pos d i) (move_pos d j) = slice text i j
  | None => True
  end.
Definition match_moved (d : Z) (text text' : str) (m : option mtch) : Prop :=
  match m with Some m => Forall (group_moved d text text') (m_groups m) | None => True end.

Fixpoint act_moved (a : action L B) {struct a} : forall d text text' pos txt m,
  (0 <= Z.of_nat pos + d)%Z -> match_moved d text text' m ->
  act_lexemes sublex text' a (move_pos d pos) txt (option_map (move_match d) m) = map (shift_lexeme d) (act_lexemes sublex text a pos txt m).
Proof.
  intros d text text' pos txt m Hp Hm. destruct a as [b| |l|l|f]; cbn [act_lexemes].
  - destruct txt; reflexivity.
  - reflexivity.
  - rewrite map_map. apply map_ext. intros x. unfold LexiconModel.shift_lexeme, shift_lexeme. cbn [x_pos x_text x_act]. f_equal. unfold move_pos. lia.
  - destruct m as [m|]; [|reflexivity]. cbn [option_map move_match m_groups]. cbn [match_moved] in Hm.
    pose proof Hm as Hm0. revert Hm. generalize (m_groups m) as gs. induction l as [|a l IH]; intros gs Hgs; [reflexivity|].
    destruct gs as [|g gs]; [reflexivity|]. inversion Hgs as [|? ? Hg Hgs']; subst. cbn [map]. destruct g as [[i j]|]; cbn [move_span].
    + destruct Hg as [Hi Es]. rewrite Es, map_app. f_equal; [|apply IH, Hgs'].
      exact (act_moved a d text text' i (slice text i j) (Some m) Hi Hm0).
    + apply IH, Hgs'.
  - generalize (f txt) as l. induction l as [|a l IH]; [reflexivity|]. rewrite map_app. f_equal; [|exact IH]. apply act_moved; assumption.
Qed.

Lemma mk_item_moved d text text' pos txt m (a : option (action L B)) t : (0 <= Z.of_nat pos + d)%Z -> match_moved d text text' m ->
  mk_item sublex text' (move_pos d pos) txt (option_map (move_match d) m) a t = shift_item d (mk_item sublex text pos txt m a t).
Proof.
  intros Hp Hm. unfold mk_item, shift_item. cbn [i_pos i_txt i_lexemes i_target]. f_equal.
  destruct txt as [|x txt]; [reflexivity|]. destruct a as [a|]; [|reflexivity]. apply act_moved; assumption.
Qed.

Variable c : compiled L B.
Variable K : nat.
Hypothesis HL : local_lexicon sublex K c.
Notation mat := (c_match c).
Notation rules := (c_rules c).
Variable self : L.

Lemma token_moved d text text' m : (0 <= Z.of_nat (m_start m) + d)%Z -> match_moved d text text' (Some m) ->
  slice text' (move_pos d (m_start m)) (move_pos d (m_end m)) = slice text (m_start m) (m_end m) ->
  token sublex self rules text' (move_match d m) = shift_item d (token sublex self rules text m).
Proof.
  intros Hp Hm Es. unfold token. cbn [move_match m_start m_end m_rule]. rewrite Es.
  destruct (nth_error rules (m_rule m)) as [[a t|eval]|] eqn:E.
  - exact (mk_item_moved d text text' (m_start m) _ (Some m) (Some a) _ Hp Hm).
  - change (Mtch (move_pos d (m_start m)) (move_pos d (m_end m)) (m_rule m) (map (move_span d) (m_groups m))) with (move_match d m).
    rewrite (ll_eval HL eval m _ d) by (eapply nth_error_In; exact E). destruct (eval m _) as [a t].
    exact (mk_item_moved d text text' (m_start m) _ (Some m) (Some a) _ Hp Hm).
  - exact (mk_item_moved d text text' (m_start m) _ (Some m) None _ Hp Hm).
Qed.

Lemma da_moved d text text' da pos t : (0 <= Z.of_nat pos + d)%Z ->
  da_item sublex text' da (move_pos d pos) t = shift_item d (da_item sublex text da pos t).
Proof.
  intros Hp. unfold da_item. destruct da; apply (mk_item_moved d text text' pos t None); (exact Hp || exact I).
Qed.

(** ** The matches *)

Lemma match_facts adv text p m : p <= length text -> mat adv text p = Some m ->
  m_start m = p /\ p < m_end m <= length text /\ groups_ok p (m_end m) (m_groups m).
Proof.
  intros Hp E. destruct (ll_ok HL text adv p m Hp E) as (E1 & E2 & E3 & _). pose proof (ll_nonempty HL text adv p m Hp E) as E4.
  destruct (ll_wf HL text) as (W & _). destruct (W adv p m Hp E) as [_ W2]. rewrite E1 in *. split; [reflexivity|]. split; [lia|exact W2].
Qed.

Lemma groups_inside lo hi gs i j : groups_ok lo hi gs -> In (Some (i, j)) gs -> lo <= i /\ i <= j /\ j <= hi.
Proof.
  revert lo. induction gs as [|[[a b]|] gs IH]; intros lo H Hin; [destruct Hin| |].
  - cbn [groups_ok] in H. destruct H as (H1 & H2 & H3 & H4). destruct Hin as [E|Hin]; [injection E as <- <-; lia|].
    specialize (IH _ H4 Hin). lia.
  - cbn [groups_ok] in H. destruct Hin as [E|Hin]; [discriminate|]. exact (IH _ H Hin).
Qed.

(** A match in the text, seen from another text that has the same characters. *)
Lemma match_moved_suffix d text text' q q' m : skipn q text = skipn q' text' -> d = (Z.of_nat q' - Z.of_nat q)%Z ->
  q <= m_start m -> groups_ok (m_start m) (m_end m) (m_groups m) -> match_moved d text text' (Some m).
Proof.
  intros Hs Hd Hq Hg. apply Forall_forall. intros [[i j]|] Hin; [|exact I]. destruct (groups_inside _ _ _ _ _ Hg Hin) as (G1 & G2 & G3).
  split; [lia|]. apply (slice_moved text text' q q'); [exact Hs|exact Hd|lia|lia].
Qed.

Lemma match_moved_prefix text text' m n : firstn n text = firstn n text' -> m_end m <= n ->
  groups_ok (m_start m) (m_end m) (m_groups m) -> match_moved 0 text text' (Some m).
Proof.
  intros Hs Hn Hg. apply Forall_forall. intros [[i j]|] Hin; [|exact I]. destruct (groups_inside _ _ _ _ _ Hg Hin) as (G1 & G2 & G3).
  split; [lia|]. rewrite !move_0. symmetry. apply (slice_same text text' n); [exact Hs|lia].
Qed.

Lemma move_match_0 m : move_match 0 m = m.
Proof.
  destruct m as [a b r g]. unfold move_match. cbn [m_start m_end m_rule m_groups]. rewrite !move_0. f_equal.
  induction g as [|[[i j]|] g IH]; [reflexivity| |]; cbn [map move_span]; rewrite IH; [rewrite !move_0|]; reflexivity.
Qed.
Lemma shift_item_0 (it : item) : shift_item 0 it = it.
Proof.
  destruct it as [p t x g]. unfold shift_item. cbn [i_pos i_txt i_lexemes i_target]. rewrite move_0. f_equal.
  induction x as [|y x IH]; [reflexivity|]. cbn [map]. rewrite IH. f_equal. destruct y as [yp yt ya]. unfold shift_lexeme. cbn [x_pos x_text x_act]. rewrite move_0. reflexivity.
Qed.

Lemma token_prefix text text' m n : firstn n text = firstn n text' -> m_end m <= n -> groups_ok (m_start m) (m_end m) (m_groups m) ->
  token sublex self rules text' m = token sublex self rules text m.
Proof.
  intros Hs Hn Hg. pose proof (token_moved 0 text text' m ltac:(lia) (match_moved_prefix text text' m n Hs Hn Hg)) as E.
  rewrite !move_0, move_match_0, shift_item_0 in E. apply E. symmetry. apply (slice_same text text' n); [exact Hs|exact Hn].
Qed.
Lemma da_prefix text text' da pos t : da_item sublex text' da pos t = da_item sublex text da pos t.
Proof. pose proof (da_moved 0 text text' da pos t ltac:(lia)) as E. rewrite move_0, shift_item_0 in E. exact E. Qed.

(** The matches found from [pos] on. *)
Fixpoint good_matches (text : str) (pos : nat) (ms : list mtch) : Prop :=
  match ms with
  | [] => True
  | m :: ms => pos <= m_start m /\ m_start m < m_end m <= length text /\ groups_ok (m_start m) (m_end m) (m_groups m) /\ good_matches text (m_end m) ms
  end.

Lemma scan_good text fuel : forall adv pos, good_matches text pos (scan mat text fuel adv pos).
Proof.
  induction fuel as [|fuel IH]; intros adv pos; [exact I|]. cbn [scan]. destruct (Nat.ltb_spec (length text) pos) as [H|H]; [exact I|].
  destruct (mat adv text pos) as [m|] eqn:E.
  - destruct (match_facts _ _ _ _ H E) as (E1 & E2 & E3). cbn [good_matches]. rewrite E1. repeat split; try lia; [exact E3|apply IH].
  - specialize (IH false (S pos)). destruct (scan mat text fuel false (S pos)) as [|m ms]; [exact I|]. cbn [good_matches] in *.
    destruct IH as (H1 & H2). split; [lia|exact H2].
Qed.

Lemma scan_fuel text : forall fuel fuel' pos, S (length text) - pos <= fuel -> S (length text) - pos <= fuel' ->
  scan mat text fuel false pos = scan mat text fuel' false pos.
Proof.
  induction fuel as [|fuel IH]; intros fuel' pos H1 H2.
  - destruct fuel' as [|fuel']; [reflexivity|]. cbn [scan]. destruct (Nat.ltb_spec (length text) pos); [reflexivity|lia].
  - destruct fuel' as [|fuel']; cbn [scan]; destruct (Nat.ltb_spec (length text) pos) as [H|H]; try reflexivity; [lia|].
    destruct (mat false text pos) as [m|] eqn:E.
    + destruct (match_facts _ _ _ _ H E) as (E1 & E2 & E3). rewrite E1. destruct (Nat.eqb_spec (m_end m) pos) as [Eq|_]; [lia|]. f_equal. apply IH; lia.
    + apply IH; lia.
Qed.

(** [finditer], one position at a time. *)
Lemma finditer_step text pos : finditer mat text pos =
  if length text <? pos then [] else
  match mat false text pos with
  | Some m => m :: finditer mat text (m_end m)
  | None => finditer mat text (S pos)
  end.
Proof.
  unfold finditer. replace (2 * S (length text - pos)) with (S (S (2 * (length text - pos)))) by lia. set (f := S (2 * (length text - pos))). cbn [scan].
  destruct (Nat.ltb_spec (length text) pos) as [H|H]; [reflexivity|]. destruct (mat false text pos) as [m|] eqn:E.
  - destruct (match_facts _ _ _ _ H E) as (E1 & E2 & E3). rewrite E1. destruct (Nat.eqb_spec (m_end m) pos) as [Eq|_]; [lia|]. f_equal.
    apply scan_fuel; unfold f; lia.
  - apply scan_fuel; unfold f; lia.
Qed.

Lemma pos_ind (P : nat -> Prop) (n : nat) : (forall pos, n < pos -> P pos) -> (forall pos, pos <= n -> (forall p, pos < p -> P p) -> P pos) -> forall pos, P pos.
Proof.
  intros H1 H2. assert (H : forall k pos, S n - pos <= k -> P pos).
  { induction k as [|k IH]; intros pos Hk; [apply H1; lia|]. destruct (Nat.le_gt_cases pos n) as [Hle|Hgt]; [|apply H1, Hgt].
    apply H2; [exact Hle|]. intros p Hp. apply IH. lia. }
  intros pos. apply (H (S n)). lia.
Qed.

Lemma finditer_cons text : forall pos m ms, finditer mat text pos = m :: ms ->
  pos <= m_start m /\ m_start m < m_end m <= length text /\ groups_ok (m_start m) (m_end m) (m_groups m)
  /\ (forall p, pos <= p < m_start m -> mat false text p = None) /\ mat false text (m_start m) = Some m /\ ms = finditer mat text (m_end m).
Proof.
  refine (pos_ind _ (length text) _ _).
  - intros pos H m ms E. rewrite finditer_step in E. destruct (Nat.ltb_spec (length text) pos); [discriminate|lia].
  - intros pos H IH m ms E. rewrite finditer_step in E. destruct (Nat.ltb_spec (length text) pos); [discriminate|].
    destruct (mat false text pos) as [m'|] eqn:Em.
    + injection E as -> <-. destruct (match_facts _ _ _ _ H Em) as (E1 & E2 & E3). rewrite E1. repeat split; try lia; auto.
    + destruct (IH (S pos) ltac:(lia) m ms E) as (I1 & I2 & I3 & I4 & I5 & I6). repeat split; try lia; auto.
      intros p Hp. destruct (Nat.eq_dec p pos) as [->|]; [exact Em|apply I4; lia].
Qed.

Lemma finditer_found text pos m : pos <= m_start m <= length text -> (forall p, pos <= p < m_start m -> mat false text p = None) -> mat false text (m_start m) = Some m ->
  finditer mat text pos = m :: finditer mat text (m_end m).
Proof.
  intros Hp Hn Hm. remember (m_start m - pos) as k eqn:Ek. revert pos Hp Hn Ek. induction k as [|k IH]; intros pos Hp Hn Ek; rewrite finditer_step;
    destruct (Nat.ltb_spec (length text) pos); try lia.
  - replace pos with (m_start m) by lia. rewrite Hm. reflexivity.
  - rewrite Hn by lia. apply IH; [lia| |lia]. intros p Hp'. apply Hn. lia.
Qed.

Lemma finditer_at text pos m ms : finditer mat text pos = m :: ms -> finditer mat text (m_start m) = m :: ms.
Proof.
  intros E. destruct (finditer_cons _ _ _ _ E) as (I1 & I2 & I3 & I4 & I5 & ->). apply finditer_found; [lia| |exact I5]. intros p Hp. lia.
Qed.

(** ** The three kinds of parse functions *)

Lemma finditer_moved text text' q q' : q <= length text -> q' <= length text' -> skipn q text = skipn q' text' ->
  finditer mat text' q' = map (move_match (Z.of_nat q' - Z.of_nat q)) (finditer mat text q).
Proof.
  intros Hq Hq' Hs. set (d := (Z.of_nat q' - Z.of_nat q)%Z).
  assert (Hlen : length text - q = length text' - q') by (rewrite <- !skipn_length, Hs; reflexivity).
  unfold finditer. rewrite <- Hlen. generalize (2 * S (length text - q)) as fuel. generalize false as adv.
  assert (H : forall fuel adv p, q <= p -> scan mat text' fuel adv (move_pos d p) = map (move_match d) (scan mat text fuel adv p)).
  { induction fuel as [|fuel IH]; intros adv p Hp; [reflexivity|]. cbn [scan].
    destruct (Nat.ltb_spec (length text) p) as [H|H]; destruct (Nat.ltb_spec (length text') (move_pos d p)) as [H'|H'];
      try (exfalso; unfold move_pos, d in H'; lia); [reflexivity|].
    rewrite (ll_suffix HL adv text text' p (move_pos d p)); [|exact H|exact H'|].
    - replace (Z.of_nat (move_pos d p) - Z.of_nat p)%Z with d by (unfold move_pos, d; lia).
      destruct (mat adv text p) as [m|] eqn:E; cbn [option_map map].
      + destruct (match_facts _ _ _ _ H E) as (E1 & E2 & E3). cbn [move_match m_start m_end]. f_equal. rewrite <- IH by lia. f_equal.
        rewrite E1. destruct (Nat.eqb_spec (m_end m) p); destruct (Nat.eqb_spec (move_pos d (m_end m)) (move_pos d p)); try reflexivity; exfalso; unfold move_pos, d in *; lia.
      + rewrite <- IH by lia. f_equal. unfold move_pos, d. lia.
    - replace (move_pos d p) with (q' + (p - q)) by (unfold move_pos, d; lia). replace p with (q + (p - q)) at 1 by lia. rewrite <- !skipn_skipn, Hs. reflexivity. }
  intros adv fuel. replace q' with (move_pos d q) by (unfold move_pos, d; lia). apply H. lia.
Qed.

Notation GAPS := (gaps sublex self rules (c_da c)).
Notation TOK := (token sublex self rules).

Lemma gaps_moved text text' q q' d : skipn q text = skipn q' text' -> q <= length text -> q' <= length text' -> d = (Z.of_nat q' - Z.of_nat q)%Z ->
  forall ms pos, q <= pos -> good_matches text pos ms -> GAPS text' (move_pos d pos) (map (move_match d) ms) = map (shift_item d) (GAPS text pos ms).
Proof.
  intros Hs Hq Hq' Hd. assert (Hlen : length text - q = length text' - q') by (rewrite <- !skipn_length, Hs; reflexivity).
  induction ms as [|m ms IH]; intros pos Hp Hg; cbn [gaps map].
  - assert (E : (move_pos d pos <? length text') = (pos <? length text)) by (unfold move_pos; subst d; apply eq_true_iff_eq; rewrite !Nat.ltb_lt; lia).
    rewrite E. destruct (pos <? length text); [|reflexivity]. cbn [map]. f_equal. unfold from.
    rewrite <- (da_moved d text text') by lia. f_equal. replace (move_pos d pos) with (q' + (pos - q)) by (unfold move_pos; subst d; lia).
    replace pos with (q + (pos - q)) at 2 by lia. rewrite <- !skipn_skipn, Hs. reflexivity.
  - cbn [good_matches] in Hg. destruct Hg as (G1 & G2 & G3 & G4). rewrite map_app. cbn [map]. cbn [move_match m_start m_end].
    assert (E : (move_pos d pos <? move_pos d (m_start m)) = (pos <? m_start m)) by (unfold move_pos; subst d; apply eq_true_iff_eq; rewrite !Nat.ltb_lt; lia).
    rewrite E. f_equal.
    + destruct (pos <? m_start m); [|reflexivity]. cbn [map]. f_equal. rewrite <- (da_moved d text text') by lia. f_equal.
      apply (slice_moved text text' q q'); [exact Hs|exact Hd|lia|lia].
    + f_equal; [|apply IH; [lia|exact G4]]. apply token_moved; [lia| |].
      * apply (match_moved_suffix d text text' q q'); [exact Hs|exact Hd|lia|exact G3].
      * apply (slice_moved text text' q q'); [exact Hs|exact Hd|lia|lia].
Qed.

Lemma tokens_moved text text' q q' d : skipn q text = skipn q' text' -> d = (Z.of_nat q' - Z.of_nat q)%Z ->
  forall ms pos, q <= pos -> good_matches text pos ms -> map (TOK text') (map (move_match d) ms) = map (shift_item d) (map (TOK text) ms).
Proof.
  intros Hs Hd. induction ms as [|m ms IH]; intros pos Hp Hg; [reflexivity|]. cbn [good_matches] in Hg. destruct Hg as (G1 & G2 & G3 & G4). cbn [map].
  f_equal; [|apply (IH (m_end m)); [lia|exact G4]]. apply token_moved; [lia| |].
  - apply (match_moved_suffix d text text' q q'); [exact Hs|exact Hd|lia|exact G3].
  - apply (slice_moved text text' q q'); [exact Hs|exact Hd|lia|lia].
Qed.

Lemma dt_moved dt text text' q q' d : skipn q text = skipn q' text' -> q <= length text -> q' <= length text' -> d = (Z.of_nat q' - Z.of_nat q)%Z ->
  forall k pos, q <= pos <= length text -> dt_gen sublex self rules mat dt text' (move_pos d pos) k = option_map (shift_item d) (dt_gen sublex self rules mat dt text pos k).
Proof.
  intros Hs Hq Hq' Hd. assert (Hlen : length text - q = length text' - q') by (rewrite <- !skipn_length, Hs; reflexivity).
  assert (Hm : forall pos, q <= pos <= length text -> mat false text' (move_pos d pos) = option_map (move_match d) (mat false text pos)).
  { intros pos Hp. rewrite (ll_suffix HL false text text' pos (move_pos d pos)).
    - f_equal. f_equal. unfold move_pos; subst d; lia.
    - lia.
    - unfold move_pos; subst d; lia.
    - replace (move_pos d pos) with (q' + (pos - q)) by (unfold move_pos; subst d; lia). replace pos with (q + (pos - q)) at 1 by lia. rewrite <- !skipn_skipn, Hs. reflexivity. }
  induction k as [|k IH]; intros pos Hp; cbn [dt_gen]; rewrite (Hm pos Hp); destruct (mat false text pos) as [m|] eqn:E; cbn [option_map]; try reflexivity.
  - destruct (match_facts _ _ _ _ (proj2 Hp) E) as (E1 & E2 & E3). f_equal. rewrite <- E1 in E3. apply token_moved; [lia| |].
    + apply (match_moved_suffix d text text' q q'); [exact Hs|exact Hd|lia|exact E3].
    + apply (slice_moved text text' q q'); [exact Hs|exact Hd|lia|lia].
  - assert (El : (move_pos d pos <? length text') = (pos <? length text)) by (unfold move_pos; subst d; apply eq_true_iff_eq; rewrite !Nat.ltb_lt; lia).
    rewrite El. destruct (pos <? length text); [|reflexivity]. cbn [option_map]. reflexivity.
  - destruct (match_facts _ _ _ _ (proj2 Hp) E) as (E1 & E2 & E3). cbn [move_match m_end]. apply IH. lia.
Qed.

Lemma regex_moved text text' q q' k : q <= length text -> q' <= length text' -> skipn q text = skipn q' text' ->
  parse_regex sublex self c text' q' k = option_map (shift_item (Z.of_nat q' - Z.of_nat q)) (parse_regex sublex self c text q k).
Proof.
  intros Hq Hq' Hs. set (d := (Z.of_nat q' - Z.of_nat q)%Z). assert (Eq : q' = move_pos d q) by (unfold move_pos, d; lia).
  pose proof (finditer_moved text text' q q' Hq Hq' Hs) as Hf. fold d in Hf.
  pose proof (scan_good text (2 * S (length text - q)) false q) as Hg. fold (finditer mat text q) in Hg.
  assert (H1 : GAPS text' q' (finditer mat text' q') = map (shift_item d) (GAPS text q (finditer mat text q))).
  { rewrite Hf. rewrite Eq at 1. apply (gaps_moved text text' q q' d Hs Hq Hq' eq_refl _ q); [lia|exact Hg]. }
  unfold parse_regex. destruct (c_da c) as [|a|f] eqn:Eda; [destruct (c_dt c) as [dt|]| |]; rewrite ?H1, ?nth_error_map; try reflexivity.
  - rewrite Eq at 1. apply (dt_moved (Some dt) text text' q q' d Hs Hq Hq' eq_refl). lia.
  - rewrite <- !nth_error_map. f_equal. rewrite Hf. apply (tokens_moved text text' q q' d Hs eq_refl _ q); [lia|exact Hg].
Qed.

Lemma empty_moved text text' q q' k : q <= length text -> q' <= length text' -> skipn q text = skipn q' text' ->
  parse_empty sublex c text' q' k = option_map (shift_item (Z.of_nat q' - Z.of_nat q)) (parse_empty sublex c text q k).
Proof.
  intros Hq Hq' Hs. set (d := (Z.of_nat q' - Z.of_nat q)%Z). assert (Eq : q' = move_pos d q) by (unfold move_pos, d; lia).
  assert (Hlen : length text - q = length text' - q') by (rewrite <- !skipn_length, Hs; reflexivity).
  unfold parse_empty. rewrite <- nth_error_map. f_equal.
  assert (El : (q' <? length text') = (q <? length text)) by (apply eq_true_iff_eq; rewrite !Nat.ltb_lt; lia).
  assert (Hda : da_item sublex text' (c_da c) q' (from text' q') = shift_item d (da_item sublex text (c_da c) q (from text q))).
  { unfold from. rewrite <- Hs. rewrite Eq. apply da_moved. unfold d. lia. }
  rewrite El. destruct (q <? length text); [|reflexivity].
  destruct (c_da c) as [|a|f] eqn:Eda; [destruct (c_dt c) as [dt|]| |]; cbn [map]; rewrite ?Hda; try reflexivity.
  f_equal. rewrite Eq. apply (mk_item_moved d text text' q [] None None); [unfold d; lia|exact I].
Qed.

(** Starting at an item. *)
Lemma token_pos text m : i_pos (TOK text m) = m_start m.
Proof. unfold token. destruct (nth_error rules (m_rule m)) as [[a t|eval]|]; try reflexivity. destruct (eval m _); reflexivity. Qed.
Lemma token_txt text m : i_txt (TOK text m) = slice text (m_start m) (m_end m).
Proof. unfold token. destruct (nth_error rules (m_rule m)) as [[a t|eval]|]; try reflexivity. destruct (eval m _); reflexivity. Qed.
Lemma da_pos text da i t : i_pos (da_item sublex (L := L) text da i t) = i.
Proof. unfold da_item. destruct da; reflexivity. Qed.
Lemma da_txt text da i t : i_txt (da_item sublex (L := L) text da i t) = t.
Proof. unfold da_item. destruct da; reflexivity. Qed.
Lemma da_target text da i t : i_target (da_item sublex (L := L) text da i t) = None.
Proof. unfold da_item. destruct da; reflexivity. Qed.

Definition items (text : str) (pos : nat) := GAPS text pos (finditer mat text pos).

Lemma items_resume text : forall pos k it, nth_error (items text pos) k = Some it -> forall j, nth_error (items text (i_pos it)) j = nth_error (items text pos) (k + j).
Proof.
  refine (pos_ind _ (length text) _ _).
  - intros pos H k it E. unfold items in E. rewrite finditer_step in E. destruct (Nat.ltb_spec (length text) pos); [|lia]. cbn [gaps] in E.
    destruct (Nat.ltb_spec pos (length text)); [lia|]. destruct k; discriminate.
  - intros pos H IH k it E j. unfold items in E |- * at 2. destruct (finditer mat text pos) as [|m ms] eqn:Ef.
    + cbn [gaps] in *. destruct (pos <? length text) eqn:Elt; [|destruct k; discriminate]. destruct k as [|k]; [|destruct k; discriminate]. cbn [nth_error] in E. injection E as <-.
      rewrite da_pos. unfold items. rewrite Ef. cbn [gaps]. rewrite Elt. reflexivity.
    + destruct (finditer_cons _ _ _ _ Ef) as (I1 & I2 & I3 & I4 & I5 & Ems). pose proof (finditer_at _ _ _ _ Ef) as Eat. cbn [gaps] in E |- *.
      assert (Hrest : forall k', nth_error (GAPS text (m_end m) ms) k' = Some it -> nth_error (items text (i_pos it)) j = nth_error (GAPS text (m_end m) ms) (k' + j)).
      { intros k' Ek. rewrite Ems in Ek |- *. exact (IH (m_end m) ltac:(lia) k' it Ek j). }
      assert (Htok : nth_error (items text (m_start m)) j = nth_error (TOK text m :: GAPS text (m_end m) ms) j).
      { unfold items. rewrite Eat. cbn [gaps]. destruct (Nat.ltb_spec (m_start m) (m_start m)); [lia|]. reflexivity. }
      destruct (pos <? m_start m) eqn:Elt; cbn [app] in E |- *.
      * destruct k as [|[|k]]; cbn [nth_error] in E; cbn [Nat.add nth_error].
        -- injection E as <-. rewrite da_pos. unfold items. rewrite Ef. cbn [gaps]. rewrite Elt. reflexivity.
        -- injection E as <-. rewrite token_pos. exact Htok.
        -- exact (Hrest k E).
      * destruct k as [|k]; cbn [nth_error] in E; cbn [Nat.add nth_error].
        -- injection E as <-. rewrite token_pos. exact Htok.
        -- exact (Hrest k E).
Qed.

Lemma plain_resume text : forall pos k it, nth_error (map (TOK text) (finditer mat text pos)) k = Some it ->
  forall j, nth_error (map (TOK text) (finditer mat text (i_pos it))) j = nth_error (map (TOK text) (finditer mat text pos)) (k + j).
Proof.
  refine (pos_ind _ (length text) _ _).
  - intros pos H k it E. rewrite finditer_step in E. destruct (Nat.ltb_spec (length text) pos); [|lia]. destruct k; discriminate.
  - intros pos H IH k it E j. destruct (finditer mat text pos) as [|m ms] eqn:Ef; [destruct k; discriminate|].
    destruct (finditer_cons _ _ _ _ Ef) as (I1 & I2 & I3 & I4 & I5 & Ems). pose proof (finditer_at _ _ _ _ Ef) as Eat. cbn [map] in *.
    destruct k as [|k]; cbn [nth_error Nat.add] in *.
    + injection E as <-. rewrite token_pos, Eat. reflexivity.
    + rewrite Ems in E |- *. exact (IH (m_end m) ltac:(lia) k it E j).
Qed.

Lemma dt_resume dt text : forall k pos it, pos <= length text -> dt_gen sublex self rules mat dt text pos k = Some it ->
  forall j, dt_gen sublex self rules mat dt text (i_pos it) j = dt_gen sublex self rules mat dt text pos (k + j).
Proof.
  induction k as [|k IH]; intros pos it Hp E j.
  - cbn [dt_gen] in E. destruct (mat false text pos) as [m|] eqn:Em.
    + injection E as <-. rewrite token_pos. destruct (match_facts _ _ _ _ Hp Em) as (E1 & _). rewrite E1. reflexivity.
    + destruct (pos <? length text); [|discriminate]. injection E as <-. reflexivity.
  - cbn [dt_gen Nat.add] in E |- *. destruct (mat false text pos) as [m|] eqn:Em; [|discriminate].
    destruct (match_facts _ _ _ _ Hp Em) as (E1 & E2 & _). apply (IH (m_end m)); [lia|exact E].
Qed.

Lemma regex_resume text q k it j : q <= length text -> parse_regex sublex self c text q k = Some it ->
  parse_regex sublex self c text (i_pos it) j = parse_regex sublex self c text q (k + j).
Proof.
  intros Hq. pose proof (items_resume text q k it) as H1. unfold items in H1. unfold parse_regex.
  destruct (c_da c) as [|a|f] eqn:Eda; [destruct (c_dt c) as [dt|]| |]; intros E.
  - apply dt_resume; assumption.
  - apply plain_resume; assumption.
  - apply H1; exact E.
  - apply H1; exact E.
Qed.

(** An item followed by enough characters remains. *)
Lemma finditer_look text text' n pos m ms : n <= length text -> n <= length text' -> firstn n text = firstn n text' ->
  finditer mat text pos = m :: ms -> m_end m + K <= n -> finditer mat text' pos = m :: finditer mat text' (m_end m).
Proof.
  intros H1 H2 Hn Ef Hm. destruct (finditer_cons _ _ _ _ Ef) as (I1 & I2 & I3 & I4 & I5 & Ems).
  apply finditer_found; [lia| |].
  - intros p Hp. rewrite (ll_look HL false text text' p n); [apply I4; exact Hp|lia|exact H2|exact Hn|]. rewrite I4 by exact Hp. lia.
  - rewrite (ll_look HL false text text' (m_start m) n); [exact I5|lia|exact H2|exact Hn|]. rewrite I5. exact Hm.
Qed.

Notation iend := (@i_end L B).
Lemma token_end text m : m_start m <= m_end m <= length text -> iend (TOK text m) = m_end m.
Proof. intros H. unfold i_end. rewrite token_pos, token_txt, slice_length. lia. Qed.

(** The condition on an item at index [k]. *)
Definition ahead (g : nat -> option item) (k n : nat) (it : item) : Prop :=
  (i_target it <> None /\ iend it + K <= n) \/ (exists next, g (S k) = Some next /\ iend next + K <= n).

Lemma good_ends text : forall ms pos k it, good_matches text pos ms -> nth_error (GAPS text pos ms) k = Some it -> pos <= length text -> pos <= i_pos it <= iend it.
Proof.
  induction ms as [|m ms IH]; intros pos k it Hg E Hp; cbn [gaps] in E.
  - destruct (pos <? length text); [|destruct k; discriminate]. destruct k as [|[|]]; try discriminate. injection E as <-. unfold i_end. rewrite da_pos. lia.
  - cbn [good_matches] in Hg. destruct Hg as (G1 & G2 & G3 & G4).
    assert (H : forall k', nth_error (TOK text m :: GAPS text (m_end m) ms) k' = Some it -> pos <= i_pos it <= iend it).
    { intros [|k'] Ek; cbn [nth_error] in Ek; [injection Ek as <-; unfold i_end; rewrite token_pos; lia|]. specialize (IH _ _ _ G4 Ek ltac:(lia)). lia. }
    destruct (pos <? m_start m); cbn [app] in E; [|apply (H k E)]. destruct k as [|k]; [injection E as <-; unfold i_end; rewrite da_pos; lia|apply (H k E)].
Qed.

Lemma items_good text pos : good_matches text pos (finditer mat text pos).
Proof. apply scan_good. Qed.

Lemma items_look text text' n : n <= length text -> n <= length text' -> firstn n text = firstn n text' ->
  forall pos k it, pos <= length text -> nth_error (items text pos) k = Some it -> ahead (nth_error (items text pos)) k n it -> nth_error (items text' pos) k = Some it.
Proof.
  intros H1 H2 Hn. refine (pos_ind _ (length text) _ _).
  - intros pos H k it Hp. lia.
  - intros pos H IH k it _ E Ha. unfold items in E, Ha. destruct (finditer mat text pos) as [|m ms] eqn:Ef.
    + exfalso. cbn [gaps] in *. destruct (pos <? length text); [|destruct k; discriminate]. destruct k as [|[|]]; try discriminate. injection E as <-.
      destruct Ha as [[Ht _]|(next & En & _)]; [rewrite da_target in Ht; congruence|discriminate].
    + destruct (finditer_cons _ _ _ _ Ef) as (I1 & I2 & I3 & I4 & I5 & Ems). pose proof (items_good text (m_end m)) as Hg. rewrite <- Ems in Hg. cbn [gaps] in E, Ha.
      (* the match ends early enough *)
      assert (Hme : m_end m + K <= n).
      { assert (Hr : forall k' it', nth_error (TOK text m :: GAPS text (m_end m) ms) k' = Some it' -> m_end m <= iend it').
        { intros [|k'] it' Ek; cbn [nth_error] in Ek; [injection Ek as <-; rewrite token_end by lia; lia|]. pose proof (good_ends text ms (m_end m) k' it' Hg Ek ltac:(lia)). lia. }
        destruct (pos <? m_start m); cbn [app] in E, Ha.
        - destruct k as [|k].
          + cbn [nth_error] in E. injection E as <-. destruct Ha as [[Ht _]|(next & En & Hle)]; [rewrite da_target in Ht; congruence|].
            cbn [nth_error] in En. injection En as <-. rewrite token_end in Hle by lia. exact Hle.
          + destruct Ha as [[_ Hle]|(next & En & Hle)]; [specialize (Hr k it E); lia|specialize (Hr (S k) next En); lia].
        - destruct Ha as [[_ Hle]|(next & En & Hle)]; [specialize (Hr k it E); lia|specialize (Hr (S k) next En); lia]. }
      pose proof (finditer_look text text' n pos m ms H1 H2 Hn Ef Hme) as Ef'. unfold items. rewrite Ef'. cbn [gaps].
      rewrite (token_prefix text text' m n Hn ltac:(lia) I3), (da_prefix text text').
      rewrite (slice_same text' text n pos (m_start m)) by (try lia; symmetry; exact Hn).
      assert (Hrest : forall k', nth_error (TOK text m :: GAPS text (m_end m) ms) k' = Some it ->
         ahead (nth_error (TOK text m :: GAPS text (m_end m) ms)) k' n it -> nth_error (TOK text m :: items text' (m_end m)) k' = Some it).
      { intros [|k'] Ek Hak; cbn [nth_error] in *; [exact Ek|]. rewrite Ems in Ek. apply (IH (m_end m) ltac:(lia) k' it ltac:(lia) Ek).
        unfold ahead in *. cbn [nth_error] in Hak. rewrite Ems in Hak. exact Hak. }
      destruct (pos <? m_start m); cbn [app] in *; [|apply Hrest; assumption].
      destruct k as [|k]; [exact E|]. apply (Hrest k E). exact Ha.
Qed.

Lemma plain_look text text' n : n <= length text -> n <= length text' -> firstn n text = firstn n text' ->
  forall pos k it, pos <= length text -> nth_error (map (TOK text) (finditer mat text pos)) k = Some it ->
  ahead (nth_error (map (TOK text) (finditer mat text pos))) k n it -> nth_error (map (TOK text') (finditer mat text' pos)) k = Some it.
Proof.
  intros H1 H2 Hn. refine (pos_ind _ (length text) _ _).
  - intros pos H k it Hp. lia.
  - intros pos H IH k it _ E Ha. destruct (finditer mat text pos) as [|m ms] eqn:Ef; [destruct k; discriminate|].
    destruct (finditer_cons _ _ _ _ Ef) as (I1 & I2 & I3 & I4 & I5 & Ems). pose proof (items_good text (m_end m)) as Hg. rewrite <- Ems in Hg. cbn [map] in E, Ha.
    assert (Hr : forall ms pos k' it', good_matches text pos ms -> nth_error (map (TOK text) ms) k' = Some it' -> pos <= iend it').
    { induction ms0 as [|m0 ms0 IHm]; intros p0 [|k'] it' Hg0 Ek; try discriminate; cbn [map nth_error] in Ek; cbn [good_matches] in Hg0; destruct Hg0 as (G1 & G2 & G3 & G4).
      - injection Ek as <-. rewrite token_end by lia. lia.
      - specialize (IHm _ _ _ G4 Ek). lia. }
    assert (Hme : m_end m + K <= n).
    { assert (Hr' : forall k' it', nth_error (TOK text m :: map (TOK text) ms) k' = Some it' -> m_end m <= iend it').
      { intros [|k'] it' Ek; cbn [nth_error] in Ek; [injection Ek as <-; rewrite token_end by lia; lia|]. exact (Hr _ _ _ _ Hg Ek). }
      destruct Ha as [[_ Hle]|(next & En & Hle)]; [specialize (Hr' k it E); lia|specialize (Hr' (S k) next En); lia]. }
    rewrite (finditer_look text text' n pos m ms H1 H2 Hn Ef Hme). cbn [map]. rewrite (token_prefix text text' m n Hn ltac:(lia) I3).
    destruct k as [|k]; cbn [nth_error] in *; [exact E|]. rewrite Ems in E. apply (IH (m_end m) ltac:(lia) k it ltac:(lia) E).
    unfold ahead in *. cbn [nth_error] in Ha. rewrite Ems in Ha. exact Ha.
Qed.

Lemma dt_ends dt text : forall k pos it, pos <= length text -> dt_gen sublex self rules mat dt text pos k = Some it -> pos <= iend it.
Proof.
  induction k as [|k IH]; intros pos it Hp E; cbn [dt_gen] in E; destruct (mat false text pos) as [m|] eqn:Em.
  - injection E as <-. destruct (match_facts _ _ _ _ Hp Em) as (E1 & E2 & _). rewrite token_end by lia. lia.
  - destruct (pos <? length text); [|discriminate]. injection E as <-. unfold i_end. cbn [mk_item i_pos]. lia.
  - destruct (match_facts _ _ _ _ Hp Em) as (E1 & E2 & _). specialize (IH (m_end m) it ltac:(lia) E). lia.
  - discriminate.
Qed.

Hypothesis HK : 1 <= K.
Lemma dt_look (t : target L) text text' n : n <= length text -> n <= length text' -> firstn n text = firstn n text' ->
  forall k pos it, pos <= length text -> dt_gen sublex self rules mat (Some t) text pos k = Some it ->
  ahead (dt_gen sublex self rules mat (Some t) text pos) k n it -> dt_gen sublex self rules mat (Some t) text' pos k = Some it.
Proof.
  intros H1 H2 Hn. induction k as [|k IH]; intros pos it Hp E Ha.
  - cbn [dt_gen] in E |- *. destruct (mat false text pos) as [m|] eqn:Em.
    + injection E as <-. destruct (match_facts _ _ _ _ Hp Em) as (E1 & E2 & E3).
      assert (Hme : m_end m + K <= n).
      { destruct Ha as [[_ Hle]|(next & En & Hle)]; [rewrite token_end in Hle by lia; exact Hle|].
        cbn [dt_gen] in En. rewrite Em in En. pose proof (dt_ends (Some t) text 0 (m_end m) next ltac:(lia) En). lia. }
      rewrite (ll_look HL false text text' pos n); [|lia|exact H2|exact Hn|rewrite Em; lia]. rewrite Em. f_equal.
      rewrite <- E1 in E3. apply (token_prefix text text' m n Hn); [lia|exact E3].
    + destruct (pos <? length text) eqn:Elt; [|discriminate]. injection E as <-.
      assert (Hme : pos + K <= n).
      { destruct Ha as [[_ Hle]|(next & En & Hle)]; [unfold i_end in Hle; cbn [mk_item i_pos i_txt length] in Hle; lia|].
        cbn [dt_gen] in En. rewrite Em in En. discriminate. }
      rewrite (ll_look HL false text text' pos n); [|lia|exact H2|exact Hn|rewrite Em; lia]. rewrite Em.
      destruct (Nat.ltb_spec pos (length text')); [|lia]. reflexivity.
  - cbn [dt_gen] in E |- *. destruct (mat false text pos) as [m|] eqn:Em; [|discriminate]. destruct (match_facts _ _ _ _ Hp Em) as (E1 & E2 & E3).
    assert (Ha' : ahead (dt_gen sublex self rules mat (Some t) text (m_end m)) k n it).
    { unfold ahead in *. cbn [dt_gen] in Ha. rewrite Em in Ha. exact Ha. }
    assert (Hme : m_end m + K <= n).
    { pose proof (dt_ends (Some t) text k (m_end m) it ltac:(lia) E) as Hd. destruct Ha' as [[_ Hle]|(next & En & Hle)]; [lia|].
      pose proof (dt_ends (Some t) text (S k) (m_end m) next ltac:(lia) En). lia. }
    rewrite (ll_look HL false text text' pos n); [|lia|exact H2|exact Hn|rewrite Em; lia]. rewrite Em. apply IH; [lia|exact E|exact Ha'].
Qed.

Lemma regex_look text text' q k it n : q <= n <= length text -> n <= length text' -> firstn n text = firstn n text' ->
  parse_regex sublex self c text q k = Some it -> ahead (parse_regex sublex self c text q) k n it -> parse_regex sublex self c text' q k = Some it.
Proof.
  intros H1 H2 Hn. pose proof (items_look text text' n (proj2 H1) H2 Hn q k it ltac:(lia)) as Hi. unfold items in Hi. unfold parse_regex.
  destruct (c_da c) as [|a|f] eqn:Eda; [destruct (c_dt c) as [dt|]| |]; intros E Ha.
  - apply (dt_look dt text text' n); try assumption; lia.
  - apply (plain_look text text' n); try assumption; lia.
  - apply Hi; assumption.
  - apply Hi; assumption.
Qed.

Lemma empty_resume text q k it j : parse_empty sublex c text q k = Some it -> parse_empty sublex (L := L) c text (i_pos it) j = parse_empty sublex c text q (k + j).
Proof.
  unfold parse_empty. intros E. assert (H : k = 0 /\ i_pos it = q).
  { destruct (q <? length text); [|destruct k; discriminate].
    destruct (c_da c) as [|a|f] eqn:Eda; [destruct (c_dt c) as [dt|]| |]; destruct k as [|[|]]; try discriminate; injection E as <-; (split; [reflexivity|]); try reflexivity; apply da_pos. }
  destruct H as [-> ->]. reflexivity.
Qed.
Lemma empty_look text text' q k it n : q <= n <= length text -> n <= length text' ->
  parse_empty sublex c text q k = Some it -> ahead (parse_empty sublex c text q) k n it -> parse_empty sublex (L := L) c text' q k = Some it.
Proof.
  intros H1 H2 E Ha. unfold parse_empty, ahead in *. destruct (Nat.ltb_spec q (length text)) as [Hq|Hq]; [|destruct k; discriminate].
  destruct (c_da c) as [|a|f] eqn:Eda; [destruct (c_dt c) as [dt|]| |]; destruct k as [|[|]]; try discriminate; injection E as <-.
  - destruct Ha as [[_ Hle]|(next & En & _)]; [|discriminate]. unfold i_end in Hle. cbn [mk_item i_pos i_txt length] in Hle.
    destruct (Nat.ltb_spec q (length text')); [reflexivity|lia].
  - exfalso. destruct Ha as [[Ht _]|(next & En & _)]; [apply Ht; reflexivity|discriminate].
  - exfalso. destruct Ha as [[Ht _]|(next & En & _)]; [apply Ht; reflexivity|discriminate].
Qed.

(** ** All together *)
Lemma parse_cases : (forall text pos k, lexicon_parse sublex self c text pos k = parse_empty sublex c text pos k)
  \/ (forall text pos k, lexicon_parse sublex self c text pos k = parse_regex sublex self c text pos k).
Proof.
  unfold lexicon_parse. destruct rules as [|[a t|ev] [|r2 rs]] eqn:Er; [left; reflexivity| | | |]; right; intros text pos k; try (destruct (c_needle c); reflexivity).
  destruct (c_needle c) as [[|x needle]|] eqn:En; try reflexivity.
  destruct (ll_plain HL _ a t En Er ltac:(discriminate)) as [Hlit Hact].
  apply (parse_fast_regex L B sublex mat (x :: needle) Hlit ltac:(discriminate) text self a t (Hact text) c pos k eq_refl Er).
Qed.

Lemma first_lexeme text q k it x xs : q <= length text -> lexicon_parse sublex self c text q k = Some it -> i_lexemes it = x :: xs -> x_pos x = i_pos it.
Proof.
  intros Hq E Ex. pose proof (ll_start HL text) as (S1 & S2 & _).
  assert (Hda : forall i j, i <= length text -> j <= length text -> i_lexemes (da_item sublex text (c_da c) i (slice text i j)) = x :: xs -> x_pos x = i).
  { intros i j Hi Hj Ed. destruct (Nat.le_gt_cases j i) as [Hji|Hji].
    - rewrite slice_nil in Ed by exact Hji. unfold da_item, mk_item in Ed. cbn in Ed. destruct (c_da c); discriminate.
    - assert (Hex : exists a, da_action (c_da c) (slice text i j) = Some a /\ act_lexemes sublex text a i (slice text i j) None = x :: xs).
      { unfold da_item, mk_item in Ed. unfold da_action. destruct (c_da c); cbn [i_lexemes] in Ed; destruct (slice text i j); try discriminate; eexists; (split; [reflexivity|exact Ed]). }
      destruct Hex as (a & Ea & Ex'). specialize (S2 i j a Hji Hj Ea). rewrite Ex' in S2. exact S2. }
  assert (Hfrom : forall i, from text i = slice text i (length text)) by (intros i; unfold from; rewrite slice_from; reflexivity).
  assert (Htok : forall m, m_start m <= length text -> m_start m < m_end m -> mat false text (m_start m) = Some m -> i_lexemes (TOK text m) = x :: xs -> x_pos x = m_start m).
  { intros m Hl Hne Em Et. specialize (S1 false (m_start m) m). unfold rule_action in S1. unfold token in Et.
    destruct (nth_error rules (m_rule m)) as [[a t|eval]|]; unfold mk_item in Et; cbn [i_lexemes] in Et.
    - specialize (S1 a Hl Em eq_refl Hne). destruct (slice text (m_start m) (m_end m)); [discriminate|]. rewrite Et in S1. exact S1.
    - destruct (eval m (slice text (m_start m) (m_end m))) as [a t] eqn:Ev. cbn [fst] in S1. specialize (S1 a Hl Em eq_refl Hne). cbn [i_lexemes] in Et. destruct (slice text (m_start m) (m_end m)); [discriminate|]. rewrite Et in S1. exact S1.
    - destruct (slice text (m_start m) (m_end m)); discriminate. }
  assert (Hlist : forall pos k0, pos <= length text -> nth_error (items text pos) k0 = Some it -> x_pos x = i_pos it).
  { refine (pos_ind _ (length text) _ _); [intros; lia|]. intros pos H IH k0 _ Ek. unfold items in Ek. destruct (finditer mat text pos) as [|m ms] eqn:Ef; cbn [gaps] in Ek.
    - destruct (pos <? length text); [|destruct k0; discriminate]. destruct k0 as [|[|]]; try discriminate. injection Ek as <-. rewrite da_pos. rewrite Hfrom in Ex. apply (Hda pos (length text)); [lia|lia|exact Ex].
    - destruct (finditer_cons _ _ _ _ Ef) as (I1 & I2 & I3 & I4 & I5 & Ems).
      assert (Hr : forall k', nth_error (TOK text m :: GAPS text (m_end m) ms) k' = Some it -> x_pos x = i_pos it).
      { intros [|k'] Ek'; cbn [nth_error] in Ek'; [injection Ek' as <-; rewrite token_pos; apply Htok; try lia; assumption|]. rewrite Ems in Ek'. apply (IH (m_end m) ltac:(lia) k' ltac:(lia) Ek'). }
      destruct (pos <? m_start m); cbn [app] in Ek; [|exact (Hr k0 Ek)]. destruct k0 as [|k0]; [|exact (Hr k0 Ek)]. cbn [nth_error] in Ek. injection Ek as <-. rewrite da_pos. apply (Hda pos (m_start m)); [lia|lia|exact Ex]. }
  assert (Hplain : forall ms pos k0, finditer mat text pos = ms -> nth_error (map (TOK text) ms) k0 = Some it -> x_pos x = i_pos it).
  { induction ms as [|m ms IH]; intros pos k0 Ef Ek; [destruct k0; discriminate|]. destruct (finditer_cons _ _ _ _ Ef) as (I1 & I2 & I3 & I4 & I5 & Ems).
    destruct k0 as [|k0]; cbn [map nth_error] in Ek; [injection Ek as <-; rewrite token_pos; apply Htok; try lia; assumption|]. exact (IH (m_end m) k0 (eq_sym Ems) Ek). }
  assert (Hdt : forall dt k0 pos, pos <= length text -> dt_gen sublex self rules mat dt text pos k0 = Some it -> x_pos x = i_pos it).
  { intros dt. induction k0 as [|k0 IH]; intros pos Hp Ek; cbn [dt_gen] in Ek; destruct (mat false text pos) as [m|] eqn:Em.
    - injection Ek as <-. destruct (match_facts _ _ _ _ Hp Em) as (E1 & E2 & _). rewrite token_pos. apply Htok; try lia; [rewrite E1; exact Em|exact Ex].
    - destruct (pos <? length text); [|discriminate]. injection Ek as <-. discriminate.
    - destruct (match_facts _ _ _ _ Hp Em) as (E1 & E2 & _). apply (IH (m_end m)); [lia|exact Ek].
    - discriminate. }
  destruct parse_cases as [Hc|Hc]; rewrite Hc in E.
  - unfold parse_empty in E. destruct (q <? length text); [|destruct k; discriminate]. rewrite Hfrom in E.
    destruct (c_da c) as [|a|f] eqn:Eda; [destruct (c_dt c) as [dt|]| |]; destruct k as [|[|]]; try discriminate; injection E as <-; try discriminate;
      cbn [da_item mk_item i_pos]; apply (Hda q (length text)); try lia; exact Ex.
  - unfold parse_regex in E. pose proof (Hlist q k Hq) as Hl. unfold items in Hl. destruct (c_da c) as [|a|f] eqn:Eda; [destruct (c_dt c) as [dt|]| |].
    + exact (Hdt _ k q Hq E).
    + exact (Hplain _ q k eq_refl E).
    + exact (Hl E).
    + exact (Hl E).
Qed.
End Proofs.

Theorem local_lexicons L B (sublex : L -> str -> list (lexeme B)) (comp : L -> compiled L B) K : 1 <= K ->
  (forall l, local_lexicon sublex K (comp l)) -> local_parse K (fun l => lexicon_parse sublex l (comp l)).
Proof.
  intros HK H. split; intros l text.
  - intros q Hq. destruct (wf_actions_sat L B sublex (comp l) text (ll_ok (H l) text) (ll_wf (H l) text)) as [Ha Hr].
    exact (lexicon_pieces L B sublex (comp l) text (ll_ok (H l) text) Hr l q Ha Hq).
  - intros q k it x xs Hq. apply (first_lexeme L B sublex (comp l) K (H l) l HK text q k it x xs Hq).
  - intros q k it j Hq E _. destruct (parse_cases L B sublex (comp l) K (H l) l) as [Hc|Hc]; rewrite !Hc in *.
    + apply empty_resume, E.
    + apply (regex_resume L B sublex (comp l) K (H l) l text q k it j Hq E).
  - intros text' q q' k Hq Hq' Hs. destruct (parse_cases L B sublex (comp l) K (H l) l) as [Hc|Hc]; rewrite !Hc.
    + apply empty_moved; assumption.
    + apply (regex_moved L B sublex (comp l) K (H l) l); assumption.
  - intros text' q k it m Hq Hm Hn E Ha. destruct (parse_cases L B sublex (comp l) K (H l) l) as [Hc|Hc]; rewrite !Hc in *.
    + apply (empty_look L B sublex (comp l) K HK text text' q k it m Hq Hm E Ha).
    + apply (regex_look L B sublex (comp l) K (H l) l HK text text' q k it m Hq Hm Hn E Ha).
Qed.
