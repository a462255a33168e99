(** Proofs about selector matching. *)
From Verif Require Import Base CssModel CssSpec.

(** ** Strings and dictionaries *)
Lemma str_eqb_eq : forall a b, str_eqb a b = true <-> a = b.
Proof.
  unfold str_eqb. induction a as [| x a IH]; intros [| y b]; cbn [list_eqb]; try (split; congruence).
  rewrite andb_true_iff, Nat.eqb_eq, IH. split; [intros [-> ->]; reflexivity | intros E; injection E; auto].
Qed.
Lemma str_eqb_refl : forall a, str_eqb a a = true.
Proof. intros a. apply str_eqb_eq. reflexivity. Qed.
Lemma str_eqb_neq : forall a b, str_eqb a b = false <-> a <> b.
Proof.
  intros a b. split.
  - intros E ->. rewrite str_eqb_refl in E. discriminate.
  - intros N. destruct (str_eqb a b) eqn:E; [apply str_eqb_eq in E; congruence | reflexivity].
Qed.
Lemma smem_In : forall x l, smem x l = true <-> In x l.
Proof.
  intros x l. unfold smem. rewrite existsb_exists. split.
  - intros (y & Hy & E). apply str_eqb_eq in E. subst. exact Hy.
  - intros H. exists x. split; [exact H | apply str_eqb_refl].
Qed.
Lemma sget_In : forall V (d : list (str * V)) k v, sget d k = Some v -> In (k, v) d.
Proof.
  intros V d k v. induction d as [| [k' v'] d IH]; cbn [sget]; [discriminate |].
  destruct (str_eqb k' k) eqn:E.
  - apply str_eqb_eq in E. intros H. injection H as ->. subst. left. reflexivity.
  - intros H. right. auto.
Qed.
Lemma In_sget : forall V (d : list (str * V)) k v, NoDup (map fst d) -> In (k, v) d -> sget d k = Some v.
Proof.
  intros V d k v. induction d as [| [k' v'] d IH]; cbn [sget map fst]; intros N H; [destruct H |].
  inversion N as [| x l Hn N']; subst. destruct H as [H | H].
  - injection H as -> ->. rewrite str_eqb_refl. reflexivity.
  - destruct (str_eqb k' k) eqn:E; [| auto].
    apply str_eqb_eq in E. subst. exfalso. apply Hn. apply (in_map fst) in H. exact H.
Qed.

Lemma startswith_iff : forall p s, s_startswith p s = true <-> exists r, s = p ++ r.
Proof.
  intros p s. unfold s_startswith. rewrite str_eqb_eq. split.
  - intros E. exists (skipn (length p) s). rewrite <- E at 1. symmetry. apply firstn_skipn.
  - intros [r ->]. rewrite firstn_app, Nat.sub_diag, firstn_all. cbn [firstn]. apply app_nil_r.
Qed.
Lemma endswith_iff : forall p s, s_endswith p s = true <-> exists r, s = r ++ p.
Proof.
  intros p s. unfold s_endswith. rewrite startswith_iff. split.
  - intros [r E]. exists (rev r). rewrite <- (rev_involutive s), E, rev_app_distr, rev_involutive. reflexivity.
  - intros [r ->]. exists (rev r). apply rev_app_distr.
Qed.
Lemma contains_iff : forall p s, s_contains p s = true <-> exists a b, s = a ++ p ++ b.
Proof.
  intros p s. induction s as [| c s IH]; cbn [s_contains]; rewrite orb_true_iff, startswith_iff.
  - split.
    + intros [[r E] | E]; [exists [], r; exact E | discriminate].
    + intros (a & b & E). left. destruct a; [exists b; exact E | discriminate].
  - rewrite IH. split.
    + intros [[r E] | (a & b & E)]; [exists [], r; exact E | exists (c :: a), b; cbn; congruence].
    + intros (a & b & E). destruct a as [| x a]; [left; exists b; exact E | right].
      cbn in E. injection E as -> E. exists a, b. exact E.
Qed.

Section Words.
Variable space : nat -> bool.
Definition solid (w : str) := forall c, In c w -> space c = false.

Lemma solid_eq : forall w b acc c s,
  solid w -> solid acc -> (b = [] \/ exists c b', b = c :: b' /\ space c = true) -> space c = true ->
  w ++ b = acc ++ c :: s -> w = acc.
Proof.
  induction w as [| x w IH]; intros b acc c s Hw Ha Hb Hc E.
  - destruct acc as [| y acc]; [reflexivity | exfalso]. cbn in E.
    destruct Hb as [-> | (d & b' & -> & Hd)]; [discriminate |].
    injection E as -> _. rewrite (Ha y) in Hd; [discriminate | left; reflexivity].
  - destruct acc as [| y acc].
    + exfalso. cbn in E. injection E as -> _. rewrite (Hw c) in Hc; [discriminate | left; reflexivity].
    + cbn in E. injection E as -> E. f_equal. apply (IH b acc c s); auto.
      * intros d Hd. apply Hw. right. exact Hd.
      * intros d Hd. apply Ha. right. exact Hd.
Qed.

Lemma word_of_space : forall w acc c s, solid acc -> space c = true ->
  word_of space w (acc ++ c :: s) <-> (w = acc /\ acc <> []) \/ word_of space w s.
Proof.
  intros w acc c s Ha Hc. split.
  - intros (a & b & E & Hw & Sw & La & Lb).
    destruct (le_lt_dec (length a) (length acc)) as [L | L].
    + left. assert (a = []) as ->.
      { destruct La as [-> | (a' & d & -> & Hd)]; [reflexivity | exfalso].
        assert (In d acc) as I.
        { assert (firstn (length (a' ++ [d])) (acc ++ c :: s) = a' ++ [d]) as F.
          { rewrite E, firstn_app, Nat.sub_diag, firstn_all. cbn [firstn]. apply app_nil_r. }
          rewrite firstn_app in F.
          replace (length (a' ++ [d]) - length acc) with 0 in F by lia. cbn [firstn] in F. rewrite app_nil_r in F.
          assert (In d (a' ++ [d])) as I by (apply in_or_app; right; left; reflexivity).
          rewrite <- F in I. rewrite <- (firstn_skipn (length (a' ++ [d])) acc). apply in_or_app. left. exact I. }
        rewrite (Ha d I) in Hd. discriminate. }
      cbn [app] in E. assert (w = acc) as -> by (apply (solid_eq w b acc c s); auto). auto.
    + right. assert (exists a2, a = acc ++ c :: a2) as [a2 ->].
      { assert (exists k, k = S (length acc)) as [k Ek] by (eexists; reflexivity).
        assert (firstn k (acc ++ c :: s) = firstn k a) as F.
        { rewrite E, firstn_app. replace (k - length a) with 0 by lia. rewrite firstn_O. apply app_nil_r. }
        rewrite firstn_app in F. replace (k - length acc) with 1 in F by lia.
        rewrite firstn_all2 in F by lia.
        exists (skipn k a). rewrite <- (firstn_skipn k a) at 1. rewrite <- F.
        rewrite <- app_assoc. reflexivity. }
      rewrite <- app_assoc in E. apply app_inv_head in E. cbn [app] in E. injection E as E.
      exists a2, b. repeat split; auto.
      destruct La as [La | (a' & d & La & Hd)]; [destruct acc; discriminate |].
      destruct a2 as [| x a2' _] using rev_ind; [left; reflexivity | right].
      rewrite app_comm_cons, app_assoc in La. apply app_inj_tail in La as [_ <-]. exists a2', x. auto.
  - intros [[-> N] | (a & b & -> & Hw & Sw & La & Lb)].
    + exists [], (c :: s). repeat split; auto. right. exists c, s. auto.
    + exists (acc ++ c :: a), b. split; [rewrite <- app_assoc; reflexivity |]. repeat split; auto.
      right. destruct La as [-> | (a' & d & -> & Hd)].
      * exists acc, c. auto.
      * exists (acc ++ c :: a'), d. split; [rewrite <- app_assoc; reflexivity | exact Hd].
Qed.

Lemma word_of_solid : forall w acc, solid acc -> word_of space w acc <-> w = acc /\ acc <> [].
Proof.
  intros w acc Ha. split.
  - intros (a & b & E & Hw & Sw & La & Lb).
    assert (a = []) as ->.
    { destruct La as [-> | (a' & d & -> & Hd)]; [reflexivity | exfalso].
      rewrite (Ha d) in Hd; [discriminate |]. rewrite E. rewrite <- app_assoc. apply in_or_app. right. left. reflexivity. }
    assert (b = []) as ->.
    { destruct Lb as [-> | (d & b' & -> & Hd)]; [reflexivity | exfalso].
      rewrite (Ha d) in Hd; [discriminate |]. rewrite E. cbn [app]. apply in_or_app. right. left. reflexivity. }
    cbn in E. rewrite app_nil_r in E. subst. auto.
  - intros [-> N]. exists [], []. rewrite app_nil_r. repeat split; auto.
Qed.

Lemma split_from_iff : forall s acc w, solid acc ->
  In w (split_from space acc s) <-> word_of space w (acc ++ s).
Proof.
  induction s as [| c s IH]; intros acc w Ha; cbn [split_from].
  - rewrite app_nil_r, word_of_solid by exact Ha. destruct acc as [| x acc]; cbn [In].
    + split; [intros [] | intros [_ N]; congruence].
    + split; [intros [<- | []]; split; [reflexivity | discriminate] | intros [-> _]; left; reflexivity].
  - destruct (space c) eqn:Hc.
    + rewrite word_of_space by assumption.
      assert (solid []) as S0 by (intros d []).
      destruct acc as [| x acc].
      * rewrite (IH [] w S0). cbn [app]. split; [auto | intros [[_ N] | H]; [congruence | exact H]].
      * cbn [In]. rewrite (IH [] w S0). cbn [app]. split.
        { intros [<- | H]; [left; split; [reflexivity | discriminate] | right; exact H]. }
        { intros [[-> _] | H]; auto. }
    + rewrite IH.
      * rewrite <- app_assoc. reflexivity.
      * intros d Hd. apply in_app_or in Hd as [Hd | [<- | []]]; auto.
Qed.
Lemma split_iff : forall s w, In w (s_split space s) <-> word_of space w s.
Proof. intros s w. unfold s_split. apply (split_from_iff s [] w). intros c []. Qed.
End Words.

(** ** Paths *)
Lemma get_parent_iff : forall p q, get_parent p = Some q <-> child_of p q.
Proof.
  intros p q. unfold child_of. destruct p as [| i p _] using rev_ind.
  - split; [discriminate | intros [i E]; destruct q; discriminate].
  - assert (get_parent (p ++ [i]) = Some p) as ->.
    { unfold get_parent. rewrite removelast_last. destruct p; reflexivity. }
    split.
    + intros E. injection E as ->. exists i. reflexivity.
    + intros [j E]. apply app_inj_tail in E as [-> _]. reflexivity.
Qed.

Lemma get_parent_snoc : forall p i, get_parent (p ++ [i]) = Some p.
Proof. intros p i. apply get_parent_iff. exists i. reflexivity. Qed.
Lemma ancestors_nil : ancestors [] = [].
Proof. reflexivity. Qed.
Lemma ancestors_snoc : forall p i, ancestors (p ++ [i]) = p :: ancestors p.
Proof.
  intros p i. unfold ancestors. rewrite app_length. cbn [length]. rewrite Nat.add_1_r. cbn [ancestors_n].
  rewrite get_parent_snoc. reflexivity.
Qed.
Lemma ancestors_iff : forall p q, In q (ancestors p) <-> ancestor_of q p.
Proof.
  intros p q. induction p as [| i p IH] using rev_ind.
  - split; [intros [] | intros (r & N & E)]. destruct q; [destruct r |]; try discriminate. congruence.
  - rewrite ancestors_snoc. cbn [In]. rewrite IH. split.
    + intros [<- | (r & N & ->)].
      * exists [i]. split; [discriminate | reflexivity].
      * exists (r ++ [i]). rewrite app_assoc. split; [destruct r; discriminate | reflexivity].
    + intros (r & N & E). destruct r as [| x r _] using rev_ind; [congruence |].
      rewrite app_assoc in E. apply app_inj_tail in E as [-> _].
      destruct r as [| y r]; [left; rewrite app_nil_r; reflexivity | right].
      exists (y :: r). split; [discriminate | reflexivity].
Qed.

Lemma previous_snoc : forall p i, previous_siblings (p ++ [i]) = map (fun j => p ++ [j]) (rev (seq 0 i)).
Proof.
  intros p i. unfold previous_siblings. rewrite removelast_last, last_last. destruct p; reflexivity.
Qed.
Lemma previous_iff : forall p q, In q (previous_siblings p) <-> sibling_before q p.
Proof.
  intros p q. destruct p as [| i p _] using rev_ind.
  - split; [intros [] |]. intros (d & Hd & r & j & _ & E). destruct r; discriminate.
  - rewrite previous_snoc, in_map_iff. split.
    + intros (j & <- & Hj). apply in_rev in Hj. apply in_seq in Hj. exists (i - j). split; [lia |].
      exists p, j. split; [reflexivity |]. do 2 f_equal. lia.
    + intros (d & Hd & r & j & -> & E). apply app_inj_tail in E as [-> ->]. exists j. split; [reflexivity |].
      apply -> in_rev. apply in_seq. lia.
Qed.
Lemma previous_first : forall p, firstn 1 (previous_siblings p) =
  match rev p with S i :: r => [rev r ++ [i]] | _ => [] end.
Proof.
  intros p. destruct p as [| i p _] using rev_ind; [reflexivity |].
  rewrite rev_app_distr. cbn [rev app]. rewrite previous_snoc. destruct i as [| i]; [reflexivity |].
  rewrite seq_S, rev_app_distr. cbn [rev app map firstn]. rewrite rev_involutive. reflexivity.
Qed.
Lemma previous_one_iff : forall p q, In q (firstn 1 (previous_siblings p)) <-> before_by 1 q p.
Proof.
  intros p q. destruct p as [| i p _] using rev_ind.
  - split; [intros [] |]. intros (r & j & _ & E). destruct r; discriminate.
  - rewrite previous_first, rev_app_distr. cbn [rev app].
    split.
    + destruct i as [| i]; [intros [] |]. intros [<- | []]. rewrite rev_involutive. exists p, i.
      rewrite Nat.add_1_r. auto.
    + intros (r & j & -> & E). apply app_inj_tail in E as [-> ->]. rewrite Nat.add_1_r. left.
      rewrite rev_involutive. reflexivity.
Qed.

Section Tree.
Variable space : nat -> bool.
Variable lower : str -> str.
Variable root : elem.

Lemma elem_at_snoc : forall p e i,
  elem_at e (p ++ [i]) = match elem_at e p with Some x => nth_error (e_children x) i | None => None end.
Proof.
  induction p as [| j p IH]; intros e i; cbn [elem_at app].
  - destruct (nth_error (e_children e) i); reflexivity.
  - destruct (nth_error (e_children e) j); [apply IH | reflexivity].
Qed.
Lemma present_before : forall p q, present root p -> sibling_before q p -> present root q.
Proof.
  intros p q [e He] (d & Hd & r & i & -> & ->). rewrite elem_at_snoc in He.
  destruct (elem_at root r) as [x |] eqn:Er; [| discriminate].
  assert (i < length (e_children x)) as L.
  { assert (i + d < length (e_children x)) by (apply nth_error_Some; congruence). lia. }
  destruct (nth_error (e_children x) i) as [y |] eqn:E; [| apply nth_error_None in E; lia].
  exists y. rewrite elem_at_snoc, Er. exact E.
Qed.
Lemma next_iff : forall p q, present root p ->
  In q (next_siblings root p) <-> present root q /\ sibling_before p q.
Proof.
  intros p q Hp. destruct p as [| i p _] using rev_ind.
  - split; [intros [] |]. intros (_ & d & Hd & r & j & E & _). destruct r; discriminate.
  - assert (next_siblings root (p ++ [i]) =
      match elem_at root p with
      | None => []
      | Some par => map (fun j => p ++ [j]) (seq (S i) (length (e_children par) - S i))
      end) as ->.
    { unfold next_siblings. rewrite removelast_last, last_last. destruct p; reflexivity. }
    destruct Hp as [e He]. rewrite elem_at_snoc in He. destruct (elem_at root p) as [x |] eqn:Ep; [| discriminate].
    rewrite in_map_iff. split.
    + intros (j & <- & Hj). apply in_seq in Hj. split.
      * destruct (nth_error (e_children x) j) as [y |] eqn:E; [| apply nth_error_None in E; lia].
        exists y. rewrite elem_at_snoc, Ep. exact E.
      * exists (j - i). split; [lia |]. exists p, i. split; [reflexivity |]. do 2 f_equal. lia.
    + intros [[y Hy] (d & Hd & r & j & E & ->)]. apply app_inj_tail in E as [<- <-].
      exists (i + d). split; [reflexivity |]. rewrite elem_at_snoc, Ep in Hy.
      assert (i + d < length (e_children x)) by (apply nth_error_Some; congruence).
      apply in_seq. lia.
Qed.
Lemma empty_list_iff : forall A (l : list A), empty_list l = true <-> forall x, ~ In x l.
Proof.
  intros A [| x l]; cbn [empty_list].
  - split; [intros _ x [] | reflexivity].
  - split; [discriminate |]. intros H. destruct (H x). left. reflexivity.
Qed.
Lemma same_name_iff : forall p q, same_name root p q = true <-> same_type root q p.
Proof.
  intros p q. unfold same_name, name_at, same_type.
  destruct (elem_at root p) as [e |]; [destruct (elem_at root q) as [f |] |]; cbn [option_map].
  - rewrite str_eqb_eq. split.
    + intros E. exists f, e. auto.
    + intros (a & b & E1 & E2 & E3). congruence.
  - split; [discriminate | intros (a & b & E1 & _); discriminate].
  - split; [discriminate | intros (a & b & _ & E2 & _); discriminate].
Qed.
Lemma not_any_iff : forall A (f : A -> bool) l, negb (existsb f l) = true <-> forall x, In x l -> f x = false.
Proof.
  intros A f l. rewrite negb_true_iff. induction l as [| y l IH]; cbn [existsb].
  - split; [intros _ x [] | reflexivity].
  - rewrite orb_false_iff, IH. split.
    + intros [H1 H2] x [<- | Hx]; auto.
    + intros H. split; [apply H; left; reflexivity | intros x Hx; apply H; right; exact Hx].
Qed.

Lemma first_child_iff : forall p, present root p ->
  empty_list (previous_siblings p) = true <-> forall q, present root q -> ~ sibling_before q p.
Proof.
  intros p Hp. rewrite empty_list_iff. split; intros H q.
  - intros _ B. apply (H q). apply previous_iff. exact B.
  - intros I. apply previous_iff in I. apply (H q); [eapply present_before |]; eassumption.
Qed.
Lemma last_child_iff : forall p, present root p ->
  empty_list (next_siblings root p) = true <-> forall q, present root q -> ~ sibling_before p q.
Proof.
  intros p Hp. rewrite empty_list_iff. split; intros H q.
  - intros Hq B. apply (H q). apply next_iff; auto.
  - intros I. apply next_iff in I as [Hq I]; [| exact Hp]. apply (H q); assumption.
Qed.

Lemma pseudo_class_iff : forall e p c, elem_at root p = Some e ->
  match pseudo_class root e p c with Some b => b | None => smem c (e_pclasses e) end = true <->
  pseudo_holds root e p c.
Proof.
  intros e p c He. assert (present root p) as Hp by (exists e; exact He).
  unfold pseudo_class, pseudo_holds.
  destruct (str_eqb c n_first_child) eqn:E1.
  { apply str_eqb_eq in E1. subst c. rewrite (first_child_iff p Hp). split.
    - intros H. repeat split; try discriminate; auto. intros N. destruct N. left. reflexivity.
    - intros [H _]. auto. }
  apply str_eqb_neq in E1.
  destruct (str_eqb c n_last_child) eqn:E2.
  { apply str_eqb_eq in E2. subst c. rewrite (last_child_iff p Hp). split.
    - intros H. repeat split; try discriminate; auto. intros N. destruct N. right. left. reflexivity.
    - intros (_ & H & _). auto. }
  apply str_eqb_neq in E2.
  destruct (str_eqb c n_only_child) eqn:E3.
  { apply str_eqb_eq in E3. subst c. rewrite andb_true_iff, (last_child_iff p Hp), (first_child_iff p Hp). split.
    - intros [H1 H2]. split; [discriminate |]. split; [discriminate |]. split; [auto |]. repeat split; try discriminate.
      intros N. destruct N. right. right. left. reflexivity.
    - intros (_ & _ & H & _). specialize (H eq_refl). split; intros q Hq; apply (H q Hq). }
  apply str_eqb_neq in E3.
  destruct (str_eqb c n_first_of_type) eqn:E4.
  { apply str_eqb_eq in E4. subst c. rewrite not_any_iff. split.
    - intros H. do 3 (split; [discriminate |]). split; [| repeat split; try discriminate].
      + intros _ q Hq B. apply previous_iff in B. apply H in B. apply same_name_iff in Hq. congruence.
      + intros N. destruct N. do 3 right. left. reflexivity.
    - intros (_ & _ & _ & H & _) q Hq. specialize (H eq_refl). destruct (same_name root p q) eqn:E; [| reflexivity].
      exfalso. apply same_name_iff in E. apply (H q E). apply previous_iff. exact Hq. }
  apply str_eqb_neq in E4.
  destruct (str_eqb c n_last_of_type) eqn:E5.
  { apply str_eqb_eq in E5. subst c. rewrite not_any_iff. split.
    - intros H. do 4 (split; [discriminate |]). split; [| repeat split; try discriminate].
      + intros _ q Hq B. assert (In q (next_siblings root p)) as I.
        { apply next_iff; [exact Hp |]. split; [| exact B]. destruct Hq as (x & _ & Hx & _). exists x. exact Hx. }
        apply H in I. apply same_name_iff in Hq. congruence.
      + intros N. destruct N. do 4 right. left. reflexivity.
    - intros (_ & _ & _ & _ & H & _) q Hq. specialize (H eq_refl).
      destruct (same_name root p q) eqn:E; [| reflexivity].
      exfalso. apply same_name_iff in E. apply (H q E). apply next_iff in Hq as [_ Hq]; assumption. }
  apply str_eqb_neq in E5.
  destruct (str_eqb c n_empty) eqn:E6.
  { apply str_eqb_eq in E6. subst c. split.
    - intros H. do 5 (split; [discriminate |]). split.
      + intros _. destruct (e_children e); [reflexivity | discriminate].
      + intros N. destruct N. do 5 right. left. reflexivity.
    - intros (_ & _ & _ & _ & _ & H & _). rewrite (H eq_refl). reflexivity. }
  apply str_eqb_neq in E6. rewrite smem_In. split.
  - intros H. repeat split; try (intros; congruence).
  - intros (_ & _ & _ & _ & _ & _ & H). apply H. cbn [In]. intuition congruence.
Qed.

(** ** Attributes *)
Lemma flag_iff : forall x,
  match as_flag x with Some f => str_eqb f [105] || str_eqb f [73] | None => false end = true <-> ignore_case x.
Proof.
  intros x. unfold ignore_case. destruct (as_flag x) as [f |].
  - rewrite orb_true_iff, !str_eqb_eq. split.
    + intros [-> | ->]; [left | right]; reflexivity.
    + intros [H | H]; injection H as ->; [left | right]; reflexivity.
  - split; [discriminate | intros [H | H]; discriminate].
Qed.

Definition rel_test (operator text value : str) : bool :=
  if str_eqb operator op_eq then str_eqb text value
  else if str_eqb operator op_word then smem text (s_split space value)
  else if str_eqb operator op_dash then str_eqb text value || s_startswith (text ++ [45]) value
  else if str_eqb operator op_pre then s_startswith text value
  else if str_eqb operator op_suf then s_endswith text value
  else if str_eqb operator op_sub then s_contains text value
  else true.
Lemma rel_test_iff : forall o t v, rel_test o t v = true <-> attr_rel space o t v.
Proof.
  intros o t v. unfold rel_test, attr_rel.
  destruct (str_eqb o op_eq) eqn:E1.
  { apply str_eqb_eq in E1. subst o. rewrite str_eqb_eq. split.
    - intros ->. repeat split; try discriminate.
    - intros [H _]. symmetry. auto. }
  apply str_eqb_neq in E1.
  destruct (str_eqb o op_word) eqn:E2.
  { apply str_eqb_eq in E2. subst o. rewrite smem_In, split_iff. split.
    - intros H. split; [discriminate |]. split; [auto |]. repeat split; discriminate.
    - intros (_ & H & _). auto. }
  apply str_eqb_neq in E2.
  destruct (str_eqb o op_dash) eqn:E3.
  { apply str_eqb_eq in E3. subst o. rewrite orb_true_iff, str_eqb_eq, startswith_iff. split.
    - intros H. do 2 (split; [discriminate |]). split; [| repeat split; discriminate].
      intros _. destruct H as [-> | [r ->]]; [left; reflexivity | right; exists r; rewrite <- app_assoc; reflexivity].
    - intros (_ & _ & H & _). destruct (H eq_refl) as [-> | [r ->]]; [left; reflexivity |].
      right. exists r. rewrite <- app_assoc. reflexivity. }
  apply str_eqb_neq in E3.
  destruct (str_eqb o op_pre) eqn:E4.
  { apply str_eqb_eq in E4. subst o. rewrite startswith_iff. split.
    - intros H. do 3 (split; [discriminate |]). split; [auto |]. split; discriminate.
    - intros (_ & _ & _ & H & _). auto. }
  apply str_eqb_neq in E4.
  destruct (str_eqb o op_suf) eqn:E5.
  { apply str_eqb_eq in E5. subst o. rewrite endswith_iff. split.
    - intros H. do 4 (split; [discriminate |]). split; [auto | discriminate].
    - intros (_ & _ & _ & _ & H & _). auto. }
  apply str_eqb_neq in E5.
  destruct (str_eqb o op_sub) eqn:E6.
  { apply str_eqb_eq in E6. subst o. rewrite contains_iff. split.
    - intros H. do 5 (split; [discriminate |]). auto.
    - intros (_ & _ & _ & _ & _ & H). auto. }
  apply str_eqb_neq in E6. split; [intros _ | reflexivity]. repeat split; intros; congruence.
Qed.

Lemma match_attr_iff : forall e x, NoDup (map fst (e_attrs e)) -> as_text x <> Some [] ->
  match_attr space lower e x = true <-> attr_holds space lower e x.
Proof.
  intros e x N Ht. unfold match_attr, attr_holds.
  destruct (sget (e_attrs e) (as_name x)) as [v |] eqn:Ev.
  2: { split; [discriminate |]. intros (v & Hv & _). unfold has_attr in Hv.
       apply In_sget in Hv; [congruence | exact N]. }
  assert (has_attr e (as_name x) v) as Hv by (apply sget_In; exact Ev).
  assert (forall w, has_attr e (as_name x) w -> w = v) as Uv.
  { intros w Hw. apply In_sget in Hw; [congruence | exact N]. }
  destruct (as_op x) as [o |]; [destruct (as_text x) as [t |] |].
  2, 3: split; [intros _; exists v; split; [exact Hv | intros; discriminate] | reflexivity].
  assert (empty_list t = false) as ->.
  { destruct t; [destruct Ht; reflexivity | reflexivity]. }
  rewrite orb_false_r. destruct (empty_list o) eqn:Eo.
  { destruct o; [| discriminate]. split; [intros _ | reflexivity]. exists v. split; [exact Hv |].
    intros o t' E _. injection E as <-. split; intros _; repeat split; discriminate. }
  cbv zeta.
  match goal with |- ?G <-> _ =>
    change G with (rel_test o
      (if match as_flag x with Some f => str_eqb f [105] || str_eqb f [73] | None => false end then lower t else t)
      (if match as_flag x with Some f => str_eqb f [105] || str_eqb f [73] | None => false end then lower v else v)
      = true) end.
  rewrite rel_test_iff. pose proof (flag_iff x) as F.
  destruct (match as_flag x with Some f => str_eqb f [105] || str_eqb f [73] | None => false end).
  - assert (ignore_case x) as I by (apply F; reflexivity). split.
    + intros H. exists v. split; [exact Hv |]. intros o' t' E1 E2. injection E1 as <-. injection E2 as <-.
      split; [auto | intros C; contradiction].
    + intros (w & Hw & H). apply Uv in Hw. subst w. apply (H o t eq_refl eq_refl). exact I.
  - assert (~ ignore_case x) as I by (intros C; apply F in C; discriminate). split.
    + intros H. exists v. split; [exact Hv |]. intros o' t' E1 E2. injection E1 as <-. injection E2 as <-.
      split; [intros C; contradiction | auto].
    + intros (w & Hw & H). apply Uv in Hw. subst w. apply (H o t eq_refl eq_refl). exact I.
Qed.

Lemma get_classes_iff : forall e c, NoDup (map fst (e_attrs e)) ->
  In c (get_classes space e) <-> exists v, has_attr e n_class v /\ word_of space c v.
Proof.
  intros e c N. unfold get_classes, has_attr. destruct (e_attrs e) as [| a d] eqn:Ea.
  - split; [intros [] | intros (v & [] & _)].
  - rewrite split_iff. destruct (sget (a :: d) n_class) as [v |] eqn:Ev.
    + split.
      * intros H. exists v. split; [apply sget_In; exact Ev | exact H].
      * intros (w & Hw & H). apply In_sget in Hw; [| exact N]. congruence.
    + split.
      * intros H. apply word_of_solid in H as [_ C]; [congruence | intros x []].
      * intros (w & Hw & _). apply In_sget in Hw; [congruence | exact N].
Qed.
Lemma get_id_iff : forall e i, NoDup (map fst (e_attrs e)) ->
  match get_id e with Some j => str_eqb i j | None => false end = true <-> has_attr e n_id i.
Proof.
  intros e i N. unfold get_id, has_attr. destruct (e_attrs e) as [| a d] eqn:Ea.
  - split; [discriminate | intros []].
  - destruct (sget (a :: d) n_id) as [v |] eqn:Ev.
    + rewrite str_eqb_eq. split.
      * intros ->. apply sget_In. exact Ev.
      * intros H. apply In_sget in H; [congruence | exact N].
    + split; [discriminate |]. intros H. apply In_sget in H; [congruence | exact N].
Qed.

Lemma dict_tree_at : forall p e x, dict_tree e -> elem_at e p = Some x -> NoDup (map fst (e_attrs x)).
Proof.
  induction p as [| i p IH]; intros e x D E; cbn [elem_at] in E.
  - injection E as <-. inversion D; subst. assumption.
  - destruct (nth_error (e_children e) i) as [y |] eqn:Ey; [| discriminate].
    apply (IH y); [| exact E]. inversion D as [n a c z l N F]; subst. cbn [e_children] in Ey.
    rewrite Forall_forall in F. apply F. apply nth_error_In in Ey. exact Ey.
Qed.

(** A compound selector is matched as it should. *)
Lemma match_selector_iff : forall p s, dict_tree root -> (forall x, In x (s_attr s) -> as_text x <> Some []) ->
  match_selector space lower root p s = true <-> compound_holds space lower root p s.
Proof.
  intros p s D Hs. unfold match_selector, compound_holds.
  destruct (elem_at root p) as [e |] eqn:Ee.
  2: split; [discriminate | intros (e & E & _); discriminate].
  pose proof (dict_tree_at p root e D Ee) as N.
  unfold match_selector_of. rewrite !andb_true_iff, !forallb_forall. split.
  - intros [[[[[H1 H2] H3] H4] H5] H6]. exists e. split; [reflexivity |].
    split; [| split; [| split; [| split; [| split]]]].
    + intros c Hc. apply get_classes_iff; [exact N |]. apply smem_In. auto.
    + intros n Hn. apply H2 in Hn. apply str_eqb_eq in Hn. auto.
    + intros i Hi. apply get_id_iff; auto.
    + intros x Hx. apply match_attr_iff; auto.
    + intros c Hc. apply pseudo_class_iff; auto.
    + intros c Hc. apply smem_In. auto.
  - intros (e' & E & H1 & H2 & H3 & H4 & H5 & H6). injection E as <-.
    repeat split.
    + intros c Hc. apply smem_In. apply get_classes_iff; auto.
    + intros n Hn. apply str_eqb_eq. symmetry. auto.
    + intros i Hi. apply get_id_iff; auto.
    + intros x Hx. apply match_attr_iff; auto.
    + intros c Hc. apply pseudo_class_iff; auto.
    + intros c Hc. apply smem_In. auto.
Qed.
End Tree.
