(** Elementary facts about the vocabulary of [Base]. *)
From Verif Require Import Base.

Lemma list_eqb_spec {A} (eqb : A -> A -> bool) :
  (forall x y, eqb x y = true <-> x = y) ->
  forall a b, list_eqb eqb a b = true <-> a = b.
Proof.
  intros H a; induction a as [|x a IH]; intros [|y b]; simpl; split; intros E;
    try discriminate; try reflexivity.
  - apply andb_prop in E as [E1 E2]. apply H in E1. apply IH in E2. congruence.
  - injection E as -> ->. apply andb_true_intro; split; [apply H|apply IH]; reflexivity.
Qed.

Lemma str_eqb_spec a b : str_eqb a b = true <-> a = b.
Proof. apply list_eqb_spec. intros x y; apply Nat.eqb_eq. Qed.

Lemma str_eqb_refl a : str_eqb a a = true.
Proof. apply str_eqb_spec; reflexivity. Qed.

Lemma str_eqb_false a b : str_eqb a b = false <-> a <> b.
Proof.
  rewrite <- str_eqb_spec. destruct (str_eqb a b); split; congruence.
Qed.

Lemma slice_length {A} (l : list A) i j : length (slice l i j) = Nat.min (j - i) (length l - i).
Proof. unfold slice. rewrite firstn_length, skipn_length. reflexivity. Qed.

Lemma slice_all {A} (l : list A) : slice l 0 (length l) = l.
Proof. unfold slice; rewrite Nat.sub_0_r; simpl; apply firstn_all. Qed.

Lemma slice_from {A} (l : list A) i : slice l i (length l) = skipn i l.
Proof.
  unfold slice. rewrite <- (skipn_length i l). apply firstn_all.
Qed.

Lemma slice_nil {A} (l : list A) i j : j <= i -> slice l i j = [].
Proof. intros H; unfold slice. replace (j - i) with 0 by lia. reflexivity. Qed.

Lemma slice_0 {A} (l : list A) j : slice l 0 j = firstn j l.
Proof. unfold slice; rewrite Nat.sub_0_r; reflexivity. Qed.

Lemma firstn_add {A} (l : list A) a b : firstn (a + b) l = firstn a l ++ firstn b (skipn a l).
Proof.
  revert l; induction a as [|a IH]; intros l; simpl; [reflexivity|].
  destruct l as [|x l]; simpl; [rewrite firstn_nil; reflexivity|]. rewrite IH; reflexivity.
Qed.

Lemma skipn_skipn {A} (l : list A) a b : skipn a (skipn b l) = skipn (b + a) l.
Proof.
  revert l; induction b as [|b IH]; intros l; simpl; [reflexivity|].
  destruct l as [|x l]; [apply skipn_nil|]. apply IH.
Qed.

Lemma slice_app_slice {A} (l : list A) i j k : i <= j -> j <= k ->
  slice l i j ++ slice l j k = slice l i k.
Proof.
  intros H1 H2; unfold slice.
  replace (k - i) with ((j - i) + (k - j)) by lia.
  rewrite firstn_add, skipn_skipn. replace (i + (j - i)) with j by lia. reflexivity.
Qed.

Lemma slice_app_from {A} (l : list A) i j : i <= j ->
  slice l i j ++ skipn j l = skipn i l.
Proof.
  intros H. unfold slice.
  rewrite <- (firstn_skipn (j - i) (skipn i l)) at 2. rewrite skipn_skipn.
  replace (i + (j - i)) with j by lia. reflexivity.
Qed.

Lemma slice_firstn_from {A} (l : list A) i : firstn i l ++ skipn i l = l.
Proof. apply firstn_skipn. Qed.

Lemma slice_slice {A} (l : list A) i j a b :
  i + b <= j -> slice (slice l i j) a b = slice l (i + a) (i + b).
Proof.
  intros H; unfold slice. rewrite skipn_firstn_comm, skipn_skipn, firstn_firstn.
  f_equal. lia.
Qed.

Lemma drop_last_0 {A} (l : list A) : drop_last 0 l = l.
Proof. unfold drop_last. rewrite Nat.sub_0_r. apply firstn_all. Qed.

Lemma drop_last_all {A} (l : list A) n : length l <= n -> drop_last n l = [].
Proof. intros H; unfold drop_last. replace (length l - n) with 0 by lia. reflexivity. Qed.

Lemma drop_last_length {A} (l : list A) n : length (drop_last n l) = length l - n.
Proof. unfold drop_last. rewrite firstn_length. lia. Qed.

Lemma drop_last_app {A} (a b : list A) n : n <= length b ->
  drop_last n (a ++ b) = a ++ drop_last n b.
Proof.
  intros H; unfold drop_last. rewrite app_length.
  replace (length a + length b - n) with (length a + (length b - n)) by lia.
  rewrite firstn_app_2. reflexivity.
Qed.

Lemma drop_last_app_more {A} (a b : list A) n : length b <= n ->
  drop_last n (a ++ b) = drop_last (n - length b) a.
Proof.
  intros H; unfold drop_last. rewrite app_length, firstn_app.
  replace (length a + length b - n - length a) with 0 by lia.
  rewrite app_nil_r. f_equal. lia.
Qed.

Lemma drop_last_drop_last {A} (l : list A) a b : drop_last a (drop_last b l) = drop_last (b + a) l.
Proof.
  unfold drop_last. rewrite firstn_firstn, firstn_length. f_equal. lia.
Qed.

Lemma last_opt_app {A} (l : list A) x : last_opt (l ++ [x]) = Some x.
Proof. unfold last_opt. rewrite rev_app_distr. reflexivity. Qed.

Lemma last_opt_some {A} (l : list A) x : last_opt l = Some x -> exists l', l = l' ++ [x].
Proof.
  unfold last_opt. destruct (rev l) as [|y r] eqn:E; [discriminate|]. intros [= ->].
  exists (rev r). rewrite <- (rev_involutive l), E. reflexivity.
Qed.

Lemma last_opt_none {A} (l : list A) : last_opt l = None <-> l = [].
Proof.
  unfold last_opt; split.
  - destruct (rev l) eqn:E; [|discriminate]. intros _.
    rewrite <- (rev_involutive l), E. reflexivity.
  - intros ->. reflexivity.
Qed.

Lemma hd_error_app {A} (a b : list A) : a <> [] -> hd_error (a ++ b) = hd_error a.
Proof. destruct a; [congruence|reflexivity]. Qed.
