(** C16: pending changes are merged into one region. *)
From Verif Require Import Base BaseFacts ChangesModel ChangesSpec ChangesProofs.
From Coq Require Import ZArith ZifyBool.

(** C16 says: for every text and all edits [ds] that fit, the merged change covers what was changed.  It is false: an edit
    before the start of the pending region does not move the start of the region back.  In a text of 20 characters, five
    characters are inserted at position 10, and then one at position 2: the merged region starts at 10. *)
Theorem C16_refuted :
  exists (old : str) (ds : list edit), edits_fit old ds /\
    let c := get_changes (@entries_of nat old ds) in
    (c_start c, c_removed c, c_added c) = (10, 8, 14)%Z
    /\ ~ covers_change old (apply_edits old ds) 10 8 14
    /\ ~ exists s r a, c_start c = Z.of_nat s /\ c_removed c = Z.of_nat r /\ c_added c = Z.of_nat a
                      /\ covers_change old (apply_edits old ds) s r a.
Proof.
  exists (seq 0 20), [Edit 10 0 [50; 51; 52; 53; 54]; Edit 2 0 [60]].
  assert (Hno : ~ covers_change (seq 0 20) (apply_edits (seq 0 20) [Edit 10 0 [50; 51; 52; 53; 54]; Edit 2 0 [60]]) 10 8 14).
  { intros (_ & _ & H & _). vm_compute in H. discriminate. }
  assert (Ec : let c := get_changes (@entries_of nat (seq 0 20) [Edit 10 0 [50; 51; 52; 53; 54]; Edit 2 0 [60]]) in
               (c_start c, c_removed c, c_added c) = (10, 8, 14)%Z) by (vm_compute; reflexivity).
  split; [unfold edit_fits; cbn; unfold edit_fits; cbn; lia|]. cbv zeta in *. split; [exact Ec|]. split; [exact Hno|].
  intros (s & r & a & Hs & Hr & Ha & H).
  pose proof (f_equal (fun x => fst (fst x)) Ec) as E1. pose proof (f_equal (fun x => snd (fst x)) Ec) as E2.
  pose proof (f_equal snd Ec) as E3. cbv beta iota delta [fst snd] in E1, E2, E3. rewrite E1 in Hs. rewrite E2 in Hr. rewrite E3 in Ha.
  replace s with 10 in H by lia. replace r with 8 in H by lia. replace a with 14 in H by lia. exact (Hno H).
Qed.
Print Assumptions C16_refuted.

(** It holds if no edit starts before the first one: then the merged region starts there, and outside of it the old text and
    the text after all edits agree. *)
Theorem C16_partial :
  forall (L : Type) (old : str) (d : edit) (ds : list edit), edits_fit old (d :: ds) ->
    Forall (fun e => d_start d <= d_start e) ds ->
    exists removed added,
      let c := get_changes (@entries_of L old (d :: ds)) in
      c_start c = Z.of_nat (d_start d) /\ c_removed c = Z.of_nat removed /\ c_added c = Z.of_nat added
      /\ c_text c = apply_edits old (d :: ds)
      /\ covers_change old (apply_edits old (d :: ds)) (d_start d) removed added.
Proof.
  intros L old d ds [Hf Hf'] Hs.
  set (c0 := c_add (@c_init L) (apply_edit old d) None (Z.of_nat (d_start d)) (Some (Z.of_nat (d_removed d))) (Some (Z.of_nat (length (d_ins d))))).
  assert (H0 : c_covers L old (apply_edit old d) c0).
  { exists (d_start d), (d_removed d), (length (d_ins d)). repeat (split; [reflexivity|]). apply covers_one. exact Hf. }
  pose proof (covers_all L ds old (apply_edit old d) c0 H0 Hf') as H.
  assert (Hs' : Forall (fun e => (c_start c0 <= Z.of_nat (d_start e))%Z) ds).
  { eapply Forall_impl; [|exact Hs]. intros e He. cbn in He. subst c0. cbn. lia. }
  specialize (H Hs'). destruct H as (s & r & a & E1 & E2 & E3 & H).
  assert (Est : forall es text c, edits_fit text es -> Forall (fun e => (c_start c <= Z.of_nat (d_start e))%Z) es -> (0 <= c_start c)%Z ->
    c_text c = text ->
    c_start (fold_left (fun c n => c_add c (n_text n) (n_root n) (n_start n) (Some (n_removed n)) (Some (n_added n))) (@entries_of L text es) c) = c_start c
    /\ c_text (fold_left (fun c n => c_add c (n_text n) (n_root n) (n_start n) (Some (n_removed n)) (Some (n_added n))) (@entries_of L text es) c) = apply_edits text es).
  { induction es as [|e es IH]; intros text c Hfit Hle H0' Htext; [split; [reflexivity|exact Htext]|].
    inversion Hle as [|? ? He Hle']; subst. destruct Hfit as [_ Hfit].
    cbn [entries_of fold_left entry_of n_text n_root n_start n_removed n_added apply_edits].
    match goal with |- context [fold_left _ _ ?x] => set (c1 := x) end.
    assert (E : c_start c1 = c_start c) by (subst c1; unfold c_add; destruct (c_start c =? -1)%Z eqn:E; cbn [c_start]; lia).
    assert (Et : c_text c1 = apply_edit (c_text c) e) by (subst c1; unfold c_add; destruct (c_start c =? -1)%Z; reflexivity).
    rewrite <- E. apply IH; [exact Hfit| |lia|exact Et]. rewrite E. exact Hle'. }
  destruct (Est ds (apply_edit old d) c0 Hf' Hs' ltac:(subst c0; cbn; lia) eq_refl) as [Est1 Est2].
  exists r, a. cbv zeta. unfold get_changes. cbn [entries_of fold_left entry_of n_text n_root n_start n_removed n_added].
  fold c0. split; [rewrite Est1; reflexivity|]. split; [exact E2|]. split; [exact E3|]. split; [exact Est2|].
  cbn [apply_edits]. replace (d_start d) with s; [exact H|]. rewrite Est1 in E1. subst c0. cbn in E1. lia.
Qed.
Print Assumptions C16_partial.

(** A position outside the region is moved along with the text it is in. *)
Theorem C16_new_position :
  forall (L : Type) (old new : str) (c : changes L) (s r a p : nat),
    c_start c = Z.of_nat s -> c_removed c = Z.of_nat r -> c_added c = Z.of_nat a -> covers_change old new s r a ->
    exists q, c_new_position c (Z.of_nat p) = Z.of_nat q /\
      (p < s -> firstn p old = firstn q new) /\ (s + r <= p -> skipn p old = skipn q new).
Proof.
  intros L old new c s r a p Es Er Ea (H1 & H2 & H3 & H4). unfold c_new_position. rewrite Es, Er, Ea.
  destruct (Z.of_nat p <? Z.of_nat s)%Z eqn:E1.
  - exists p. split; [reflexivity|]. split; [|lia]. intros _.
    apply (f_equal (firstn p)) in H3. rewrite !firstn_firstn in H3. replace (Nat.min p s) with p in H3 by lia. exact H3.
  - destruct (Z.of_nat p <? Z.of_nat s + Z.of_nat r)%Z eqn:E2.
    + exists (s + a). split; [lia|]. split; lia.
    + exists (p - r + a). split; [lia|]. split; [lia|]. intros Hp.
      replace p with ((s + r) + (p - (s + r))) at 1 by lia. rewrite <- skipn_skipn, H4, skipn_skipn. f_equal. lia.
Qed.
Print Assumptions C16_new_position.

Example C16_example :
  let old := seq 0 20 in let ds := [Edit 5 2 [90; 91; 92]; Edit 7 4 [93]; Edit 12 0 [94; 95]; Edit 5 1 []] in
  edits_fit old ds /\ Forall (fun e => 5 <= d_start e) ds
  /\ let c := get_changes (@entries_of nat old ds) in (c_start c, c_removed c, c_added c) = (5, 9, 8)%Z
     /\ c_new_position c 3 = 3%Z /\ c_new_position c 10 = 13%Z /\ c_new_position c 15 = 14%Z.
Proof.
  cbv zeta. split; [|split].
  - unfold edits_fit, edit_fits. cbn. lia.
  - repeat constructor; cbn; lia.
  - vm_compute. repeat split.
Qed.
