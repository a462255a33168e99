(** Proofs about merging changes. *)
From Verif Require Import Base BaseFacts ChangesModel ChangesSpec.
From Coq Require Import ZArith ZifyBool.

Section Proofs.
Variable L : Type.

(** The entry that records an edit of [text] (as [TreeBuilder.rebuild] is called by a document). *)
Definition entry_of (text : str) (d : edit) : entry L :=
  Entry (apply_edit text d) None (Z.of_nat (d_start d)) (Z.of_nat (d_removed d)) (Z.of_nat (length (d_ins d))).
Fixpoint entries_of (text : str) (ds : list edit) : list (entry L) :=
  match ds with [] => [] | d :: ds => entry_of text d :: entries_of (apply_edit text d) ds end.

Lemma apply_edit_length text d : edit_fits text d ->
  length (apply_edit text d) + d_removed d = length text + length (d_ins d).
Proof.
  unfold edit_fits, apply_edit. intros H. rewrite !app_length, firstn_length, skipn_length. lia.
Qed.

Lemma apply_edit_before text d n : edit_fits text d -> n <= d_start d -> firstn n (apply_edit text d) = firstn n text.
Proof.
  unfold edit_fits, apply_edit. intros H Hn. rewrite firstn_app, firstn_firstn, firstn_length.
  replace (Nat.min n (d_start d)) with n by lia. replace (n - Nat.min (d_start d) (length text)) with 0 by lia.
  cbn [firstn]. apply app_nil_r.
Qed.

Lemma apply_edit_after text d n : edit_fits text d -> d_start d + length (d_ins d) <= n ->
  skipn n (apply_edit text d) = skipn (n + d_removed d - length (d_ins d)) text.
Proof.
  unfold edit_fits, apply_edit. intros H Hn.
  rewrite skipn_app, (skipn_all2 (firstn (d_start d) text)), firstn_length by (rewrite firstn_length; lia).
  rewrite skipn_app, (skipn_all2 (d_ins d)) by lia. cbn [app]. rewrite skipn_skipn. f_equal. lia.
Qed.

Definition c_covers (old new : str) (c : changes L) : Prop :=
  exists s r a, c_start c = Z.of_nat s /\ c_removed c = Z.of_nat r /\ c_added c = Z.of_nat a /\ covers_change old new s r a.

Lemma covers_one text d : edit_fits text d -> covers_change text (apply_edit text d) (d_start d) (d_removed d) (length (d_ins d)).
Proof.
  intros H. pose proof (apply_edit_length _ _ H) as Hl. split; [exact H|]. split; [unfold edit_fits in H; lia|]. split.
  - symmetry. apply apply_edit_before; [exact H|lia].
  - rewrite apply_edit_after by (try exact H; lia). f_equal. lia.
Qed.

Lemma covers_merge old text d c : c_covers old text c -> edit_fits text d -> (c_start c <= Z.of_nat (d_start d))%Z ->
  c_covers old (apply_edit text d)
    (c_add c (apply_edit text d) None (Z.of_nat (d_start d)) (Some (Z.of_nat (d_removed d))) (Some (Z.of_nat (length (d_ins d)))))
  /\ c_start (c_add c (apply_edit text d) None (Z.of_nat (d_start d)) (Some (Z.of_nat (d_removed d))) (Some (Z.of_nat (length (d_ins d)))))
     = c_start c.
Proof.
  intros (s & r & a & Es & Er & Ea & H1 & H2 & H3 & H4) Hf Hs.
  pose proof (apply_edit_length _ _ Hf) as Hl.
  unfold edit_fits in Hf.
  set (gap := d_start d - (s + a)). set (ov := Nat.min (d_start d + d_removed d) (s + a) - d_start d).
  unfold c_add. destruct (c_start c =? -1)%Z eqn:E; [lia|]. cbn [c_start c_removed c_added].
  split; [|lia].
  exists s, (r + (d_removed d - ov) + gap), (a - ov + length (d_ins d) + gap).
  cbn [c_start c_removed c_added].
  split; [lia|]. split; [|split].
  - try rewrite Es in *; try rewrite Er in *; try rewrite Ea in *. subst ov gap. destruct (Z.of_nat (d_start d) + Z.of_nat (d_removed d) <? Z.of_nat s)%Z eqn:E1; [lia|].
    destruct (Z.of_nat (d_start d) >? Z.of_nat s + Z.of_nat a)%Z eqn:E2; lia.
  - try rewrite Es in *; try rewrite Er in *; try rewrite Ea in *. subst ov gap. destruct (Z.of_nat (d_start d) + Z.of_nat (d_removed d) <? Z.of_nat s)%Z eqn:E1; [lia|].
    destruct (Z.of_nat (d_start d) >? Z.of_nat s + Z.of_nat a)%Z eqn:E2; lia.
  - assert (Hlen : length old + a = length text + r).
    { apply (f_equal (@length nat)) in H4. rewrite !skipn_length in H4. lia. }
    split; [subst ov gap; lia|]. split; [subst ov gap; lia|]. split.
    + rewrite apply_edit_before by (unfold edit_fits; lia). exact H3.
    + rewrite apply_edit_after by (unfold edit_fits; subst ov gap; lia).
      set (k := s + (r + (d_removed d - ov) + gap) - (s + r)).
      replace (s + (r + (d_removed d - ov) + gap)) with ((s + r) + k) by (subst k; lia).
      rewrite <- skipn_skipn, H4, skipn_skipn. f_equal. subst k ov gap. lia.
Qed.

(** Every edit starts at or after the start of the first one. *)
Lemma covers_all ds : forall old text c, c_covers old text c -> edits_fit text ds ->
  Forall (fun d => (c_start c <= Z.of_nat (d_start d))%Z) ds ->
  c_covers old (apply_edits text ds)
    (fold_left (fun c n => c_add c (n_text n) (n_root n) (n_start n) (Some (n_removed n)) (Some (n_added n))) (entries_of text ds) c).
Proof.
  induction ds as [|d ds IH]; intros old text c Hc Hf Hs; [exact Hc|].
  destruct Hf as [Hf Hf']. inversion Hs as [|? ? Hd Hs']; subst.
  cbn [entries_of fold_left apply_edits entry_of n_text n_root n_start n_removed n_added].
  destruct (covers_merge old text d c Hc Hf Hd) as [H1 H2].
  apply IH; [exact H1|exact Hf'|]. rewrite H2. exact Hs'.
Qed.

End Proofs.
Arguments entry_of {L}. Arguments entries_of {L}.
