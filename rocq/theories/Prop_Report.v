(** C143: the range that is reported when changes arrive while the tree is being built. *)
From Coq Require Import List Arith Bool Lia ZArith ZifyBool.
From Verif Require Import ReportModel ReportSpec ReportProofs.
Import ListNotations.
Local Open Scope nat_scope.

(** However many times the tree is built again because of changes that arrived between two turns of the loop, the reported range
    covers all positions of the final text that are new or belonged to a new part of the tree in any of the turns.
    Missing: changes that arrive while the tree is being built, in a turn that is not the first: see [C143_during_refuted]. *)
Theorem C143_range_partial : forall t ts, Forall covers (t :: ts) -> Forall (fun t => t_during t = []) ts ->
  exists s e, process (t :: ts) = Some (s, e) /\ forall p, touched (t :: ts) p -> s <= p < e.
Proof. intros t ts C N. exact (range_end t ts C N). Qed.
Print Assumptions C143_range_partial.

(** The start of the range is right in every case. *)
Theorem C143_start : forall ts s e, Forall covers ts -> process ts = Some (s, e) -> forall p, touched ts p -> s <= p.
Proof. intros ts s e C E p H. exact (range_start ts s e C E p H). Qed.
Print Assumptions C143_start.

(** Ten characters are replaced by twenty at 100; then five are removed at 10; then some are replaced at 95, in what was new. *)
Definition turns1 : list turn := [Turn (Ch 100 10 20) [] 90 130; Turn (Ch 10 5 0) [] 8 14; Turn (Ch 95 40 3) [] 90 99].
Example C143_example : Forall covers turns1 /\ process turns1 = Some (8, 99).
Proof.
  split; [|reflexivity]. repeat apply Forall_cons; [| | |apply Forall_nil]; (split; [intros c [<- | []]; cbn; lia|]); intros p H; unfold edits, edit, nothing in H; cbn in H |- *; lia.
Qed.

(** Finding: changes that [build_new_tree] takes while it is building are not in [c], so that the [end] of earlier turns is not moved. First
    the text up to 130 is new; in the second turn ten characters are added at 10, and while the tree is being built 50 more at 20. What was at
    129 is at 189 now, but the range ends at 140. *)
Theorem C143_during_refuted : exists ts s e p, Forall covers ts /\ process ts = Some (s, e) /\ touched ts p /\ ~ p < e.
Proof.
  exists [Turn (Ch 100 10 30) [] 95 130; Turn (Ch 10 0 10) [Ch 20 0 50] 8 72], 8, 140, 189.
  split; [|split; [reflexivity|split; [|lia]]].
  - repeat apply Forall_cons; [| |apply Forall_nil].
    + split; [intros c [<- | []]; cbn; lia|]. intros p H; unfold edits, edit, nothing in H; cbn in H |- *; lia.
    + split; [intros c [<- | [<- | []]]; cbn; lia|]. intros p H; unfold edits, edit, nothing in H; cbn in H |- *; lia.
  - unfold touched. cbn [fold_left]. left. unfold edits. cbn [fold_left t_c t_during]. right. right. cbn [start added removed]. split; [lia|].
    right. right. cbn [start added removed]. split; [lia|]. right. cbn [t_start t_end]. lia.
Qed.
Print Assumptions C143_during_refuted.
