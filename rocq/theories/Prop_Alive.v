(** C144: every cursor that exists follows the text of its document. *)
From Coq Require Import List Arith Bool Lia.
From Verif Require Import Base MutableModel CursorModel AliveModel AliveSpec AliveProofs.
Import ListNotations.

(** Whatever cursors are created in whatever documents, at the same or at different positions, however they are moved, equal or not, and however often
    an address is used again: every cursor has been moved once by every edit of its own document since it was created, and by no other edit. *)
Theorem C144_cursors : forall address_hash ops st, (forall i j, address_hash i = address_hash j -> i = j) -> Forall op_ok ops ->
  run address_hash init ops = Some st -> forall i, seen (objs st i) = fold_left (life i) ops None.
Proof. intros ah ops st J K E i. exact (run_life ah J ops init st (inv_init ah) K E i). Qed.
Print Assumptions C144_cursors.

(** And nothing but using an address twice, or a cursor that does not exist, can go wrong. *)
Theorem C144_never_fails : forall address_hash ops st, (forall i j, address_hash i = address_hash j -> i = j) -> Forall op_ok ops ->
  run address_hash init ops = Some st ->
  (forall i d pos e, fold_left (life i) ops None = None -> exists st', run address_hash st [New i d pos e] = Some st') /\
  (forall i pos e, fold_left (life i) ops None <> None ->
     (exists st', run address_hash st [Select i pos e] = Some st') /\ exists st', run address_hash st [Drop i] = Some st') /\
  (forall d ch, exists st', run address_hash st [Edit d ch] = Some st').
Proof.
  intros ah ops st J K E. pose proof (C144_cursors ah ops st J K E) as L. split; [|split].
  - intros i d pos e N. rewrite <- L in N. cbn [run step]. destruct (objs st i); [discriminate N|]. eexists. reflexivity.
  - intros i pos e N. rewrite <- L in N. cbn [run step]. destruct (objs st i); [|now contradict N]. split; eexists; reflexivity.
  - intros d ch. eexists. reflexivity.
Qed.
Print Assumptions C144_never_fails.

(** Two equal cursors at 8, and one in another document; the first is moved, so that it becomes unequal, and back; eight characters are inserted at 8; the second
    ceases to exist and its address is used again; three characters are removed at 2. *)
Definition ops1 : list op :=
  [New 1 0 8 None; New 2 0 8 None; New 3 5 8 None; Select 1 3 None; Select 1 8 (Some 8); Edit 0 (Change 8 8 (repeat 120 8)); Drop 2; New 2 0 16 (Some None);
   Edit 0 (Change 2 5 [])].
Example C144_example : Forall op_ok ops1 /\ exists st, run (fun i => 16 * i) init ops1 = Some st /\
  seen (objs st 1) = Some (0, 5, Some 13) /\ seen (objs st 2) = Some (0, 13, None) /\ seen (objs st 3) = Some (5, 8, Some 8).
Proof.
  split; [repeat apply Forall_cons; try exact I; try apply Forall_nil; cbn; lia|]. eexists. split; [vm_compute; reflexivity|].
  repeat split; vm_compute; reflexivity.
Qed.
