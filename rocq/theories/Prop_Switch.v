(** C131, C132: switches, and encodings found in a text. *)
From Verif Require Import Base SwitchModel SwitchSpec SwitchProofs.
From Coq Require Import ZArith.

(** C131.  In every program that uses the switch of instances of a class in [with] blocks, nested in any way, with exceptions raised and caught anywhere, and that does not ask
    the class itself for the switch: whenever the switch of an instance is looked at it is on just if a block of that instance (or an equal one) is open; exceptions come out
    just where they would without the switch; in the end all are off. *)
Theorem C131_switch_partial (I : Type) (ieq : I -> I -> bool) :
  (forall a, ieq a a = true) -> (forall a b, ieq a b = true -> ieq b a = true) -> (forall a b c, ieq a b = true -> ieq b c = true -> ieq a c = true) ->
  forall l, Forall by_instance l ->
  exists s, w_all I ieq l w_empty = (s, fst (sees_all ieq l []), snd (sees_all ieq l [])) /\ forall i, w_on I (fst (w_get I ieq s i)) (snd (w_get I ieq s i)) = false.
Proof. intros H1 H2 H3 l Hl. now apply switch_right. Qed.
Print Assumptions C131_switch_partial.
Example C131_case :
  let l := [Test 1; Try [With 1 [Test 1; Test 2; With 2 [With 1 [Test 2]; Test 1; Raise]; Test 1]]; Test 1; Test 2] in
  Forall by_instance l /\ snd (fst (w_all nat Nat.eqb l w_empty)) = [false; true; false; true; true; false; false].
Proof. split; [repeat constructor | reflexivity]. Qed.

(** Not so if the class is asked for the switch: that forgets the switches of all instances, also those that are on. *)
Theorem C131_class_refuted : exists l : list (act nat), snd (fst (w_all nat Nat.eqb l w_empty)) <> fst (sees_all Nat.eqb l []).
Proof. exists [With 1 [Try [OfClass]; Test 1]]. vm_compute. discriminate. Qed.
Print Assumptions C131_class_refuted.
(** And not so for different instances that are equal: those have one switch. *)
Theorem C131_equal_instances_refuted : exists (ieq : nat -> nat -> bool) l,
  (forall a, ieq a a = true) /\ (forall a b, ieq a b = true -> ieq b a = true) /\ (forall a b c, ieq a b = true -> ieq b c = true -> ieq a c = true) /\
  Forall by_instance l /\ snd (fst (w_all nat ieq l w_empty)) <> fst (sees_all Nat.eqb l []).
Proof. exists (fun _ _ => true), [With 1 [Test 2]]. repeat split; try reflexivity; [repeat constructor |]. vm_compute. discriminate. Qed.
Print Assumptions C131_equal_instances_refuted.

(** C132.  The encoding that is found in any text is the first one written in it; nothing is found just if none is written. *)
Theorem C132_find_encoding_partial uword text :
  match io_find_encoding uword text with
  | Some v => exists a, written uword text a v /\ forall a2 v2, written uword text a2 v2 -> length a <= length a2
  | None => forall a v, ~ written uword text a v
  end.
Proof.
  pose proof (find_written uword text) as H. destruct (io_find_encoding uword text) as [v |].
  - destruct H as (a & H1 & H2). exists a. split; [now apply written_ok |]. intros a2 v2 H. apply (H2 a2 v2). now apply written_ok.
  - intros a v W. apply (H a v). now apply written_ok.
Qed.
Print Assumptions C132_find_encoding_partial.
(** [x encoding: a-8] and [y]: the encoding is found. *)
Example C132_case : io_find_encoding (fun _ => true) [120; 32; 101; 110; 99; 111; 100; 105; 110; 103; 58; 32; 97; 45; 56; 32; 121] = Some [97; 45; 56].
Proof. reflexivity. Qed.
(** Not so: that [# coding: a-8], announced by the documentation, is recognized. *)
Definition w_coding : str := [99; 111; 100; 105; 110; 103].
Theorem C132_coding_refuted : io_find_encoding (fun _ => true) ([35; 32] ++ w_coding ++ [58; 32; 97; 45; 56]) = None.
Proof. reflexivity. Qed.
Print Assumptions C132_coding_refuted.
