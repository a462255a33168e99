(** C01: combining targets. *)
From Verif Require Import Base TargetModel TargetSpec TargetProofs.
From Coq Require Import ZArith.

(** Combining any sequence of targets (None = no target) and following the result is the same as
    following them in sequence; and the factory is empty again after [get]. *)
Theorem C01_merged_target_follows_sequence :
  forall (L : Type) (ts : list (option (target L))) (stack : list L),
    follow stack (fst (f_get (fold_left f_add ts f_init))) = fold_left follow ts stack
    /\ snd (f_get (fold_left f_add ts f_init)) = f_init.
Proof. intros L ts stack; split; [exact (merge_follow L ts stack) | exact (f_get_snd L _)]. Qed.
Print Assumptions C01_merged_target_follows_sequence.

(** A target is reported exactly if something is pending, and a reported target is never a no-op
    record (pop 0, push nothing). *)
Theorem C01_target_reported_iff_pending :
  forall (L : Type) (f : factory L),
    (fst (f_get f) = None <-> (f_pop f = 0 /\ f_push f = []))
    /\ (forall t, fst (f_get f) = Some t ->
        (t_pop t = f_pop f /\ t_push t = f_push f) /\ (t_pop t <> 0 \/ t_push t <> [])).
Proof.
  intros L f; split.
  - rewrite f_get_none; unfold f_init; destruct f; simpl; split; [intros [= -> ->]; auto | intros [-> ->]; auto].
  - intros t H; split; [|exact (f_get_nontrivial L f t H)].
    revert H; unfold f_get; destruct (_ || _); simpl; [intros [= <-]; auto | discriminate].
Qed.
Print Assumptions C01_target_reported_iff_pending.

(** The target made from the target part of a rule does what the items say one by one. *)
Theorem C01_rule_target_follows_items :
  forall (L : Type) (lexicon : L) (rule : list (ritem L)) (stack : list L),
    follow stack (t_make lexicon rule) = fold_left (follow_item lexicon) rule stack.
Proof. exact make_follow. Qed.
Print Assumptions C01_rule_target_follows_items.

(** A non-trivial instance: pops reaching below earlier pushes. *)
Example C01_example :
  fst (f_get (fold_left f_add
     [Some (Target 0 [10; 11]); Some (Target 3 [12]); None; Some (Target 1 [13; 14])] f_init))
  = Some (Target 1 [13; 14])
  /\ fold_left follow
     [Some (Target 0 [10; 11]); Some (Target 3 [12]); None; Some (Target 1 [13; 14])] [1; 2]
     = [1; 13; 14].
Proof. split; reflexivity. Qed.
Example C01_example_rule :
  t_make 7 [RInt (-1)%Z; RLex 3; RInt 2%Z; RInt (-4)%Z] = Some (Target 2 []).
Proof. reflexivity. Qed.
