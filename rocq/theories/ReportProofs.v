(** Proofs about the range that is reported. *)
From Coq Require Import List Arith Bool Lia ZArith ZifyBool.
From Verif Require Import ReportModel ReportSpec.
Import ListNotations.
Local Open Scope nat_scope.

Lemma edits_start s cs : forall D : nat -> Prop, (forall c, In c cs -> s <= start c) -> (forall p, D p -> s <= p) -> forall p, edits cs D p -> s <= p.
Proof.
  unfold edits. induction cs as [|c cs IH]; intros D Hc HD p H; [exact (HD p H)|]. cbn [fold_left] in H.
  apply (IH (edit c D) (fun c' Hc' => Hc c' (or_intror Hc'))) in H; [exact H|]. intros q Hq. pose proof (Hc c (or_introl eq_refl)).
  destruct Hq as [[Hq1 Hq2] | [Hq | [Hq1 Hq2]]]; [exact (HD q Hq2)|lia|lia].
Qed.

Definition starts_ok (range : option (nat * nat)) (D : nat -> Prop) : Prop := match range with Some (s, _) => forall p, D p -> s <= p | None => forall p, ~ D p end.
Lemma starts_turn range D t : covers t -> starts_ok range D -> starts_ok (turn_range range t) (after_turn D t).
Proof.
  intros [C _] H. unfold turn_range, starts_ok in *. destruct range as [(s, e)|]; intros p [Hp | Hp]; try lia.
  - apply (edits_start (Nat.min s (t_start t)) _ D) in Hp; [exact Hp| |].
    + intros c Hc. pose proof (C c Hc). lia.
    + intros q Hq. pose proof (H q Hq). lia.
  - apply (edits_start (t_start t) _ D) in Hp; [exact Hp|exact C|]. intros q Hq. destruct (H q Hq).
Qed.
Lemma starts_turns ts : forall range D, Forall covers ts -> starts_ok range D -> starts_ok (fold_left turn_range ts range) (fold_left after_turn ts D).
Proof.
  induction ts as [|t ts IH]; intros range D C H; [exact H|]. inversion C; subst. cbn [fold_left]. apply IH; [assumption|]. apply starts_turn; assumption.
Qed.

Lemma edits_impl cs : forall D D' : nat -> Prop, (forall p, D p -> D' p) -> forall p, edits cs D p -> edits cs D' p.
Proof.
  unfold edits. induction cs as [|c cs IH]; intros D D' H p Hp; [exact (H p Hp)|]. cbn [fold_left] in *. apply (IH (edit c D) (edit c D')); [|exact Hp].
  intros q [[H1 H2] | [H1 | [H1 H2]]]; [left; auto|right; left; auto|right; right; auto].
Qed.

Lemma ends_turn (s e : nat) (D : nat -> Prop) t : covers t -> t_during t = [] -> (forall p, D p -> p < e) ->
  forall p, after_turn D t p -> p < Nat.max (new_position (t_c t) e) (t_end t).
Proof.
  intros [_ C] Hd H p [Hp | Hp]; [|lia]. rewrite Hd in *. unfold edits in *. cbn [fold_left] in *.
  destruct Hp as [[H1 H2] | [H1 | [H1 H2]]].
  - apply H in H2. unfold new_position. destruct (e <? start (t_c t)) eqn:E1; [lia|]. destruct (e <? start (t_c t) + removed (t_c t)) eqn:E2; lia.
  - assert (p < t_end t) by (apply C; right; left; exact H1). lia.
  - apply H in H2. unfold new_position. destruct (e <? start (t_c t)) eqn:E1; [lia|]. destruct (e <? start (t_c t) + removed (t_c t)) eqn:E2; lia.
Qed.
Lemma ends_turns ts : forall (s e : nat) (D : nat -> Prop), Forall covers ts -> Forall (fun t => t_during t = []) ts -> (forall p, D p -> p < e) ->
  exists s' e', fold_left turn_range ts (Some (s, e)) = Some (s', e') /\ forall p, fold_left after_turn ts D p -> p < e'.
Proof.
  induction ts as [|t ts IH]; intros s e D C N H; [now exists s, e|]. inversion C; inversion N; subst. cbn [fold_left turn_range].
  apply IH; [assumption|assumption|]. apply (ends_turn s e D t); assumption.
Qed.

Theorem range_start ts s e : Forall covers ts -> process ts = Some (s, e) -> forall p, touched ts p -> s <= p.
Proof.
  intros C E. pose proof (starts_turns ts None nothing C (fun p H => H)) as R. unfold process in E. rewrite E in R. exact R.
Qed.
Theorem range_end t ts : Forall covers (t :: ts) -> Forall (fun t => t_during t = []) ts ->
  exists s e, process (t :: ts) = Some (s, e) /\ forall p, touched (t :: ts) p -> s <= p < e.
Proof.
  intros C N. inversion C as [|? ? C1 C2]; subst. unfold process, touched. cbn [fold_left turn_range].
  destruct (ends_turns ts (t_start t) (t_end t) (after_turn nothing t) C2 N) as (s & e & E & H).
  - intros p [Hp | Hp]; [apply C1, Hp|lia].
  - exists s, e. split; [exact E|]. intros p Hp. split; [|exact (H p Hp)]. apply (range_start (t :: ts) s e C); [exact E|exact Hp].
Qed.
