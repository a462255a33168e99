(** Property C102: what a method of a Transform gets from its item list. *)
From Verif Require Import Base ItemListModel ItemListSpec ItemListProofs.
From Coq Require Import ZArith.

(** [grouped_objects(names)] (different names): one place per name in each group; read group by group, the objects are exactly
    the objects of the items with one of the names, in order, each at the place of its name; no group is empty, and a group is only
    begun when the next object does not fit in the group before. There is only one way to do that. *)
Theorem C102_groups : forall (Name Act Obj : Type) (n_eqb : Name -> Name -> bool), (forall a b, n_eqb a b = true <-> a = b) ->
  forall names (l : list (entry Name Act Obj)) gs, NoDup names ->
  (gs = grouped_objects n_eqb names l <-> grouping names (filter (fun x => existsb (n_eqb (fst x)) names) (il_items l)) gs).
Proof.
  intros Name Act Obj n_eqb H names l gs D. split.
  - intros ->. now apply grouped_objects_ok.
  - intros G. eapply grouping_unique; [exact H | exact D | exact G |]. now apply grouped_objects_ok.
Qed.
Print Assumptions C102_groups.

(** When the items come in complete rows, the rows are the groups. Tokens in between do not matter. *)
Theorem C102_rows : forall (Name Act Obj : Type) (n_eqb : Name -> Name -> bool), (forall a b, n_eqb a b = true <-> a = b) ->
  forall names (rows : list (list Obj)) (l : list (entry Name Act Obj)), NoDup names -> names <> [] ->
  Forall (fun r => length r = length names) rows -> il_items l = concat (map (combine names) rows) ->
  grouped_objects n_eqb names l = map (map Some) rows.
Proof.
  intros Name Act Obj n_eqb H names rows l D N F E. symmetry. apply C102_groups; [exact H | exact D |].
  assert (P : forall (ns : list Name) (r : list Obj), length r = length ns -> present ns (map Some r) = combine ns r).
  { induction ns as [| n ns IH]; intros [| x r] HL; try discriminate; [reflexivity |]. unfold present. cbn [map combine flat_map fst snd app].
    f_equal. apply IH. now injection HL. }
  assert (Z0 : forall r : list Obj, length r = length names -> filled (map Some r) 0).
  { intros [| x r] HL; [destruct names; [congruence | discriminate] | now exists x]. }
  constructor.
  - rewrite Forall_map. eapply Forall_impl; [| exact F]. intros r HL. cbn beta in *. now rewrite map_length.
  - rewrite E. rewrite map_map. replace (map (fun x => present names (map Some x)) rows) with (map (combine names) rows).
    + clear -H. induction rows as [| r rows IH]; [reflexivity |]. cbn [map concat]. rewrite filter_app, <- IH. f_equal.
      assert (X : forall (ns : list Name) (r : list Obj), incl ns names -> filter (fun x => existsb (n_eqb (fst x)) names) (combine ns r) = combine ns r).
      { induction ns as [| n ns IHn]; intros [| x r'] I; try reflexivity. cbn [combine filter fst].
        replace (existsb (n_eqb n) names) with true; [f_equal; apply IHn; intros y Hy; apply I; now right |].
        symmetry. apply existsb_exists. exists n. split; [apply I; now left | now apply H]. }
      symmetry. apply X. apply incl_refl.
    + apply map_ext_in. intros r Hr. symmetry. apply P. rewrite Forall_forall in F. now apply F.
  - rewrite Forall_map. eapply Forall_impl; [| exact F]. intros r HL. exists 0. now apply Z0.
  - clear E. induction F as [| r rows F1 F2 IH]; [exact I |]. destruct rows as [| q rows]; [exact I |]. cbn [map no_too_early].
    split; [| exact IH]. inversion F2 as [| ? ? F3 F4]; subst. exists 0. split; [now apply Z0 |]. split; [intros; lia |]. exists 0. split; [now apply Z0 | lia].
Qed.
Print Assumptions C102_rows.

(** [peek(index, values)]: the values are the actions of the tokens and the names of the items from the index on; a negative index
    counts from the end. *)
Theorem C102_peek : forall (Name Act Obj : Type) (n_eqb : Name -> Name -> bool) (a_eqb : Act -> Act -> bool),
  (forall a b, n_eqb a b = true <-> a = b) -> (forall a b, a_eqb a b = true <-> a = b) ->
  forall (l : list (entry Name Act Obj)) index values,
  peek n_eqb a_eqb l index values = true <->
  exists a b, map key_of l = a ++ values ++ b /\ Z.of_nat (length a) = (if (index <? 0)%Z then index + Z.of_nat (length l) else index)%Z.
Proof. intros. now apply peek_ok. Qed.
Print Assumptions C102_peek.

(** Keys are 1 and values are 2: the first key has no value, and then there are a value without key and a pair. *)
Example C102_example :
  let l := [EToken 9; EItem 1 10; EItem 3 0; EItem 1 11; EItem 2 20; EToken 9; EItem 2 21; EItem 1 12; EItem 2 22] in
  NoDup [1; 2] /\ grouped_objects Nat.eqb [1; 2] l = [[Some 10; None]; [Some 11; Some 20]; [None; Some 21]; [Some 12; Some 22]] /\
  peek Nat.eqb Nat.eqb l (-3) [VName 2; VName 1] = true /\ peek Nat.eqb Nat.eqb l 0 [VAct 9; VName 1] = true /\
  peek Nat.eqb Nat.eqb l (-1) [VName 2; VName 2] = false /\ peek Nat.eqb Nat.eqb l (-10) [VName 2] = false.
Proof. cbv zeta. split; [repeat constructor; cbn; intuition lia |]. repeat split. Qed.

Example C102_rows_example : let l := [EItem 1 10; EToken 5; EItem 2 20; EItem 1 11; EItem 2 21] in
  NoDup [1; 2] /\ [1; 2] <> [] /\ Forall (fun r => length r = length [1; 2]) [[10; 20]; [11; 21]] /\
  il_items l = concat (map (combine [1; 2]) [[10; 20]; [11; 21]]) /\
  grouped_objects Nat.eqb [1; 2] l = [[Some 10; Some 20]; [Some 11; Some 21]].
Proof. cbv zeta. split; [repeat constructor; cbn; intuition lia |]. split; [discriminate |]. split; [repeat constructor |]. split; reflexivity. Qed.
