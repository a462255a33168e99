(** From trees and texts to the numbers that are read; the usual numeral for a number. *)
From Verif Require Import Base BaseFacts TargetModel TargetSpec LexerModel LexerSpec TargetProofs LexerProofs LexiconModel LexiconSpec TreeModel TreeSpec TreeProofs BuildModel BuildProofs
  TransformModel TransformSpec TransformTextProofs TransformTreeProofs MachineProofs GeneratorProofs NumbersModel NumbersSpec NumbersLevelProofs.
From Coq Require Import ZArith ZifyBool String.
Open Scope string_scope. Open Scope list_scope. Open Scope nat_scope.
Notation length := List.length.

Section Read.
Variable ulower : nat -> str.
Variable g : nlang.

(** [Transformer().transform_tree(tree)] *)
Definition n_read_tree (itree : node (nat * nlex) nact) :=
  transform_tree nlex nact NR unit nlex unit (fun _ => tt) (fun l => l) (fun _ => tt) (fun _ _ => true) (fun _ => n_methods ulower g) (fun _ => None) itree None.

Lemma quiet_numbers (n : node nlex nact) : none_untransformed (fun _ => tt) (fun l => l) (fun _ : unit => n_methods ulower g) false n.
Proof.
  induction n as [t | l cs IH] using node_ind'; [exact I |].
  assert (G : (fix all (cs : list (node nlex nact)) := match cs with [] => True | c :: cs => none_untransformed (fun _ => tt) (fun l => l) (fun _ : unit => n_methods ulower g) false c /\ all cs end) cs).
  { induction IH as [| c cs Hc Hcs IH']; [exact I |]. split; assumption. }
  destruct l; cbn; exact G.
Qed.

Lemma read_both evs ns v :
  stream_ok nlex nact [NRoot] evs -> build_tree NRoot evs = Some (Ctx NRoot ns) ->
  n_call n_root (ItemList tt (nitems ulower g ns)) = v ->
  (forall itree, erase itree = Ctx NRoot ns -> distinct itree -> exists ca, n_read_tree itree = Some (Value (Some v), ca))
  /\ n_read ulower g evs = Some (Some v).
Proof.
  intros Hst Hb Hv.
  assert (Hl : forall a b : unit, (fun _ _ : unit => true) a b = true <-> a = b) by (intros [] []; tauto).
  assert (Em : meaning (fun _ => tt) (fun l => l) (fun _ => tt) (fun _ : unit => n_methods ulower g) (Ctx NRoot ns) = Some v).
  { rewrite <- Hv. reflexivity. }
  split.
  - intros itree He Hd. destruct itree as [t | [id l] cs]; [discriminate |].
    destruct (tree_ok nlex nact NR unit nlex unit (fun _ => tt) (fun l => l) (fun _ => tt) (fun _ _ => true) Hl (fun _ => n_methods ulower g) (Ctx (id, l) cs) Hd (fun _ => None) None id l cs eq_refl)
      as (o & ca & E & _ & _ & _ & Ho).
    + split; [intros ? ? ? ? ? ? ? Hx; discriminate |]. intros ? ? ? ? ? ? Hx. exfalso. apply Hx. reflexivity.
    + exists ca. destruct o as [x |]; [| congruence]. destruct Ho as [-> _]. rewrite He in E. rewrite Em in E. exact E.
  - rewrite <- Em. refine (proj1 (text_ok nlex nact NR unit nlex unit (fun _ => tt) (fun l => l) (fun _ => tt) (fun _ _ => true) Hl (fun _ => n_methods ulower g) NRoot evs (Ctx NRoot ns) Hst Hb (quiet_numbers _)) _).
    left. apply Forall_forall. intros l _. destruct l; discriminate.
Qed.
End Read.

(** ** The usual numerals *)

Lemma say_1000_value z : z < 1000 -> value_100 (say_1000 z) = Z.of_nat z.
Proof.
  intros Hz. unfold say_1000, value_100, part. destruct (z <? 100) eqn:E; [reflexivity |]. cbn [big_value].
  pose proof (Nat.div_mod z 100 ltac:(lia)) as D. destruct (z mod 100 =? 0) eqn:E0; [apply Nat.eqb_eq in E0 |]; lia.
Qed.
Lemma say_million_value z : (Z.of_nat z < 1000000)%Z -> value_1000 (say_million z) = Z.of_nat z.
Proof.
  intros Hz. unfold say_million, value_1000, part. destruct (z <? 1000) eqn:E; [apply Nat.ltb_lt in E; exact (say_1000_value z E) |]. cbn [big_value].
  pose proof (Nat.div_mod z 1000 ltac:(lia)) as D. pose proof (Nat.mod_upper_bound z 1000 ltac:(lia)) as M.
  assert (H : z / 1000 < 1000) by lia. rewrite (say_1000_value _ H). destruct (z mod 1000 =? 0) eqn:E0; cbn [option_map]; [apply Nat.eqb_eq in E0; lia |].
  rewrite (say_1000_value _ M). lia.
Qed.
Lemma say_value m z : (Z.of_nat m < 1000000)%Z -> (Z.of_nat z < 1000000)%Z -> numeral_value (say m z) = (1000000 * Z.of_nat m + Z.of_nat z)%Z.
Proof.
  intros Hm Hz. unfold say, numeral_value, part. destruct (m =? 0) eqn:E; cbn [big_value].
  - apply Nat.eqb_eq in E. subst m. rewrite (say_million_value _ Hz). lia.
  - rewrite (say_million_value _ Hm). destruct (z =? 0) eqn:E0; cbn [option_map]; [apply Nat.eqb_eq in E0; lia |]. rewrite (say_million_value _ Hz). lia.
Qed.

(** They can be written. *)
Lemma spelled_self w : spelled w w.
Proof. induction w as [| c w IH]; constructor; [now left | exact IH]. Qed.
Lemma written_99 n : n < 100 -> exists t, en_below_100 n t.
Proof.
  intros Hn. destruct (Nat.ltb_spec n 20) as [H | H].
  - exists (nth_word n en_small). left. split; [exact H | apply spelled_self].
  - destruct (Nat.eqb_spec (n mod 10) 0) as [E | E].
    + exists (nth_word (n / 10 - 2) en_tens). right. split; [lia |]. eexists _, []. split; [symmetry; apply app_nil_r |]. split; [apply spelled_self | now left].
    + exists (nth_word (n / 10 - 2) en_tens ++ nth_word (n mod 10) en_small). right. split; [lia |]. eexists _, _. split; [reflexivity |]. split; [apply spelled_self |]. right. split; [exact E |].
      exists [], (nth_word (n mod 10) en_small). repeat split; [constructor | apply spelled_self].
Qed.
Lemma written_big {X} (R : X -> str -> Prop) w a b : match a with Some x => exists s, R x s | None => True end -> match b with Some x => exists s, R x s | None => True end -> exists s, big_text R w (Times a b) s.
Proof.
  intros Ha Hb. assert (Ga : exists sa, maybe R a sa) by (destruct a; [exact Ha | now exists []]). assert (Gb : exists sb, maybe R b sb) by (destruct b; [exact Hb | now exists []]).
  destruct Ga as [sa Ga]. destruct Gb as [sb Gb]. exists (sa ++ w ++ sb). exists sa, w, sb. split; [reflexivity |]. split; [exact Ga |]. split; [| exact Gb]. exists [], w. repeat split; [constructor | apply spelled_self].
Qed.
Lemma written_1000 z : z < 1000 -> exists s, text_100 en_below_100 (codes "hundred") (say_1000 z) s.
Proof.
  intros Hz. assert (G : forall n, n < 100 -> exists s, after_gap (en_below_100 n) s).
  { intros n Hn. destruct (written_99 n Hn) as [t Ht]. exists t, [], t. repeat split; [constructor | exact Ht]. }
  pose proof (Nat.div_mod z 100 ltac:(lia)) as D. pose proof (Nat.mod_upper_bound z 100 ltac:(lia)) as M.
  unfold say_1000, part, text_100. destruct (z <? 100) eqn:E; [apply Nat.ltb_lt in E; exact (G z E) |]. apply written_big; [apply G; lia |]. destruct (z mod 100 =? 0); [exact I | exact (G _ M)].
Qed.
Lemma written_million z : (Z.of_nat z < 1000000)%Z -> exists s, text_1000 en_below_100 (codes "hundred") (codes "thousand") (say_million z) s.
Proof.
  intros Hz. pose proof (Nat.div_mod z 1000 ltac:(lia)) as D. pose proof (Nat.mod_upper_bound z 1000 ltac:(lia)) as M.
  unfold say_million, part, text_1000. destruct (z <? 1000) eqn:E; [apply Nat.ltb_lt in E; exact (written_1000 z E) |]. apply written_big; [apply written_1000; lia |]. destruct (z mod 1000 =? 0); [exact I | exact (written_1000 _ M)].
Qed.
Lemma written m z : (Z.of_nat m < 1000000)%Z -> (Z.of_nat z < 1000000)%Z -> exists s, en_numerals [say m z] s.
Proof.
  intros Hm Hz. assert (G : exists s, numeral_text en_below_100 (codes "hundred") (codes "thousand") (codes "million") (say m z) s).
  { unfold say, part, numeral_text. destruct (m =? 0); [exact (written_million z Hz) |]. apply written_big; [exact (written_million m Hm) |]. destruct (z =? 0); [exact I | exact (written_million z Hz)]. }
  destruct G as [s G]. exists s, [], (s ++ [] ++ []). split; [now rewrite !app_nil_r |]. split; [constructor |]. apply ns_one; [exact G | constructor | congruence | constructor; constructor | reflexivity].
Qed.
