(** Lexicons as objects, and their parse functions. *)
From Verif Require Import Base BaseFacts LexIdModel LexIdSpec.
From Coq Require Import ZArith ZifyBool.

Section LexId.
Variable A : Type.
Variable aeq : A -> A -> bool.
Hypothesis arefl : forall a, aeq a a = true.
Hypothesis asym : forall a b, aeq a b = true -> aeq b a = true.
Hypothesis atrans : forall a b c, aeq a b = true -> aeq b c = true -> aeq a c = true.
Notation get := (get A). Notation derive := (derive A aeq). Notation call := (call A aeq). Notation eqd := (eqd A aeq).

Lemma assoc_cons {K V} (eqb : K -> K -> bool) k k0 (v : V) l : assoc eqb k ((k0, v) :: l) = if eqb k0 k then Some v else assoc eqb k l.
Proof. unfold assoc. cbn [find fst]. destruct (eqb k0 k); reflexivity. Qed.
Lemma eq2_spec a b : eq2 a b = true <-> a = b.
Proof. unfold eq2. destruct a as [a1 a2], b as [b1 b2]. cbn. rewrite andb_true_iff, !Nat.eqb_eq. split; [intros [-> ->]; reflexivity | intros H; injection H; tauto]. Qed.
Lemma nth_snoc {X} (l : list X) x i y : nth_error (l ++ [x]) i = Some y <-> nth_error l i = Some y \/ (i = length l /\ y = x).
Proof.
  split; intros H.
  - destruct (lt_dec i (length l)) as [Hi | Hi]; [left; now rewrite nth_error_app1 in H |]. right. rewrite nth_error_app2 in H by lia. destruct (i - length l) as [| k] eqn:E.
    + cbn in H. split; [lia | congruence].
    + cbn in H. destruct k; discriminate.
  - destruct H as [H | [-> ->]]; [rewrite nth_error_app1; [exact H |]; apply nth_error_Some; congruence |]. now rewrite nth_error_app2, Nat.sub_diag.
Qed.
Lemma nth_bound {X} (l : list X) i y : nth_error l i = Some y -> i < length l.
Proof. intros H. apply nth_error_Some. congruence. Qed.

Record inv (h : heap A) : Prop := Inv {
  i_got : forall d l x, assoc eq2 (d, l) (h_got h) = Some x <-> nth_error (h_objs h) x = Some (Lexi d l None);
  i_der : forall x a y, assoc eqd (x, a) (h_derived h) = Some y ->
    exists d l a', nth_error (h_objs h) x = Some (Lexi d l None) /\ nth_error (h_objs h) y = Some (Lexi d l (Some a')) /\ aeq a' a = true;
  i_all : forall y d l a', nth_error (h_objs h) y = Some (Lexi d l (Some a')) ->
    exists x, nth_error (h_objs h) x = Some (Lexi d l None) /\ forall a, aeq a' a = true -> assoc eqd (x, a) (h_derived h) = Some y }.
Lemma inv_empty : inv h_empty.
Proof.
  split.
  - intros d l x. split; [discriminate | destruct x; discriminate].
  - intros x a y H. discriminate.
  - intros y d l a' H. destruct y; discriminate.
Qed.
Definition grows (h h' : heap A) : Prop := forall x o, nth_error (h_objs h) x = Some o -> nth_error (h_objs h') x = Some o.
Lemma get_ok h d l : inv h -> let (h', x) := get h d l in inv h' /\ grows h h' /\ nth_error (h_objs h') x = Some (Lexi d l None).
Proof.
  intros Hi. unfold get. destruct (assoc eq2 (d, l) (h_got h)) as [x |] eqn:E.
  - split; [exact Hi |]. split; [now intros y o H |]. now apply (i_got h Hi).
  - cbn [h_objs]. split; [| split; [intros y o H; apply nth_snoc; now left | apply nth_snoc; now right]]. split; cbn [h_objs h_got h_derived].
    + intros d0 l0 x. rewrite assoc_cons, nth_snoc. destruct (eq2 (d, l) (d0, l0)) eqn:Ee.
      * apply eq2_spec in Ee. injection Ee as <- <-. split; [intros H; injection H as <-; now right |]. intros [H | [-> _]]; [| reflexivity]. apply (i_got h Hi) in H. congruence.
      * rewrite (i_got h Hi). split; [now left |]. intros [H | [_ H]]; [exact H |]. injection H as -> ->. rewrite (proj2 (eq2_spec _ _) eq_refl) in Ee. discriminate.
    + intros x a y H. destruct (i_der h Hi _ _ _ H) as (d0 & l0 & a' & H1 & H2 & H3). exists d0, l0, a'. rewrite !nth_snoc. tauto.
    + intros y d0 l0 a' H. apply nth_snoc in H. destruct H as [H | [_ H]]; [| discriminate]. destruct (i_all h Hi _ _ _ _ H) as (x & H1 & H2). exists x. rewrite nth_snoc. tauto.
Qed.
Lemma derive_ok h x d l a : inv h -> nth_error (h_objs h) x = Some (Lexi d l None) ->
  let (h', y) := derive h x (Lexi d l None) a in inv h' /\ grows h h' /\ exists a', nth_error (h_objs h') y = Some (Lexi d l (Some a')) /\ aeq a' a = true.
Proof.
  intros Hi Hx. unfold derive. destruct (assoc eqd (x, a) (h_derived h)) as [y |] eqn:E.
  - split; [exact Hi |]. split; [now intros z o H |]. destruct (i_der h Hi _ _ _ E) as (d0 & l0 & a' & H1 & H2 & H3). rewrite Hx in H1. injection H1 as -> ->. exists a'. now split.
  - cbn [h_objs x_desc x_lang]. split; [| split; [intros z o H; apply nth_snoc; now left | exists a; split; [apply nth_snoc; now right | apply arefl]]]. split; cbn [h_objs h_got h_derived].
    + intros d0 l0 x0. rewrite nth_snoc, (i_got h Hi). split; [now left |]. intros [H | [_ H]]; [exact H | discriminate].
    + intros x0 a0 y. rewrite assoc_cons. destruct (eqd (x, a) (x0, a0)) eqn:Ee.
      * intros H. injection H as <-. unfold LexIdModel.eqd in Ee. cbn in Ee. apply andb_true_iff in Ee. destruct Ee as [Ex Ea]. apply Nat.eqb_eq in Ex. subst x0. exists d, l, a. rewrite !nth_snoc. split; [now left |]. split; [now right | exact Ea].
      * intros H. destruct (i_der h Hi _ _ _ H) as (d0 & l0 & a' & H1 & H2 & H3). exists d0, l0, a'. rewrite !nth_snoc. tauto.
    + intros y d0 l0 a' H. apply nth_snoc in H. destruct H as [H | [-> H]].
      * destruct (i_all h Hi _ _ _ _ H) as (x0 & H1 & H2). exists x0. rewrite nth_snoc. split; [now left |]. intros b Hb. rewrite assoc_cons. destruct (eqd (x, a) (x0, b)) eqn:Ee; [| now apply H2]. exfalso.
        unfold LexIdModel.eqd in Ee. cbn in Ee. apply andb_true_iff in Ee. destruct Ee as [Ex Ea]. apply Nat.eqb_eq in Ex. subst x0. rewrite (H2 a) in E; [discriminate |]. eapply atrans; [exact Hb |]. now apply asym.
      * injection H as -> -> ->. exists x. rewrite nth_snoc. split; [now left |]. intros b Hb. rewrite assoc_cons. unfold LexIdModel.eqd. cbn [fst snd]. now rewrite Nat.eqb_refl, Hb.
Qed.
(** The object [x] is what was asked for. *)
Definition is_for (h : heap A) (x : nat) (w : nat * nat * option A) : Prop :=
  exists a, nth_error (h_objs h) x = Some (Lexi (fst (fst w)) (snd (fst w)) a) /\ same_arg aeq a (snd w).
Lemma is_for_grows h h' x w : grows h h' -> is_for h x w -> is_for h' x w.
Proof. intros G (a & H1 & H2). exists a. split; [now apply G | exact H2]. Qed.
Lemma call_ok h x w arg : inv h -> is_for h x w ->
  exists h' y, call h x arg = Some (h', y) /\ inv h' /\ grows h h' /\ is_for h' y (fst w, match arg with Some b => Some b | None => snd w end).
Proof.
  intros Hi (a & H1 & H2). destruct w as [[d l] b]. cbn [fst snd] in *. unfold call. rewrite H1. cbn [x_arg x_desc x_lang]. destruct arg as [c |]; [| exists h, x; split; [reflexivity |]; split; [exact Hi |]; split; [now intros y o H |]; exists a; now split].
  destruct a as [a |].
  - pose proof (get_ok h d l Hi) as G. destruct (get h d l) as [h1 v]. destruct G as (G1 & G2 & G3). rewrite G3. pose proof (derive_ok h1 v d l c G1 G3) as D. destruct (derive h1 v (Lexi d l None) c) as [h2 y].
    destruct D as (D1 & D2 & a' & D3 & D4). exists h2, y. split; [reflexivity |]. split; [exact D1 |]. split; [intros z o H; apply D2, G2, H |]. exists (Some a'). now split.
  - pose proof (derive_ok h x d l c Hi H1) as D. destruct (derive h x (Lexi d l None) c) as [h2 y]. destruct D as (D1 & D2 & a' & D3 & D4). exists h2, y. split; [reflexivity |]. split; [exact D1 |]. split; [exact D2 |]. exists (Some a'). now split.
Qed.
Lemma nth_wants {X Y} (P : X -> Y -> Prop) (l : list X) (m : list Y) k x : Forall2 P l m -> nth_error l k = Some x -> exists y, nth_error m k = Some y /\ P x y.
Proof. intros H. revert k. induction H as [| a b l m Hab H IH]; intros [| k] Hk; try discriminate; cbn in *; [injection Hk as <-; exists b; now split | now apply IH]. Qed.
Lemma Forall2_sym {X Y} (P : X -> Y -> Prop) l m : Forall2 P l m -> Forall2 (fun y x => P x y) m l.
Proof. induction 1; constructor; assumption. Qed.
Lemma Forall2_mono {X Y} (P Q : X -> Y -> Prop) l m : (forall x y, P x y -> Q x y) -> Forall2 P l m -> Forall2 Q l m.
Proof. intros H. induction 1; constructor; auto. Qed.
Lemma history_ok ops : forall h res ws all, inv h -> Forall2 (is_for h) res ws -> all_wants ws ops = Some all ->
  exists h' res', history A aeq h res ops = Some (h', res') /\ inv h' /\ Forall2 (is_for h') res' all.
Proof.
  induction ops as [| op ops IH]; intros h res ws all Hi Hr Hw.
  - cbn in *. injection Hw as <-. exists h, res. now split.
  - cbn [all_wants history] in *. destruct (wants ws op) as [w |] eqn:Ew; [| discriminate].
    assert (D : exists h' x, do_op A aeq h res op = Some (h', x) /\ inv h' /\ grows h h' /\ is_for h' x w).
    { destruct op as [d l | k arg]; cbn [wants do_op] in *.
      - injection Ew as <-. pose proof (get_ok h d l Hi) as G. destruct (get h d l) as [h' x]. destruct G as (G1 & G2 & G3). exists h', x. split; [reflexivity |]. split; [exact G1 |]. split; [exact G2 |]. exists None. now split.
      - destruct (nth_error ws k) as [w0 |] eqn:Ek; [| discriminate]. destruct (nth_wants _ _ _ _ _ (Forall2_sym _ _ _ Hr) Ek) as (x & Hx & Hf). rewrite Hx. destruct (call_ok h x w0 arg Hi Hf) as (h' & y & C1 & C2 & C3 & C4).
        exists h', y. split; [exact C1 |]. split; [exact C2 |]. split; [exact C3 |]. destruct w0 as [[d l] b]. injection Ew as <-. exact C4. }
    destruct D as (h' & x & D1 & D2 & D3 & D4). rewrite D1. apply (IH h' (res ++ [x]) (ws ++ [w])); [exact D2 | | exact Hw].
    apply Forall2_app; [| constructor; [exact D4 | constructor]]. eapply Forall2_mono; [| exact Hr]. intros z v. now apply is_for_grows.
Qed.
Lemma same_unique h x y w w' : inv h -> is_for h x w -> is_for h y w' -> (x = y <-> same_want aeq w w').
Proof.
  intros Hi (a & H1 & H2) (b & H3 & H4). destruct w as [[d l] wa], w' as [[d' l'] wb]. cbn [fst snd] in *. unfold same_want. cbn [fst snd]. split.
  - intros ->. rewrite H3 in H1. injection H1 as -> -> ->. split; [reflexivity |]. destruct a, wa, wb; cbn in *; try contradiction; try exact I. eapply atrans; [apply asym, H2 | exact H4].
  - intros [E Hs]. injection E as -> ->. destruct wa as [wa |], wb as [wb |]; cbn in Hs; try contradiction; destruct a as [a |]; cbn in H2; try contradiction; destruct b as [b |]; cbn in H4; try contradiction.
    + destruct (i_all h Hi _ _ _ _ H1) as (x0 & X1 & X2). destruct (i_all h Hi _ _ _ _ H3) as (y0 & Y1 & Y2).
      assert (E0 : x0 = y0) by (apply (i_got h Hi) in X1, Y1; congruence). subst y0. specialize (X2 wb (atrans _ _ _ H2 Hs)). specialize (Y2 wb H4). congruence.
    + apply (i_got h Hi) in H1, H3. congruence.
Qed.
Theorem history_same ops ws : all_wants [] ops = Some ws ->
  exists h res, history A aeq h_empty [] ops = Some (h, res) /\ length res = length ops /\ 
    (forall i x w, nth_error res i = Some x -> nth_error ws i = Some w -> exists o, nth_error (h_objs h) x = Some o /\ (x_desc o, x_lang o) = fst w /\ same_arg aeq (x_arg o) (snd w)) /\
    forall i j x y w w', nth_error res i = Some x -> nth_error res j = Some y -> nth_error ws i = Some w -> nth_error ws j = Some w' -> (x = y <-> same_want aeq w w').
Proof.
  intros Hw. destruct (history_ok ops h_empty [] [] ws inv_empty ltac:(constructor) Hw) as (h & res & H1 & H2 & H3). exists h, res. split; [exact H1 |].
  assert (Hl : forall ops h res h' res', history A aeq h res ops = Some (h', res') -> length res' = length res + length ops).
  { clear. induction ops as [| op ops IH]; intros h res h' res' H; cbn in *; [injection H as <- <-; lia |]. destruct (do_op A aeq h res op) as [[h1 x] |]; [| discriminate]. apply IH in H. rewrite app_length in H. cbn in H. lia. }
  split; [now apply Hl in H1 |].
  assert (Hf : forall i x w, nth_error res i = Some x -> nth_error ws i = Some w -> is_for h x w).
  { intros i x w Hx Hv. destruct (nth_wants _ _ _ _ _ H3 Hx) as (w0 & W1 & W2). congruence. }
  split.
  - intros i x w Hx Hv. destruct (Hf i x w Hx Hv) as (a & F1 & F2). exists (Lexi (fst (fst w)) (snd (fst w)) a). split; [exact F1 |]. cbn. split; [now destruct (fst w) | exact F2].
  - intros i j x y w w' Hx Hy Hv Hv'. apply (same_unique h); [exact H2 | now apply (Hf i) | now apply (Hf j)].
Qed.
End LexId.

(** ** The parse function *)
Lemma upd_length {X} (l : list X) i x : length (upd l i x) = length l.
Proof. revert i. induction l as [| y l IH]; intros [| i]; cbn; auto. Qed.
Lemma upd_nth {X} (l : list X) i x j : i < length l -> nth_error (upd l i x) j = if j =? i then Some x else nth_error l j.
Proof.
  revert i j. induction l as [| y l IH]; intros [| i] j Hi; cbn [length] in Hi; try lia; destruct j as [| j]; cbn [upd nth_error]; try reflexivity. rewrite IH by lia. reflexivity.
Qed.
Definition inside (pc : ppc) : bool := match pc with PIn | PBuild | PSet => true | _ => false end.
Record pinv (s : pst) : Prop := PInv {
  v_lock : forall i pc, nth_error (p_threads s) i = Some pc -> inside pc = true -> p_lock s = Some i;
  v_held : forall i, p_lock s = Some i -> exists pc, nth_error (p_threads s) i = Some pc /\ inside pc = true;
  v_none : p_parse s = None -> p_builds s = 0;
  v_some : forall f, p_parse s = Some f -> f = 0 /\ p_builds s = 1;
  v_pc : forall i pc, nth_error (p_threads s) i = Some pc ->
    match pc with PBuild => p_parse s = None | PSet | PLast => p_parse s = Some 0 | PDone (Some f) => p_parse s = Some f | _ => True end }.
Lemma pinv_init n : pinv (p_init n).
Proof.
  assert (H : forall i pc, nth_error (repeat PLook n) i = Some pc -> pc = PLook) by (intros i pc Hi; apply nth_error_In, repeat_spec in Hi; exact Hi).
  split; cbn [p_init p_threads p_lock p_parse p_builds].
  - intros i pc Hi Hp. apply H in Hi. subst. discriminate.
  - discriminate.
  - reflexivity.
  - discriminate.
  - intros i pc Hi. apply H in Hi. subst. exact I.
Qed.
Lemma pinv_step ok i s s' : pinv s -> p_step ok i s = Some s' -> pinv s'.
Proof.
  intros [V1 V2 V3 V4 V5] Hs. unfold p_step in Hs. destruct (nth_error (p_threads s) i) as [pc |] eqn:Ei; [| discriminate]. pose proof (nth_bound _ _ _ Ei) as Hb. pose proof (V5 _ _ Ei) as Vi.
  assert (Other : forall j pc' new, nth_error (upd (p_threads s) i new) j = Some pc' -> (j = i /\ pc' = new) \/ (j <> i /\ nth_error (p_threads s) j = Some pc')).
  { intros j pc' new H. rewrite (upd_nth _ _ _ _ Hb) in H. destruct (Nat.eqb_spec j i); [left; split; congruence | right; now split]. }
  assert (At : forall new, nth_error (upd (p_threads s) i new) i = Some new) by (intros new; now rewrite (upd_nth _ _ _ _ Hb), Nat.eqb_refl).
  assert (Keep : forall j pc' new, j <> i -> nth_error (p_threads s) j = Some pc' -> nth_error (upd (p_threads s) i new) j = Some pc').
  { intros j pc' new Hj H. rewrite (upd_nth _ _ _ _ Hb). now rewrite (proj2 (Nat.eqb_neq j i) Hj). }
  assert (Mine : inside pc = true -> forall j pc', nth_error (p_threads s) j = Some pc' -> inside pc' = true -> j = i).
  { intros Hp j pc' Hj Hp'. pose proof (V1 _ _ Hj Hp'). pose proof (V1 _ _ Ei Hp). congruence. }
  destruct pc as [| | | | | | r]; try discriminate.
  - (* PLook *)
    destruct (p_parse s) as [f |] eqn:Ep; injection Hs as <-; (split; cbn [p_threads p_lock p_parse p_builds]; [| | exact V3 | exact V4 |]).
    + intros j pc Hj Hp. destruct (Other _ _ _ Hj) as [[-> ->] | [Hn Ho]]; [discriminate | now apply (V1 j pc)].
    + intros j Hj. destruct (V2 _ Hj) as (pc & P1 & P2). destruct (Nat.eq_dec j i) as [-> | Hn]; [rewrite Ei in P1; injection P1 as <-; discriminate |]. exists pc. split; [now apply Keep | exact P2].
    + intros j pc Hj. destruct (Other _ _ _ Hj) as [[-> ->] | [Hn Ho]]; [reflexivity | exact (V5 _ _ Ho)].
    + intros j pc Hj Hp. destruct (Other _ _ _ Hj) as [[-> ->] | [Hn Ho]]; [discriminate | now apply (V1 j pc)].
    + intros j Hj. destruct (V2 _ Hj) as (pc & P1 & P2). destruct (Nat.eq_dec j i) as [-> | Hn]; [rewrite Ei in P1; injection P1 as <-; discriminate |]. exists pc. split; [now apply Keep | exact P2].
    + intros j pc Hj. destruct (Other _ _ _ Hj) as [[-> ->] | [Hn Ho]]; [exact I | exact (V5 _ _ Ho)].
  - (* PWait *)
    destruct (p_lock s) as [k |] eqn:El; [discriminate |]. injection Hs as <-. split; cbn [p_threads p_lock p_parse p_builds]; [| | exact V3 | exact V4 |].
    + intros j pc Hj Hp. destruct (Other _ _ _ Hj) as [[-> ->] | [Hn Ho]]; [reflexivity |]. pose proof (V1 _ _ Ho Hp). discriminate.
    + intros j Hj. injection Hj as <-. exists PIn. split; [apply At | reflexivity].
    + intros j pc Hj. destruct (Other _ _ _ Hj) as [[-> ->] | [Hn Ho]]; [exact I | exact (V5 _ _ Ho)].
  - (* PIn *)
    destruct (p_parse s) as [f |] eqn:Ep; injection Hs as <-; (split; cbn [p_threads p_lock p_parse p_builds]; [| | exact V3 | exact V4 |]).
    + intros j pc Hj Hp. destruct (Other _ _ _ Hj) as [[-> ->] | [Hn Ho]]; [discriminate |]. pose proof (Mine eq_refl _ _ Ho Hp). congruence.
    + discriminate.
    + intros j pc Hj. destruct (Other _ _ _ Hj) as [[-> ->] | [Hn Ho]]; [reflexivity | exact (V5 _ _ Ho)].
    + intros j pc Hj Hp. destruct (Other _ _ _ Hj) as [[-> ->] | [Hn Ho]]; [exact (V1 _ _ Ei eq_refl) | now apply (V1 j pc)].
    + intros j Hj. pose proof (V1 _ _ Ei eq_refl) as Hl. assert (j = i) by congruence. subst j. exists PBuild. split; [apply At | reflexivity].
    + intros j pc Hj. destruct (Other _ _ _ Hj) as [[-> ->] | [Hn Ho]]; [reflexivity | exact (V5 _ _ Ho)].
  - (* PBuild *)
    destruct ok; injection Hs as <-; split; cbn [p_threads p_lock p_parse p_builds].
    + intros j pc Hj Hp. destruct (Other _ _ _ Hj) as [[-> ->] | [Hn Ho]]; [exact (V1 _ _ Ei eq_refl) | now apply (V1 j pc)].
    + intros j Hj. pose proof (V1 _ _ Ei eq_refl) as Hl. assert (j = i) by congruence. subst j. exists PSet. split; [apply At | reflexivity].
    + discriminate.
    + intros f Hf. injection Hf as <-. rewrite (V3 Vi). now split.
    + intros j pc Hj. rewrite (V3 Vi). destruct (Other _ _ _ Hj) as [[-> ->] | [Hn Ho]]; [reflexivity |]. pose proof (V5 _ _ Ho) as V. destruct pc as [| | | | | | [f |]]; try exact I; try congruence.
      pose proof (Mine eq_refl _ _ Ho eq_refl). congruence.
    + intros j pc Hj Hp. destruct (Other _ _ _ Hj) as [[-> ->] | [Hn Ho]]; [discriminate |]. pose proof (Mine eq_refl _ _ Ho Hp). congruence.
    + discriminate.
    + exact V3.
    + exact V4.
    + intros j pc Hj. destruct (Other _ _ _ Hj) as [[-> ->] | [Hn Ho]]; [exact I | exact (V5 _ _ Ho)].
  - (* PSet *)
    injection Hs as <-. split; cbn [p_threads p_lock p_parse p_builds]; [| discriminate | exact V3 | exact V4 |].
    + intros j pc Hj Hp. destruct (Other _ _ _ Hj) as [[-> ->] | [Hn Ho]]; [discriminate |]. pose proof (Mine eq_refl _ _ Ho Hp). congruence.
    + intros j pc Hj. destruct (Other _ _ _ Hj) as [[-> ->] | [Hn Ho]]; [exact Vi | exact (V5 _ _ Ho)].
  - (* PLast *)
    injection Hs as <-. split; cbn [p_threads p_lock p_parse p_builds]; [| | exact V3 | exact V4 |].
    + intros j pc Hj Hp. destruct (Other _ _ _ Hj) as [[-> ->] | [Hn Ho]]; [discriminate | now apply (V1 j pc)].
    + intros j Hj. destruct (V2 _ Hj) as (pc & P1 & P2). destruct (Nat.eq_dec j i) as [-> | Hn]; [rewrite Ei in P1; injection P1 as <-; discriminate |]. exists pc. split; [now apply Keep | exact P2].
    + intros j pc Hj. destruct (Other _ _ _ Hj) as [[-> ->] | [Hn Ho]]; [rewrite Vi; reflexivity | exact (V5 _ _ Ho)].
Qed.
Lemma pinv_run s l s' : pinv s -> p_run s l s' -> pinv s'.
Proof. intros H R. induction R as [s | s i ok s1 l s2 H1 R IH]; [exact H |]. apply IH. eapply pinv_step; eassumption. Qed.
(** No thread waits for ever: as long as one is not done, one can go on, and every step brings the end nearer. *)
Lemma progress s ok : pinv s -> (exists i pc, nth_error (p_threads s) i = Some pc /\ forall r, pc <> PDone r) -> exists i s', p_step ok i s = Some s'.
Proof.
  intros [V1 V2 V3 V4 V5] (i & pc & Hi & Hp). destruct (p_lock s) as [k |] eqn:El.
  - destruct (V2 k eq_refl) as (pk & K1 & K2). exists k. unfold p_step. rewrite K1. destruct pk; try discriminate K2.
    + destruct (p_parse s); eexists; reflexivity.
    + destruct ok; eexists; reflexivity.
    + eexists; reflexivity.
  - exists i. unfold p_step. rewrite Hi. destruct pc as [| | | | | | r].
    + destruct (p_parse s); eexists; reflexivity.
    + rewrite El. eexists; reflexivity.
    + destruct (p_parse s); eexists; reflexivity.
    + destruct ok; eexists; reflexivity.
    + eexists; reflexivity.
    + eexists; reflexivity.
    + now destruct (Hp r).
Qed.
Definition rank (pc : ppc) : nat := match pc with PLook => 6 | PWait => 5 | PIn => 4 | PBuild => 3 | PSet => 2 | PLast => 1 | PDone _ => 0 end.
Definition ranks (l : list ppc) : nat := list_sum (map rank l).
Lemma ranks_upd l : forall i pc new, nth_error l i = Some pc -> ranks (upd l i new) + rank pc = ranks l + rank new.
Proof. unfold ranks. induction l as [| y l IH]; intros [| i] pc new H; try discriminate; cbn [upd map list_sum fold_right] in *; [injection H as ->; lia |]. specialize (IH _ _ new H). unfold list_sum in IH. lia. Qed.
Lemma step_down ok i s s' : p_step ok i s = Some s' -> ranks (p_threads s') < ranks (p_threads s).
Proof.
  unfold p_step. destruct (nth_error (p_threads s) i) as [pc |] eqn:E; [| discriminate]. intros H.
  destruct pc; try discriminate; try (destruct (p_parse s)); try (destruct (p_lock s)); try (destruct ok); try discriminate; injection H as <-; cbn [p_threads];
    match goal with |- context [upd _ _ ?n] => pose proof (ranks_upd _ _ _ n E) as K; cbn [rank] in K; lia end.
Qed.
Lemma run_length s l s' : p_run s l s' -> length l + ranks (p_threads s') <= ranks (p_threads s).
Proof. induction 1 as [s | s i ok s1 l s2 H R IH]; [cbn; lia |]. pose proof (step_down _ _ _ _ H). cbn [length]. lia. Qed.
Lemma all_work s l s' : p_run s l s' -> Forall (fun x => snd x = true) l -> pinv s -> Forall (fun pc => pc <> PDone None) (p_threads s) -> Forall (fun pc => pc <> PDone None) (p_threads s').
Proof.
  induction 1 as [s | s i ok s1 l s2 H R IH]; intros Hl Hi Hf; [exact Hf |]. inversion Hl as [| x l' Hx Hl']; subst x l'. cbn in Hx. subst ok. apply IH; [exact Hl' | eapply pinv_step; eassumption |].
  unfold p_step in H. destruct (nth_error (p_threads s) i) as [pc |] eqn:E; [| discriminate].
  assert (G : forall new, new <> PDone None -> Forall (fun pc => pc <> PDone None) (upd (p_threads s) i new)).
  { intros new Hn. rewrite Forall_forall in *. intros x Hx. apply In_nth_error in Hx. destruct Hx as (j & Hj). rewrite (upd_nth _ _ _ _ (nth_bound _ _ _ E)) in Hj. destruct (j =? i); [congruence |]. apply Hf. eapply nth_error_In, Hj. }
  pose proof (v_pc s Hi _ _ E) as V.
  destruct pc; try discriminate; try (destruct (p_parse s) eqn:Ep); try (destruct (p_lock s)); try discriminate; injection H as <-; cbn [p_threads]; try (apply G; discriminate).
Qed.
(** An exception is seen only by a thread whose own build failed. *)
Lemma own_failure s l s' i : p_run s l s' -> nth_error (p_threads s') i = Some (PDone None) -> pinv s -> nth_error (p_threads s) i = Some (PDone None) \/ In (i, false) l.
Proof.
  induction 1 as [s | s j ok s1 l s2 H R IH]; intros Hd Hi; [now left |].
  destruct (IH Hd (pinv_step _ _ _ _ Hi H)) as [H1 | H1]; [| right; now right].
  unfold p_step in H. destruct (nth_error (p_threads s) j) as [pc |] eqn:E; [| discriminate].
  pose proof (v_pc s Hi _ _ E) as V. pose proof (fun new => upd_nth (p_threads s) j new i (nth_bound _ _ _ E)) as U.
  destruct (Nat.eqb_spec i j) as [-> | Hn].
  - destruct pc; try discriminate; try (destruct (p_parse s) eqn:Ep); try (destruct (p_lock s)); try (destruct ok); try discriminate; injection H as <-; cbn [p_threads] in H1; rewrite U in H1; try discriminate H1; try discriminate V; right; now left.
  - left. destruct pc; try discriminate; try (destruct (p_parse s)); try (destruct (p_lock s)); try (destruct ok); try discriminate; injection H as <-; cbn [p_threads] in H1; rewrite U in H1; exact H1.
Qed.
