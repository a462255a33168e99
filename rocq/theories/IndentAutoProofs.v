(** Proofs about indenting twice, and about [auto_indent]. *)
From Verif Require Import Base BaseFacts MutableModel MutableSpec MutableProofs CursorModel BlockModel BlockSpec BlockProofs
  StripModel ReplaceProofs Prop_Block IndentModel IndentSpec IndentProofs IndentMoreProofs IndentLoopProofs.
From Coq Require Import ZArith ZifyBool.

Lemma lines_unique text sep lines lines' : no_overlap sep -> is_lines text sep lines -> is_lines text sep lines' -> lines = lines'.
Proof.
  intros Hno H1 H2. pose proof (all_blocks_ok text sep lines Hno H1) as E1. pose proof (all_blocks_ok text sep lines' Hno H2) as E2.
  assert (E : spans sep 0 lines = spans sep 0 lines') by congruence.
  assert (El : length lines = length lines') by (rewrite <- (spans_length sep lines 0), <- (spans_length sep lines' 0), E; reflexivity).
  apply nth_error_ext. intros k. destruct (nth_error lines k) as [l|] eqn:N1, (nth_error lines' k) as [l'|] eqn:N2; try reflexivity.
  - destruct (block_line text sep lines k l H1 N1) as [B1 _]. destruct (block_line text sep lines' k l' H2 N2) as [B2 _].
    unfold place in B1, B2. rewrite E in B1. congruence.
  - apply nth_error_None in N2. assert (k < length lines) by (apply nth_error_Some; congruence). lia.
  - apply nth_error_None in N1. assert (k < length lines') by (apply nth_error_Some; congruence). lia.
Qed.

(** ** Which lines are edited *)

Lemma edits_touched text space ind ibl events c : forall bs prev indents k b e,
  nth_error bs k = Some b -> nth_error (indent_edits text space ind ibl events c prev indents bs) k = Some e -> e <> None ->
  c_pos c <= fst b /\ (forall j b', j < k -> nth_error bs j = Some b' -> reaches c b' = false)
  /\ exists p, may_indent (events b p) = true /\ (ibl = true \/ existsb is_blank (events b p) = false).
Proof.
  induction bs as [|x bs IH]; intros prev indents k b e Hb He Hne; [destruct k; discriminate|]. cbn [indent_edits] in He. destruct k as [|k].
  - injection Hb as ->. injection He as <-. unfold line_step in Hne. cbv zeta in Hne.
    destruct (changeable ibl (indent_info text space events b indents)) eqn:Ec; [|cbn in Hne; congruence].
    destruct (fst b <? c_pos c) eqn:E; [cbn in Hne; congruence|]. split; [lia|]. split; [intros j b' Hj; lia|]. exists indents.
    unfold changeable in Ec. rewrite info_allow, info_blank in Ec. apply andb_prop in Ec as [E1 E2]. split; [exact E1|].
    destruct ibl; [left; reflexivity|right]. cbn [orb] in E2. apply negb_true_iff. exact E2.
  - cbn [nth_error] in Hb, He. destruct (stop c x) eqn:Es.
    + exfalso. assert (G : forall (l : list (nat * nat)) k, nth_error (map (fun _ => @None (nat * nat * str)) l) k = Some e -> e = None).
      { clear. induction l as [|y l IH]; intros k H; [destruct k; discriminate|]. destruct k; [injection H; congruence|apply (IH _ H)]. }
      apply Hne, (G _ _ He).
    + destruct (IH _ _ k b e Hb He Hne) as (I1 & I2 & I3). split; [exact I1|]. split; [|exact I3]. intros j b' Hj Hb'. destruct j as [|j].
      * injection Hb' as <-. exact Es.
      * apply (I2 j b'); [lia|exact Hb'].
Qed.

(** ** Indenting again *)

Lemma leading_white space new r : all_space space new -> has_text space r -> (forall x t, r = x :: t -> space x = false) -> blank space (new ++ r) = false /\ leading space (new ++ r) = new.
Proof.
  intros H1 H2 H3. split; [apply has_text_blank; exact H2|]. rewrite leading_app by exact H1. destruct r as [|x t]; [destruct H2 as (x & [] & _)|].
  cbn [leading]. rewrite (H3 x t eq_refl). apply app_nil_r.
Qed.

Lemma lstrip_head space : forall l x t, py_lstrip space l = x :: t -> space x = false.
Proof. induction l as [|y l IH]; intros x t H; [discriminate|]. cbn [py_lstrip] in H. destruct (space y) eqn:E; [apply (IH _ _ H)|]. injection H as -> _. exact E. Qed.

Lemma has_text_lstrip space : forall l, has_text space l -> has_text space (py_lstrip space l).
Proof.
  induction l as [|y l IH]; intros (x & Hx & Ex); [destruct Hx|]. cbn [py_lstrip]. destruct (space y) eqn:E.
  - apply IH. destruct Hx as [->|Hx]; [congruence|]. exists x. auto.
  - exists x. auto.
Qed.

Section Again.
Variables (text text1 : str) (space : nat -> bool) (ind : str) (ibl : bool).
Variables (events events1 : nat * nat -> list str -> list event) (c c1 : cursor).
Variable Q : str -> Prop.
Hypothesis Qnil : Q [].
Hypothesis Qapp : forall a b, Q a -> Q b -> Q (a ++ b).
Hypothesis Qind : Q ind.
Hypothesis Qspace : forall s, Q s -> all_space space s.
Notation info0 := (indent_info text space events).
Notation info1 := (indent_info text1 space events1).

Lemma info_same b b1 p : events1 b1 p = events b p ->
  i_indents (info1 b1 p) = i_indents (info0 b p) /\ i_dedents_start (info1 b1 p) = i_dedents_start (info0 b p)
  /\ i_dedents_end (info1 b1 p) = i_dedents_end (info0 b p) /\ changeable ibl (info1 b1 p) = changeable ibl (info0 b p)
  /\ i_prefer (info1 b1 p) = i_prefer (info0 b p).
Proof.
  intros E. destruct (info_counts text space events b p) as (A1 & A2 & A3). destruct (info_counts text1 space events1 b1 p) as (B1 & B2 & B3).
  assert (Er : raw events1 b1 p = raw events b p) by (unfold raw; rewrite E; reflexivity).
  rewrite B1, B2, B3, A1, A2, A3, Er. split; [reflexivity|]. split; [reflexivity|]. split; [reflexivity|]. split.
  - unfold changeable. rewrite !info_allow, !info_blank, E. reflexivity.
  - rewrite !info_prefer, E. reflexivity.
Qed.

Lemma step_again b b1 l prev indents : Forall Q indents -> all_some Q prev -> Forall (strings Q) (events b indents) ->
  events1 b1 indents = events b indents -> (fst b <? c_pos c) = (fst b1 <? c_pos c1) ->
  block_text text b = l ->
  block_text text1 b1 = edit1 l (fst (line_step text space ind ibl events c b prev indents)) ->
  (c_pos c <= fst b -> changeable ibl (info0 b indents) = true -> has_text space l) ->
  fst (line_step text1 space ind ibl events1 c1 b1 prev indents) = None
  /\ snd (line_step text1 space ind ibl events1 c1 b1 prev indents) = snd (line_step text space ind ibl events c b prev indents).
Proof.
  intros H1 H2 H3 He Hpos Hb Hb1 Ht. destruct (info_same b b1 indents He) as (I1 & I2 & I3 & I4 & I5).
  assert (Een : entering text1 space ind events1 b1 prev indents = entering text space ind events b prev indents) by (unfold entering; rewrite I2; reflexivity).
  pose proof (entering_Q text space ind events Q Qnil Qapp Qind b prev indents H1 H2) as HQ.
  destruct (info_strings text space events Q b indents H3) as [_ HP].
  unfold line_step in *. cbv zeta in *. rewrite I4, I5, Een, <- Hpos.
  destruct (changeable ibl (info0 b indents)) eqn:Ec; [|split; reflexivity].
  assert (Em : may_indent (events b indents) = true) by (unfold changeable in Ec; apply andb_prop in Ec as [Ec _]; rewrite info_allow in Ec; exact Ec).
  pose proof (strings_current Q _ H3) as Hcur.
  assert (Ecur : cur (info0 b indents) = if blank space l then [] else leading space l).
  { unfold cur. rewrite (info_indent _ _ _ _ _ Em), Hb. apply no_current. exact Hcur. }
  assert (Ecur1 : cur (info1 b1 indents) = if blank space (block_text text1 b1) then [] else leading space (block_text text1 b1)).
  { unfold cur. rewrite info_indent by (rewrite He; exact Em). rewrite He. apply no_current. exact Hcur. }
  destruct (fst b <? c_pos c) eqn:Ep; cbn [fst snd] in *.
  - cbn [edit1] in Hb1. split; [reflexivity|]. assert (cur (info1 b1 indents) = cur (info0 b indents)) by (rewrite Ecur, Ecur1, Hb1; reflexivity). rewrite H. reflexivity.
  - split; [|reflexivity]. set (new := match i_prefer (info0 b indents) with Some s => s | None => last (entering text space ind events b prev indents) [] end) in *.
    assert (HQn : Q new).
    { unfold new. inversion HP as [|x y P1 _]; subst. destruct (i_prefer (info0 b indents)); [exact P1|apply last_Q; assumption]. }
    specialize (Ht ltac:(lia) eq_refl).
    assert (Enew : cur (info1 b1 indents) = new).
    { rewrite Ecur1, Hb1. destruct (str_eqb new (cur (info0 b indents))) eqn:E; cbn [edit1].
      - apply str_eqb_spec in E. rewrite E, Ecur. reflexivity.
      - cbn [firstn app]. rewrite Ecur. pose proof (has_text_blank space l Ht []) as Hnb. cbn [app] in Hnb. rewrite Hnb.
        assert (Esk : skipn (length (leading space l)) l = py_lstrip space l).
        { rewrite (lstrip_leading space l) at 2. rewrite skipn_app, skipn_all, Nat.sub_diag. reflexivity. }
        rewrite Esk. destruct (leading_white space new (py_lstrip space l) (Qspace _ HQn) (has_text_lstrip space l Ht) (lstrip_head space l)) as [-> ->]. reflexivity. }
    rewrite Enew. replace (str_eqb new new) with true; [reflexivity|]. symmetry. apply str_eqb_spec. reflexivity.
Qed.

Lemma edits_again : forall bs bs1 lines prev indents,
  let es := indent_edits text space ind ibl events c prev indents bs in
  Forall2 (fun b l => block_text text b = l) bs lines ->
  Forall2 (fun b l => block_text text1 b = l) bs1 (edit_lines lines es) ->
  Forall2 (fun b b1 => (forall p, events1 b1 p = events b p) /\ (fst b <? c_pos c) = (fst b1 <? c_pos c1) /\ stop c b = stop c1 b1) bs bs1 ->
  Forall Q indents -> all_some Q prev -> (forall b p, In b bs -> Forall (strings Q) (events b p)) ->
  (forall l, In l lines -> Q (leading space l)) ->
  (forall k b l p, nth_error bs k = Some b -> nth_error lines k = Some l -> c_pos c <= fst b ->
     (forall j b', j < k -> nth_error bs j = Some b' -> stop c b' = false) ->
     may_indent (events b p) = true -> (ibl = true \/ existsb is_blank (events b p) = false) -> has_text space l) ->
  Forall (fun e => e = None) (indent_edits text1 space ind ibl events1 c1 prev indents bs1).
Proof.
  induction bs as [|b bs IH]; intros bs1 lines prev indents es HF HF1 HB H1 H2 H3 H4 Ht; inversion HB as [|x b1 y bs1' (B1 & B2 & B3) B4]; subst; [constructor|].
  inversion HF as [|x l y ls F1 F2]; subst x y lines. unfold es in HF1. cbn [indent_edits] in HF1. unfold edit_lines in HF1. cbn [combine map fst snd] in HF1.
  inversion HF1 as [|x l1 y ls1 G1 G2]; subst x l1 y ls1. cbn [indent_edits].
  assert (Hb3 : Forall (strings Q) (events b indents)) by (apply H3; left; reflexivity).
  destruct (step_again b b1 l prev indents H1 H2 Hb3 (B1 indents) B2 F1 G1) as [S1 S2].
  { intros Hp Hch. unfold changeable in Hch. rewrite info_allow, info_blank in Hch. apply andb_prop in Hch as [C1 C2].
    apply (Ht 0 b l indents eq_refl eq_refl Hp); [intros j b' Hj; lia|exact C1|]. destruct ibl; [left; reflexivity|right]. apply negb_true_iff. exact C2. }
  constructor; [exact S1|]. rewrite <- B3. destruct (stop c b) eqn:Est; [clear; induction bs1'; constructor; [reflexivity|assumption]|].
  destruct (info_same b b1 indents (B1 indents)) as (I1 & _ & I3 & _). rewrite S2, I1, I3.
  assert (Qc : fst b < c_pos c -> Q (cur (info0 b indents))).
  { intros _. unfold cur. destruct (i_indent (info0 b indents)) as [s|] eqn:Ei; [|exact Qnil].
    destruct (may_indent (events b indents)) eqn:Em.
    - rewrite (info_indent _ _ _ _ _ Em) in Ei. injection Ei as <-. rewrite (no_current _ _ _ (strings_current Q _ Hb3)), F1. destruct (blank space l); [exact Qnil|]. apply H4. left; reflexivity.
    - exfalso. pose proof (fold_current (events b indents) (empty_info, true)) as Ef. fold (raw events b indents) in Ef. cbn [empty_info fst i_indent] in Ef.
      assert (En : flat_map current_of (events b indents) = []).
      { pose proof (strings_current Q _ Hb3) as Hcur. clear - Hcur. induction (events b indents) as [|e es IH]; [reflexivity|]. cbn [existsb] in Hcur. apply orb_false_elim in Hcur as [Hc1 Hc2].
        cbn [flat_map]. rewrite (IH Hc2). destruct e; try reflexivity. discriminate. }
      rewrite En in Ef. unfold indent_info in Ei. fold (raw events b indents) in Ei. rewrite Ef in Ei.
      pose proof (info_allow text space events b indents) as Ea. rewrite Em in Ea. unfold indent_info in Ea. fold (raw events b indents) in Ea. rewrite Ef in Ea.
      destruct (allow_indent (raw events b indents)) eqn:Er; [|congruence]. unfold allow_indent in Ea, Er. cbn [i_no_indent] in Ea. congruence. }
  destruct (step_Q text space ind ibl events c Q Qnil Qapp Qind b prev indents H1 H2 Hb3 Qc) as (_ & _ & Q3 & Q4).
  apply (IH bs1' ls).
  - exact F2.
  - exact G2.
  - exact B4.
  - exact Q3.
  - exact Q4.
  - intros b' p Hb'. apply H3. right; exact Hb'.
  - intros l' Hl'. apply H4. right; exact Hl'.
  - intros k b' l' p Hk Hl' Hp Hj. apply (Ht (S k) b' l' p Hk Hl' Hp). intros j b'' Hlt Hb''. destruct j as [|j]; [injection Hb'' as <-; exact Est|].
    apply (Hj j); [lia|exact Hb''].
Qed.
End Again.
