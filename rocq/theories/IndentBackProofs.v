(** Proofs about [auto_indent]: what the search backwards finds is on the list of indents [indent] keeps. *)
From Verif Require Import Base BaseFacts MutableModel MutableSpec MutableProofs CursorModel BlockModel BlockSpec BlockProofs
  StripModel ReplaceProofs Prop_Block IndentModel IndentSpec IndentProofs IndentMoreProofs IndentLoopProofs IndentAutoProofs.
From Coq Require Import ZArith ZifyBool.

(** ** Counting events *)

Lemma align_length a l : length (align_last a l) = length l.
Proof.
  unfold align_last. destruct (last_opt l) as [[x|]|] eqn:E; try reflexivity.
  rewrite (last_opt_removelast l None E) at 2. rewrite !app_length. reflexivity.
Qed.
Lemma removelast_length {A} (l : list A) : length (removelast l) = length l - 1.
Proof. destruct l as [|x l _] using rev_ind; [reflexivity|]. rewrite removelast_last, app_length. cbn. lia. Qed.

Lemma fold_unmatched : forall es i,
  unmatched (length (i_indents i)) (i_dedents_end i) es
  = (length (i_indents (fst (fold_left handle_event es (i, false)))), i_dedents_end (fst (fold_left handle_event es (i, false)))).
Proof.
  induction es as [|e es IH]; intros i; [reflexivity|]. destruct i as [indl ds de cr pre bl ns ni]. cbn [fold_left].
  destruct e; cbn [handle_event unmatched fst]; try (rewrite <- IH; cbn [i_indents i_dedents_end]; try reflexivity).
  - rewrite app_length. cbn [length]. rewrite Nat.add_1_r. reflexivity.
  - cbn [i_indents i_dedents_end]. destruct indl as [|x indl]; rewrite <- IH; cbn [i_indents i_dedents_end length]; [reflexivity|].
    change (match indl with [] => [] | _ :: _ => x :: removelast indl end) with (removelast (x :: indl)).
    rewrite removelast_length. cbn [length]. replace (S (length indl) - 1) with (length indl) by lia. reflexivity.
  - rewrite align_length. reflexivity.
Qed.

Lemma fold_counts : forall es i, i_indents i = [] -> i_dedents_end i = 0 ->
  let r := fst (fold_left handle_event es (i, true)) in
  i_dedents_start r = i_dedents_start i + start_closes es /\ length (i_indents r) = opens es /\ i_dedents_end r = closes es.
Proof.
  unfold opens, closes. induction es as [|e es IH]; intros i H1 H2; [cbn; rewrite H1, H2; split; [lia|split; reflexivity]|].
  destruct i as [indl ds de cr pre bl ns ni]. cbn [i_indents i_dedents_end] in H1, H2. subst. cbv zeta. cbn [fold_left].
  destruct e; cbn [handle_event start_closes rest fst].
  - rewrite fold_start_fixed. cbn [i_dedents_start]. split; [lia|]. cbn [app].
    pose proof (fold_unmatched es (Info [None] ds 0 cr pre bl ns ni)) as G. cbn [i_indents i_dedents_end length] in G. cbn [unmatched]. rewrite G. split; reflexivity.
  - destruct (IH (Info [] (S ds) 0 cr pre bl ns ni) eq_refl eq_refl) as (A & B & C). rewrite A, B, C. cbn [i_dedents_start]. split; [lia|split; reflexivity].
  - rewrite fold_start_fixed. cbn [i_dedents_start]. split; [lia|].
    pose proof (fold_unmatched es (Info [] ds 0 cr pre bl ns ni)) as G. cbn [i_indents i_dedents_end length] in G. cbn [unmatched]. rewrite G. split; reflexivity.
  - apply (IH (Info [] ds 0 cr (Some arg) bl ns ni) eq_refl eq_refl).
  - apply (IH (Info [] ds 0 (Some arg) pre bl ns ni) eq_refl eq_refl).
  - apply (IH (Info [] ds 0 cr pre bl ns ni) eq_refl eq_refl).
  - apply (IH (Info [] ds 0 cr pre true ns ni) eq_refl eq_refl).
  - apply (IH (Info [] ds 0 cr pre bl true ni) eq_refl eq_refl).
  - apply (IH (Info [] ds 0 cr pre bl ns true) eq_refl eq_refl).
Qed.

Lemma nest_app : forall a b d, nest d (a ++ b) = match nest d a with Some d' => nest d' b | None => None end.
Proof. induction a as [|e a IH]; intros b d; [reflexivity|]. cbn [app nest]. destruct e; try apply IH. destruct d; [reflexivity|apply IH]. Qed.

Lemma nest_unmatched : forall es o c d d', c <= d -> nest (d - c + o) es = Some d' ->
  c <= snd (unmatched o c es) <= d /\ d' = d - snd (unmatched o c es) + fst (unmatched o c es).
Proof.
  induction es as [|e es IH]; intros o c d d' Hc H; [injection H as <-; cbn; lia|]. cbn [nest unmatched] in *.
  destruct e; try (apply IH; assumption).
  - apply IH; [exact Hc|]. rewrite <- H. f_equal. lia.
  - destruct (d - c + o) as [|m] eqn:E; [discriminate|]. destruct o as [|o].
    + destruct (IH 0 (S c) d d') as [A B]; [lia| |split; [lia|exact B]]. rewrite <- H. f_equal. lia.
    + apply IH; [exact Hc|]. rewrite <- H. f_equal. lia.
Qed.

Lemma nest_line : forall es d d', nest d es = Some d' ->
  start_closes es + closes es <= d /\ d' = d - start_closes es - closes es + opens es.
Proof.
  unfold opens, closes. induction es as [|e es IH]; intros d d' H; [injection H as <-; cbn; lia|].
  assert (G : nest d (e :: es) = Some d' -> snd (unmatched 0 0 (e :: es)) <= d /\ d' = d - snd (unmatched 0 0 (e :: es)) + fst (unmatched 0 0 (e :: es))).
  { intros Hn. destruct (nest_unmatched (e :: es) 0 0 d d' ltac:(lia)) as [A B]; [rewrite <- Hn; f_equal; lia|]. split; [lia|exact B]. }
  destruct e; cbn [start_closes rest]; try (apply (IH d d'); exact H).
  - specialize (G H). lia.
  - cbn [nest] in H. destruct d as [|d]; [discriminate|]. destruct (IH d d' H) as [A B]. lia.
  - specialize (G H). lia.
Qed.

(** ** The lines before the cursor *)

Section Back.
Variables (text sep : str) (space : nat -> bool) (ind : str) (ibl : bool) (events : nat * nat -> list str -> list event).
Variable evs : nat * nat -> list event.
Hypothesis Hev : forall b prev, events b prev = evs b.
Notation info_of := (indent_info text space events).
Notation I b := (indent_info text space events b []).

Lemma info_indep b prev : info_of b prev = I b.
Proof. unfold indent_info. rewrite !Hev. reflexivity. Qed.

Lemma I_counts b : i_dedents_start (I b) = start_closes (evs b) /\ length (i_indents (I b)) = opens (evs b) /\ i_dedents_end (I b) = closes (evs b).
Proof.
  destruct (info_counts text space events b []) as (-> & -> & ->). unfold raw. rewrite Hev. apply (fold_counts (evs b) empty_info eq_refl eq_refl).
Qed.

Lemma no_prefers es : prefers es = false -> flat_map prefer_of es = [].
Proof.
  unfold prefers. induction es as [|e es IH]; intros H; [reflexivity|]. cbn [existsb] in H. apply orb_false_elim in H as [H1 H2]. cbn [flat_map]. rewrite (IH H2). destruct e; try reflexivity. discriminate.
Qed.

Definition full (s : list (option str) * list str) : list str := snd s ++ push_indents ind (last (snd s) []) (fst s).
Definition out_step (c : cursor) (s : list (option str) * list str) (b : nat * nat) : list (option str) * list str :=
  (i_indents (info_of b (snd s)), pop_indents (i_dedents_end (info_of b (snd s))) (snd (line_step text space ind ibl events c b (fst s) (snd s)))).

Lemma edits_before c : forall pre rst prev indents, (forall b, In b pre -> fst b < c_pos c /\ stop c b = false) ->
  indent_edits text space ind ibl events c prev indents (pre ++ rst)
  = map (fun _ => None) pre ++ let s := fold_left (out_step c) pre (prev, indents) in indent_edits text space ind ibl events c (fst s) (snd s) rst.
Proof.
  induction pre as [|b pre IH]; intros rst prev indents H; [reflexivity|]. cbn [app indent_edits map fold_left].
  destruct (H b (or_introl eq_refl)) as [Hb1 Hb2]. rewrite Hb2. f_equal.
  - unfold line_step. cbv zeta. replace (fst b <? c_pos c) with true by lia. destruct (changeable ibl (info_of b indents)); reflexivity.
  - rewrite IH by (intros b' Hb'; apply H; right; exact Hb'). unfold out_step at 3 4. reflexivity.
Qed.

Lemma push_length : forall l a, length (push_indents ind a l) = length l.
Proof. induction l as [|x l IH]; intros a; [reflexivity|]. cbn [push_indents length]. rewrite IH. reflexivity. Qed.

Definition value (x : option str) : str := match x with Some (y :: s) => y :: s | _ => ind end.

Lemma last_nth {A} (l : list A) d : last l d = nth (length l - 1) l d.
Proof. destruct l as [|x l _] using rev_ind; [reflexivity|]. rewrite last_last, app_length. cbn [length]. replace (length l + 1 - 1) with (length l) by lia. rewrite app_nth2, Nat.sub_diag by lia. reflexivity. Qed.
Lemma nth_firstn {A} (l : list A) n i d : i < n -> nth i (firstn n l) d = nth i l d.
Proof. revert n i. induction l as [|x l IH]; intros n i H; [rewrite firstn_nil; reflexivity|]. destruct n; [lia|]. destruct i; [reflexivity|]. cbn. apply IH. lia. Qed.
Lemma nth_removelast {A} (l : list A) i d : i < length l - 1 -> nth i (removelast l) d = nth i l d.
Proof. destruct l as [|x l _] using rev_ind; [cbn; lia|]. rewrite removelast_last, app_length. cbn [length]. intros H. rewrite app_nth1 by lia. reflexivity. Qed.

(** One line before the cursor. *)
Lemma out_ok c b s D D' : fst b < c_pos c -> snd s <> [] -> length (full s) = S D -> nest D (evs b) = Some D' -> simple_line ibl (evs b) ->
  let s' := out_step c s b in
  snd s' <> [] /\ length (full s') = S D'
  /\ (if may_indent (evs b)
      then forall d, d <= D' ->
        nth (D' - d) (full s') []
        = if d <? opens (evs b) then cur (I b) ++ value (nth 0 (i_indents (I b)) None)
          else let d := d - opens (evs b) + closes (evs b) in
               if d =? 0 then cur (I b) else nth (D - (d + start_closes (evs b))) (full s) []
      else D' = D /\ full s' = full s).
Proof.
  intros Hb Hne HD Hn Hs. destruct (nest_line _ _ _ Hn) as [N1 N2]. destruct (I_counts b) as (C1 & C2 & C3). cbv zeta.
  assert (Hlen : length (entering text space ind events b (fst s) (snd s)) = S (D - start_closes (evs b))).
  { unfold entering, pop_indents. rewrite info_indep, C1. fold (full s). rewrite firstn_length, HD. lia. }
  set (en := entering text space ind events b (fst s) (snd s)) in *.
  assert (Hen : forall i, i <= D - start_closes (evs b) -> nth i en [] = nth i (full s) []).
  { intros i Hi. unfold en, entering, pop_indents. rewrite info_indep, C1. fold (full s). apply nth_firstn. rewrite HD. lia. }
  unfold out_step. cbn [fst snd]. rewrite info_indep.
  unfold simple_line in Hs. destruct (may_indent (evs b)) eqn:Em.
  - destruct Hs as (P1 & P2 & P3 & P4).
    assert (Ech : changeable ibl (I b) = true).
    { unfold changeable. rewrite info_allow, info_blank, Hev, Em. destruct P2 as [->| ->]; [reflexivity|]. apply orb_true_r. }
    assert (El : snd (line_step text space ind ibl events c b (fst s) (snd s)) = removelast en ++ [cur (I b)]).
    { unfold line_step. cbv zeta. rewrite info_indep, Ech. replace (fst b <? c_pos c) with true by lia. cbn [snd].
      rewrite info_prefer, Hev, (no_prefers _ P1). reflexivity. }
    rewrite El. set (m := removelast en ++ [cur (I b)]).
    assert (Hm : length m = S (D - start_closes (evs b))) by (unfold m; rewrite app_length, removelast_length, Hlen; cbn; lia).
    assert (Hpop : length (pop_indents (i_dedents_end (I b)) m) = S (D - start_closes (evs b) - closes (evs b))).
    { unfold pop_indents. rewrite firstn_length, Hm, C3. lia. }
    assert (Hnth : forall i, i <= D - start_closes (evs b) - closes (evs b) ->
       nth i (pop_indents (i_dedents_end (I b)) m) [] = if i =? D - start_closes (evs b) then cur (I b) else nth i (full s) []).
    { intros i Hi. unfold pop_indents. rewrite nth_firstn by (rewrite Hm, C3; lia). unfold m. destruct (i =? D - start_closes (evs b)) eqn:E.
      - rewrite app_nth2 by (rewrite removelast_length, Hlen; lia). rewrite removelast_length, Hlen. replace (i - _) with 0 by lia. reflexivity.
      - rewrite app_nth1 by (rewrite removelast_length, Hlen; lia). rewrite nth_removelast by (rewrite Hlen; lia). apply Hen. lia. }
    split; [intros E; rewrite E in Hpop; discriminate|]. split; [unfold full; cbn [fst snd]; rewrite app_length, push_length, Hpop, C2; lia|].
    intros d Hd. unfold full. cbn [fst snd]. destruct (d <? opens (evs b)) eqn:E.
    + assert (opens (evs b) = 1 /\ d = 0 /\ closes (evs b) = 0) as (Eo & -> & Ec) by lia.
      rewrite app_nth2 by (rewrite Hpop; lia). rewrite Hpop. replace (D' - 0 - S (D - start_closes (evs b) - closes (evs b))) with 0 by lia.
      destruct (i_indents (I b)) as [|x xs] eqn:Ei; [cbn in C2; lia|]. cbn [push_indents nth]. fold (value x). f_equal.
      rewrite last_nth, Hpop. rewrite Hnth by lia. replace (_ =? _) with true by lia. reflexivity.
    + rewrite app_nth1 by (rewrite Hpop; lia). rewrite Hnth by lia. cbv zeta.
      replace (D' - d =? D - start_closes (evs b)) with (d - opens (evs b) + closes (evs b) =? 0) by lia.
      destruct (d - opens (evs b) + closes (evs b) =? 0); [reflexivity|]. f_equal. lia.
  - destruct Hs as (P1 & P2 & P3). rewrite P1, P2, P3 in *.
    assert (El : snd (line_step text space ind ibl events c b (fst s) (snd s)) = en).
    { unfold line_step. cbv zeta. unfold changeable. rewrite info_allow, Hev, Em. reflexivity. }
    assert (Een : en = full s).
    { unfold en, entering, pop_indents. rewrite info_indep, C1. fold (full s). apply firstn_all2. rewrite HD. lia. }
    assert (Ep : pop_indents (i_dedents_end (I b)) en = full s).
    { unfold pop_indents. rewrite Een, C3. apply firstn_all2. lia. }
    rewrite El, Ep. assert (Ei : i_indents (I b) = []) by (destruct (i_indents (I b)); [reflexivity|discriminate C2]).
    assert (Ef : full (i_indents (I b), full s) = full s) by (rewrite Ei; unfold full at 1; cbn [fst snd push_indents]; apply app_nil_r).
    split; [intros E; rewrite E in HD; discriminate|]. rewrite Ef. split; [rewrite HD; lia|]. split; [lia|reflexivity].
Qed.

Variable lines : list str.
Hypothesis Hno : no_overlap sep.
Hypothesis Hl : is_lines text sep lines.
Notation bs := (spans sep 0 lines).
Notation at_ k := (place sep lines k).

Lemma search_step fuel d b j bj : nth_error bs (S j) = Some (b_pos b, b_end b) -> is_block text sep lines (S j) b -> nth_error bs j = Some bj ->
  exists b', is_block text sep lines j b' /\ (b_pos b', b_end b') = bj
  /\ search_back text sep space ind events (S fuel) (Z.of_nat d) b
     = if may_indent (evs bj) then
         if d <? opens (evs bj)
         then match nth_error (i_indents (I bj)) (opens (evs bj) - d - 1) with
              | Some (Some (x :: a)) => Some (cur (I bj) ++ x :: a) | _ => Some (cur (I bj) ++ ind) end
         else let d := d - opens (evs bj) + closes (evs bj) in
              if d =? 0 then Some (cur (I bj)) else search_back text sep space ind events fuel (Z.of_nat (d + start_closes (evs bj))) b'
       else search_back text sep space ind events fuel (Z.of_nat d) b'.
Proof.
  intros H1 H2 H3. destruct (C28_blocks_are_the_lines text sep lines Hno Hl) as (_ & _ & _ & B3 & _).
  destruct (B3 _ _ H2) as [_ Hp]. destruct (previous_block text sep b) as [b'|] eqn:Ep; [|discriminate].
  destruct Hp as (j' & Ej & Hb'). injection Ej as <-. exists b'. split; [exact Hb'|].
  assert (Eb : (b_pos b', b_end b') = bj) by (destruct Hb' as [Hb' _]; congruence). split; [exact Eb|].
  cbn [search_back]. assert (Hpos : 0 < b_pos b).
  { assert (HS : S j < length lines) by (rewrite <- (spans_length sep lines 0); apply nth_error_Some; congruence).
    pose proof (place_later sep lines j (S j) ltac:(lia) HS) as Hlt. assert (Ep2 : at_ (S j) = (b_pos b, b_end b)) by (apply nth_error_nth; exact H1).
    rewrite Ep2 in Hlt. cbn [fst] in Hlt. destruct Hno as [Hs _]. destruct sep; [congruence|]. cbn [length] in Hlt. lia. }
  replace (b_pos b =? 0) with false by lia. rewrite Ep, Eb. cbv zeta. rewrite info_allow, Hev.
  destruct (I_counts bj) as (C1 & C2 & C3). destruct (may_indent (evs bj)); [|reflexivity]. fold (cur (I bj)). rewrite C1, C2, C3.
  replace ((0 <=? Z.of_nat d) && (Z.of_nat d <? Z.of_nat (opens (evs bj))))%Z with (d <? opens (evs bj)) by lia.
  destruct (d <? opens (evs bj)) eqn:E.
  - replace (Z.to_nat (Z.of_nat (opens (evs bj)) - Z.of_nat d - 1)) with (opens (evs bj) - d - 1) by lia. reflexivity.
  - replace (Z.of_nat d - Z.of_nat (opens (evs bj)) + Z.of_nat (closes (evs bj)))%Z with (Z.of_nat (d - opens (evs bj) + closes (evs bj))) by lia.
    replace (Z.of_nat (d - opens (evs bj) + closes (evs bj)) =? 0)%Z with (d - opens (evs bj) + closes (evs bj) =? 0) by lia.
    destruct (d - opens (evs bj) + closes (evs bj) =? 0); [reflexivity|]. f_equal. lia.
Qed.

Lemma firstn_next {A} (l : list A) j x : nth_error l j = Some x -> firstn (S j) l = firstn j l ++ [x].
Proof. revert j. induction l as [|y l IH]; intros j H; [destruct j; discriminate|]. destruct j; [injection H as ->; reflexivity|]. cbn [firstn app]. f_equal. apply IH. exact H. Qed.

Lemma back_ok c : forall j, j <= length lines ->
  (forall i b, i < j -> nth_error bs i = Some b -> fst b < c_pos c /\ simple_line ibl (evs b)) ->
  (forall b, nth_error bs 0 = Some b -> may_indent (evs b) = true) ->
  forall D, nest 0 (concat (map evs (firstn j bs))) = Some D ->
  let s := fold_left (out_step c) (firstn j bs) ([], [[]]) in
  snd s <> [] /\ length (full s) = S D
  /\ (0 < j -> forall b fuel d, is_block text sep lines j b -> j <= fuel -> d <= D ->
        search_back text sep space ind events fuel (Z.of_nat d) b = Some (nth (D - d) (full s) [])).
Proof.
  induction j as [|j IH]; intros Hj H1 H0 D HD; cbv zeta.
  - injection HD as <-. cbn. split; [discriminate|]. split; [reflexivity|lia].
  - destruct (nth_error bs j) as [bj|] eqn:Eb; [|apply nth_error_None in Eb; rewrite spans_length in Eb; lia].
    rewrite (firstn_next _ _ _ Eb) in *. rewrite map_app, concat_app, nest_app in HD. cbn [map concat] in HD. rewrite app_nil_r in HD.
    destruct (nest 0 (concat (map evs (firstn j bs)))) as [D0|] eqn:E0; [|discriminate].
    destruct (IH ltac:(lia) ltac:(intros i b Hi; apply H1; lia) H0 D0 eq_refl) as (I1 & I2 & I3). cbv zeta in I3.
    rewrite fold_left_app. cbn [fold_left]. set (s := fold_left (out_step c) (firstn j bs) ([], [[]])) in *.
    destruct (H1 j bj ltac:(lia) Eb) as [Hp Hs].
    destruct (out_ok c bj s D0 D Hp I1 I2 HD Hs) as (O1 & O2 & O3). split; [exact O1|]. split; [exact O2|].
    intros _ b fuel d Hb Hf Hd. destruct fuel as [|fuel]; [lia|].
    destruct (search_step fuel d b j bj (proj1 Hb) Hb Eb) as (b' & S1 & S2 & ->).
    destruct (nest_line _ _ _ HD) as [N1 N2]. destruct (I_counts bj) as (C1 & C2 & C3).
    destruct (may_indent (evs bj)) eqn:Em.
    + rewrite (O3 d Hd). unfold simple_line in Hs. rewrite Em in Hs. destruct Hs as (_ & _ & P3 & P4).
      destruct (d <? opens (evs bj)) eqn:E.
      * replace (opens (evs bj) - d - 1) with 0 by lia. destruct (i_indents (I bj)) as [|[[|x a]|] xs]; cbn [nth nth_error value]; reflexivity.
      * cbv zeta. destruct (d - opens (evs bj) + closes (evs bj) =? 0) eqn:Ez; [reflexivity|].
        destruct j as [|j].
        -- exfalso. cbn in E0. injection E0 as <-. lia.
        -- apply I3; [lia|exact S1|lia|lia].
    + destruct O3 as [-> ->]. destruct j as [|j]; [exfalso; specialize (H0 bj Eb); congruence|]. apply I3; [lia|exact S1|lia|lia].
Qed.

Lemma place_index k : k < length lines -> k <= fst (at_ k).
Proof.
  induction k as [|k IH]; intros H; [lia|]. specialize (IH ltac:(lia)). pose proof (place_later sep lines k (S k) ltac:(lia) H) as Hlt.
  pose proof (place_order sep lines k ltac:(lia)). destruct Hno as [Hs _]. destruct sep; [congruence|]. cbn [length] in Hlt. lia.
Qed.

Lemma auto_indent_is_indent k c d : 0 < k < length lines -> fst (at_ k) <= c_pos c <= snd (at_ k) ->
  (forall j, j < k -> simple_line ibl (evs (at_ j))) -> may_indent (evs (at_ 0)) = true ->
  nest 0 (concat (map (fun j => evs (at_ j)) (seq 0 k))) = Some d -> start_closes (evs (at_ k)) <= d ->
  (ibl = true \/ existsb is_blank (evs (at_ k)) = false) ->
  auto_indent_ops text sep space ind events c
  = indent_ops text sep space ind ibl events (Cursor (fst (at_ k)) (Some (snd (at_ k)))).
Proof.
  intros Hk Hc Hsimple H0 Hd Hds Hbl. set (c1 := Cursor (fst (at_ k)) (Some (snd (at_ k)))).
  assert (Hs : 0 < length sep) by (destruct Hno as [Hs _]; destruct sep; [congruence|cbn; lia]).
  assert (Enth : forall j, j < length lines -> nth_error bs j = Some (at_ j)).
  { intros j Hj. apply nth_error_nth'. rewrite spans_length. exact Hj. }
  assert (Ejoin : join sep lines = text) by apply Hl.
  pose proof (place_bound sep lines k ltac:(lia)) as Hbound. rewrite Ejoin in Hbound.
  assert (Efirst : firstn k bs = map (place sep lines) (seq 0 k)).
  { rewrite spans_places, firstn_map. f_equal. replace (length lines) with (k + (length lines - k)) by lia. rewrite seq_app, firstn_app, seq_length, Nat.sub_diag, firstn_all2 by (rewrite seq_length; lia). apply app_nil_r. }
  assert (Hbefore : forall i b, i < k -> nth_error bs i = Some b -> fst b < c_pos c1 /\ stop c1 b = false /\ simple_line ibl (evs b)).
  { intros i b Hi Hb. rewrite (Enth i ltac:(lia)) in Hb. injection Hb as <-. pose proof (place_later sep lines i k Hi ltac:(lia)). pose proof (place_order sep lines i ltac:(lia)). pose proof (place_order sep lines k ltac:(lia)).
    unfold c1, stop. cbn [c_pos c_end]. split; [lia|]. split; [lia|]. apply Hsimple. exact Hi. }
  destruct (back_ok c1 k ltac:(lia) ltac:(intros i b Hi Hb; destruct (Hbefore i b Hi Hb) as (A & _ & B); auto)
    ltac:(intros b Hb; rewrite (Enth 0 ltac:(lia)) in Hb; injection Hb as <-; exact H0) d) as (B1 & B2 & B3).
  { rewrite Efirst, map_map. exact Hd. }
  set (s := fold_left (out_step c1) (firstn k bs) ([], [[]])) in *.
  (* the block *)
  destruct (C28_blocks_are_the_lines text sep lines Hno Hl) as (_ & _ & F & _). destruct (F (c_pos c) ltac:(lia)) as (k' & Fb & Fp). clear F.
  assert (k' = k) as ->.
  { destruct Fb as [Fb _]. assert (Hk' : k' < length lines) by (rewrite <- (spans_length sep lines 0); apply nth_error_Some; congruence).
    rewrite (Enth k' Hk') in Fb. set (blk := find_block text sep (c_pos c)) in *. assert (Fb' : at_ k' = (b_pos blk, b_end blk)) by congruence. destruct (lt_eq_lt_dec k' k) as [[Hlt|E]|Hlt]; [|exact E|].
    - pose proof (place_later sep lines k' k Hlt ltac:(lia)) as Hx. rewrite Fb' in Hx. cbn [snd] in Hx. lia.
    - pose proof (place_later sep lines k k' Hlt Hk') as Hx. rewrite Fb' in Hx. cbn [fst] in Hx. lia. }
  set (blk := find_block text sep (c_pos c)) in *. assert (Eblk : (b_pos blk, b_end blk) = at_ k) by (destruct Fb as [Fb _]; rewrite (Enth k ltac:(lia)) in Fb; congruence).
  destruct (I_counts (at_ k)) as (C1 & C2 & C3).
  assert (Esearch : search_back text sep space ind events (S (length text)) (Z.of_nat (start_closes (evs (at_ k)))) blk = Some (nth (d - start_closes (evs (at_ k))) (full s) [])).
  { apply (B3 ltac:(lia)); [exact Fb| |exact Hds]. pose proof (place_index k ltac:(lia)). pose proof (place_order sep lines k ltac:(lia)). lia. }
  (* the loop *)
  unfold indent_ops. rewrite (all_blocks_ok text sep lines Hno Hl), indent_loop_edits.
  assert (Esplit : bs = firstn k bs ++ at_ k :: skipn (S k) bs).
  { rewrite <- (firstn_skipn (S k) bs) at 1. rewrite (firstn_next bs k (at_ k)) by (apply Enth; lia). rewrite <- app_assoc. reflexivity. }
  rewrite Esplit. rewrite edits_before.
  2:{ intros b Hb. apply In_nth_error in Hb as [i Hi]. assert (i < k).
      { assert (Hx : i < length (firstn k bs)) by (apply nth_error_Some; congruence). rewrite firstn_length in Hx. lia. }
      destruct (Hbefore i b H) as (A & B & _); [|auto]. rewrite <- Hi. rewrite <- (firstn_skipn k bs) at 1. apply nth_error_app1. apply nth_error_Some. congruence. }
  fold s. cbv zeta. cbn [indent_edits].
  assert (Est : stop c1 (at_ k) = true) by (unfold stop, c1; cbn [c_end]; lia). rewrite Est.
  assert (Enone : forall (l : list (nat * nat)) r rs, flat_map (fun be => op_at (fst (fst be)) (snd be)) (combine (l ++ r) (map (fun _ => None) l ++ rs))
     = flat_map (fun be => op_at (fst (fst be)) (snd be)) (combine r rs)).
  { induction l as [|x l IHl]; intros r rs; [reflexivity|]. cbn [app map combine flat_map snd op_at]. apply IHl. }
  rewrite Enone. cbn [combine flat_map fst snd].
  assert (Erest : forall l : list (nat * nat), flat_map (fun be => op_at (fst (fst be)) (snd be)) (combine l (map (fun _ => None) l)) = []).
  { induction l as [|x l IHl]; [reflexivity|]. exact IHl. }
  rewrite Erest, app_nil_r.
  unfold auto_indent_ops. fold blk. rewrite Eblk. cbv zeta. fold (cur (I (at_ k))).
  unfold line_step. cbv zeta. rewrite (info_indep _ (snd s)). unfold changeable. rewrite info_allow, info_blank, Hev.
  destruct (may_indent (evs (at_ k))) eqn:Em; [|reflexivity].
  replace (ibl || negb (existsb is_blank (evs (at_ k)))) with true by (destruct Hbl as [->| ->]; [reflexivity|symmetry; apply orb_true_r]).
  unfold c1 at 1. cbn [andb c_pos]. replace (fst (at_ k) <? fst (at_ k)) with false by lia. cbn [fst].
  rewrite C1, Esearch.
  assert (Een : last (entering text space ind events (at_ k) (fst s) (snd s)) [] = nth (d - start_closes (evs (at_ k))) (full s) []).
  { unfold entering, pop_indents. rewrite info_indep, C1. fold (full s). rewrite B2, last_nth, firstn_length, B2. 
    rewrite nth_firstn by lia. f_equal. lia. }
  assert (Ep : b_pos blk = fst (at_ k)) by (rewrite <- Eblk; reflexivity).
  match goal with |- context [entering _ _ _ _ _ (fst ?x) _] => change x with s end. rewrite Een, Ep. destruct (str_eqb _ _); cbn [op_at]; [reflexivity|]. rewrite Nat.add_0_r. reflexivity.
Qed.
End Back.
