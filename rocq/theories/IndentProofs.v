(** Proofs about indenting. *)
From Verif Require Import Base BaseFacts MutableModel MutableSpec MutableProofs CursorModel BlockModel BlockSpec BlockProofs
  StripModel ReplaceProofs Prop_Block IndentModel IndentSpec.
From Coq Require Import ZArith ZifyBool.

(** ** What the events say *)

Lemma fold_flags : forall es s,
  i_no_indent (fst (fold_left handle_event es s)) = i_no_indent (fst s) || existsb is_no_indent es
  /\ i_no_strip (fst (fold_left handle_event es s)) = i_no_strip (fst s) || existsb is_no_strip es
  /\ i_blank (fst (fold_left handle_event es s)) = i_blank (fst s) || existsb is_blank es.
Proof.
  induction es as [|e es IH]; intros s; cbn [fold_left existsb]; [rewrite !orb_false_r; auto|].
  destruct (IH (handle_event s e)) as (H1 & H2 & H3). rewrite H1, H2, H3.
  destruct s as [[ind ds de cur pre bl ns ni] f].
  destruct e; cbn [handle_event fst i_no_indent i_no_strip i_blank is_no_indent is_no_strip is_blank orb]; rewrite ?orb_true_r; auto;
    destruct f, ind; cbn [fst i_no_indent i_no_strip i_blank]; auto.
Qed.

Lemma fold_current : forall es s,
  i_indent (fst (fold_left handle_event es s)) =
  match flat_map current_of es with [] => i_indent (fst s) | a => Some (last a []) end.
Proof.
  induction es as [|e es IH]; intros s; cbn [fold_left flat_map]; [reflexivity|]. rewrite IH.
  destruct s as [[ind ds de cur pre bl ns ni] f].
  destruct e as [| | |a|a|a| | |]; cbn [handle_event fst i_indent current_of app];
    try (destruct (flat_map current_of es); reflexivity).
  destruct f, ind; reflexivity.
Qed.

Definition prefer_of (e : event) : list str := match e with PREFER_INDENT a => [a] | _ => [] end.
Lemma fold_prefer : forall es s,
  i_prefer (fst (fold_left handle_event es s)) =
  match flat_map prefer_of es with [] => i_prefer (fst s) | a => Some (last a []) end.
Proof.
  induction es as [|e es IH]; intros s; cbn [fold_left flat_map]; [reflexivity|]. rewrite IH.
  destruct s as [[ind ds de cur pre bl ns ni] f].
  destruct e as [| | |a|a|a| | |]; cbn [handle_event fst i_prefer prefer_of app];
    try (destruct (flat_map prefer_of es); reflexivity).
  destruct f, ind; reflexivity.
Qed.

Lemma lstrip_leading space : forall t, t = leading space t ++ py_lstrip space t.
Proof. induction t as [|x t IH]; [reflexivity|]. cbn [leading py_lstrip]. destruct (space x); [cbn [app]; f_equal; exact IH|reflexivity]. Qed.

Lemma lstrip_nil space : forall t, py_lstrip space t = [] <-> blank space t = true.
Proof.
  induction t as [|x t IH]; [split; reflexivity|]. cbn [py_lstrip blank forallb]. destruct (space x); cbn [andb]; [exact IH|].
  split; discriminate.
Qed.

Lemma first_space_ok space t : first_space space t = if blank space t then [] else leading space t.
Proof.
  unfold first_space. destruct (blank space t) eqn:E.
  - apply lstrip_nil in E. rewrite E. reflexivity.
  - assert (N : py_lstrip space t <> []) by (intros H; apply lstrip_nil in H; congruence).
    pose proof (lstrip_leading space t) as H. pose proof (f_equal (@length nat) H) as Hl. rewrite app_length in Hl.
    destruct (py_lstrip space t) as [|x u] eqn:E2; [congruence|]. cbn [length]. cbn [length] in Hl.
    rewrite H at 2. replace (length t - S (length u)) with (length (leading space t)) by lia.
    rewrite firstn_app, Nat.sub_diag, firstn_all. cbn [firstn]. apply app_nil_r.
Qed.

Section Info.
Variables (text : str) (space : nat -> bool) (events : nat * nat -> list str -> list event).
Notation info_of := (indent_info text space events).
Definition raw (b : nat * nat) (prev : list str) : info := fst (fold_left handle_event (events b prev) (empty_info, true)).

Lemma info_raw b prev : info_of b prev = raw b prev
  \/ info_of b prev = Info (i_indents (raw b prev)) (i_dedents_start (raw b prev)) (i_dedents_end (raw b prev))
       (Some (first_space space (block_text text b))) (i_prefer (raw b prev)) (i_blank (raw b prev)) (i_no_strip (raw b prev)) (i_no_indent (raw b prev)).
Proof.
  unfold indent_info. fold (raw b prev). destruct (i_indent (raw b prev)); [left; reflexivity|].
  destruct (allow_indent (raw b prev)); auto.
Qed.

Lemma info_allow b prev : allow_indent (info_of b prev) = may_indent (events b prev).
Proof.
  unfold allow_indent, may_indent. f_equal. transitivity (i_no_indent (raw b prev)).
  - destruct (info_raw b prev) as [->| ->]; reflexivity.
  - apply (proj1 (fold_flags (events b prev) (empty_info, true))).
Qed.
Lemma info_strip b prev : allow_strip (info_of b prev) = may_strip (events b prev).
Proof.
  unfold allow_strip, may_strip. f_equal. transitivity (i_no_strip (raw b prev)).
  - destruct (info_raw b prev) as [->| ->]; reflexivity.
  - apply (proj1 (proj2 (fold_flags (events b prev) (empty_info, true)))).
Qed.
Lemma info_blank b prev : i_blank (info_of b prev) = existsb is_blank (events b prev).
Proof.
  transitivity (i_blank (raw b prev)).
  - destruct (info_raw b prev) as [->| ->]; reflexivity.
  - apply (proj2 (proj2 (fold_flags (events b prev) (empty_info, true)))).
Qed.
Lemma info_prefer b prev : i_prefer (info_of b prev) = match flat_map prefer_of (events b prev) with [] => None | a => Some (last a []) end.
Proof.
  transitivity (i_prefer (raw b prev)).
  - destruct (info_raw b prev) as [->| ->]; reflexivity.
  - apply fold_prefer.
Qed.
Lemma info_counts b prev : i_indents (info_of b prev) = i_indents (raw b prev)
  /\ i_dedents_start (info_of b prev) = i_dedents_start (raw b prev) /\ i_dedents_end (info_of b prev) = i_dedents_end (raw b prev).
Proof. destruct (info_raw b prev) as [->| ->]; auto. Qed.

Lemma info_indent b prev : may_indent (events b prev) = true ->
  i_indent (info_of b prev) = Some (indent_of space (events b prev) (block_text text b)).
Proof.
  intros H. pose proof (info_allow b prev) as Ha. rewrite H in Ha.
  unfold indent_info in *. fold (raw b prev) in *. unfold indent_of.
  pose proof (fold_current (events b prev) (empty_info, true)) as Hc. fold (raw b prev) in Hc. cbn [empty_info fst i_indent] in Hc.
  rewrite <- first_space_ok.
  destruct (flat_map current_of (events b prev)) as [|a l] eqn:E.
  - rewrite Hc in *. destruct (allow_indent (raw b prev)) eqn:E2; [reflexivity|]. rewrite E2 in Ha. discriminate.
  - rewrite Hc. exact Hc.
Qed.
End Info.

(** ** Editing lines *)

Definition ledit := option (nat * nat * str).
Definition edit1 (l : str) (e : ledit) : str :=
  match e with None => l | Some (i, j, t) => firstn i l ++ t ++ skipn j l end.
Definition ok_edit (l : str) (e : ledit) : Prop :=
  match e with None => True | Some (i, j, _) => i <= j <= length l end.
Definition op_at (p : nat) (e : ledit) : list mop :=
  match e with None => [] | Some (i, j, t) => [set_piece (p + i) (p + j) t] end.
Definition change_at (p : nat) (e : ledit) : list change :=
  match e with None => [] | Some (i, j, t) => [Change (p + i) (p + j) t] end.

Lemma ordered_app a b : forall t t', ordered t a -> ordered t' b -> (forall c, In c a -> g_end c <= t') -> t <= t' -> ordered t (a ++ b).
Proof.
  induction a as [|c a IH]; intros t t' Ha Hb Hle Ht; cbn [app].
  - apply (ordered_weaken b t' t Hb Ht).
  - destruct Ha as (A1 & A2 & A3). cbn [ordered]. split; [exact A1|]. split; [exact A2|].
    apply (IH _ t' A3 Hb); [intros d Hd; apply Hle; right; exact Hd|apply Hle; left; reflexivity].
Qed.

Lemma slice_mid (a b c : str) : slice (a ++ b ++ c) (length a) (length a + length b) = b.
Proof.
  unfold slice. rewrite skipn_app, skipn_all, Nat.sub_diag. cbn [skipn app]. replace (length a + length b - length a) with (length b) by lia.
  rewrite firstn_app, Nat.sub_diag, firstn_all. cbn [firstn]. apply app_nil_r.
Qed.

Section Lines.
Variables (sep : str) (f : nat * nat -> ledit).
Definition line_changes (pos : nat) (lines : list str) : list change :=
  flat_map (fun b => change_at (fst b) (f b)) (spans sep pos lines).
Definition new_lines (pos : nat) (lines : list str) : list str :=
  map (fun bl => edit1 (snd bl) (f (fst bl))) (combine (spans sep pos lines) lines).
Definition ok_lines (pos : nat) (lines : list str) : Prop :=
  Forall (fun bl => ok_edit (snd bl) (f (fst bl))) (combine (spans sep pos lines) lines).

Lemma join_length_first l lines : length l <= length (join sep (l :: lines)).
Proof. cbn [join]. destruct lines; [lia|]. rewrite app_length. lia. Qed.

Lemma lines_ok : forall lines pre, ok_lines (length pre) lines ->
  ordered (length pre) (line_changes (length pre) lines)
  /\ (forall c, In c (line_changes (length pre) lines) -> g_end c <= length (pre ++ join sep lines))
  /\ generate_text (pre ++ join sep lines) (length pre) (line_changes (length pre) lines) = join sep (new_lines (length pre) lines).
Proof.
  induction lines as [|l lines IH]; intros pre Hok.
  - split; [exact I|]. split; [intros c []|]. cbn [join]. unfold line_changes, new_lines. cbn [spans flat_map combine map generate_text join].
    unfold from. rewrite app_nil_r. apply skipn_all.
  - unfold ok_lines in Hok. cbn [spans combine] in Hok. inversion Hok as [|x y H1 H2]; subst. cbn [fst snd] in H1.
    set (b := (length pre, length pre + length l)) in *.
    set (pre' := pre ++ l ++ sep).
    assert (Lp : length pre' = length pre + length l + length sep) by (unfold pre'; rewrite !app_length; lia).
    rewrite <- Lp in H2. destruct (IH pre' H2) as (I1 & I2 & I3).
    assert (Ec : line_changes (length pre) (l :: lines) = change_at (length pre) (f b) ++ line_changes (length pre') lines).
    { unfold line_changes. cbn [spans flat_map]. fold b. rewrite Lp. reflexivity. }
    assert (En : new_lines (length pre) (l :: lines) = edit1 l (f b) :: new_lines (length pre') lines).
    { unfold new_lines. cbn [spans combine map]. fold b. rewrite Lp. reflexivity. }
    rewrite Ec, En.
    (* the text behind the line *)
    assert (Et : lines <> [] -> pre ++ join sep (l :: lines) = pre' ++ join sep lines).
    { intros Hn. unfold pre'. cbn [join]. destruct lines; [congruence|]. rewrite <- !app_assoc. reflexivity. }
    assert (Hend : forall c, In c (line_changes (length pre') lines) -> g_end c <= length (pre ++ join sep (l :: lines))).
    { intros c Hc. destruct lines as [|l2 ls]; [destruct Hc|]. rewrite Et by discriminate. apply I2. exact Hc. }
    assert (Hg : generate_text (pre ++ join sep (l :: lines)) (length pre + length l) (line_changes (length pre') lines)
                 = match lines with [] => [] | _ => sep ++ join sep (new_lines (length pre') lines) end).
    { destruct lines as [|l2 ls].
      - unfold line_changes. cbn [spans flat_map generate_text join]. unfold from. rewrite <- app_length. apply skipn_all.
      - rewrite (generate_from _ _ (length pre')); [| lia | | |exact I1].
        + rewrite Et by discriminate. rewrite I3. f_equal. unfold pre' at 1.
          replace ((pre ++ l ++ sep) ++ join sep (l2 :: ls)) with ((pre ++ l) ++ sep ++ join sep (l2 :: ls)) by (rewrite <- !app_assoc; reflexivity).
          replace (length pre') with (length (pre ++ l) + length sep) by (rewrite app_length; lia).
          rewrite <- app_length. apply slice_mid.
        + intros c Hc. apply (ordered_in _ _ I1 c Hc).
        + rewrite Et by discriminate. rewrite app_length. lia. }
    assert (Hpre : forall a, a <= length l -> slice (pre ++ join sep (l :: lines)) (length pre) (length pre + a) = firstn a l).
    { intros a Ha. unfold slice. rewrite skipn_app, skipn_all, Nat.sub_diag. cbn [skipn app].
      replace (length pre + a - length pre) with a by lia. cbn [join]. destruct lines; [reflexivity|].
      rewrite firstn_app. replace (a - length l) with 0 by lia. cbn [firstn]. apply app_nil_r. }
    assert (Hsuf : forall j, j <= length l -> generate_text (pre ++ join sep (l :: lines)) (length pre + j) (line_changes (length pre') lines)
                   = skipn j l ++ match lines with [] => [] | _ => sep ++ join sep (new_lines (length pre') lines) end).
    { intros j Hj. rewrite (generate_from _ _ (length pre + length l)).
      - rewrite Hg. f_equal. unfold slice. rewrite skipn_app, skipn_all2 by lia. replace (length pre + j - length pre) with j by lia. cbn [app].
        replace (length pre + length l - (length pre + j)) with (length l - j) by lia. cbn [join]. destruct lines.
        + apply firstn_all2. rewrite skipn_length. lia.
        + rewrite skipn_app. replace (j - length l) with 0 by lia. cbn [skipn]. rewrite firstn_app, skipn_length, Nat.sub_diag.
          cbn [firstn]. rewrite app_nil_r. apply firstn_all2. rewrite skipn_length. lia.
      - lia.
      - intros c Hc. pose proof (ordered_in _ _ I1 c Hc). lia.
      - rewrite app_length. apply Nat.add_le_mono_l, join_length_first.
      - apply (ordered_weaken _ _ _ I1). lia. }
    assert (Ej : forall x, join sep (x :: new_lines (length pre') lines) = x ++ match lines with [] => [] | _ => sep ++ join sep (new_lines (length pre') lines) end).
    { intros x. destruct lines as [|l2 ls]; [symmetry; apply app_nil_r|]. unfold new_lines. cbn [spans combine map]. reflexivity. }
    rewrite Ej.
    destruct (f b) as [[[i j] t]|]; cbn [change_at edit1 ok_edit app] in *.
    + split; [|split].
      * cbn [ordered g_start g_end]. split; [lia|]. split; [lia|]. apply (ordered_weaken _ _ _ I1). lia.
      * intros c [<-|Hc]; [cbn [g_end]; rewrite app_length; apply Nat.add_le_mono_l; apply (Nat.le_trans _ (length l)); [lia|apply join_length_first]|apply Hend; exact Hc].
      * cbn [generate_text g_start g_end g_text]. rewrite Hsuf by lia. rewrite <- !app_assoc. f_equal.
        destruct (length pre <? length pre + i) eqn:E; [apply Hpre; lia|]. replace i with 0 by lia. reflexivity.
    + split; [|split].
      * apply (ordered_weaken _ _ _ I1). lia.
      * exact Hend.
      * replace (length pre) with (length pre + 0) by lia. rewrite Hsuf by lia. reflexivity.
Qed.
End Lines.

Lemma set_piece_edit text p e t : p <= e -> e <= length text -> edit_of text (set_piece p e t) = [Change p e t].
Proof.
  intros H1 H2. unfold set_piece, edit_of. cbn [key_piece]. unfold key_span.
  replace (Z.of_nat p <? 0)%Z with false by lia. replace (Z.of_nat e <? 0)%Z with false by lia.
  f_equal. f_equal; lia.
Qed.

Lemma flat_map_flat_map {A B C} (g : B -> list C) (h : A -> list B) : forall l, flat_map g (flat_map h l) = flat_map (fun x => flat_map g (h x)) l.
Proof. induction l as [|x l IH]; [reflexivity|]. cbn [flat_map]. rewrite flat_map_app, IH. reflexivity. Qed.

Lemma inside_sets : forall ops, (forall o, In o ops -> exists k t, o = Set_ k t) -> inside 1 ops 1.
Proof.
  induction ops as [|o ops IH]; intros H; [reflexivity|]. destruct (H o (or_introl eq_refl)) as (k & t & ->). cbn [inside].
  apply IH. intros o Ho. apply H. right. exact Ho.
Qed.

Lemma in_op_at p e o : In o (op_at p e) -> exists k t, o = Set_ k t.
Proof. destruct e as [[[i j] t]|]; [|intros []]. intros [<-|[]]. unfold set_piece. eauto. Qed.

(** The operations for the lines are those that were meant. *)
Lemma edits_of_lines sep f lines text : join sep lines = text -> ok_lines sep f 0 lines ->
  flat_map (edit_of text) (flat_map (fun b => op_at (fst b) (f b)) (spans sep 0 lines)) = line_changes sep f 0 lines.
Proof.
  intros <- Hok. destruct (lines_ok sep f lines [] Hok) as (Ho & Hl & _). cbn [length app] in *.
  rewrite flat_map_flat_map. unfold line_changes in *.
  assert (H : forall bs t, ordered t (flat_map (fun b => change_at (fst b) (f b)) bs) ->
     (forall c, In c (flat_map (fun b => change_at (fst b) (f b)) bs) -> g_end c <= length (join sep lines)) ->
     flat_map (fun x => flat_map (edit_of (join sep lines)) (op_at (fst x) (f x))) bs = flat_map (fun b => change_at (fst b) (f b)) bs).
  { induction bs as [|b bs IH]; intros t H1 H2; [reflexivity|]. cbn [flat_map] in *. destruct (f b) as [[[i j] s]|]; cbn [change_at op_at flat_map app] in *.
    - destruct H1 as (A1 & A2 & A3). cbn [g_start g_end] in *. rewrite set_piece_edit; [|exact A2|apply (H2 _ (or_introl eq_refl))].
      cbn [app]. f_equal. apply (IH _ A3). intros c Hc. apply H2. right; exact Hc.
    - apply (IH t H1 H2). }
  apply (H _ 0 Ho Hl).
Qed.

Lemma edited_lines sep f lines text : join sep lines = text -> ok_lines sep f 0 lines ->
  edited_text text (flat_map (fun b => op_at (fst b) (f b)) (spans sep 0 lines)) = join sep (new_lines sep f 0 lines).
Proof.
  intros E Hok. destruct (lines_ok sep f lines [] Hok) as (Ho & Hl & Hg). cbn [length app] in *. rewrite E in *.
  destruct (batch_ordered text (flat_map (fun b => op_at (fst b) (f b)) (spans sep 0 lines)) (line_changes sep f 0 lines)) as (outs & out & Hr & _).
  - apply inside_sets. intros o Ho'. apply in_flat_map in Ho' as (b & _ & Hb). apply (in_op_at _ _ _ Hb).
  - apply edits_of_lines; assumption.
  - exact Ho.
  - exact Hl.
  - unfold edited_text. rewrite Hr. cbn [fst m_text]. exact Hg.
Qed.

(** ** The lines of a cursor *)

Lemma spans_after sep : forall lines q b, In b (spans sep q lines) -> q <= fst b <= snd b.
Proof.
  induction lines as [|l lines IH]; intros q b Hb; [destruct Hb|]. cbn [spans] in Hb. destruct Hb as [<-|Hb]; [cbn [fst snd]; lia|].
  specialize (IH _ _ Hb). lia.
Qed.

Lemma selects_filter sep c : forall lines q k p e, nth_error (spans sep q lines) k = Some (p, e) -> p <= c_pos c < e + length sep ->
  filter (selects sep c) (spans sep q lines)
  = (p, e) :: match c_end c with Some x => filter (fun b => fst b <? x) (skipn (S k) (spans sep q lines)) | None => skipn (S k) (spans sep q lines) end.
Proof.
  induction lines as [|l lines IH]; intros q k p e Hk Hp; [destruct k; discriminate|]. cbn [spans] in *. destruct k as [|k].
  - injection Hk as Hp0 He0. subst q. rewrite He0 in *. cbn [filter]. unfold selects at 1. cbn [fst snd].
    replace (c_pos c <? e + length sep) with true by lia. replace (p <=? c_pos c) with true by lia. cbn [andb orb]. f_equal.
    cbn [skipn]. assert (H : forall b, In b (spans sep (e + length sep) lines) ->
        selects sep c b = match c_end c with Some x => fst b <? x | None => true end).
    { intros b Hb. pose proof (spans_after sep _ _ _ Hb). unfold selects. replace (c_pos c <? snd b + length sep) with true by lia.
      replace (fst b <=? c_pos c) with false by lia. reflexivity. }
    rewrite (filter_ext_in _ _ _ H). destruct (c_end c); [reflexivity|].
    clear. induction (spans sep (e + length sep) lines) as [|b bs IH]; [reflexivity|]. cbn [filter]. f_equal. exact IH.
  - cbn [nth_error] in Hk. pose proof (nth_error_In _ _ Hk) as Hin. apply spans_after in Hin. cbn [fst snd] in Hin.
    cbn [filter]. unfold selects at 1. cbn [fst snd]. replace (c_pos c <? q + length l + length sep) with false by lia. cbn [andb].
    rewrite (IH _ _ _ _ Hk Hp). reflexivity.
Qed.

Lemma cursor_blocks_ok text sep lines c : no_overlap sep -> is_lines text sep lines -> c_pos c <= length text ->
  cursor_blocks text sep c = filter (selects sep c) (spans sep 0 lines).
Proof.
  intros Hno Hl Hc. assert (Hs : sep <> []) by apply Hno. pose proof (line_lines text sep lines Hl Hno) as Hch.
  destruct (C28_blocks_are_the_lines text sep lines Hno Hl) as (_ & _ & Hfb & _ & _).
  destruct (blocks_ok text sep Hs Hno _ Hch (c_pos c) (c_end c) Hc) as (k & H1 & H2 & _).
  destruct (Hfb (c_pos c) Hc) as (k' & [Hk' _] & Hpos).
  unfold cursor_blocks. change (map (fun b => (b_pos b, b_end b)) ?x) with (map span x). rewrite H2.
  symmetry. apply (selects_filter sep c lines 0 k _ _ H1). exact Hpos.
Qed.

Lemma all_blocks_ok text sep lines : no_overlap sep -> is_lines text sep lines ->
  map (fun b => (b_pos b, b_end b)) (blocks text sep 0 None) = spans sep 0 lines.
Proof. intros Hno Hl. apply (C28_blocks_are_the_lines text sep lines Hno Hl). Qed.

Lemma flat_map_filter {A B} (p : A -> bool) (g : A -> list B) : forall l, flat_map g (filter p l) = flat_map (fun x => if p x then g x else []) l.
Proof. induction l as [|x l IH]; [reflexivity|]. cbn [filter flat_map]. destruct (p x); cbn [flat_map app]; rewrite IH; reflexivity. Qed.

Lemma each_line_new sep (f : nat * nat -> ledit) : forall lines pos n (h : nat -> nat * nat),
  (forall k, k < length lines -> h (n + k) = nth k (spans sep pos lines) (0, 0)) ->
  new_lines sep f pos lines = each_line n (fun k l => edit1 l (f (h k))) lines.
Proof.
  induction lines as [|l lines IH]; intros pos n h Hh; [reflexivity|]. unfold new_lines. cbn [spans combine map each_line fst snd].
  pose proof (Hh 0 ltac:(cbn [length]; lia)) as H0. rewrite Nat.add_0_r in H0. cbn [spans nth] in H0. rewrite H0. f_equal.
  apply IH. intros k Hk. specialize (Hh (S k) ltac:(cbn [length]; lia)). rewrite Nat.add_succ_r in Hh. cbn [plus]. exact Hh.
Qed.

Lemma each_line_ext : forall lines n (f g : nat -> str -> str),
  (forall k l, nth_error lines k = Some l -> f (n + k) l = g (n + k) l) -> each_line n f lines = each_line n g lines.
Proof.
  induction lines as [|l lines IH]; intros n f g H; [reflexivity|]. cbn [each_line]. f_equal.
  - pose proof (H 0 l eq_refl) as H0. rewrite Nat.add_0_r in H0. exact H0.
  - apply IH. intros k x Hk. specialize (H (S k) x Hk). rewrite Nat.add_succ_r in H. exact H.
Qed.

(** The text of the block is the line. *)
Lemma block_line text sep lines k l : is_lines text sep lines -> nth_error lines k = Some l ->
  block_text text (place sep lines k) = l /\ snd (place sep lines k) = fst (place sep lines k) + length l.
Proof.
  intros (Hj & _) Hk. unfold place, block_text. rewrite <- Hj. clear Hj.
  assert (G : forall lines pre k, nth_error lines k = Some l ->
     let b := nth k (spans sep (length pre) lines) (0, 0) in
     slice (pre ++ join sep lines) (fst b) (snd b) = l /\ snd b = fst b + length l).
  { clear. induction lines as [|x lines IH]; intros pre k Hk; [destruct k; discriminate|]. destruct k as [|k].
    - injection Hk as ->. cbn [spans nth fst snd]. split; [|reflexivity]. unfold slice. rewrite skipn_app, skipn_all, Nat.sub_diag. cbn [skipn app].
      replace (length pre + length l - length pre) with (length l) by lia. cbn [join]. destruct lines; [apply firstn_all|].
      rewrite firstn_app, Nat.sub_diag, firstn_all. cbn [firstn]. apply app_nil_r.
    - cbn [nth_error] in Hk. cbn [spans nth]. specialize (IH (pre ++ x ++ sep) k Hk). rewrite !app_length in IH.
      replace (length pre + (length x + length sep)) with (length pre + length x + length sep) in IH by lia.
      destruct lines as [|y lines]; [destruct k; discriminate|]. cbn [join] in *. rewrite <- !app_assoc in IH. exact IH. }
  apply (G lines [] k Hk).
Qed.

Lemma ok_lines_place text sep lines f : is_lines text sep lines ->
  (forall k l, nth_error lines k = Some l -> ok_edit l (f (place sep lines k))) -> ok_lines sep f 0 lines.
Proof.
  intros _ H. unfold place in H. unfold ok_lines. revert H.
  enough (G : forall pos, (forall k l, nth_error lines k = Some l -> ok_edit l (f (nth k (spans sep pos lines) (0, 0)))) ->
    Forall (fun bl => ok_edit (snd bl) (f (fst bl))) (combine (spans sep pos lines) lines)) by apply G.
  induction lines as [|l lines IH]; intros pos H; [constructor|]. cbn [spans combine]. constructor.
  - exact (H 0 l eq_refl).
  - apply IH. intros k x Hk. exact (H (S k) x Hk).
Qed.

(** Everything together: operations on the lines of a cursor. *)
Lemma cursor_edits text sep lines c (g : nat * nat -> ledit) : no_overlap sep -> is_lines text sep lines -> c_pos c <= length text ->
  (forall k l, nth_error lines k = Some l -> ok_edit l (g (place sep lines k))) ->
  edited_text text (flat_map (fun b => op_at (fst b) (g b)) (cursor_blocks text sep c))
  = join sep (each_line 0 (fun k l => if selects sep c (place sep lines k) then edit1 l (g (place sep lines k)) else l) lines).
Proof.
  intros Hno Hl Hc Hok. rewrite (cursor_blocks_ok text sep lines c Hno Hl Hc), flat_map_filter.
  set (f := fun b => if selects sep c b then g b else None).
  replace (flat_map _ (spans sep 0 lines)) with (flat_map (fun b => op_at (fst b) (f b)) (spans sep 0 lines)).
  2:{ apply flat_map_ext. intros b. unfold f. destruct (selects sep c b); reflexivity. }
  rewrite edited_lines; [|apply Hl|].
  - f_equal. rewrite (each_line_new sep f lines 0 0 (place sep lines)) by (intros k _; reflexivity).
    apply each_line_ext. intros k l _. unfold f. cbn [plus]. destruct (selects sep c (place sep lines k)); reflexivity.
  - apply (ok_lines_place text); [exact Hl|]. intros k l Hk. unfold f. destruct (selects _ _ _); [apply Hok; exact Hk|exact I].
Qed.
