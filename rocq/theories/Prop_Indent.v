(** C54, C81-C85: indenting and stripping lines. *)
From Verif Require Import Base BaseFacts MutableModel MutableSpec MutableProofs CursorModel BlockModel BlockSpec BlockProofs
  StripModel ReplaceProofs Prop_Block IndentModel IndentSpec IndentProofs IndentMoreProofs IndentLoopProofs IndentAutoProofs IndentBackProofs.
From Coq Require Import ZArith ZifyBool.

(** For the examples: a line ends with newline, white space is a space, and the braces of a line are its events,
    as for CSS (lang/css.py [CssIndent]). *)
Definition nl : str := [10].
Definition is_sp (x : nat) : bool := x =? 32.
Definition brace (x : nat) : list event := if x =? 123 then [INDENT] else if x =? 125 then [DEDENT] else [].
Definition braces (text : str) (b : nat * nat) (_ : list str) : list event := flat_map brace (block_text text b).

Lemma nl_ok : no_overlap nl.
Proof. split; [discriminate|]. cbn. intros n H. lia. Qed.
Lemma single_lines text lines : join nl lines = text -> lines <> [] -> Forall (fun l => ~ In 10 l) lines -> is_lines text nl lines.
Proof.
  intros H1 H2 H3. split; [exact H1|]. split; [exact H2|]. apply (Forall_impl _ (P := fun l => ~ In 10 l)); [|exact H3].
  intros l Hl (a & b & E). apply Hl. rewrite E. apply in_or_app. right. left. reflexivity.
Qed.

(** ** C54 *)

(** Full statement: [increase_indent] and then [decrease_indent] with the same cursor gives the text back.
    Proved if the lines that are indented have some text, the cursor starts at the beginning of a line or is in
    one line, the indent string is white space, no current indent is reported, and the lines may be indented
    afterwards exactly if they may before. *)
Theorem C54_increase_then_decrease_partial : forall text sep space ind events events1 lines c,
  no_overlap sep -> is_lines text sep lines -> c_pos c <= length text -> simple_cursor sep lines c ->
  ind <> [] -> all_space space ind -> apart sep ind ->
  let text1 := increase_indent text sep space ind events c in
  let c1 := cursor_after text (increase_ops text sep space ind events c) c in
  let lines1 := each_line 0 (fun k l => if selects sep c (place sep lines k) && may_indent (events (place sep lines k) []) then ind ++ l else l) lines in
  (forall k l, nth_error lines k = Some l -> selects sep c (place sep lines k) = true ->
     may_indent (events1 (place sep lines1 k) []) = may_indent (events (place sep lines k) [])
     /\ (may_indent (events (place sep lines k) []) = true -> has_text space l)) ->
  (forall k, k < length lines -> existsb is_current (events1 (place sep lines1 k) []) = false) ->
  text1 = join sep lines1 /\ decrease_indent text1 sep space ind events1 c1 = text.
Proof.
  intros text sep space ind events events1 lines c H1 H2 H3 H4 H5 H6 H7 text1 c1 lines1 H8 H9. split.
  - apply increase_ok; assumption.
  - apply (increase_decrease text sep space ind events events1 lines c); assumption.
Qed.
Print Assumptions C54_increase_then_decrease_partial.

(** Three lines, of which the last two are selected. *)
Example C54_example :
  let text := [97; 10; 32; 98; 10; 99] in let c := Cursor 2 (Some 6) in
  let text1 := increase_indent text nl is_sp [32; 32] (braces text) c in
  let c1 := cursor_after text (increase_ops text nl is_sp [32; 32] (braces text) c) c in
  simple_cursor nl [[97]; [32; 98]; [99]] c
  /\ text1 = [97; 10; 32; 32; 32; 98; 10; 32; 32; 99] /\ decrease_indent text1 nl is_sp [32; 32] (braces text1) c1 = text.
Proof.
  cbv zeta. split; [|vm_compute; auto]. split; [cbn; lia|]. left. exists 1. split; [cbn; lia|reflexivity].
Qed.

(** A line with only white space gets longer, but not shorter: the white space of such a line does not count. *)
Theorem C54_refuted_blank_line : exists text c,
  c = Cursor 0 None
  /\ let text1 := increase_indent text nl is_sp [32; 32] (braces text) c in
     let c1 := cursor_after text (increase_ops text nl is_sp [32; 32] (braces text) c) c in
     decrease_indent text1 nl is_sp [32; 32] (braces text1) c1 <> text.
Proof. exists [97; 10; 10; 98], (Cursor 0 None). split; [reflexivity|]. vm_compute. discriminate. Qed.
Print Assumptions C54_refuted_blank_line.

(** A selection that starts at the end of a line with another line after it: the cursor moves too far, and the first line
    keeps its new indent, although all lines have text. *)
Theorem C54_refuted_cursor : exists text c,
  c_pos c < length text
  /\ let text1 := increase_indent text nl is_sp [32; 32; 32; 32] (braces text) c in
     let c1 := cursor_after text (increase_ops text nl is_sp [32; 32; 32; 32] (braces text) c) c in
     text1 = [32; 32; 32; 32; 97; 98; 10; 32; 32; 32; 32; 120]
     /\ decrease_indent text1 nl is_sp [32; 32; 32; 32] (braces text1) c1 = [32; 32; 32; 32; 97; 98; 10; 120] /\ text = [97; 98; 10; 120].
Proof. exists [97; 98; 10; 120], (Cursor 2 (Some 4)). vm_compute. auto 10. Qed.

(** ** C81 *)

(** [strip_trailing_blanks] removes the strippable characters at the end of each selected line that may be stripped,
    and nothing else; doing it again changes nothing. *)
Theorem C81_strip : forall text sep space events strippable lines c,
  no_overlap sep -> is_lines text sep lines -> c_pos c <= length text ->
  let text1 := strip_trailing_blanks text sep space events strippable c in
  exists lines1, is_lines text1 sep lines1 /\ length lines1 = length lines
  /\ (forall k l l1, nth_error lines k = Some l -> nth_error lines1 k = Some l1 ->
        if selects sep c (place sep lines k) && may_strip (events (place sep lines k) []) then stripped strippable l l1 else l1 = l)
  /\ (forall events1 c1, c_pos c1 <= length text1 ->
        (forall k, k < length lines -> selects sep c1 (place sep lines1 k) = true -> may_strip (events1 (place sep lines1 k) []) = true ->
           selects sep c (place sep lines k) = true /\ may_strip (events (place sep lines k) []) = true) ->
        strip_trailing_blanks text1 sep space events1 strippable c1 = text1).
Proof.
  intros text sep space events strippable lines c Hno Hl Hc text1.
  set (f := fun k l => if selects sep c (place sep lines k) && may_strip (events (place sep lines k) []) then py_rstrip strippable l else l).
  assert (E1 : text1 = join sep (each_line 0 f lines)) by (apply strip_ok; assumption).
  assert (Hl1 : is_lines text1 sep (each_line 0 f lines)).
  { rewrite E1. apply (lines_each text); [exact Hl|]. intros k l _ Hk. unfold f. destruct (_ && _); [|exact Hk]. intros (a & b & E). apply Hk.
    destruct (rstrip_stripped strippable l) as (tail & E2 & _). exists a, (b ++ tail). rewrite E2, E. rewrite <- !app_assoc. reflexivity. }
  exists (each_line 0 f lines). split; [exact Hl1|]. split; [apply each_line_length|]. split.
  - intros k l l1 Hk Hk1. rewrite each_line_nth, Hk in Hk1. injection Hk1 as <-. unfold f. cbn [plus]. destruct (_ && _); [apply rstrip_stripped|reflexivity].
  - intros events1 c1 Hc1 Hsame. rewrite (strip_ok text1 sep space events1 _ Hno Hl1 strippable c1 Hc1).
    etransitivity; [|symmetry; exact E1]. f_equal. rewrite each_line_each. apply each_line_ext. intros k l Hk. cbn [plus].
    destruct (selects sep c1 _) eqn:Es; [|reflexivity]. destruct (may_strip (events1 _ _)) eqn:Em; [|reflexivity]. cbn [andb].
    destruct (Hsame k ltac:(apply nth_error_Some; congruence) Es Em) as [A B]. unfold f. rewrite A, B. cbn [andb]. apply (rstrip_idem strippable l), rstrip_stripped.
Qed.
Print Assumptions C81_strip.

Example C81_example :
  let text := [97; 32; 10; 32; 98; 32; 32; 10; 32; 32] in
  is_lines text nl [[97; 32]; [32; 98; 32; 32]; [32; 32]]
  /\ strip_trailing_blanks text nl is_sp (braces text) is_sp (Cursor 3 None) = [97; 32; 10; 32; 98; 10].
Proof.
  cbv zeta. split; [|vm_compute; reflexivity]. apply single_lines; [reflexivity|discriminate|]. repeat constructor; cbn; lia.
Qed.

(** ** C82 *)

Lemma forall2_blocks text sep lines : is_lines text sep lines -> Forall2 (fun b l => block_text text b = l) (spans sep 0 lines) lines.
Proof.
  intros Hl. rewrite spans_places.
  assert (G : forall ls n, (forall k l, nth_error ls k = Some l -> block_text text (place sep lines (n + k)) = l) ->
     Forall2 (fun b l => block_text text b = l) (map (place sep lines) (seq n (length ls))) ls).
  { induction ls as [|l ls IH]; intros n H; [constructor|]. cbn [length seq map]. constructor.
    - specialize (H 0 l eq_refl). rewrite Nat.add_0_r in H. exact H.
    - apply IH. intros k l' Hk. specialize (H (S k) l' Hk). rewrite Nat.add_succ_r in H. exact H. }
  apply (G lines 0). intros k l Hk. apply (block_line text sep lines k l Hl Hk).
Qed.

Lemma edit_lines_nth : forall lines es k, nth_error (edit_lines lines es) k
  = match nth_error lines k, nth_error es k with Some l, Some e => Some (edit1 l e) | _, _ => None end.
Proof.
  unfold edit_lines. induction lines as [|l lines IH]; intros es k; [destruct k; reflexivity|]. destruct es as [|e es]; [destruct k; cbn; [reflexivity|destruct (nth_error lines k); reflexivity]|].
  cbn [combine map]. destruct k; [reflexivity|]. cbn [nth_error]; apply (IH es k).
Qed.
Lemma edit_lines_length lines es : length es = length lines -> length (edit_lines lines es) = length lines.
Proof. intros H. unfold edit_lines. rewrite map_length, combine_length. lia. Qed.

Lemma body_ok space l : exists w, l = w ++ body space l /\ all_space space w.
Proof.
  unfold body. destruct (blank space l); [exists []; split; [reflexivity|constructor]|]. exists (leading space l). split.
  - assert (G : forall a b, l = a ++ b -> l = a ++ skipn (length a) l) by (intros a b ->; rewrite skipn_app, skipn_all, Nat.sub_diag; reflexivity).
    apply (G _ _ (lstrip_leading space l)).
  - clear. induction l as [|x l IH]; [constructor|]. cbn [leading]. destruct (space x) eqn:E; constructor; auto.
Qed.
Lemma body_skip space es l : existsb is_current es = false -> skipn (length (indent_of space es l)) l = body space l.
Proof. intros H. rewrite (no_current _ l space H). unfold body. destruct (blank space l); reflexivity. Qed.
Lemma leading_all space l : all_space space (leading space l).
Proof. induction l as [|x l IH]; [constructor|]. cbn [leading]. destruct (space x) eqn:E; constructor; auto. Qed.

Lemma indent_result (Q : str -> Prop) text sep space ind ibl events lines c :
  no_overlap sep -> is_lines text sep lines -> Q [] -> (forall a b, Q a -> Q b -> Q (a ++ b)) -> Q ind ->
  (forall k p, k < length lines -> Forall (strings Q) (events (place sep lines k) p)) ->
  (forall l, In l lines -> Q (leading space l)) ->
  let es := indent_edits text space ind ibl events c [] [[]] (spans sep 0 lines) in
  indent text sep space ind ibl events c = join sep (edit_lines lines es) /\ length es = length lines
  /\ forall k l e, nth_error lines k = Some l -> nth_error es k = Some e ->
       exists ev, Forall (strings Q) ev /\ reindented space l e ev /\ edit_Q Q e.
Proof.
  intros Hno Hl Q0 Qa Qi Hs Hlead es.
  assert (HF : Forall2 (fun l e => exists ev, Forall (strings Q) ev /\ reindented space l e ev /\ edit_Q Q e) lines es).
  { apply edits_ok; try assumption.
    - apply forall2_blocks. exact Hl.
    - repeat constructor. exact Q0.
    - constructor.
    - intros b p Hb. rewrite spans_places in Hb. apply in_map_iff in Hb as (k & <- & Hk). apply in_seq in Hk. apply Hs. lia. }
  assert (Hlen : length es = length lines) by (unfold es; rewrite indent_edits_length; apply spans_length).
  split; [|split; [exact Hlen|]].
  - apply indent_lines; [exact Hno|exact Hl|]. apply (edits_ok_edit space Q). exact HF.
  - clear - HF. intros k l e Hk He. revert k Hk He. induction HF as [|l' e' ls es' H _ IH]; intros k Hk He; [destruct k; discriminate|].
    destruct k as [|k]; [injection Hk as ->; injection He as ->; exact H|]. apply (IH k Hk He).
Qed.

(** [indent] only replaces the white space lines begin with by other white space, in lines that do not begin before the
    cursor, have no line before them that reaches the end of the cursor, and may be indented. *)
Theorem C82_indent_changes_white_space : forall text sep space ind ibl events lines c,
  no_overlap sep -> is_lines text sep lines -> all_space space ind ->
  (forall k p, k < length lines -> Forall (strings (all_space space)) (events (place sep lines k) p)) ->
  exists lines1, indent text sep space ind ibl events c = join sep lines1 /\ length lines1 = length lines
  /\ forall k l l1, nth_error lines k = Some l -> nth_error lines1 k = Some l1 ->
       l1 = l
       \/ touched sep lines c k
          /\ (exists p, may_indent (events (place sep lines k) p) = true /\ (ibl = true \/ existsb is_blank (events (place sep lines k) p) = false))
          /\ exists w w1, l = w ++ body space l /\ l1 = w1 ++ body space l /\ all_space space w /\ all_space space w1.
Proof.
  intros text sep space ind ibl events lines c Hno Hl Hsp Hs.
  destruct (indent_result (all_space space) text sep space ind ibl events lines c Hno Hl) as (E & Hlen & Hk); try assumption.
  - constructor.
  - intros a b Ha Hb. apply Forall_app. split; assumption.
  - intros l _. apply leading_all.
  - set (es := indent_edits _ _ _ _ _ _ _ _ _) in *. exists (edit_lines lines es). split; [exact E|]. split; [apply edit_lines_length; exact Hlen|].
    intros k l l1 Hkl Hk1. rewrite edit_lines_nth, Hkl in Hk1. destruct (nth_error es k) as [e|] eqn:Ee; [|discriminate]. injection Hk1 as <-.
    destruct e as [[[i j] new]|]; [right|left; reflexivity].
    assert (Hlt : k < length lines) by (apply nth_error_Some; congruence).
    assert (Eb : forall j, j < length lines -> nth_error (spans sep 0 lines) j = Some (place sep lines j)) by (intros j' Hj; apply nth_error_nth'; rewrite spans_length; exact Hj).
    destruct (edits_touched text space ind ibl events c _ _ _ k _ _ (Eb k Hlt) Ee ltac:(discriminate)) as (T1 & T2 & T3).
    split; [split; [exact T1|]; intros j' Hj; apply (T2 j'); [exact Hj|apply Eb; lia]|]. split; [exact T3|].
    destruct (Hk k l _ Hkl Ee) as (ev & V1 & (-> & -> & _) & V3). cbn [edit1 firstn app edit_Q] in *. rewrite (body_skip space ev l (strings_current _ _ V1)).
    destruct (body_ok space l) as (w & W1 & W2). exists w, new. auto.
Qed.
Print Assumptions C82_indent_changes_white_space.

(** Indenting a whole document gives every line as many times the indent string as there are things open where it
    begins, not counting those it closes itself first. *)
Theorem C82_indent_levels : forall text sep space ind ibl events evs lines,
  no_overlap sep -> is_lines text sep lines ->
  (forall b p, events b p = evs b) -> (forall b, Forall plain (evs b)) ->
  indent text sep space ind ibl events (Cursor 0 None)
  = join sep (each_line 0 (fun k l =>
      let es := evs (place sep lines k) in
      if may_indent es && (ibl || negb (existsb is_blank es))
      then times (level (map (fun j => evs (place sep lines j)) (seq 0 (length lines))) k) ind ++ body space l else l) lines).
Proof.
  intros text sep space ind ibl events evs lines Hno Hl Hev Hplain.
  destruct (edits_leveled text space ind ibl events evs Hev Hplain (spans sep 0 lines) lines 0 0 (forall2_blocks text sep lines Hl)) as [L1 L2].
  change (repeat None 0) with (@nil (option str)) in L1, L2. change (stack ind 0) with [@nil nat] in L1, L2.
  rewrite (indent_lines text sep space ind ibl events lines (Cursor 0 None) Hno Hl L1). f_equal. etransitivity; [exact L2|].
  set (evl := map (fun j => evs (place sep lines j)) (seq 0 (length lines))).
  assert (Ee : map evs (spans sep 0 lines) = evl) by (rewrite spans_places, map_map; reflexivity). rewrite Ee.
  apply nth_error_ext. intros k. rewrite each_line_nth, nth_error_map. cbn [plus].
  destruct (nth_error lines k) as [l|] eqn:Ek.
  - assert (Hlt : k < length lines) by (apply nth_error_Some; congruence).
    rewrite nth_error_nth' with (d := 0) by (rewrite seq_length; exact Hlt). rewrite seq_nth by exact Hlt. cbn [option_map plus].
    rewrite (nth_error_nth _ _ _ Ek). unfold leveled, level. fold (place sep lines k). f_equal.
    destruct (may_indent _ && _); [|reflexivity]. rewrite (body_skip space _ l (plain_no_current _ (Hplain _))). reflexivity.
  - rewrite (proj2 (nth_error_None _ _)); [reflexivity|]. rewrite seq_length. apply nth_error_None. exact Ek.
Qed.
Print Assumptions C82_indent_levels.

(** "{|b{|c|}|   }" becomes "{|  b{|    c|  }|}". *)
Example C82_example :
  let text := [123; 10; 98; 123; 10; 99; 10; 125; 10; 32; 32; 32; 125] in
  is_lines text nl [[123]; [98; 123]; [99]; [125]; [32; 32; 32; 125]]
  /\ (forall b, Forall plain (braces text b []))
  /\ indent text nl is_sp [32; 32] false (braces text) (Cursor 0 None)
     = [123; 10; 32; 32; 98; 123; 10; 32; 32; 32; 32; 99; 10; 32; 32; 125; 10; 125]
  /\ indent text nl is_sp [32; 32] false (braces text) (Cursor 5 (Some 6)) = [123; 10; 98; 123; 10; 32; 32; 99; 10; 125; 10; 32; 32; 32; 125].
Proof.
  cbv zeta. split; [apply single_lines; [reflexivity|discriminate|]; repeat constructor; cbn; lia|]. split; [|vm_compute; auto].
  intros b. unfold braces. apply Forall_flat_map, Forall_forall. intros x _. unfold brace. destruct (x =? 123); [repeat constructor|]. destruct (x =? 125); repeat constructor.
Qed.

(** ** C83, C84 *)

Lemma lines_again text sep space ind ibl events lines c :
  no_overlap sep -> is_lines text sep lines -> all_space space ind -> apart sep ind ->
  (forall k p, k < length lines -> Forall (strings (fun s => all_space space s /\ apart sep s)) (events (place sep lines k) p)) ->
  (forall l, In l lines -> apart sep (leading space l)) ->
  let es := indent_edits text space ind ibl events c [] [[]] (spans sep 0 lines) in
  is_lines (indent text sep space ind ibl events c) sep (edit_lines lines es)
  /\ length es = length lines
  /\ forall k l e, nth_error lines k = Some l -> nth_error es k = Some e -> exists ev, existsb is_current ev = false /\ reindented space l e ev.
Proof.
  intros Hno Hl Hsp Hap Hs Hlead es.
  destruct (indent_result (fun s => all_space space s /\ apart sep s) text sep space ind ibl events lines c Hno Hl) as (E & Hlen & Hk); try assumption.
  - split; [constructor|intros x []].
  - intros a b [A1 A2] [B1 B2]. split; [apply Forall_app; split; assumption|]. intros x Hx. apply in_app_or in Hx as [Hx|Hx]; [apply A2|apply B2]; exact Hx.
  - split; assumption.
  - intros l Hin. split; [apply leading_all|apply Hlead; exact Hin].
  - fold es in E, Hlen, Hk. split; [|split; [exact Hlen|]].
    + rewrite E. destruct Hl as (L1 & L2 & L3). split; [reflexivity|]. split.
      * intros H0. apply L2. destruct lines; [reflexivity|]. apply (f_equal (@length str)) in H0. rewrite edit_lines_length in H0 by exact Hlen. discriminate.
      * apply Forall_forall. intros x Hx. apply In_nth_error in Hx as [k Hx]. rewrite edit_lines_nth in Hx.
        destruct (nth_error lines k) as [l|] eqn:El; [|discriminate]. destruct (nth_error es k) as [e|] eqn:Ee; [|discriminate]. injection Hx as <-.
        assert (Hnl : ~ contains sep l) by (rewrite Forall_forall in L3; apply L3, (nth_error_In _ _ El)).
        destruct (Hk k l e El Ee) as (ev & V1 & V2 & V3). destruct e as [[[i j] new]|]; [|exact Hnl]. cbn [edit1 reindented edit_Q] in *. destruct V2 as (-> & -> & _).
        cbn [firstn app]. rewrite (body_skip space ev l (strings_current _ _ V1)). intros H. apply Hnl. apply (apart_contains sep new) in H; [|apply Hno|apply V3].
        destruct (body_ok space l) as (w & W1 & _). destruct H as (a & b & Eab). exists (w ++ a), b. rewrite W1, Eab. rewrite <- app_assoc. reflexivity.
    + intros k l e Hk1 Hk2. destruct (Hk k l e Hk1 Hk2) as (ev & V1 & V2 & _). exists ev. split; [apply (strings_current _ _ V1)|exact V2].
Qed.

(** Full statement: indenting a second time changes nothing. Proved if all lines that can be changed have some text.
    The second time the lines must have the same events, and the cursor must be around the same lines. *)
Theorem C83_indent_twice_partial : forall text sep space ind ibl events events1 lines c c1,
  no_overlap sep -> is_lines text sep lines -> all_space space ind -> apart sep ind ->
  (forall k p, k < length lines -> Forall (strings (fun s => all_space space s /\ apart sep s)) (events (place sep lines k) p)) ->
  (forall l, In l lines -> apart sep (leading space l)) ->
  (forall k l p, nth_error lines k = Some l -> touched sep lines c k -> may_indent (events (place sep lines k) p) = true ->
     (ibl = true \/ existsb is_blank (events (place sep lines k) p) = false) -> has_text space l) ->
  let text1 := indent text sep space ind ibl events c in
  forall lines1, is_lines text1 sep lines1 ->
  length lines1 = length lines
  /\ ((forall k, k < length lines ->
         (forall p, events1 (place sep lines1 k) p = events (place sep lines k) p)
         /\ (fst (place sep lines1 k) <? c_pos c1) = (fst (place sep lines k) <? c_pos c)
         /\ reaches c1 (place sep lines1 k) = reaches c (place sep lines k)) ->
      indent text1 sep space ind ibl events1 c1 = text1).
Proof.
  intros text sep space ind ibl events events1 lines c c1 Hno Hl Hsp Hap Hs Hlead Ht text1 lines1 Hl1'.
  destruct (lines_again text sep space ind ibl events lines c Hno Hl Hsp Hap Hs Hlead) as (Hl1 & Hlen & _).
  set (es := indent_edits text space ind ibl events c [] [[]] (spans sep 0 lines)) in *. fold text1 in Hl1.
  rewrite (lines_unique _ _ _ _ Hno Hl1' Hl1) in *. clear lines1 Hl1'. set (lines1 := edit_lines lines es) in *.
  assert (Hlen1 : length lines1 = length lines) by (apply edit_lines_length; exact Hlen).
  split; [exact Hlen1|]. intros Hsame.
  assert (Eb : forall j, j < length lines -> nth_error (spans sep 0 lines) j = Some (place sep lines j)) by (intros j' Hj; apply nth_error_nth'; rewrite spans_length; exact Hj).
  assert (Hnone : Forall (fun e => e = None) (indent_edits text1 space ind ibl events1 c1 [] [[]] (spans sep 0 lines1))).
  { apply (edits_again text text1 space ind ibl events events1 c c1 (fun s => all_space space s /\ apart sep s)) with (bs := spans sep 0 lines) (lines := lines).
    - split; [constructor|intros x []].
    - intros a b [A1 A2] [B1 B2]. split; [apply Forall_app; split; assumption|]. intros x Hx. apply in_app_or in Hx as [Hx|Hx]; [apply A2|apply B2]; exact Hx.
    - split; assumption.
    - intros s Hs'. apply Hs'.
    - apply forall2_blocks. exact Hl.
    - apply forall2_blocks. exact Hl1.
    - rewrite !spans_places, Hlen1. assert (G : forall n m, n + m = length lines ->
        Forall2 (fun b b1 => (forall p, events1 b1 p = events b p) /\ (fst b <? c_pos c) = (fst b1 <? c_pos c1) /\ stop c b = stop c1 b1)
          (map (place sep lines) (seq n m)) (map (place sep lines1) (seq n m))).
      { intros n m. revert n. induction m as [|m IH]; intros n Hnm; [constructor|]. cbn [seq map]. destruct (Hsame n ltac:(lia)) as (A & B & C). constructor; [split; [exact A|split; [symmetry; exact B|symmetry; exact C]]|]. apply IH. lia. }
      apply G. reflexivity.
    - repeat constructor. intros x [].
    - constructor.
    - intros b p Hb. rewrite spans_places in Hb. apply in_map_iff in Hb as (k & <- & Hk). apply in_seq in Hk. apply Hs. lia.
    - intros l Hin. split; [apply leading_all|apply Hlead; exact Hin].
    - intros k b l p Hb Hkl Hp Hj Hm Hbl. assert (Hlt : k < length lines) by (apply nth_error_Some; congruence).
      rewrite (Eb k Hlt) in Hb. injection Hb as <-. apply (Ht k l p Hkl); [|exact Hm|exact Hbl]. split; [exact Hp|]. intros j Hjk. apply (Hj j); [exact Hjk|apply Eb; lia]. }
  assert (Hlen2 : length (indent_edits text1 space ind ibl events1 c1 [] [[]] (spans sep 0 lines1)) = length lines1) by (rewrite indent_edits_length; apply spans_length).
  rewrite (indent_lines text1 sep space ind ibl events1 lines1 c1 Hno Hl1).
  - destruct Hl1 as (<- & _). f_equal. apply nth_error_ext. intros k. rewrite edit_lines_nth. destruct (nth_error lines1 k) as [l|] eqn:El; [|reflexivity].
    destruct (nth_error (indent_edits _ _ _ _ _ _ _ _ _) k) as [e|] eqn:Ee.
    + rewrite Forall_forall in Hnone. rewrite (Hnone e (nth_error_In _ _ Ee)). reflexivity.
    + exfalso. apply nth_error_None in Ee. assert (k < length lines1) by (apply nth_error_Some; congruence). lia.
  - apply Forall_forall. intros [l e] Hin. apply in_combine_r in Hin. rewrite Forall_forall in Hnone. cbn [snd]. rewrite (Hnone e Hin). exact I.
Qed.
Print Assumptions C83_indent_twice_partial.

(** Two lines are changed, then nothing. *)
Example C83_example :
  let text := [123; 10; 98; 10; 32; 125] in let text1 := indent text nl is_sp [32; 32] false (braces text) (Cursor 0 None) in
  is_lines text nl [[123]; [98]; [32; 125]] /\ is_lines text1 nl [[123]; [32; 32; 98]; [125]]
  /\ (forall k p, k < 3 -> braces text1 (place nl [[123]; [32; 32; 98]; [125]] k) p = braces text (place nl [[123]; [98]; [32; 125]] k) p)
  /\ text1 <> text /\ indent text1 nl is_sp [32; 32] false (braces text1) (Cursor 0 None) = text1.
Proof.
  cbv zeta. split; [apply single_lines; [reflexivity|discriminate|]; repeat constructor; cbn; lia|].
  split; [apply single_lines; [reflexivity|discriminate|]; repeat constructor; cbn; lia|].
  split; [intros k p Hk; destruct k as [|[|[|k]]]; [reflexivity|reflexivity|reflexivity|lia]|]. split; [vm_compute; discriminate|vm_compute; reflexivity].
Qed.

(** An empty line between braces gets longer every time. *)
Theorem C83_refuted : exists text,
  let text1 := indent text nl is_sp [32; 32] false (braces text) (Cursor 0 None) in
  let text2 := indent text1 nl is_sp [32; 32] false (braces text1) (Cursor 0 None) in
  text = [123; 10; 10; 125] /\ text1 = [123; 10; 32; 32; 10; 125] /\ text2 = [123; 10; 32; 32; 32; 32; 10; 125].
Proof. exists [123; 10; 10; 125]. vm_compute. auto. Qed.
Print Assumptions C83_refuted.

(** If indenting the whole text changes nothing, indenting a part of it changes nothing. *)
Theorem C84_part_of_indented : forall text sep space ind ibl events lines c,
  no_overlap sep -> is_lines text sep lines -> all_space space ind -> apart sep ind ->
  (forall k p, k < length lines -> Forall (strings (fun s => all_space space s /\ apart sep s)) (events (place sep lines k) p)) ->
  (forall l, In l lines -> apart sep (leading space l)) ->
  indent text sep space ind ibl events (Cursor 0 None) = text ->
  indent text sep space ind ibl events c = text.
Proof.
  intros text sep space ind ibl events lines c Hno Hl Hsp Hap Hs Hlead Hsame.
  destruct (lines_again text sep space ind ibl events lines (Cursor 0 None) Hno Hl Hsp Hap Hs Hlead) as (Hl1 & Hlen & Hk).
  set (es := indent_edits text space ind ibl events (Cursor 0 None) [] [[]] (spans sep 0 lines)) in *. rewrite Hsame in Hl1.
  pose proof (lines_unique _ _ _ _ Hno Hl1 Hl) as E.
  assert (Hnone : Forall (fun e : ledit => e = None) es).
  { apply Forall_forall. intros e He. apply In_nth_error in He as [k He]. destruct (nth_error lines k) as [l|] eqn:El.
    - destruct (Hk k l e El He) as (ev & V1 & V2). apply (edit1_same space l e ev V1 V2). pose proof (edit_lines_nth lines es k) as En. rewrite El, He, E in En. congruence.
    - exfalso. apply nth_error_None in El. assert (k < length es) by (apply nth_error_Some; congruence). lia. }
  pose proof (edits_none_part text space ind ibl events c (spans sep 0 lines) [] [[]] ltac:(discriminate) Hnone) as Hc.
  rewrite (indent_lines text sep space ind ibl events lines c Hno Hl).
  - destruct Hl as (<- & _). f_equal. apply nth_error_ext. intros k. rewrite edit_lines_nth. destruct (nth_error lines k) as [l|] eqn:El; [|reflexivity].
    destruct (nth_error (indent_edits _ _ _ _ _ c _ _ _) k) as [e|] eqn:Ee.
    + rewrite Forall_forall in Hc. rewrite (Hc e (nth_error_In _ _ Ee)). reflexivity.
    + exfalso. apply nth_error_None in Ee. rewrite indent_edits_length, spans_length in Ee. assert (k < length lines) by (apply nth_error_Some; congruence). lia.
  - apply Forall_forall. intros [l e] Hin. apply in_combine_r in Hin. rewrite Forall_forall in Hc. cbn [snd]. rewrite (Hc e Hin). exact I.
Qed.
Print Assumptions C84_part_of_indented.

Example C84_example :
  let text := [123; 10; 32; 32; 98; 10; 125] in
  is_lines text nl [[123]; [32; 32; 98]; [125]]
  /\ indent text nl is_sp [32; 32] false (braces text) (Cursor 0 None) = text
  /\ indent text nl is_sp [32; 32] false (braces text) (Cursor 2 (Some 5)) = text.
Proof. cbv zeta. split; [apply single_lines; [reflexivity|discriminate|]; repeat constructor; cbn; lia|]. vm_compute. auto. Qed.

(** ** C85 *)

(** Full statement: [auto_indent] does with a line what [indent] with that line selected does. Proved if each line
    before opens at most one thing and then closes nothing of the lines before it, the first line may be indented,
    the events do not depend on the indents before, there is nothing closed that is not open, and the line is not the first. *)
Theorem C85_auto_indent_partial : forall text sep space ind ibl events evs lines k c d,
  no_overlap sep -> is_lines text sep lines -> (forall b p, events b p = evs b) ->
  let ev k := evs (place sep lines k) in
  0 < k < length lines -> fst (place sep lines k) <= c_pos c <= snd (place sep lines k) ->
  (forall j, j < k -> simple_line ibl (ev j)) -> may_indent (ev 0) = true ->
  nest 0 (concat (map ev (seq 0 k))) = Some d -> start_closes (ev k) <= d ->
  (ibl = true \/ existsb is_blank (ev k) = false) ->
  auto_indent text sep space ind events c
  = indent text sep space ind ibl events (Cursor (fst (place sep lines k)) (Some (snd (place sep lines k)))).
Proof.
  intros text sep space ind ibl events evs lines k c d Hno Hl Hev ev Hk Hc H1 H2 H3 H4 H5. unfold auto_indent, indent. f_equal.
  apply (auto_indent_is_indent text sep space ind ibl events evs Hev lines Hno Hl k c d); assumption.
Qed.
Print Assumptions C85_auto_indent_partial.

(** "a{|  b{|     c|}": the fourth line is put below the second. *)
Example C85_example :
  let lines := [[97; 123]; [32; 32; 98; 123]; [32; 32; 32; 32; 32; 99]; [125]] in let text := join nl lines in
  let ev k := braces text (place nl lines k) [] in
  is_lines text nl lines /\ (forall j, j < 3 -> simple_line false (ev j)) /\ may_indent (ev 0) = true
  /\ nest 0 (concat (map ev (seq 0 3))) = Some 2 /\ start_closes (ev 3) = 1 /\ place nl lines 3 = (15, 16)
  /\ auto_indent text nl is_sp [32; 32] (braces text) (Cursor 16 None)
     = [97; 123; 10; 32; 32; 98; 123; 10; 32; 32; 32; 32; 32; 99; 10; 32; 32; 125]
  /\ indent text nl is_sp [32; 32] false (braces text) (Cursor 15 (Some 16))
     = [97; 123; 10; 32; 32; 98; 123; 10; 32; 32; 32; 32; 32; 99; 10; 32; 32; 125].
Proof.
  cbv zeta. split; [apply single_lines; [reflexivity|discriminate|]; repeat constructor; cbn; lia|].
  split; [|vm_compute; auto 10]. intros j Hj. destruct j as [|[|[|j]]]; [vm_compute; auto 10|vm_compute; auto 10|vm_compute; auto 10|lia].
Qed.

(** Two things opened in one line: [indent] adds two levels and [auto_indent] one. *)
Theorem C85_refuted : exists text c,
  text = [123; 123; 10; 97] /\ c = Cursor 3 (Some 4)
  /\ indent text nl is_sp [32; 32] false (braces text) c = [123; 123; 10; 32; 32; 32; 32; 97]
  /\ auto_indent text nl is_sp [32; 32] (braces text) c = [123; 123; 10; 32; 32; 97].
Proof. exists [123; 123; 10; 97], (Cursor 3 (Some 4)). vm_compute. auto. Qed.
Print Assumptions C85_refuted.

(** The first line: [indent] removes its white space, [auto_indent] does not. *)
Theorem C85_refuted_first_line : exists text c,
  text = [32; 97] /\ c = Cursor 0 (Some 2)
  /\ indent text nl is_sp [32; 32] false (braces text) c = [97]
  /\ auto_indent text nl is_sp [32; 32] (braces text) c = text.
Proof. exists [32; 97], (Cursor 0 (Some 2)). vm_compute. auto. Qed.
