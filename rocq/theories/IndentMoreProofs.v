(** Proofs about making the indent larger and smaller, and about stripping. *)
From Verif Require Import Base BaseFacts MutableModel MutableSpec MutableProofs CursorModel BlockModel BlockSpec BlockProofs
  StripModel ReplaceProofs Prop_Block IndentModel IndentSpec IndentProofs.
From Coq Require Import ZArith ZifyBool.

Lemma begins_ok p : forall s, py_startswith p s = begins p s.
Proof.
  unfold py_startswith. induction p as [|x p IH]; intros s; cbn [length firstn begins]; [reflexivity|].
  destruct s as [|y s]; [reflexivity|]. cbn [str_eqb list_eqb]. rewrite <- IH. rewrite (Nat.eqb_sym y x). reflexivity.
Qed.

Lemma begins_app p : forall s, begins p (p ++ s) = true.
Proof. induction p as [|x p IH]; intros s; [reflexivity|]. cbn [app begins]. rewrite Nat.eqb_refl, IH. reflexivity. Qed.

Lemma begins_length p : forall s, begins p s = true -> length p <= length s.
Proof.
  induction p as [|x p IH]; intros s H; [cbn; lia|]. destruct s as [|y s]; [discriminate|]. cbn [begins] in H.
  apply andb_prop in H as [_ H]. apply IH in H. cbn [length]. lia.
Qed.

Lemma leading_length space : forall l, length (leading space l) <= length l.
Proof. induction l as [|x l IH]; [reflexivity|]. cbn [leading]. destruct (space x); cbn [length]; lia. Qed.

Section Changes.
Variables (text sep : str) (space : nat -> bool) (ind : str) (events : nat * nat -> list str -> list event) (lines : list str).
Hypotheses (Hno : no_overlap sep) (Hl : is_lines text sep lines).
Notation evs k := (events (place sep lines k) []).

Lemma increase_ok c : c_pos c <= length text ->
  increase_indent text sep space ind events c
  = join sep (each_line 0 (fun k l => if selects sep c (place sep lines k) && may_indent (evs k) then ind ++ l else l) lines).
Proof.
  intros Hc. unfold increase_indent, increase_ops.
  set (g := fun b => if may_indent (events b []) then Some (0, 0, ind) else None : ledit).
  rewrite (flat_map_ext _ (fun b => op_at (fst b) (g b))).
  - rewrite (cursor_edits text sep lines c g Hno Hl Hc).
    + f_equal. apply each_line_ext. intros k l _. cbn [plus]. unfold g. destruct (selects _ _ _), (may_indent _); reflexivity.
    + intros k l _. unfold g. destruct (may_indent _); cbn [ok_edit]; [lia|exact I].
  - intros b. rewrite info_allow. unfold g. destruct (may_indent _); cbn [op_at]; [|reflexivity]. rewrite Nat.add_0_r. reflexivity.
Qed.

Definition less (cur : str) : str := if begins ind cur then ind else cur.
Lemma less_length cur : length (less cur) <= length cur.
Proof. unfold less. destruct (begins ind cur) eqn:E; [apply begins_length; exact E|lia]. Qed.

Lemma decrease_ok c : c_pos c <= length text ->
  (forall k l, nth_error lines k = Some l -> may_indent (evs k) = true -> length (indent_of space (evs k) l) <= length l) ->
  decrease_indent text sep space ind events c
  = join sep (each_line 0 (fun k l => if selects sep c (place sep lines k) && may_indent (evs k)
                                      then skipn (length (less (indent_of space (evs k) l))) l else l) lines).
Proof.
  intros Hc Hin. unfold decrease_indent, decrease_ops.
  set (g := fun b => if may_indent (events b [])
                     then match indent_of space (events b []) (block_text text b) with
                          | [] => None
                          | cur => Some (0, length (less cur), [])
                          end
                     else None : ledit).
  rewrite (flat_map_ext _ (fun b => op_at (fst b) (g b))).
  - rewrite (cursor_edits text sep lines c g Hno Hl Hc).
    + f_equal. apply each_line_ext. intros k l Hk. cbn [plus]. unfold g. rewrite (proj1 (block_line text sep lines k l Hl Hk)).
      destruct (selects _ _ _), (may_indent _); try reflexivity. cbn [andb].
      destruct (indent_of space (evs k) l) as [|x cur]; [|reflexivity]. unfold less. destruct ind; reflexivity.
    + intros k l Hk. unfold g. rewrite (proj1 (block_line text sep lines k l Hl Hk)).
      destruct (may_indent _) eqn:Em; [|exact I]. specialize (Hin k l Hk Em). destruct (indent_of space (evs k) l) as [|x cur] eqn:E; [exact I|].
      cbn [ok_edit]. pose proof (less_length (x :: cur)). lia.
  - intros b. rewrite info_allow. unfold g. destruct (may_indent _) eqn:Em; [|reflexivity]. rewrite (info_indent _ _ _ _ _ Em).
    destruct (indent_of space _ _) as [|x cur]; [reflexivity|]. rewrite begins_ok. cbn [op_at]. rewrite Nat.add_0_r. unfold less.
    destruct (begins ind (x :: cur)); reflexivity.
Qed.

Lemma rstrip_stripped strippable l : stripped strippable l (py_rstrip strippable l).
Proof.
  unfold py_rstrip, stripped. pose proof (lstrip_leading strippable (rev l)) as H. exists (rev (leading strippable (rev l))).
  split; [|split].
  - rewrite <- rev_app_distr, <- H, rev_involutive. reflexivity.
  - apply Forall_rev. generalize (rev l) as m. clear. induction m as [|x m IH]; [constructor|]. cbn [leading]. destruct (strippable x) eqn:E; constructor; auto.
  - intros a x Hx. apply (f_equal (@rev nat)) in Hx. rewrite rev_involutive, rev_app_distr in Hx. cbn [rev app] in Hx.
    revert Hx. generalize (rev l) as m. clear. induction m as [|y m IH]; intros Hx; [discriminate|]. cbn [py_lstrip] in Hx. destruct (strippable y) eqn:E; [auto|].
    injection Hx as -> _. exact E.
Qed.

Lemma stripped_length strippable l l' : stripped strippable l l' -> length l' <= length l.
Proof. intros (tail & -> & _). rewrite app_length. lia. Qed.

Lemma strip_ok strippable c : c_pos c <= length text ->
  strip_trailing_blanks text sep space events strippable c
  = join sep (each_line 0 (fun k l => if selects sep c (place sep lines k) && may_strip (evs k) then py_rstrip strippable l else l) lines).
Proof.
  intros Hc. unfold strip_trailing_blanks, strip_ops.
  set (g := fun b => if may_strip (events b [])
                     then if length (py_rstrip strippable (block_text text b)) =? snd b - fst b then None
                          else Some (length (py_rstrip strippable (block_text text b)), snd b - fst b, [])
                     else None : ledit).
  assert (R : forall l, firstn (length (py_rstrip strippable l)) l = py_rstrip strippable l).
  { intros l. destruct (rstrip_stripped strippable l) as (tail & E & _). rewrite E at 2. rewrite firstn_app, Nat.sub_diag, firstn_all. apply app_nil_r. }
  rewrite (cursor_blocks_ok text sep lines c Hno Hl Hc).
  replace (flat_map _ (filter (selects sep c) (spans sep 0 lines)))
    with (flat_map (fun b => op_at (fst b) (g b)) (filter (selects sep c) (spans sep 0 lines))).
  2:{ symmetry. rewrite !flat_map_concat_map. f_equal. apply map_ext_in. intros b Hb. apply filter_In in Hb as [Hb _]. apply spans_after in Hb.
    rewrite info_strip. unfold g. destruct (may_strip _); [|reflexivity]. cbv zeta. destruct (_ =? _); [reflexivity|]. cbn [op_at].
    replace (fst b + (snd b - fst b)) with (snd b) by lia. reflexivity. }
  rewrite <- (cursor_blocks_ok text sep lines c Hno Hl Hc).
  rewrite (cursor_edits text sep lines c g Hno Hl Hc).
  - f_equal. apply each_line_ext. intros k l Hk. cbn [plus]. unfold g. destruct (block_line text sep lines k l Hl Hk) as [E1 E2]. rewrite E1, E2.
    replace (fst (place sep lines k) + length l - fst (place sep lines k)) with (length l) by lia.
    destruct (selects _ _ _), (may_strip _); try reflexivity. cbn [andb].
    destruct (length (py_rstrip strippable l) =? length l) eqn:E; cbn [edit1].
    + rewrite <- (R l). symmetry. apply firstn_all2. lia.
    + rewrite skipn_all, app_nil_r. apply R.
  - intros k l Hk. unfold g. destruct (block_line text sep lines k l Hl Hk) as [E1 E2]. rewrite E1, E2.
    destruct (may_strip _); [|exact I]. destruct (_ =? _); [exact I|]. cbn [ok_edit]. pose proof (stripped_length _ _ _ (rstrip_stripped strippable l)). lia.
Qed.
End Changes.

(** ** The lines after a change *)

Lemma each_line_length : forall lines n f, length (each_line n f lines) = length lines.
Proof. induction lines as [|l lines IH]; intros n f; [reflexivity|]. cbn [each_line length]. rewrite IH. reflexivity. Qed.
Lemma each_line_nth : forall lines n f k, nth_error (each_line n f lines) k = option_map (f (n + k)) (nth_error lines k).
Proof.
  induction lines as [|l lines IH]; intros n f k; [destruct k; reflexivity|]. cbn [each_line]. destruct k as [|k]; cbn [nth_error option_map].
  - rewrite Nat.add_0_r. reflexivity.
  - rewrite IH, Nat.add_succ_r. reflexivity.
Qed.
Lemma each_line_each : forall lines n f g, each_line n f (each_line n g lines) = each_line n (fun k l => f k (g k l)) lines.
Proof. induction lines as [|l lines IH]; intros n f g; [reflexivity|]. cbn [each_line]. rewrite IH. reflexivity. Qed.
Lemma each_line_id : forall lines n, each_line n (fun _ l => l) lines = lines.
Proof. induction lines as [|l lines IH]; intros n; [reflexivity|]. cbn [each_line]. rewrite IH. reflexivity. Qed.

Lemma apart_contains sep s l : sep <> [] -> apart sep s -> contains sep (s ++ l) -> contains sep l.
Proof.
  intros Hs Ha (a & b & E). destruct (Nat.le_gt_cases (length s) (length a)) as [H|H].
  - exists (skipn (length s) a), b. apply (f_equal (skipn (length s))) in E. rewrite skipn_app, skipn_all, Nat.sub_diag in E. cbn [skipn app] in E.
    rewrite E, skipn_app. replace (length s - length a) with 0 by lia. reflexivity.
  - exfalso. destruct sep as [|x sep]; [congruence|]. apply (Ha x); [|left; reflexivity].
    assert (N : nth_error (s ++ l) (length a) = Some x) by (rewrite E, nth_error_app2, Nat.sub_diag by lia; reflexivity).
    rewrite nth_error_app1 in N by lia. apply (nth_error_In _ _ N).
Qed.

Lemma lines_each text sep lines f : is_lines text sep lines ->
  (forall k l, nth_error lines k = Some l -> ~ contains sep l -> ~ contains sep (f k l)) ->
  is_lines (join sep (each_line 0 f lines)) sep (each_line 0 f lines).
Proof.
  intros (H1 & H2 & H3) Hf. split; [reflexivity|]. split; [destruct lines; [congruence|discriminate]|].
  apply Forall_forall. intros x Hx. apply In_nth_error in Hx as [k Hk]. rewrite each_line_nth in Hk.
  destruct (nth_error lines k) as [l|] eqn:E; [|discriminate]. injection Hk as <-. apply (Hf k l E).
  rewrite Forall_forall in H3. apply H3. apply (nth_error_In _ _ E).
Qed.

Lemma place_later sep : forall lines j k, j < k -> k < length lines -> snd (place sep lines j) + length sep <= fst (place sep lines k).
Proof.
  unfold place. intros lines. generalize 0 at 1 4 as pos.
  induction lines as [|l lines IH]; intros pos j k H1 H2; [cbn in H2; lia|]. destruct k as [|k]; [lia|]. cbn [spans nth].
  cbn [length] in H2. destruct j as [|j].
  - cbn [snd]. assert (Hin : In (nth k (spans sep (pos + length l + length sep) lines) (0, 0)) (spans sep (pos + length l + length sep) lines)).
    { apply nth_In. assert (L : forall ls p, length (spans sep p ls) = length ls) by (induction ls as [|y ls IHl]; intros p; [reflexivity|]; cbn [spans length]; rewrite IHl; reflexivity).
      rewrite L. lia. }
    apply spans_after in Hin. lia.
  - apply IH; lia.
Qed.

(** ** Where the lines are after making the indent larger *)

(** How many of the lines before line [k] are changed. *)
Definition count_before (w : nat -> bool) (n k : nat) : nat := length (filter w (seq n k)).

Lemma count_mono w n : forall k k', k <= k' -> count_before w n k <= count_before w n k'.
Proof.
  intros k k' H. unfold count_before. replace k' with (k + (k' - k)) by lia. rewrite seq_app, filter_app, app_length. lia.
Qed.
Lemma count_none w n k : (forall i, n <= i < n + k -> w i = false) -> count_before w n k = 0.
Proof. intros H. unfold count_before. rewrite filter_none; [reflexivity|]. intros x Hx. apply in_seq in Hx. apply H. lia. Qed.
Lemma count_same w n k k' : k <= k' -> (forall i, n + k <= i < n + k' -> w i = false) -> count_before w n k' = count_before w n k.
Proof.
  intros H1 H2. unfold count_before. replace k' with (k + (k' - k)) by lia. rewrite seq_app, filter_app, app_length.
  rewrite (filter_none w (seq (n + k) (k' - k))); [cbn [length]; lia|]. intros x Hx. apply in_seq in Hx. apply H2. lia.
Qed.

Definition grown (w : nat -> bool) (ind : str) (k : nat) (l : str) : str := if w k then ind ++ l else l.

Lemma place_grown sep w ind : forall lines n pos d k, k < length lines ->
  nth k (spans sep (pos + d) (each_line n (grown w ind) lines)) (0, 0)
  = (fst (nth k (spans sep pos lines) (0, 0)) + d + length ind * count_before w n k,
     snd (nth k (spans sep pos lines) (0, 0)) + d + length ind * count_before w n (S k)).
Proof.
  induction lines as [|l lines IH]; intros n pos d k Hk; [cbn in Hk; lia|]. cbn [each_line spans]. destruct k as [|k].
  - cbn [nth fst snd]. unfold count_before. cbn [seq filter length]. unfold grown. destruct (w n); cbn [length]; rewrite ?app_length; f_equal; lia.
  - cbn [nth]. cbn [length] in Hk. unfold grown at 1.
    match goal with |- context [spans sep ?x (each_line _ _ _)] =>
      replace x with (pos + length l + length sep + (d + length ind * (if w n then 1 else 0))) by (destruct (w n); rewrite ?app_length; lia) end.
    rewrite IH by lia.
    assert (C : forall j, count_before w n (S j) = (if w n then 1 else 0) + count_before w (S n) j).
    { intros j. unfold count_before. cbn [seq filter]. destruct (w n); reflexivity. }
    rewrite !C, !Nat.mul_add_distr_l. f_equal; lia.
Qed.

(** ** The pending changes *)

Definition set_of (c : change) : mop := set_piece (g_start c) (g_end c) (g_text c).
Fixpoint rising (b : nat) (cs : list change) : Prop :=   (* starts go up *)
  match cs with [] => True | c :: cs => b <= g_start c /\ g_start c <= g_end c /\ rising (S (g_start c)) cs end.
Definition to_dict (cs : list change) : dict := map (fun c => (g_start c, [(g_end c, g_text c)])) cs.

Lemma dict_add_new s e t : forall d, (forall k, In k (map fst d) -> k < s) -> dict_add s e t d = d ++ [(s, [(e, t)])].
Proof.
  induction d as [|[k l] d IH]; intros H; [reflexivity|]. cbn [dict_add]. pose proof (H k (or_introl eq_refl)).
  replace (k =? s) with false by lia. cbn [app]. f_equal. apply IH. intros j Hj. apply H. right. exact Hj.
Qed.

Lemma run_rising text : forall cs pre b, (forall c, In c pre -> g_start c < b) -> rising b cs ->
  (forall c, In c cs -> g_end c <= length text /\ does_something text c = true) ->
  m_pend (fst (m_run (MState text 1 (to_dict pre)) (map set_of cs))) = to_dict (pre ++ cs).
Proof.
  induction cs as [|c cs IH]; intros pre b Hp Hr Hc; [rewrite app_nil_r; reflexivity|]. destruct Hr as (R1 & R2 & R3).
  destruct (Hc c (or_introl eq_refl)) as [C1 C2]. cbn [map m_run m_op]. unfold set_of at 1, set_piece. cbn [m_op]. unfold m_setitem. cbn [m_text m_ctx m_pend].
  rewrite parse_key_span. unfold key_span. replace (Z.of_nat (g_start c) <? 0)%Z with false by lia. replace (Z.of_nat (g_end c) <? 0)%Z with false by lia.
  replace (Z.to_nat (Z.min (Z.max 0 (Z.of_nat (g_start c))) (Z.of_nat (length text)))) with (g_start c) by lia.
  replace (Nat.max (g_start c) (Z.to_nat (Z.min (Z.max 0 (Z.of_nat (g_end c))) (Z.of_nat (length text))))) with (g_end c) by lia.
  assert (E : Change (g_start c) (g_end c) (g_text c) = c) by (destruct c; reflexivity). rewrite E.
  rewrite (effective_does text c); [|split; assumption]. rewrite C2. cbn [Nat.eqb].
  rewrite dict_add_new.
  - change (to_dict pre ++ [(g_start c, [(g_end c, g_text c)])]) with (to_dict pre ++ to_dict [c]).
    unfold to_dict at 1 2. rewrite <- map_app. fold (to_dict (pre ++ [c])).
    assert (IH' := IH (pre ++ [c]) (S (g_start c))). rewrite <- app_assoc in IH'. cbn [app] in IH'. rewrite <- IH'.
    + destruct (m_run _ _). reflexivity.
    + intros d Hd. apply in_app_iff in Hd as [Hd|[<-|[]]]; [specialize (Hp d Hd)|]; lia.
    + exact R3.
    + intros d Hd. apply Hc. right. exact Hd.
  - intros k Hk. unfold to_dict in Hk. rewrite map_map in Hk. apply in_map_iff in Hk as (d & <- & Hd). cbn [fst]. specialize (Hp d Hd). lia.
Qed.

Lemma rising_in : forall cs b c, rising b cs -> In c cs -> b <= g_start c.
Proof.
  induction cs as [|c cs IH]; intros b d H Hd; [destruct Hd|]. destruct H as (H1 & H2 & H3). destruct Hd as [<-|Hd]; [exact H1|].
  specialize (IH _ _ H3 Hd). lia.
Qed.

Lemma sort_rising : forall cs b, rising b cs -> sort_dict (to_dict cs) = to_dict cs.
Proof.
  induction cs as [|c cs IH]; intros b H; [reflexivity|]. destruct H as (H1 & H2 & H3). cbn [to_dict map sort_dict]. fold (to_dict cs).
  rewrite (IH _ H3). destruct cs as [|d cs]; [reflexivity|]. cbn [to_dict map insert_key fst]. destruct H3 as (H3 & _).
  replace (g_start c <=? g_start d) with true by lia. reflexivity.
Qed.

Lemma get_changes_rising cs : ordered 0 cs -> rising 0 cs -> get_changes (to_dict cs) = Some cs.
Proof.
  intros Ho Hr. unfold get_changes. rewrite (sort_rising cs 0 Hr). destruct cs as [|c cs]; [reflexivity|]. cbn [to_dict map]. fold (to_dict cs).
  assert (G : forall cs t, ordered t cs -> get_changes_from t (to_dict cs) = Some cs).
  { clear. induction cs as [|c cs IH]; intros t H; [reflexivity|]. destruct H as (H1 & H2 & H3). cbn [to_dict map get_changes_from fst snd list_max fold_right].
    fold (to_dict cs). replace (g_start c <? t) with false by lia. cbn [concat]. rewrite Nat.max_0_r, app_nil_r, (IH _ H3). destruct c; reflexivity. }
  apply (G (c :: cs) (g_start c)). destruct Ho as (O1 & O2 & O3). cbn [ordered]. auto.
Qed.

Lemma pending_changes_ok text cs : ordered 0 cs -> rising 0 cs ->
  (forall c, In c cs -> g_end c <= length text /\ does_something text c = true) ->
  pending_changes text (map set_of cs) = cs.
Proof.
  intros Ho Hr Hc. unfold pending_changes. cbn [m_run m_op]. unfold m_enter. cbn [m_text m_ctx m_pend].
  pose proof (run_rising text cs [] 0 ltac:(intros c []) Hr Hc) as H. cbn [to_dict map app] in H.
  destruct (m_run (MState text 1 []) (map set_of cs)) as [s' outs]. cbn [fst] in *. rewrite H. fold (to_dict cs). rewrite get_changes_rising by assumption. reflexivity.
Qed.

(** ** Insertions move a cursor *)

Definition ins (ind : str) (p : nat) : change := Change p p ind.

Lemma insertions_end ind pos : forall ps e, (forall p, In p ps -> pos <= p <= e) ->
  update_loop (map (ins ind) ps) 0 [Cursor pos (Some e)] = [Cursor pos (Some (e + length ind * length ps))].
Proof.
  induction ps as [|p ps IH]; intros e H; [cbn [map update_loop length]; do 3 f_equal; lia|]. cbn [map update_loop skipn firstn].
  destruct (H p (or_introl eq_refl)) as [H1 H2].
  assert (E : update_cursor (ins ind p) (Cursor pos (Some e)) = (Cursor pos (Some (e + length ind)), false)).
  { unfold update_cursor, ins. cbn [g_start g_end g_text c_pos c_end]. replace (p <? pos) with false by lia. replace (p <=? e) with true by lia.
    do 3 f_equal. destruct (e <=? p) eqn:E; lia. }
  rewrite E. cbn [filter snd length map fst app Nat.add].
  rewrite IH; [do 3 f_equal; cbn [length]; lia|]. intros q Hq. destruct (H q (or_intror Hq)). lia.
Qed.

Lemma insertions_open ind pos : forall ps i, (forall p, In p ps -> pos <= p) ->
  update_loop (map (ins ind) ps) i [Cursor pos None] = [Cursor pos None].
Proof.
  induction ps as [|p ps IH]; intros i H; [reflexivity|]. cbn [map update_loop].
  assert (E : firstn i [Cursor pos None] ++ map fst (map (update_cursor (ins ind p)) (skipn i [Cursor pos None])) = [Cursor pos None]).
  { destruct i as [|i].
    - cbn [firstn skipn map app]. unfold update_cursor, ins. cbn [g_start g_end c_pos c_end fst]. pose proof (H p (or_introl eq_refl)).
      replace (p <? pos) with false by lia. reflexivity.
    - destruct i; reflexivity. }
  rewrite E. apply IH. intros q Hq. apply H. right. exact Hq.
Qed.

Lemma insertion_one ind p pos e : p <= pos -> match e with Some e => pos <= e | None => True end ->
  update_loop (map (ins ind) [p]) 0 [Cursor pos e]
  = [Cursor (if p <? pos then pos + length ind else pos) (option_map (fun e => e + length ind) e)].
Proof.
  intros H1 H2. cbn [map update_loop skipn firstn app]. unfold update_cursor, ins. cbn [g_start g_end g_text c_pos c_end].
  destruct e as [e|]; cbn [fst option_map map].
  - replace (p <=? e) with true by lia. cbn [fst]. f_equal. f_equal.
    + destruct (p <? pos) eqn:E; [|reflexivity]. replace (pos <=? p) with false by lia. lia.
    + f_equal. destruct (e <=? p) eqn:E; lia.
  - f_equal. f_equal. destruct (p <? pos) eqn:E; [|reflexivity]. replace (pos <=? p) with false by lia. lia.
Qed.

(** ** The cursor after making the indent larger *)

Lemma spans_length sep : forall lines pos, length (spans sep pos lines) = length lines.
Proof. induction lines as [|l lines IH]; intros pos; [reflexivity|]. cbn [spans length]. rewrite IH. reflexivity. Qed.

Lemma spans_places sep lines : spans sep 0 lines = map (place sep lines) (seq 0 (length lines)).
Proof.
  apply (nth_ext _ _ (0, 0) (place sep lines 0)).
  - rewrite map_length, seq_length. apply spans_length.
  - intros k Hk. rewrite spans_length in Hk. rewrite map_nth, seq_nth by exact Hk. reflexivity.
Qed.

Lemma place_span sep lines k : k < length lines -> In (place sep lines k) (spans sep 0 lines).
Proof. intros H. apply nth_In. rewrite spans_length. exact H. Qed.

Lemma place_order sep lines k : k < length lines -> fst (place sep lines k) <= snd (place sep lines k).
Proof. intros H. apply place_span with (sep := sep) in H. apply spans_after in H. lia. Qed.

Lemma place_bound sep lines k : k < length lines -> snd (place sep lines k) <= length (join sep lines).
Proof.
  unfold place. enough (G : forall lines pos k, k < length lines -> snd (nth k (spans sep pos lines) (0, 0)) <= pos + length (join sep lines)) by apply (G lines 0 k).
  clear. induction lines as [|l lines IH]; intros pos k Hk; [cbn in Hk; lia|]. cbn [spans length] in *. destruct k as [|k]; cbn [nth snd].
  - apply Nat.add_le_mono_l, join_length_first.
  - specialize (IH (pos + length l + length sep) k ltac:(lia)). cbn [join]. destruct lines as [|y lines]; [cbn in Hk; lia|].
    rewrite !app_length. lia.
Qed.

Lemma place_last sep lines j : S j = length lines -> snd (place sep lines j) = length (join sep lines).
Proof.
  unfold place. enough (G : forall lines pos j, S j = length lines -> snd (nth j (spans sep pos lines) (0, 0)) = pos + length (join sep lines)) by apply (G lines 0 j).
  clear. induction lines as [|l lines IH]; intros pos j Hj; [discriminate|]. cbn [spans]. destruct j as [|j].
  - destruct lines; [reflexivity|discriminate].
  - cbn [nth]. injection Hj as Hj. rewrite IH by exact Hj. destruct lines as [|y lines]; [discriminate|]. cbn [join]. rewrite !app_length. lia.
Qed.

Lemma cursor_eta ind ps c : update_loop (map (ins ind) ps) 0 [c] = update_loop (map (ins ind) ps) 0 [Cursor (c_pos c) (c_end c)].
Proof. destruct c; reflexivity. Qed.

Section Cursor.
Variables (text sep : str) (space : nat -> bool) (ind : str) (events : nat * nat -> list str -> list event) (lines : list str) (c : cursor).
Hypotheses (Hno : no_overlap sep) (Hl : is_lines text sep lines) (Hc : c_pos c <= length text) (Hind : ind <> []).
Notation at_ k := (place sep lines k).
Definition w (k : nat) : bool := selects sep c (at_ k) && may_indent (events (at_ k) []).
Definition starts : list nat := map (fun k => fst (at_ k)) (filter w (seq 0 (length lines))).

Lemma sep_pos : 0 < length sep.
Proof. destruct Hno as [H _]. destruct sep; [congruence|cbn; lia]. Qed.

Lemma increase_ops_ok : increase_ops text sep space ind events c = map set_of (map (ins ind) starts).
Proof.
  unfold increase_ops, starts. rewrite (cursor_blocks_ok text sep lines c Hno Hl Hc), spans_places.
  generalize (seq 0 (length lines)) as ks. induction ks as [|k ks IH]; [reflexivity|]. cbn [map filter].
  unfold w at 1. destruct (selects sep c (at_ k)); cbn [andb flat_map]; [|exact IH]. rewrite info_allow.
  destruct (may_indent _); cbn [map app]; [|exact IH]. f_equal. exact IH.
Qed.

Lemma starts_rising : ordered 0 (map (ins ind) starts) /\ rising 0 (map (ins ind) starts).
Proof.
  unfold starts. pose proof sep_pos as Hs.
  assert (G : forall m n b, n + m <= length lines -> (forall k, n <= k < length lines -> b <= fst (at_ k)) ->
    ordered b (map (ins ind) (map (fun k => fst (at_ k)) (filter w (seq n m)))) /\ rising b (map (ins ind) (map (fun k => fst (at_ k)) (filter w (seq n m))))).
  { induction m as [|m IH]; intros n b Hn Hb; [split; exact I|]. cbn [seq filter]. destruct (w n).
    - cbn [map ordered rising]. pose proof (Hb n ltac:(lia)) as Hbn. cbn [ins g_start g_end].
      destruct (IH (S n) (S (fst (at_ n)))) as [I1 I2]; [lia| |].
      + intros k Hk. pose proof (place_later sep lines n k ltac:(lia) ltac:(lia)). pose proof (place_order sep lines n ltac:(lia)). lia.
      + split; (split; [lia|]; split; [lia|]); [|exact I2]. apply (ordered_weaken _ _ _ I1). lia.
    - apply IH; [lia|]. intros k Hk. apply Hb. lia. }
  apply G; lia.
Qed.

Lemma starts_in p : In p starts -> exists k, k < length lines /\ w k = true /\ p = fst (at_ k).
Proof.
  intros H. apply in_map_iff in H as (k & <- & Hk). apply filter_In in Hk as [H1 H2]. apply in_seq in H1. exists k. split; [lia|auto].
Qed.

Lemma cursor_after_ok : cursor_after text (increase_ops text sep space ind events c) c
  = match update_loop (map (ins ind) starts) 0 [c] with x :: _ => x | [] => c end.
Proof.
  unfold cursor_after. rewrite increase_ops_ok, pending_changes_ok; [reflexivity|apply starts_rising|apply starts_rising|].
  intros x Hx. apply in_map_iff in Hx as (p & <- & Hp). apply starts_in in Hp as (k & Hk & _ & ->). cbn [ins g_end]. split.
  - destruct Hl as (<- & _). pose proof (place_bound sep lines k Hk). pose proof (place_order sep lines k Hk). lia.
  - unfold does_something. cbn [ins g_start g_end g_text]. rewrite slice_nil by lia. destruct ind; [congruence|reflexivity].
Qed.

Lemma starts_count : length starts = count_before w 0 (length lines).
Proof. unfold starts. rewrite map_length. reflexivity. Qed.

Definition lines1 : list str := each_line 0 (grown w ind) lines.

Lemma place1 k : k < length lines -> place sep lines1 k
  = (fst (at_ k) + length ind * count_before w 0 k, snd (at_ k) + length ind * count_before w 0 (S k)).
Proof.
  intros Hk. unfold place at 1, lines1. pose proof (place_grown sep w ind lines 0 0 0 k Hk) as H. cbn [Nat.add] in H. rewrite H.
  fold (at_ k). f_equal; lia.
Qed.

Lemma selects_place k : selects sep c (at_ k) = true <->
  c_pos c < snd (at_ k) + length sep /\ (fst (at_ k) <= c_pos c \/ match c_end c with Some e => fst (at_ k) < e | None => True end).
Proof. unfold selects. destruct (c_end c); lia. Qed.

Lemma same_selection : simple_cursor sep lines c ->
  let c1 := cursor_after text (increase_ops text sep space ind events c) c in
  c_pos c1 <= length (join sep lines1)
  /\ forall k, k < length lines -> selects sep c1 (place sep lines1 k) = selects sep c (at_ k).
Proof.
  intros [He Hsimple]. cbv zeta. rewrite cursor_after_ok. pose proof sep_pos as Hs.
  assert (Hw : forall k, w k = true -> selects sep c (at_ k) = true) by (intros k H; apply andb_prop in H; tauto).
  assert (Hlen : exists j, j < length lines).
  { destruct Hl as (_ & Hne & _). destruct lines; [congruence|]. exists 0. cbn. lia. }
  assert (Hbound : forall k n, k < length lines -> n <= snd (place sep lines1 k) -> n <= length (join sep lines1)).
  { intros k n Hk Hn. pose proof (place_bound sep lines1 k) as B. unfold lines1 in B at 1. rewrite each_line_length in B. specialize (B Hk). lia. }
  destruct Hsimple as [(j & Hj & Ej)|Hone].
  - (* at the start of a line *)
    assert (Hbefore : forall k, k < j -> w k = false).
    { intros k Hk. destruct (w k) eqn:E; [|reflexivity]. apply Hw in E. apply selects_place in E as [E _].
      pose proof (place_later sep lines k j Hk Hj). lia. }
    assert (Hafter : forall p, In p starts -> c_pos c <= p).
    { intros p Hp. apply starts_in in Hp as (k & Hk & Hwk & ->). destruct (Nat.lt_trichotomy k j) as [H|[->|H]]; [rewrite Hbefore in Hwk by exact H; discriminate|lia|].
      pose proof (place_later sep lines j k H Hk). pose proof (place_order sep lines j Hj). lia. }
    set (c1 := Cursor (c_pos c) (option_map (fun e => e + length ind * count_before w 0 (length lines)) (c_end c))).
    assert (Eu : update_loop (map (ins ind) starts) 0 [c] = [c1]).
    { unfold c1. rewrite <- starts_count. rewrite cursor_eta. destruct (c_end c) as [e|] eqn:Ece; cbn [option_map].
      - apply insertions_end. intros p Hp. split; [apply Hafter; exact Hp|]. apply starts_in in Hp as (k & Hk & Hwk & ->).
        apply Hw, selects_place in Hwk as [_ Hwk]. rewrite Ece in Hwk. lia.
      - apply insertions_open. exact Hafter. }
    rewrite Eu. assert (Hcnt : forall k, k <= j -> count_before w 0 k = 0) by (intros k Hk; apply count_none; intros i Hi; apply Hbefore; lia).
    split.
    + apply (Hbound j _ Hj). rewrite place1 by exact Hj. cbn [snd c1 c_pos]. pose proof (place_order sep lines j Hj). lia.
    + intros k Hk. rewrite place1 by exact Hk. unfold selects at 1, c1. cbn [fst snd c_pos c_end].
      destruct (Nat.lt_trichotomy k j) as [H|[->|H]].
      * rewrite !Hcnt by lia. unfold selects. pose proof (place_later sep lines k j H Hj).
        replace (c_pos c <? snd (at_ k) + length sep) with false by lia.
        replace (c_pos c <? snd (at_ k) + length ind * 0 + length sep) with false by lia. reflexivity.
      * rewrite (Hcnt j) by lia. unfold selects. pose proof (place_order sep lines j Hj).
        replace (c_pos c <? snd (at_ j) + length sep) with true by lia.
        replace (c_pos c <? snd (at_ j) + length ind * count_before w 0 (S j) + length sep) with true by lia.
        replace (fst (at_ j) + length ind * 0 <=? c_pos c) with true by lia. replace (fst (at_ j) <=? c_pos c) with true by lia. reflexivity.
      * pose proof (place_later sep lines j k H Hk). pose proof (place_order sep lines j Hj). pose proof (place_order sep lines k Hk).
        unfold selects. replace (c_pos c <? snd (at_ k) + length ind * count_before w 0 (S k) + length sep) with true by lia.
        replace (c_pos c <? snd (at_ k) + length sep) with true by lia.
        replace (fst (at_ k) + length ind * count_before w 0 k <=? c_pos c) with false by lia.
        replace (fst (at_ k) <=? c_pos c) with false by lia. cbn [andb orb]. destruct (c_end c) as [e|] eqn:Ece; [|reflexivity]. cbn [option_map].
        destruct (fst (at_ k) <? e) eqn:E.
        -- pose proof (count_mono w 0 k (length lines) ltac:(lia)). pose proof (Nat.mul_le_mono_l _ _ (length ind) H3). lia.
        -- rewrite (count_same w 0 k (length lines)); [lia|lia|]. intros i Hi. destruct (w i) eqn:Ew; [|reflexivity]. apply Hw, selects_place in Ew as [_ Ew]. rewrite Ece in Ew.
           assert (fst (at_ k) <= fst (at_ i)).
           { destruct (Nat.eq_dec i k) as [->|]; [lia|]. pose proof (place_later sep lines k i ltac:(lia) ltac:(lia)). lia. }
           lia.
  - (* one line *)
    assert (Hcase : starts = [] /\ (forall k, count_before w 0 k = 0 \/ length lines < k)
       \/ exists j, j < length lines /\ w j = true /\ starts = [fst (at_ j)] /\ forall k, k <= length lines -> count_before w 0 k = if j <? k then 1 else 0).
    { destruct (filter w (seq 0 (length lines))) as [|j rest] eqn:E.
      - left. unfold starts. rewrite E. split; [reflexivity|]. intros k. destruct (Nat.le_gt_cases k (length lines)); [left|right; lia].
        pose proof (count_mono w 0 k (length lines) H) as M. unfold count_before at 2 in M. rewrite E in M. cbn [length] in M. lia.
      - right. assert (Hjin : In j (filter w (seq 0 (length lines)))) by (rewrite E; left; reflexivity).
        apply filter_In in Hjin as [Hj1 Hj2]. apply in_seq in Hj1.
        assert (Hall : forall k, k < length lines -> w k = true -> k = j).
        { intros k Hk Hwk. apply Hone; [exact Hk|lia|apply Hw; exact Hwk|apply Hw; exact Hj2]. }
        assert (rest = []).
        { destruct rest as [|j2 rest]; [reflexivity|exfalso]. assert (Hn : NoDup (filter w (seq 0 (length lines)))) by apply NoDup_filter, seq_NoDup.
          rewrite E in Hn. inversion Hn as [|x y Hnin _]; subst. apply Hnin. left.
          assert (Hin2 : In j2 (filter w (seq 0 (length lines)))) by (rewrite E; right; left; reflexivity).
          apply filter_In in Hin2 as [Hi1 Hi2]. apply in_seq in Hi1. apply Hall; [lia|exact Hi2]. }
        subst rest. exists j. split; [lia|]. split; [exact Hj2|]. split; [unfold starts; rewrite E; reflexivity|].
        intros k Hk. destruct (j <? k) eqn:Ejk.
        + rewrite <- (count_same w 0 k (length lines) Hk); [unfold count_before; rewrite E; reflexivity|].
          intros i Hi. destruct (w i) eqn:Ew; [|reflexivity]. apply Hall in Ew; lia.
        + apply count_none. intros i Hi. destruct (w i) eqn:Ew; [|reflexivity]. apply Hall in Ew; lia. }
    destruct Hcase as [[Es Hz]|(j & Hj & Hwj & Es & Hcount)]; rewrite Es.
    + cbn [map update_loop]. assert (Ep : forall k, k < length lines -> place sep lines1 k = at_ k).
      { intros k Hk. rewrite place1 by exact Hk. destruct (Hz k) as [->|]; [|lia]. destruct (Hz (S k)) as [->|]; [|lia].
        rewrite Nat.mul_0_r, !Nat.add_0_r. symmetry. apply surjective_pairing. }
      split; [|intros k Hk; rewrite Ep by exact Hk; reflexivity].
      assert (El : lines1 = lines).
      { unfold lines1. rewrite <- (each_line_id lines 0) at 2. apply each_line_ext. intros k l Hk. unfold grown. cbn [plus].
        assert (Hlt : k < length lines) by (apply nth_error_Some; congruence).
        destruct (w k) eqn:Ew; [|reflexivity]. exfalso. destruct (Hz (S k)) as [Hz2|]; [|lia]. unfold count_before in Hz2.
        assert (Hi : In k (filter w (seq 0 (S k)))) by (apply filter_In; split; [apply in_seq; lia|exact Ew]).
        destruct (filter w (seq 0 (S k))); [destruct Hi|discriminate]. }
      rewrite El. destruct Hl as (-> & _). exact Hc.
    + pose proof (Hw j Hwj) as Hsel. pose proof Hsel as Hsel2. apply selects_place in Hsel2 as [S1 S2].
      assert (Hpj : fst (at_ j) <= c_pos c).
      { destruct S2 as [S2|S2]; [exact S2|]. destruct (C28_blocks_are_the_lines text sep lines Hno Hl) as (_ & _ & Hfb & _ & _).
        destruct (Hfb (c_pos c) Hc) as (k & [Hk _] & Hpos).
        assert (Hkl : k < length lines) by (rewrite <- (spans_length sep lines 0); apply nth_error_Some; congruence).
        assert (Ek : at_ k = (b_pos (find_block text sep (c_pos c)), b_end (find_block text sep (c_pos c)))) by (unfold place; apply nth_error_nth; exact Hk).
        assert (Hsk : selects sep c (at_ k) = true) by (apply selects_place; rewrite Ek; cbn [fst snd]; lia).
        rewrite (Hone j k Hj Hkl Hsel Hsk). rewrite Ek. cbn [fst]. lia. }
      assert (Eu : update_loop (map (ins ind) [fst (at_ j)]) 0 [c]
        = [Cursor (if fst (at_ j) <? c_pos c then c_pos c + length ind else c_pos c) (option_map (fun e => e + length ind) (c_end c))]).
      { rewrite cursor_eta. apply insertion_one; assumption. }
      rewrite Eu. split.
      * destruct Hl as (Ej & _). destruct (Nat.eq_dec (S j) (length lines)) as [Hlast|Hlast].
        -- apply (Hbound j _ Hj). rewrite place1 by exact Hj. cbn [snd c_pos]. rewrite (Hcount (S j)) by lia. replace (j <? S j) with true by lia.
           assert (Hend : snd (at_ j) = length text).
           { rewrite <- Ej. apply place_last. exact Hlast. }
           destruct (fst (at_ j) <? c_pos c); lia.
        -- apply (Hbound (S j)); [lia|]. rewrite place1 by lia. cbn [snd c_pos]. rewrite (Hcount (S (S j))) by lia. replace (j <? S (S j)) with true by lia.
           pose proof (place_later sep lines j (S j) ltac:(lia) ltac:(lia)). pose proof (place_order sep lines (S j) ltac:(lia)).
           destruct (fst (at_ j) <? c_pos c); lia.
      * intros k Hk. rewrite place1 by exact Hk. rewrite !Hcount by lia.
        destruct (Nat.lt_trichotomy k j) as [H|[->|H]].
        -- replace (j <? k) with false by lia. replace (j <? S k) with false by lia. pose proof (place_later sep lines k j H Hj).
           unfold selects. cbn [fst snd c_pos c_end]. replace (c_pos c <? snd (at_ k) + length sep) with false by lia.
           replace ((if fst (at_ j) <? c_pos c then c_pos c + length ind else c_pos c) <? snd (at_ k) + length ind * 0 + length sep) with false
             by (destruct (fst (at_ j) <? c_pos c); lia). reflexivity.
        -- rewrite Hsel. replace (j <? j) with false by lia. replace (j <? S j) with true by lia. unfold selects. cbn [fst snd c_pos c_end].
           replace ((if fst (at_ j) <? c_pos c then c_pos c + length ind else c_pos c) <? snd (at_ j) + length ind * 1 + length sep) with true
             by (destruct (fst (at_ j) <? c_pos c); lia).
           replace (fst (at_ j) + length ind * 0 <=? (if fst (at_ j) <? c_pos c then c_pos c + length ind else c_pos c)) with true
             by (destruct (fst (at_ j) <? c_pos c); lia). reflexivity.
        -- replace (j <? k) with true by lia. replace (j <? S k) with true by lia.
           destruct (selects sep c (at_ k)) eqn:Esk; [pose proof (Hone k j Hk Hj Esk Hsel); lia|].
           pose proof (place_later sep lines j k H Hk). pose proof (place_order sep lines k Hk). unfold selects in *. cbn [fst snd c_pos c_end].
           destruct (fst (at_ j) <? c_pos c) eqn:E, (c_end c) as [e|]; cbn [option_map]; lia.
Qed.
End Cursor.

(** ** Larger and smaller again *)

Lemma no_current es l space : existsb is_current es = false -> indent_of space es l = if blank space l then [] else leading space l.
Proof.
  intros H. unfold indent_of. replace (flat_map current_of es) with (@nil str); [reflexivity|].
  induction es as [|e es IH]; [reflexivity|]. cbn [existsb] in H. apply orb_false_elim in H as [H1 H2]. cbn [flat_map]. rewrite <- IH by exact H2.
  destruct e; try reflexivity. discriminate.
Qed.

Lemma leading_app space ind l : all_space space ind -> leading space (ind ++ l) = ind ++ leading space l.
Proof. induction 1 as [|x ind Hx _ IH]; [reflexivity|]. cbn [app leading]. rewrite Hx, IH. reflexivity. Qed.

Lemma has_text_blank space l : has_text space l -> forall a, blank space (a ++ l) = false.
Proof.
  intros (x & Hx & Ex) a. unfold blank. rewrite forallb_app. apply andb_false_intro2. destruct (forallb space l) eqn:E; [|reflexivity].
  rewrite forallb_forall in E. rewrite (E x Hx) in Ex. discriminate.
Qed.

Lemma increase_decrease text sep space ind events events1 lines c :
  no_overlap sep -> is_lines text sep lines -> c_pos c <= length text -> simple_cursor sep lines c ->
  ind <> [] -> all_space space ind -> apart sep ind ->
  let text1 := increase_indent text sep space ind events c in
  let c1 := cursor_after text (increase_ops text sep space ind events c) c in
  let lines1 := each_line 0 (fun k l => if selects sep c (place sep lines k) && may_indent (events (place sep lines k) []) then ind ++ l else l) lines in
  (forall k l, nth_error lines k = Some l -> selects sep c (place sep lines k) = true ->
     may_indent (events1 (place sep lines1 k) []) = may_indent (events (place sep lines k) [])
     /\ (may_indent (events (place sep lines k) []) = true -> has_text space l)) ->
  (forall k, k < length lines -> existsb is_current (events1 (place sep lines1 k) []) = false) ->
  decrease_indent text1 sep space ind events1 c1 = text.
Proof.
  intros Hno Hl Hc Hs Hne Hsp Hap text1 c1 lines1 Hev Hcur.
  assert (E1 : text1 = join sep lines1) by (apply increase_ok; assumption).
  destruct (same_selection text sep space ind events lines c Hno Hl Hc Hne Hs) as [S1 S2].
  change (IndentMoreProofs.lines1 sep ind events lines c) with lines1 in S1, S2. fold c1 in S1, S2.
  assert (Hl1 : is_lines text1 sep lines1).
  { rewrite E1. apply (lines_each text); [exact Hl|]. intros k l _ Hk. destruct (_ && _); [|exact Hk]. intros H. apply Hk. apply (apart_contains sep ind); [apply Hno|exact Hap|exact H]. }
  assert (Hn : forall k l, nth_error lines1 k = Some l -> k < length lines).
  { intros k l Hk. assert (k < length lines1) by (apply nth_error_Some; congruence). unfold lines1 in H. rewrite each_line_length in H. exact H. }
  rewrite (decrease_ok text1 sep space ind events1 lines1 Hno Hl1).
  - destruct Hl as (<- & _). f_equal. rewrite <- (each_line_id lines 0).
    transitivity (each_line 0 (fun k l1 => if selects sep c (place sep lines k) && may_indent (events1 (place sep lines1 k) [])
                     then skipn (length (less ind (indent_of space (events1 (place sep lines1 k) []) l1))) l1 else l1) lines1).
    + apply each_line_ext. intros k l Hk. cbn [plus]. rewrite (S2 k (Hn k l Hk)). reflexivity.
    + unfold lines1 at 3. rewrite each_line_each. apply each_line_ext. intros k l Hk. cbn [plus].
      destruct (selects sep c (place sep lines k)) eqn:Es; cbn [andb]; [|reflexivity]. destruct (Hev k l Hk Es) as [H1 H2]. rewrite H1.
      destruct (may_indent (events (place sep lines k) [])); [|reflexivity].
      rewrite no_current by (apply Hcur; apply nth_error_Some; congruence). rewrite (has_text_blank space l (H2 eq_refl)), (leading_app space ind l Hsp).
      unfold less. rewrite begins_app, skipn_app, skipn_all, Nat.sub_diag. reflexivity.
  - rewrite E1. exact S1.
  - intros k l Hk _. rewrite no_current by (apply Hcur; apply (Hn k l Hk)). destruct (blank space l); [cbn; lia|apply leading_length].
Qed.

Lemma rstrip_idem strippable l l' : stripped strippable l l' -> py_rstrip strippable l' = l'.
Proof.
  intros (tail & _ & _ & H). unfold py_rstrip. destruct l' as [|x a _] using rev_ind; [reflexivity|].
  rewrite rev_app_distr. cbn [rev app py_lstrip]. rewrite (H a x eq_refl). change (x :: rev a) with (rev [x] ++ rev a).
  rewrite <- rev_app_distr, rev_involutive. reflexivity.
Qed.
