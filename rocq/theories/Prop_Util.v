(** C33, C34, C36, C71: ranges, splitting a list, byte order marks, unrolling. *)
From Verif Require Import Base UtilModel UtilSpec UtilProofs.

(** C33: for ranges that are in order and overlap a window that is not empty, clipping to the window and merging gives
    ranges that are in order, not empty and inside the window, no two of which could have been one; inside the window every
    position has the same value, and outside of it none. *)
Theorem C33_merge_clip : forall (R : Type) (eqb : R -> R -> bool) (l : list (item R)) (start : nat) (end_ : option nat),
  (forall a b, eqb a b = true <-> a = b) -> (forall e, end_ = Some e -> start < e) -> ordered l -> Forall (overlaps start end_) l ->
  let out := merge_adjacent eqb (fix_boundaries l start end_) in
  ordered out /\ Forall (inside start end_) out /\ no_mergeable out
  /\ (forall p, in_window start end_ p -> cover out p = cover l p)
  /\ (forall p, ~ in_window start end_ p -> cover out p = None).
Proof.
  intros R eqb l start end_ Heq Hw Ho Hf. cbv zeta. rewrite fix_boundaries_clip by assumption.
  pose proof (clip_ordered start end_ l Hw Ho Hf) as Hc.
  assert (Hin : forall j, In j (map (clip start end_) l) -> inside start end_ j).
  { intros j Hj. apply in_map_iff in Hj as (i & <- & Hi). apply clip_inside. rewrite Forall_forall in Hf. apply Hf. exact Hi. }
  assert (Hm : let out := merge_adjacent eqb (map (clip start end_) l) in
    ordered out /\ Forall (inside start end_) out /\ no_mergeable out /\ forall p, cover out p = cover (map (clip start end_) l) p).
  { destruct (map (clip start end_) l) as [|[pos e r] l'] eqn:El; [repeat split; constructor|]. cbn [merge_adjacent]. cbv zeta.
    destruct (merge_ok eqb Heq l' pos e r Hc) as (A1 & A2 & A3 & _ & A5 & A6). split; [exact A1|]. split; [|auto].
    apply Forall_forall. intros j Hj. specialize (A6 j Hj). split.
    - destruct (Hin (Item pos e r) (or_introl eq_refl)) as [K _]. cbn [i_pos] in K. lia.
    - destruct end_ as [x|]; [|exact I]. apply (A5 x); [|exact Hj]. intros k Hk. apply (Hin k Hk). }
  cbv zeta in Hm. destruct Hm as (M1 & M2 & M3 & M4). split; [exact M1|]. split; [exact M2|]. split; [exact M3|].
  split; intros p Hp; rewrite M4, clip_cover; unfold in_window in Hp.
  - replace (start <=? p) with true by (symmetry; apply Nat.leb_le; lia). destruct end_ as [x|]; [|reflexivity].
    replace (p <? x) with true by (symmetry; apply Nat.ltb_lt; lia). reflexivity.
  - destruct (start <=? p) eqn:E1; [|reflexivity]. apply Nat.leb_le in E1. destruct end_ as [x|]; [|exfalso; apply Hp; auto].
    destruct (p <? x) eqn:E2; [|reflexivity]. apply Nat.ltb_lt in E2. exfalso. apply Hp. auto.
Qed.
Print Assumptions C33_merge_clip.

Example C33_example :
  let l := [Item 2 5 7; Item 5 8 7; Item 9 12 7; Item 12 15 6] in
  ordered l /\ Forall (overlaps 3 (Some 14)) l
  /\ merge_adjacent Nat.eqb (fix_boundaries l 3 (Some 14)) = [Item 3 8 7; Item 9 12 7; Item 12 14 6].
Proof.
  cbv zeta. split; [|split; [repeat constructor; cbn; lia|reflexivity]].
  cbn [ordered i_pos i_end]. repeat match goal with |- _ /\ _ => split end; try lia; try exact I; intros j Hj; cbn [In] in Hj;
    repeat destruct Hj as [<-|Hj]; cbn [i_pos]; try lia; destruct Hj.
Qed.

(** C34: splitting a list. *)
Theorem C34_split_list : forall (A : Type) (eqb : A -> A -> bool) (l : list A) (sep : A), (forall a b, eqb a b = true <-> a = b) ->
  exists ls, split_list eqb l sep = Some ls /\ join_with sep ls = l /\ Forall (fun x => ~ In sep x) ls /\ ls <> [].
Proof.
  intros A eqb l sep Heq. destruct (split_ok eqb Heq sep (S (length l)) [] l ltac:(lia)) as (ls & H1 & H2 & H3 & H4). exists ls. auto.
Qed.
Print Assumptions C34_split_list.

(** Which pieces these are is determined. *)
Theorem C34_unique : forall (A : Type) (sep : A) (ls ls' : list (list A)),
  ls <> [] -> ls' <> [] -> Forall (fun x => ~ In sep x) ls -> Forall (fun x => ~ In sep x) ls' ->
  join_with sep ls = join_with sep ls' -> ls = ls'.
Proof.
  intros A sep. assert (Hsplit : forall (x y a b : list A), ~ In sep x -> ~ In sep y -> x ++ sep :: a = y ++ sep :: b -> x = y /\ a = b).
  { induction x as [|u x IH]; intros [|v y] a b Hx Hy H; cbn [app] in H.
    - injection H as ->. auto.
    - injection H as -> _. exfalso. apply Hy. left; reflexivity.
    - injection H as -> _. exfalso. apply Hx. left; reflexivity.
    - injection H as -> H. destruct (IH y a b) as [-> ->]; [firstorder|firstorder|exact H|auto]. }
  induction ls as [|x ls IH]; intros ls' H1 H2 F1 F2 E; [congruence|]. destruct ls' as [|y ls']; [congruence|].
  inversion F1 as [|? ? X1 X2]; subst. inversion F2 as [|? ? Y1 Y2]; subst. cbn [join_with] in E.
  destruct ls as [|x2 ls], ls' as [|y2 ls'].
  - congruence.
  - subst x. exfalso. apply X1. apply in_app_iff. right; left; reflexivity.
  - subst y. exfalso. apply Y1. apply in_app_iff. right; left; reflexivity.
  - destruct (Hsplit _ _ _ _ X1 Y1 E) as [-> E']. f_equal. apply IH; [discriminate|discriminate|exact X2|exact Y2|exact E'].
Qed.
Print Assumptions C34_unique.

Example C34_example : split_list Nat.eqb [0; 5; 6; 0; 0; 7] 0 = Some [[]; [5; 6]; []; [7]].
Proof. reflexivity. Qed.

(** C36 is false: the mark of UTF-32, little endian. Whatever follows, UTF-16 is returned, and two zero bytes are kept. *)
Theorem C36_refuted : forall data : list nat, get_bom_encoding (bom UTF32LE ++ data) = (Some UTF16LE, 0 :: 0 :: data).
Proof. reflexivity. Qed.
Print Assumptions C36_refuted.

(** Part of C36: the other encodings are recognised, and the data is what follows the mark. Data without a mark is not
    changed. *)
Theorem C36_partial :
  (forall e (data : list nat), e <> UTF32LE -> get_bom_encoding (bom e ++ data) = (Some e, data))
  /\ (forall data : list nat, (forall e rest, data <> bom e ++ rest) -> get_bom_encoding data = (None, data))
  /\ (forall (data data' : list nat) e, get_bom_encoding data = (Some e, data') -> data = bom e ++ data').
Proof.
  assert (Hst : forall (b data : list nat), startswith data b = true -> data = b ++ from data (length b)).
  { induction b as [|x b IH]; intros data H; [reflexivity|]. destruct data as [|y data]; [discriminate|]. cbn [startswith] in H.
    apply andb_true_iff in H as [H1 H2]. apply Nat.eqb_eq in H1. subst. cbn [app length]. unfold from in *. cbn [skipn]. f_equal. apply IH. exact H2. }
  split; [|split].
  - intros [] data H; try reflexivity. exfalso; apply H; reflexivity.
  - intros data H. unfold get_bom_encoding. destruct (find _ _) as [e|] eqn:E; [|reflexivity]. apply find_some in E as [_ E]. exfalso. apply (H e _ (Hst _ _ E)).
  - intros data data' e H. unfold get_bom_encoding in H. destruct (find _ _) as [e'|] eqn:E; [|discriminate]. injection H as <- <-. apply find_some in E as [_ E]. apply Hst. exact E.
Qed.
Print Assumptions C36_partial.

Example C36_example : get_bom_encoding [0; 0; 254; 255; 9] = (Some UTF32BE, [9]) /\ get_bom_encoding [7; 254; 255] = (None, [7; 254; 255]).
Proof. split; reflexivity. Qed.

(** C71: unroll yields the members of any nesting of tuples and lists, in order. *)
Theorem C71_unroll : forall (A : Type) (o : obj A), exists n, forall fuel, n <= fuel -> unroll fuel o = Some (flatten o).
Proof.
  intros A [a|l]; [exists 0; intros fuel _; reflexivity|]. exists (S (list_sum (map osize l))). intros fuel Hf. cbn [unroll].
  rewrite unroll_ok by (cbn; lia). cbn [flat_map flatten]. rewrite app_nil_r. reflexivity.
Qed.
Print Assumptions C71_unroll.

Example C71_example : unroll 20 (Seq [Atom 1; Seq [Seq []; Atom 2; Seq [Atom 3]]; Atom 4]) = Some [1; 2; 3; 4].
Proof. reflexivity. Qed.
