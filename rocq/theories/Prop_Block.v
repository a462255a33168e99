(** C28, C29: the blocks (lines) of a document. *)
From Verif Require Import Base BaseFacts BlockModel BlockSpec BlockProofs.
From Coq Require Import ZArith ZifyBool.

Lemma nth_error_ext {A} : forall (l l' : list A), (forall i, nth_error l i = nth_error l' i) -> l = l'.
Proof.
  induction l as [|x l IH]; intros [|y l'] H; [reflexivity|specialize (H 0); discriminate|specialize (H 0); discriminate|].
  pose proof (H 0) as H0. injection H0 as ->. f_equal. apply IH. intros i. apply (H (S i)).
Qed.

Lemma line_lines text sep lines : is_lines text sep lines -> no_overlap sep -> chain text sep 0 (spans sep 0 lines).
Proof.
  intros (H1 & H2 & H3) Hno. apply lines_chain; [exact Hno|lia|exact H2|exact H3|exact H1].
Qed.

(** Every text consists of lines, whatever the separator. *)
Theorem C28_every_text_has_lines : forall text sep, sep <> [] -> exists lines, is_lines text sep lines.
Proof.
  intros text sep Hs. destruct (chain_exists text sep Hs (length text) 0 ltac:(lia) ltac:(lia)) as (bs & Hc & _).
  destruct (chain_lines text sep Hs 0 bs Hc) as (H1 & H2 & H3 & H4). exists (map (piece text) bs).
  split; [exact H1|]. split; [destruct bs; [congruence|discriminate]|exact H3].
Qed.
Print Assumptions C28_every_text_has_lines.

Lemma lines_length sep lines : length (spans sep 0 lines) = length lines.
Proof. generalize 0 as p. induction lines as [|x lines IH]; intros p; [reflexivity|]. cbn [spans length]. rewrite IH. reflexivity. Qed.

Lemma spans_nth sep : forall lines q k p e, nth_error (spans sep q lines) k = Some (p, e) ->
  q <= p /\ exists x, nth_error lines k = Some x /\ e = p + length x
  /\ firstn (p - q) (join sep lines) = join sep (firstn k lines ++ [[]]).
Proof.
  induction lines as [|x lines IH]; intros q k p e H; [destruct k; discriminate|]. destruct k as [|k].
  - injection H as <- <-. split; [lia|]. exists x. split; [reflexivity|]. split; [reflexivity|]. rewrite Nat.sub_diag. reflexivity.
  - cbn [spans nth_error] in H. destruct (IH _ _ _ _ H) as (I1 & y & I2 & I3 & I4). split; [lia|]. exists y. split; [exact I2|]. split; [exact I3|].
    destruct lines as [|z lines]; [destruct k; discriminate|].
    change (join sep (x :: z :: lines)) with (x ++ sep ++ join sep (z :: lines)). cbn [firstn].
    assert (E : join sep ((x :: firstn k (z :: lines)) ++ [[]]) = x ++ sep ++ join sep (firstn k (z :: lines) ++ [[]])).
    { cbn [app]. destruct (firstn k (z :: lines) ++ [[]]) eqn:F; [destruct (firstn k (z :: lines)); discriminate|reflexivity]. }
    rewrite E, <- I4. rewrite !app_assoc. replace (p - q) with (length (x ++ sep) + (p - (q + length x + length sep))) by (rewrite app_length; lia).
    apply firstn_app_2.
Qed.

(** C28. For every text, every separator that cannot overlap itself, the blocks are the lines: *)
Theorem C28_blocks_are_the_lines : forall text sep lines, no_overlap sep -> is_lines text sep lines ->
  (* (1) iterating over all blocks gives the lines in order, with their places and numbers; *)
  map span (blocks text sep 0 None) = spans sep 0 lines
  /\ map (block_number text sep) (blocks text sep 0 None) = map Z.of_nat (seq 0 (length lines))
  (* (2) the block at a position is a line, or a line with the separator after it, the position is in; *)
  /\ (forall pos, pos <= length text -> exists k,
        is_block text sep lines k (find_block text sep pos)
        /\ b_pos (find_block text sep pos) <= pos < b_end (find_block text sep pos) + length sep)
  (* (3) the next and previous block are the next and previous line; *)
  /\ (forall k b, is_block text sep lines k b ->
        match next_block text sep b with
        | Some n => is_block text sep lines (S k) n
        | None => S k = length lines
        end
        /\ match previous_block text sep b with
           | Some n => exists j, k = S j /\ is_block text sep lines j n
           | None => k = 0
           end)
  (* (4) a range of blocks starts with the block at the first position, and contains those after it that start
     before the last position. *)
  /\ (forall start end_, start <= length text -> exists k,
        is_block text sep lines k (find_block text sep start)
        /\ map span (blocks text sep start (Some end_))
           = span (find_block text sep start) :: filter (fun b => fst b <? end_) (skipn (S k) (spans sep 0 lines))).
Proof.
  intros text sep lines Hno Hl. assert (Hs : sep <> []) by apply Hno. pose proof (line_lines text sep lines Hl Hno) as Hc.
  assert (N : forall k b, nth_error (spans sep 0 lines) k = Some (span b) -> right_number k b -> is_block text sep lines k b).
  { intros k b H1 [H2|H2]; (split; [exact H1|]); unfold block_number; rewrite H2; [|reflexivity]. f_equal.
    destruct b as [p e num]. cbn [b_pos] in *. destruct (spans_nth sep lines 0 k p e H1) as (_ & x & H3 & _ & H4).
    rewrite Nat.sub_0_r in H4. destruct Hl as (L1 & L2 & L3). rewrite <- L1, H4.
    assert (Hl2 : is_lines (join sep (firstn k lines ++ [[]])) sep (firstn k lines ++ [[]])).
    { split; [reflexivity|]. split; [destruct (firstn k lines); discriminate|]. apply Forall_app. split.
      - rewrite <- (firstn_skipn k lines) in L3. apply Forall_app in L3. apply L3.
      - constructor; [|constructor]. intros (u & v & E). destruct u; [|discriminate]. destruct sep; [congruence|discriminate]. }
    pose proof (count_ok _ sep Hs _ (line_lines _ _ _ Hl2 Hno)) as Hk. rewrite (lines_length sep), app_length, firstn_length in Hk.
    assert (k < length lines) by (apply nth_error_Some; congruence). cbn [length] in Hk. lia. }
  assert (B0 : nth_error (spans sep 0 lines) 0 = Some (span (find_block text sep 0))).
  { destruct (find_block_ok text sep Hs Hno _ Hc 0 ltac:(lia)) as (k & H1 & H2 & H3). destruct k as [|k]; [exact H1|]. exfalso.
    destruct (chain_nth text sep Hs _ _ _ _ _ Hc H1) as (_ & _ & _ & _ & p & _ & _ & H4). destruct Hno as [_ _].
    assert (0 < length sep) by (destruct sep; [congruence|cbn; lia]). lia. }
  split; [|split; [|split; [|split]]].
  - destruct (blocks_ok text sep Hs Hno _ Hc 0 None ltac:(lia)) as (k & H1 & H2 & _). rewrite H2.
    assert (k = 0) as -> .
    { destruct (find_block_ok text sep Hs Hno _ Hc 0 ltac:(lia)) as (k' & _ & H4 & _).
      apply (nth_unique text sep Hs _ Hc _ _ _ _ _ _ 0 H1 B0); exact H4. }
    destruct (spans sep 0 lines) as [|s ss]; [discriminate|]. injection B0 as ->. reflexivity.
  - destruct (blocks_ok text sep Hs Hno _ Hc 0 None ltac:(lia)) as (k & H1 & H2 & H3).
    assert (k = 0) as -> .
    { destruct (find_block_ok text sep Hs Hno _ Hc 0 ltac:(lia)) as (k' & _ & H4 & _).
      apply (nth_unique text sep Hs _ Hc _ _ _ _ _ _ 0 H1 B0); exact H4. }
    assert (H2' : map span (blocks text sep 0 None) = spans sep 0 lines).
    { rewrite H2. destruct (spans sep 0 lines) as [|s ss]; [discriminate|]. injection B0 as ->. reflexivity. }
    apply nth_error_ext. intros i. rewrite !nth_error_map. destruct (nth_error (blocks text sep 0 None) i) as [b|] eqn:E.
    + assert (Hi : nth_error (spans sep 0 lines) i = Some (span b)) by (rewrite <- H2', nth_error_map, E; reflexivity).
      destruct (N i b Hi (H3 i b E)) as [_ Hn]. cbn [option_map]. rewrite Hn.
      assert (i < length lines) by (rewrite <- (lines_length sep); apply nth_error_Some; congruence).
      rewrite nth_error_nth' with (d := 0) by (rewrite seq_length; lia). rewrite seq_nth by lia. reflexivity.
    + apply nth_error_None in E. rewrite <- (map_length span), H2', (lines_length sep) in E.
      rewrite (proj2 (nth_error_None (seq 0 (length lines)) i)); [reflexivity|]. rewrite seq_length. exact E.
  - intros pos Hp. destruct (find_block_ok text sep Hs Hno _ Hc pos Hp) as (k & H1 & H2 & H3). exists k. split; [apply N; assumption|exact H2].
  - intros k b [H1 H2]. assert (H3 : right_number k b).
    { unfold right_number. unfold block_number in H2. destruct (b_num b); [right; f_equal; exact H2|left; reflexivity]. }
    split.
    + pose proof (next_block_ok text sep Hs _ Hc k b H1 H3) as H. destruct (next_block text sep b) as [n|].
      * apply N; apply H.
      * rewrite H. apply lines_length.
    + pose proof (previous_block_ok text sep Hs Hno _ Hc k b H1 H3) as H. destruct (previous_block text sep b) as [n|]; [|exact H].
      destruct H as (j & -> & H4 & H5). exists j. split; [reflexivity|]. apply N; assumption.
  - intros start end_ Hst. destruct (blocks_ok text sep Hs Hno _ Hc start (Some end_) Hst) as (k & H1 & H2 & H3). exists k.
    split; [|exact H2]. apply N; [exact H1|]. replace k with (k + 0) by lia. apply H3. reflexivity.
Qed.
Print Assumptions C28_blocks_are_the_lines.

(** "ab|c||": four lines, with a separator of two characters. *)
Example C28_example :
  let text := [97; 98; 13; 10; 99; 13; 10; 13; 10] in let sep := [13; 10] in
  no_overlap sep /\ is_lines text sep [[97; 98]; [99]; []; []]
  /\ map span (blocks text sep 0 None) = [(0, 2); (4, 5); (7, 7); (9, 9)]
  /\ map span (blocks text sep 3 (Some 5)) = [(0, 2); (4, 5)]
  /\ span (find_block text sep 6) = (4, 5) /\ block_number text sep (find_block text sep 6) = 1%Z.
Proof.
  cbv zeta. split; [|split; [|repeat split; reflexivity]].
  - split; [discriminate|]. intros n Hn. cbn in Hn. assert (n = 1) as -> by lia. discriminate.
  - split; [reflexivity|]. split; [discriminate|]. repeat constructor; intros (u & v & E); apply (f_equal (fun x => existsb (Nat.eqb 13) x)) in E;
      rewrite !existsb_app in E; cbn in E; destruct (existsb _ u); discriminate.
Qed.

(** With a separator that can overlap itself, the blocks depend on how they are found: in "aaa" with separator
    "aa", the first block is followed by a block from 2 to 3, but the last block, found from position 3, also
    starts at 3; and no other iteration gives it. *)
Theorem C28_overlapping_separator_refuted :
  exists text sep pos, sep <> [] /\ pos <= length text
    /\ ~ In (span (find_block text sep pos)) (map span (blocks text sep 0 None)).
Proof.
  exists [97; 97; 97], [97; 97], 3. split; [discriminate|]. split; [cbn; lia|]. vm_compute. intros [H|[H|[]]]; discriminate.
Qed.
Print Assumptions C28_overlapping_separator_refuted.

(** C29. A block can be found by its number: counted from the first one, or from the last one with a negative
    number; there is none when there are not so many lines; and the number of blocks is the number of lines. *)
Theorem C29_blocks_by_number : forall text sep lines, no_overlap sep -> is_lines text sep lines ->
  block_count text sep = length lines
  /\ (forall k, k < length lines -> exists b, find_block_by_number text sep (Z.of_nat k) = Some b /\ is_block text sep lines k b)
  /\ (forall k, k < length lines -> exists b, find_block_by_number text sep (Z.of_nat k - Z.of_nat (length lines)) = Some b /\ is_block text sep lines k b)
  /\ (forall z, (z < - Z.of_nat (length lines) \/ Z.of_nat (length lines) <= z)%Z -> find_block_by_number text sep z = None).
Proof.
  intros text sep lines Hno Hl. assert (Hs : sep <> []) by apply Hno. pose proof (line_lines text sep lines Hl Hno) as Hc.
  pose proof (count_ok _ sep Hs _ Hc) as Hn. rewrite lines_length in Hn.
  assert (Hlen : 0 < length lines) by (destruct Hl as (_ & H & _); destruct lines; [congruence|cbn; lia]).
  set (bs := spans sep 0 lines) in *. assert (Hbl : length bs = length lines) by apply lines_length.
  assert (H0 : exists e, nth_error bs 0 = Some (0, e)).
  { destruct (chain_end _ _ Hs _ _ Hc) as (e & bs' & -> & _). exists e. reflexivity. }
  destruct H0 as (e0 & H0).
  assert (HL : exists p, nth_error bs (length lines - 1) = Some (p, length text)).
  { destruct (nth_error bs (length lines - 1)) as [[p e]|] eqn:E; [|apply nth_error_None in E; lia]. exists p.
    destruct (chain_nth _ _ Hs _ _ _ _ _ Hc E) as (_ & _ & _ & H & _).
    rewrite (proj2 (nth_error_None bs _)) in H by lia. subst e. reflexivity. }
  destruct HL as (pl & HL).
  assert (HF : forall n, number_forward text sep n 0 = nth_error bs n).
  { intros n. rewrite (number_forward_ok text sep Hs bs Hc n 0 0 e0 H0). reflexivity. }
  pose proof (fun n => number_backward_ok text sep Hs Hno bs Hc n _ _ _ HL) as HB.
  split; [unfold block_count; lia|]. split; [|split].
  - intros k Hk. destruct (nth_error bs k) as [[p e]|] eqn:E; [|apply nth_error_None in E; lia].
    exists (Block p e (Some (Z.of_nat k))). unfold find_block_by_number. replace (0 <=? Z.of_nat k)%Z with true by lia.
    rewrite Nat2Z.id, HF, E. split; [reflexivity|]. split; [exact E|reflexivity].
  - intros k Hk. destruct (nth_error bs k) as [[p e]|] eqn:E; [|apply nth_error_None in E; lia].
    exists (make_block p e). unfold find_block_by_number. replace (0 <=? _)%Z with false by lia.
    replace (Z.to_nat _) with (length lines - 1 - k) by lia. rewrite HB. replace (_ <=? _) with true by lia.
    replace (length lines - 1 - (length lines - 1 - k)) with k by lia. rewrite E. split; [reflexivity|].
    pose proof (make_block_number text sep Hs bs Hc k p e E) as R. split; [exact E|].
    destruct R as [R|R].
    + destruct (C28_blocks_are_the_lines text sep lines Hno Hl) as (_ & _ & B3 & _).
      destruct (chain_nth _ _ Hs _ _ _ _ _ Hc E) as (E1 & E2 & _).
      destruct (B3 p ltac:(lia)) as (k' & [K1 K2] & K3). unfold find_block in *.
      rewrite (start_of text sep Hs Hno bs Hc k p e p E) in * by (try lia; assert (0 < length sep) by (destruct sep; [congruence|cbn; lia]); lia).
      rewrite E1 in *. fold bs in K1. rewrite K2. f_equal. cbn [make_block b_pos b_end] in K1, K3.
      apply (nth_unique text sep Hs bs Hc _ _ _ _ _ _ p K1 E); lia.
    + unfold block_number. rewrite R. reflexivity.
  - intros z Hz. unfold find_block_by_number. destruct (0 <=? z)%Z eqn:Ez.
    + rewrite HF. rewrite (proj2 (nth_error_None bs _)) by lia. reflexivity.
    + rewrite HB. replace (_ <=? _) with false by lia. reflexivity.
Qed.
Print Assumptions C29_blocks_by_number.

Example C29_example :
  let text := [97; 98; 13; 10; 99; 13; 10; 13; 10] in let sep := [13; 10] in
  option_map span (find_block_by_number text sep 1) = Some (4, 5)
  /\ option_map span (find_block_by_number text sep (-2)) = Some (7, 7)
  /\ find_block_by_number text sep 4 = None /\ find_block_by_number text sep (-5) = None /\ block_count text sep = 4.
Proof. repeat split; reflexivity. Qed.
