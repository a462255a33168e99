(** C66, C67: stripping and extending the selection of a cursor. *)
From Verif Require Import Base BaseFacts MutableModel MutableSpec MutableProofs CursorModel BlockModel BlockSpec BlockProofs StripModel Prop_Edit Prop_Block.
From Coq Require Import ZArith ZifyBool.

Section Strip.
Variable doc : str.
Variable strippable : nat -> bool.

Let last_of (c : cursor) := match c_end c with None => length doc | Some e => Nat.min e (length doc) end.

Lemma cursor_text_slice c : cursor_text doc c = slice doc (c_pos c) (last_of c).
Proof.
  unfold cursor_text. rewrite C64_reading_a_piece. cbn [key_piece]. unfold key_span, last_of.
  replace (Z.of_nat (c_pos c) <? 0)%Z with false by lia.
  assert (E : forall p e, slice doc (Z.to_nat (Z.min (Z.max 0 (Z.of_nat p)) (Z.of_nat (length doc))))
     (Nat.max (Z.to_nat (Z.min (Z.max 0 (Z.of_nat p)) (Z.of_nat (length doc)))) (Z.to_nat (Z.min (Z.max 0 (Z.of_nat e)) (Z.of_nat (length doc)))))
     = slice doc p (Nat.min e (length doc))).
  { intros p e. replace (Z.to_nat (Z.min (Z.max 0 (Z.of_nat p)) (Z.of_nat (length doc)))) with (Nat.min p (length doc)) by lia.
    replace (Z.to_nat (Z.min (Z.max 0 (Z.of_nat e)) (Z.of_nat (length doc)))) with (Nat.min e (length doc)) by lia.
    destruct (Nat.le_gt_cases (Nat.min e (length doc)) (Nat.min p (length doc))) as [H|H].
    - rewrite !slice_nil by lia. reflexivity.
    - f_equal; lia. }
  destruct (c_end c) as [e|]; cbn [option_map].
  - replace (Z.of_nat e <? 0)%Z with false by lia. apply E.
  - replace (Z.of_nat (length doc) <? 0)%Z with false by lia. rewrite E. f_equal. lia.
Qed.

Lemma lstrip_split s : exists a, s = a ++ py_lstrip strippable s /\ Forall (fun x => strippable x = true) a
  /\ match py_lstrip strippable s with [] => True | x :: _ => strippable x = false end.
Proof.
  induction s as [|x s (a & E1 & E2 & E3)]; [exists []; repeat split; constructor|]. cbn [py_lstrip].
  destruct (strippable x) eqn:E; [|exists []; repeat split; [constructor|exact E]].
  exists (x :: a). split; [cbn [app]; congruence|]. split; [constructor; assumption|exact E3].
Qed.

Lemma rstrip_split s : exists a, s = py_rstrip strippable s ++ a /\ Forall (fun x => strippable x = true) a
  /\ forall b x, py_rstrip strippable s = b ++ [x] -> strippable x = false.
Proof.
  destruct (lstrip_split (rev s)) as (a & E1 & E2 & E3). exists (rev a). unfold py_rstrip. split; [|split].
  - rewrite <- rev_app_distr, <- E1, rev_involutive. reflexivity.
  - apply Forall_forall. intros x Hx. rewrite Forall_forall in E2. apply E2. apply in_rev. exact Hx.
  - intros b x Hb. apply (f_equal (@rev nat)) in Hb. rewrite rev_involutive, rev_app_distr in Hb. cbn [rev app] in Hb. rewrite Hb in E3. exact E3.
Qed.

Lemma lstrip_text c : cursor_text doc (cursor_lstrip doc strippable c) = py_lstrip strippable (cursor_text doc c).
Proof.
  unfold cursor_lstrip. pose proof (cursor_text_slice c) as Ec. destruct (lstrip_split (cursor_text doc c)) as (a & E1 & _).
  destruct (cursor_text doc c) as [|x s] eqn:Et; [cbn [py_lstrip]; exact Et|]. rewrite cursor_text_slice. unfold last_of. cbn [c_pos c_end]. fold (last_of c).
  set (t := x :: s) in *. pose proof (f_equal (@length nat) E1) as El. rewrite app_length in El.
  pose proof (f_equal (@length nat) Ec) as El2. rewrite slice_length in El2.
  assert (Hs : slice (slice doc (c_pos c) (last_of c)) (length a) (length t) = py_lstrip strippable t).
  { rewrite <- Ec. rewrite slice_from. rewrite E1 at 1. rewrite skipn_app, skipn_all, Nat.sub_diag. reflexivity. }
  assert (c_pos c <= last_of c /\ last_of c <= length doc).
  { unfold last_of in *. assert (0 < length t) by (unfold t; cbn; lia). destruct (c_end c); lia. }
  rewrite slice_slice in Hs by lia. etransitivity; [|exact Hs]. f_equal; lia.
Qed.

Lemma rstrip_text c : cursor_text doc (cursor_rstrip doc strippable c) = py_rstrip strippable (cursor_text doc c).
Proof.
  unfold cursor_rstrip. pose proof (cursor_text_slice c) as Ec. destruct (rstrip_split (cursor_text doc c)) as (a & E1 & _).
  destruct (cursor_text doc c) as [|x s] eqn:Et; [exact Et|]. set (t := x :: s) in *.
  pose proof (f_equal (@length nat) E1) as El. rewrite app_length in El.
  pose proof (f_equal (@length nat) Ec) as El2. rewrite slice_length in El2.
  destruct (0 <? length t - length (py_rstrip strippable t)) eqn:E.
  - set (e := match c_end c with None => _ | Some e => _ end). assert (He : e = last_of c).
    { unfold e, last_of. destruct (c_end c) as [z|]; [destruct (length doc <? z) eqn:Ez; lia|reflexivity]. }
    rewrite cursor_text_slice. unfold last_of at 1. cbn [c_pos c_end]. rewrite He.
    assert (c_pos c <= last_of c /\ last_of c <= length doc).
    { unfold last_of in *. assert (0 < length t) by (unfold t; cbn; lia). destruct (c_end c); lia. }
    assert (Hs : slice (slice doc (c_pos c) (last_of c)) 0 (length (py_rstrip strippable t)) = py_rstrip strippable t).
    { rewrite <- Ec, slice_0. rewrite E1 at 2. rewrite firstn_app, firstn_all, Nat.sub_diag. apply app_nil_r. }
    rewrite slice_slice in Hs by lia. etransitivity; [|exact Hs]. f_equal; lia.
  - assert (a = []) as -> by (apply length_zero_iff_nil; lia). rewrite app_nil_r in E1. rewrite Et. exact E1.
Qed.
End Strip.

(** C66. After [strip()] a cursor selects the text it selected without the strippable characters at both ends,
    [lstrip()] and [rstrip()] do this at one end, for every cursor, also one that reaches past the end of the text;
    and the selection only gets smaller. *)
Theorem C66_strip_selects_the_stripped_text :
  forall (doc : str) (strippable : nat -> bool) (c : cursor),
    let text := cursor_text doc c in
    (exists a, text = a ++ cursor_text doc (cursor_lstrip doc strippable c) /\ Forall (fun x => strippable x = true) a
       /\ forall x b, cursor_text doc (cursor_lstrip doc strippable c) = x :: b -> strippable x = false)
    /\ (exists a, text = cursor_text doc (cursor_rstrip doc strippable c) ++ a /\ Forall (fun x => strippable x = true) a
       /\ forall b x, cursor_text doc (cursor_rstrip doc strippable c) = b ++ [x] -> strippable x = false)
    /\ (exists a b, text = a ++ cursor_text doc (cursor_strip doc strippable c) ++ b /\ Forall (fun x => strippable x = true) (a ++ b)
       /\ (forall x r, cursor_text doc (cursor_strip doc strippable c) = x :: r -> strippable x = false)
       /\ (forall r x, cursor_text doc (cursor_strip doc strippable c) = r ++ [x] -> strippable x = false)).
Proof.
  intros doc strippable c text. split; [|split].
  - rewrite lstrip_text. destruct (lstrip_split strippable text) as (a & E1 & E2 & E3). exists a. split; [exact E1|]. split; [exact E2|].
    intros x b E. unfold text in E3. rewrite E in E3. exact E3.
  - rewrite rstrip_text. exact (rstrip_split strippable text).
  - unfold cursor_strip. rewrite lstrip_text, rstrip_text. fold text. destruct (rstrip_split strippable text) as (b & B1 & B2 & B3).
    destruct (lstrip_split strippable (py_rstrip strippable text)) as (a & A1 & A2 & A3). exists a, b.
    split; [rewrite app_assoc, <- A1; exact B1|]. split; [apply Forall_app; split; assumption|]. split.
    + intros x r E. rewrite E in A3. exact A3.
    + intros r x E. rewrite E, app_assoc in A1. apply (B3 _ _ A1).
Qed.
Print Assumptions C66_strip_selects_the_stripped_text.

Example C66_example :
  let doc := [32; 32; 97; 32; 98; 32] in let c := Cursor 1 None in
  cursor_text doc c = [32; 97; 32; 98; 32] /\ cursor_strip doc (Nat.eqb 32) c = Cursor 2 (Some 5)
  /\ cursor_text doc (cursor_strip doc (Nat.eqb 32) c) = [97; 32; 98].
Proof. repeat split; reflexivity. Qed.

(** C67. A selection is extended to whole lines: after [select_start_of_block()] it starts where the line starts its
    first position is in, after [select_end_of_block()] it ends where the line ends its last position is in, and both
    moving methods go to the start and the end of the line. *)
Theorem C67_select_whole_lines :
  forall (doc sep : str) (lines : list str) (c : cursor),
    no_overlap sep -> is_lines doc sep lines -> c_pos c <= length doc ->
    exists k b, is_block doc sep lines k b /\ b_pos b <= c_pos c < b_end b + length sep
      /\ select_start_of_block doc sep c = Cursor (b_pos b) (c_end c)
      /\ move_start_of_block doc sep c = Cursor (b_pos b) (Some (b_pos b))
      /\ (c_pos c <= b_end b -> move_end_of_block doc sep c = Cursor (b_end b) (Some (b_end b)))
      /\ match c_end c with
         | None => select_end_of_block doc sep c = c
         | Some e => e <= length doc -> exists k' b', is_block doc sep lines k' b' /\ b_pos b' <= e < b_end b' + length sep
                       /\ (e <= b_end b' -> select_end_of_block doc sep c = Cursor (c_pos c) (Some (b_end b')))
         end.
Proof.
  intros doc sep lines c Hno Hl Hp. pose proof (C28_blocks_are_the_lines doc sep lines Hno Hl) as (_ & _ & B & _).
  assert (Hs : sep <> []) by apply Hno. pose proof (line_lines doc sep lines Hl Hno) as Hc.
  assert (HE : forall pos, pos <= length doc -> pos <= b_end (find_block doc sep pos) -> find_end_of_block doc sep pos = b_end (find_block doc sep pos)).
  { intros pos H1 H2. destruct (B pos H1) as (k & _ & H3). cbn [find_block make_block b_end b_pos] in *. unfold find_end_of_block in *.
    set (p := find_start_of_block doc sep pos) in *. pose proof (find_spec doc sep Hs p) as F. pose proof (find_spec doc sep Hs pos) as G.
    destruct (py_find sep doc p) as [i|] eqn:Ei, (py_find sep doc pos) as [j|] eqn:Ej; try reflexivity.
    - destruct F as (F1 & F2 & F3), G as (G1 & G2 & G3). destruct (Nat.lt_trichotomy i j) as [H|[H|H]]; [|auto|].
      + rewrite G3 in F2 by lia. discriminate.
      + rewrite F3 in G2 by lia. discriminate.
    - destruct F as (F1 & F2 & F3). rewrite G in F2 by lia. discriminate.
    - destruct G as (G1 & G2 & G3). rewrite F in G2 by lia. discriminate. }
  destruct (B (c_pos c) Hp) as (k & H1 & H2). exists k, (find_block doc sep (c_pos c)). split; [exact H1|]. split; [exact H2|].
  split; [reflexivity|]. split; [reflexivity|]. split.
  - intros H. unfold move_end_of_block. rewrite (HE _ Hp H). reflexivity.
  - unfold select_end_of_block. destruct (c_end c) as [e|] eqn:Ee; [|reflexivity]. intros He. destruct (B e He) as (k' & K1 & K2).
    exists k', (find_block doc sep e). split; [exact K1|]. split; [exact K2|]. intros H. rewrite (HE _ He H). reflexivity.
Qed.
Print Assumptions C67_select_whole_lines.

Example C67_example :
  let doc := [97; 98; 10; 99; 100; 10; 101] in
  no_overlap [10] /\ is_lines doc [10] [[97; 98]; [99; 100]; [101]]
  /\ select_end_of_block doc [10] (select_start_of_block doc [10] (Cursor 1 (Some 4))) = Cursor 0 (Some 5).
Proof.
  split; [split; [discriminate|intros n Hn; cbn in Hn; lia]|]. split; [|reflexivity].
  split; [reflexivity|]. split; [discriminate|].
  repeat constructor; intros (u & v & E); apply (f_equal (fun x => existsb (Nat.eqb 10) x)) in E;
    rewrite !existsb_app in E; cbn in E; destruct (existsb _ u); discriminate.
Qed.
