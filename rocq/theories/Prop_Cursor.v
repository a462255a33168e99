(** C26, C27: cursors follow edits of the text. *)
From Verif Require Import Base BaseFacts MutableModel MutableSpec MutableProofs CursorModel CursorSpec.
From Coq Require Import ZArith ZifyBool Permutation Sorted.

Lemma insert_cursor_perm x l : Permutation (insert_cursor x l) (x :: l).
Proof.
  induction l as [|y l IH]; [reflexivity|]. cbn [insert_cursor]. destruct (_ <=? _); [reflexivity|].
  rewrite IH. apply perm_swap.
Qed.
Lemma sort_cursors_perm l : Permutation (sort_cursors l) l.
Proof. induction l as [|x l IH]; [reflexivity|]. cbn [sort_cursors]. rewrite insert_cursor_perm, IH. reflexivity. Qed.

Lemma splice_length text e : in_text text e ->
  length (splice text e) = length text - (g_end e - g_start e) + length (g_text e).
Proof. intros [H1 H2]. unfold splice. rewrite !app_length, firstn_length, skipn_length. lia. Qed.

Lemma update_follows text e c : in_text text e -> cursor_ok text c -> follows text e c (fst (update_cursor e c)).
Proof.
  intros Hin Hc. pose proof (splice_length text e Hin) as Hl. destruct Hin as [H1 H2].
  unfold follows, update_cursor, cursor_ok, selected, moved in *. destruct c as [p [x|]]; cbn [c_pos c_end] in *.
  - destruct (g_start e <=? x) eqn:E1; cbn [fst c_pos c_end]; rewrite ?Hl.
    + split; [destruct (g_start e <? p) eqn:E2, (p <=? g_end e) eqn:E3, (x <=? g_end e) eqn:E4; lia|].
      split; [split; discriminate|].
      split; [intros q Hq Hr; destruct (g_start e <? p) eqn:E2, (p <=? g_end e) eqn:E3, (x <=? g_end e) eqn:E4, (q <? g_start e) eqn:E5; lia|].
      split; [intros q Hq; destruct (g_start e <? p) eqn:E2, (p <=? g_end e) eqn:E3, (x <=? g_end e) eqn:E4; lia|].
      split; [intros Hp; destruct (g_start e <? p) eqn:E2; lia|].
      split; [intros Hp; destruct (g_start e <? p) eqn:E2, (p <=? g_end e) eqn:E3, (p <? g_start e) eqn:E4; lia|].
      split; [intros y [= <-] Hy; f_equal; destruct (x <=? g_end e) eqn:E4; lia|].
      intros y [= <-] Hy. f_equal. destruct (x <=? g_end e) eqn:E4, (x <? g_start e) eqn:E5; lia.
    + split; [destruct (g_start e <? p) eqn:E2; lia|].
      split; [split; discriminate|].
      split; [intros q Hq Hr; destruct (g_start e <? p) eqn:E2, (q <? g_start e) eqn:E5; lia|].
      split; [intros q Hq; destruct (g_start e <? p) eqn:E2; lia|].
      split; [intros Hp; destruct (g_start e <? p) eqn:E2; lia|].
      split; [intros Hp; destruct (g_start e <? p) eqn:E2, (p <=? g_end e) eqn:E3, (p <? g_start e) eqn:E4; lia|].
      split; [intros y [= <-] Hy; reflexivity|].
      intros y [= <-] Hy. lia.
  - cbn [fst c_pos c_end]. rewrite ?Hl.
    split; [destruct (g_start e <? p) eqn:E2, (p <=? g_end e) eqn:E3; lia|].
    split; [tauto|].
    split; [intros q Hq Hr; destruct (g_start e <? p) eqn:E2, (p <=? g_end e) eqn:E3, (q <? g_start e) eqn:E5; lia|].
    split; [intros q Hq; destruct (g_start e <? p) eqn:E2, (p <=? g_end e) eqn:E3; lia|].
    split; [intros Hp; destruct (g_start e <? p) eqn:E2; lia|].
    split; [intros Hp; destruct (g_start e <? p) eqn:E2, (p <=? g_end e) eqn:E3, (p <? g_start e) eqn:E4; lia|].
    split; discriminate.
Qed.

(** C26. When one edit is made, all cursors of the document follow it: the cursors after the edit are, in
    some order, those that follow the cursors before it, one by one. *)
Theorem C26_cursors_follow_an_edit :
  forall (text : str) (e : change) (cursors : list cursor),
    in_text text e -> Forall (cursor_ok text) cursors ->
    exists before, Permutation before cursors /\ Forall2 (follows text e) before (update_cursors [e] cursors).
Proof.
  intros text e cursors Hin Hc. exists (sort_cursors cursors). pose proof (sort_cursors_perm cursors) as Hp.
  split; [exact Hp|]. assert (Hs : Forall (cursor_ok text) (sort_cursors cursors)).
  { apply Forall_forall. intros c H. rewrite Forall_forall in Hc. apply Hc. apply (Permutation_in _ Hp). exact H. }
  unfold update_cursors. cbn [update_loop skipn firstn app]. clear Hp Hc. induction Hs as [|c l Hc Hl IH]; [constructor|].
  cbn [map]. constructor; [apply update_follows; assumption|exact IH].
Qed.
Print Assumptions C26_cursors_follow_an_edit.

(** Replace "cd" in "abcdef" by "XYZ"; cursors on "b", "cde", after "d", and on everything from "e". *)
Definition some_cursors : list cursor := [Cursor 4 None; Cursor 2 (Some 5); Cursor 1 (Some 2); Cursor 4 (Some 4); Cursor 5 (Some 6)].
Example C26_example : let e := Change 2 4 [88; 89; 90] in
  in_text [97; 98; 99; 100; 101; 102] e /\ Forall (cursor_ok [97; 98; 99; 100; 101; 102]) some_cursors
  /\ update_cursors [e] some_cursors
     = [Cursor 1 (Some 5); Cursor 2 (Some 6); Cursor 2 None; Cursor 2 (Some 5); Cursor 6 (Some 7)].
Proof.
  split; [split; cbn; lia|]. split; [|reflexivity]. repeat constructor; cbn; lia.
Qed.

(** C27. Cursors do not follow batches of edits. (1) One cursor, two edits that do not touch it: inserting 4
    characters before position 3 and deleting one after it moves the cursor to 6 rather than 7, as the
    moved cursor is compared with positions of the old text. (2) With two cursors, a cursor that should
    be adjusted is left out, because another one is done. *)
Theorem C27_batch_refuted :
  (exists cs c, ordered 0 cs /\ update_cursors cs [c] <> [one_by_one cs c])
  /\ (exists cs c d, ordered 0 cs /\ Forall (fun x => length (g_text x) = g_end x - g_start x + 1) cs
        /\ update_cursors cs [c] = [one_by_one cs c] /\ update_cursors cs [d] = [one_by_one cs d]
        /\ update_cursors cs [c; d] <> [one_by_one cs c; one_by_one cs d]).
Proof.
  split.
  - exists [Change 0 0 [1; 2; 3; 4]; Change 6 7 []], (Cursor 3 (Some 3)). split; [cbn; lia|]. vm_compute. discriminate.
  - exists [Change 5 5 [1]; Change 7 7 [1]], (Cursor 0 (Some 10)), (Cursor 1 (Some 1)).
    split; [cbn; lia|]. split; [repeat constructor|]. split; [reflexivity|]. split; [reflexivity|]. vm_compute. discriminate.
Qed.
Print Assumptions C27_batch_refuted.

(** *** What holds for batches *)

Definition move_pos (ch : change) (p : nat) : nat :=
  if g_start ch <? p then if p <=? g_end ch then g_start ch else p + (g_start ch + length (g_text ch)) - g_end ch else p.

Lemma update_pos ch c : c_pos (fst (update_cursor ch c)) = move_pos ch (c_pos c).
Proof. unfold update_cursor, move_pos. destruct (c_end c) as [e|]; [destruct (_ <=? e)|]; reflexivity. Qed.

Lemma update_done ch c : snd (update_cursor ch c) = true -> c_pos c <= g_start ch.
Proof.
  unfold update_cursor. destruct (c_end c) as [e|]; [destruct (_ <=? e)|]; cbn [snd]; intros H; try discriminate; lia.
Qed.

Definition pos_sorted (l : list cursor) : Prop := StronglySorted le (map c_pos l).

Lemma insert_sorted x l : pos_sorted l -> pos_sorted (insert_cursor x l).
Proof.
  unfold pos_sorted. induction l as [|y l IH]; intros H; [repeat constructor|]. cbn [insert_cursor]. destruct (c_pos x <=? c_pos y) eqn:E.
  - cbn [map] in *. constructor; [exact H|]. inversion H as [|? ? H1 H2]; subst. constructor; [lia|].
    apply Forall_forall. intros z Hz. rewrite Forall_forall in H2. specialize (H2 z Hz). lia.
  - cbn [map] in *. inversion H as [|? ? H1 H2]; subst. constructor; [apply IH; exact H1|].
    apply Forall_forall. intros z Hz. apply in_map_iff in Hz as (c & <- & Hc).
    apply (Permutation_in _ (insert_cursor_perm x l)) in Hc. destruct Hc as [<-|Hc]; [lia|].
    rewrite Forall_forall in H2. apply H2. apply in_map. exact Hc.
Qed.
Lemma sort_sorted l : pos_sorted (sort_cursors l).
Proof. induction l as [|x l IH]; [constructor|]. apply insert_sorted. exact IH. Qed.

Lemma map_sorted f l : (forall a b : nat, a <= b -> f a <= f b) -> StronglySorted le l -> StronglySorted le (map f l).
Proof.
  intros Hf H. induction H as [|x l H IH Hx]; [constructor|]. cbn [map]. constructor; [exact IH|].
  apply Forall_forall. intros y Hy. apply in_map_iff in Hy as (z & <- & Hz). apply Hf. rewrite Forall_forall in Hx. auto.
Qed.

(** The first so many as are done are not ahead. *)
Lemma done_prefix s (f : cursor -> bool) l : pos_sorted l -> (forall c, f c = true -> c_pos c <= s) ->
  Forall (fun c => c_pos c <= s) (firstn (length (filter f l)) l).
Proof.
  intros Hs Hf. induction l as [|c l IH]; [constructor|]. unfold pos_sorted in Hs. cbn [map] in Hs. inversion Hs as [|? ? H1 H2]; subst.
  destruct (Nat.le_gt_cases (c_pos c) s) as [Hc|Hc].
  - cbn [filter]. destruct (f c); cbn [length firstn].
    + constructor; [exact Hc|]. apply IH. exact H1.
    + specialize (IH H1). destruct (length (filter f l)) as [|n]; [constructor|]. cbn [firstn]. constructor; [exact Hc|].
      apply Forall_forall. intros x Hx. rewrite Forall_forall in IH. apply IH.
      clear - Hx. revert l Hx. induction n as [|n IHn]; intros [|y l] Hx; try destruct Hx; subst.
      * left; reflexivity.
      * right. apply IHn. assumption.
  - assert (E : filter f (c :: l) = []).
    { apply filter_none. intros x Hx. destruct (f x) eqn:Ef; [|reflexivity]. apply Hf in Ef. exfalso.
      destruct Hx as [<-|Hx]; [lia|]. rewrite Forall_forall in H2. specialize (H2 (c_pos x) (in_map c_pos _ _ Hx)). lia. }
    rewrite E. constructor.
Qed.

(** The cursor is behind all edits, or before all edits. *)
Definition behind (cs : list change) (c : cursor) : Prop :=
  forall ch, In ch cs -> g_end ch < c_pos c /\ forall e, c_end c = Some e -> g_end ch < e.
Definition ahead_of (cs : list change) (c : cursor) : Prop :=
  forall ch, In ch cs -> c_pos c <= g_start ch /\ exists e, c_end c = Some e /\ e < g_start ch.

Definition shifted (n : nat) (c : cursor) : cursor := Cursor (c_pos c + n) (option_map (fun e => e + n) (c_end c)).

Definition kept (cs : list change) (c c' : cursor) : Prop :=
  (behind cs c -> c' = shifted (growth cs) c) /\ (ahead_of cs c -> c' = c).

Lemma update_loop_kept : forall cs i l s, ordered s cs -> Forall (fun ch => g_end ch - g_start ch <= length (g_text ch)) cs ->
  pos_sorted l -> Forall (fun c => c_pos c <= s) (firstn i l) -> Forall2 (kept cs) l (update_loop cs i l).
Proof.
  induction cs as [|ch cs IH]; intros i l s Ho Hg Hs Hi.
  - cbn [update_loop]. clear. induction l as [|c l IHl]; constructor; [|exact IHl].
    split; [|reflexivity]. intros _. unfold shifted. cbn [growth]. destruct c as [p [e|]]; cbn; f_equal; try (f_equal); lia.
  - destruct Ho as (O1 & O2 & O3). inversion Hg as [|? ? G1 G2]; subst. cbn [update_loop].
    set (r := map (update_cursor ch) (skipn i l)). set (l1 := firstn i l ++ map fst r).
    assert (Hp : map c_pos l1 = map (move_pos ch) (map c_pos l)).
    { unfold l1. rewrite <- (firstn_skipn i l) at 2. rewrite !map_app. f_equal.
      - clear - Hi O1. induction Hi as [|c m Hc Hm IHm]; [reflexivity|]. cbn [map]. f_equal; [|exact IHm].
        unfold move_pos. destruct (g_start ch <? c_pos c) eqn:E; lia.
      - unfold r. rewrite !map_map. apply map_ext. intros c. apply update_pos. }
    assert (Hs1 : pos_sorted l1).
    { unfold pos_sorted. rewrite Hp. apply map_sorted; [|exact Hs]. intros a b Hab. unfold move_pos.
      destruct (g_start ch <? a) eqn:E1, (g_start ch <? b) eqn:E2, (a <=? g_end ch) eqn:E3, (b <=? g_end ch) eqn:E4; lia. }
    assert (Hsk : pos_sorted (skipn i l)).
    { clear - Hs. revert l Hs. induction i as [|i IHi]; intros l Hs; [exact Hs|]. destruct l as [|c l]; [constructor|].
      cbn [skipn]. apply IHi. unfold pos_sorted in *. cbn [map] in Hs. inversion Hs; assumption. }
    assert (Hi1 : Forall (fun c => c_pos c <= g_start ch) (firstn (i + length (filter snd r)) l1)).
    { destruct (Nat.le_gt_cases (length l) i) as [Hli|Hli].
      - assert (r = []) by (unfold r; rewrite skipn_all2 by lia; reflexivity). unfold l1. rewrite H. cbn [map filter length].
        rewrite app_nil_r, Nat.add_0_r. apply Forall_forall. intros c Hc. rewrite Forall_forall in Hi.
        assert (In c (firstn i l)) by (clear - Hc Hli; rewrite firstn_firstn, Nat.min_id in Hc; exact Hc).
        specialize (Hi c H0). cbn in Hi. lia.
      - unfold l1. rewrite firstn_app, firstn_length_le by lia. apply Forall_app. split.
        + apply Forall_forall. intros c Hc. rewrite Forall_forall in Hi.
          assert (In c (firstn i l)) by (rewrite firstn_firstn in Hc; replace (Nat.min _ _) with i in Hc by lia; exact Hc).
          specialize (Hi c H). cbn in Hi. lia.
        + replace (i + length (filter snd r) - i) with (length (filter snd r)) by lia.
          assert (Ef : length (filter snd r) = length (filter (fun c => snd (update_cursor ch c)) (skipn i l))).
          { unfold r. clear. induction (skipn i l) as [|c m IHm]; [reflexivity|]. cbn [map filter].
            destruct (snd (update_cursor ch c)); cbn [length]; lia. }
          rewrite Ef. unfold r. rewrite map_map, firstn_map. apply Forall_forall. intros c Hc.
          apply in_map_iff in Hc as (d & <- & Hd).
          pose proof (done_prefix (g_start ch) (fun c => snd (update_cursor ch c)) (skipn i l) Hsk (update_done ch)) as HD.
          rewrite Forall_forall in HD. specialize (HD d Hd). cbn in HD. rewrite update_pos. unfold move_pos.
          destruct (g_start ch <? c_pos d) eqn:E; lia. }
    assert (O4 : ordered (g_start ch) cs).
    { destruct cs as [|c2 cs2]; [exact I|]. destruct O3 as (P1 & P2 & P3). cbn [ordered]. repeat split; auto; lia. }
    specialize (IH (i + length (filter snd r)) l1 (g_start ch) O4 G2 Hs1 Hi1).
    assert (HL : Forall2 (fun c c1 => (behind (ch :: cs) c -> c1 = shifted (length (g_text ch) - (g_end ch - g_start ch)) c)
                                      /\ (ahead_of (ch :: cs) c -> c1 = c)) l l1).
    { unfold l1. rewrite <- (firstn_skipn i l) at 1. apply Forall2_app.
      - clear - Hi O1 O2. induction Hi as [|c m Hc Hm IHm]; constructor; [|exact IHm]. split; [|reflexivity].
        intros H. destruct (H ch (or_introl eq_refl)) as [H1 _]. lia.
      - unfold r. rewrite map_map. clear - O2 G1. induction (skipn i l) as [|c m IHm]; cbn [map]; constructor; [|exact IHm].
        split; intros H; destruct (H ch (or_introl eq_refl)) as [H1 H2].
        + unfold update_cursor, shifted. destruct c as [p [e|]]; cbn [c_pos c_end option_map] in *.
          * specialize (H2 e eq_refl). replace (g_start ch <=? e) with true by lia. replace (g_start ch <? p) with true by lia.
            replace (p <=? g_end ch) with false by lia. replace (e <=? g_end ch) with false by lia. cbn [fst]. f_equal; [lia|f_equal; lia].
          * replace (g_start ch <? p) with true by lia. replace (p <=? g_end ch) with false by lia. cbn [fst]. f_equal. lia.
        + destruct H2 as (e & He & H2). unfold update_cursor. rewrite He. replace (g_start ch <=? e) with false by lia.
          replace (g_start ch <? c_pos c) with false by lia. cbn [fst]. destruct c as [p e']; cbn [c_end c_pos] in *. congruence. }
    generalize dependent (update_loop cs (i + length (filter snd r)) l1). clear - HL.
    induction HL as [|c c1 m m1 [HB HA] Hm IHm]; intros m2 H; inversion H as [|? c2 ? m3 [KB KA] K]; subst; constructor; [|apply IHm; exact K].
    split; intros Hc.
    + specialize (HB Hc). subst c1. rewrite KB.
      * unfold shifted. cbn [c_pos c_end growth]. destruct (c_end c); cbn [option_map]; [f_equal; [lia|f_equal; lia]|f_equal; lia].
      * intros ch2 H2. destruct (Hc ch2 (or_intror H2)) as [B1 B2]. unfold shifted. cbn [c_pos c_end]. split; [lia|].
        intros e He. destruct (c_end c) as [e0|]; [|discriminate]. cbn [option_map] in He. injection He as <-. specialize (B2 e0 eq_refl). lia.
    + specialize (HA Hc). subst c1. apply KA. intros ch2 H2. apply Hc. right; exact H2.
Qed.

(** C27 for cursors that are not touched, when no edit of the batch makes the text shorter: a cursor
    behind all replaced pieces moves with the text, a cursor before all of them stays where it is. *)
Theorem C27_untouched_cursors_partial :
  forall (cs : list change) (cursors : list cursor),
    ordered 0 cs -> Forall (fun ch => g_end ch - g_start ch <= length (g_text ch)) cs ->
    exists before, Permutation before cursors
      /\ Forall2 (fun c c' =>
           ((forall ch, In ch cs -> g_end ch < c_pos c /\ forall e, c_end c = Some e -> g_end ch < e) ->
            c_pos c' = c_pos c + growth cs /\ c_end c' = option_map (fun e => e + growth cs) (c_end c))
           /\ ((forall ch, In ch cs -> c_pos c <= g_start ch /\ exists e, c_end c = Some e /\ e < g_start ch) -> c' = c))
         before (update_cursors cs cursors).
Proof.
  intros cs cursors Ho Hg. exists (sort_cursors cursors). split; [apply sort_cursors_perm|].
  pose proof (update_loop_kept cs 0 (sort_cursors cursors) 0 Ho Hg (sort_sorted cursors) (Forall_nil _)) as H.
  unfold update_cursors. induction H as [|c c' m m' [HB HA] Hm IH]; constructor; [|exact IH].
  split; [|exact HA]. intros Hc. rewrite (HB Hc). split; reflexivity.
Qed.
Print Assumptions C27_untouched_cursors_partial.

Example C27_example :
  let cs := [Change 2 3 [1; 1]; Change 4 4 [1; 1; 1]] in
  ordered 0 cs /\ Forall (fun ch => g_end ch - g_start ch <= length (g_text ch)) cs
  /\ update_cursors cs [Cursor 8 (Some 9); Cursor 6 None; Cursor 0 (Some 1)] = [Cursor 0 (Some 1); Cursor 10 None; Cursor 12 (Some 13)].
Proof. split; [cbn; lia|]. split; [repeat constructor; cbn; lia|reflexivity]. Qed.
