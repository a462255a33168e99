(** C136: removing the white space at the ends of lines. *)
From Verif Require Import Base BaseFacts MutableModel MutableSpec MutableProofs BlockModel BlockSpec BlockProofs ReplaceModel ReplaceSpec ReplaceProofs Prop_Replace.
From Verif Require Import CursorModel StripModel IndentModel IndentSpec IndentMoreProofs TrimModel TrimProofs.
From Coq Require Import ZArith ZifyBool.

(** C136, for a region that starts at a position that is not negative and ends at the end of a line: every line in the
    region loses the blanks (32) and tabs (9) at its end and nothing else, with at most one notification, of the whole. *)
Theorem C136_trim_partial :
  forall (doc : str) (start : Z) (end_ : option Z) (a b : nat) (lines : list str),
    (0 <= start)%Z ->
    key_piece (length doc) (KSlice (Some start) end_) = Some (a, b) ->
    b = length doc \/ nth_error doc b = Some 10 ->
    is_lines (slice doc a b) [10] lines ->
    exists ops outs lines1,
      trim_ops doc start end_ = Some ops
      /\ Forall2 (stripped (fun x => (x =? 32) || (x =? 9))) lines lines1
      /\ let result := put doc a b (join [10] lines1) in
         m_run (MState doc 0 []) ops = (MState result 0 [], outs)
         /\ forall before p r n after, outs = before ++ TextChanged p r n :: after -> after = [] /\ splice_of doc result p r n.
Proof.
  intros doc start end_ a b lines Hs Hk _ (Hj & Hne & Hc). pose proof (key_piece_in _ _ _ _ Hk) as Hab.
  assert (Hls : length (slice doc a b) = b - a) by (rewrite slice_length; lia).
  assert (Eg : getitem doc (KSlice (Some start) end_) = Some (slice doc a b)).
  { unfold getitem. rewrite <- key_piece_parse, Hk. f_equal. destruct (a =? b) eqn:E1; [symmetry; apply slice_nil; lia|].
    destruct ((a =? 0) && (b =? length doc)) eqn:E2; [|reflexivity]. replace a with 0 by lia. replace b with (length doc) by lia. symmetry. apply slice_all. }
  set (s := slice doc a b) in *. set (ms := trim_iter (length s) 0 s).
  destruct (iter_ok s (length s) 0 s 0 [] eq_refl eq_refl (le_n _) (le_n _)) as (I1 & I2 & I3). fold ms in I1, I2, I3.
  destruct (C65_re_sub_partial doc start end_ 0 a b ms Hs Hk I2) as (outs & R1 & R2).
  { intros m Hm. rewrite <- Hls. apply I3, Hm. }
  fold s in R1, R2. cbn [limited] in R1, R2. unfold limited, limit in R1, R2. cbn [Z.leb Z.compare] in R1, R2.
  assert (Et : substituted s 0 ms = join [10] (map (py_rstrip tab_or_blank) lines)).
  { rewrite I1. unfold slice at 1. cbn [Nat.sub firstn app]. rewrite <- Hj. apply trimmed_lines; [exact Hne| |apply le_n].
    eapply Forall_impl; [|exact Hc]. intros l. apply contains_10. }
  rewrite Et in R1, R2.
  exists (re_sub_ops start ms 0), outs, (map (py_rstrip tab_or_blank) lines). split; [|split; [|split; [exact R1|exact R2]]].
  - unfold trim_ops. rewrite Eg. reflexivity.
  - clear. induction lines as [|l lines IH]; constructor; [apply rstrip_stripped|exact IH].
Qed.
Print Assumptions C136_trim_partial.

(** "a \n \tb\n\t " trimmed: "a\n \tb\n". *)
Example C136_case :
  let doc := [97; 32; 10; 32; 9; 98; 10; 9; 32] in
  key_piece (length doc) (KSlice (Some 0%Z) None) = Some (0, length doc)
  /\ is_lines (slice doc 0 (length doc)) [10] [[97; 32]; [32; 9; 98]; [9; 32]]
  /\ option_map (fun ops => m_text (fst (m_run (MState doc 0 []) ops))) (trim_ops doc 0 None) = Some [97; 10; 32; 9; 98; 10].
Proof.
  split; [reflexivity|]. split; [|reflexivity]. split; [reflexivity|]. split; [discriminate|].
  repeat constructor; rewrite contains_10; cbn; lia.
Qed.

(** Trimming the whole text, again: nothing changes. *)
Theorem C136_again :
  forall (doc : str) (ops : list mop) (lines : list str),
    is_lines doc [10] lines ->
    (forall l, In l lines -> forall a x, l = a ++ [x] -> x <> 32 /\ x <> 9) ->
    trim_ops doc 0 None = Some ops ->
    m_text (fst (m_run (MState doc 0 []) ops)) = doc.
Proof.
  intros doc ops lines Hl Hend Ho.
  assert (Hk : key_piece (length doc) (KSlice (Some 0%Z) None) = Some (0, length doc)).
  { unfold key_piece, key_span. cbv zeta. assert (Hz : (Z.of_nat (length doc) <? 0)%Z = false) by lia. rewrite Hz. cbn [Z.ltb Z.compare]. f_equal. f_equal; lia. }
  destruct (C136_trim_partial doc 0 None 0 (length doc) lines ltac:(lia) Hk (or_introl eq_refl)) as (ops' & outs & lines1 & E1 & F & E2 & _).
  { rewrite slice_all. exact Hl. }
  rewrite Ho in E1. injection E1 as <-. cbv zeta in E2. rewrite E2. cbn [fst m_text].
  assert (El : lines1 = lines).
  { clear - F Hend. induction F as [|l l1 ls ls1 (tail & E & Ft & _) F IH]; [reflexivity|]. f_equal.
    - destruct tail as [|x tail _] using rev_ind; [rewrite app_nil_r in E; congruence|]. exfalso.
      apply Forall_app in Ft as [_ Ft]. inversion Ft as [|? ? Hx _]; subst. rewrite app_assoc in Hend.
      destruct (Hend _ (or_introl eq_refl) _ _ eq_refl) as [H1 H2]. lia.
    - apply IH. intros k Hk. apply Hend. right. exact Hk. }
  rewrite El. unfold put. cbn [firstn app]. rewrite skipn_all, app_nil_r. apply Hl.
Qed.
Print Assumptions C136_again.

(** C136 is false for a region that ends inside a line: what is before the end of the region is removed though it is not
    at the end of a line: [trim(0, 2)] makes "ab" of "a b". And for a region that is given with a negative start, nothing is
    removed at the end of the text: [trim(-2)] leaves "ab " as it is. *)
Theorem C136_region_refuted :
  (exists doc ops, trim_ops doc 0 (Some 2%Z) = Some ops /\ ~ In 10 doc /\ (forall a x, doc = a ++ [x] -> x <> 32 /\ x <> 9)
     /\ m_text (fst (m_run (MState doc 0 []) ops)) <> doc)
  /\ (exists doc a ops, trim_ops doc (-2)%Z None = Some ops /\ doc = a ++ [32] /\ m_text (fst (m_run (MState doc 0 []) ops)) = doc).
Proof.
  split.
  - exists [97; 32; 98], (re_sub_ops 0 [Change 1 2 []] 0). split; [reflexivity|]. split; [cbn; lia|]. split; [|vm_compute; discriminate].
    intros a x E. apply (f_equal (@rev nat)) in E. rewrite rev_app_distr in E. cbn in E. injection E as <- _. lia.
  - exists [97; 98; 32], [97; 98], (re_sub_ops (-2) [Change 1 2 []] 0). repeat split; reflexivity.
Qed.
Print Assumptions C136_region_refuted.
