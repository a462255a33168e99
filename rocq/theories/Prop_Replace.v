(** C30, C65: replacing text in a region of a document. *)
From Verif Require Import Base BaseFacts MutableModel MutableSpec MutableProofs BlockModel BlockSpec BlockProofs ReplaceModel ReplaceSpec ReplaceProofs.
From Coq Require Import ZArith ZifyBool.

Lemma one_last outs out before p r n after (Q : nat -> nat -> nat -> Prop) (R : Prop) : Forall (fun o => o = Quiet \/ o = Raised) outs ->
  match out with Quiet => R | TextChanged p r n => Q p r n | Raised => False end ->
  outs ++ [out] = before ++ TextChanged p r n :: after -> after = [] /\ Q p r n.
Proof.
  intros Hq Ho E. destruct after as [|x after] using rev_ind.
  - apply app_inj_tail in E as [-> ->]. auto.
  - clear IHafter. exfalso. replace (before ++ TextChanged p r n :: after ++ [x]) with ((before ++ TextChanged p r n :: after) ++ [x]) in E
      by (rewrite <- app_assoc; reflexivity).
    apply app_inj_tail in E as [-> ->]. rewrite Forall_forall in Hq.
    destruct (Hq (TextChanged p r n)); [apply in_or_app; right; left; reflexivity|discriminate|discriminate].
Qed.

(** C30, for a region that starts at a position that is not negative, and something to look for: the loop ends, the
    region is replaced by what Python's [str.replace] makes of it, with at most one notification, of the whole. *)
Theorem C30_replace_partial :
  forall (doc old new : str) (start : Z) (end_ : option Z) (count : Z) (a b : nat),
    (0 <= start)%Z -> old <> [] ->
    key_piece (length doc) (KSlice (Some start) end_) = Some (a, b) ->
    let result := put doc a b (str_replace old new (limit count) 0 (slice doc a b)) in
    exists ops, (forall fuel, length doc < fuel -> replace_ops fuel doc old new start end_ count = Some ops)
      /\ exists outs, m_run (MState doc 0 []) ops = (MState result 0 [], outs)
         /\ forall before p r n after, outs = before ++ TextChanged p r n :: after -> after = [] /\ splice_of doc result p r n.
Proof.
  intros doc old new start end_ count a b Hs Hold Hk result. pose proof (key_piece_in _ _ _ _ Hk) as Hab.
  destruct (str_eqb old new) eqn:Eq.
  - apply str_eqb_spec in Eq. subst new. exists []. split; [intros fuel _; unfold replace_ops; rewrite str_eqb_refl; reflexivity|].
    exists []. split; [|intros [|]; discriminate]. cbn [m_run].
    assert (E : forall s c k, k <= length s -> str_replace old old c k s = skipn k s) .
    { induction s as [|x s IH]; intros c k Hk'; [destruct k; reflexivity|]. cbn [length] in Hk'. destruct k as [|k].
      - cbn [str_replace skipn]. destruct c as [[|c]|].
        + rewrite (IH (Some 0) 0) by lia. reflexivity.
        + destruct (starts_with old (x :: s)) eqn:E; [|rewrite (IH (Some (S c)) 0) by lia; reflexivity].
          unfold starts_with in E. apply str_eqb_spec in E. pose proof (f_equal (@length nat) E) as El. rewrite firstn_length in El. cbn [length] in El.
          rewrite IH by lia. rewrite <- E at 1. destruct old as [|o os]; [congruence|]. cbn [length firstn app]. f_equal.
          replace (S (length os) - 1) with (length os) by lia. apply firstn_skipn.
        + destruct (starts_with old (x :: s)) eqn:E; [|rewrite (IH None 0) by lia; reflexivity].
          unfold starts_with in E. apply str_eqb_spec in E. pose proof (f_equal (@length nat) E) as El. rewrite firstn_length in El. cbn [length] in El.
          rewrite IH by lia. rewrite <- E at 1. destruct old as [|o os]; [congruence|]. cbn [length firstn app]. f_equal.
          replace (S (length os) - 1) with (length os) by lia. apply firstn_skipn.
      - cbn [str_replace skipn]. apply IH. lia. }
    unfold result, put. rewrite E by lia. cbn [skipn]. rewrite slice_app_from by lia. rewrite firstn_skipn. reflexivity.
  - set (s := slice doc a b) in *.
    assert (Hls : length s = b - a) by (unfold s; rewrite slice_length; lia).
    set (ms := fun fuel => limited count (occs old new fuel s (py_find old s 0))).
    assert (Hloop : forall fuel, length doc < fuel -> replace_loop fuel s old new start (py_find old s 0) count
        = Some (map (fun m => set_piece start (g_start m) (g_end m) (g_text m)) (ms fuel))).
    { intros fuel Hf. apply replace_loop_ok; [exact Hold|]. intros p Hp. pose proof (find_spec s old Hold 0) as F. rewrite Hp in F.
      destruct F as (_ & F & _). pose proof (occ_bound s old p F). lia. }
    assert (Hms : forall fuel, length doc < fuel -> substituted s 0 (ms fuel) = str_replace old new (limit count) 0 s /\ ordered 0 (ms fuel)
        /\ forall m, In m (ms fuel) -> g_end m <= b - a).
    { intros fuel Hf. destruct (occs_ok old new Hold fuel s 0 (limit count) ltac:(lia) ltac:(lia)) as (O1 & O2 & O3). cbn [skipn] in O1.
      unfold ms, limited. split; [exact O1|]. split; [exact O2|]. intros m Hm. rewrite <- Hls. apply O3. exact Hm. }
    assert (Hfuel : forall fuel, length doc < fuel -> ms fuel = ms (S (length doc))).
    { assert (W : forall n m pos, (forall p, pos = Some p -> p + length old <= length s /\ length s - p < n /\ length s - p < m) ->
         occs old new n s pos = occs old new m s pos).
      { clear - Hold. induction n as [|n IH]; intros m [p|] H; try (destruct m; reflexivity).
        - destruct (H p eq_refl) as (_ & H2 & _). lia.
        - destruct (H p eq_refl) as (H1 & H2 & H3). destruct m as [|m]; [lia|]. cbn [occs]. f_equal. apply IH.
          assert (0 < length old) by (destruct old; [congruence|cbn; lia]).
          intros q Hq. pose proof (find_spec s old Hold (p + length old)) as F. rewrite Hq in F. destruct F as (F1 & F2 & _).
          pose proof (occ_bound s old q F2). lia. }
      intros fuel Hf. unfold ms. rewrite (W fuel (S (length doc))); [reflexivity|]. intros p Hp.
      pose proof (find_spec s old Hold 0) as F. rewrite Hp in F. destruct F as (_ & F & _). pose proof (occ_bound s old p F). lia. }
    exists (Enter :: map (fun m => set_piece start (g_start m) (g_end m) (g_text m)) (ms (S (length doc))) ++ [Exit_ false]). split.
    + intros fuel Hf. unfold replace_ops. rewrite Eq. unfold getitem. rewrite <- key_piece_parse, Hk.
      replace (if a =? b then [] else if (a =? 0) && (b =? length doc) then doc else slice doc a b) with s.
      * rewrite (Hloop fuel Hf), (Hfuel fuel Hf). reflexivity.
      * unfold s. destruct (a =? b) eqn:E1; [apply slice_nil; lia|]. destruct ((a =? 0) && (b =? length doc)) eqn:E2; [|reflexivity].
        replace a with 0 by lia. replace b with (length doc) by lia. apply slice_all.
    + destruct (Hms (S (length doc)) ltac:(lia)) as (M1 & M2 & M3).
      destruct (region_batch doc start end_ a b _ Hs Hk M2 M3) as (outs & out & R1 & R2 & R3). fold s in R1, R3. rewrite M1 in R1, R3.
      exists (outs ++ [out]). split; [exact R1|]. intros before p r n after E. apply (one_last outs out before p r n after (splice_of doc result) (result = doc) R2 R3 E).
Qed.
Print Assumptions C30_replace_partial.

(** "abcabcab" with the first two "ab" after position 1 replaced. *)
Example C30_example :
  key_piece 8 (KSlice (Some 1%Z) None) = Some (1, 8)
  /\ put [97; 98; 99; 97; 98; 99; 97; 98] 1 8 (str_replace [97; 98] [88; 89; 90] (limit 2) 0 (slice [97; 98; 99; 97; 98; 99; 97; 98] 1 8))
     = [97; 98; 99; 88; 89; 90; 99; 88; 89; 90].
Proof. split; vm_compute; reflexivity. Qed.

(** C30 is false for a negative start: replacing "c" in the last three characters of "abcabc" inserts, and does
    not replace; and looking for nothing goes on for ever. *)
Theorem C30_replace_refuted :
  (exists doc old new start ops a b, old <> [] /\ key_piece (length doc) (KSlice (Some start) None) = Some (a, b)
     /\ (forall fuel, length doc < fuel -> replace_ops fuel doc old new start None 0 = Some ops)
     /\ m_text (fst (m_run (MState doc 0 []) ops)) <> put doc a b (str_replace old new None 0 (slice doc a b)))
  /\ (forall doc new fuel, new <> [] -> replace_ops fuel doc [] new 0 None 0 = None).
Proof.
  split.
  - exists [97; 98; 99; 97; 98; 99], [99], [88], (-3)%Z, [Enter; Set_ (KSlice (Some (-1)%Z) (Some 0%Z)) [88]; Exit_ false], 3, 6.
    split; [discriminate|]. split; [reflexivity|]. split.
    + intros fuel Hf. cbn [length] in Hf. do 2 (destruct fuel as [|fuel]; [lia|]). reflexivity.
    + vm_compute. discriminate.
  - intros doc new fuel Hn. unfold replace_ops. destruct (str_eqb [] new) eqn:E; [apply str_eqb_spec in E; congruence|].
    assert (F : forall s, py_find [] s 0 = Some 0).
    { intros s. unfold py_find. replace (S (length s) - 0) with (S (length s)) by lia. reflexivity. }
    assert (W : forall fuel s count, (count <= 0)%Z -> replace_loop fuel s [] new 0 (Some 0) count = None).
    { clear fuel. induction fuel as [|fuel IH]; intros s count Hc; [reflexivity|]. cbn [replace_loop length Nat.add].
      replace (count - 1 =? 0)%Z with false by lia. rewrite F, IH by lia. reflexivity. }
    destruct (getitem doc _) as [s|]; [|reflexivity]. rewrite F, W by lia. reflexivity.
Qed.
Print Assumptions C30_replace_refuted.

(** C65. Substituting matches of a regular expression, in a region that starts at a position that is not negative:
    for every list of matches that do not overlap and are in order, as Python's [finditer] finds them in the selected text,
    with at most [count] replacements. *)
Theorem C65_re_sub_partial :
  forall (doc : str) (start : Z) (end_ : option Z) (count : Z) (a b : nat) (matches : list change),
    (0 <= start)%Z ->
    key_piece (length doc) (KSlice (Some start) end_) = Some (a, b) ->
    ordered 0 matches -> (forall m, In m matches -> g_end m <= b - a) ->
    let result := put doc a b (substituted (slice doc a b) 0 (limited count matches)) in
    exists outs, m_run (MState doc 0 []) (re_sub_ops start matches count) = (MState result 0 [], outs)
      /\ forall before p r n after, outs = before ++ TextChanged p r n :: after -> after = [] /\ splice_of doc result p r n.
Proof.
  intros doc start end_ count a b ms Hs Hk Ho Hm result. unfold re_sub_ops. rewrite re_sub_limited.
  destruct (region_batch doc start end_ a b (limited count ms) Hs Hk) as (outs & out & R1 & R2 & R3).
  - apply limited_ordered. exact Ho.
  - intros m H. apply Hm. unfold limited in H. destruct (limit count) as [n|]; [|exact H]. rewrite <- (firstn_skipn n ms). apply in_or_app. left; exact H.
  - fold result in R1, R3. exists (outs ++ [out]). split; [exact R1|]. intros before p r n after E.
    apply (one_last outs out before p r n after (splice_of doc result) (result = doc) R2 R3 E).
Qed.
Print Assumptions C65_re_sub_partial.

(** Empty matches next to other matches are allowed: in "abc" the matches of "\b|\w+". *)
Example C65_example :
  let ms := [Change 0 0 [60]; Change 0 3 [88]; Change 3 3 [62]] in
  ordered 0 ms /\ key_piece 5 (KSlice (Some 1%Z) (Some 4%Z)) = Some (1, 4)
  /\ put [9; 97; 98; 99; 9] 1 4 (substituted [97; 98; 99] 0 ms) = [9; 60; 88; 62; 9].
Proof. split; [cbn; lia|]. split; vm_compute; reflexivity. Qed.

(** C65 is false for a negative start: a match at the end of the text is not replaced. *)
Theorem C65_re_sub_refuted :
  exists doc start a b matches, key_piece (length doc) (KSlice (Some start) None) = Some (a, b)
    /\ ordered 0 matches /\ (forall m, In m matches -> g_end m <= b - a)
    /\ m_text (fst (m_run (MState doc 0 []) (re_sub_ops start matches 0))) <> put doc a b (substituted (slice doc a b) 0 matches).
Proof.
  exists [97; 98; 99], (-2)%Z, 1, 3, [Change 1 2 [88]]. split; [reflexivity|]. split; [cbn; lia|].
  split; [intros m [<-|[]]; cbn; lia|]. vm_compute. discriminate.
Qed.
Print Assumptions C65_re_sub_refuted.
