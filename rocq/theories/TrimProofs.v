(** Proofs about [trim]. *)
From Verif Require Import Base BaseFacts MutableModel MutableSpec MutableProofs BlockModel BlockSpec BlockProofs ReplaceModel ReplaceSpec ReplaceProofs.
From Verif Require Import CursorModel StripModel IndentModel IndentSpec IndentMoreProofs TrimModel.
From Coq Require Import ZArith ZifyBool.

Lemma span_app s : exists a b, s = a ++ b /\ length a = span s /\ Forall (fun x => tab_or_blank x = true) a
  /\ match b with [] => True | c :: _ => tab_or_blank c = false end.
Proof.
  induction s as [|c s (a & b & E & El & F & H)]; [exists [], []; repeat split; constructor|].
  cbn [span]. destruct (tab_or_blank c) eqn:Ec.
  - exists (c :: a), b. cbn. rewrite E at 1. repeat split; [lia|constructor; assumption|exact H].
  - exists [], (c :: s). repeat split; [constructor|exact Ec].
Qed.
Lemma blank_no_newline c : tab_or_blank c = true -> c <> 10.
Proof. unfold tab_or_blank. lia. Qed.

Lemma trim_match_spec s : trim_match s = if (0 <? span s) && at_dollar (skipn (span s) s) then Some (span s) else None.
Proof.
  unfold trim_match. destruct (span_app s) as (a & b & E & El & F & H).
  destruct (span s) as [|n] eqn:En; [reflexivity|]. rewrite seq_S. cbn [Nat.add]. rewrite rev_app_distr. cbn [rev app find]. cbn [Nat.ltb Nat.leb andb].
  destruct (at_dollar (skipn (S n) s)) eqn:Ed; [reflexivity|].
  destruct (find _ _) as [k|] eqn:Ef; [|reflexivity]. exfalso. apply find_some in Ef as [Hin Hd]. apply in_rev, in_seq in Hin.
  rewrite E, skipn_app in Hd. replace (k - length a) with 0 in Hd by lia. cbn [skipn] in Hd.
  destruct (skipn k a) as [|c w] eqn:Es.
  - pose proof (f_equal (@length nat) Es) as L. rewrite skipn_length in L. cbn in L. lia.
  - cbn [app at_dollar] in Hd. rewrite Forall_forall in F. assert (Hc : In c a) by (rewrite <- (firstn_skipn k a), Es; apply in_or_app; right; left; reflexivity).
    specialize (F c Hc). apply blank_no_newline in F. lia.
Qed.

(** What is left. *)
Fixpoint trimmed (fuel : nat) (s : str) : str :=
  match fuel, s with
  | S fuel, c :: s' => match trim_match s with Some k => trimmed fuel (skipn k s) | None => c :: trimmed fuel s' end
  | _, _ => []
  end.

Lemma trim_match_pos s k : trim_match s = Some k -> 0 < k <= length s.
Proof.
  rewrite trim_match_spec. destruct (span_app s) as (a & b & E & El & _). pose proof (f_equal (@length nat) E) as L. rewrite app_length in L.
  destruct ((0 <? span s) && _) eqn:Ed; [|discriminate]. intros [= <-]. lia.
Qed.

Lemma iter_ok full : forall fuel pos s from_ pre, full = pre ++ s -> length pre = pos -> from_ <= pos -> length s <= fuel ->
  substituted full from_ (trim_iter fuel pos s) = slice full from_ pos ++ trimmed fuel s
  /\ ordered pos (trim_iter fuel pos s) /\ forall m, In m (trim_iter fuel pos s) -> g_end m <= length full.
Proof.
  induction fuel as [|fuel IH]; intros pos s from_ pre Hfull Hpos Hfrom Hf.
  - destruct s; [|cbn in Hf; lia]. cbn. repeat split; [|intros m []]. rewrite !app_nil_r. rewrite app_nil_r in Hfull. subst pre.
    unfold slice. rewrite firstn_all2; [reflexivity|]. rewrite skipn_length. lia.
  - destruct s as [|c s].
    + cbn. repeat split; [|intros m []]. rewrite !app_nil_r. rewrite app_nil_r in Hfull. subst pre.
      unfold slice. rewrite firstn_all2; [reflexivity|]. rewrite skipn_length. lia.
    + cbn [trim_iter trimmed]. destruct (trim_match (c :: s)) as [k|] eqn:Em.
      * pose proof (trim_match_pos _ _ Em) as Hk.
        destruct (IH (pos + k) (skipn k (c :: s)) (pos + k) (pre ++ firstn k (c :: s))) as (I1 & I2 & I3).
        { rewrite <- app_assoc, firstn_skipn. exact Hfull. }
        { rewrite app_length, firstn_length. lia. }
        { lia. }
        { rewrite skipn_length. lia. }
        split; [|split].
        -- cbn [substituted g_start g_end g_text app]. rewrite I1. f_equal. unfold slice. rewrite Nat.sub_diag. reflexivity.
        -- cbn [ordered g_start g_end]. repeat split; [lia|lia|exact I2].
        -- intros m [<-|Hm]; [|apply I3, Hm]. cbn [g_end]. rewrite Hfull, app_length. lia.
      * destruct (IH (S pos) s from_ (pre ++ [c])) as (I1 & I2 & I3).
        { rewrite <- app_assoc. exact Hfull. }
        { rewrite app_length. cbn. lia. }
        { lia. }
        { cbn in Hf. lia. }
        split; [|split; [|exact I3]].
        -- rewrite I1. change (c :: trimmed fuel s) with ([c] ++ trimmed fuel s). rewrite app_assoc. f_equal.
           unfold slice. replace (S pos - from_) with ((pos - from_) + 1) by lia.
           assert (Es : skipn from_ full = skipn from_ pre ++ c :: s) by (rewrite Hfull, skipn_app; replace (from_ - length pre) with 0 by lia; reflexivity).
           rewrite Es, !firstn_app, skipn_length. rewrite !firstn_all2 by (rewrite skipn_length; lia).
           replace (pos - from_ + 1 - (length pre - from_)) with 1 by lia. replace (pos - from_ - (length pre - from_)) with 0 by lia. cbn. rewrite app_nil_r. rewrite ?firstn_all2 by (rewrite skipn_length; lia). reflexivity.
        -- revert I2. destruct (trim_iter fuel (S pos) s); cbn [ordered]; [auto|]. intros (?&?&?). repeat split; [lia|assumption|assumption].
Qed.

(** The end of a line: the end of the text, or a newline. *)
Lemma trimmed_line l rest : ~ In 10 l -> at_dollar rest = true ->
  forall fuel, length l + length rest <= fuel ->
  exists fuel', length rest <= fuel' /\ trimmed fuel (l ++ rest) = py_rstrip tab_or_blank l ++ trimmed fuel' rest.
Proof.
  intros Hn Hr. induction l as [|c l IH]; intros fuel Hf.
  - exists fuel. split; [cbn in Hf; lia|]. reflexivity.
  - cbn [length] in Hf. destruct fuel as [|fuel]; [lia|]. cbn [app trimmed]. rewrite trim_match_spec.
    change (c :: l ++ rest) with ((c :: l) ++ rest).
    destruct (forallb tab_or_blank (c :: l)) eqn:Eall.
    + assert (Es : span ((c :: l) ++ rest) = length (c :: l)).
      { clear - Eall Hr. induction (c :: l) as [|x w IH]; cbn [app length span].
        - destruct rest as [|y rest]; [reflexivity|]. cbn in *. unfold tab_or_blank. replace ((y =? 32) || (y =? 9)) with false by lia. reflexivity.
        - cbn in Eall. apply andb_true_iff in Eall as [E1 E2]. rewrite E1. f_equal. apply IH, E2. }
      rewrite Es, skipn_app, skipn_all, Nat.sub_diag. cbn [skipn app]. rewrite Hr. cbn [length Nat.ltb Nat.leb andb].
      exists fuel. split; [lia|]. unfold py_rstrip.
      assert (E0 : py_lstrip tab_or_blank (rev (c :: l)) = []).
      { rewrite forallb_forall in Eall. assert (H : forall x, In x (rev (c :: l)) -> tab_or_blank x = true) by (intros x Hx; apply Eall, in_rev, Hx).
        clear - H. induction (rev (c :: l)) as [|x w IH]; [reflexivity|]. cbn. rewrite (H x) by (left; reflexivity). apply IH. intros y Hy. apply H. right. exact Hy. }
      rewrite E0. cbn [rev skipn app]. rewrite ?skipn_app, ?skipn_all, ?Nat.sub_diag. reflexivity.
    + assert (Es : (0 <? span ((c :: l) ++ rest)) && at_dollar (skipn (span ((c :: l) ++ rest)) ((c :: l) ++ rest)) = false).
      { assert (W : forall w, forallb tab_or_blank w = false -> ~ In 10 w -> at_dollar (skipn (span (w ++ rest)) (w ++ rest)) = false).
        { clear. induction w as [|x w IH]; [discriminate|]. intros Ha Hn. cbn [app span]. destruct (tab_or_blank x) eqn:Ex.
          - cbn [skipn]. apply IH; [|intros H; apply Hn; right; exact H]. cbn in Ha. rewrite Ex in Ha. exact Ha.
          - cbn [skipn at_dollar]. assert (x <> 10) by (intros ->; apply Hn; left; reflexivity). lia. }
        rewrite (W _ Eall Hn). apply andb_false_r. }
      rewrite Es. cbn [app].
      destruct (IH ltac:(intros H; apply Hn; right; exact H) fuel ltac:(lia)) as (f' & Hf' & E').
      exists f'. split; [exact Hf'|]. rewrite E'. change (c :: py_rstrip tab_or_blank l ++ trimmed f' rest) with ((c :: py_rstrip tab_or_blank l) ++ trimmed f' rest).
      f_equal. unfold py_rstrip. cbn [rev].
      assert (W : forall w, py_lstrip tab_or_blank (w ++ [c]) = if forallb tab_or_blank w then py_lstrip tab_or_blank [c] else py_lstrip tab_or_blank w ++ [c]).
      { clear. induction w as [|x w IH]; [reflexivity|]. cbn [app py_lstrip forallb]. destruct (tab_or_blank x); [cbn [andb]; exact IH|reflexivity]. }
      rewrite W. cbn [forallb] in Eall.
      assert (Er : forallb tab_or_blank (rev l) = forallb tab_or_blank l).
      { clear. apply eq_true_iff_eq. rewrite !forallb_forall. split; intros H x Hx; apply H; [apply in_rev; rewrite rev_involutive; exact Hx|apply in_rev; exact Hx]. }
      rewrite Er. destruct (forallb tab_or_blank l) eqn:El.
      * rewrite andb_true_r in Eall. cbn [py_lstrip]. rewrite Eall. cbn [rev app].
        assert (E0 : py_lstrip tab_or_blank (rev l) = []).
        { rewrite forallb_forall in Er. clear - Er. induction (rev l) as [|x w IHw]; [reflexivity|]. cbn. rewrite (Er x) by (left; reflexivity). apply IHw. intros y Hy. apply Er. right. exact Hy. }
        rewrite E0. reflexivity.
      * rewrite rev_app_distr. reflexivity.
Qed.

Lemma trimmed_lines : forall lines fuel, lines <> [] -> Forall (fun l => ~ In 10 l) lines -> length (join [10] lines) <= fuel ->
  trimmed fuel (join [10] lines) = join [10] (map (py_rstrip tab_or_blank) lines).
Proof.
  induction lines as [|l lines IH]; intros fuel Hne F Hf; [congruence|]. inversion F as [|? ? F1 F2]; subst.
  destruct lines as [|l2 lines].
  - cbn [join map] in *. destruct (trimmed_line l [] F1 eq_refl fuel ltac:(cbn [length]; lia)) as (f' & _ & E). rewrite app_nil_r in E. rewrite E.
    destruct f'; cbn [trimmed]; apply app_nil_r.
  - change (join [10] (l :: l2 :: lines)) with (l ++ [10] ++ join [10] (l2 :: lines)) in *. set (r := join [10] (l2 :: lines)) in *.
    rewrite !app_length in Hf. cbn [length app] in Hf.
    destruct (trimmed_line l (10 :: r) F1 eq_refl fuel ltac:(cbn [length]; lia)) as (f' & Hf' & E). cbn [app]. rewrite E. cbn [length] in Hf'.
    destruct f' as [|f']; [lia|]. cbn [trimmed]. rewrite trim_match_spec. cbn [span tab_or_blank Nat.eqb orb Nat.ltb Nat.leb andb].
    unfold r. rewrite IH; [reflexivity|discriminate|exact F2|fold r; lia].
Qed.

Lemma contains_10 l : ~ contains [10] l <-> ~ In 10 l.
Proof.
  split; intros H K; apply H.
  - apply in_split in K as (a & b & ->). exists a, b. reflexivity.
  - destruct K as (a & b & ->). apply in_or_app. right. left. reflexivity.
Qed.
