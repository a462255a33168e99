(** Proofs about [translate]. *)
From Verif Require Import Base BaseFacts MutableModel MutableSpec ReplaceModel ReplaceSpec RegexModel RegexSpec TranslateModel TranslateSpec.
From Coq Require Import ZArith ZifyBool.

Lemma lookup_in k mapping v : lookup k mapping = Some v -> In (k, v) mapping.
Proof.
  induction mapping as [|(l, w) mapping IH]; [discriminate|]. cbn [lookup]. destruct (str_eqb l k) eqn:E.
  - apply str_eqb_spec in E. subst. intros [= ->]. left. reflexivity.
  - intros H. right. apply IH, H.
Qed.
Lemma lookup_some k mapping : In k (map fst mapping) -> exists v, lookup k mapping = Some v.
Proof.
  induction mapping as [|(l, w) mapping IH]; [intros []|]. cbn [map fst In lookup]. destruct (str_eqb l k) eqn:E; [eauto|].
  intros [->|H]; [|apply IH, H]. rewrite str_eqb_refl in E. discriminate.
Qed.

Lemma slice_snoc (full pre : str) c s from_ : full = pre ++ c :: s -> from_ <= length pre -> slice full from_ (S (length pre)) = slice full from_ (length pre) ++ [c].
Proof.
  intros E H. unfold slice. replace (S (length pre) - from_) with ((length pre - from_) + 1) by lia.
  assert (Es : skipn from_ full = skipn from_ pre ++ c :: s) by (rewrite E, skipn_app; replace (from_ - length pre) with 0 by lia; reflexivity).
  rewrite Es, !firstn_app, skipn_length. replace (length pre - from_ + 1 - (length pre - from_)) with 1 by lia. replace (length pre - from_ - (length pre - from_)) with 0 by lia.
  rewrite (firstn_all2 (n := length pre - from_ + 1)) by (rewrite skipn_length; lia). rewrite (firstn_all2 (n := length pre - from_)) by (rewrite skipn_length; lia).
  cbn. rewrite app_nil_r. reflexivity.
Qed.

Lemma sub_none (full before s : str) from_ : full = before ++ s -> from_ <= length before -> skipn from_ full = slice full from_ (length before) ++ s.
Proof.
  intros E H. unfold slice. rewrite E, skipn_app. replace (from_ - length before) with 0 by lia. cbn [skipn]. rewrite firstn_app, skipn_length, Nat.sub_diag. cbn [firstn].
  rewrite app_nil_r, firstn_all2 by (rewrite skipn_length; lia). reflexivity.
Qed.

Section Proofs.
Variable word : nat -> bool.

Lemma ends_left left x : ends_word word left = false -> ends_word word (left ++ x) = ends_word word x.
Proof. intros H. unfold ends_word in *. rewrite rev_app_distr. destruct (rev x); [exact H|reflexivity]. Qed.
Lemma starts_right y right : starts_word word right = false -> starts_word word (y ++ right) = starts_word word y.
Proof. intros H. destruct y; [exact H|reflexivity]. Qed.
Lemma stands_outside whole left x t y right : (whole = true -> ends_word word left = false /\ starts_word word right = false) ->
  stands word whole (left ++ x) t (y ++ right) <-> stands word whole x t y.
Proof.
  intros H. unfold stands, boundary. split; intros K Hw; specialize (K Hw); destruct (H Hw) as [H1 H2].
  - rewrite (app_assoc t y right), <- (app_assoc left x t), (ends_left left x), (ends_left left (x ++ t)), (starts_right (t ++ y) right), (starts_right y right) in K by assumption. exact K.
  - rewrite (app_assoc t y right), <- (app_assoc left x t), (ends_left left x), (ends_left left (x ++ t)), (starts_right (t ++ y) right), (starts_right y right) by assumption. exact K.
Qed.

Definition lim {X} (n : option nat) (l : list X) : list X := match n with None => l | Some n => firstn n l end.

Variables (mapping : list (str * str)) (whole : bool) (left right : str) (m : str -> str -> option nat) (e : rx).
Hypothesis Hout : whole = true -> ends_word word left = false /\ starts_word word right = false.
Hypothesis Hm : searches word whole e m.
Hypothesis He : forall t, matches e t <-> In t (map fst mapping).
Hypothesis Hne : forall v, ~ In ([], v) mapping.

Lemma iter_translated full : forall fuel before s, full = before ++ s -> length s < fuel ->
  exists ms, find_iter m mapping fuel before s = Some ms /\ ordered (length before) ms /\ (forall c, In c ms -> g_end c <= length full)
    /\ forall n from_, from_ <= length before -> exists result, substituted full from_ (lim n ms) = slice full from_ (length before) ++ result
         /\ translated word mapping whole right n (left ++ before) s result.
Proof.
  induction fuel as [|fuel IH]; intros before s Hfull Hf; [lia|]. cbn [find_iter]. pose proof (Hm before s) as Hms.
  destruct (m before s) as [k|] eqn:Em.
  - destruct Hms as (Hk & Hmat & Hst). apply He in Hmat. destruct (lookup_some _ _ Hmat) as (v & Ev). rewrite Ev.
    assert (Hk0 : k <> 0) by (intros ->; apply lookup_in in Ev; exact (Hne v Ev)). destruct (k =? 0) eqn:Ek; [lia|].
    destruct (IH (before ++ firstn k s) (skipn k s)) as (ms & I1 & I2 & I3 & I4).
    { rewrite <- app_assoc, firstn_skipn. exact Hfull. }
    { rewrite skipn_length. lia. }
    rewrite I1. cbn [option_map]. eexists. split; [reflexivity|]. rewrite app_length, firstn_length in I2. replace (Nat.min k (length s)) with k in I2 by lia.
    split; [cbn [ordered g_start g_end]; repeat split; [lia|lia|exact I2]|]. split.
    { intros c [<-|Hc]; [|apply I3, Hc]. cbn [g_end]. rewrite Hfull, app_length. lia. }
    intros n from_ Hfrom. destruct n as [[|n]|].
    + exists s. split; [apply sub_none; assumption|constructor].
    + destruct (I4 (Some n) (length before + k)) as (result & R1 & R2); [rewrite app_length, firstn_length; lia|].
      exists (v ++ result). split.
      * cbn [lim firstn substituted g_start g_end g_text] in *. rewrite R1. rewrite (slice_nil full (length before + k)) by (rewrite app_length, firstn_length; lia). reflexivity.
      * rewrite <- (firstn_skipn k s) at 1. apply T_key; [congruence|apply lookup_in, Ev| |].
        -- apply stands_outside; assumption.
        -- rewrite <- app_assoc. exact R2.
    + destruct (I4 None (length before + k)) as (result & R1 & R2); [rewrite app_length, firstn_length; lia|].
      exists (v ++ result). split.
      * cbn [lim firstn substituted g_start g_end g_text] in *. rewrite R1. rewrite (slice_nil full (length before + k)) by (rewrite app_length, firstn_length; lia). reflexivity.
      * rewrite <- (firstn_skipn k s) at 1. apply T_key; [congruence|apply lookup_in, Ev| |].
        -- apply stands_outside; assumption.
        -- rewrite <- app_assoc. exact R2.
  - destruct s as [|c s].
    + exists []. split; [reflexivity|]. split; [exact I|]. split; [intros c []|]. intros n from_ Hfrom. exists []. split; [|constructor].
      rewrite <- (sub_none full before [] from_ Hfull Hfrom). destruct n as [[|n]|]; reflexivity.
    + destruct (IH (before ++ [c]) s) as (ms & I1 & I2 & I3 & I4).
      { rewrite <- app_assoc. exact Hfull. }
      { cbn in Hf. lia. }
      rewrite I1. exists ms. split; [reflexivity|]. rewrite app_length in I2. cbn [length] in I2. split.
      { revert I2. destruct ms; cbn [ordered]; [auto|]. intros (? & ? & ?). repeat split; [lia|assumption|assumption]. }
      split; [exact I3|]. intros n from_ Hfrom. destruct (I4 n from_) as (result & R1 & R2); [rewrite app_length; lia|].
      assert (En : n = Some 0 \/ n <> Some 0) by (destruct n as [[|]|]; [left; reflexivity|right; discriminate|right; discriminate]).
      destruct En as [->|En].
      { exists (c :: s). split; [apply sub_none; assumption|constructor]. }
      exists (c :: result). split.
      * rewrite R1. rewrite app_length. cbn [length]. replace (length before + 1) with (S (length before)) by lia. rewrite (slice_snoc full before c s) by assumption.
        rewrite <- app_assoc. reflexivity.
      * apply T_char; [exact En| |rewrite <- app_assoc; exact R2].
        intros key value rest1 Hin Es Hst. apply (Hms key rest1 Es); [apply He, (in_map fst _ _ Hin)|]. apply stands_outside in Hst; assumption.
Qed.
End Proofs.

Lemma translated_nil word mapping whole right : (forall v, ~ In ([], v) mapping) ->
  forall n before rest r, translated word mapping whole right n before rest r -> rest = [] -> r = [].
Proof.
  intros Hne n before rest r H E. destruct H as [n before|before s|n before key value rest result Hn Hin Hst HT|n before c rest result Hn Hno HT]; [reflexivity|exact E| |discriminate].
  apply app_eq_nil in E as [-> ->]. exfalso. exact (Hne value Hin).
Qed.
Lemma translated_stop word mapping whole right :
  forall n before rest r, translated word mapping whole right n before rest r -> n = Some 0 -> r = rest.
Proof. intros n before rest r H E. destruct H; try reflexivity; contradiction. Qed.

(** The translation is determined if no key is the beginning of another. *)
Lemma translated_unique word mapping whole right : prefix_free mapping -> (forall v, ~ In ([], v) mapping) ->
  forall n before rest r1, translated word mapping whole right n before rest r1 -> forall r2, translated word mapping whole right n before rest r2 -> r1 = r2.
Proof.
  intros Hp Hne. induction 1 as [n before|before rest|n before key value rest result Hn Hin Hst HT IH|n before c rest result Hn Hno HT IH]; intros r2 H2.
  - symmetry. exact (translated_nil word mapping whole right Hne n before [] r2 H2 eq_refl).
  - symmetry. exact (translated_stop word mapping whole right (Some 0) before rest r2 H2 eq_refl).
  - remember (key ++ rest) as s eqn:Es.
    destruct H2 as [n before|before s|n before key' value' rest' result' Hn' Hin' Hst' HT'|n before c rest' result' Hn' Hno' HT'].
    + symmetry in Es. apply app_eq_nil in Es as [-> ->]. exfalso. exact (Hne value Hin).
    + congruence.
    + assert (E : key = key' /\ value = value').
      { clear - Es Hp Hin Hin'. assert (P : (exists z, key' = key ++ z) \/ (exists z, key = key' ++ z)).
        { clear - Es. revert key' Es. induction key as [|x key IH]; intros key' Es; [left; exists key'; reflexivity|].
          destruct key' as [|y key']; [right; exists (x :: key); reflexivity|]. cbn in Es. injection Es as -> Es.
          destruct (IH key' Es) as [(z & ->)|(z & ->)]; [left|right]; exists z; reflexivity. }
        destruct P as [P|P]; [apply (Hp _ _ _ _ Hin Hin' P)|]. destruct (Hp _ _ _ _ Hin' Hin P). split; congruence. }
      destruct E as [-> ->]. apply app_inv_head in Es. subst rest'. f_equal. apply IH, HT'.
    + exfalso. exact (Hno' key value rest Hin Es Hst).
  - remember (c :: rest) as s eqn:Es.
    destruct H2 as [n before|before s|n before key' value' rest' result' Hn' Hin' Hst' HT'|n before c' rest' result' Hn' Hno' HT'].
    + discriminate.
    + congruence.
    + exfalso. exact (Hno key' value' rest' Hin' eq_refl Hst').
    + injection Es as -> ->. f_equal. apply IH, HT'.
Qed.
