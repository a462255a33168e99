(** The parse functions of lexicons find a change of lexicons without text again when they start there. *)
From Verif Require Import Base BaseFacts TargetModel LexerModel LexerSpec LexiconModel LexiconSpec SkipSpec.
From Coq Require Import ZArith ZifyBool.

Section Lexicon.
Variables L B : Type.
Variable sublex : L -> str -> list (lexeme B).
Variable self : L.
Variable c : compiled L B.
Variable text : str.
Hypothesis Hok : match_ok (c_match c) text.

(** Where a target without text comes from. *)
Definition dt_here (p : nat) (t : target L) : Prop := c_dt c = Some t.
Definition rule_here (p : nat) (t : target L) : Prop :=
  exists m, c_match c false text p = Some m /\ m_start m = p /\ m_end m = p /\ i_target (token sublex self (c_rules c) text m) = Some t.

Lemma da_target da p t : i_target (da_item sublex text da p t) = None.
Proof. destruct da; reflexivity. Qed.
Lemma token_txt m : i_txt (token sublex self (c_rules c) text m) = slice text (m_start m) (m_end m) /\ i_pos (token sublex self (c_rules c) text m) = m_start m.
Proof. unfold token. destruct (nth_error _ _) as [[a t|eval]|]; [split; reflexivity|destruct (eval _ _); split; reflexivity|split; reflexivity]. Qed.
Lemma slice_nil p e : p <= e -> e <= length text -> slice text p e = [] -> p = e.
Proof. intros H1 H2 E. apply (f_equal (@length nat)) in E. unfold slice in E. rewrite firstn_length, skipn_length in E. cbn [length] in E. lia. Qed.

(** A match without text in a scan was tried from its own position. *)
Lemma scan_empty fuel : forall adv pos m, (adv = true -> pos <= length text) -> In m (scan (c_match c) text fuel adv pos) -> slice text (m_start m) (m_end m) = [] ->
  c_match c false text (m_start m) = Some m /\ m_end m = m_start m /\ m_start m <= length text.
Proof.
  induction fuel as [|fuel IH]; intros adv pos m Ha Hin Hs; [destruct Hin|]. cbn [scan] in Hin. destruct (length text <? pos) eqn:El; [destruct Hin|].
  destruct (c_match c adv text pos) as [m0|] eqn:Em; [|apply (IH false (S pos) m); [discriminate|exact Hin|exact Hs]].
  destruct (Hok adv pos m0 ltac:(lia) Em) as (H1 & H2 & H3 & H4). destruct Hin as [->|Hin].
  - pose proof (slice_nil (m_start m) (m_end m) ltac:(lia) H3 Hs) as He. destruct adv; [specialize (H4 eq_refl); lia|]. rewrite H1. split; [exact Em|]. lia.
  - apply (IH _ _ m) in Hin; [exact Hin|intros _; exact H3|exact Hs].
Qed.
Lemma found_empty pos m : In m (finditer (c_match c) text pos) -> slice text (m_start m) (m_end m) = [] ->
  c_match c false text (m_start m) = Some m /\ m_end m = m_start m /\ m_start m <= length text.
Proof. intros H. exact (scan_empty _ false pos m ltac:(discriminate) H). Qed.
Lemma gaps_in da : forall ms pos it, In it (gaps sublex self (c_rules c) da text pos ms) -> i_target it <> None -> exists m, In m ms /\ it = token sublex self (c_rules c) text m.
Proof.
  induction ms as [|m ms IH]; intros pos it Hin Ht.
  - cbn [gaps] in Hin. destruct (pos <? length text); [|destruct Hin]. destruct Hin as [<-|[]]. rewrite da_target in Ht. congruence.
  - cbn [gaps] in Hin. apply in_app_or in Hin as [Hin|[<-|Hin]].
    + destruct (pos <? m_start m); [|destruct Hin]. destruct Hin as [<-|[]]. rewrite da_target in Ht. congruence.
    + exists m. split; [left; reflexivity|reflexivity].
    + destruct (IH _ _ Hin Ht) as (m' & Hm & E). exists m'. split; [right; exact Hm|exact E].
Qed.
Lemma finditer_here p m : p <= length text -> c_match c false text p = Some m -> exists ms, finditer (c_match c) text p = m :: ms.
Proof.
  intros Hp Em. unfold finditer. cbn [Nat.mul]. rewrite Nat.add_0_r. cbn [Nat.add scan]. replace (length text <? p) with false by lia. rewrite Em. eexists. reflexivity.
Qed.

Lemma dt_gen_empty dt k : forall q it t, q <= length text -> dt_gen sublex self (c_rules c) (c_match c) (Some dt) text q k = Some it -> i_txt it = [] -> i_target it = Some t ->
  i_pos it <= length text /\ (rule_here (i_pos it) t \/ dt = t) /\ dt_gen sublex self (c_rules c) (c_match c) (Some dt) text (i_pos it) 0 = Some it.
Proof.
  induction k as [|k IH]; intros q it t Hq E Hx Ht; cbn [dt_gen] in E |- *.
  - destruct (c_match c false text q) as [m|] eqn:Em.
    + injection E as <-. destruct (Hok false q m Hq Em) as (H1 & H2 & H3 & _). destruct (token_txt m) as [X1 X2]. rewrite X1 in Hx.
      pose proof (slice_nil (m_start m) (m_end m) ltac:(lia) H3 Hx) as He. rewrite X2, H1, Em. split; [exact Hq|]. split; [|reflexivity].
      left. exists m. repeat (split; [assumption || lia|]). exact Ht.
    + destruct (q <? length text) eqn:El; [|discriminate]. injection E as <-. cbn [mk_item i_pos i_target] in *. rewrite Em, El. split; [lia|]. split; [right; congruence|reflexivity].
  - destruct (c_match c false text q) as [m|] eqn:Em; [|discriminate]. destruct (Hok false q m Hq Em) as (H1 & H2 & H3 & _). exact (IH _ it t H3 E Hx Ht).
Qed.

Lemma fast_dt_empty needle a t0 dt fuel : needle <> [] -> forall k q it t, nth_error (fast_dt sublex text needle a t0 (Some dt) fuel q) k = Some it -> i_txt it = [] -> i_target it = Some t ->
  i_pos it <= length text /\ dt = t /\ fast_dt sublex text needle a t0 (Some dt) (S (length text - i_pos it)) (i_pos it) = [it].
Proof.
  intros Hn. induction fuel as [|fuel IH]; intros k q it t E Hx Ht; [destruct k; discriminate|]. cbn [fast_dt] in E.
  destruct (str_eqb needle (slice text q (q + length needle))) eqn:En.
  - destruct k; cbn [nth_error] in E; [injection E as <-; cbn in Hx; congruence|exact (IH _ _ _ _ E Hx Ht)].
  - destruct (q <? length text) eqn:El; [|destruct k; discriminate]. destruct k as [|k]; [|destruct k; discriminate]. cbn [nth_error] in E. injection E as <-.
    cbn [mk_item i_pos i_target] in *. split; [lia|]. split; [congruence|]. cbn [fast_dt]. rewrite En, El. reflexivity.
Qed.
Lemma fast_find_empty needle da a t0 fuel : needle <> [] -> forall q it, In it (fast_find sublex text needle da a t0 fuel q) -> i_txt it = [] -> i_target it <> None -> False.
Proof.
  intros Hn. induction fuel as [|fuel IH]; intros q it Hin Hx Ht; [exact Hin|]. cbn [fast_find] in Hin. destruct (str_find needle text q) as [i|].
  - apply in_app_or in Hin as [Hin|[<-|Hin]]; [|cbn in Hx; congruence|exact (IH _ _ Hin Hx Ht)].
    destruct da; [exact Hin| |]; (destruct (q <? i); [|exact Hin]); destruct Hin as [<-|[]]; rewrite da_target in Ht; congruence.
  - destruct da; [exact Hin| |]; (destruct (q <? length text); [|exact Hin]); destruct Hin as [<-|[]]; rewrite da_target in Ht; congruence.
Qed.

Lemma regex_gaps da : da <> NoDA -> forall q k it t, q <= length text ->
  nth_error (gaps sublex self (c_rules c) da text q (finditer (c_match c) text q)) k = Some it -> i_txt it = [] -> i_target it = Some t ->
  i_pos it <= length text /\ rule_here (i_pos it) t /\ nth_error (gaps sublex self (c_rules c) da text (i_pos it) (finditer (c_match c) text (i_pos it))) 0 = Some it.
Proof.
  intros _ q k it t Hq E Hx Ht. destruct (gaps_in _ _ _ _ (nth_error_In _ _ E) ltac:(congruence)) as (m & Hm & ->). destruct (token_txt m) as [X1 X2]. rewrite X1 in Hx. rewrite X2.
  destruct (found_empty _ m Hm Hx) as (S1 & S2 & S3). split; [exact S3|]. split; [exists m; auto|].
  destruct (finditer_here _ _ S3 S1) as (ms & ->). cbn [gaps]. rewrite Nat.ltb_irrefl. reflexivity.
Qed.

Theorem lexicon_again q k it t : q <= length text -> lexicon_parse sublex self c text q k = Some it -> i_txt it = [] -> i_target it = Some t ->
  (rule_here (i_pos it) t \/ c_dt c = Some t) /\ lexicon_parse sublex self c text (i_pos it) 0 = Some it.
Proof.
  intros Hq E Hx Ht. unfold lexicon_parse in *.
  assert (Hempty : parse_empty sublex c text q k = Some it -> (rule_here (i_pos it) t \/ c_dt c = Some t) /\ parse_empty sublex c text (i_pos it) 0 = Some it).
  { unfold parse_empty. destruct (q <? length text) eqn:El; [|destruct k; discriminate]. intros E1.
    destruct (c_da c) eqn:Ed; [|apply nth_error_In in E1; destruct E1 as [<-|[]]; rewrite da_target in Ht; discriminate..].
    destruct (c_dt c) as [dt|] eqn:Edt; [|destruct k; discriminate]. destruct k as [|k]; [|destruct k; discriminate]. cbn [nth_error] in E1. injection E1 as <-.
    cbn [mk_item i_pos i_target] in *. rewrite El. split; [right; exact Ht|reflexivity]. }
  assert (Hregex : parse_regex sublex self c text q k = Some it -> (rule_here (i_pos it) t \/ c_dt c = Some t) /\ parse_regex sublex self c text (i_pos it) 0 = Some it).
  { unfold parse_regex. destruct (c_da c) as [|a|f] eqn:Ed.
    - destruct (c_dt c) as [dt|] eqn:Edt.
      + intros E1. destruct (dt_gen_empty dt k q it t Hq E1 Hx Ht) as (_ & [H1|<-] & H2); auto.
      + intros E1. apply nth_error_In, in_map_iff in E1 as (m & <- & Hm). destruct (token_txt m) as [X1 X2]. rewrite X1 in Hx. rewrite X2.
        destruct (found_empty _ m Hm Hx) as (S1 & S2 & S3). split; [left; exists m; auto|].
        destruct (finditer_here _ _ S3 S1) as (ms & ->). reflexivity.
    - intros E1. destruct (regex_gaps (StaticDA a) ltac:(discriminate) q k it t Hq E1 Hx Ht) as (_ & H1 & H2). auto.
    - intros E1. destruct (regex_gaps (DynDA f) ltac:(discriminate) q k it t Hq E1 Hx Ht) as (_ & H1 & H2). auto. }
  destruct (c_rules c) as [|r rs] eqn:Er; [apply Hempty, E|].
  destruct r as [a t0|eval]; [|apply Hregex; exact E]. destruct rs as [|r2 rs]; [|apply Hregex; exact E].
  destruct (c_needle c) as [[|x needle]|] eqn:En; [apply Hregex; exact E| |apply Hregex; exact E].
  unfold parse_fast in *. cbv zeta in *. destruct (c_da c) as [|a'|f] eqn:Ed.
  - destruct (c_dt c) as [dt|] eqn:Edt.
    + destruct (fast_dt_empty (x :: needle) a _ dt _ ltac:(discriminate) k q it t E Hx Ht) as (_ & -> & ->). split; [right; reflexivity|reflexivity].
    + exfalso. eapply fast_find_empty; [|apply (nth_error_In _ _ E)|exact Hx|congruence]. discriminate.
  - exfalso. eapply fast_find_empty; [|apply (nth_error_In _ _ E)|exact Hx|congruence]. discriminate.
  - exfalso. eapply fast_find_empty; [|apply (nth_error_In _ _ E)|exact Hx|congruence]. discriminate.
Qed.
End Lexicon.
