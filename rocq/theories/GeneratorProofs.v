(** What the generators of a lexicon yield, one position at a time. *)
From Verif Require Import Base BaseFacts TargetModel LexerModel LexiconModel LexiconSpec.

Section Gen.
Variables L B : Type.
Variable sublex : L -> str -> list (lexeme B).
Variable self : L.
Variable c : compiled L B.
Variable text : str.
Hypothesis Hn : c_needle c = None.
Hypothesis Hr : c_rules c <> [].
Notation mat := (c_match c).
Hypothesis Hm : match_ok mat text.
Notation parse := (lexicon_parse sublex self c text).
Notation TOK := (token sublex self (c_rules c) text).

Definition measure_of (adv : bool) (pos : nat) : nat := 2 * S (length text) - 2 * pos - (if adv then 1 else 0).

Lemma scan_enough : forall fuel fuel' adv pos, measure_of adv pos <= fuel -> measure_of adv pos <= fuel' ->
  scan mat text fuel adv pos = scan mat text fuel' adv pos.
Proof.
  induction fuel as [| fuel IH]; intros fuel' adv pos H1 H2.
  - destruct fuel' as [| fuel']; [reflexivity |]. cbn [scan]. destruct (Nat.ltb_spec (length text) pos) as [H | H]; [reflexivity |].
    unfold measure_of in H1. destruct adv; lia.
  - destruct fuel' as [| fuel']; cbn [scan]; destruct (Nat.ltb_spec (length text) pos) as [H | H]; try reflexivity.
    + unfold measure_of in H2. destruct adv; lia.
    + destruct (mat adv text pos) as [m |] eqn:E.
      * destruct (Hm adv pos m H E) as (E1 & E2 & E3 & E4). rewrite E1. f_equal.
        destruct (Nat.eqb_spec (m_end m) pos) as [Eq | Ne].
        -- destruct adv; [specialize (E4 eq_refl); lia |]. apply IH; unfold measure_of in *; lia.
        -- apply IH; unfold measure_of in *; destruct adv; lia.
      * apply IH; unfold measure_of in *; destruct adv; lia.
Qed.

Lemma finditer_none pos : pos <= length text -> mat false text pos = None -> finditer mat text pos = finditer mat text (S pos).
Proof.
  intros H E. unfold finditer. replace (2 * S (length text - pos)) with (S (S (2 * (length text - pos)))) by lia. set (f := S (2 * (length text - pos))).
  cbn [scan]. destruct (Nat.ltb_spec (length text) pos); [lia |]. rewrite E. apply scan_enough; unfold measure_of, f; lia.
Qed.
Lemma finditer_some pos m : pos <= length text -> mat false text pos = Some m -> pos < m_end m -> finditer mat text pos = m :: finditer mat text (m_end m).
Proof.
  intros H E Hlt. unfold finditer. replace (2 * S (length text - pos)) with (S (S (2 * (length text - pos)))) by lia. set (f := S (2 * (length text - pos))).
  cbn [scan]. destruct (Nat.ltb_spec (length text) pos); [lia |]. rewrite E. destruct (Hm false pos m H E) as (E1 & E2 & E3 & _). rewrite E1.
  destruct (Nat.eqb_spec (m_end m) pos) as [Eq | _]; [lia |]. f_equal. apply scan_enough; unfold measure_of, f; lia.
Qed.
Lemma finditer_any pos m : pos <= length text -> mat false text pos = Some m -> exists ms, finditer mat text pos = m :: ms.
Proof.
  intros H E. unfold finditer. replace (2 * S (length text - pos)) with (S (S (2 * (length text - pos)))) by lia.
  cbn [scan]. destruct (Nat.ltb_spec (length text) pos); [lia |]. rewrite E. eexists. reflexivity.
Qed.
Lemma finditer_last : mat false text (length text) = None -> finditer mat text (length text) = [].
Proof.
  intros E. rewrite finditer_none by (lia || exact E). unfold finditer. destruct (2 * _) as [| f]; [reflexivity |]. cbn [scan].
  destruct (Nat.ltb_spec (length text) (S (length text))); [reflexivity | lia].
Qed.

Lemma parse_is_regex pos j : parse pos j = parse_regex sublex self c text pos j.
Proof. unfold lexicon_parse. rewrite Hn. destruct (c_rules c) as [| [a t | e] [| r rs]]; try reflexivity. congruence. Qed.

(** ** Without default action or target *)
Section Plain.
Hypothesis Hda : c_da c = NoDA.
Hypothesis Hdt : c_dt c = None.
Lemma plain_is pos j : parse pos j = nth_error (map TOK (finditer mat text pos)) j.
Proof. rewrite parse_is_regex. unfold parse_regex. now rewrite Hda, Hdt. Qed.
Lemma plain_none pos : pos <= length text -> mat false text pos = None -> forall j, parse pos j = parse (S pos) j.
Proof. intros H E j. now rewrite !plain_is, (finditer_none pos H E). Qed.
Lemma plain_some pos m : pos <= length text -> mat false text pos = Some m -> pos < m_end m ->
  parse pos 0 = Some (TOK m) /\ forall j, parse pos (S j) = parse (m_end m) j.
Proof. intros H E Hlt. rewrite plain_is, (finditer_some pos m H E Hlt). split; [reflexivity |]. intros j. now rewrite !plain_is, (finditer_some pos m H E Hlt). Qed.
Lemma plain_any pos m : pos <= length text -> mat false text pos = Some m -> parse pos 0 = Some (TOK m).
Proof. intros H E. rewrite plain_is. destruct (finditer_any pos m H E) as [ms ->]. reflexivity. Qed.
Lemma plain_end : mat false text (length text) = None -> parse (length text) 0 = None.
Proof. intros E. rewrite plain_is, (finditer_last E). reflexivity. Qed.
End Plain.

(** ** With a default target *)
Section Dt.
Variable dt : target L.
Hypothesis Hda : c_da c = NoDA.
Hypothesis Hdt : c_dt c = Some dt.
Lemma dt_is pos j : parse pos j = dt_gen sublex self (c_rules c) mat (Some dt) text pos j.
Proof. rewrite parse_is_regex. unfold parse_regex. now rewrite Hda, Hdt. Qed.
Lemma dt_some pos m : mat false text pos = Some m -> parse pos 0 = Some (TOK m) /\ forall j, parse pos (S j) = parse (m_end m) j.
Proof. intros E. rewrite dt_is. cbn [dt_gen]. rewrite E. split; [reflexivity |]. intros j. rewrite !dt_is. cbn [dt_gen]. now rewrite E. Qed.
Lemma dt_none pos : pos < length text -> mat false text pos = None -> parse pos 0 = Some (mk_item sublex text pos [] None None (Some dt)).
Proof. intros H E. rewrite dt_is. cbn [dt_gen]. rewrite E. destruct (Nat.ltb_spec pos (length text)); [reflexivity | lia]. Qed.
Lemma dt_end : mat false text (length text) = None -> parse (length text) 0 = None.
Proof. intros E. rewrite dt_is. cbn [dt_gen]. rewrite E. destruct (Nat.ltb_spec (length text) (length text)); [lia | reflexivity]. Qed.
End Dt.

(** ** With a default action *)
Section Da.
Hypothesis Hda : c_da c <> NoDA.
Lemma da_is pos j : parse pos j = nth_error (gaps sublex self (c_rules c) (c_da c) text pos (finditer mat text pos)) j.
Proof. rewrite parse_is_regex. unfold parse_regex. destruct (c_da c); [congruence | reflexivity | reflexivity]. Qed.
Lemma da_some pos m : pos <= length text -> mat false text pos = Some m -> pos < m_end m ->
  parse pos 0 = Some (TOK m) /\ forall j, parse pos (S j) = parse (m_end m) j.
Proof.
  intros H E Hlt. destruct (Hm false pos m H E) as (E1 & _). rewrite da_is, (finditer_some pos m H E Hlt). cbn [gaps]. rewrite E1.
  destruct (Nat.ltb_spec pos pos); [lia |]. cbn [app nth_error]. split; [reflexivity |].
  intros j. rewrite !da_is, (finditer_some pos m H E Hlt). cbn [gaps]. rewrite E1. destruct (Nat.ltb_spec pos pos); [lia | reflexivity].
Qed.
(** A match of nothing, only the first item. *)
Lemma da_any pos m : pos <= length text -> mat false text pos = Some m -> parse pos 0 = Some (TOK m).
Proof.
  intros H E. destruct (Hm false pos m H E) as (E1 & _). rewrite da_is. destruct (finditer_any pos m H E) as [ms ->]. cbn [gaps]. rewrite E1.
  destruct (Nat.ltb_spec pos pos); [lia | reflexivity].
Qed.
Lemma finditer_gap pos a : pos <= a <= length text -> (forall p, pos <= p < a -> mat false text p = None) -> finditer mat text pos = finditer mat text a.
Proof.
  intros [H1 H2] H. remember (a - pos) as k eqn:Ek. revert pos H1 H Ek. induction k as [| k IH]; intros pos H1 H Ek; [f_equal; lia |].
  rewrite finditer_none by (lia || (apply H; lia)). apply IH; [lia | | lia]. intros p Hp. apply H. lia.
Qed.
Lemma da_gap pos a : pos < a <= length text -> (forall p, pos <= p < a -> mat false text p = None) -> (a = length text -> mat false text a = None) ->
  (a < length text -> mat false text a <> None) ->
  parse pos 0 = Some (da_item sublex text (c_da c) pos (slice text pos a)) /\ forall j, parse pos (S j) = parse a j.
Proof.
  intros H1 H2 H3 H4. pose proof (finditer_gap pos a ltac:(lia) H2) as E.
  destruct (Nat.eq_dec a (length text)) as [Ha | Ha].
  - specialize (H3 Ha). subst a. pose proof (finditer_last H3) as E'. rewrite E' in E. split.
    + rewrite da_is, E. cbn [gaps]. destruct (Nat.ltb_spec pos (length text)); [| lia]. cbn [nth_error]. now rewrite slice_from.
    + intros j. rewrite !da_is, E, E'. cbn [gaps]. destruct (Nat.ltb_spec pos (length text)); [| lia].
      destruct (Nat.ltb_spec (length text) (length text)); [lia |]. reflexivity.
  - specialize (H4 ltac:(lia)). destruct (mat false text a) as [m |] eqn:Em; [| congruence]. destruct (Hm false a m ltac:(lia) Em) as (E1 & _).
    destruct (finditer_any a m ltac:(lia) Em) as [ms E']. rewrite E' in E. split.
    + rewrite da_is, E. cbn [gaps]. rewrite E1. destruct (Nat.ltb_spec pos a); [| lia]. reflexivity.
    + intros j. rewrite !da_is, E, E'. cbn [gaps]. rewrite E1. destruct (Nat.ltb_spec pos a); [| lia]. destruct (Nat.ltb_spec a a); [lia | reflexivity].
Qed.
Lemma da_end : mat false text (length text) = None -> parse (length text) 0 = None.
Proof. intros E. rewrite da_is, (finditer_last E). cbn [gaps]. destruct (Nat.ltb_spec (length text) (length text)); [lia | reflexivity]. Qed.
End Da.
End Gen.
