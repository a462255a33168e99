(** Patterns made from words and from characters (C37, C38). *)
From Verif Require Import Base BaseFacts RegexModel RegexSpec RegexLangProofs RegexTupleProofs RegexBuildProofs.
From Coq Require Import Permutation.

(** C37.  For every non-empty list of words, and whatever the order in which Python goes through its sets, [words2regexp] writes a pattern
    that can be read, and the texts that it matches in full are exactly the words. *)
Theorem C37_words2regexp : forall (order : list tuple -> list tuple) (words : list str),
  (forall l, Permutation (order l) l) -> words <> [] ->
  exists pattern e, words2regexp order words = Some pattern /\ read_regexp pattern = Some e /\ forall t, matches e t <-> In t words.
Proof.
  intros order words Ho Hne. destruct (words2regexp_alt order Ho words Hne) as (s & Es & Ha). destruct (alt_read s _ Ha) as (e & Ee & He).
  exists s, e. split; [exact Es|]. split; [exact Ee|exact He].
Qed.

(** C37 for [words] with a prefix and a suffix that stand for themselves: the matched texts are the words between them. *)
Theorem C37_words_affixes : forall (order : list tuple -> list tuple) (words : list str) (prefix suffix : str),
  (forall l, Permutation (order l) l) -> words <> [] ->
  exists pattern e, rule_words order words (re_escape prefix) (re_escape suffix) = Some pattern /\ read_regexp pattern = Some e
    /\ forall t, matches e t <-> exists w, In w words /\ t = prefix ++ w ++ suffix.
Proof.
  intros order words prefix suffix Ho Hne. destruct (words2regexp_alt order Ho words Hne) as (s & Es & Ha). unfold rule_words. rewrite Es.
  assert (H1 : alt_ok (re_escape prefix ++ ([40; 63; 58] ++ s ++ [41]) ++ re_escape suffix) (fun t => exists w, In w words /\ t = prefix ++ w ++ suffix)).
  { apply seq_alt. eapply seq_ok_eqv; [|apply seq_app; [apply escape_seq|apply seq_app; [apply atom_seq, group_atom, Ha|apply escape_seq]]].
    intros t. unfold cat, word. split.
    - intros (a & b & -> & -> & w & c & -> & Hw & ->). exists w. split; [exact Hw|reflexivity].
    - intros (w & Hw & ->). exists prefix, (w ++ suffix). split; [reflexivity|]. split; [reflexivity|]. exists w, suffix. repeat split. exact Hw. }
  assert (Hp : (exists pattern, match re_escape prefix, re_escape suffix with [], [] => Some s | _, _ => Some (re_escape prefix ++ [40; 63; 58] ++ s ++ [41] ++ re_escape suffix) end = Some pattern
     /\ alt_ok pattern (fun t => exists w, In w words /\ t = prefix ++ w ++ suffix))).
  { assert (Hg : re_escape prefix ++ [40; 63; 58] ++ s ++ [41] ++ re_escape suffix = re_escape prefix ++ ([40; 63; 58] ++ s ++ [41]) ++ re_escape suffix) by (rewrite <- !app_assoc; reflexivity).
    rewrite Hg. destruct (re_escape prefix) as [|c p] eqn:Ep; [|eexists; split; [reflexivity|exact H1]]. destruct (re_escape suffix) as [|c p] eqn:Ef; [|eexists; split; [reflexivity|exact H1]].
    pose proof (escape_len prefix) as L1. pose proof (escape_len suffix) as L2. rewrite Ep in L1. rewrite Ef in L2. destruct prefix; [|cbn [length] in L1; lia]. destruct suffix; [|cbn [length] in L2; lia].
    exists s. split; [reflexivity|]. eapply alt_ok_eqv; [|exact Ha]. intros t. split; [intros H; exists t; rewrite app_nil_r; split; [exact H|reflexivity]|intros (w & Hw & ->); rewrite app_nil_r; exact Hw]. }
  destruct Hp as (pattern & E & HA). destruct (alt_read pattern _ HA) as (e & Ee & He). exists pattern, e. split; [exact E|]. split; [exact Ee|exact He].
Qed.

(** The condition that there are words is needed: without words the pattern is the empty one, which matches the empty text. *)
Theorem C37_no_words_refuted : forall order, (forall l, Permutation (order l) l) ->
  exists pattern e, words2regexp order [] = Some pattern /\ read_regexp pattern = Some e /\ matches e [].
Proof.
  intros order Ho. assert (E : order [] = []) by (apply Permutation_nil, Permutation_sym, Ho). exists [], (RGroup [[]]). split; [|split; [reflexivity|left; reflexivity]].
  assert (E1 : words2regexp order [] = build_regexp order 2 [PSet false [] []]) by reflexivity. rewrite E1. cbn. rewrite E. reflexivity.
Qed.

(** C38.  For every non-empty collection of characters, [chars] writes a pattern that can be read; it matches in full the texts that are
    one of the characters, and with [positive] false the texts that are one other character. *)
Theorem C38_chars : forall (chars : list nat) (positive : bool), chars <> [] ->
  exists e, read_regexp (rule_chars chars positive) = Some e
    /\ forall t, matches e t <-> exists c, t = [c] /\ (if positive then In c chars else ~ In c chars).
Proof.
  intros chars positive Hne. pose proof (class_atom chars (negb positive) Hne) as HA.
  assert (E : 91 :: (if negb positive then [94] else []) ++ make_charclass chars ++ [93] = rule_chars chars positive) by (unfold rule_chars; destruct positive; reflexivity).
  rewrite E in HA. destruct (alt_read _ _ (seq_alt _ _ (atom_seq _ _ HA))) as (e & Ee & He). exists e. split; [exact Ee|]. intros t. rewrite (He t). destruct positive; reflexivity.
Qed.
(** Without characters the text is no pattern. *)
Theorem C38_no_chars_refuted : forall positive, read_regexp (rule_chars [] positive) = None.
Proof. intros [|]; reflexivity. Qed.

(** Cases: the two of the documentation, [(?:mam|pap|o[mp])a] and [c[ad]{1,2}r], and one with the empty word and special characters. *)
Definition order_id (l : list tuple) : list tuple := l.
Example C37_case_1 : forall l, Permutation (order_id l) l.
Proof. intros l. apply Permutation_refl. Qed.
Example C37_case_2 : words2regexp order_id [[111; 112; 97]; [111; 109; 97]; [109; 97; 109; 97]; [112; 97; 112; 97]]
  = Some [40; 63; 58; 109; 97; 109; 124; 112; 97; 112; 124; 111; 91; 109; 112; 93; 41; 97].
Proof. reflexivity. Qed.
Example C37_case_3 : words2regexp order_id [[99; 97; 114]; [99; 100; 114]; [99; 97; 97; 114]; [99; 97; 100; 114]; [99; 100; 97; 114]; [99; 100; 100; 114]]
  = Some [99; 91; 97; 100; 93; 123; 49; 44; 50; 125; 114].
Proof. reflexivity. Qed.
Example C37_case_4 : exists s, words2regexp order_id [[]; [43]; [43; 42; 43; 42]; [92; 45]] = Some s.
Proof. eexists. reflexivity. Qed.
Example C37_case_5 : rule_words order_id [[97; 98]; [97]] (re_escape [46]) (re_escape []) = Some [92; 46; 40; 63; 58; 97; 98; 63; 41].
Proof. reflexivity. Qed.
(** ["abcd]-^"]: [[\-\]-\^a-d]] *)
Example C38_case_1 : rule_chars [97; 98; 99; 100; 93; 45; 94] true = [91; 92; 45; 92; 93; 92; 94; 97; 45; 100; 93].
Proof. reflexivity. Qed.
Example C38_case_2 : exists e, read_regexp (rule_chars [97; 98; 99; 100; 93; 45; 94] false) = Some e /\ ~ matches e [98] /\ matches e [101].
Proof.
  destruct (C38_chars [97; 98; 99; 100; 93; 45; 94] false ltac:(discriminate)) as (e & E & H). exists e. split; [exact E|]. split.
  - intros M. apply H in M. destruct M as (c & [= <-] & N). apply N. right. left. reflexivity.
  - apply H. exists 101. split; [reflexivity|]. intros N. cbn in N. lia.
Qed.

Print Assumptions C37_words2regexp.
Print Assumptions C37_words_affixes.
Print Assumptions C37_no_words_refuted.
Print Assumptions C38_chars.
Print Assumptions C38_no_chars_refuted.
