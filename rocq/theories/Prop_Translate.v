(** C138: replacing words in a document. *)
From Verif Require Import Base BaseFacts RegexModel RegexSpec Prop_Regex.
From Verif Require Import MutableModel MutableSpec MutableProofs BlockModel ReplaceModel ReplaceSpec ReplaceProofs Prop_Replace.
From Verif Require Import TranslateModel TranslateSpec TranslateProofs.
From Coq Require Import ZArith ZifyBool Permutation.

(** The regular expression engine does what is known of [re], for the pattern of these words. *)
Definition engine_ok (word : nat -> bool) (order : list tuple -> list tuple) (re_match : str -> bool -> str -> str -> option nat) (words : list str) (whole : bool) : Prop :=
  forall pattern e, words2regexp order words = Some pattern -> read_regexp pattern = Some e -> searches word whole e (re_match pattern whole).

(** C138, for a mapping that is not empty and has no empty key, and a region that starts at a position that is not negative and, with
    [whole_words], is not next to a character of a word: the region is replaced by a translation of it, with at most one notification, of
    the whole. *)
Theorem C138_translate_partial :
  forall (word : nat -> bool) (order : list tuple -> list tuple) (re_match : str -> bool -> str -> str -> option nat)
         (doc : str) (mapping : list (str * str)) (start : Z) (end_ : option Z) (count : Z) (whole : bool) (a b : nat),
    (forall l, Permutation (order l) l) ->
    engine_ok word order re_match (map fst mapping) whole ->
    mapping <> [] -> (forall v, ~ In ([], v) mapping) ->
    (0 <= start)%Z ->
    key_piece (length doc) (KSlice (Some start) end_) = Some (a, b) ->
    (whole = true -> ends_word word (firstn a doc) = false /\ starts_word word (skipn b doc) = false) ->
    exists ops outs new,
      translate_ops order re_match doc mapping start end_ count whole = Some ops
      /\ translated word mapping whole (skipn b doc) (limit count) (firstn a doc) (slice doc a b) new
      /\ let result := put doc a b new in
         m_run (MState doc 0 []) ops = (MState result 0 [], outs)
         /\ forall before p r n after, outs = before ++ TextChanged p r n :: after -> after = [] /\ splice_of doc result p r n.
Proof.
  intros word order re_match doc mapping start end_ count whole a b Ho Hen Hmap Hne Hs Hk Hout. pose proof (key_piece_in _ _ _ _ Hk) as Hab.
  assert (Hls : length (slice doc a b) = b - a) by (rewrite slice_length; lia).
  assert (Eg : getitem doc (KSlice (Some start) end_) = Some (slice doc a b)).
  { unfold getitem. rewrite <- key_piece_parse, Hk. f_equal. destruct (a =? b) eqn:E1; [symmetry; apply slice_nil; lia|].
    destruct ((a =? 0) && (b =? length doc)) eqn:E2; [|reflexivity]. replace a with 0 by lia. replace b with (length doc) by lia. symmetry. apply slice_all. }
  assert (Hw : map fst mapping <> []) by (destruct mapping; [congruence|discriminate]).
  destruct (C37_words2regexp order (map fst mapping) Ho Hw) as (pattern & e & Ep & Er & Ee).
  unfold translate_ops. rewrite Ep, Eg. set (s := slice doc a b) in *.
  destruct (iter_translated word mapping whole (firstn a doc) (skipn b doc) (re_match pattern whole) e Hout (Hen pattern e Ep Er) Ee Hne s (S (length s)) [] s eq_refl ltac:(lia)) as (ms & I1 & I2 & I3 & I4).
  rewrite I1. cbn [option_map]. destruct (I4 (limit count) 0 (le_n _)) as (new & R1 & R2). rewrite app_nil_r in R2.
  destruct (C65_re_sub_partial doc start end_ count a b ms Hs Hk I2) as (outs & Q1 & Q2).
  { intros m Hm. rewrite <- Hls. apply I3, Hm. }
  fold s in Q1, Q2. assert (El : limited count ms = lim (limit count) ms) by reflexivity. rewrite El, R1 in Q1, Q2.
  unfold slice in Q1, Q2. cbn [length Nat.sub firstn app] in Q1, Q2.
  exists (re_sub_ops start ms count), outs, new. split; [reflexivity|]. split; [exact R2|]. split; [exact Q1|exact Q2].
Qed.
Print Assumptions C138_translate_partial.

(** If no key is the beginning of another, there is one translation only. *)
Theorem C138_unique :
  forall (word : nat -> bool) (mapping : list (str * str)) (whole : bool) (right : str) (n : option nat) (before rest r1 r2 : str),
    prefix_free mapping -> (forall v, ~ In ([], v) mapping) ->
    translated word mapping whole right n before rest r1 -> translated word mapping whole right n before rest r2 -> r1 = r2.
Proof. intros word mapping whole right n before rest r1 r2 Hp Hne H1 H2. exact (translated_unique word mapping whole right Hp Hne n before rest r1 H1 r2 H2). Qed.
Print Assumptions C138_unique.

(** There is such an engine, for any words: one that tries the words. *)
Definition stands_b (word : nat -> bool) (whole : bool) (x t y : str) : bool :=
  negb whole || (negb (Bool.eqb (ends_word word x) (starts_word word (t ++ y))) && negb (Bool.eqb (ends_word word (x ++ t)) (starts_word word y))).
Definition try_words (word : nat -> bool) (words : list str) (_ : str) (whole : bool) (x y : str) : option nat :=
  find (fun k => existsb (str_eqb (firstn k y)) words && stands_b word whole x (firstn k y) (skipn k y)) (seq 0 (S (length y))).
Lemma stands_b_ok word whole x t y : stands_b word whole x t y = true <-> stands word whole x t y.
Proof.
  unfold stands_b, stands, boundary. destruct whole; cbn [negb orb]; [|split; [discriminate|reflexivity]].
  destruct (ends_word word x), (starts_word word (t ++ y)), (ends_word word (x ++ t)), (starts_word word y); cbn; split; try discriminate; try reflexivity;
    intros H; try (split; discriminate); exfalso; specialize (H eq_refl) as [H1 H2]; congruence.
Qed.
Example C138_engine : forall word order words whole, (forall l, Permutation (order l) l) -> words <> [] -> engine_ok word order (try_words word words) words whole.
Proof.
  intros word order words whole Ho Hw pattern e Ep Er x y. destruct (C37_words2regexp order words Ho Hw) as (p' & e' & Ep' & Er' & Ee).
  rewrite Ep in Ep'. injection Ep' as <-. rewrite Er in Er'. injection Er' as <-.
  destruct (try_words word words pattern whole x y) as [k|] eqn:E; unfold try_words in E.
  - apply find_some in E as [Hin E]. apply in_seq in Hin. apply andb_true_iff in E as [E1 E2]. apply existsb_exists in E1 as (w & Hw1 & E1). apply str_eqb_spec in E1.
    split; [lia|]. split; [apply Ee; rewrite E1; exact Hw1|apply stands_b_ok, E2].
  - intros t z -> Hm Hst. apply Ee in Hm. assert (Hin : In (length t) (seq 0 (S (length (t ++ z))))) by (apply in_seq; rewrite app_length; lia).
    pose proof (find_none _ _ E _ Hin) as H. cbv beta in H. rewrite firstn_app, skipn_app, firstn_all, skipn_all, Nat.sub_diag in H. cbn [firstn skipn app] in H. rewrite app_nil_r in H.
    assert (H1 : existsb (str_eqb t) words = true) by (apply existsb_exists; exists t; split; [exact Hm|apply str_eqb_refl]).
    rewrite H1 in H. apply stands_b_ok in Hst. rewrite Hst in H. discriminate.
Qed.

(** Whole words: "ab" becomes "x" and "c" becomes "ab" in "ab abc c"; that is "x abc ab". *)
Example C138_case :
  let word c := (97 <=? c) && (c <=? 122) in
  let mapping := [([97; 98], [120]); ([99], [97; 98])] in
  let doc := [97; 98; 32; 97; 98; 99; 32; 99] in
  mapping <> [] /\ (forall v, ~ In ([], v) mapping) /\ prefix_free mapping
  /\ key_piece (length doc) (KSlice (Some 0%Z) None) = Some (0, length doc)
  /\ ends_word word (firstn 0 doc) = false /\ starts_word word (skipn (length doc) doc) = false
  /\ option_map (fun ops => m_text (fst (m_run (MState doc 0 []) ops))) (translate_ops order_id (try_words word (map fst mapping)) doc mapping 0 None 0 true)
     = Some [120; 32; 97; 98; 99; 32; 97; 98].
Proof.
  split; [discriminate|]. split; [intros v [H|[H|[]]]; discriminate|]. split.
  { intros k v k' v' [H|[H|[]]] [K|[K|[]]] (z & E); injection H as <- <-; injection K as <- <-; try (split; reflexivity); discriminate. }
  repeat split; vm_compute; reflexivity.
Qed.

(** C138 is false for the empty mapping: an exception is raised, for every document. It is false for a region that ends inside a word:
    with [whole_words], a part of a word is replaced that is at the end of the region. *)
Theorem C138_refuted :
  (forall (word : nat -> bool) order re_match doc start end_ count whole, (forall l, Permutation (order l) l) ->
     engine_ok word order re_match [] whole -> whole = false -> translate_ops order re_match doc [] start end_ count whole = None)
  /\ exists (word : nat -> bool) doc mapping ops, engine_ok word order_id (try_words word (map fst mapping)) (map fst mapping) true
       /\ Forall (fun c => word c = true) doc /\ (forall v, ~ In (doc, v) mapping)
       /\ translate_ops order_id (try_words word (map fst mapping)) doc mapping 0 (Some 1%Z) 0 true = Some ops
       /\ m_text (fst (m_run (MState doc 0 []) ops)) <> doc.
Proof.
  split.
  - intros word order re_match doc start end_ count whole Ho Hen ->. unfold translate_ops. cbn [map].
    destruct (C37_no_words_refuted order Ho) as (pattern & e & Ep & Er & Em). rewrite Ep.
    destruct (getitem doc _) as [text|]; [|reflexivity]. cbn [find_iter]. pose proof (Hen pattern e Ep Er [] text) as H.
    destruct (re_match pattern false [] text) as [k|]; [reflexivity|]. exfalso. apply (H [] text eq_refl Em). intros E. discriminate.
  - exists (fun c => 97 <=? c), [97; 98], [([97], [120])], (re_sub_ops 0 [Change 0 1 [120]] 0).
    split; [apply C138_engine; [intros l; apply Permutation_refl|discriminate]|]. split; [repeat constructor|]. split; [intros v [H|[]]; discriminate|].
    split; [vm_compute; reflexivity|vm_compute; discriminate].
Qed.
Print Assumptions C138_refuted.
