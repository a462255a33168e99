(** C105-C107: reading JSON. *)
From Verif Require Import Base BaseFacts TargetModel TargetSpec LexerModel LexerSpec LexerProofs LexiconModel LexiconSpec TreeModel TreeSpec TreeProofs BuildModel BuildProofs
  TransformModel TransformSpec TransformTextProofs TransformTreeProofs Prop_Transform ItemListModel MachineProofs GeneratorProofs
  JsonModel JsonSpec JsonStepProofs JsonRunProofs JsonDocProofs JsonTotalProofs JsonIntProofs.
From Coq Require Import ZArith ZifyBool.

(** [Transformer().transform_tree(tree)] *)
Definition j_read_tree (F : Type) (float_of : str -> option F) (is_integer : F -> option Z) (itree : node (nat * jlex) jact) :=
  transform_tree jlex jact (option (pv F)) unit jlex unit (fun _ => tt) (fun l => l) (fun _ => tt) (fun _ _ => true)
    (fun _ => j_methods F float_of is_integer) (fun _ => None) itree None.

(** C105. A JSON document: lexing ends, and transforming the text, and the tree, gives the value of the document. [udigit], [uword] and [uspace] are
    the properties of the characters outside ASCII, [float_of] and [is_integer] are Python's floats, of which only is assumed that they
    can be made of JSON numbers.
    Missing: characters written as two escapes, see below, and the precision of numbers, see C106. *)
Theorem C105_json_partial :
  forall (udigit uword uspace : nat -> bool) (F : Type) (float_of : str -> option F) (is_integer : F -> option Z) (text : str) (v : json),
    (forall n, number n -> float_of n <> None) ->
    json_doc false v text ->
    exists n evs tree r,
      l_run j_consume (j_parse udigit uword uspace) text n (l_init [JRoot] 0) = (evs, None)
      /\ build_tree JRoot (map fst evs) = Some tree
      /\ same float_of is_integer v r
      /\ j_read F float_of is_integer (map fst evs) = Some (Some (Some r))
      /\ forall itree, erase itree = tree -> distinct itree -> exists ca, j_read_tree F float_of is_integer itree = Some (Value (Some (Some r)), ca).
Proof.
  intros udigit uword uspace F float_of is_integer text v Hf Hd.
  destruct (doc_read udigit uword uspace F float_of is_integer text v Hf Hd) as (n & evs & cs & r & Hr & Hb & Hm & Hs).
  exists n, evs, (Ctx JRoot cs), r. split; [exact Hr |]. split; [exact Hb |]. split; [exact Hs |].
  assert (G : forall itree, erase itree = Ctx JRoot cs -> distinct itree ->
            j_read F float_of is_integer (map fst evs) = Some (Some (Some r)) /\ exists ca, j_read_tree F float_of is_integer itree = Some (Value (Some (Some r)), ca)).
  { intros itree He Hi.
    pose proof (C43_text_equals_tree_partial jlex jact (option (pv F)) unit jlex unit (fun _ => tt) (fun l => l) (fun _ => tt) (fun _ _ => true)
      (fun _ => j_methods F float_of is_integer) j_consume (j_parse udigit uword uspace) text JRoot n evs None (Ctx JRoot cs) itree ltac:(intros [] []; tauto)
      Hr Hb He Hi (quiet_json F float_of is_integer _)
      (or_introl (proj2 (Forall_forall _ _) (fun l _ => methods_all F float_of is_integer l)))) as [H1 (ca & H2)].
    assert (Em : meaning (fun _ => tt) (fun l => l) (fun _ => tt) (fun _ : unit => j_methods F float_of is_integer) (Ctx JRoot cs) = Some (Some r))
      by (cbn [meaning method_of j_methods option_map]; f_equal; exact Hm).
    rewrite Em in H1, H2. split; [exact H1 | exists ca; exact H2]. }
  split; [| intros itree He Hi; exact (proj2 (G itree He Hi))].
  rewrite (read_tree F float_of is_integer text _ cs (run_stream_ok jlex jact j_consume _ text n [JRoot] 0 evs None ltac:(discriminate) Hr) Hb). now rewrite Hm.
Qed.
Print Assumptions C105_json_partial.

(** The document  [1, {"k\n": null} ]  *)
Definition ex_doc : str := [32; 91; 49; 44; 32; 123; 34; 107; 92; 110; 34; 58; 32] ++ w_null ++ [125; 32; 93].
Definition ex_val : json := JArr [JNum [49]; JObj [([107; 10], JNull)]].
Example ex_doc_ok : json_doc false ex_val ex_doc.
Proof.
  assert (H1 : number [49]).
  { exists [], [49], [], []. split; [reflexivity |]. split; [left; reflexivity |]. split; [| split; left; reflexivity]. split; [split; [discriminate | repeat constructor; unfold digit; lia] | intros t [=]]. }
  assert (Hw : ws [32]) by (constructor; [cbn; auto | constructor]).
  exists [32], (tl ex_doc), []. split; [reflexivity |]. split; [exact Hw |]. split; [| constructor].
  apply (jt_arr false _ ([49; 44; 32; 123; 34; 107; 92; 110; 34; 58; 32] ++ w_null ++ [125; 32])).
  apply (ji_more false (JNum [49]) [] [49] [] _ ([32; 123; 34; 107; 92; 110; 34; 58; 32] ++ w_null ++ [125; 32])); try solve [constructor]; [constructor; exact H1 |].
  apply (ji_one false _ [32] ([123; 34; 107; 92; 110; 34; 58; 32] ++ w_null ++ [125]) [32]); [exact Hw | | exact Hw].
  apply (jt_obj false _ ([34; 107; 92; 110; 34; 58; 32] ++ w_null)).
  apply (jm_one false [107; 10] [] [107; 92; 110] [] JNull [32] w_null []); try solve [constructor]; [| exact Hw].
  apply st_plain; [lia | lia | lia |]. apply (st_short false 110 10 [] []); [cbn; auto 10 | constructor].
Qed.
Example ex_doc_read :
  exists n evs, l_run j_consume (j_parse (fun _ => false) (fun _ => true) (fun _ => false)) ex_doc n (l_init [JRoot] 0) = (evs, None)
    /\ j_read Z demo_float demo_integer (map fst evs) = Some (Some (Some (PList [PNum (NInt 1); PDict [(PStr [107; 10], PNone)]]))).
Proof. exists 100, (fst (l_run j_consume (j_parse (fun _ => false) (fun _ => true) (fun _ => false)) ex_doc 100 (l_init [JRoot] 0))). split; vm_compute; reflexivity. Qed.

(** C105. A character outside the Basic Multilingual Plane, written as a surrogate pair, is not read as that character: the string gets the two
    surrogates. *)
Definition pair_doc : str := [34; 92; 117; 100; 56; 48; 48; 92; 117; 100; 99; 48; 48; 34].
Lemma same_str_eq F (float_of : str -> option F) is_integer s t : same float_of is_integer (JStr s) (PStr t) -> s = t.
Proof. intros H. now inversion H. Qed.
Theorem C105_surrogates_refuted :
  exists text v, json_doc true v text /\
    forall (udigit uword uspace : nat -> bool) (F : Type) (float_of : str -> option F) (is_integer : F -> option Z),
    exists n evs r, l_run j_consume (j_parse udigit uword uspace) text n (l_init [JRoot] 0) = (evs, None)
      /\ j_read F float_of is_integer (map fst evs) = Some (Some (Some r)) /\ ~ same float_of is_integer v r.
Proof.
  exists pair_doc, (JStr [Z.to_nat 0x10000]). split.
  - exists [], pair_doc, []. split; [reflexivity |]. split; [constructor |]. split; [| constructor].
    apply (jt_str true _ [92; 117; 100; 56; 48; 48; 92; 117; 100; 99; 48; 48]).
    apply (st_pair true [92; 117; 100; 56; 48; 48] (((13 * 16 + 8) * 16 + 0) * 16 + 0) [92; 117; 100; 99; 48; 48] (((13 * 16 + 12) * 16 + 0) * 16 + 0) _ [] []); [reflexivity | | | | constructor].
    + exists 100, 56, 48, 48, 13, 8, 0, 0. repeat split; [apply (hex_a_f 3); lia | apply (hex_0_9 8); lia | apply (hex_0_9 0); lia | apply (hex_0_9 0); lia].
    + exists 100, 99, 48, 48, 13, 12, 0, 0. repeat split; [apply (hex_a_f 3); lia | apply (hex_a_f 2); lia | apply (hex_0_9 0); lia | apply (hex_0_9 0); lia].
    + unfold is_pair. rewrite !Nat2Z.inj_add, !Nat2Z.inj_mul, !Nat2Z.inj_add, !Nat2Z.inj_mul, !Nat2Z.inj_add, !Nat2Z.inj_mul.
      split; [split; discriminate |]. split; [split; discriminate |]. transitivity 0x10000%Z; [apply Z2Nat.id; discriminate | reflexivity].
  - intros. exists 100, (fst (l_run j_consume (j_parse udigit uword uspace) pair_doc 100 (l_init [JRoot] 0))), (PStr [int16 [100; 56; 48; 48]; int16 [100; 99; 48; 48]]).
    split; [vm_compute; reflexivity |]. split; [cbv -[int16]; reflexivity |]. intros H. apply same_str_eq, (f_equal (@length nat)) in H. discriminate H.
Qed.
Print Assumptions C105_surrogates_refuted.

(** C106. Where making floats rounds to a nearest one, documents of which all integers are between -2^53 and 2^53 are read with exactly
    these integers.
    Missing: larger integers, see below. *)
Theorem C106_integers_partial :
  forall (udigit uword uspace : nat -> bool) (F : Type) (float_of : str -> option F) (is_integer : F -> option Z) (text : str) (v : json),
    (forall n, number n -> float_of n <> None) ->
    rounds float_of is_integer ->
    json_doc false v text ->
    all_numbers (fun n => forall z, int_literal n z -> (Z.abs z <= 2 ^ 53)%Z) v ->
    exists n evs r, l_run j_consume (j_parse udigit uword uspace) text n (l_init [JRoot] 0) = (evs, None)
      /\ j_read F float_of is_integer (map fst evs) = Some (Some (Some r)) /\ exact float_of is_integer v r.
Proof.
  intros udigit uword uspace F float_of is_integer text v Hf Hround Hd Hsmall.
  destruct (C105_json_partial udigit uword uspace F float_of is_integer text v Hf Hd) as (n & evs & tree & r & H1 & _ & H2 & H3 & _).
  exists n, evs, r. split; [exact H1 |]. split; [exact H3 |]. exact (same_exact F float_of is_integer Hround v r H2 Hsmall).
Qed.
Print Assumptions C106_integers_partial.

Example ex_integers : json_doc false ex_val ex_doc /\ rounds demo_float demo_integer /\ (forall n, number n -> demo_float n <> None)
  /\ all_numbers (fun n => forall z, int_literal n z -> (Z.abs z <= 2 ^ 53)%Z) ex_val.
Proof.
  split; [exact ex_doc_ok |]. split; [exact demo_rounds |]. split; [discriminate |]. cbn. split; [| auto].
  intros z Hz. inversion Hz; subst. cbn. lia.
Qed.

(** C106. The integer 2^53 + 1 is read as another integer, however floats are rounded. *)
Definition big_doc : str := [57; 48; 48; 55; 49; 57; 57; 50; 53; 52; 55; 52; 48; 57; 57; 51].      (* 9007199254740993 *)
Theorem C106_large_integers_refuted :
  exists text z, json_doc false (JNum text) text /\ int_literal text z /\
    forall (udigit uword uspace : nat -> bool) (F : Type) (float_of : str -> option F) (is_integer : F -> option Z),
      rounds float_of is_integer ->
      exists n evs z', l_run j_consume (j_parse udigit uword uspace) text n (l_init [JRoot] 0) = (evs, None)
        /\ j_read F float_of is_integer (map fst evs) = Some (Some (Some (PNum (NInt z')))) /\ z' <> z.
Proof.
  assert (Hi : int_part big_doc).
  { split; [split; [discriminate |] | intros t [=]]. unfold big_doc. repeat constructor; unfold digit; lia. }
  assert (Hl : int_literal big_doc (2 ^ 53 + 1)) by (replace (2 ^ 53 + 1)%Z with (decimal big_doc) by reflexivity; constructor; exact Hi).
  exists big_doc, (2 ^ 53 + 1)%Z. split; [| split; [exact Hl |]].
  - exists [], big_doc, []. split; [reflexivity |]. split; [constructor |]. split; [| constructor]. constructor.
    exists [], big_doc, [], []. split; [reflexivity |]. split; [left; reflexivity |]. split; [exact Hi |]. split; left; reflexivity.
  - intros. destruct (H _ _ Hl ltac:(reflexivity)) as (f & r & Ef & Ei & [Hr _]).
    exists 100, (fst (l_run j_consume (j_parse udigit uword uspace) big_doc 100 (l_init [JRoot] 0))), r.
    split; [vm_compute; reflexivity |]. split; [| intros ->; exact (odd_not_representable Hr)].
    assert (E : j_read F float_of is_integer (map fst (fst (l_run j_consume (j_parse udigit uword uspace) big_doc 100 (l_init [JRoot] 0))))
      = Some (Some (option_map PNum (number_of F float_of is_integer big_doc)))) by (vm_compute; reflexivity).
    rewrite E. unfold number_of. rewrite Ef, Ei. reflexivity.
Qed.
Print Assumptions C106_large_integers_refuted.

(** C107. Whatever the text is, and how far the lexer gets: transforming it with the JSON transform does not raise.  It is assumed that
    Python can make floats of everything that looks like a number, also with digits of other scripts. *)
Theorem C107_json_never_raises :
  forall (udigit uword uspace : nat -> bool) (F : Type) (float_of : str -> option F) (is_integer : F -> option Z) (text : str) n evs r,
    (forall s, number_like (is_digit udigit) s -> float_of s <> None) ->
    l_run j_consume (j_parse udigit uword uspace) text n (l_init [JRoot] 0) = (evs, r) ->
    exists v, j_read F float_of is_integer (map fst evs) = Some (Some (Some v)).
Proof.
  intros udigit uword uspace F float_of is_integer text n evs r Hf Hr. exact (read_total udigit uword uspace F float_of is_integer Hf text n evs r Hr).
Qed.
Print Assumptions C107_json_never_raises.

(** Not JSON at all: an object with something between key and colon, a list and a string that do not end, and an escape of two digits. *)
Definition broken_doc : str := [123; 34; 97; 34; 32; 120; 58; 32; 91; 49; 44; 32; 34; 92; 117; 49; 50].
Example ex_broken : exists n evs, l_run j_consume (j_parse (fun _ => false) (fun _ => true) (fun _ => false)) broken_doc n (l_init [JRoot] 0) = (evs, None)
  /\ j_read Z demo_float demo_integer (map fst evs) = Some (Some (Some (PDict [(PStr [97], PList [PNum (NInt 1); PStr [92; 117; 49; 50]])]))).
Proof. exists 100, (fst (l_run j_consume (j_parse (fun _ => false) (fun _ => true) (fun _ => false)) broken_doc 100 (l_init [JRoot] 0))). split; vm_compute; reflexivity. Qed.
