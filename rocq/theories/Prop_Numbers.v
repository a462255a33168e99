(** C115-C117: reading numerals in words. *)
From Verif Require Import Base BaseFacts TargetModel TargetSpec LexerModel LexerSpec LexerProofs LexiconModel LexiconSpec TreeModel TreeSpec TreeProofs BuildModel BuildProofs
  TransformModel TransformSpec TransformTextProofs TransformTreeProofs MachineProofs NumbersModel NumbersSpec NumbersRunProofs NumbersLevelProofs NumbersTextProofs NumbersEnglishProofs
  NumbersReadProofs NumbersTotalProofs NumbersEndProofs NumbersLongProofs.
From Coq Require Import ZArith ZifyBool String.
Open Scope string_scope. Open Scope list_scope. Open Scope nat_scope.
Notation length := List.length.

(** Reading a text in a language gives a result: lexing ends; transforming the text, or a tree of it, gives the result. The result is a list of numbers,
    or None if an exception is raised.  [uspace], [umatch], [ulower]: see DESIGN.md (characters from 128). *)
Definition reads_as (uspace : nat -> bool) (umatch : nat -> nat -> bool) (ulower : nat -> str) (g : nlang) (text : str) (v : option (list Z)) : Prop :=
  exists n evs tree,
    l_run n_consume (n_parse uspace umatch g) text n (l_init [NRoot] 0) = (evs, None)
    /\ build_tree NRoot (map fst evs) = Some tree
    /\ (forall itree, erase itree = tree -> distinct itree -> exists ca, n_read_tree ulower g itree = Some (Value (Some (option_map VNums v)), ca))
    /\ n_read ulower g (map fst evs) = Some (Some (option_map VNums v)).

Lemma reads_from uspace umatch ulower g text n evs ns v :
  l_run n_consume (n_parse uspace umatch g) text n (l_init [NRoot] 0) = (evs, None) -> build_tree NRoot (map fst evs) = Some (Ctx NRoot ns) ->
  n_call n_root (ItemList tt (nitems ulower g ns)) = option_map VNums v -> reads_as uspace umatch ulower g text v.
Proof.
  intros Hr Hb Hv. assert (Hst : stream_ok nlex nact [NRoot] (map fst evs)) by (eapply run_stream_ok; [discriminate | exact Hr]).
  destruct (read_both ulower g (map fst evs) ns _ Hst Hb Hv) as [H1 H2]. exists n, evs, (Ctx NRoot ns). auto.
Qed.

(** C115. English numerals: a text of numerals below 10^12, in small letters and capitals, with white space and hyphens where you like, with some other
    character between two numerals, is read as the values of the numerals.  Missing: numerals with only white space in between, see below. *)
Theorem C115_english_numerals_partial :
  forall uspace umatch ulower (text : str) (xs : list numeral),
    en_numerals xs text -> reads_as uspace umatch ulower (english uspace umatch) text (Some (map numeral_value xs)).
Proof.
  intros uspace umatch ulower text xs H. destruct (english_read uspace umatch ulower text xs H) as (n & evs & ns & Hr & Hb & Hv).
  exact (reads_from _ _ _ _ _ _ _ _ (Some _) Hr Hb Hv).
Qed.
Print Assumptions C115_english_numerals_partial.

(** The usual numeral for any number below 10^12, a number of millions and a rest: however it is written, it is read as that number; and it can be written. *)
Theorem C115_every_number :
  forall uspace umatch ulower (m z : nat), (Z.of_nat m < 1000000)%Z -> (Z.of_nat z < 1000000)%Z ->
    (forall text, en_numerals [say m z] text -> reads_as uspace umatch ulower (english uspace umatch) text (Some [(1000000 * Z.of_nat m + Z.of_nat z)%Z]))
    /\ exists text, en_numerals [say m z] text.
Proof.
  intros uspace umatch ulower m z Hm Hz. split; [| exact (written m z Hm Hz)].
  intros text H. pose proof (C115_english_numerals_partial uspace umatch ulower text _ H) as R. cbn [map] in R. now rewrite (say_value m z Hm Hz) in R.
Qed.
Print Assumptions C115_every_number.

(** " Twenty-One thousand and..." is not a numeral of this kind; "TwentyOne million three hundred, seven" is. *)
Definition ex_numbers : str := codes " TwentyOne  million three-HUNDRED, Seven; ".
Example ex_numbers_ok : en_numerals [Times (Some (Plain (Plain 21))) (Some (Plain (Times (Some 3) None))); Plain (Plain (Plain 7))] ex_numbers.
Proof.
  assert (L : forall w t, (fix go (w t : str) : bool := match w, t with [], [] => true | p :: w, c :: t => ((c =? p) || ((97 <=? p) && (p <=? 122) && (c + 32 =? p))) && go w t | _, _ => false end) w t = true -> spelled w t).
  { induction w as [| p w IH]; intros [| c t] H; try discriminate; [constructor |]. apply andb_true_iff in H as [H1 H2]. constructor; [| exact (IH t H2)].
    apply orb_true_iff in H1 as [H1 | H1]; [left; now apply Nat.eqb_eq |]. right. apply andb_true_iff in H1 as [H1 H3]. apply Nat.eqb_eq in H3. lia. }
  assert (G : forall s, forallb (fun c => existsb (Nat.eqb c) [9; 10; 11; 12; 13; 28; 29; 30; 31; 32; 45]) s = true -> gap s).
  { intros s H. rewrite forallb_forall in H. apply Forall_forall. intros c Hc. specialize (H c Hc). apply existsb_exists in H as (x & Hx & E). apply Nat.eqb_eq in E. now subst. }
  exists (codes " "), (codes "TwentyOne  million three-HUNDRED" ++ codes ", " ++ codes "Seven" ++ codes "; " ++ []). split; [reflexivity |]. split; [constructor; [left; now apply G | constructor] |].
  apply ns_one.
  - exists (codes "TwentyOne"), (codes "  million"), (codes " three-HUNDRED"). split; [reflexivity |]. split; [| split].
    + exists [], (codes "TwentyOne"). split; [reflexivity |]. split; [constructor |]. right. split; [lia |]. exists (codes "Twenty"), (codes "One"). split; [reflexivity |]. split; [apply L; reflexivity |].
      right. split; [discriminate |]. exists [], (codes "One"). split; [reflexivity |]. split; [constructor | apply L; reflexivity].
    + exists (codes "  "), (codes "million"). split; [reflexivity |]. split; [now apply G | apply L; reflexivity].
    + exists (codes " three"), (codes "-HUNDRED"), []. split; [reflexivity |]. split; [| split; [| reflexivity]].
      * exists (codes " "), (codes "three"). split; [reflexivity |]. split; [now apply G |]. left. split; [lia | apply L; reflexivity].
      * exists (codes "-"), (codes "HUNDRED"). split; [reflexivity |]. split; [now apply G | apply L; reflexivity].
  - constructor; [right; repeat split; cbn; lia |]. constructor; [left; now apply G | constructor].
  - intros _. apply Exists_cons_hd. repeat split; cbn; lia.
  - apply ns_one; [| | congruence | constructor; constructor | reflexivity].
    + exists [], (codes "Seven"). split; [reflexivity |]. split; [constructor |]. left. split; [lia | apply L; reflexivity].
    + constructor; [right; repeat split; cbn; lia |]. constructor; [left; now apply G | constructor].
  - discriminate.
Qed.
Example ex_numbers_read : map numeral_value [Times (Some (Plain (Plain 21))) (Some (Plain (Times (Some 3) None))); Plain (Plain (Plain 7))] = [21000300; 7]%Z.
Proof. reflexivity. Qed.

(** Computing what is read. *)
Lemma reads_run uspace umatch ulower g text n v :
  (let r := l_run n_consume (n_parse uspace umatch g) text n (l_init [NRoot] 0) in
   match snd r, build_tree NRoot (map fst (fst r)) with
   | None, Some (Ctx NRoot ns) => Some (n_call n_root (ItemList tt (nitems ulower g ns)))
   | _, _ => None
   end) = Some (option_map VNums v) -> reads_as uspace umatch ulower g text v.
Proof.
  cbv zeta. destruct (l_run n_consume (n_parse uspace umatch g) text n (l_init [NRoot] 0)) as [evs r] eqn:E. cbn [fst snd]. destruct r; [discriminate |].
  destruct (build_tree NRoot (map fst evs)) as [[t | [] ns] |] eqn:Eb; try discriminate. intros [= H]. exact (reads_from _ _ _ _ _ _ _ _ _ E Eb H).
Qed.

(** C115. Two numerals with only a space in between: after a word for a multiple of ten, the first letters of the next word are read as a part of the numeral,
    and the rest of that word is dropped. *)
Theorem C115_numerals_apart_refuted :
  forall uspace umatch ulower,
    reads_as uspace umatch ulower (english uspace umatch) (codes "twenty sixteen") (Some [26])%Z
    /\ reads_as uspace umatch ulower (english uspace umatch) (codes "twenty sixty, three") (Some [26; 3])%Z
    /\ en_numerals [Plain (Plain (Plain 20))] (codes "twenty") /\ en_numerals [Plain (Plain (Plain 16))] (codes "sixteen").
Proof.
  intros uspace umatch ulower. split; [| split; [| split]].
  - apply (reads_run _ _ _ _ _ 400). vm_compute. reflexivity.
  - apply (reads_run _ _ _ _ _ 400). vm_compute. reflexivity.
  - exists [], (codes "twenty" ++ [] ++ []). split; [reflexivity |]. split; [constructor |]. apply ns_one; [| constructor | congruence | constructor; constructor | reflexivity].
    exists [], (codes "twenty"). split; [reflexivity |]. split; [constructor |]. right. split; [lia |]. exists (codes "twenty"), []. split; [reflexivity |]. split; [apply spelled_self | now left].
  - exists [], (codes "sixteen" ++ [] ++ []). split; [reflexivity |]. split; [constructor |]. apply ns_one; [| constructor | congruence | constructor; constructor | reflexivity].
    exists [], (codes "sixteen"). split; [reflexivity |]. split; [constructor |]. left. split; [lia | apply spelled_self].
Qed.
Print Assumptions C115_numerals_apart_refuted.

(** C116. Whatever the text is, in each of the four languages: lexing ends, and a list of numbers is read.  [fair_char]: a character that matches a letter
    of a word, is that letter in lower case. *)
Definition fair_char (umatch : nat -> nat -> bool) (ulower : nat -> str) (c : nat) : Prop := 128 <= c -> forall p, umatch p c = true -> ulower c = [p].
Definition languages (uspace : nat -> bool) (umatch : nat -> nat -> bool) : list nlang :=
  [english uspace umatch; nederlands uspace umatch; deutsch uspace umatch; francais uspace umatch].
Theorem C116_any_text_read_partial :
  forall uspace umatch ulower (g : nlang) (text : str),
    In g (languages uspace umatch) -> Forall (fair_char umatch ulower) text ->
    exists zs, reads_as uspace umatch ulower g text (Some zs).
Proof.
  intros uspace umatch ulower g text Hg Hf.
  assert (H : (exists r, g_99rules g = (ASkip, []) :: r) /\ lang_fine umatch ulower g /\ lang_forward g).
  { cbn [languages In] in Hg. destruct Hg as [<- | [<- | [<- | [<- | []]]]]; (split; [eexists; reflexivity |]); split;
      auto using english_fine, nederlands_fine, deutsch_fine, francais_fine, english_forward, nederlands_forward, deutsch_forward, francais_forward. }
  destruct H as (H1 & H2 & H3). destruct (run_ends uspace umatch g text H1 H3) as (n & evs & Hr).
  destruct (read_total uspace umatch ulower g text Hf H2 H1 n evs None Hr) as (cs & zs & Hb & Hv). exists zs. exact (reads_from _ _ _ _ _ _ _ _ (Some zs) Hr Hb Hv).
Qed.
Print Assumptions C116_any_text_read_partial.
(** Lexing ends for other texts, too. *)
Theorem C116_lexing_ends :
  forall uspace umatch (g : nlang) (text : str), In g (languages uspace umatch) ->
    exists n evs, l_run n_consume (n_parse uspace umatch g) text n (l_init [NRoot] 0) = (evs, None).
Proof.
  intros uspace umatch g text Hg.
  assert (H : (exists r, g_99rules g = (ASkip, []) :: r) /\ lang_forward g).
  { cbn [languages In] in Hg. destruct Hg as [<- | [<- | [<- | [<- | []]]]]; (split; [eexists; reflexivity |]); auto using english_forward, nederlands_forward, deutsch_forward, francais_forward. }
  exact (run_ends uspace umatch g text (proj1 H) (proj2 H)).
Qed.
Print Assumptions C116_lexing_ends.
Example C116_example : (* characters that do not match letters, and the capital of a letter *)
  let umatch := fun p c => (p =? 233) && (c =? 201) in let ulower := fun c => if c =? 201 then [233] else [c] in
  Forall (fair_char umatch ulower) (codes "7 z" ++ [201] ++ codes "ro," ++ [300] ++ codes "! cent")
  /\ reads_as (fun _ => false) umatch ulower (francais (fun _ => false) umatch) (codes "7 z" ++ [201] ++ codes "ro," ++ [300] ++ codes "! cent") (Some [0; 100])%Z.
Proof.
  intros umatch ulower. split.
  - apply Forall_forall. intros c _ _ p Hp. unfold umatch in Hp. apply andb_true_iff in Hp as [H1 H2]. apply Nat.eqb_eq in H1. apply Nat.eqb_eq in H2. subst. reflexivity.
  - apply (reads_run _ _ _ _ _ 500). vm_compute. reflexivity.
Qed.

(** C116. The long s matches the pattern for "six", but its lower case is not the letter s: an exception is raised. *)
Theorem C116_long_s_refuted :
  forall uspace umatch ulower, uspace 383 = false -> (forall p, umatch p 383 = (p =? 115)) -> ulower 383 = [383] ->
    reads_as uspace umatch ulower (english uspace umatch) ([383] ++ codes "ix") None.
Proof.
  intros uspace umatch ulower H1 H2 H3. destruct (long_s uspace umatch ulower H1 H2 H3) as (evs & ns & Hr & Hb & Hv). exact (reads_from _ _ _ _ _ _ _ _ None Hr Hb Hv).
Qed.
Print Assumptions C116_long_s_refuted.

(** C117. Number words of the other languages that are not read as the number they stand for. *)
Theorem C117_number_words_refuted :
  forall uspace umatch ulower,
    (forall w right wrong, In (w, right, wrong) [("vijftig", 50, [5]); ("zestig", 60, [6]); ("zeventig", 70, [7]); ("negentig", 90, [9])]%Z ->
       reads_as uspace umatch ulower (nederlands uspace umatch) (codes w) (Some wrong) /\ wrong <> [right])
    /\ (forall w right wrong, In (w, right, wrong) [("vierzig", 40, [4]); ("achtzig", 80, [8]); ("neunzig", 90, [9]); ("zwei millionen eins", 2000001, [2000000; 1])]%Z ->
       reads_as uspace umatch ulower (deutsch uspace umatch) (codes w) (Some wrong) /\ wrong <> [right])
    /\ (forall w right wrong, In (w, right, wrong) [("soixante-dix", 70, [60; 10]); ("soixante-quinze", 75, [60; 15]); ("quatre-vingt-dix", 90, [80; 10]); ("quatre-vingt-dix-sept", 97, [80; 17])]%Z ->
       reads_as uspace umatch ulower (francais uspace umatch) (codes w) (Some wrong) /\ wrong <> [right]).
Proof.
  intros uspace umatch ulower.
  split; [| split]; intros w right wrong Hin; cbn [In] in Hin;
    repeat (destruct Hin as [[= <- <- <-] | Hin]; [split; [apply (reads_run _ _ _ _ _ 500); vm_compute; reflexivity | discriminate] |]); destruct Hin.
Qed.
Print Assumptions C117_number_words_refuted.
(** The examples in the documentation of the module (numbers.py:63-82). *)
Example doc_examples : forall uspace umatch ulower,
  reads_as uspace umatch ulower (english uspace umatch) (codes "one two THREE") (Some [1; 2; 3])%Z
  /\ reads_as uspace umatch ulower (english uspace umatch) (codes "FiftySixThousandSevenHundredEightyNine") (Some [56789])%Z
  /\ reads_as uspace umatch ulower (nederlands uspace umatch) (codes "eenentwintig") (Some [21])%Z
  /\ reads_as uspace umatch ulower (nederlands uspace umatch) (codes "twaalfhonderdeenentwintig") (Some [1221])%Z.
Proof. intros. repeat split; apply (reads_run _ _ _ _ _ 500); vm_compute; reflexivity. Qed.
