(** C113-C114: reading INI files. *)
From Verif Require Import Base BaseFacts TargetModel TargetSpec LexerModel LexerSpec LexerProofs LexiconModel LexiconSpec TreeModel TreeSpec TreeProofs BuildModel BuildProofs
  TransformModel TransformSpec TransformTextProofs TransformTreeProofs Prop_Transform MachineProofs GeneratorProofs IniModel IniSpec IniTextProofs IniRunProofs IniLineProofs IniFileProofs IniWriteProofs IniTotalProofs.
From Coq Require Import ZArith ZifyBool.

(** [Transformer().transform_tree(tree)] *)
Definition i_read_tree (odd : str -> option nat) (itree : node (nat * ilex) iact) :=
  transform_tree ilex iact IR unit ilex unit (fun _ => tt) (fun l => l) (fun _ => tt) (fun _ _ => true) (fun _ => i_methods odd) (fun _ => None) itree None.
(** Matches of the patterns for marks in comments (e-mail addresses, URLs, words like TODO) are not empty, and on one line.
    [marks text pos]: the kind, of three, and the length of the match at [pos]. *)
Definition marks_fit (marks : str -> nat -> option (nat * nat)) : Prop :=
  forall text pos kind n, marks text pos = Some (kind, n) -> kind < 3 /\ 0 < n /\ pos + n <= length text /\ ~ In 10 (firstn n (skipn pos text)).

(** C113. An INI text: lexing ends, and transforming the tree gives the sections with their entries. Transforming the text gives these if no comment
    is open when the last token has been seen, and raises an exception otherwise. [marks]: marks in comments; [odd]: see C114.
    Missing: texts in which there is a comment after all entries, see below. *)
Theorem C113_ini_partial :
  forall marks odd (text : str) (com : bool) (ls : list line),
    marks_fit marks -> ini_text com ls text ->
    exists n evs tree,
      l_run i_consume (i_parse marks) text n (l_init [IRoot] 0) = (evs, None)
      /\ build_tree IRoot (map fst evs) = Some tree
      /\ (forall itree, erase itree = tree -> distinct itree -> exists ca, i_read_tree odd itree = Some (Value (Some (Some (VIni (ini_value ls)))), ca))
      /\ (~ In IComment (open_at_end evs) -> i_read odd (map fst evs) = Some (Some (Some (VIni (ini_value ls)))))
      /\ (In IComment (open_at_end evs) -> i_read odd (map fst evs) = None)
      /\ (com = false -> ~ In IComment (open_at_end evs)).
Proof.
  intros marks odd text com ls Hm H. destruct (file_read marks Hm odd text com ls H) as (n & evs & ns & Hr & Hb & H1 & H2 & H3).
  assert (Hl : forall a b : unit, (fun _ _ : unit => true) a b = true <-> a = b) by (intros [] []; tauto).
  assert (Em : meaning (fun _ => tt) (fun l => l) (fun _ => tt) (fun _ : unit => i_methods odd) (Ctx IRoot ns) = Some (Some (VIni (ini_value ls)))).
  { cbn [meaning method_of i_methods option_map]. f_equal. transitivity (if existsb i_raised (items odd ns) then None else i_root (items odd ns)); [reflexivity |]. now rewrite H1. }
  assert (Hst : stream_ok ilex iact [IRoot] (map fst evs)) by (eapply run_stream_ok; [discriminate | exact Hr]).
  assert (Hmeth : forall l : ilex, l <> IComment -> method_of (fun _ => tt) (fun l => l) (fun _ : unit => i_methods odd) l <> None) by (intros [] Hl0; try discriminate; congruence).
  exists n, evs, (Ctx IRoot ns). split; [exact Hr |]. split; [exact Hb |]. split; [| split; [| split]].
  - intros itree He Hd. destruct itree as [t | [id l] cs]; [discriminate |].
    destruct (tree_ok ilex iact IR unit ilex unit (fun _ => tt) (fun l => l) (fun _ => tt) (fun _ _ => true) Hl (fun _ => i_methods odd) (Ctx (id, l) cs) Hd (fun _ => None) None id l cs eq_refl)
      as (o & ca & E & _ & _ & _ & Ho).
    + split; [intros ? ? ? ? ? ? ? Hv; discriminate |]. intros ? ? ? ? ? ? Hv. exfalso. apply Hv. reflexivity.
    + exists ca. destruct o as [v |]; [| congruence]. destruct Ho as [-> _]. rewrite He in E. rewrite Em in E. exact E.
  - intros Hc. rewrite <- Em. refine (proj1 (text_ok ilex iact IR unit ilex unit (fun _ => tt) (fun l => l) (fun _ => tt) (fun _ _ => true) Hl (fun _ => i_methods odd) IRoot (map fst evs) (Ctx IRoot ns) Hst Hb (quiet_ini odd _)) _).
    left. rewrite (replay_open _ _ _ _ _ _ _ _ _ Hr). apply Forall_forall. intros l Hin. apply Hmeth. intros ->. contradiction.
  - intros Hc. apply (C43_raises_at_the_end ilex iact IR unit ilex unit (fun _ => tt) (fun l => l) (fun _ => tt) (fun _ _ => true) (fun _ => i_methods odd) i_consume (i_parse marks) text IRoot n evs None (Ctx IRoot ns) Hl Hr Hb (quiet_ini odd _)).
    + discriminate.
    + intros F. rewrite Forall_forall in F. exact (F _ Hc eq_refl).
  - intros Hc. rewrite <- (replay_open _ _ _ _ _ _ _ _ _ Hr). exact (open_comment odd text _ _ Hst Hb (H3 Hc)).
Qed.
Print Assumptions C113_ini_partial.

(** An entry before the sections, two sections, escapes, white space and comments. *)
Definition ex_ini : str :=
  [97; 61; 49; 10; 10; 91; 32; 98; 32; 93; 32; 59; 120; 10; 99; 32; 32; 61; 32; 92; 120; 48; 48; 52; 49; 92; 59; 100; 32; 101; 32; 10; 102; 61].
Definition ex_lines : list line := [Entry [97] (Some [49]); Blank; Section [98]; Entry [99] (Some [65; 59; 100; 32; 101]); Entry [102] None].
Lemma tight_dec (u : str) : match u with [] => True | c :: _ => ~ blank c end -> match rev u with [] => True | c :: _ => ~ blank c end -> tight u.
Proof.
  intros H1 H2. split.
  - intros c r ->. exact H1.
  - intros r c ->. rewrite rev_app_distr in H2. exact H2.
Qed.
Lemma text_char c : ~ In c special -> ~ blank c -> text_for [c] [c].
Proof.
  intros H1 H2. exists [], [c], []. split; [reflexivity |]. split; [constructor |]. split; [constructor |]. split; [now apply tight_dec |]. constructor; [exact H1 | constructor].
Qed.
Example ex_ini_ok : ini_text true ex_lines ex_ini.
Proof.
  assert (Hb : forall c, c <> 32 -> c <> 9 -> ~ blank c) by (intros c A B [C | C]; contradiction).
  apply (it_line true _ [97; 61; 49]).
  { exists [97; 61; 49], []. split; [reflexivity |]. split; [| now left]. apply (lb_entry [97] [97] [49] [49]); [discriminate | discriminate | |]; apply text_char; try (apply Hb; lia); cbn; lia. }
  apply (it_line true _ []). { exists [], []. split; [reflexivity |]. split; [constructor; constructor | now left]. }
  apply (it_line true _ [91; 32; 98; 32; 93; 32; 59; 120]).
  { exists [91; 32; 98; 32; 93; 32], [59; 120]. split; [reflexivity |]. split.
    - apply (lb_section [] [32; 98; 32] [98] [32]); [constructor | constructor; [now left | constructor] | | cbn; lia | cbn; lia | discriminate].
      exists [32], [98], [32]. split; [reflexivity |]. repeat split; try (constructor; [now left | constructor]); apply (tight_dec [98]); apply Hb; lia.
    - right. split; [reflexivity |]. exists 59, [120]. split; [reflexivity |]. split; [now left |]. cbn. lia. }
  apply (it_line true _ [99; 32; 32; 61; 32; 92; 120; 48; 48; 52; 49; 92; 59; 100; 32; 101; 32]).
  { eexists _, []. split; [symmetry; apply app_nil_r |]. split; [| now left].
    apply (lb_entry [99] [99; 32; 32] [65; 59; 100; 32; 101] [32; 92; 120; 48; 48; 52; 49; 92; 59; 100; 32; 101; 32]); [discriminate | discriminate | |].
    - exists [], [99], [32; 32]. split; [reflexivity |]. split; [constructor |]. split; [repeat constructor |]. split; [apply tight_dec; apply Hb; lia |]. constructor; [cbn; lia | constructor].
    - exists [32], [92; 120; 48; 48; 52; 49; 92; 59; 100; 32; 101], [32]. split; [reflexivity |]. split; [repeat constructor |]. split; [repeat constructor |]. split; [apply tight_dec; apply Hb; lia |].
      apply (co_hex 120 48 48 52 49 0 0 4 1); [now left | apply (hex_0_9 0); lia | apply (hex_0_9 0); lia | apply (hex_0_9 4); lia | apply (hex_0_9 1); lia |].
      apply co_escape; [cbn; lia |]. repeat (apply co_char; [cbn; lia |]). constructor. }
  apply it_last. exists [102; 61], []. split; [reflexivity |]. split; [| now left]. apply (lb_absent [102] [102]); [discriminate |]. apply text_char; [cbn; lia | apply Hb; lia].
Qed.
Example ex_ini_read :
  exists n evs, l_run i_consume (i_parse (fun _ _ => None)) ex_ini n (l_init [IRoot] 0) = (evs, None) /\ ~ In IComment (open_at_end evs)
    /\ i_read (fun _ => None) (map fst evs) = Some (Some (Some (VIni [(None, [([97], Some [49])]); (Some [98], [([99], Some [65; 59; 100; 32; 101]); ([102], None)])])))
    /\ ini_value ex_lines = [(None, [([97], Some [49])]); (Some [98], [([99], Some [65; 59; 100; 32; 101]); ([102], None)])].
Proof.
  exists 100, (fst (l_run i_consume (i_parse (fun _ _ => None)) ex_ini 100 (l_init [IRoot] 0))). split; [vm_compute; reflexivity |].
  split; [vm_compute; intuition discriminate |]. split; vm_compute; reflexivity.
Qed.

(** C113. Dictionaries can be written so that they are read back: entries before the sections, and sections with a name that starts and ends without
    blanks, does not start with a backslash, and has no closing bracket and newline in it. Keys and values can have all characters. *)
Definition writable_name (n : str) : Prop := tight n /\ ~ In 93 n /\ ~ In 10 n /\ hd_error n <> Some 92.
Definition dicts (top : list (str * option str)) (ss : list (str * list (str * option str))) : list (option str * list (str * option str)) :=
  match top with [] => [] | _ => [(None, top)] end ++ map (fun s => (Some (fst s), snd s)) ss.
Theorem C113_ini_round_trip :
  forall marks odd (top : list (str * option str)) (ss : list (str * list (str * option str))),
    marks_fit marks ->
    NoDup (map fst top) -> NoDup (map fst ss) -> Forall (fun s => NoDup (map fst (snd s)) /\ writable_name (fst s)) ss ->
    exists n evs, l_run i_consume (i_parse marks) (write_ini top ss) n (l_init [IRoot] 0) = (evs, None)
      /\ i_read odd (map fst evs) = Some (Some (Some (VIni (dicts top ss)))).
Proof.
  intros marks odd top ss Hm H1 H2 H3.
  assert (H4 : Forall (fun s : str * list (str * option str) => NoDup (map fst (snd s))) ss) by (eapply Forall_impl; [| exact H3]; intros s [H _]; exact H).
  assert (H5 : Forall (fun s : str * list (str * option str) => name_ok (fst s)) ss) by (eapply Forall_impl; [| exact H3]; intros s [_ H]; exact H).
  destruct (C113_ini_partial marks odd _ false _ Hm (ini_written top ss false H5)) as (n & evs & tree & Hr & _ & _ & Ht & _ & Hc).
  exists n, evs. split; [exact Hr |]. rewrite (Ht (Hc eq_refl)), (value_written top ss H1 H2 H4). reflexivity.
Qed.
Print Assumptions C113_ini_round_trip.
Example ex_writable :
  let top := [([97; 32], Some [91; 10; 32])] in let ss := [([98; 32; 98], [([99], None); ([] : str, Some ([] : str))])] in
  NoDup (map fst top) /\ NoDup (map fst ss) /\ Forall (fun s => NoDup (map fst (snd s)) /\ writable_name (fst s)) ss.
Proof.
  cbv zeta. assert (Hb : ~ blank 98) by (intros [H | H]; discriminate).
  split; [constructor; [exact (fun x => x) | constructor] |]. split; [constructor; [exact (fun x => x) | constructor] |]. constructor; [| constructor]. cbn [map fst snd]. split.
  - constructor; [cbn; intuition discriminate |]. constructor; [exact (fun x => x) | constructor].
  - split; [apply (tight_dec [98; 32; 98]); exact Hb |]. cbn. split; [lia |]. split; [lia | discriminate].
Qed.

(** C113. A comment after the last entry, also with a newline after it: transforming the text raises an exception, in every case. *)
Theorem C113_comment_at_end_refuted :
  exists text ls, ini_text true ls text /\ forall odd, exists n evs, l_run i_consume (i_parse (fun _ _ => None)) text n (l_init [IRoot] 0) = (evs, None)
    /\ i_read odd (map fst evs) = None.
Proof.
  exists [97; 61; 49; 10; 59; 98; 10], [Entry [97] (Some [49]); Blank]. split.
  - assert (Hb : forall c, c <> 32 -> c <> 9 -> ~ blank c) by (intros c A B [C | C]; contradiction).
    apply (it_line true _ [97; 61; 49] [Blank] [59; 98; 10]).
    + exists [97; 61; 49], []. split; [reflexivity |]. split; [| now left].
      apply (lb_entry [97] [97] [49] [49]); [discriminate | discriminate | |]; apply text_char; try (apply Hb; lia); cbn; lia.
    + apply (it_line true Blank [59; 98] [] []); [| constructor]. exists [], [59; 98]. split; [reflexivity |]. split; [constructor; constructor |]. right. split; [reflexivity |].
      exists 59, [98]. split; [reflexivity |]. split; [now left | cbn; lia].
  - intros odd. exists 100, (fst (l_run i_consume (i_parse (fun _ _ => None)) [97; 61; 49; 10; 59; 98; 10] 100 (l_init [IRoot] 0))). split; vm_compute; reflexivity.
Qed.
Print Assumptions C113_comment_at_end_refuted.

(** What is not an INI text in the sense of C113, but written often: a colon ends the value, an open bracket starts a section, a backslash before a
    letter is lost, and a return character becomes part of the value. *)
Definition read_ini (text : str) := i_read (fun _ => None) (map fst (fst (l_run i_consume (i_parse (fun _ _ => None)) text 200 (l_init [IRoot] 0)))).
Example ex_colon : read_ini [97; 61; 98; 58; 99] = Some (Some (Some (VIni [(None, [([97], Some [98])])]))).
Proof. vm_compute. reflexivity. Qed.
Example ex_bracket : read_ini [97; 61; 98; 91; 48; 93; 10] = Some (Some (Some (VIni [(None, [([97], Some [98])]); (Some [48], [])]))).
Proof. vm_compute. reflexivity. Qed.
Example ex_backslash : read_ini [97; 61; 98; 92; 110; 99; 10] = Some (Some (Some (VIni [(None, [([97], Some [98; 110; 99])])]))).
Proof. vm_compute. reflexivity. Qed.
Example ex_return : read_ini [97; 61; 98; 13; 10] = Some (Some (Some (VIni [(None, [([97], Some [98; 13])])]))).
Proof. vm_compute. reflexivity. Qed.
Example ex_twice : read_ini [91; 97; 93; 10; 98; 61; 49; 10; 91; 97; 93; 10; 99; 61; 50] = Some (Some (Some (VIni [(Some [97], [([99], Some [50])])]))).
Proof. vm_compute. reflexivity. Qed.

(** Names of sections are not escaped, but are unescaped when they start with a backslash: [name_fine], the names for which that does not raise.
    [odd]: the character for a string in place of the four hexadecimal digits (the code uses [int(s, 16)], which also reads shorter and longer numbers,
    white space, and underscores), None if there is none. *)
Definition four_digits (s : str) : Prop := exists a b c d i j k l, s = [a; b; c; d] /\ hex a i /\ hex b j /\ hex c k /\ hex d l.
Definition name_fine (odd : str -> option nat) (t : str) : Prop :=
  forall a r, t = a ++ 92 :: r -> blanks a -> exists c r', r = c :: r' /\ (c = 120 \/ c = 88 -> four_digits r' \/ odd r' <> None).
Definition name_bad (odd : str -> option nat) (t : str) : Prop :=
  t = [92] \/ exists c r, t = 92 :: c :: r /\ (c = 120 \/ c = 88) /\ ~ four_digits r /\ odd r = None.
Lemma hex_iff c : i_hex c = true <-> exists n, hex c n.
Proof.
  unfold i_hex. split.
  - intros H. destruct (le_lt_dec c 57) as [H1 | H1]; [exists (c - 48); replace c with (48 + (c - 48)) at 1 by lia; constructor; lia |].
    destruct (le_lt_dec c 70) as [H2 | H2]; [exists (10 + (c - 65)); replace c with (65 + (c - 65)) at 1 by lia; constructor; lia | exists (10 + (c - 97)); replace c with (97 + (c - 97)) at 1 by lia; constructor; lia].
  - intros (n & H). destruct H; lia.
Qed.
Lemma digits_iff s : i_hex4 s = true <-> four_digits s.
Proof.
  unfold i_hex4, four_digits. split.
  - intros H. apply andb_true_iff in H as [H1 H2]. apply Nat.eqb_eq in H1. destruct s as [| a [| b [| c [| d [|]]]]]; try discriminate. cbn [forallb] in H2. rewrite !andb_true_iff in H2.
    destruct H2 as (Ha & Hb & Hc & Hd & _). apply hex_iff in Ha as (i & Ha), Hb as (j & Hb), Hc as (k & Hc), Hd as (l & Hd). exists a, b, c, d, i, j, k, l. auto.
  - intros (a & b & c & d & i & j & k & l & -> & Ha & Hb & Hc & Hd). cbn [length Nat.eqb forallb andb].
    rewrite (proj2 (hex_iff a)), (proj2 (hex_iff b)), (proj2 (hex_iff c)), (proj2 (hex_iff d)) by eauto. reflexivity.
Qed.
Lemma strip_split t : exists a, t = a ++ l_strip t /\ blanks a.
Proof.
  induction t as [| c t (a & E & Ha)]; [exists []; split; [reflexivity | constructor] |]. cbn [l_strip]. unfold i_blank at 1. destruct ((c =? 32) || (c =? 9)) eqn:Eb.
  - exists (c :: a). split; [cbn; now rewrite <- E |]. constructor; [unfold blank; lia | exact Ha].
  - exists []. split; [reflexivity | constructor].
Qed.
Lemma fine_calm odd t : name_fine odd t -> calm odd t.
Proof.
  intros H. unfold calm. destruct (strip_split t) as (a & E & Ha). destruct (escaped (l_strip t)) eqn:Ee; [| rewrite (unescaped odd _ Ee); discriminate].
  destruct (l_strip t) as [| b s]; [discriminate |]. cbn [escaped] in Ee. apply Nat.eqb_eq in Ee. subst b. destruct (H a s E Ha) as (c & r & -> & Hx). unfold unescape. cbn [escaped Nat.eqb].
  destruct (i_x c) eqn:Ex; [| discriminate]. unfold chr_int. destruct (i_hex4 r) eqn:Eh; [discriminate |]. destruct (Hx ltac:(unfold i_x in Ex; lia)) as [H4 | Ho]; [apply digits_iff in H4; congruence |].
  destruct (odd r); [discriminate | congruence].
Qed.
Lemma bad_bad odd t : name_bad odd t -> bad odd t.
Proof.
  intros [-> | (c & r & -> & Hc & Hr & Ho)]; [split; reflexivity |]. split; [reflexivity |]. unfold unescape. cbn [escaped Nat.eqb]. assert (Ex : i_x c = true) by (unfold i_x; lia). rewrite Ex. unfold chr_int.
  destruct (i_hex4 r) eqn:Eh; [apply digits_iff in Eh; contradiction |]. now rewrite Ho.
Qed.

(** C114. Reading INI, whatever the text is and how far the lexer gets. If all section names are fine, transforming the tree gives a value, and
    transforming the text too unless a comment is open at the end. If a section name is bad, transforming the tree raises an exception.
    Missing: a value for texts with such names and comments; bad names after blanks. *)
Theorem C114_ini_raises_partial :
  forall marks odd (text : str) n evs r,
    l_run i_consume (i_parse marks) text n (l_init [IRoot] 0) = (evs, r) ->
    let names := map x_text (filter (fun x => match x_act x with INamespace => true | _ => false end) (concat (map (fun x => e_lexemes (fst x)) evs))) in
    exists tree, build_tree IRoot (map fst evs) = Some tree
      /\ (Forall (name_fine odd) names ->
            exists v, (forall itree, erase itree = tree -> distinct itree -> exists ca, i_read_tree odd itree = Some (Value (Some (Some v)), ca))
              /\ (~ In IComment (open_at_end evs) -> i_read odd (map fst evs) = Some (Some (Some v))))
      /\ (Exists (name_bad odd) names -> forall itree, erase itree = tree -> distinct itree -> exists ca, i_read_tree odd itree = Some (Value (Some None), ca)).
Proof.
  intros marks odd text n evs r Hr names.
  assert (Hst : stream_ok ilex iact [IRoot] (map fst evs)) by (eapply run_stream_ok; [discriminate | exact Hr]).
  destruct (build_tree_ok ilex iact IRoot _ Hst) as (ns & Hb & _). exists (Ctx IRoot ns). split; [exact Hb |].
  assert (Hl : forall a b : unit, (fun _ _ : unit => true) a b = true <-> a = b) by (intros [] []; tauto).
  assert (Em : meaning (fun _ => tt) (fun l => l) (fun _ => tt) (fun _ : unit => i_methods odd) (Ctx IRoot ns) = Some (if existsb i_raised (items odd ns) then None else i_root (items odd ns))) by reflexivity.
  assert (Htree : forall itree, erase itree = Ctx IRoot ns -> distinct itree -> exists ca, i_read_tree odd itree = Some (Value (Some (if existsb i_raised (items odd ns) then None else i_root (items odd ns))), ca)).
  { intros itree He Hd. destruct itree as [t | [id l] cs]; [discriminate |].
    destruct (tree_ok ilex iact IR unit ilex unit (fun _ => tt) (fun l => l) (fun _ => tt) (fun _ _ => true) Hl (fun _ => i_methods odd) (Ctx (id, l) cs) Hd (fun _ => None) None id l cs eq_refl)
      as (o & ca & E & _ & _ & _ & Ho).
    - split; [intros ? ? ? ? ? ? ? Hv; discriminate |]. intros ? ? ? ? ? ? Hv. exfalso. apply Hv. reflexivity.
    - exists ca. destruct o as [v |]; [| congruence]. destruct Ho as [-> _]. rewrite He in E. rewrite Em in E. exact E. }
  split.
  - intros Hn. destruct (read_total marks odd text n evs r Hr) as (cs & v & Hb' & H1 & H2).
    { apply Forall_forall. intros x Hx. apply Forall_forall. intros y Hy Ha. apply fine_calm. rewrite Forall_forall in Hn. apply Hn. unfold names. apply in_map. apply filter_In. split; [| now rewrite Ha].
      apply in_concat. exists (e_lexemes (fst x)). split; [apply in_map_iff; exists x; split; [reflexivity | exact Hx] | exact Hy]. }
    rewrite Hb in Hb'. injection Hb' as <-. rewrite H1, H2 in *. exists v. split; [exact Htree |]. intros Hc. rewrite <- Em.
    refine (proj1 (text_ok ilex iact IR unit ilex unit (fun _ => tt) (fun l => l) (fun _ => tt) (fun _ _ => true) Hl (fun _ => i_methods odd) IRoot (map fst evs) (Ctx IRoot ns) Hst Hb (quiet_ini odd _)) _).
    left. rewrite (replay_open _ _ _ _ _ _ _ _ _ Hr). apply Forall_forall. intros l Hin. destruct l; try discriminate. contradiction.
  - intros Hn itree He Hd. apply Exists_exists in Hn as (t & Ht & Hbad). unfold names in Ht. apply in_map_iff in Ht as (y & <- & Hy). apply filter_In in Hy as [Hy Ha].
    apply in_concat in Hy as (ys & Hys & Hy). apply in_map_iff in Hys as (x & <- & Hx).
    destruct (read_bad marks odd text n evs r x y Hr Hx Hy ltac:(destruct (x_act y); (reflexivity || discriminate)) (bad_bad _ _ Hbad)) as (cs & Hb' & H1).
    rewrite Hb in Hb'. injection Hb' as <-. rewrite H1 in Htree. exact (Htree itree He Hd).
Qed.
Print Assumptions C114_ini_raises_partial.

Definition names_in (text : str) :=
  map x_text (filter (fun x => match x_act x with INamespace => true | _ => false end)
    (concat (map (fun x => e_lexemes (fst x)) (fst (l_run i_consume (i_parse (fun _ _ => None)) text 200 (l_init [IRoot] 0)))))).
(** [[a\]b=c[ \foo]]: brackets that do not end, backslashes and missing values. *)
Example ex_odd_text : names_in [91; 97; 92; 93; 98; 61; 99; 91; 32; 92; 102; 111; 111] = [[97; 92]; [32; 92; 102; 111; 111]]
  /\ Forall (name_fine (fun _ => None)) [[97; 92]; [32; 92; 102; 111; 111]]
  /\ read_ini [91; 97; 92; 93; 98; 61; 99; 91; 32; 92; 102; 111; 111] = Some (Some (Some (VIni [(Some [97; 92], [([98], Some [99])]); (Some [102], [])]))).
Proof.
  split; [vm_compute; reflexivity |]. split; [| vm_compute; reflexivity]. constructor; [| constructor; [| constructor]].
  - intros a r E Ha. destruct a as [| x a]; [discriminate |]. injection E as <- _. inversion Ha as [| ? ? [H | H] _]; discriminate.
  - intros a r E Ha. destruct a as [| x [| y a]]; [discriminate | |].
    + injection E as _ <-. exists 102, [111; 111]. split; [reflexivity |]. intros [H | H]; discriminate.
    + injection E as _ <- _. inversion Ha as [| ? ? _ Ha']; subst. inversion Ha' as [| ? ? [H | H] _]; discriminate.
Qed.

(** C114. The text [[\]] cannot be read, and the backslash and all letters but the first of [[\foo]] are lost. *)
Theorem C114_section_name_refuted :
  exists text, forall odd, exists n evs, l_run i_consume (i_parse (fun _ _ => None)) text n (l_init [IRoot] 0) = (evs, None) /\ i_read odd (map fst evs) = Some (Some None).
Proof.
  exists [91; 92; 93]. intros odd. exists 100, (fst (l_run i_consume (i_parse (fun _ _ => None)) [91; 92; 93] 100 (l_init [IRoot] 0))). split; vm_compute; reflexivity.
Qed.
Print Assumptions C114_section_name_refuted.
Example ex_bad_names : names_in [91; 92; 93] = [[92]] /\ name_bad (fun _ => None) [92]
  /\ names_in [91; 92; 120; 121; 122; 93] = [[92; 120; 121; 122]] /\ name_bad (fun _ => None) [92; 120; 121; 122]
  /\ read_ini [91; 92; 120; 121; 122; 93] = Some (Some None)
  /\ read_ini [91; 92; 102; 111; 111; 93] = Some (Some (Some (VIni [(Some [102], [])]))).
Proof.
  split; [vm_compute; reflexivity |]. split; [now left |]. split; [vm_compute; reflexivity |]. split; [| split; vm_compute; reflexivity].
  right. exists 120, [121; 122]. split; [reflexivity |]. split; [now left |]. split; [| reflexivity]. intros (a & b & c & d & i & j & k & l & E & _). discriminate.
Qed.
