(** C123-C124: reading CSS style sheets. *)
From Verif Require Import Base BaseFacts TargetModel LexerModel LexiconModel TreeModel TransformModel CssColorModel CssLangModel IniSpec CssTextSpec CssWholeSheetProofs.
From Coq Require Import ZArith ZifyBool.

(** C123. Reading a style sheet gives its rules, in order: for each rule the selectors and the properties, as in CssTextSpec.v.  [e]: the classes of
    characters, the names of properties and colors.  [odd]: the values of digits that are not ASCII.
    Missing: comments, at-rules, selectors with attributes or namespaces, strings and [url( )]. *)
Theorem C123_sheet_read_partial :
  forall (e : kenv) (odd : nat -> option nat) (rs : list kv) (text : str),
    classes_ok e -> sheet_text e odd rs text ->
    exists n evs, l_run k_consume (k_parse e) text n (l_init [KRoot] 0) = (evs, None)
      /\ k_read e odd (map fst evs) = Some (Some (Some (VSheet rs))).
Proof. intros e odd rs text He H. exact (sheet_read e He odd text rs H). Qed.
Print Assumptions C123_sheet_read_partial.

Lemma run_det {L A} consume (parse : L -> str -> nat -> gen (item L A)) text : forall n m s evs evs', l_run consume parse text n s = (evs, None) -> l_run consume parse text m s = (evs', None) -> evs = evs'.
Proof.
  induction n as [| n IH]; intros m s evs evs' H1 H2; [discriminate |]. destruct m as [| m]; [discriminate |]. cbn [l_run] in *.
  destruct (l_step consume parse text s) as [[o s'] |]; [| injection H1 as <-; injection H2 as <-; reflexivity].
  destruct (l_run consume parse text n s') as [e1 r1] eqn:R1. destruct (l_run consume parse text m s') as [e2 r2] eqn:R2. injection H1 as <- ->. injection H2 as <- ->. now rewrite (IH m s' e1 e2 R1 R2).
Qed.
(** C123. A text stands for one list of rules only. *)
Theorem C123_one_meaning :
  forall (e : kenv) (odd : nat -> option nat) (rs rs' : list kv) (text : str), classes_ok e -> sheet_text e odd rs text -> sheet_text e odd rs' text -> rs = rs'.
Proof.
  intros e odd rs rs' text He H H'. destruct (C123_sheet_read_partial e odd rs text He H) as (n & evs & R1 & E1). destruct (C123_sheet_read_partial e odd rs' text He H') as (m & evs' & R2 & E2).
  rewrite (run_det _ _ _ _ _ _ _ _ R1 R2) in E1. rewrite E1 in E2. congruence.
Qed.
Print Assumptions C123_one_meaning.

(** An instance: ASCII, one property and one color. *)
Definition t_color : str := [99; 111; 108; 111; 114].
Definition t_red : str := [114; 101; 100].
Definition ex_env : kenv :=
  Env ascii_word ascii_space ascii_digit (fun _ _ => None) (fun s => str_eqb s t_color) (fun s => if str_eqb s t_red then Some (255, 0, 0)%Z else None).
Definition no_odd : nat -> option nat := fun _ => None.
Example ex_classes : classes_ok ex_env.
Proof.
  split; try reflexivity; cbn [k_word k_space k_digit k_marks ex_env].
  - intros c H. unfold ascii_digit, ascii_word in *. lia.
  - intros c H. unfold ascii_space, ascii_word in *. lia.
  - discriminate.
Qed.
Definition element (c : nat) : kv := VDict [(KElement, [VStr [c]])].
Definition plain (s : str) : kv := VValue (Some s) None None None None None false [].
Definition red : kv := VValue (Some t_red) None None None (Some (Plain (mkcolor 255 0 0 fl_one))) None false [].
Lemma plain_name t : t <> [] -> Forall (fun c => ascii_word c = true) t -> name ex_env no_odd t t.
Proof. intros Hne H. split; [exact Hne |]. clear Hne. induction H as [| c t Hc _ IH]; constructor; [left; exact Hc | exact IH]. Qed.
(** a.b:not(#c), d > e { color: red; x:1.5em f(2%, -3) } g{} *)
Definition ex_sheet : str :=
  [97; 46; 98; 58; 110; 111; 116; 40; 35; 99; 41; 44; 32; 100; 32; 62; 32; 101; 32; 123; 32] ++ t_color ++ [58; 32] ++ t_red
  ++ [59; 32; 120; 58; 49; 46; 53; 101; 109; 32; 102; 40; 50; 37; 44; 32; 45; 51; 41; 32; 125; 32; 103; 123; 125].
Definition ex_rules : list kv :=
  [VRule (Some (VPrelude
     [[VDict [(KElement, [VStr [97]]); (KClass, [VStr [98]]); (KPseudoClass, [VPseudo [110; 111; 116] (Some [[VDict [(KId, [VStr [99]])]]])])]];
      [element 100; VStr [62]; element 101]]))
   (VProps [(t_color, [red]);
            ([120], [VValue (Some [49; 46; 53]) (Some [49; 46; 53]) (Some [101; 109]) None None None false [];
                     VValue None None None None None (Some [102]) false
                       [VValue (Some [50]) (Some [50]) (Some [37]) None None None false []; VStr [44]; VValue (Some [45; 51]) (Some [45; 51]) None None None None false []]])]);
   VRule (Some (VPrelude [[element 103]])) (VProps [])].
Example ex_sheet_ok : sheet_text ex_env no_odd ex_rules ex_sheet.
Proof.
  assert (W : forall c, ascii_word c = true -> name ex_env no_odd [c] [c]) by (intros c Hc; apply plain_name; [discriminate | now constructor]).
  assert (Sp : Forall (fun c => k_space ex_env c = true) [32]) by (constructor; [reflexivity | constructor]).
  assert (Nil : Forall (fun c => k_space ex_env c = true) []) by constructor.
  assert (El : forall c, ascii_word c = true -> selector_text ex_env no_odd (element c) [c]) by (intros c Hc; apply (st_element ex_env no_odd [c] [c] [] [] (W c Hc)); constructor).
  apply (sh_rule ex_env no_odd _ [97; 46; 98; 58; 110; 111; 116; 40; 35; 99; 41; 44; 32; 100; 32; 62; 32; 101; 32] [(t_color, [red]); ([120], _)]
           ([32] ++ t_color ++ [] ++ 58 :: ([32] ++ t_red ++ []) ++ 59 :: [32; 120; 58; 49; 46; 53; 101; 109; 32; 102; 40; 50; 37; 44; 32; 45; 51; 41; 32]) _ [32; 103; 123; 125]).
  - apply (ss_more ex_env no_odd [] _ [97; 46; 98; 58; 110; 111; 116; 40; 35; 99; 41] [] _ [32; 100; 32; 62; 32; 101; 32]); [exact Nil | | exact Nil |].
    + apply gt_one. apply (st_element ex_env no_odd [97] [97] [(KClass, VStr [98]); (KPseudoClass, VPseudo [110; 111; 116] (Some [[VDict [(KId, [VStr [99]])]]]))]); [now apply W |].
      apply (pt_class ex_env no_odd [98]); [now apply W | intros c r H; injection H as <- <-; reflexivity |].
      apply (pt_function ex_env no_odd [110; 111; 116] _ _ [35; 99] [] []); [apply plain_name; [discriminate | repeat constructor] | | constructor].
      apply (ss_one ex_env no_odd [] _ [35; 99] []); [exact Nil | | exact Nil]. apply gt_one. apply (st_plain ex_env no_odd [(KId, VStr [99])]); [discriminate |].
      apply (pt_id ex_env no_odd [99] _ [] []); [now apply W | constructor].
    + apply (ss_one ex_env no_odd [32] _ [100; 32; 62; 32; 101] [32]); [exact Sp | | exact Sp].
      apply (gt_more ex_env no_odd _ [100] [62] [32; 62; 32] _ [101]); [now apply El | apply (cb_char ex_env 62 [32] [32]); [now left | exact Sp | exact Sp] | apply gt_one; now apply El].
  - apply (dt_more ex_env no_odd [32] t_color t_color [] _ ([32] ++ t_red ++ [])); [exact Sp | apply plain_name; [discriminate | repeat constructor] | exact Nil | |].
    + apply (vs_one ex_env no_odd [32] red t_red []); [exact Sp | | exact Nil]. apply (vt_name ex_env no_odd t_red t_red); [apply plain_name; [discriminate | repeat constructor] | | discriminate].
      split; [intros c r H; injection H as <- <-; reflexivity | discriminate].
    + apply (dt_last ex_env no_odd [32] [120] [120] [] _ [49; 46; 53; 101; 109; 32; 102; 40; 50; 37; 44; 32; 45; 51; 41; 32]); [exact Sp | now apply W | exact Nil |].
      assert (D : forall c, ascii_digit c = true -> digits ex_env [c]) by (intros c Hc; split; [discriminate | now constructor]).
      apply (vs_more ex_env no_odd [] _ [49; 46; 53; 101; 109] [32] _ [102; 40; 50; 37; 44; 32; 45; 51; 41; 32]); [exact Nil | | discriminate | exact Sp |].
      * apply (vt_unit ex_env no_odd [49; 46; 53] [101; 109]).
        -- exists [], [49]. split; [now left |]. right. exists [53]. split; [right; now apply D |]. split; [now apply D | reflexivity].
        -- right. split; [apply plain_name; [discriminate | repeat constructor] |]. split; [intros c r H; injection H as <- <-; reflexivity |]. intros c d r H. injection H as <- <- <-. discriminate.
      * apply (vs_one ex_env no_odd [] _ [102; 40; 50; 37; 44; 32; 45; 51; 41] [32]); [exact Nil | | exact Sp].
        apply (vt_function ex_env no_odd [102] [102] _ [50; 37; 44; 32; 45; 51]); [now apply W | split; [intros c r H; injection H as <- <-; reflexivity | discriminate] | discriminate | cbn; intuition discriminate |].
        apply (vs_comma ex_env no_odd [] _ [50; 37] [] _ [32; 45; 51]); [exact Nil | | exact Nil |].
        -- apply (vt_unit ex_env no_odd [50] [37]); [exists [], [50]; split; [now left |]; left; split; [now apply D | reflexivity] | now left].
        -- apply (vs_one ex_env no_odd [32] _ [45; 51] []); [exact Sp | | exact Nil]. apply vt_number. exists [45], [51]. split; [right; now right |]. left. split; [now apply D | reflexivity].
  - apply (sh_rule ex_env no_odd _ [32; 103] [] [] [] []); [| apply dt_nil; exact Nil | apply sh_nil; exact Nil].
    apply (ss_one ex_env no_odd [32] _ [103] []); [exact Sp | apply gt_one; now apply El | exact Nil].
Qed.
(** What is read from a text, if lexing it takes at most [n] steps. *)
Definition read (n : nat) (text : str) : option (option (option KR)) :=
  match l_run k_consume (k_parse ex_env) text n (l_init [KRoot] 0) with (evs, None) => Some (k_read ex_env no_odd (map fst evs)) | _ => None end.
Definition reads (text : str) (r : option (option KR)) : Prop :=
  exists n evs, l_run k_consume (k_parse ex_env) text n (l_init [KRoot] 0) = (evs, None) /\ k_read ex_env no_odd (map fst evs) = r.
Lemma reads_by n text r : read n text = Some r -> reads text r.
Proof. unfold read, reads. destruct (l_run _ _ _ _ _) as [evs [s |]] eqn:E; [discriminate |]. intros H. injection H as <-. exists n, evs. now split. Qed.
Example ex_sheet_read : reads ex_sheet (Some (Some (Some (VSheet ex_rules)))).
Proof. apply (reads_by 200). vm_compute. reflexivity. Qed.

(** C123. After "@media", the next rule is lost: "@media x{a{}}b{}c{}" gives the rule for c after the at-rule, not the rule for b. *)
Theorem C123_media_refuted :
  reads [64; 109; 101; 100; 105; 97; 32; 120; 123; 97; 123; 125; 125; 98; 123; 125; 99; 123; 125]
    (Some (Some (Some (VSheet
      [VAtrule (Some (VStr [109; 101; 100; 105; 97])) [plain [120]] (Some (VSheet [VRule (Some (VPrelude [[element 97]])) (VProps [])]));
       VRule (Some (VPrelude [[element 99]])) (VProps [])])))).
Proof. apply (reads_by 200). vm_compute. reflexivity. Qed.
Print Assumptions C123_media_refuted.
(** C123. The combinator || without white space before it is not seen: "a||b{}" has one selector, with two elements. *)
Theorem C123_column_refuted :
  reads [97; 124; 124; 98; 123; 125] (Some (Some (Some (VSheet [VRule (Some (VPrelude [[VDict [(KElement, [VStr [97]; VStr [98]])]]])) (VProps [])])))).
Proof. apply (reads_by 200). vm_compute. reflexivity. Qed.
Print Assumptions C123_column_refuted.
(** C123. A style sheet with a comment after all rules cannot be read: "a{}/**/" raises an exception. *)
Theorem C123_comment_refuted : reads [97; 123; 125; 47; 42; 42; 47] None.
Proof. apply (reads_by 200). vm_compute. reflexivity. Qed.
Print Assumptions C123_comment_refuted.

(** C124. In the rule that is read for declarations, each property has the values of its last declaration, and there are no other properties.
    Missing: the values that are missing in C123, and those below. *)
Lemma entry_lookup {K V} dec (k k' : K) (v : V) d : lookup dec k (entry dec k' v d) = if dec k k' then Some v else lookup dec k d.
Proof.
  induction d as [| [k1 v1] d IH]; cbn [entry lookup].
  - destruct (dec k k'); reflexivity.
  - destruct (dec k' k1) as [<- | D]; cbn [lookup]; [destruct (dec k k'); reflexivity |]. rewrite IH. destruct (dec k k1) as [-> | D1]; [| reflexivity]. destruct (dec k1 k') as [-> | D2]; [congruence | reflexivity].
Qed.
Lemma properties_app ds ds' p : ~ In p (map fst ds') -> lookup str_dec p (properties (ds ++ ds')) = lookup str_dec p (properties ds).
Proof.
  induction ds' as [| x ds' IH] using rev_ind; intros H; [now rewrite app_nil_r |]. rewrite map_app, in_app_iff in H. unfold properties in *. rewrite app_assoc, fold_left_app. cbn [fold_left]. rewrite entry_lookup.
  destruct (str_dec p (fst x)) as [-> | _]; [exfalso; apply H; right; now left |]. apply IH. tauto.
Qed.
Theorem C124_properties_read_partial :
  forall (e : kenv) (odd : nat -> option nat) gs g ds d,
    classes_ok e -> groups_text e odd gs g -> declarations_text e odd ds d ->
    exists n evs ps, l_run k_consume (k_parse e) (g ++ 123 :: d ++ [125]) n (l_init [KRoot] 0) = (evs, None)
      /\ k_read e odd (map fst evs) = Some (Some (Some (VSheet [VRule (Some (VPrelude gs)) (VProps ps)])))
      /\ (forall ds1 p vs ds2, ds = ds1 ++ (p, vs) :: ds2 -> ~ In p (map fst ds2) -> lookup str_dec p ps = Some vs)
      /\ (forall p, ~ In p (map fst ds) -> lookup str_dec p ps = None).
Proof.
  intros e odd gs g ds d He Hg Hd.
  destruct (C123_sheet_read_partial e odd _ _ He (sh_rule e odd gs g ds d [] [] Hg Hd (sh_nil e odd [] (Forall_nil _)))) as (n & evs & R & E).
  exists n, evs, (properties ds). split; [exact R |]. split; [exact E |]. split.
  - intros ds1 p vs ds2 -> Hp. change ((p, vs) :: ds2) with ([(p, vs)] ++ ds2). rewrite app_assoc, properties_app by exact Hp. unfold properties. rewrite fold_left_app. cbn [fold_left fst snd]. rewrite entry_lookup.
    destruct (str_dec p p); [reflexivity | congruence].
  - intros p Hp. exact (properties_app [] ds p Hp).
Qed.
Print Assumptions C124_properties_read_partial.
(** "a{b:c;b:}" *)
Example ex_twice : groups_text ex_env no_odd [[element 97]] [97] /\ declarations_text ex_env no_odd [([98], [plain [99]]); ([98], [])] [98; 58; 99; 59; 98; 58].
Proof.
  assert (W : forall c, ascii_word c = true -> name ex_env no_odd [c] [c]) by (intros c Hc; apply plain_name; [discriminate | now constructor]).
  split.
  - apply (ss_one ex_env no_odd [] _ [97] []); try constructor. apply (st_element ex_env no_odd [97] [97] [] [] (W 97 eq_refl)); constructor.
  - apply (dt_more ex_env no_odd [] [98] [98] [] _ [99] _ [98; 58]); [constructor | now apply W | constructor | |].
    + apply (vs_one ex_env no_odd [] _ [99] []); [constructor | | constructor]. apply (vt_name ex_env no_odd [99] [99]); [now apply W | | discriminate].
      split; [intros c r H; injection H as <- <-; reflexivity | discriminate].
    + apply (dt_last ex_env no_odd [] [98] [98] [] [] []); [constructor | now apply W | constructor | constructor; constructor].
Qed.
(** C124. A string makes reading fail: a{b:"c"} *)
Theorem C124_string_refuted : reads [97; 123; 98; 58; 34; 99; 34; 125] (Some (Some None)).
Proof. apply (reads_by 200). vm_compute. reflexivity. Qed.
Print Assumptions C124_string_refuted.
(** C124. Parentheses in the arguments of a function end it: a{w:f((1)*3);b:c} has a property with the name 3. *)
Theorem C124_parentheses_refuted :
  reads [97; 123; 119; 58; 102; 40; 40; 49; 41; 42; 51; 41; 59; 98; 58; 99; 125]
    (Some (Some (Some (VSheet [VRule (Some (VPrelude [[element 97]]))
      (VProps [([119], [VValue None None None None None (Some [102]) false [VStr [40]]]); ([51], []); ([98], [plain [99]])])])))).
Proof. apply (reads_by 200). vm_compute. reflexivity. Qed.
Print Assumptions C124_parentheses_refuted.
(** C124. The value "transparent" has no color: a{b:transparent} *)
Theorem C124_transparent_refuted :
  reads ([97; 123; 98; 58] ++ t_transparent ++ [125]) (Some (Some (Some (VSheet [VRule (Some (VPrelude [[element 97]])) (VProps [([98], [plain t_transparent])])])))).
Proof. apply (reads_by 200). vm_compute. reflexivity. Qed.
Print Assumptions C124_transparent_refuted.
