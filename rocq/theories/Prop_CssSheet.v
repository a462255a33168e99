(** C88 to C93: style sheets, their files, and reading selectors and strings. *)
From Verif Require Import Base CssModel CssSpec CssProofs CssMatchProofs CssCascadeProofs CssOrderProofs
  CssReadModel CssReadSpec CssReadProofs CssSheetModel CssSheetSpec CssSheetProofs Prop_Css.

(** ** C88: the rules of a style
    All rules of the sheet, also those behind conditions, each once: the most specific first, of equally specific ones
    the last first. *)
Theorem C88_style_order : forall V (es : list (entry V)) rules st, listed es rules -> style V es = Some st ->
  exists T : list (nat * rule V), st = map snd T /\
    (forall i r, In (i, r) T <-> nth_error rules i = Some r) /\
    (forall a x b y c sx sy, T = a ++ x :: b ++ y :: c -> rule_spec (snd x) sx -> rule_spec (snd y) sy ->
      lex_lt sy sx \/ (sx = sy /\ fst y < fst x)).
Proof. exact style_general. Qed.
Print Assumptions C88_style_order.
(** There is none when one rule has no selectors, as ", {}" has: then no rule of the sheet can be used. *)
Theorem C88_no_selectors_refuted : forall V (es : list (entry V)) rules, listed es rules ->
  style V es = None <-> exists r, In r rules /\ r_prelude r = [].
Proof. exact style_none. Qed.
Print Assumptions C88_no_selectors_refuted.
Example C88_ex : listed fair_sheet fair_rules /\ style nat fair_sheet =
  Some [rl [[Sel (by_class 99)]] vred; rl [[Sel (by_name 97)]] (imp_of vblue); rl [[Sel (by_name 97)]] vblue] /\
  read_prelude [PComma] = [] /\
  style nat [ERule (rl [[Sel (by_name 97)]] vred); ERule (rl (read_prelude [PComma]) vblue)] = None.
Proof. split; [apply C87_ex | vm_compute; repeat split; reflexivity]. Qed.

(** ** C89: filtering conditions
    Full statement: the rules that remain are those that are not behind a rejected condition. But only the outermost
    conditions are looked at. *)
Theorem C89_filter_nested_refuted : forall keyword pred c k2, pred c = false -> k2 <> keyword -> forall r : nat,
  let s := mksheet [] [] [SCond k2 [] [] [] [SCond keyword c [] [] [SRule r]]] in
  exists l, behind (sh_rules (sheet_filter nat keyword pred s)) l /\
    In ([(k2, []); (keyword, c)], r) l /\ rejected keyword pred (keyword, c).
Proof.
  intros keyword pred c k2 Hp Hk r s. exists [([(k2, []); (keyword, c)], r)]. split; [| split].
  - unfold s, sheet_filter. cbn [sh_rules filter]. apply str_eqb_neq in Hk. rewrite Hk.
    apply (b_cond nat k2 [] [] [] [SCond keyword c [] [] [SRule r]] [] [([(keyword, c)], r)] []); [| constructor].
    apply (b_cond nat keyword c [] [] [SRule r] [] [([], r)] []); repeat constructor.
  - left. reflexivity.
  - split; [reflexivity | exact Hp].
Qed.
Print Assumptions C89_filter_nested_refuted.
(** What remains, in the same order: the rules whose outermost condition is not rejected. *)
Theorem C89_filter_partial : forall R keyword pred (s : sheet R) l, behind (sh_rules s) l ->
  exists l', behind (sh_rules (sheet_filter R keyword pred s)) l' /\
    (exists keep, l' = filter keep l /\
      forall x, keep x = true <-> (forall out ins, fst x = out :: ins -> ~ rejected keyword pred out)).
Proof.
  intros R keyword pred s l H. eexists. split; [apply behind_filter; exact H |]. eexists. split; [reflexivity |].
  intros [ch r]. cbn [fst]. destruct ch as [| [k c] ch].
  - split; [intros _ out ins E; discriminate | reflexivity].
  - unfold keeps, rejected. cbn [fst snd]. destruct (str_eqb k keyword) eqn:E.
    + apply str_eqb_eq in E. subst k. split.
      * intros Hp out ins E. injection E as <- <-. cbn [fst snd]. intros [_ C]. congruence.
      * intros Hn. specialize (Hn _ _ eq_refl). cbn [fst snd] in Hn. destruct (pred c); [reflexivity | destruct Hn; auto].
    + apply str_eqb_neq in E. split; [| reflexivity]. intros _ out ins Eo. injection Eo as <- <-. cbn [fst snd].
      intros [C _]. congruence.
Qed.
Print Assumptions C89_filter_partial.
Theorem C89_every_sheet_behind : forall R (es : list (sentry R)), exists l, behind es l.
Proof. exact behind_total. Qed.
Print Assumptions C89_every_sheet_behind.
Definition media : str := [109].
Example C89_ex : let s := mksheet [] [] [SRule 1; SCond media [CText [97]] [] [] [SRule 2]; SCond media [CText [98]] [] [] [SRule 3]] in
  sh_rules (sheet_filter nat media (fun c => match c with [CText [97]] => true | _ => false end) s) =
    [SRule 1; SCond media [CText [97]] [] [] [SRule 2]].
Proof. reflexivity. Qed.

(** ** C90: imports
    Full statement: an [@import] brings in the rules of the file, with a condition when there is a media query; files
    that import each other are read once. An [@import] without a media query never works. *)
Theorem C90_plain_import_refuted : forall R join load (rs : list R) fn name block css icss fuel, name <> [] ->
  load (join fn name) = Some icss -> join fn name <> fn ->
  forall s, from_css R join load fuel fn true (map PRule rs ++ PAt kw_import [CUrl name] block :: css) <> Done s.
Proof.
  intros R join load rs fn name block css icss fuel N Hl Hn s E. destruct fuel as [| fuel]; [discriminate |].
  cbn [from_css] in E.
  destruct (get_sheet_rules _ _ _ _ _ _ _ _) as [l | |] eqn:G; [| discriminate | discriminate]. clear E s.
  revert l G. induction rs as [| r rs IH]; intros l G; cbn [map app get_sheet_rules] in G.
  - rewrite str_eqb_refl in G. destruct name as [| c name]; [congruence |]. cbn [import_target] in G.
    assert (smem (join fn (c :: name)) [fn] = false) as Es.
    { destruct (smem (join fn (c :: name)) [fn]) eqn:C; [| reflexivity].
      apply smem_In in C. destruct C as [C | []]. congruence. }
    rewrite Es, Hl in G. discriminate.
  - destruct (get_sheet_rules _ _ _ _ _ _ (map PRule rs ++ _) _) as [l' | |]; [| discriminate | discriminate].
    apply (IH l' eq_refl).
Qed.
Print Assumptions C90_plain_import_refuted.
(** Two files that import each other, with a media query, are read without end. *)
Definition file_a : str := [97].
Definition file_b : str := [98].
Definition screen : cval := CText [115].
Definition loop_files (f : str) : option (list (parsed nat)) :=
  if str_eqb f file_a then Some [PAt kw_import [CUrl file_b; screen] None]
  else if str_eqb f file_b then Some [PAt kw_import [CUrl file_a; screen] None]
  else None.
Theorem C90_cycle_refuted : forall fuel,
  from_css nat (fun _ f => f) loop_files fuel file_a true [PAt kw_import [CUrl file_b; screen] None] = OutOfFuel /\
  from_css nat (fun _ f => f) loop_files fuel file_b true [PAt kw_import [CUrl file_a; screen] None] = OutOfFuel.
Proof.
  induction fuel as [| fuel [IH1 IH2]]; [split; reflexivity |]. split.
  - change (from_css nat (fun _ f => f) loop_files (S fuel) file_a true [PAt kw_import [CUrl file_b; screen] None])
      with (match (match from_css nat (fun _ f => f) loop_files fuel file_b true [PAt kw_import [CUrl file_a; screen] None] with
            | Done s => then_cons nat (SCond kw_import [screen] (sh_filename s) (sh_imported s) (sh_rules s)) (Done [])
            | Raised => Raised | OutOfFuel => OutOfFuel end) with
            | Done rules => Done (mksheet file_a [] rules) | Raised => Raised | OutOfFuel => OutOfFuel end).
    rewrite IH2. reflexivity.
  - change (from_css nat (fun _ f => f) loop_files (S fuel) file_b true [PAt kw_import [CUrl file_a; screen] None])
      with (match (match from_css nat (fun _ f => f) loop_files fuel file_a true [PAt kw_import [CUrl file_b; screen] None] with
            | Done s => then_cons nat (SCond kw_import [screen] (sh_filename s) (sh_imported s) (sh_rules s)) (Done [])
            | Raised => Raised | OutOfFuel => OutOfFuel end) with
            | Done rules => Done (mksheet file_b [] rules) | Raised => Raised | OutOfFuel => OutOfFuel end).
    rewrite IH1. reflexivity.
Qed.
Print Assumptions C90_cycle_refuted.
(** Of two imports of one file with different media queries the second is dropped. *)
Definition one_file (f : str) : option (list (parsed nat)) := if str_eqb f file_b then Some [PRule 7] else None.
Theorem C90_second_media_refuted : forall m1 m2 fuel,
  from_css nat (fun _ f => f) one_file (S (S fuel)) file_a true
    [PAt kw_import [CUrl file_b; m1] None; PAt kw_import [CUrl file_b; m2] None] =
  Done (mksheet file_a [] [SCond kw_import [m1] file_b [] [SRule 7]]).
Proof. reflexivity. Qed.
Print Assumptions C90_second_media_refuted.
(** With [allow_import=False] an [@import] inside a nested block still reads the file, and fails when it is not there. *)
Theorem C90_not_allowed_refuted : forall c fuel,
  from_css nat (fun _ f => f) one_file (S (S (S fuel))) file_a false
    [PAt media c (Some [PAt kw_import [CUrl file_b; screen] None])] =
  Done (mksheet file_a [] [SCond media c [] [] [SCond kw_import [screen] file_b [] [SRule 7]]]) /\
  from_css nat (fun _ f => f) one_file (S (S (S fuel))) file_a false
    [PAt media c (Some [PAt kw_import [CUrl file_a; screen] None])] = Raised.
Proof. split; reflexivity. Qed.
Print Assumptions C90_not_allowed_refuted.
(** When it comes to an end without an error, what is read is right; and it does so whenever there is something to
    read by these rules: imports with a media query, in files that do not import each other. *)
Theorem C90_reads_partial : forall R join load f (c : list (parsed R)) l,
  (exists n, from_css R join load n f true c = Done (mksheet f [] l)) <-> reads join load f [f] c l.
Proof. exact from_css_iff. Qed.
Print Assumptions C90_reads_partial.
Theorem C90_nothing_else : forall R join load n f (c : list (parsed R)) s,
  from_css R join load n f true c = Done s ->
  sh_filename s = f /\ sh_imported s = [] /\ reads join load f [f] c (sh_rules s).
Proof. exact from_css_reads. Qed.
Print Assumptions C90_nothing_else.
Definition chain_files (f : str) : option (list (parsed nat)) :=
  if str_eqb f file_b then Some [PRule 7; PAt kw_import [CUrl [99]; screen] None]
  else if str_eqb f [99] then Some [PRule 8; PAt media [] (Some [PRule 9])]
  else None.
Example C90_ex : from_css nat (fun _ f => f) chain_files 4 file_a true [PAt kw_import [CNone; CUrl file_b; screen] None; PRule 6] =
  Done (mksheet file_a [] [SCond kw_import [screen] file_b [] [SRule 7;
    SCond kw_import [screen] [99] [] [SRule 8; SCond media [] [] [] [SRule 9]]]; SRule 6]).
Proof. reflexivity. Qed.

(** ** C91: the files a sheet depends on
    Full statement: [filenames] lists the sheet's own file and the files of the imported rules that are still selected.
    After filtering the own name is gone. *)
Theorem C91_own_name_refuted : forall R keyword pred f im (rules : list (sentry R)), f <> [] ->
  ~ depends (mksheet [] [] rules) f ->
  In f (filenames R (mksheet f im rules)) /\
  ~ In f (filenames R (sheet_filter R keyword pred (mksheet f im rules))).
Proof.
  intros R keyword pred f im rules Hf N. split.
  - apply filenames_iff. exact (d_own R (mksheet f im rules) Hf).
  - intros C. apply N. apply filenames_iff. unfold filenames, sheet_filter in *. cbn [sh_filename sh_imported sh_rules app] in *.
    apply in_flat_map in C as (e & He & C). apply filter_In in He as [He _]. apply in_flat_map. exists e. auto.
Qed.
Print Assumptions C91_own_name_refuted.
(** It lists exactly what the object still knows: its own name, recorded imports, and imports with a media query,
    through any number of files. *)
Theorem C91_filenames_partial : forall R (s : sheet R) g, In g (filenames R s) <-> depends s g.
Proof. exact filenames_iff. Qed.
Print Assumptions C91_filenames_partial.
(** Adding two sheets keeps the names and the rules of both. *)
Theorem C91_add : forall R (a b : sheet R),
  sh_rules (sheet_add R a b) = sh_rules a ++ sh_rules b /\
  forall g, depends a g \/ depends b g -> depends (sheet_add R a b) g.
Proof.
  intros R a b. split; [reflexivity |]. intros g H. apply d_imported. cbn [sheet_add sh_imported]. apply nodup_In.
  apply in_or_app. destruct H as [H | H]; [left | right]; apply filenames_iff; exact H.
Qed.
Print Assumptions C91_add.
Example C91_ex : let s := mksheet file_a [] [SCond kw_import [screen] file_b [] [SCond kw_import [screen] [99] [] [SRule 8]]; SRule 6] in
  filenames nat s = [file_a; file_b; [99]] /\ filenames nat (sheet_filter nat media (fun _ => true) s) = [file_b; [99]].
Proof. split; reflexivity. Qed.

(** ** C92: reading the selectors of a rule
    However operators, commas and selectors follow each other: the parts between commas that have a selector, each with
    its selectors in order and between two the first operator that was there, or a space. *)
Theorem C92_prelude : forall items,
  (exists parts, parts <> [] /\ filter matters items = with_commas (map anypart_items parts)) /\
  forall parts, parts <> [] -> filter matters items = with_commas (map anypart_items parts) ->
    read_prelude items = meaning parts.
Proof. intros items. split; [apply parts_exist | intros parts N E; apply read_prelude_meaning; assumption]. Qed.
Print Assumptions C92_prelude.
(** So matching what was read never fails, whatever the text was. *)
Theorem C92_match_never_raises : forall space lower root p items,
  (forall l, In l (read_prelude items) -> alternating l) /\
  match_prelude space lower root p (read_prelude items) <> None.
Proof.
  intros space lower root p items. split; [apply read_prelude_alternating |].
  apply prelude_no_raise. apply read_prelude_alternating.
Qed.
Print Assumptions C92_match_never_raises.
(* "> a + ~ b c >, , + , d" *)
Example C92_ex : read_prelude [POp op_child; PSel (by_name 97); POp op_next; POther; POp op_subs; PSel (by_name 98);
    PSel (by_name 99); POp op_child; PComma; PComma; POp op_next; PComma; PSel (by_name 100)] =
  [[Sel (by_name 97); Op op_next; Sel (by_name 98); Op op_desc; Sel (by_name 99)]; [Sel (by_name 100)]].
Proof. reflexivity. Qed.

(** ** C93: strings
    Full statement: a quoted string is read as its contents, and a text that is written out quoted is read back as
    itself. Reading fails for every string but the one of a lone quote at the end of the text. *)
Theorem C93_read_string_refuted : forall quote items s,
  read_string quote items = Some s <-> s = [] /\ forall i, In i items -> is_tok i = false.
Proof.
  intros quote items s. unfold read_string, get_string.
  assert (forall l, filter is_tok l = [] <-> forall i, In i l -> is_tok i = false) as F.
  { induction l as [| i l IH]; cbn [filter].
    - split; [intros _ i [] | reflexivity].
    - destruct (is_tok i) eqn:E.
      + split; [discriminate |]. intros H. rewrite H in E; [discriminate | left; reflexivity].
      + rewrite IH. split; [intros H j [<- | Hj]; auto | intros H j Hj; apply H; right; exact Hj]. }
  destruct (closed_by quote items) eqn:C.
  - split; [discriminate |]. intros [_ H]. exfalso. unfold closed_by, last_opt in C.
    destruct (rev items) as [| i r] eqn:E; [discriminate |].
    assert (is_tok i = false) as T by (apply H, in_rev; rewrite E; left; reflexivity).
    destruct i; [discriminate | discriminate].
  - specialize (F items). destruct (filter is_tok items) as [| i l].
    + split; [intros E; injection E as <-; split; [reflexivity | apply F; reflexivity] | intros [-> _]; reflexivity].
    + split; [discriminate |]. intros [_ H]. apply F in H. discriminate.
Qed.
Print Assumptions C93_read_string_refuted.
(** Written texts: a newline is not escaped, and a text that begins with a digit is not quoted. *)
Theorem C93_quote_refuted :
  (forall word r, ~ stands_for word (quote_if_needed word (32 :: 10 :: r)) (32 :: 10 :: r) \/ word 10 = true \/ word 32 = true) /\
  (forall word c, digit c = true -> word c = true -> c <> 34 -> ~ stands_for word (quote_if_needed word [c]) [c]).
Proof.
  split.
  - intros word r. destruct (word 32) eqn:E32; [auto |]. left.
    assert (quote_if_needed word (32 :: 10 :: r) = 34 :: 32 :: 10 :: flat_map (fun c => if (c =? 92) || (c =? 34) then escape c else [c]) r ++ [34]) as ->.
    { unfold quote_if_needed. cbn [forallb]. rewrite E32. reflexivity. }
    intros [[(_ & H & _) E] | (r' & fuel & E & H)].
    + injection E as E _. discriminate.
    + injection E as <-. destruct fuel as [| [| fuel]]; cbn in H; try discriminate.
  - intros word c Hd Hw Hc.
    assert (quote_if_needed word [c] = [c]) as ->.
    { unfold quote_if_needed. cbn [forallb]. rewrite Hw. reflexivity. }
    intros [[(_ & _ & H & _) _] | (r' & fuel & E & _)].
    + rewrite (H c [] eq_refl) in Hd. discriminate.
    + injection E as E _. congruence.
Qed.
Print Assumptions C93_quote_refuted.
(** Any other text is read back. *)
Theorem C93_quote_partial : forall word s, (forall c, In c s -> c <> 10 /\ c <> 12 /\ c <> 13) ->
  (s <> [] -> (forall c, In c s -> word c = true \/ c = 45) -> ident word s) ->
  stands_for word (quote_if_needed word s) s.
Proof. exact quote_stands. Qed.
Print Assumptions C93_quote_partial.
Definition ascii_word (c : nat) : bool := ((97 <=? c) && (c <=? 122)) || ((48 <=? c) && (c <=? 57)).
(* a, a double quote, a space, a backslash, 1 *)
Example C93_ex : quote_if_needed ascii_word [97; 34; 32; 92; 49] = [34; 97; 92; 50; 50; 32; 32; 92; 53; 99; 32; 49; 34] /\
  css_string 20 [97; 92; 50; 50; 32; 32; 92; 53; 99; 32; 49; 34] = Some ([97; 34; 32; 92; 49], []) /\
  quote_if_needed ascii_word [97; 45; 98] = [97; 45; 98].
Proof. repeat split; reflexivity. Qed.
