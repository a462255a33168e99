(** C99, C100: themes. *)
From Coq Require Import Permutation.
From Verif Require Import Base CssModel CssSpec CssProofs CssMatchProofs CssCascadeProofs CssColorModel TextFormatModel StandardActionModel ThemeModel ThemeSpec ThemeProofs Prop_Css.
Import Strings.String.StringSyntax.

(** ** C99: the text format for an action
    The order of the names of an action does not matter, as long as no selector looks at the attribute class itself.
    (Lower case is made letter by letter; the Greek sigma is the only exception in Python.) *)
Theorem C99_order : forall space lower num es rules names1 names2,
  space 32 = true -> (forall a b, lower (a ++ b) = lower a ++ lower b) -> lower [46] = [46] ->
  listed es rules -> (forall r, In r rules -> no_attributes r) ->
  (forall n, In n names1 <-> In n names2) ->
  textformat space lower num es names1 = textformat space lower num es names2.
Proof.
  intros space lower num es rules names1 names2 Hs La Ld L A N. unfold textformat, format_of.
  destruct names1 as [| n1 names1].
  { destruct names2 as [| n2 names2]; [reflexivity |]. destruct (proj2 (N n2) (or_introl eq_refl)). }
  destruct names2 as [| n2 names2]; [destruct (proj1 (N n1) (or_introl eq_refl)) |].
  destruct (style (cv num) es) as [st |] eqn:E; [| reflexivity]. cbn [obind].
  rewrite (alike_select space lower _ _ _ _ _ (twins_window space lower (with_class (css_class lower (n1 :: names1)) [] []) (with_class (css_class lower (n2 :: names2)) [] []) eq_refl eq_refl)); [reflexivity | | |].
  1,2: split; [reflexivity |]; split; [reflexivity |]; split; [| split; apply incl_refl];
    apply (class_incl space lower Hs La Ld); [discriminate |]; intros n Hn; apply N; exact Hn.
  intros r Hr. apply A. apply (style_In (cv num) es rules st r L E). exact Hr.
Qed.
Print Assumptions C99_order.
(** Otherwise it does: the rule "[class^=text]" is for Text.Comment, and not for Comment.Text. *)
Definition pre_class (t : str) : selector := mksel [] [] [] [mkattr n_class (Some op_pre) (Some t) None] [] [].
Definition tv (t : str) : cv nat := V nat (mkval nat (Some t) None None None false).
Definition bold_if (l : list item) : list (entry (cv nat)) :=
  [ERule (mkrule [l] [(k "font-weight", [Val (tv (k "bold"))])])].
Definition ascii_lower (s : str) : str := map (fun c => if (65 <=? c) && (c <=? 90) then c + 32 else c) s.
Theorem C99_attribute_refuted : exists f g,
  textformat (Nat.eqb 32) ascii_lower nat (bold_if [Sel (pre_class (k "text"))]) [k "Text"; k "Comment"] = Some f /\
  textformat (Nat.eqb 32) ascii_lower nat (bold_if [Sel (pre_class (k "text"))]) [k "Comment"; k "Text"] = Some g /\
  f Font_weight = Some (FText nat (k "bold")) /\ g Font_weight = None.
Proof. do 2 eexists. split; [vm_compute; reflexivity |]. split; [vm_compute; reflexivity |]. split; reflexivity. Qed.
Print Assumptions C99_attribute_refuted.

(** All rules for an action are also for the actions derived from it, and so every css property that is set for it. *)
Theorem C99_derived : forall space lower V (es : list (entry V)) rules st names more sel1 sel2,
  space 32 = true -> (forall a b, lower (a ++ b) = lower a ++ lower b) -> lower [46] = [46] ->
  listed es rules -> (forall r, In r rules -> no_attributes r) -> names <> [] -> style V es = Some st ->
  select_element space lower V (text_in_window (css_class lower names)) [0] st = Some sel1 ->
  select_element space lower V (text_in_window (css_class lower (names ++ more))) [0] st = Some sel2 ->
  incl sel1 sel2 /\
  forall res1 res2 key, properties V sel1 = Some res1 -> properties V sel2 = Some res2 ->
    sget res1 key <> None -> sget res2 key <> None.
Proof.
  intros space lower V es rules st names more sel1 sel2 Hs La Ld L A N E E1 E2.
  assert (incl sel1 sel2) as I.
  { apply (covered_select space lower _ _ _ _ _ (twins_window space lower (with_class (css_class lower names) [] []) (with_class (css_class lower (names ++ more)) [] []) eq_refl eq_refl) V st); auto.
    - split; [reflexivity |]. split; [reflexivity |]. split; [| split; apply incl_refl].
      apply (class_incl space lower Hs La Ld); [exact N |]. apply incl_appl, incl_refl.
    - intros r Hr. apply A. apply (style_In V es rules st r L E). exact Hr. }
  split; [exact I |]. intros res1 res2 key P1 P2 H.
  apply (properties_keys V sel1 res1 key P1) in H as (r & v & Hr & Hv).
  apply (properties_keys V sel2 res2 key P2). exists r, v. split; [apply I; exact Hr | exact Hv].
Qed.
Print Assumptions C99_derived.

(** The properties are those that win, for a piece of text with the names as classes in a window of class [parce]. Proved
    for sheets as in C87. *)
Theorem C99_cascade_partial : forall space lower num es rules names,
  listed es rules -> (forall r, In r rules -> fair_rule r) ->
  let root := text_in_window (css_class lower names) in
  (forall key d, in_force space lower root [0] rules key d ->
    (forall d', in_force space lower root [0] rules key d' -> d' = d \/ outranks d d') -> d_imp d = true ->
    forall d', in_force space lower root [0] rules key d' -> d_imp d' = true -> d' = d) ->
  exists res, textformat space lower num es names = text_format num (map (fun kv => (fst kv, map (to_cv num) (snd kv))) res) /\
    forall key v, sget res key = Some v <-> exists d, winner space lower root [0] rules key d /\ d_value d = v.
Proof.
  intros space lower num es rules names L F root H.
  assert (dict_tree root) as D.
  { constructor; [repeat constructor; intros [] |]. constructor; [| constructor].
    constructor; [repeat constructor; intros [] | constructor]. }
  destruct (C87_cascade_partial space lower (cv num) root [0] es rules D L F H) as (st & sel & res & Es & El & Ep & W).
  exists res. split; [| exact W]. unfold textformat, format_of. rewrite Es. cbn [obind].
  change (append_child window (with_class (css_class lower names) [] [])) with root. rewrite El. cbn [obind]. rewrite Ep. reflexivity.
Qed.
Print Assumptions C99_cascade_partial.

(* ".parce .comment { font-weight: bold }" *)
Definition parce_comment : list item :=
  [Sel (mksel [k "parce"] [] [] [] [] []); Op op_desc; Sel (mksel [k "comment"] [] [] [] [] [])].
Definition comment_rule : rule (cv nat) := mkrule [parce_comment] [(k "font-weight", [Val (tv (k "bold"))])].
Example C99_ex : listed (bold_if parce_comment) [comment_rule] /\
  fair_rule comment_rule /\ no_attributes comment_rule /\
  exists f g, textformat (Nat.eqb 32) ascii_lower nat (bold_if parce_comment) [k "Text"; k "Comment"; k "Doc"] = Some f /\
    f Font_weight = Some (FText nat (k "bold")) /\
    textformat (Nat.eqb 32) ascii_lower nat (bold_if parce_comment) [k "Text"] = Some g /\ g Font_weight = None.
Proof.
  split; [repeat constructor |].
  assert (forall s, In s (sels_of parce_comment) -> says_something s) as Dp.
  { intros s [<- | [<- | []]]; (split; [left; discriminate |]); intros x []. }
  split; [| split].
  - split; [discriminate |]. split; [| split].
    + intros l [<- | []]. split; [apply (alt_more [Sel (mksel [k "parce"] [] [] [] [] [])]); constructor |].
      split; [intros o [<- | []]; cbn; auto |]. split; [exact Dp |].
      intros a o1 o2 b E. destruct a as [| x a]; [discriminate |]. injection E as _ E. destruct a; discriminate.
    + intros l l' [<- | []] [<- | []]. reflexivity.
    + split; [repeat constructor; intros [] |]. intros key v [E | []]. injection E as _ <-. discriminate.
  - intros l s [<- | []] [<- | [<- | []]]; reflexivity.
  - do 2 eexists. split; [vm_compute; reflexivity |]. split; [reflexivity |]. split; [vm_compute; reflexivity | reflexivity].
Qed.

(** ** C100: the format for a role and a state
    An unknown state is the default state, and one that no selector mentions too. All rules for the default state are
    also for the other states. *)
Theorem C100_unknown_state : forall space lower num es role state, state <> k "focus" -> state <> k "disabled" ->
  baseformat space lower num es role state = baseformat space lower num es role (k "default").
Proof.
  intros space lower num es role state N1 N2. unfold baseformat, base_element.
  assert (smem state [k "focus"; k "disabled"] = false) as ->.
  { destruct (smem state _) eqn:E; [| reflexivity]. apply smem_In in E as [<- | [<- | []]]; contradiction. }
  reflexivity.
Qed.
Print Assumptions C100_unknown_state.
Lemma base_covered : forall space role s1 s2, ~ In s1 [k "focus"; k "disabled"] ->
  covered space (base_element role s1) (base_element role s2).
Proof.
  intros space role s1 s2 N. unfold base_element.
  assert (smem s1 [k "focus"; k "disabled"] = false) as ->.
  { destruct (smem s1 _) eqn:E; [| reflexivity]. apply smem_In in E. contradiction. }
  destruct (str_eqb role (k "window")); [| destruct (str_eqb role (k "selection"))];
    (split; [reflexivity |]; split; [reflexivity |]; split; [apply incl_refl |]; split; [intros x [] | apply incl_refl]).
Qed.
Lemma base_childless : forall role state, e_children (base_element role state) = [].
Proof.
  intros role state. unfold base_element. destruct (str_eqb role (k "window")); [reflexivity |].
  destruct (str_eqb role (k "selection")); reflexivity.
Qed.
Theorem C100_more_specific : forall space lower V (es : list (entry V)) rules st role state sel1 sel2,
  listed es rules -> (forall r, In r rules -> no_attributes r) -> style V es = Some st ->
  select_element space lower V (base_element role (k "default")) [] st = Some sel1 ->
  select_element space lower V (base_element role state) [] st = Some sel2 -> incl sel1 sel2.
Proof.
  intros space lower V es rules st role state sel1 sel2 L A E E1 E2.
  apply (covered_select space lower _ _ _ _ _ (twins_top space lower (base_element role (k "default")) (base_element role state)
    (base_childless _ _) (base_childless _ _)) V st); auto.
  - apply base_covered. intros [C | [C | []]]; discriminate.
  - intros r Hr. apply A. apply (style_In V es rules st r L E). exact Hr.
Qed.
Print Assumptions C100_more_specific.
(** It never fails to select the rules, if these have selector lists as the css reader makes them (C92). *)
Theorem C100_selects : forall space lower V role state (rules : list (rule V)),
  (forall r l, In r rules -> In l (r_prelude r) -> alternating l) ->
  exists sel, select_element space lower V (base_element role state) [] rules = Some sel.
Proof.
  intros space lower V role state rules. generalize (base_element role state). intros e A.
  assert (forall pre, (forall l, In l pre -> alternating l) -> exists b, match_prelude space lower e [] pre = Some b) as Hp.
  { induction pre as [| l pre IH]; intros H; [eexists; reflexivity |]. cbn [match_prelude].
    destruct (match_selectors space lower e [] l) as [[|] |] eqn:E; [eexists; reflexivity | |].
    - apply IH. intros x Hx. apply H. right. exact Hx.
    - destruct (alternating_last l (H l (or_introl eq_refl))) as (s & rest & R). revert E. unfold match_selectors. rewrite R.
      destruct (negb _); [discriminate |]. cbn [match_item]. destruct (match_selector space lower e [] s); [| discriminate].
      assert (forall op, candidates op [] = []) as N.
      { intros [x | o]; [reflexivity |]. unfold candidates. destruct (str_eqb o op_child); [reflexivity |].
        destruct (str_eqb o op_desc); [reflexivity |]. destruct (str_eqb o op_next); reflexivity. }
      destruct rest as [| op [| sel rest]]; [discriminate | discriminate |]. cbn [match_loop]. rewrite N.
      destruct (_ && _); discriminate. }
  induction rules as [| r rules IH]; [eexists; reflexivity |]. cbn [select_element].
  destruct (Hp (r_prelude r) (fun l => A r l (or_introl eq_refl))) as [b ->].
  destruct IH as [sel ->]; [intros x l Hx; apply A; right; exact Hx | eexists; reflexivity].
Qed.
Print Assumptions C100_selects.
Theorem C100_unused_state : forall space lower V role state (rules : list (rule V)),
  (forall r l s, In r rules -> In l (r_prelude r) -> In s (sels_of l) -> ~ In state (s_pclass s)) ->
  select_element space lower V (base_element role state) [] rules = select_element space lower V (base_element role (k "default")) [] rules.
Proof.
  intros space lower V role state rules H.
  pose proof (twins_top space lower (base_element role state) (base_element role (k "default")) (base_childless _ _) (base_childless _ _)) as T.
  apply (same_select space lower _ _ _ _ _ T). intros r l s Hr Hl Hs. specialize (H r l s Hr Hl Hs).
  destruct T as (_ & _ & P & _). revert P.
  assert (exists c d, forall st, base_element role st = with_class c (if smem st [k "focus"; k "disabled"] then [st] else []) d) as (c & d & B).
  { unfold base_element. destruct (str_eqb role (k "window")); [do 2 eexists; reflexivity |].
    destruct (str_eqb role (k "selection")); do 2 eexists; reflexivity. }
  rewrite !B. change (smem (k "default") [k "focus"; k "disabled"]) with false. cbv iota. intros P.
  unfold match_selector. cbn [elem_at]. unfold match_selector_of. f_equal. f_equal.
  cbn [e_pclasses with_class].
  assert (forall x, In x (s_pclass s) -> smem x (if smem state [k "focus"; k "disabled"] then [state] else []) = false) as Nx.
  { intros x Hx. destruct (smem x _) eqn:E; [| reflexivity]. apply smem_In in E. destruct (smem state _); [| destruct E].
    destruct E as [<- | []]. contradiction. }
  induction (s_pclass s) as [| x pl IH]; [reflexivity |]. cbn [forallb]. rewrite P, (Nx x (or_introl eq_refl)), IH; [reflexivity | |].
  - intros I. apply H. right. exact I.
  - intros y Hy. apply Nx. right. exact Hy.
Qed.
Print Assumptions C100_unused_state.
(* ".parce:focus" and ".parce::selection" *)
Example C100_ex :
  let es := [ERule (mkrule [[Sel (mksel [k "parce"] [] [] [] [k "focus"] [])]] [(k "font-weight", [Val (tv (k "bold"))])]);
             ERule (mkrule [[Sel (mksel [k "parce"] [] [] [] [] [k "selection"])]] [(k "font-style", [Val (tv (k "italic"))])])] in
  exists f g h, baseformat (Nat.eqb 32) ascii_lower nat es (k "window") (k "focus") = Some f /\ f Font_weight = Some (FText nat (k "bold")) /\
    baseformat (Nat.eqb 32) ascii_lower nat es (k "window") (k "default") = Some g /\ g Font_weight = None /\ g Font_style = None /\
    baseformat (Nat.eqb 32) ascii_lower nat es (k "selection") (k "default") = Some h /\ h Font_style = Some (FText nat (k "italic")).
Proof.
  cbv zeta. do 3 eexists. split; [vm_compute; reflexivity |]. split; [reflexivity |]. split; [vm_compute; reflexivity |].
  split; [reflexivity |]. split; [reflexivity |]. split; [vm_compute; reflexivity | reflexivity].
Qed.
