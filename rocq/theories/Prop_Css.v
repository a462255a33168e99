(** C86, C87: style rules and elements. *)
From Verif Require Import Base CssModel CssSpec CssProofs CssMatchProofs CssCascadeProofs.

(** ** Elements and selectors for the examples *)
Definition el (n : nat) (l : list elem) : elem := Elem [n] [] [] [] l.
Definition by_name (n : nat) : selector := mksel [] [[n]] [] [] [] [].
Definition nameless : selector := mksel [] [] [] [] [] [].
Lemma by_name_says : forall n, says_something (by_name n).
Proof. intros n. split; [right; left; discriminate | intros x []]. Qed.
(* a = 97, b = 98, c = 99, x = 120 *)
Definition abc (o1 o2 : str) : list item := [Sel (by_name 97); Op o1; Sel (by_name 98); Op o2; Sel (by_name 99)].
Lemma abc_alternating : forall o1 o2, alternating (abc o1 o2).
Proof.
  intros o1 o2. apply (alt_more [Sel (by_name 97); Op o1; Sel (by_name 98)]).
  apply (alt_more [Sel (by_name 97)]). constructor.
Qed.

(** ** C86: which elements a selector matches
    Full statement: a selector list "s0 o1 s1 ... on sn" matches an element exactly when there are elements for s0 to
    sn-1 that are related as the operators say. The code takes the nearest ancestor or sibling for " " and "~" and
    does not come back to that choice. For every pair of neighbouring operators where that matters, it misses a match. *)
Definition tree_child : elem := el 97 [el 98 [el 120 [el 98 [el 99 []]]]].
Definition tree_next : elem := el 120 [el 97 []; el 98 [el 98 [el 99 []]]].
Definition tree_subs : elem := el 120 [el 97 []; el 98 []; el 98 []; el 99 []].
Lemma compound_name : forall space lower root p n l, elem_at root p = Some (el n l) ->
  compound_holds space lower root p (by_name n).
Proof.
  intros space lower root p n l E. exists (el n l). split; [exact E |]. cbn [s_class s_element s_id s_attr s_pclass s_pelement by_name].
  split; [intros c [] |]. split; [intros m [<- | []]; reflexivity |]. split; [intros i [] |]. split; [intros x [] |].
  split; intros c [].
Qed.
Theorem C86_nearest_only_refuted : forall space lower o1 o2,
  combinator o1 -> combinator o2 -> ~ greedy_pair o1 o2 ->
  exists root p, dict_tree root /\ matches space lower root (abc o1 o2) p /\
    match_selectors space lower root p (abc o1 o2) = Some false.
Proof.
  intros space lower o1 o2 H1 H2 N.
  assert (forall root, In root [tree_child; tree_next; tree_subs] -> dict_tree root) as Dt.
  { intros root [<- | [<- | [<- | []]]]; repeat constructor. }
  assert ((o1 = op_child /\ o2 = op_desc) \/ (o1 = op_next /\ o2 = op_desc) \/ (o1 = op_subs /\ o2 = op_desc) \/
          (o1 = op_next /\ o2 = op_subs)) as C.
  { unfold greedy_pair in N.
    destruct H1 as [<- | [<- | [<- | [<- | []]]]], H2 as [<- | [<- | [<- | [<- | []]]]]; auto 6;
      exfalso; apply N; split; intros; try discriminate; reflexivity. }
  destruct C as [[-> ->] | [[-> ->] | [[-> ->] | [-> ->]]]].
  - exists tree_child, [0; 0; 0; 0]. split; [apply Dt; cbn; auto |]. split; [| vm_compute; reflexivity].
    apply (m_comb space lower _ [Sel (by_name 97); Op op_child; Sel (by_name 98)] op_desc _ [0]).
    + apply (m_comb space lower _ [Sel (by_name 97)] op_child _ []).
      * constructor. eapply compound_name. reflexivity.
      * left. split; [reflexivity | exists 0; reflexivity].
      * eapply compound_name. reflexivity.
    + right. left. split; [reflexivity |]. exists [0; 0; 0]. split; [discriminate | reflexivity].
    + eapply compound_name. reflexivity.
  - exists tree_next, [1; 0; 0]. split; [apply Dt; cbn; auto |]. split; [| vm_compute; reflexivity].
    apply (m_comb space lower _ [Sel (by_name 97); Op op_next; Sel (by_name 98)] op_desc _ [1]).
    + apply (m_comb space lower _ [Sel (by_name 97)] op_next _ [0]).
      * constructor. eapply compound_name. reflexivity.
      * right. right. left. split; [reflexivity | exists [], 0; split; reflexivity].
      * eapply compound_name. reflexivity.
    + right. left. split; [reflexivity |]. exists [0; 0]. split; [discriminate | reflexivity].
    + eapply compound_name. reflexivity.
  - exists tree_next, [1; 0; 0]. split; [apply Dt; cbn; auto |]. split; [| vm_compute; reflexivity].
    apply (m_comb space lower _ [Sel (by_name 97); Op op_subs; Sel (by_name 98)] op_desc _ [1]).
    + apply (m_comb space lower _ [Sel (by_name 97)] op_subs _ [0]).
      * constructor. eapply compound_name. reflexivity.
      * right. right. right. split; [reflexivity | exists 1; split; [lia | exists [], 0; split; reflexivity]].
      * eapply compound_name. reflexivity.
    + right. left. split; [reflexivity |]. exists [0; 0]. split; [discriminate | reflexivity].
    + eapply compound_name. reflexivity.
  - exists tree_subs, [3]. split; [apply Dt; cbn; auto |]. split; [| vm_compute; reflexivity].
    apply (m_comb space lower _ [Sel (by_name 97); Op op_next; Sel (by_name 98)] op_subs _ [1]).
    + apply (m_comb space lower _ [Sel (by_name 97)] op_next _ [0]).
      * constructor. eapply compound_name. reflexivity.
      * right. right. left. split; [reflexivity | exists [], 0; split; reflexivity].
      * eapply compound_name. reflexivity.
    + right. right. right. split; [reflexivity | exists 2; split; [lia | exists [], 1; split; reflexivity]].
    + eapply compound_name. reflexivity.
Qed.
Print Assumptions C86_nearest_only_refuted.

(** The universal selector "*" is an empty dictionary: alone it matches nothing, and left of an operator it matches
    whatever is there, also when nothing is: "* > a" is found at a root. *)
Theorem C86_universal_refuted : forall space lower,
  (forall root p, match_selectors space lower root p [Sel nameless] = Some false) /\
  (forall root p e, elem_at root p = Some e -> matches space lower root [Sel nameless] p) /\
  (match_selectors space lower (el 97 []) [] [Sel nameless; Op op_child; Sel (by_name 97)] = Some true /\
   ~ matches space lower (el 97 []) [Sel nameless; Op op_child; Sel (by_name 97)] []).
Proof.
  intros space lower. split; [| split; [| split]].
  - intros root p. reflexivity.
  - intros root p e E. constructor. exists e. split; [exact E |].
    cbn [s_class s_element s_id s_attr s_pclass s_pelement nameless].
    split; [intros c [] |]. split; [intros c [] |]. split; [intros c [] |]. split; [intros c [] |]. split; intros c [].
  - vm_compute. reflexivity.
  - intros M. inversion M as [s1 p1 C1 E1 E2 | l1 o1 s1 q1 p1 M1 C1 H1 E1 E2]; subst.
    destruct l1 as [| i l1]; [inversion E1; subst |].
    + destruct l1 as [| i' l1]; cbn [app] in E1; [| destruct l1 as [| i2 [| i3 l1]]; discriminate].
      injection E1 as -> -> ->. destruct C1 as [[_ [i C1]] | [[E _] | [[E _] | [E _]]]]; try discriminate.
      destruct q1; discriminate.
Qed.
Print Assumptions C86_universal_refuted.

(** An attribute selector with an empty text, [a=""], is taken as one without: any value will do. *)
Definition with_attr (v : str) : elem := Elem [97] [([98], v)] [] [] [].
Definition attr_is (t : str) : selector := mksel [] [] [] [mkattr [98] (Some op_eq) (Some t) None] [] [].
Theorem C86_empty_text_refuted : forall space lower v, v <> [] ->
  match_selectors space lower (with_attr v) [] [Sel (attr_is [])] = Some true /\
  ~ matches space lower (with_attr v) [Sel (attr_is [])] [].
Proof.
  intros space lower v N. split; [vm_compute; reflexivity |].
  intros M. apply (last_compound space lower (with_attr v) [] (attr_is [])) in M as (e & E & _ & _ & _ & H & _).
  cbn [elem_at] in E. injection E as <-. specialize (H _ (or_introl eq_refl)) as (w & Hw & H).
  destruct Hw as [Hw | []]. injection Hw as <-.
  destruct (H _ _ eq_refl eq_refl) as [_ H']. destruct H' as [H' _].
  - intros [C | C]; discriminate.
  - apply N. apply H'. reflexivity.
Qed.
Print Assumptions C86_empty_text_refuted.

(** When every selector says something, "yes" is always right. *)
Theorem C86_no_false_match : forall space lower root p l,
  dict_tree root -> alternating l -> (forall o, In o (ops_of l) -> combinator o) ->
  (forall s, In s (sels_of l) -> says_something s) ->
  match_selectors space lower root p l = Some true -> matches space lower root l p.
Proof. intros. apply matches_sound; assumption. Qed.
Print Assumptions C86_no_false_match.
(** And with neighbouring operators that allow it, so is "no". *)
Theorem C86_matches_partial : forall space lower root p l, dict_tree root -> readable l ->
  exists b, match_selectors space lower root p l = Some b /\ (b = true <-> matches space lower root l p).
Proof. intros. apply readable_iff; assumption. Qed.
Print Assumptions C86_matches_partial.

(* "a b > c" *)
Lemma abc_readable : readable (abc op_desc op_child).
Proof.
  split; [apply abc_alternating |]. split; [| split].
  - intros o [<- | [<- | []]]; cbn; auto.
  - intros s [<- | [<- | [<- | []]]]; apply by_name_says.
  - intros a o1 o2 b E. destruct a as [| x a]; cbn in E.
    + injection E as <- <- <-. split; intros H; discriminate.
    + destruct a as [| y a]; [injection E as _ _ E; discriminate |].
      injection E as _ _ E. destruct a; discriminate.
Qed.
Example C86_ex : match_selectors (Nat.eqb 32) (fun s => s) (el 97 [el 98 [el 98 [el 99 []]]]) [0; 0; 0] (abc op_desc op_child)
  = Some true /\
  match_selectors (Nat.eqb 32) (fun s => s) (el 97 [el 98 [el 120 [el 99 []]]]) [0; 0; 0] (abc op_desc op_child) = Some false.
Proof. split; reflexivity. Qed.

(** ** C87: the properties of an element
    Full statement: the value of a property is that of the declaration that wins by importance, specificity and place,
    among the declarations of the rules that match. *)
Definition vred : list (pval nat) := [Val 1].
Definition vblue : list (pval nat) := [Val 2].
Definition imp_of (v : list (pval nat)) : list (pval nat) := v ++ [Important].
Definition rl (l : list (list item)) (v : list (pval nat)) : rule nat := mkrule l [([99], v)].
Definition by_class (n : nat) : selector := mksel [[n]] [] [] [] [] [].
Definition by_id (n : nat) : selector := mksel [] [] [[n]] [] [] [].
Definition classy : elem := Elem [97] [(n_class, [99])] [] [] [].
Definition asked (es : list (entry nat)) : option (list (str * list (pval nat))) :=
  match style nat es with
  | None => None
  | Some st => match select_element (Nat.eqb 32) (fun s => s) nat classy [] st with
               | None => None
               | Some sel => properties nat sel
               end
  end.
Lemma one_readable : forall s, says_something s -> readable [Sel s].
Proof.
  intros s H. split; [constructor |]. split; [intros o [] |]. split; [intros x [<- | []]; exact H |].
  intros a o1 o2 b E. destruct a; discriminate.
Qed.
Lemma rl_fair : forall s v, says_something s -> v <> [] -> fair_rule (rl [[Sel s]] v).
Proof.
  intros s v H N. split; [discriminate |]. split; [intros l [<- | []]; apply one_readable; exact H |].
  split; [intros l l' [<- | []] [<- | []]; reflexivity |].
  split; [repeat constructor; intros [] |]. intros k w [E | []]. injection E as _ <-. exact N.
Qed.
Lemma by_class_says : forall n, says_something (by_class n).
Proof. intros n. split; [left; discriminate | intros x []]. Qed.

(** Of two important declarations the less specific wins: "a { c: blue !important } .c { c: red !important }". *)
Definition two_important : list (entry nat) :=
  [ERule (rl [[Sel (by_name 97)]] (imp_of vblue)); ERule (rl [[Sel (by_class 99)]] (imp_of vred))].
Definition two_rules : list (rule nat) :=
  [rl [[Sel (by_name 97)]] (imp_of vblue); rl [[Sel (by_class 99)]] (imp_of vred)].
Lemma classy_dict : dict_tree classy.
Proof. constructor; [repeat constructor; intros [] | constructor]. Qed.
Lemma classy_class : matches (Nat.eqb 32) (fun s => s) classy [Sel (by_class 99)] [].
Proof.
  assert (readable [Sel (by_class 99)]) as Rd by (apply one_readable, by_class_says).
  destruct (C86_matches_partial (Nat.eqb 32) (fun s => s) classy [] _ classy_dict Rd) as (b & E & Hb).
  apply Hb. vm_compute in E. congruence.
Qed.
Lemma classy_name : matches (Nat.eqb 32) (fun s => s) classy [Sel (by_name 97)] [].
Proof.
  assert (readable [Sel (by_name 97)]) as Rd by (apply one_readable, by_name_says).
  destruct (C86_matches_partial (Nat.eqb 32) (fun s => s) classy [] _ classy_dict Rd) as (b & E & Hb).
  apply Hb. vm_compute in E. congruence.
Qed.
Lemma spec_one : forall root p s v, matches (Nat.eqb 32) (fun s => s) root [Sel s] p ->
  css_spec (Nat.eqb 32) (fun s => s) root p (rl [[Sel s]] v) (spec_counts [Sel s]).
Proof.
  intros root p s v M. split.
  - exists [Sel s]. split; [left; reflexivity |]. split; [exact M | reflexivity].
  - intros l [<- | []] _. apply lex_irrefl.
Qed.
Theorem C87_two_important_refuted :
  asked two_important = Some [([99], vblue)] /\
  winner (Nat.eqb 32) (fun s => s) classy [] two_rules [99] (mkdecl 1 (0, 1, 0) true vred).
Proof.
  split; [vm_compute; reflexivity |]. split.
  - exists (rl [[Sel (by_class 99)]] (imp_of vred)), (imp_of vred). split; [reflexivity |].
    split; [apply (spec_one classy [] (by_class 99)), classy_class |].
    split; [left; reflexivity | left; split; reflexivity].
  - intros d' (r & v & En & Hc & Hp & Hm). destruct d' as [i s b w]. cbn [d_place d_spec d_imp d_value] in *.
    destruct i as [| [| i]]; cbn [nth_error two_rules] in En; [| | destruct i; discriminate].
    + injection En as <-. destruct Hp as [E | []]. injection E as <-.
      destruct Hm as [[-> Ew] | (_ & E & H)]; [| exfalso; apply (H vblue); symmetry; exact E].
      destruct Hc as [(l & [<- | []] & _ & <-) _]. right. right. split; [reflexivity |]. left. cbn. lia.
    + injection En as <-. destruct Hp as [E | []]. injection E as <-.
      destruct Hm as [[-> Ew] | (_ & E & H)]; [| exfalso; apply (H vred); symmetry; exact E].
      apply app_inj_tail in Ew as [<- _].
      destruct Hc as [(l & [<- | []] & _ & <-) _]. left. reflexivity.
Qed.
Print Assumptions C87_two_important_refuted.

(** A rule is as specific as the most specific of its selector lists, also when that one does not match:
    "a, #x { c: blue } .c { c: red }" for an element "a" of class "c". *)
Definition list_sheet : list (rule nat) :=
  [rl [[Sel (by_name 97)]; [Sel (by_id 120)]] vblue; rl [[Sel (by_class 99)]] vred].
Theorem C87_unmatched_list_refuted :
  asked (map ERule list_sheet) = Some [([99], vblue)] /\
  winner (Nat.eqb 32) (fun s => s) classy [] list_sheet [99] (mkdecl 1 (0, 1, 0) false vred).
Proof.
  split; [vm_compute; reflexivity |]. split.
  - exists (rl [[Sel (by_class 99)]] vred), vred. split; [reflexivity |].
    split; [apply (spec_one classy [] (by_class 99)), classy_class |].
    split; [left; reflexivity |]. right. split; [reflexivity |]. split; [reflexivity |].
    intros a E. destruct a as [| x [| y a]]; discriminate.
  - intros d' (r & v & En & Hc & Hp & Hm). destruct d' as [i s b w]. cbn [d_place d_spec d_imp d_value] in *.
    destruct i as [| [| i]]; cbn [nth_error list_sheet] in En; [| | destruct i; discriminate].
    + injection En as <-. destruct Hp as [E | []]. injection E as <-.
      destruct Hm as [[_ E] | (-> & <- & _)]; [destruct w as [| x [| y w]]; discriminate |].
      destruct Hc as [(l & [<- | [<- | []]] & M & <-) _].
      * right. right. split; [reflexivity |]. left. cbn. lia.
      * exfalso. assert (readable [Sel (by_id 120)]) as Rd.
        { apply one_readable. split; [right; right; left; discriminate | intros x []]. }
        destruct (C86_matches_partial (Nat.eqb 32) (fun s => s) classy [] _ classy_dict Rd) as (b & E & Hb).
        apply Hb in M. subst b. vm_compute in E. discriminate.
    + injection En as <-. destruct Hp as [E | []]. injection E as <-.
      destruct Hm as [[_ E] | (-> & <- & _)]; [destruct w as [| x [| y w]]; discriminate |].
      destruct Hc as [(l & [<- | []] & _ & <-) _]. left. reflexivity.
Qed.
Print Assumptions C87_unmatched_list_refuted.

(** A declaration without a value, "c: ;", makes asking for the properties fail. *)
Theorem C87_no_value_refuted : forall rules1 rules2 pre key,
  properties nat (rules1 ++ mkrule pre [(key, [])] :: rules2) = None.
Proof.
  intros rules1 rules2 pre key. unfold properties. rewrite flat_map_app. cbn [flat_map r_props app].
  generalize (flat_map r_props rules1) ([] : list (str * list (pval nat)), [] : list str). intros kvs.
  induction kvs as [| kv kvs IH]; intros st; cbn [app add_props].
  - destruct st as [res im]. reflexivity.
  - destruct (add_prop nat st kv) as [st' |]; [apply IH | reflexivity].
Qed.
Print Assumptions C87_no_value_refuted.

(** Otherwise the cascade is right: when the selector lists of a rule are equally specific, every declaration has a
    value, and a property whose most specific declaration is important has no other important one. *)
Theorem C87_cascade_partial : forall space lower V root p es rules,
  dict_tree root -> listed es rules -> (forall r : rule V, In r rules -> fair_rule r) ->
  (forall key d, in_force space lower root p rules key d ->
    (forall d', in_force space lower root p rules key d' -> d' = d \/ outranks d d') -> d_imp d = true ->
    forall d', in_force space lower root p rules key d' -> d_imp d' = true -> d' = d) ->
  exists st sel res, style V es = Some st /\ select_element space lower V root p st = Some sel /\
    properties V sel = Some res /\
    forall key v, sget res key = Some v <->
      exists d, winner space lower root p rules key d /\ d_value d = v.
Proof. intros. apply cascade_right; assumption. Qed.
Print Assumptions C87_cascade_partial.
Theorem C87_every_sheet_listed : forall V (es : list (entry V)), exists rules, listed es rules.
Proof. intros. apply listed_total. Qed.
Print Assumptions C87_every_sheet_listed.

(* "@media { .c { c: red } } a { c: blue } a { c: blue !important }" *)
Definition fair_sheet : list (entry nat) :=
  [ECond [109] [] [ERule (rl [[Sel (by_class 99)]] vred)]; ERule (rl [[Sel (by_name 97)]] vblue);
   ERule (rl [[Sel (by_name 97)]] (imp_of vblue))].
Definition fair_rules : list (rule nat) :=
  [rl [[Sel (by_class 99)]] vred; rl [[Sel (by_name 97)]] vblue; rl [[Sel (by_name 97)]] (imp_of vblue)].
Example C87_ex : listed fair_sheet fair_rules /\ (forall r, In r fair_rules -> fair_rule r) /\
  (forall key d, in_force (Nat.eqb 32) (fun s => s) classy [] fair_rules key d ->
    (forall d', in_force (Nat.eqb 32) (fun s => s) classy [] fair_rules key d' -> d' = d \/ outranks d d') -> d_imp d = true ->
    forall d', in_force (Nat.eqb 32) (fun s => s) classy [] fair_rules key d' -> d_imp d' = true -> d' = d) /\
  asked fair_sheet = Some [([99], vblue)].
Proof.
  split; [| split; [| split]].
  - apply (l_cond nat [109] [] [ERule (rl [[Sel (by_class 99)]] vred)] _ [rl [[Sel (by_class 99)]] vred]);
      repeat constructor.
  - intros r [<- | [<- | [<- | []]]]; apply rl_fair; try discriminate; [apply by_class_says | apply by_name_says | apply by_name_says].
  - assert (forall key d, in_force (Nat.eqb 32) (fun s => s) classy [] fair_rules key d -> d_imp d = true ->
              d = mkdecl 2 (0, 0, 1) true vblue) as H.
    { intros key d (r & v & En & Hc & Hp & Hm) Hi. destruct d as [i s b w]. cbn [d_place d_spec d_imp d_value] in *. subst b.
      destruct i as [| [| [| i]]]; cbn [nth_error fair_rules] in En; [| | | destruct i; discriminate].
      - injection En as <-. destruct Hp as [E | []]. injection E as _ <-.
        destruct Hm as [[_ E] | (C & _)]; [destruct w as [| x [| y w]]; discriminate | discriminate].
      - injection En as <-. destruct Hp as [E | []]. injection E as _ <-.
        destruct Hm as [[_ E] | (C & _)]; [destruct w as [| x [| y w]]; discriminate | discriminate].
      - injection En as <-. destruct Hp as [E | []]. injection E as _ <-.
        destruct Hm as [[_ E] | (C & _)]; [| discriminate]. apply app_inj_tail in E as [<- _].
        destruct Hc as [(l & [<- | []] & _ & <-) _]. reflexivity. }
    intros key d Fd _ Id d' Fd' Id'. rewrite (H key d Fd Id), (H key d' Fd' Id'). reflexivity.
  - vm_compute. reflexivity.
Qed.
