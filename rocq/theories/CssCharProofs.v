(** Which patterns of CSS match at a character. *)
From Verif Require Import Base BaseFacts TargetModel TargetSpec LexerModel LexerSpec TargetProofs LexerProofs LexiconModel LexiconSpec TreeModel TreeSpec TreeProofs BuildModel BuildProofs
  TransformModel TransformSpec TransformTextProofs MachineProofs GeneratorProofs CssColorModel CssLangModel IniSpec CssTextSpec CssStepProofs.
From Coq Require Import ZArith ZifyBool.

Lemma fm_skip i p ps s : p s = None -> first_match i (p :: ps) s = first_match (S i) ps s.
Proof. intros H. cbn [first_match]. now rewrite H. Qed.
Lemma fm_hit i p ps s n : p s = Some n -> first_match i (p :: ps) s = Some (i, n).
Proof. intros H. cbn [first_match]. now rewrite H. Qed.
Lemma neq_by (f : nat -> bool) c k : f c = true -> f k = false -> (c =? k) = false.
Proof. intros H1 H2. apply Nat.eqb_neq. intros ->. congruence. Qed.
Lemma neq_by' (f : nat -> bool) c k : f c = true -> f k = false -> (k =? c) = false.
Proof. intros H1 H2. apply Nat.eqb_neq. intros ->. congruence. Qed.

Lemma chr1_no c d r : (d =? c) = false -> chr1 c (d :: r) = None.
Proof. intros H. cbn. now rewrite H. Qed.
Lemma lit_no k t c r : (k =? c) = false -> lit (k :: t) (c :: r) = None.
Proof. intros H. unfold lit, starts. cbn [length firstn]. unfold str_eqb. cbn [list_eqb]. now rewrite H. Qed.
Lemma chrs_nil c r : chrs [] (c :: r) = None. Proof. reflexivity. Qed.
Lemma chrs_no k l c r : (c =? k) = false -> chrs l (c :: r) = None -> chrs (k :: l) (c :: r) = None.
Proof. intros H1 H2. cbn [chrs existsb] in *. rewrite H1. cbn [orb]. exact H2. Qed.
Lemma escape_no c r : (c =? 92) = false -> re_escape (c :: r) = None.
Proof. intros H. cbn. now rewrite H. Qed.
Lemma hex_color_no c r : (c =? 35) = false -> re_hex_color (c :: r) = None.
Proof. intros H. cbn. now rewrite H. Qed.
Lemma end_tag_no c r : (60 =? c) = false -> re_end_tag false (c :: r) = None.
Proof. intros H. unfold re_end_tag, starts. cbn [length firstn negb andb]. unfold str_eqb. cbn [list_eqb]. now rewrite H. Qed.
Lemma combinator_no c r : (c =? 62) = false -> (c =? 43) = false -> (c =? 126) = false -> (124 =? c) = false -> re_combinator (c :: r) = None.
Proof. intros H1 H2 H3 H4. unfold re_combinator. rewrite (chrs_no 62); [now apply lit_no | assumption |]. repeat (apply chrs_no; [assumption |]). apply chrs_nil. Qed.

Section Chars.
Variable e : kenv.
Hypothesis He : classes_ok e.
Lemma number_no c r : k_digit e c = false -> (c =? 43) = false -> (c =? 45) = false -> (c =? 46) = false -> re_number e (c :: r) = None.
Proof. intros H1 H2 H3 H4. unfold re_number. rewrite H2, H3. cbn [orb skipn]. unfold re_mantisse. cbn [span]. rewrite H1. cbn [skipn]. now rewrite H4. Qed.
Lemma spaces_no c r : k_space e c = false -> re_spaces e (c :: r) = None.
Proof. intros H. unfold re_spaces. cbn [span]. now rewrite H. Qed.
Lemma name_no c r : namechar e c = false -> re_name e (c :: r) = None.
Proof. intros H. unfold re_name. cbn [span]. now rewrite H. Qed.
Lemma word_no k t c r : (k =? c) = false -> re_word e (k :: t) (c :: r) = None.
Proof. intros H. unfold re_word, starts. cbn [length firstn]. unfold str_eqb. cbn [list_eqb]. now rewrite H. Qed.
Lemma nested_no c r : (109 =? c) = false -> (115 =? c) = false -> (100 =? c) = false -> re_nested e (c :: r) = None.
Proof. intros H1 H2 H3. unfold re_nested. now rewrite !word_no. Qed.
Lemma dot_no c r : (c =? 46) = false -> re_dot e (c :: r) = None.
Proof. intros H. cbn. now rewrite H. Qed.

Lemma space_name c : k_space e c = true -> namechar e c = false.
Proof. intros H. unfold namechar. rewrite (co_space_word e He c H). cbn [orb]. apply Nat.eqb_neq. intros ->. now rewrite (co_space e He 45 eq_refl) in H. Qed.
Lemma space_digit c : k_space e c = true -> k_digit e c = false.
Proof. intros H. destruct (k_digit e c) eqn:E; [| reflexivity]. apply (co_digit_word e He) in E. apply (co_space_word e He) in H. congruence. Qed.
Lemma name_space c : namechar e c = true -> k_space e c = false.
Proof. intros H. destruct (k_space e c) eqn:E; [| reflexivity]. apply space_name in E. congruence. Qed.
Lemma digit_name c : k_digit e c = true -> namechar e c = true.
Proof. intros H. unfold namechar. now rewrite (co_digit_word e He c H). Qed.
Lemma word_const c : (c <? 128) = true -> k_word e c = ascii_word c. Proof. apply He. Qed.
Lemma space_const c : (c <? 128) = true -> k_space e c = ascii_space c. Proof. apply He. Qed.
Lemma digit_const c : (c <? 128) = true -> k_digit e c = ascii_digit c. Proof. apply He. Qed.
Lemma name_const c : (c <? 128) = true -> namechar e c = ascii_word c || (c =? 45). Proof. intros H. unfold namechar. now rewrite word_const. Qed.
Lemma hex_ascii c : hexd c = true -> (c <? 128) = true.
Proof. unfold hexd. lia. Qed.

(** The characters after a name, after a value. *)
Definition ends : list nat := [35; 46; 58; 62; 43; 126; 44; 123; 125; 59; 41].
Definition stopc (c : nat) : Prop := k_space e c = true \/ In c ends.
Definition stops (s : str) : Prop := match s with [] => False | c :: _ => stopc c end.
Definition vends : list nat := [44; 125; 59; 41].
Definition vstopc (c : nat) : Prop := k_space e c = true \/ In c vends.
Definition vstops (s : str) : Prop := match s with [] => False | c :: _ => vstopc c end.
Lemma vstops_stops s : vstops s -> stops s.
Proof. destruct s as [| c s]; [exact (fun x => x) |]. intros [H | H]; [left; exact H | right]. unfold vends, ends in *. cbn in *. tauto. Qed.
Lemma stops_ne s : stops s -> s <> []. Proof. now destruct s. Qed.
End Chars.

Ltac asc He := first [rewrite (name_const _ He) by reflexivity | rewrite (space_const _ He) by reflexivity | rewrite (digit_const _ He) by reflexivity | rewrite (word_const _ He) by reflexivity]; reflexivity.
Ltac cls He :=
  first [ reflexivity | assumption | asc He
        | match goal with
          | |- (_ =? _) = false =>
              first [ eapply (neq_by (k_space _)); [eassumption | asc He] | eapply (neq_by' (k_space _)); [eassumption | asc He]
                    | eapply (neq_by (namechar _)); [eassumption | asc He] | eapply (neq_by' (namechar _)); [eassumption | asc He]
                    | eapply (neq_by (k_digit _)); [eassumption | asc He] | eapply (neq_by' (k_digit _)); [eassumption | asc He] ]
          | |- namechar _ _ = false => apply (space_name _ He); assumption
          | |- k_digit _ _ = false => apply (space_digit _ He); assumption
          | |- k_space _ _ = false => apply (name_space _ He); assumption
          end ].
Ltac nop He :=
  first [ apply chr1_no; cls He | apply lit_no; cls He | repeat (apply chrs_no; [cls He |]); apply chrs_nil | apply escape_no; cls He | apply hex_color_no; cls He
        | apply end_tag_no; cls He | apply combinator_no; cls He | apply number_no; cls He | apply spaces_no; cls He | apply name_no; cls He | apply word_no; cls He
        | apply nested_no; cls He | apply dot_no; cls He ].
Ltac pats := unfold k_patterns, p_atrule_common, p_common, p_ident, p_selectors, p_toplevel, p_string; cbn [app].
(** The patterns before the one that matches. *)
Ltac fms He := repeat (rewrite fm_skip by nop He).
Ltac pick He := unfold pick_is; pats; fms He; apply fm_hit.
Ltac nopick He := split; [discriminate |]; pats; fms He; reflexivity.
Ltac stop_cases H := destruct H as [H | H]; [| cbn in H; repeat destruct H as [<- | H]; [.. | contradiction]].

Section Lexicons.
Variable e : kenv.
Hypothesis He : classes_ok e.

(** The lexicons for names: the number of their first pattern, and the action of their text. *)
Definition ident_lex (l : klex) : option (nat * (str -> kact)) :=
  match l with
  | KElement => Some (0, fun _ => ATag)
  | KProperty => Some (0, fun s => if k_isprop e s then APropDef else AProp)
  | KId => Some (0, fun _ => AIdDef)
  | KClass => Some (0, fun _ => AClass)
  | KPseudoElement => Some (0, fun _ => APseudoTag)
  | KUnit => Some (1, fun _ => AUnit)
  | KPseudoClass => Some (1, fun _ => APseudoClass)
  | KIdentifier => Some (1, fun s => if str_eqb s t_transparent then AColor else if named e s then AColor else ASymbol)
  | _ => None
  end.
Lemma ident_leaves l x s : ident_lex l = Some x -> stops e s -> no_pick e l s.
Proof.
  intros Hl Hs. destruct s as [| c s]; [contradiction |]. cbn [stops] in Hs. unfold stopc, ends in Hs. stop_cases Hs; (destruct l; try discriminate Hl; nopick He).
Qed.
Lemma ident_dt l x : ident_lex l = Some x -> k_da l = NoDA /\ k_dt l = Some (Target 1 []).
Proof. destruct l; try discriminate; split; reflexivity. Qed.
Lemma selector_leaves c s : k_space e c = true \/ In c [62; 43; 126; 44; 123; 41] -> no_pick e KSelector (c :: s).
Proof. intros H. stop_cases H; nopick He. Qed.
Lemma declaration_leaves s : no_pick e KDeclaration (125 :: s).
Proof. nopick He. Qed.
Lemma rule_misses c s : k_space e c = true -> no_pick e KRule (c :: s).
Proof. intros H. nopick He. Qed.
Lemma function_misses c s : k_space e c = true -> no_pick e KFunction (c :: s).
Proof. intros H. nopick He. Qed.
End Lexicons.
