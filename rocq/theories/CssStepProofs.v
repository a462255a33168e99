(** Matches of the patterns of CSS, and the steps of the lexer. *)
From Verif Require Import Base BaseFacts TargetModel TargetSpec LexerModel LexerSpec TargetProofs LexerProofs LexiconModel LexiconSpec TreeModel TreeSpec TreeProofs BuildModel BuildProofs
  TransformModel TransformSpec TransformTextProofs MachineProofs GeneratorProofs CssColorModel CssLangModel IniSpec CssTextSpec.
From Coq Require Import ZArith ZifyBool.

Section Steps.
Variable e : kenv.
Hypothesis He : classes_ok e.
Variable text : str.
Notation k_compiled := (k_compiled e).
Notation k_parse := (k_parse e).
Notation k_pick := (k_pick e).
Notation reach := (reach k_consume k_parse text).
Notation wrd := (list (sym klex kact)).

(** ** Lengths of matches *)
Lemma span_le f s : span f s <= length s.
Proof. induction s as [| c s IH]; cbn [span length]; [lia |]. destruct (f c); lia. Qed.
Lemma span_app f a s : Forall (fun c => f c = true) a -> match s with [] => True | c :: _ => f c = false end -> span f (a ++ s) = length a.
Proof.
  induction 1 as [| c a Hc Ha IH]; intros Hs; cbn [app span length].
  - destruct s as [| c s]; [reflexivity |]. cbn. now rewrite Hs.
  - rewrite Hc. now rewrite (IH Hs).
Qed.
Lemma skipn_pre {X} (pre s : list X) : skipn (length pre) (pre ++ s) = s.
Proof. now rewrite skipn_app, skipn_all, Nat.sub_diag. Qed.
Lemma slice_mid (pre t s : str) : slice (pre ++ t ++ s) (length pre) (length (pre ++ t)) = t.
Proof.
  unfold slice. rewrite skipn_pre, app_length. replace (length pre + length t - length pre) with (length t) by lia.
  now rewrite firstn_app, firstn_all, Nat.sub_diag, app_nil_r.
Qed.

Definition pat_ok (p : str -> option nat) : Prop := forall s n, p s = Some n -> 0 < n <= length s.
Lemma some_len_ok f : pat_ok (fun s => some_len (span f s)).
Proof. intros s n H. pose proof (span_le f s). unfold some_len in H. destruct (span f s); [discriminate |]. injection H as <-. lia. Qed.
Lemma starts_len t s : starts t s = true -> length t <= length s.
Proof. unfold starts. intros H. apply str_eqb_spec in H. apply (f_equal (@length nat)) in H. rewrite firstn_length in H. lia. Qed.
Lemma lit_ok c t : pat_ok (lit (c :: t)).
Proof. intros s n. unfold lit. destruct (starts _ s) eqn:E; [| discriminate]. apply starts_len in E. injection 1 as <-. cbn [length] in *. lia. Qed.
Lemma chr1_ok c : pat_ok (chr1 c).
Proof. intros [| d s] n; cbn [chr1]; [discriminate |]. destruct (d =? c); [| discriminate]. injection 1 as <-. cbn. lia. Qed.
Lemma chrs_ok l : pat_ok (chrs l).
Proof. intros [| d s] n; cbn [chrs]; [discriminate |]. destruct (existsb _ l); [| discriminate]. injection 1 as <-. cbn. lia. Qed.
Lemma escape_ok : pat_ok re_escape.
Proof.
  intros [| b [| c s]] n; cbn [re_escape]; try discriminate; [destruct (b =? 92); discriminate |]. destruct (b =? 92); [| discriminate].
  pose proof (span_le hexd (c :: s)) as Hs. destruct (Nat.min 6 (span hexd (c :: s))) as [| m] eqn:E.
  - destruct (c =? 10); [discriminate |]. injection 1 as <-. cbn. lia.
  - injection 1 as <-. change (length (b :: c :: s)) with (S (length (c :: s))). change (nth_error s m) with (nth_error (c :: s) (S m)). destruct (nth_error (c :: s) (S m)) as [d |] eqn:En.
    + assert (S m < length (c :: s)) by (apply nth_error_Some; congruence). destruct (d =? 32); lia.
    + lia.
Qed.
Lemma mantisse_le s : re_mantisse e s <= length s.
Proof.
  unfold re_mantisse. pose proof (span_le (k_digit e) s). destruct (skipn (span (k_digit e) s) s) as [| c r] eqn:E; [lia |].
  apply (f_equal (@length nat)) in E. rewrite skipn_length in E. cbn [length] in E. pose proof (span_le (k_digit e) r).
  destruct (c =? 46); [| lia]. destruct (span (k_digit e) r); lia.
Qed.
Lemma exponent_le s : re_exponent e s <= length s.
Proof.
  destruct s as [| c [| d r]]; cbn [re_exponent length]; try lia. destruct (_ && _); [| lia]. pose proof (span_le (k_digit e) r). destruct (span (k_digit e) r); lia.
Qed.
Lemma number_ok : pat_ok (re_number e).
Proof.
  intros s n. unfold re_number. set (k := match s with [] => 0 | c :: _ => _ end).
  assert (Hk : k <= length s) by (unfold k; destruct s as [| c s]; [lia |]; destruct (_ || _); cbn; lia).
  pose proof (mantisse_le (skipn k s)) as H1. destruct (re_mantisse e (skipn k s)) as [| m]; [discriminate |]. injection 1 as <-.
  pose proof (exponent_le (skipn (k + S m) s)) as H2. rewrite !skipn_length in *. lia.
Qed.
Lemma hex_color_ok : pat_ok re_hex_color.
Proof.
  intros [| c s] n; cbn [re_hex_color]; [discriminate |]. destruct (c =? 35); [| discriminate]. pose proof (span_le hexd s) as Hs. cbv zeta.
  destruct (Nat.ltb_spec (span hexd s) 3); [discriminate |]. cbn [length].
  destruct (Nat.leb_spec 8 (span hexd s)); [injection 1 as <-; lia |]. destruct (Nat.leb_spec 6 (span hexd s)); [injection 1 as <-; lia |].
  destruct (Nat.leb_spec 4 (span hexd s)); injection 1 as <-; lia.
Qed.
Lemma word_ok c t : pat_ok (re_word e (c :: t)).
Proof. intros s n. unfold re_word. destruct (starts _ s) eqn:E; [| discriminate]. apply starts_len in E. destruct (_ && _); [| discriminate]. injection 1 as <-. cbn [length] in *. lia. Qed.
Lemma nested_ok : pat_ok (re_nested e).
Proof.
  intros s n. unfold re_nested. destruct (re_word e [109; 101; 100; 105; 97] s) eqn:E1; [injection 1 as <-; apply word_ok in E1; exact E1 |].
  destruct (re_word e [115; 117; 112; 112; 111; 114; 116; 115] s) eqn:E2; [injection 1 as <-; apply word_ok in E2; exact E2 |]. apply word_ok.
Qed.
Lemma dot_ok : pat_ok (re_dot e).
Proof.
  intros [| c r] n; cbn [re_dot]; [discriminate |]. destruct (c =? 46); [| discriminate]. destruct r as [| d r]; [injection 1 as <-; cbn; lia |].
  destruct (k_digit e d); [discriminate |]. injection 1 as <-. cbn. lia.
Qed.
Lemma combinator_ok : pat_ok re_combinator.
Proof. intros s n. unfold re_combinator. destruct (chrs _ s) eqn:E; [injection 1 as <-; apply chrs_ok in E; exact E |]. apply lit_ok. Qed.
Lemma attr_op_ok : pat_ok re_attr_op.
Proof.
  intros [| c r] n; cbn [re_attr_op]; [discriminate |]. destruct (existsb _ _); [| apply chr1_ok].
  destruct (chr1 61 r) eqn:E; [| discriminate]. apply chr1_ok in E. injection 1 as <-. cbn [length]. lia.
Qed.
Lemma spaces_ok : pat_ok (re_spaces e). Proof. exact (some_len_ok (k_space e)). Qed.
Lemma name_ok : pat_ok (re_name e). Proof. exact (some_len_ok (namechar e)). Qed.
Definition may_ok (adv : bool) (p : str -> option nat) : Prop := forall s n, p s = Some n -> n <= length s /\ (adv = true -> 0 < n).
Lemma pat_may adv p : pat_ok p -> may_ok adv p.
Proof. intros H s n E. apply H in E. lia. Qed.
Lemma end_tag_ok adv : may_ok adv (re_end_tag adv).
Proof. intros s n. unfold re_end_tag. destruct adv; [discriminate |]. destruct (starts _ s); [| discriminate]. injection 1 as <-. split; [lia | discriminate]. Qed.
Create HintDb pats.
Hint Resolve lit_ok chr1_ok chrs_ok escape_ok number_ok hex_color_ok word_ok nested_ok dot_ok combinator_ok attr_op_ok spaces_ok name_ok : pats.
Lemma patterns_ok adv l : Forall (may_ok adv) (k_patterns e adv l).
Proof.
  unfold k_patterns, p_atrule_common, p_common, p_ident, p_selectors, p_toplevel, p_string; destruct l; cbn [app];
    repeat match goal with |- Forall _ [] => constructor | |- Forall _ (_ :: _) => constructor end;
    first [apply end_tag_ok | apply pat_may; auto with pats nocore].
Qed.
Lemma first_match_in i ps s j n : first_match i ps s = Some (j, n) -> exists p, In p ps /\ p s = Some n.
Proof.
  revert i. induction ps as [| p ps IH]; intros i; cbn [first_match]; [discriminate |]. destruct (p s) as [m |] eqn:E.
  - injection 1 as <- <-. exists p. split; [now left | exact E].
  - intros H. apply IH in H as (q & H1 & H2). exists q. split; [now right | exact H2].
Qed.
Lemma k_match_ok l : match_ok (c_match (k_compiled l)) text.
Proof.
  intros adv p m Hp. cbn [CssLangModel.k_compiled c_match]. unfold CssLangModel.k_pick.
  destruct (first_match 0 (k_patterns e adv l) (skipn p text)) as [[i n] |] eqn:E.
  - injection 1 as <-. cbn [m_start m_end]. apply first_match_in in E as (q & H1 & H2). pose proof (patterns_ok adv l) as F. rewrite Forall_forall in F.
    destruct (F q H1 _ _ H2) as [K1 K2]. rewrite skipn_length in K1. split; [reflexivity |]. split; [lia |]. split; [lia |]. intros Ha. specialize (K2 Ha). lia.
  - destruct l; try discriminate. destruct (k_marks e text p) as [[k n] |] eqn:Em; [| discriminate]. injection 1 as <-. cbn [m_start m_end].
    destruct (co_marks e He _ _ _ _ Em) as (_ & H1 & H2). split; [reflexivity |]. split; [lia |]. split; [lia |]. intros _. lia.
Qed.

(** ** Items *)
Lemma pos_lt pre (t s : str) : text = pre ++ t ++ s -> length pre <= length text.
Proof. intros ->. rewrite app_length. lia. Qed.
(** The rule with number [i] gives the text [t] the action [a] and has the target [tg]. *)
Definition rule_is (l : klex) (i : nat) (t : str) (a : action klex kact) (tg : list (ritem klex)) : Prop :=
  nth_error (k_rules e l) i = Some (SRule a tg) \/ exists f, nth_error (k_rules e l) i = Some (DRule f) /\ forall m, f m t = (a, tg).
Lemma token_is l pre t s i a tg gs : text = pre ++ t ++ s -> t <> [] -> rule_is l i t a tg ->
  token (fun _ _ => []) l (c_rules (k_compiled l)) text (Mtch (length pre) (length pre + length t) i gs)
  = Item (length pre) t (act_lexemes (fun _ _ => []) text a (length pre) t (Some (Mtch (length pre) (length pre + length t) i gs))) (t_make l tg).
Proof.
  intros E Ht Hr. unfold token. cbn [m_rule m_start m_end c_rules CssLangModel.k_compiled].
  assert (Es : slice text (length pre) (length pre + length t) = t) by (rewrite E, <- app_length; apply slice_mid). rewrite Es.
  destruct Hr as [-> | (f & -> & Hf)]; [| rewrite Hf]; unfold mk_item; (destruct t; [congruence | reflexivity]).
Qed.
Lemma rules_ne l : c_rules (k_compiled l) <> [].
Proof. destruct l; discriminate. Qed.
Definition pick_is (l : klex) (s : str) (i n : nat) : Prop := first_match 0 (k_patterns e false l) s = Some (i, n).
Lemma match_at l pre s i n : text = pre ++ s -> pick_is l s i n -> c_match (k_compiled l) false text (length pre) = Some (Mtch (length pre) (length pre + n) i (k_groups e l i (length pre) n)).
Proof. intros E H. cbn [CssLangModel.k_compiled c_match]. unfold CssLangModel.k_pick. rewrite E, skipn_pre, H. reflexivity. Qed.
Lemma parse_found l pre t s i : text = pre ++ t ++ s -> t <> [] -> pick_is l (t ++ s) i (length t) ->
  k_parse l text (length pre) 0 = Some (token (fun _ _ => []) l (c_rules (k_compiled l)) text (Mtch (length pre) (length pre + length t) i (k_groups e l i (length pre) (length t)))) /\
  forall j, k_parse l text (length pre) (S j) = k_parse l text (length (pre ++ t)) j.
Proof.
  intros E Ht Hp. pose proof (match_at l pre _ i _ E Hp) as Em. pose proof (pos_lt _ _ _ E) as Hlen. rewrite app_length. unfold CssLangModel.k_parse.
  set (m := Mtch (length pre) (length pre + length t) i (k_groups e l i (length pre) (length t))) in *.
  assert (Hlt : length pre < m_end m) by (cbn; destruct t; [congruence | cbn; lia]).
  change (length pre + length t) with (m_end m).
  destruct (c_da (k_compiled l)) eqn:Ed.
  - destruct (c_dt (k_compiled l)) as [d |] eqn:Et.
    + exact (dt_some klex kact (fun _ _ => []) l (k_compiled l) text eq_refl (rules_ne l) d Ed Et _ _ Em).
    + exact (plain_some klex kact (fun _ _ => []) l (k_compiled l) text eq_refl (rules_ne l) (k_match_ok l) Ed Et _ _ Hlen Em Hlt).
  - exact (da_some klex kact (fun _ _ => []) l (k_compiled l) text eq_refl (rules_ne l) (k_match_ok l) ltac:(congruence) _ _ Hlen Em Hlt).
  - exact (da_some klex kact (fun _ _ => []) l (k_compiled l) text eq_refl (rules_ne l) (k_match_ok l) ltac:(congruence) _ _ Hlen Em Hlt).
Qed.
Definition no_pick (l : klex) (s : str) : Prop := l <> KComment /\ first_match 0 (k_patterns e false l) s = None.
Lemma no_match_at l pre s : text = pre ++ s -> no_pick l s -> c_match (k_compiled l) false text (length pre) = None.
Proof. intros E [Hl H]. cbn [CssLangModel.k_compiled c_match]. unfold CssLangModel.k_pick. rewrite E, skipn_pre, H. destruct l; try reflexivity. congruence. Qed.

Definition leaf (pre t : str) (a : kact) : tok kact := Token (length pre) t a None.
Lemma step_leaf up l pre t s i a w new circ : text = pre ++ t ++ s -> t <> [] -> pick_is l (t ++ s) i (length t) -> rule_is l i t (AStd a) [] ->
  reach (Cfg (up ++ [l]) w new circ (length pre)) (Cfg (up ++ [l]) (w ++ [Leaf (leaf pre t a)]) 0 circ (length (pre ++ t))).
Proof.
  intros E Ht Hp Hr. destruct (parse_found l pre t s i E Ht Hp) as [H0 HS]. rewrite (token_is l pre t s i _ _ _ E Ht Hr) in H0.
  pose proof (reach_item _ _ k_consume k_parse text (up ++ [l]) l w new circ _ _ _ (last_opt_app up l) H0 eq_refl Ht HS) as H.
  cbn [i_lexemes act_lexemes] in H. destruct t; [congruence |]. exact H.
Qed.
Lemma step_skip up l pre t s i w new circ : text = pre ++ t ++ s -> t <> [] -> pick_is l (t ++ s) i (length t) -> rule_is l i t ASkip [] ->
  reach (Cfg (up ++ [l]) w new circ (length pre)) (Cfg (up ++ [l]) w new circ (length (pre ++ t))).
Proof.
  intros E Ht Hp Hr. destruct (parse_found l pre t s i E Ht Hp) as [H0 HS]. rewrite (token_is l pre t s i _ _ _ E Ht Hr) in H0.
  pose proof (reach_item _ _ k_consume k_parse text (up ++ [l]) l w new circ _ _ _ (last_opt_app up l) H0 eq_refl Ht HS) as H. exact H.
Qed.
(** A character that is not matched, without default. *)
Lemma step_miss up l pre c s w new circ : text = pre ++ c :: s -> k_da l = NoDA -> k_dt l = None -> no_pick l (c :: s) ->
  reach (Cfg (up ++ [l]) w new circ (length pre)) (Cfg (up ++ [l]) w new circ (length (pre ++ [c]))).
Proof.
  intros E Hda Hdt Hp. pose proof (no_match_at l pre _ E Hp) as Em. apply (reach_move _ _ k_consume k_parse text _ l); [apply last_opt_app |].
  intros j. rewrite app_length, Nat.add_1_r. apply (plain_none klex kact (fun _ _ => []) l (k_compiled l) text eq_refl (rules_ne l) (k_match_ok l) Hda Hdt); [| exact Em].
  rewrite E, app_length. lia.
Qed.
(** With a target: lexicons are left and entered. *)
Lemma step_go up l pre t s i a tg k ls w new circ : text = pre ++ t ++ s -> t <> [] -> pick_is l (t ++ s) i (length t) -> rule_is l i t (AStd a) tg ->
  t_make l tg = Some (Target k ls) -> k <= length up ->
  let w' := if match last_opt ls with Some x => k_consume x | None => false end
            then g_emit (g_follow (w, new) (Target k ls)) [Lexeme (length pre) t a]
            else g_follow (w ++ [Leaf (leaf pre t a)], 0) (Target k ls) in
  reach (Cfg (up ++ [l]) w new circ (length pre)) (Cfg (drop_last k (up ++ [l]) ++ ls) (fst w') (snd w') [] (length (pre ++ t))).
Proof.
  intros E Ht Hp Hr Hm Hk w'. destruct (parse_found l pre t s i E Ht Hp) as [H0 HS]. rewrite (token_is l pre t s i _ _ _ E Ht Hr) in H0.
  pose proof (reach_target _ _ k_consume k_parse text (up ++ [l]) l w new circ _ _ (Target k ls) (last_opt_app up l) H0 Hm Ht) as H.
  assert (Ec : l_clip (length (up ++ [l])) (Target k ls) = Target k ls).
  { unfold l_clip. cbn [t_pop t_push]. rewrite app_length. cbn [length]. destruct (Nat.leb_spec (length up + 1) k); [lia |]. now rewrite andb_false_r. }
  rewrite Ec in H. unfold l_consumes in H. cbn [t_pop t_push i_pos i_txt i_lexemes act_lexemes] in H. destruct t as [| c t]; [congruence |].
  unfold w'. rewrite app_length. destruct (match last_opt ls with Some x => k_consume x | None => false end).
  - destruct (g_emit _ _) as [w1 n1]. exact H.
  - change (g_emit (w, new) [Lexeme (length pre) (c :: t) a]) with (w ++ [Leaf (leaf pre (c :: t) a)], 0) in H. destruct (g_follow _ _) as [w1 n1]. exact H.
Qed.

(** ** Default targets *)
Definition low (circ : list (nat * nat * nat)) (p : nat) : Prop := forall q d k, In (q, d, k) circ -> q < p.
(** Before leaving lexicons, and before entering them, at a depth. *)
Definition okc (circ : list (nat * nat * nat)) (p d : nat) : Prop := forall q d' k, In (q, d', k) circ -> q < p \/ q = p /\ d <= d' /\ k = 0.
Definition hic (circ : list (nat * nat * nat)) (p d : nat) : Prop := forall q d' k, In (q, d', k) circ -> q < p \/ q = p /\ d' < d /\ k = 1.
Lemma low_nil p : low [] p. Proof. intros q d k []. Qed.
Lemma okc_nil p d : okc [] p d. Proof. intros q d' k []. Qed.
Lemma hic_nil p d : hic [] p d. Proof. intros q d' k []. Qed.
Lemma low_okc circ p d : low circ p -> okc circ p d. Proof. intros H q d' k Hi. left. eapply H, Hi. Qed.
Lemma low_hic circ p d : low circ p -> hic circ p d. Proof. intros H q d' k Hi. left. eapply H, Hi. Qed.
Lemma okc_low circ p d q : okc circ p d -> p < q -> low circ q.
Proof. intros H Hq r d' k Hi. destruct (H _ _ _ Hi) as [H1 | (H1 & _)]; lia. Qed.
Lemma hic_low circ p d q : hic circ p d -> p < q -> low circ q.
Proof. intros H Hq r d' k Hi. destruct (H _ _ _ Hi) as [H1 | (H1 & _)]; lia. Qed.
Lemma low_le circ p q : low circ p -> p <= q -> low circ q.
Proof. intros H Hq r d' k Hi. apply H in Hi. lia. Qed.
Lemma existsb_in st circ : existsb (triple_eqb st) circ = true <-> In st circ.
Proof.
  rewrite existsb_exists. split.
  - intros ([[a b] c] & H1 & H2). destruct st as [[x y] z]. unfold triple_eqb in H2. cbn in H2. assert ((x, y, z) = (a, b, c)) as -> by (f_equal; [f_equal |]; lia). exact H1.
  - intros H. exists st. split; [exact H |]. destruct st as [[x y] z]. unfold triple_eqb. cbn. lia.
Qed.
Lemma parse_default l pre s t : text = pre ++ s -> s <> [] -> k_da l = NoDA -> k_dt l = Some t -> no_pick l s -> k_parse l text (length pre) 0 = Some (Item (length pre) [] [] (Some t)).
Proof.
  intros E Hs Hda Hdt Hp. pose proof (no_match_at l pre _ E Hp) as Em.
  refine (dt_none klex kact (fun _ _ => []) l (k_compiled l) text eq_refl (rules_ne l) t Hda Hdt _ _ Em). rewrite E, app_length. destruct s; [congruence | cbn; lia].
Qed.
Definition left_word (w : wrd) (new : nat) : wrd := if new =? 0 then w ++ [Exit] else removelast w.
Lemma drop_one {X} (l : list X) x : drop_last 1 (l ++ [x]) = l.
Proof. rewrite drop_last_app by (cbn; lia). change (drop_last 1 [x]) with (@nil X). apply app_nil_r. Qed.
Lemma drop_zero {X} (l : list X) : drop_last 0 l = l. Proof. apply drop_last_0. Qed.
Lemma step_leave up l pre s w new circ : text = pre ++ s -> s <> [] -> k_da l = NoDA -> k_dt l = Some (Target 1 []) -> no_pick l s -> up <> [] -> okc circ (length pre) (S (length up)) ->
  exists circ', okc circ' (length pre) (length up) /\ reach (Cfg (up ++ [l]) w new circ (length pre)) (Cfg up (left_word w new) (new - 1) circ' (length pre)).
Proof.
  intros E Hs Hda Hdt Hp Hup Hc. pose proof (parse_default l pre s _ E Hs Hda Hdt Hp) as H0. exists ((length pre, length up, 0) :: circ).
  split. { intros q d' k [Hi | Hi]; [injection Hi as <- <- <-; lia |]. destruct (Hc _ _ _ Hi) as [H1 | H1]; lia. }
  pose proof (reach_default _ _ k_consume k_parse text (up ++ [l]) l w new circ _ _ (Target 1 []) (last_opt_app up l) H0 eq_refl eq_refl) as H.
  assert (Ec : l_clip (length (up ++ [l])) (Target 1 []) = Target 1 (@nil klex)).
  { unfold l_clip. cbn [t_pop t_push]. rewrite app_length. cbn [length]. destruct (Nat.leb_spec (length up + 1) 1); [destruct up; [congruence | cbn in *; lia] |]. now rewrite andb_false_r. }
  rewrite Ec in H. cbn [t_pop t_push i_pos] in H. rewrite drop_one in H. unfold g_follow, g_leave in H. cbn [fst snd t_pop t_push] in H.
  unfold l_circle in H. cbn [length] in H.
  assert (Ex : existsb (triple_eqb (length pre, length up, 0)) circ = false).
  { destruct (existsb _ circ) eqn:Ex; [| reflexivity]. apply existsb_in in Ex. apply Hc in Ex. lia. }
  rewrite Ex in H. rewrite !app_nil_r in H. unfold left_word.
  destruct new as [| new]; cbn [Nat.leb] in H.
  - cbn [Nat.eqb Nat.sub]. cbn [map Nat.add Nat.sub repeat] in H. rewrite drop_zero, app_nil_r, ?app_nil_r, ?Nat.add_0_r in H. exact H.
  - cbn [Nat.eqb]. cbn [map] in H. rewrite app_nil_r, Nat.add_0_r in H.
    assert (Ew : drop_last 1 w = removelast w) by (unfold drop_last; rewrite removelast_firstn_len; f_equal; lia). rewrite Ew in H. exact H.
Qed.
Lemma step_enter up l x pre s w new circ : text = pre ++ s -> s <> [] -> k_da l = NoDA -> k_dt l = Some (Target 0 [x]) -> no_pick l s -> hic circ (length pre) (S (length up)) ->
  exists circ', hic circ' (length pre) (S (S (length up))) /\ reach (Cfg (up ++ [l]) w new circ (length pre)) (Cfg ((up ++ [l]) ++ [x]) (w ++ [Enter x]) (new + 1) circ' (length pre)).
Proof.
  intros E Hs Hda Hdt Hp Hc. pose proof (parse_default l pre s _ E Hs Hda Hdt Hp) as H0. exists ((length pre, S (length up), 1) :: circ).
  split. { intros q d' k [Hi | Hi]; [injection Hi as <- <- <-; lia |]. destruct (Hc _ _ _ Hi) as [H1 | H1]; lia. }
  pose proof (reach_default _ _ k_consume k_parse text (up ++ [l]) l w new circ _ _ (Target 0 [x]) (last_opt_app up l) H0 eq_refl eq_refl) as H.
  change (l_clip (length (up ++ [l])) (Target 0 [x])) with (Target 0 [x]) in H. cbn [t_pop t_push i_pos] in H. rewrite drop_zero in H. unfold g_follow, g_leave in H.
  cbn [fst snd t_pop t_push Nat.leb] in H. rewrite drop_zero, Nat.sub_0_r in H. unfold l_circle in H. cbn [length map] in H. rewrite app_length in H. cbn [length] in H.
  assert (Ex : existsb (triple_eqb (length pre, length up + 1, 1)) circ = false).
  { destruct (existsb _ circ) eqn:Ex; [| reflexivity]. apply existsb_in in Ex. apply Hc in Ex. lia. }
  rewrite Ex in H. rewrite (Nat.add_1_r (length up)) in H. exact H.
Qed.
End Steps.
