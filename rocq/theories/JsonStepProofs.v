(** Steps of the lexer in JSON texts. *)
From Verif Require Import Base BaseFacts TargetModel TargetSpec LexerModel LexerSpec LexiconModel LexiconSpec TreeModel TreeSpec TreeProofs BuildModel BuildProofs
  MachineProofs GeneratorProofs JsonModel JsonSpec.
From Coq Require Import ZArith ZifyBool.

Section Steps.
Variables udigit uword uspace : nat -> bool.
Variable text : str.
Notation is_digit := (is_digit udigit).
Notation is_space := (is_space uspace).
Notation p_number := (p_number udigit).
Notation p_constant := (p_constant uword).
Notation p_spaces := (p_spaces uspace).
Notation j_rules := (j_rules udigit uword uspace).
Notation j_compiled := (j_compiled udigit uword uspace).
Notation j_parse := (j_parse udigit uword uspace).
Notation reach := (reach j_consume j_parse text).
Notation pats l := (map fst (j_rules l)).
Notation wrd := (list (sym jlex jact)).

(** ** The patterns *)

Lemma span_le f s : span f s <= length s.
Proof. induction s as [| c s IH]; cbn [span length]; [lia |]. destruct (f c); lia. Qed.

Definition pat_ok (p : pattern) : Prop := forall prev s n, p prev s = Some n -> 1 <= n <= length s.
Lemma char_ok c : pat_ok (p_char c).
Proof. intros prev [| d s] n; cbn; [discriminate |]. destruct (d =? c); [| discriminate]. injection 1 as <-. lia. Qed.
Lemma prefix_le w s : prefix w s = true -> length w <= length s.
Proof.
  unfold prefix. intros H. apply str_eqb_spec in H. apply (f_equal (@length nat)) in H. rewrite firstn_length in H. lia.
Qed.
Lemma constant_ok : pat_ok p_constant.
Proof.
  intros prev s n. unfold JsonModel.p_constant. destruct (at_bound _ _ _); [| discriminate].
  destruct (find _ _) as [w |] eqn:E; [| discriminate]. injection 1 as <-. apply find_some in E as (Hin & Hf).
  apply andb_true_iff in Hf as [Hf _]. apply prefix_le in Hf. split; [| exact Hf].
  destruct Hin as [<- | [<- | [<- | []]]]; cbn; lia.
Qed.
Lemma frac_le s : n_frac udigit s <= length s.
Proof.
  destruct s as [| c s]; [cbn; lia |]. unfold n_frac. do 47 (destruct c as [| c]; try lia).
  pose proof (span_le is_digit s). destruct (span is_digit s); cbn [length]; lia.
Qed.
Lemma sign_le s : n_sign s <= length s.
Proof. destruct s as [| c s]; [cbn; lia |]. unfold n_sign. do 46 (destruct c as [| c]; cbn [length]; try lia). Qed.
Lemma minus_le s : n_minus s <= length s.
Proof. destruct s as [| c s]; [cbn; lia |]. unfold n_minus. do 46 (destruct c as [| c]; cbn [length]; try lia). Qed.
Lemma exp_le s : n_exp udigit s <= length s.
Proof.
  destruct s as [| c s]; [cbn; lia |]. unfold n_exp.
  assert (G : (let k := n_sign s in match span is_digit (skipn k s) with 0 => 0 | S n => 1 + k + S n end) <= length (c :: s)).
  { cbv zeta. pose proof (sign_le s). pose proof (span_le is_digit (skipn (n_sign s) s)). rewrite skipn_length in *.
    destruct (span is_digit (skipn (n_sign s) s)); cbn [length]; lia. }
  do 102 (destruct c as [| c]; try exact G; try lia).
Qed.
Lemma number_ok : pat_ok p_number.
Proof.
  intros prev s n. unfold JsonModel.p_number. pose proof (minus_le s). pose proof (span_le is_digit (skipn (n_minus s) s)) as H1.
  destruct (span is_digit (skipn (n_minus s) s)) as [| d] eqn:Ed; [discriminate |]. rewrite skipn_length in H1.
  pose proof (frac_le (skipn (n_minus s + S d) s)) as H2. rewrite skipn_length in H2.
  pose proof (exp_le (skipn (n_minus s + S d + n_frac udigit (skipn (n_minus s + S d) s)) s)) as H3. rewrite skipn_length in H3.
  injection 1 as <-. lia.
Qed.
Lemma spaces_ok : pat_ok p_spaces.
Proof. intros prev s n. unfold JsonModel.p_spaces. pose proof (span_le is_space s). destruct (span is_space s); [discriminate |]. injection 1 as <-. lia. Qed.
Lemma escape_ok : pat_ok p_escape.
Proof.
  intros prev [| c [| d s]] n; unfold p_escape; try discriminate; try (do 93 (destruct c as [| c]; try discriminate)).
  destruct (is_escape_char d); [injection 1 as <-; cbn; lia |]. destruct ((d =? 117) && (4 <=? length (firstn 4 s))) eqn:E; [| discriminate].
  cbn [andb]. destruct (forallb is_hex (firstn 4 s)); [| discriminate]. injection 1 as <-. apply andb_true_iff in E as [_ E].
  rewrite firstn_length in E. cbn [length]. lia.
Qed.

Lemma pick_ok ps : Forall pat_ok ps -> forall i prev s k n, pick ps i prev s = Some (k, n) -> i <= k < i + length ps /\ 1 <= n <= length s.
Proof.
  induction 1 as [| p ps Hp Hps IH]; intros i prev s k n; cbn [pick length]; [discriminate |].
  destruct (p prev s) as [m |] eqn:E; [injection 1 as <- <-; split; [lia | exact (Hp _ _ _ E)] |].
  intros H. destruct (IH _ _ _ _ _ H). lia.
Qed.
Lemma pats_ok l : Forall pat_ok (pats l).
Proof.
  destruct l; unfold JsonModel.j_rules, values_rules, std; cbn [map fst app];
    repeat (apply Forall_cons || apply Forall_nil); first [apply char_ok | apply constant_ok | apply number_ok | apply spaces_ok | apply escape_ok].
Qed.

Lemma before_app (pre s : str) : before (pre ++ s) (length pre) = last_opt pre.
Proof.
  unfold before, last_opt. destruct (rev pre) as [| c r] eqn:E.
  - apply (f_equal (@rev nat)) in E. rewrite rev_involutive in E. subst pre. reflexivity.
  - apply (f_equal (@rev nat)) in E. rewrite rev_involutive in E. subst pre. cbn [rev]. rewrite app_length, Nat.add_1_r, <- app_assoc.
    now rewrite nth_error_app2, Nat.sub_diag by lia.
Qed.
Lemma skipn_pre {X} (pre s : list X) : skipn (length pre) (pre ++ s) = s.
Proof. now rewrite skipn_app, skipn_all, Nat.sub_diag. Qed.

(** What is found at the end of [pre]. *)
Definition found (l : jlex) (pre s : str) : option (nat * nat) := pick (pats l) 0 (last_opt pre) s.

Lemma match_at l adv pre s : text = pre ++ s ->
  c_match (j_compiled l) adv text (length pre) = match found l pre s with Some (i, n) => Some (Mtch (length pre) (length pre + n) i []) | None => None end.
Proof. intros ->. cbn [j_compiled c_match]. unfold found. now rewrite before_app, skipn_pre. Qed.
Lemma split_at p : p <= length text -> exists pre s, text = pre ++ s /\ length pre = p.
Proof. intros H. exists (firstn p text), (skipn p text). rewrite firstn_skipn, firstn_length. split; [reflexivity | lia]. Qed.
Lemma j_match_ok l : match_ok (c_match (j_compiled l)) text.
Proof.
  intros adv p m Hp. destruct (split_at p Hp) as (pre & s & E & <-). rewrite (match_at l adv pre s E).
  destruct (found l pre s) as [[i n] |] eqn:Ef; [| discriminate]. injection 1 as <-. cbn. apply pick_ok in Ef as [_ Hn]; [| apply pats_ok].
  rewrite E, app_length. lia.
Qed.
Lemma j_rules_ne l : c_rules (j_compiled l) <> [].
Proof. destruct l; discriminate. Qed.

(** ** Items *)

Definition the_token (l : jlex) (pre t : str) (i : nat) : item jlex jact :=
  token (fun _ _ => []) l (c_rules (j_compiled l)) text (Mtch (length pre) (length (pre ++ t)) i []).

Lemma parse_found l pre t s i : text = pre ++ t ++ s -> found l pre (t ++ s) = Some (i, length t) ->
  j_parse l text (length pre) 0 = Some (the_token l pre t i) /\
  forall j, j_parse l text (length pre) (S j) = j_parse l text (length (pre ++ t)) j.
Proof.
  intros E Ef. pose proof (match_at l false pre (t ++ s) E) as Em. rewrite Ef in Em.
  assert (Hlen : length pre <= length text) by (rewrite E, app_length; lia).
  assert (Hn : 1 <= length t) by (apply pick_ok in Ef as [_ Hn]; [lia | apply pats_ok]).
  unfold the_token. rewrite app_length. unfold JsonModel.j_parse.
  assert (Hlt : length pre < m_end (Mtch (length pre) (length pre + length t) i [])) by (cbn; lia).
  destruct l.
  1, 3, 4, 5: match goal with |- context [lexicon_parse _ ?l _] =>
    exact (plain_some jlex jact (fun _ _ => []) l (j_compiled l) text eq_refl (j_rules_ne _) (j_match_ok _) eq_refl eq_refl _ _ Hlen Em Hlt) end.
  - exact (dt_some jlex jact (fun _ _ => []) JObject (j_compiled JObject) text eq_refl (j_rules_ne _) (Target 0 [JKey]) eq_refl eq_refl _ _ Em).
  - exact (da_some jlex jact (fun _ _ => []) JString (j_compiled JString) text eq_refl (j_rules_ne _) (j_match_ok _) ltac:(discriminate) _ _ Hlen Em Hlt).
Qed.

Lemma slice_mid (pre t s : str) : slice (pre ++ t ++ s) (length pre) (length (pre ++ t)) = t.
Proof.
  unfold slice. rewrite skipn_pre, app_length. replace (length pre + length t - length pre) with (length t) by lia.
  now rewrite firstn_app, firstn_all, Nat.sub_diag, app_nil_r.
Qed.
Lemma the_token_is l pre t s i p a tg : text = pre ++ t ++ s -> t <> [] -> nth_error (j_rules l) i = Some (p, SRule a tg) ->
  the_token l pre t i = Item (length pre) t (act_lexemes (fun _ _ => []) text a (length pre) t (Some (Mtch (length pre) (length (pre ++ t)) i []))) (t_make l tg).
Proof.
  intros E Ht En. unfold the_token, token. cbn [m_rule m_start m_end c_rules JsonModel.j_compiled]. rewrite (map_nth_error snd i _ En). cbn [snd].
  assert (Es : slice text (length pre) (length (pre ++ t)) = t) by (rewrite E; apply slice_mid). rewrite Es. unfold mk_item. destruct t; [congruence | reflexivity].
Qed.

Lemma found_nonempty l pre t s i : found l pre (t ++ s) = Some (i, length t) -> t <> [].
Proof. intros Ef ->. apply pick_ok in Ef as [_ Hn]; [cbn in Hn; lia | apply pats_ok]. Qed.

Lemma step_item up l pre t s i p a w new circ : text = pre ++ t ++ s -> found l pre (t ++ s) = Some (i, length t) ->
  nth_error (j_rules l) i = Some (p, SRule (AStd a) []) ->
  reach (Cfg (up ++ [l]) w new circ (length pre)) (Cfg (up ++ [l]) (w ++ [Leaf (Token (length pre) t a None)]) 0 circ (length (pre ++ t))).
Proof.
  intros E Ef En. destruct (parse_found l pre t s i E Ef) as [H0 HS]. pose proof (found_nonempty _ _ _ _ _ Ef) as Ht.
  rewrite (the_token_is l pre t s i p _ _ E Ht En) in H0.
  pose proof (reach_item _ _ j_consume j_parse text (up ++ [l]) l w new circ _ _ _ (last_opt_app up l) H0 eq_refl Ht HS) as H.
  cbn [i_lexemes act_lexemes] in H. destruct t; [congruence |]. exact H.
Qed.
Lemma step_skip up l pre t s i p w new circ : text = pre ++ t ++ s -> found l pre (t ++ s) = Some (i, length t) ->
  nth_error (j_rules l) i = Some (p, SRule ASkip []) ->
  reach (Cfg (up ++ [l]) w new circ (length pre)) (Cfg (up ++ [l]) w new circ (length (pre ++ t))).
Proof.
  intros E Ef En. destruct (parse_found l pre t s i E Ef) as [H0 HS]. pose proof (found_nonempty _ _ _ _ _ Ef) as Ht.
  rewrite (the_token_is l pre t s i p _ _ E Ht En) in H0.
  exact (reach_item _ _ j_consume j_parse text (up ++ [l]) l w new circ _ _ _ (last_opt_app up l) H0 eq_refl Ht HS).
Qed.
Lemma step_target up l pre t s i p a tg pop push w new circ : text = pre ++ t ++ s -> found l pre (t ++ s) = Some (i, length t) ->
  nth_error (j_rules l) i = Some (p, SRule (AStd a) tg) -> t_make l tg = Some (Target pop push) -> pop <= length up ->
  reach (Cfg (up ++ [l]) w new circ (length pre))
    (Cfg (drop_last pop (up ++ [l]) ++ push) (w ++ Leaf (Token (length pre) t a None) :: repeat Exit pop ++ map Enter push) (length push) [] (length (pre ++ t))).
Proof.
  intros E Ef En Etg Hpop. destruct (parse_found l pre t s i E Ef) as [H0 _]. pose proof (found_nonempty _ _ _ _ _ Ef) as Ht.
  rewrite (the_token_is l pre t s i p _ _ E Ht En), Etg in H0.
  pose proof (reach_target _ _ j_consume j_parse text (up ++ [l]) l w new circ _ _ (Target pop push) (last_opt_app up l) H0 eq_refl Ht) as H.
  cbv zeta in H. assert (Ec : l_clip (length (up ++ [l])) (Target pop push) = Target pop push).
  { unfold l_clip. rewrite app_length. cbn [t_pop length]. destruct (Nat.leb_spec (length up + 1) pop); [lia |]. now rewrite andb_false_r. }
  rewrite Ec in H. assert (Eco : l_consumes j_consume (Target pop push) = false) by (unfold l_consumes; destruct (last_opt _); reflexivity).
  rewrite Eco in H. cbn [i_lexemes act_lexemes t_pop t_push i_pos i_txt] in H. destruct t as [| c0 t]; [congruence |]. cbn [g_emit fst make_tokens map] in H.
  unfold g_follow, g_leave in H. cbn [fst snd x_pos x_text x_act t_pop t_push] in H. rewrite app_length.
  destruct pop as [| pop]; cbn [Nat.leb] in H; (refine (eq_ind _ (fun c => reach _ c) H _ _); f_equal).
  - now rewrite drop_last_0, <- app_assoc.
  - now rewrite drop_last_0, <- !app_assoc.
Qed.

(** Characters that no rule matches are passed over. *)
Definition plain (l : jlex) : Prop := l = JRoot \/ l = JKey \/ l = JValue \/ l = JArray.
Lemma step_pass up l pre c s w new circ : plain l -> text = pre ++ c :: s -> found l pre (c :: s) = None ->
  reach (Cfg (up ++ [l]) w new circ (length pre)) (Cfg (up ++ [l]) w new circ (length (pre ++ [c]))).
Proof.
  intros Hl E Ef. apply (reach_move _ _ j_consume j_parse text _ l _ _ _ _ _ (last_opt_app up l)).
  pose proof (match_at l false pre (c :: s) E) as Em. rewrite Ef in Em. rewrite app_length, Nat.add_1_r.
  assert (Hlen : length pre <= length text) by (rewrite E, app_length; lia).
  unfold JsonModel.j_parse. destruct Hl as [-> | [-> | [-> | ->]]];
    match goal with |- context [lexicon_parse _ ?l _] =>
      exact (plain_none jlex jact (fun _ _ => []) l (j_compiled l) text eq_refl (j_rules_ne _) (j_match_ok _) eq_refl eq_refl _ Hlen Em) end.
Qed.
Lemma step_default up pre c s w new : text = pre ++ c :: s -> found JObject pre (c :: s) = None ->
  exists circ, reach (Cfg (up ++ [JObject]) w new [] (length pre)) (Cfg (up ++ [JObject; JKey]) (w ++ [Enter JKey]) (new + 1) circ (length pre)).
Proof.
  intros E Ef. pose proof (match_at JObject false pre (c :: s) E) as Em. rewrite Ef in Em.
  assert (Hlt : length pre < length text) by (rewrite E, app_length; cbn; lia).
  assert (H0 : j_parse JObject text (length pre) 0 = Some (Item (length pre) [] [] (Some (Target 0 [JKey])))).
  { exact (dt_none jlex jact (fun _ _ => []) JObject (j_compiled JObject) text eq_refl (j_rules_ne JObject) (Target 0 [JKey]) eq_refl eq_refl _ Hlt Em). }
  pose proof (reach_default _ _ j_consume j_parse text (up ++ [JObject]) JObject w new [] _ _ _ (last_opt_app up JObject) H0 eq_refl eq_refl) as H.
  cbn in H. unfold g_follow, g_leave in H. cbn [fst snd t_pop t_push Nat.leb l_clip Nat.eqb negb andb map length app] in H.
  rewrite !drop_last_0, ?Nat.sub_0_r in H. eexists. rewrite <- app_assoc in H. rewrite ?firstn_all in H. exact H.
Qed.
(** A piece of a string. *)
Lemma step_gap up pre t c s w new circ : text = pre ++ t ++ c :: s -> t <> [] ->
  (forall a x b, t = a ++ x :: b -> found JString (pre ++ a) (x :: b ++ c :: s) = None) -> found JString (pre ++ t) (c :: s) <> None ->
  reach (Cfg (up ++ [JString]) w new circ (length pre)) (Cfg (up ++ [JString]) (w ++ [Leaf (Token (length pre) t AString None)]) 0 circ (length (pre ++ t))).
Proof.
  intros E Ht Hno Hc.
  assert (Hgap : length pre < length (pre ++ t) <= length text).
  { rewrite E, !app_length. destruct t; [congruence |]. cbn. lia. }
  assert (H1 : forall p, length pre <= p < length (pre ++ t) -> c_match (j_compiled JString) false text p = None).
  { intros p Hp. rewrite app_length in Hp. set (k := p - length pre). assert (Hk : k < length t) by (unfold k; lia).
    destruct (nth_error t k) as [x |] eqn:Ex; [| apply nth_error_None in Ex; lia].
    apply nth_error_split in Ex as (a & b & Et & Ea). rewrite Et in E.
    pose proof (match_at JString false (pre ++ a) (x :: b ++ c :: s)) as Em. rewrite (Hno a x b Et) in Em.
    rewrite app_length, Ea in Em. replace (length pre + k) with p in Em by (unfold k; lia). apply Em. rewrite E, <- !app_assoc. reflexivity. }
  assert (Hlt : length (pre ++ t) < length text) by (rewrite E, !app_length; cbn; lia).
  assert (H2 : c_match (j_compiled JString) false text (length (pre ++ t)) <> None).
  { rewrite (match_at JString false (pre ++ t) (c :: s)) by (rewrite E, <- app_assoc; reflexivity). destruct (found _ _ _) as [[i n] |]; [discriminate | congruence]. }
  destruct (da_gap jlex jact (fun _ _ => []) JString (j_compiled JString) text eq_refl (j_rules_ne _) (j_match_ok _) ltac:(discriminate) (length pre) (length (pre ++ t)) Hgap H1 ltac:(lia) (fun _ => H2)) as [H0 HS].
  assert (Es : slice text (length pre) (length (pre ++ t)) = t) by (rewrite E; apply slice_mid). rewrite Es in H0. cbn [c_da JsonModel.j_compiled da_item] in H0. unfold mk_item in H0. destruct t as [| c0 t]; [congruence |].
  exact (reach_item _ _ j_consume j_parse text (up ++ [JString]) JString w new circ _ _ _ (last_opt_app up JString) H0 eq_refl ltac:(discriminate) HS).
Qed.

End Steps.
