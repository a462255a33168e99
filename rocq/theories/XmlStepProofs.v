(** The steps of the lexer in XML documents. *)
From Verif Require Import Base BaseFacts TargetModel TargetSpec LexerModel LexerSpec TargetProofs LexerProofs LexiconModel LexiconSpec TreeModel TreeSpec TreeProofs BuildModel BuildProofs
  MachineProofs GeneratorProofs FastPathProofs XmlModel XmlSpec XmlMatchProofs.
From Coq Require Import ZArith ZifyBool.

Notation grp := (list (option (nat * nat))).
Definition tk (t : tok xact) : xact * str := (k_act t, k_text t).
Definition tx (x : lexeme xact) : xact * str := (x_act x, x_text x).
Definition tn (x : xact * str) : sn := T (fst x) (snd x).
Lemma group_tk xs : forall n, map tk (make_group_from n xs) = map tx xs.
Proof. induction xs as [| x [| y xs] IH]; intros n; [reflexivity | reflexivity |]. change (map tk (make_group_from n (x :: y :: xs))) with (tx x :: map tk (make_group_from (S n) (y :: xs))). rewrite IH. reflexivity. Qed.
Lemma tokens_tk xs : map tk (make_tokens xs) = map tx xs.
Proof. destruct xs as [| x [| y xs]]; [reflexivity | reflexivity |]. apply group_tk. Qed.
Lemma strip_toks (ts : list (tok xact)) : map strip (map Tok ts) = map tn (map tk ts).
Proof. rewrite !map_map. apply map_ext. reflexivity. Qed.
Lemma words_toks (ts : list (tok xact)) : words (map (@Tok xlex xact) ts) = map Leaf ts.
Proof. unfold words. induction ts as [| t ts IH]; [reflexivity |]. cbn [map concat word app]. now rewrite IH. Qed.
Lemma words_app (a b : list xnode) : words (a ++ b) = words a ++ words b.
Proof. unfold words. now rewrite map_app, concat_app. Qed.
Lemma words_ctx l (cs : list xnode) : words [Ctx l cs] = Enter l :: words cs ++ [Exit].
Proof.
  unfold words at 1. cbn [map concat word]. rewrite app_nil_r. f_equal. f_equal. induction cs as [| c cs IH]; [reflexivity |]. unfold words in *. cbn [map concat]. now rewrite IH.
Qed.

Section Steps.
Variable e : xenv.
Variable dtd : xlex -> compiled xlex xact.
Variable text : str.
Notation parse := (x_parse e dtd).
Notation reach := (reach x_consume parse text).
Notation wrd := (list (sym xlex xact)).
Definition bare (l : xlex) : compiled xlex xact := Compiled (x_rules l) (x_da e l) None None (x_match e l).

Lemma cdata_literal : literal_match (x_match e XCdata) [93; 93; 62].
Proof.
  intros adv s p. unfold x_match. cbn [x_patterns first_match]. unfold plain, lit, starts. cbn [length]. unfold slice. replace (p + 3 - p) with 3 by lia.
  destruct (str_eqb [93; 93; 62] (firstn 3 (skipn p s))) eqn:E; cbn [option_map]; [| now rewrite andb_false_r].
  apply str_eqb_spec in E. apply (f_equal (@length nat)) in E. rewrite firstn_length, skipn_length in E. cbn [length] in E.
  destruct (Nat.leb_spec (p + 3) (length s)); [reflexivity | lia].
Qed.
Lemma parse_bare l pos j : known l -> parse l text pos j = lexicon_parse (fun _ _ => []) l (bare l) text pos j.
Proof.
  destruct l; intros H; try contradiction; try reflexivity.
  change (parse_fast (fun _ _ => []) XCdata (x_compiled e dtd XCdata) [93; 93; 62] (AStd ADelim) [RInt (-1)] text pos j = parse_regex (fun _ _ => []) XCdata (bare XCdata) text pos j).
  rewrite (parse_fast_regex xlex xact (fun _ _ => []) (x_match e XCdata) [93; 93; 62] cdata_literal ltac:(discriminate) text XCdata (AStd ADelim) [RInt (-1)]); reflexivity.
Qed.
Lemma bare_rules l : known l -> c_rules (bare l) <> [].
Proof. destruct l; try contradiction; discriminate. Qed.
Lemma bare_da l : known l -> c_da (bare l) <> NoDA.
Proof. destruct l; try contradiction; discriminate. Qed.

(** ** The lexemes of an action *)
Fixpoint gout (acts : list (action xlex xact)) (gs : grp) (t : str) : list (xact * str) :=
  match acts, gs with
  | AStd b :: acts, Some (i, j) :: gs => (match slice t i j with [] => [] | c :: u => [(b, c :: u)] end) ++ gout acts gs t
  | _ :: acts, None :: gs => gout acts gs t
  | _, _ => []
  end.
Definition gives (a : action xlex xact) (t : str) (gs : grp) : list (xact * str) :=
  match a with AStd b => [(b, t)] | AGroups acts => gout acts gs t | _ => [] end.
Definition simple (a : action xlex xact) : Prop :=
  match a with AStd _ | ASkip => True | AGroups acts => Forall (fun x => match x with AStd _ => True | _ => False end) acts | _ => False end.
Lemma gives_lex pre t s a gs m : text = pre ++ t ++ s -> t <> [] -> simple a -> grp_ok (length t) gs -> m_groups m = g_shift (length pre) gs ->
  map tx (act_lexemes (fun _ _ => []) text a (length pre) t (Some m)) = gives a t gs.
Proof.
  intros E Ht Ha Hg Hm. destruct a as [b | | l | acts | f]; try contradiction; cbn [act_lexemes gives].
  - destruct t; [congruence | reflexivity].
  - reflexivity.
  - rewrite Hm. clear Hm. cbn [simple] in Ha. revert gs Hg. induction Ha as [| x acts Hx Ha IH]; intros gs Hg; [reflexivity |]. destruct x as [b | | | |]; try contradiction.
    destruct Hg as [| g gs H0 Hg]; [reflexivity |]. destruct g as [[i j] |]; cbn [g_shift map option_map gout fst snd].
    + rewrite map_app. rewrite <- (IH gs Hg). f_equal. rewrite E, slice_in by (destruct H0; lia). cbn [act_lexemes]. destruct (slice t i j); reflexivity.
    + apply IH, Hg.
Qed.

(** ** Items *)
Definition found (l : xlex) (pre t s : str) (i : nat) (gs : grp) : Prop := first_match 0 (x_patterns e l) (before text (length pre)) (t ++ s) = Some (i, (length t, gs)).
Definition rule_is (l : xlex) (i : nat) (pre t : str) (gs : grp) (a : action xlex xact) (tg : list (ritem xlex)) : Prop :=
  match nth_error (x_rules l) i with
  | Some (SRule a' tg') => a' = a /\ tg' = tg
  | Some (DRule f) => f (Mtch (length pre) (length pre + length t) i (g_shift (length pre) gs)) t = (a, tg)
  | None => False
  end.
Lemma match_at l pre s i n gs : text = pre ++ s -> first_match 0 (x_patterns e l) (before text (length pre)) s = Some (i, (n, gs)) ->
  x_match e l false text (length pre) = Some (Mtch (length pre) (length pre + n) i (g_shift (length pre) gs)).
Proof. intros E H. unfold x_match. rewrite E at 2. rewrite skipn_pre, H. reflexivity. Qed.
Lemma no_match_at l pre s : text = pre ++ s -> first_match 0 (x_patterns e l) (before text (length pre)) s = None -> x_match e l false text (length pre) = None.
Proof. intros E H. unfold x_match. rewrite E at 2. rewrite skipn_pre, H. reflexivity. Qed.
Lemma parse_found l pre t s i gs a tg : known l -> text = pre ++ t ++ s -> t <> [] -> found l pre t s i gs -> rule_is l i pre t gs a tg -> simple a -> grp_ok (length t) gs ->
  (exists xs, map tx xs = gives a t gs /\ parse l text (length pre) 0 = Some (Item (length pre) t xs (t_make l tg))) /\
  forall j, parse l text (length pre) (S j) = parse l text (length (pre ++ t)) j.
Proof.
  intros Hk E Ht Hf Hr Ha Hg. pose proof (match_at l pre (t ++ s) i _ gs E Hf) as Em. set (m := Mtch (length pre) (length pre + length t) i (g_shift (length pre) gs)) in *.
  assert (Hlen : length pre <= length text) by (rewrite E, app_length; lia).
  assert (Hlt : length pre < m_end m) by (cbn; destruct t; [congruence | cbn; lia]).
  destruct (da_some xlex xact (fun _ _ => []) l (bare l) text eq_refl (bare_rules l Hk) (x_match_ok e l text Hk) (bare_da l Hk) _ m Hlen Em Hlt) as [H0 HS]. split.
  - rewrite (parse_bare _ _ _ Hk), H0. exists (act_lexemes (fun _ _ => []) text a (length pre) t (Some m)). split; [now apply (gives_lex pre t s) |]. f_equal. unfold token.
    cbn [m_rule m_start m_end m c_rules bare].
    assert (Es : slice text (length pre) (length pre + length t) = t) by (rewrite E, <- app_length; apply slice_mid). rewrite Es. unfold rule_is in Hr.
    destruct (nth_error (x_rules l) i) as [[a' tg' | f] |]; [destruct Hr as [-> ->] | fold m in Hr; fold m; rewrite Hr | contradiction]; unfold mk_item; (destruct t; [congruence | reflexivity]).
  - intros j. rewrite !(parse_bare _ _ _ Hk), HS, app_length. reflexivity.
Qed.

(** ** Runs *)
Definition R (lex : list xlex) (w : wrd) (new : nat) (pre : str) (lex' : list xlex) (w' : wrd) (new' : nat) (pre' : str) : Prop :=
  forall circ, exists circ', reach (Cfg lex w new circ (length pre)) (Cfg lex' w' new' circ' (length pre')).
Lemma R_refl lex w new pre : R lex w new pre lex w new pre.
Proof. intros circ. exists circ. apply reach_refl. Qed.
Lemma R_trans a w n p a' w' n' p' a'' w'' n'' p'' : R a w n p a' w' n' p' -> R a' w' n' p' a'' w'' n'' p'' -> R a w n p a'' w'' n'' p''.
Proof. intros H1 H2 circ. destruct (H1 circ) as [c1 K1]. destruct (H2 c1) as [c2 K2]. exists c2. eapply reach_trans; eassumption. Qed.

Lemma emit_toks (w : wrd) new xs : map tx xs <> [] -> g_emit (L := xlex) (w, new) xs = (w ++ map Leaf (make_tokens xs), 0).
Proof. destruct xs; [intros H; exfalso; apply H; reflexivity | reflexivity]. Qed.
(** A match without target. *)
Lemma step_out up l pre t s i gs a w new : known l -> text = pre ++ t ++ s -> t <> [] -> found l pre t s i gs -> rule_is l i pre t gs a [] -> simple a -> grp_ok (length t) gs ->
  gives a t gs <> [] ->
  exists ts, map tk ts = gives a t gs /\ R (up ++ [l]) w new pre (up ++ [l]) (w ++ map Leaf ts) 0 (pre ++ t).
Proof.
  intros Hk E Ht Hf Hr Ha Hg Hne. destruct (parse_found l pre t s i gs a [] Hk E Ht Hf Hr Ha Hg) as [(xs & Hx & H0) HS].
  exists (make_tokens xs). split; [now rewrite tokens_tk |]. intros circ. exists circ.
  pose proof (reach_item _ _ x_consume parse text (up ++ [l]) l w new circ _ _ _ (last_opt_app up l) H0 eq_refl Ht HS) as H. cbn [i_lexemes] in H.
  rewrite emit_toks in H by congruence. exact H.
Qed.
Lemma step_skip up l pre t s i gs w new : known l -> text = pre ++ t ++ s -> t <> [] -> found l pre t s i gs -> rule_is l i pre t gs ASkip [] -> grp_ok (length t) gs ->
  R (up ++ [l]) w new pre (up ++ [l]) w new (pre ++ t).
Proof.
  intros Hk E Ht Hf Hr Hg. destruct (parse_found l pre t s i gs ASkip [] Hk E Ht Hf Hr I Hg) as [(xs & Hx & H0) HS]. intros circ. exists circ.
  pose proof (reach_item _ _ x_consume parse text (up ++ [l]) l w new circ _ _ _ (last_opt_app up l) H0 eq_refl Ht HS) as H. cbn [i_lexemes] in H.
  destruct xs; [exact H | discriminate].
Qed.
(** With a target: lexicons are left and entered. *)
Lemma step_go up l pre t s i gs a tg k ls w new : known l -> text = pre ++ t ++ s -> t <> [] -> found l pre t s i gs -> rule_is l i pre t gs a tg -> simple a -> grp_ok (length t) gs ->
  gives a t gs <> [] -> t_make l tg = Some (Target k ls) -> k <= length up ->
  exists ts, map tk ts = gives a t gs /\
    let w' := g_follow (w ++ map Leaf ts, 0) (Target k ls) in R (up ++ [l]) w new pre (drop_last k (up ++ [l]) ++ ls) (fst w') (snd w') (pre ++ t).
Proof.
  intros Hk E Ht Hf Hr Ha Hg Hne Hm Hlen. destruct (parse_found l pre t s i gs a tg Hk E Ht Hf Hr Ha Hg) as [(xs & Hx & H0) HS].
  exists (make_tokens xs). split; [now rewrite tokens_tk |]. intros w' circ. exists [].
  pose proof (reach_target _ _ x_consume parse text (up ++ [l]) l w new circ _ _ (Target k ls) (last_opt_app up l) H0 Hm Ht) as H.
  assert (Ec : l_clip (length (up ++ [l])) (Target k ls) = Target k ls).
  { unfold l_clip. cbn [t_pop t_push]. rewrite app_length. cbn [length]. destruct (Nat.leb_spec (length up + 1) k); [lia |]. now rewrite andb_false_r. }
  cbv zeta in H. rewrite Ec in H. assert (En : l_consumes x_consume (Target k ls) = false) by (unfold l_consumes, x_consume; cbn [t_push]; destruct (last_opt ls); reflexivity).
  rewrite En in H. cbn [i_lexemes i_pos i_txt t_pop t_push] in H. rewrite emit_toks in H by congruence. unfold w'. rewrite app_length. destruct (g_follow _ _) as [w1 n1]. exact H.
Qed.
Lemma step_enter up l x pre t s i gs a w new : known l -> text = pre ++ t ++ s -> t <> [] -> found l pre t s i gs -> rule_is l i pre t gs a [RLex x] -> simple a -> grp_ok (length t) gs ->
  gives a t gs <> [] ->
  exists ts, map tk ts = gives a t gs /\ R (up ++ [l]) w new pre ((up ++ [l]) ++ [x]) (w ++ map Leaf ts ++ [Enter x]) 1 (pre ++ t).
Proof.
  intros Hk E Ht Hf Hr Ha Hg Hne. destruct (step_go up l pre t s i gs a _ 0 [x] w new Hk E Ht Hf Hr Ha Hg Hne eq_refl ltac:(lia)) as (ts & H1 & H2). exists ts. split; [exact H1 |].
  unfold g_follow, g_leave in H2. cbn [fst snd t_pop t_push Nat.leb] in H2. rewrite !drop_last_0, Nat.sub_0_r in H2. cbn [map length Nat.add] in H2. rewrite (app_assoc w). exact H2.
Qed.
Lemma drop_one {X} (l : list X) x : drop_last 1 (l ++ [x]) = l.
Proof. rewrite drop_last_app by (cbn; lia). change (drop_last 1 [x]) with (@nil X). apply app_nil_r. Qed.
Lemma step_leave up l pre t s i gs a w new : up <> [] -> known l -> text = pre ++ t ++ s -> t <> [] -> found l pre t s i gs -> rule_is l i pre t gs a [RInt (-1)] -> simple a -> grp_ok (length t) gs ->
  gives a t gs <> [] ->
  exists ts, map tk ts = gives a t gs /\ R (up ++ [l]) w new pre up (w ++ map Leaf ts ++ [Exit]) 0 (pre ++ t).
Proof.
  intros Hup Hk E Ht Hf Hr Ha Hg Hne. destruct (step_go up l pre t s i gs a _ 1 [] w new Hk E Ht Hf Hr Ha Hg Hne eq_refl ltac:(destruct up; [congruence | cbn; lia])) as (ts & H1 & H2).
  exists ts. split; [exact H1 |].
  unfold g_follow, g_leave in H2. cbn [fst snd t_pop t_push Nat.leb] in H2. rewrite drop_one, !drop_last_0 in H2. cbn [map length Nat.add Nat.sub repeat fst snd] in H2. rewrite !app_nil_r in H2. rewrite (app_assoc w). exact H2.
Qed.
Lemma step_switch up l x pre t s i gs a w new : up <> [] -> known l -> text = pre ++ t ++ s -> t <> [] -> found l pre t s i gs -> rule_is l i pre t gs a [RInt (-1); RLex x] -> simple a ->
  grp_ok (length t) gs -> gives a t gs <> [] ->
  exists ts, map tk ts = gives a t gs /\ R (up ++ [l]) w new pre (up ++ [x]) (w ++ map Leaf ts ++ [Exit; Enter x]) 1 (pre ++ t).
Proof.
  intros Hup Hk E Ht Hf Hr Ha Hg Hne. destruct (step_go up l pre t s i gs a _ 1 [x] w new Hk E Ht Hf Hr Ha Hg Hne eq_refl ltac:(destruct up; [congruence | cbn; lia])) as (ts & H1 & H2).
  exists ts. split; [exact H1 |].
  unfold g_follow, g_leave in H2. cbn [fst snd t_pop t_push Nat.leb] in H2. rewrite drop_one, !drop_last_0 in H2. cbn [map length Nat.add Nat.sub repeat fst snd] in H2. rewrite <- app_assoc in H2. cbn [app] in H2. rewrite (app_assoc w). exact H2.
Qed.
(** Text that no pattern matches. *)
Definition da_act (l : xlex) (t : str) : action xlex xact := match x_da e l with NoDA => ASkip | StaticDA a => a | DynDA f => f t end.
Lemma step_gap up l pre t s b w new : known l -> text = pre ++ t ++ s -> t <> [] -> da_act l t = AStd b ->
  (forall a c, t = a ++ c -> c <> [] -> first_match 0 (x_patterns e l) (before text (length (pre ++ a))) (c ++ s) = None) ->
  match s with [] => True | _ => first_match 0 (x_patterns e l) (before text (length (pre ++ t))) s <> None end ->
  first_match 0 (x_patterns e l) (before text (length text)) [] = None ->
  exists ts, map tk ts = [(b, t)] /\ R (up ++ [l]) w new pre (up ++ [l]) (w ++ map Leaf ts) 0 (pre ++ t).
Proof.
  intros Hk E Ht Hb Hno Hend Hnil.
  assert (Hlen : length pre < length (pre ++ t) <= length text) by (rewrite E, !app_length; destruct t; [congruence | cbn; lia]).
  assert (A : forall p, length pre <= p < length (pre ++ t) -> c_match (bare l) false text p = None).
  { intros p Hp. cbn [c_match bare]. pose proof (firstn_skipn (p - length pre) t) as Et. rewrite app_length in Hp.
    assert (El : length (firstn (p - length pre) t) = p - length pre) by (rewrite firstn_length; lia).
    replace p with (length (pre ++ firstn (p - length pre) t)) by (rewrite app_length, El; lia).
    apply (no_match_at l _ (skipn (p - length pre) t ++ s)); [rewrite E, <- Et at 1; now rewrite <- !app_assoc |]. apply Hno; [now symmetry |].
    intros Hn. apply (f_equal (@length nat)) in Hn. rewrite skipn_length in Hn. cbn [length] in Hn. lia. }
  assert (B : length (pre ++ t) = length text -> c_match (bare l) false text (length (pre ++ t)) = None).
  { intros Hl. rewrite Hl. cbn [c_match bare]. apply (no_match_at l text []); [now rewrite app_nil_r | exact Hnil]. }
  assert (D : length (pre ++ t) < length text -> c_match (bare l) false text (length (pre ++ t)) <> None).
  { intros Hl. destruct s as [| c s]; [rewrite E, !app_length in Hl; cbn in Hl; lia |]. cbn [c_match bare].
    destruct (first_match 0 (x_patterns e l) (before text (length (pre ++ t))) (c :: s)) as [[i [n gs]] |] eqn:Ef; [| congruence].
    rewrite (match_at l (pre ++ t) (c :: s) i n gs); [discriminate | now rewrite <- app_assoc | exact Ef]. }
  destruct (da_gap xlex xact (fun _ _ => []) l (bare l) text eq_refl (bare_rules l Hk) (x_match_ok e l text Hk) (bare_da l Hk) _ _ Hlen A B D) as [H0 HS].
  assert (Es : slice text (length pre) (length (pre ++ t)) = t) by (rewrite E; apply slice_mid). rewrite Es in H0.
  assert (Ei : da_item (fun _ _ => []) text (c_da (bare l)) (length pre) t = Item (length pre) t [Lexeme (length pre) t b] None).
  { cbn [c_da bare]. unfold da_item. unfold da_act in Hb. destruct (x_da e l); [discriminate | |]; rewrite Hb; unfold mk_item; (destruct t; [congruence | reflexivity]). }
  rewrite Ei in H0. rewrite <- (parse_bare _ _ _ Hk) in H0.
  exists [Token (length pre) t b None]. split; [reflexivity |]. intros circ. exists circ.
  refine (reach_item _ _ x_consume parse text (up ++ [l]) l w new circ _ _ _ (last_opt_app up l) H0 eq_refl Ht _).
  intros j. rewrite !(parse_bare _ _ _ Hk). apply HS.
Qed.
Lemma parse_end l : known l -> first_match 0 (x_patterns e l) (before text (length text)) [] = None -> parse l text (length text) 0 = None.
Proof.
  intros Hk Hn. rewrite (parse_bare _ _ _ Hk). apply (da_end xlex xact (fun _ _ => []) l (bare l) text eq_refl (bare_rules l Hk) (x_match_ok e l text Hk) (bare_da l Hk)).
  cbn [c_match bare]. apply (no_match_at l text []); [now rewrite app_nil_r | exact Hn].
Qed.
End Steps.
