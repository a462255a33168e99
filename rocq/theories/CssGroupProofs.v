(** Runs of the lexer over lists of CSS selectors, and over calls. *)
From Verif Require Import Base BaseFacts TargetModel TargetSpec LexerModel LexerSpec TargetProofs LexerProofs LexiconModel LexiconSpec TreeModel TreeSpec TreeProofs BuildModel BuildProofs
  TransformModel TransformSpec TransformTextProofs MachineProofs GeneratorProofs CssColorModel CssLangModel IniSpec CssTextSpec CssStepProofs CssCharProofs CssNameProofs CssSelectorProofs.
From Coq Require Import ZArith ZifyBool.

Scheme parts_ind' := Induction for parts_text Sort Prop
with selector_ind' := Induction for selector_text Sort Prop
with group_ind' := Induction for group_text Sort Prop
with groups_ind' := Induction for groups_text Sort Prop.
Combined Scheme selectors_ind from parts_ind', selector_ind', group_ind', groups_ind'.

Ltac asss := repeat first [rewrite <- app_assoc | progress cbn [app]]; reflexivity.
Section Groups.
Variable e : kenv.
Hypothesis He : classes_ok e.
Variable odd : nat -> option nat.
Variable text : str.
Notation name_text := (name_text e odd).
Notation name := (name e odd).
Notation items := (items e odd).
Notation calm := (calm e odd).
Notation seg := (seg e text).
Notation hseg := (hseg e text).
Notation lseg := (lseg e text).
Notation parts_run := (parts_run e odd text).
Notation node := (node klex kact).
Notation reach := (reach k_consume (k_parse e) text).
Notation spaces := (Forall (fun c => k_space e c = true)).
Notation sstop := (sstop e).
Notation selstart := (selstart e).

(** ** Entering a lexicon with a name *)
Definition enters (up : list klex) (l x : klex) (pre t : str) (ns : list node) (ts : list (tok kact)) : Prop := forall w new circ,
  exists circ', okc circ' (length (pre ++ t)) (S (length (up ++ [l]))) /\
    reach (Cfg (up ++ [l]) w new circ (length pre)) (Cfg ((up ++ [l]) ++ [x]) (w ++ words ns ++ Enter x :: map Leaf ts) 0 circ' (length (pre ++ t))).
Lemma push_enters up l x pre t0 t s idx a i f n : ident_lex e x = Some (i, f) -> k_consume x = false -> name t n -> text = pre ++ t0 ++ t ++ s -> t0 <> [] -> nend e s ->
  pick_is e l (t0 ++ t ++ s) idx (length t0) -> rule_is e l idx t0 (AStd a) [RLex x] ->
  exists ts, enters up l x pre (t0 ++ t) [Tok (leaf pre t0 a)] ts /\ is_named odd ts n /\ ts <> [].
Proof.
  intros Hx Hc [Hne Hn] E Ht Hs Hp Hr. assert (E2 : text = (pre ++ t0) ++ t ++ s) by (rewrite E, <- !app_assoc; reflexivity).
  destruct (ident_run e He odd text x i f Hx (length t) t n (le_n _) Hn (up ++ [l]) (pre ++ t0) s E2 Hs) as (ts & S1 & N1 & T1 & _).
  exists ts. split; [| split; [exact N1 | exact (T1 Hne)]]. intros w new circ.
  pose proof (step_go e He text up l pre t0 _ idx a _ 0 [x] w new circ E Ht Hp Hr eq_refl ltac:(lia)) as R1. cbv zeta in R1. change (last_opt [x]) with (Some x) in R1. cbv iota in R1. rewrite Hc in R1. cbv iota in R1.
  rewrite drop_zero in R1. unfold g_follow, g_leave in R1. cbn [fst snd t_pop t_push Nat.leb map length] in R1. rewrite drop_zero in R1. cbn [Nat.sub Nat.add] in R1.
  destruct (S1 ((w ++ [Leaf (leaf pre t0 a)]) ++ [Enter x]) 1 [] (bnd_nil _)) as (c1 & K1 & R2).
  pose proof (ok_after _ _ _ _ _ K1 (okc_nil _ _)) as K2. rewrite (len_snoc (up ++ [l]) x) in K2. exists c1. split; [rewrite app_assoc; exact K2 |].
  eapply reach_trans; [exact R1 |]. eapply reach_to; [exact R2 |]. rewrite app_assoc, words_toks. specialize (T1 Hne). destruct ts as [| t1 ts]; [congruence |].
  rewrite words_tok, <- !app_assoc. reflexivity.
Qed.
Definition pidx (idx : nat) (t1 : str) : nat := match t1 with c :: _ => if c =? 92 then idx else S idx | [] => S idx end.
Lemma consume_enters up l x pre t s idx i f n : ident_lex e x = Some (i, f) -> k_consume x = true -> name t n -> text = pre ++ t ++ s -> nend e s ->
  (forall t1 n1 t2, t = t1 ++ t2 -> piece e odd t1 n1 (t2 ++ s) -> pick_is e l (t1 ++ t2 ++ s) (pidx idx t1) (length t1) /\ rule_is e l (pidx idx t1) t1 (AStd (pact f t1)) [RLex x]) ->
  exists ts, enters up l x pre t [] ts /\ is_named odd ts n /\ ts <> [].
Proof.
  intros Hx Hc [Hne Hn] E Hs Hpr. destruct (name_split e He odd t n s Hn Hne Hs) as (t1 & n1 & t2 & n2 & -> & -> & Hpc & Hn2). destruct (Hpr t1 n1 t2 eq_refl Hpc) as [Hp Hr].
  pose proof (piece_ne _ _ _ _ _ Hpc) as Ht. rewrite <- app_assoc in E. assert (E2 : text = (pre ++ t1) ++ t2 ++ s) by (rewrite E, <- !app_assoc; reflexivity).
  destruct (ident_run e He odd text x i f Hx (length t2) t2 n2 (le_n _) Hn2 (up ++ [l]) (pre ++ t1) s E2 Hs) as (ts & S1 & N1 & _ & _).
  exists (leaf pre t1 (pact f t1) :: ts). split; [| split; [| discriminate]].
  - intros w new circ.
    pose proof (step_go e He text up l pre t1 _ (pidx idx t1) (pact f t1) _ 0 [x] w new circ E Ht Hp Hr eq_refl ltac:(lia)) as R1. cbv zeta in R1. change (last_opt [x]) with (Some x) in R1. cbv iota in R1. rewrite Hc in R1. cbv iota in R1.
    rewrite drop_zero in R1. unfold g_emit, g_follow, g_leave in R1. cbn [fst snd t_pop t_push Nat.leb map length] in R1. rewrite drop_zero in R1.
    destruct (S1 ((w ++ [Enter x]) ++ [Leaf (leaf pre t1 (pact f t1))]) 0 [] (bnd_nil _)) as (c1 & K1 & R2).
    pose proof (ok_after _ _ _ _ _ K1 (okc_nil _ _)) as K2. rewrite (len_snoc (up ++ [l]) x) in K2. exists c1. split; [rewrite app_assoc; exact K2 |].
    eapply reach_trans; [exact R1 |]. eapply reach_to; [exact R2 |]. rewrite app_assoc, words_toks. assert (Hz : nw (map Tok ts) 0 = 0) by now destruct ts. rewrite Hz.
    change (words []) with (@nil (sym klex kact)). rewrite <- !app_assoc. reflexivity.
  - destruct (ident_act e x i f t1 Hx) as [D1 D2]. apply is_named_cons; [exact (pact_name e He odd f t1 n1 _ Hpc D1 D2) | exact N1].
Qed.
(** It is left where nothing matches. *)
Lemma enters_leave up l x pre t s ns ts : enters up l x pre t ns ts -> text = pre ++ t ++ s -> s <> [] -> k_da x = NoDA -> k_dt x = Some (Target 1 []) -> no_pick e x s ->
  seg (up ++ [l]) pre t (ns ++ [Ctx x (map Tok ts)]).
Proof.
  intros H E Hs D1 D2 Hn w new circ _. destruct (H w new circ) as (c1 & K1 & R1). assert (E2 : text = (pre ++ t) ++ s) by (rewrite E, <- app_assoc; reflexivity).
  destruct (step_leave e text (up ++ [l]) x (pre ++ t) s (w ++ words ns ++ Enter x :: map Leaf ts) 0 c1 E2 Hs D1 D2 Hn ltac:(now destruct up) K1) as (c2 & K2 & R2). exists c2. split; [now right |].
  eapply reach_trans; [exact R1 |]. eapply reach_to; [exact R2 |]. f_equal; [| now destruct ns]. unfold left_word. cbn [Nat.eqb]. rewrite words_app, words_ctx, words_toks, <- !app_assoc. reflexivity.
Qed.
(** Or there is a call: brackets with a run in another lexicon between them; then both are left. *)
Definition runs (lex : list klex) (pre t : str) (ns : list node) : Prop := forall w new,
  exists new' circ', reach (Cfg lex w new [] (length pre)) (Cfg lex (w ++ words ns) new' circ' (length (pre ++ t))).
Lemma seg_runs lex pre t ns : seg lex pre t ns -> runs lex pre t ns.
Proof. intros H w new. destruct (H w new [] (bnd_nil _)) as (c & _ & R). eauto. Qed.
Definition call_of (pre : str) (y : klex) (t : str) (a b : kact) (ns : list node) : list node :=
  [Tok (leaf pre [40] a); Ctx y (ns ++ [Tok (leaf ((pre ++ [40]) ++ t) [41] b)])].
Lemma enters_call up l x y pre t t' s ns ts i j a b ns' : enters up l x pre t ns ts -> text = pre ++ t ++ 40 :: t' ++ 41 :: s -> k_consume y = false ->
  pick_is e x (40 :: t' ++ 41 :: s) i 1 -> rule_is e x i [40] (AStd a) [RLex y] -> runs (((up ++ [l]) ++ [x]) ++ [y]) ((pre ++ t) ++ [40]) t' ns' ->
  pick_is e y (41 :: s) j 1 -> rule_is e y j [41] (AStd b) [RInt (-2)] ->
  seg (up ++ [l]) pre (t ++ 40 :: t' ++ [41]) (ns ++ [Ctx x (map Tok ts ++ call_of (pre ++ t) y t' a b ns')]).
Proof.
  intros H E Hc Hp Hr Hrun Hp2 Hr2 w new circ _. destruct (H w new circ) as (c1 & K1 & R1).
  assert (E2 : text = (pre ++ t) ++ [40] ++ t' ++ 41 :: s) by (rewrite E, <- app_assoc; reflexivity).
  pose proof (step_go e He text (up ++ [l]) x (pre ++ t) [40] _ i a _ 0 [y] (w ++ words ns ++ Enter x :: map Leaf ts) 0 c1 E2 ltac:(discriminate) Hp Hr eq_refl ltac:(lia)) as R2.
  cbv zeta in R2. change (last_opt [y]) with (Some y) in R2. cbv iota in R2. rewrite Hc in R2. cbv iota in R2.
  rewrite drop_zero in R2. unfold g_follow, g_leave in R2. cbn [fst snd t_pop t_push Nat.leb map length] in R2. rewrite drop_zero in R2. cbn [Nat.sub Nat.add] in R2.
  match type of R2 with MachineProofs.reach _ _ _ _ (Cfg _ ?w2 _ _ _) => destruct (Hrun w2 1) as (new3 & c3 & R3) end.
  assert (E4 : text = (((pre ++ t) ++ [40]) ++ t') ++ [41] ++ s) by (rewrite E, <- !app_assoc; reflexivity).
  match type of R3 with MachineProofs.reach _ _ _ _ (Cfg _ ?w3 _ _ _) =>
    pose proof (step_go e He text ((up ++ [l]) ++ [x]) y (((pre ++ t) ++ [40]) ++ t') [41] s j b _ 2 [] w3 new3 c3 E4 ltac:(discriminate) Hp2 Hr2 eq_refl ltac:(rewrite !app_length; cbn; lia)) as R4 end.
  cbv zeta in R4. change (last_opt (@nil klex)) with (@None klex) in R4. cbv iota in R4. unfold g_follow, g_leave in R4. cbn [fst snd t_pop t_push Nat.leb map length Nat.sub repeat] in R4. rewrite drop_zero in R4.
  assert (Ed : drop_last 2 (((up ++ [l]) ++ [x]) ++ [y]) = up ++ [l]).
  { rewrite <- app_assoc. cbn [app]. rewrite drop_last_app by (cbn; lia). change (drop_last 2 [x; y]) with (@nil klex). apply app_nil_r. }
  rewrite Ed in R4. rewrite !app_nil_r in R4. exists []. split; [right; apply okc_nil |].
  eapply reach_trans; [exact R1 |]. eapply reach_trans; [exact R2 |]. eapply reach_trans; [exact R3 |]. eapply reach_to; [exact R4 |].
  assert (En : nw (ns ++ [Ctx x (map Tok ts ++ call_of (pre ++ t) y t' a b ns')]) new = 0) by now destruct ns. rewrite En. f_equal.
  - unfold call_of. rewrite !words_app, words_ctx, !words_app, words_toks, words_tcons, words_ctx, words_app. change (words [Tok (leaf (((pre ++ t) ++ [40]) ++ t') [41] b)]) with [@Leaf klex kact (leaf (((pre ++ t) ++ [40]) ++ t') [41] b)].
    rewrite <- !app_assoc. cbn [app]. rewrite <- !app_assoc. reflexivity.
  - f_equal. rewrite <- !app_assoc. reflexivity.
Qed.

(** ** Selectors *)
Lemma named_app ts n rest : is_named odd ts n -> CssLangModel.ident_loop odd (map IToken ts ++ rest) = option_map (app n) (CssLangModel.ident_loop odd rest).
Proof. intros H. apply H. Qed.
Lemma element_run up pre t n s : name t n -> text = pre ++ t ++ s -> stops e s -> parts_run (up ++ [KSelector]) pre t [(KElement, VStr n)].
Proof.
  intros Hn E Hs. destruct (consume_enters up KSelector KElement pre t s 7 0 _ n eq_refl eq_refl Hn E (stops_nend e He s Hs)) as (ts & H1 & H2 & H3).
  { intros t1 n1 t2 _ Hp. destruct Hp as [r m s' A1 A2 | c r s' A1 A2 A3].
    - split; [| left; reflexivity]. cbn [app length pidx]. pick He. apply A1.
    - assert (Ec : (c =? 92) = false) by cls He. unfold pidx, pact. rewrite Ec. split; [| left; reflexivity]. cbn [app length]. pick He. now apply run_match. }
  pose proof (enters_leave up KSelector KElement pre t s [] ts H1 E (stops_ne e s Hs) eq_refl eq_refl (ident_leaves e He KElement _ s eq_refl Hs)) as G.
  exists [Ctx KElement (map Tok ts)]. split; [exact G |]. pose proof (items_simple e odd KElement ts n ltac:(right; right; right; reflexivity) H2) as Hi.
  split; [eapply (calm_ctx e odd); [| | exact Hi]; [discriminate | apply calm_toks] |]. split; [discriminate |]. intros rest d. now rewrite Hi.
Qed.

Definition gstop (s : str) : Prop := match s with [] => False | c :: _ => c = 123 \/ c = 41 end.
Lemma parts_stops l u s : parts_text e odd l u -> sstop s -> stops e (u ++ s).
Proof. intros H Hs. destruct H; [now apply (sstop_stops e) | ..]; right; unfold ends; cbn; tauto. Qed.
Lemma parts_start l u : parts_text e odd l u -> l <> [] -> selstart u.
Proof. intros H Hl. destruct H; [congruence | ..]; right; cbn; tauto. Qed.
Lemma gstop_sstop s : gstop s -> sstop s.
Proof. destruct s as [| c s]; [exact (fun x => x) |]. intros [-> | ->]; right; cbn; tauto. Qed.
Lemma gstop_nospace s : gstop s -> nospace e s.
Proof. destruct s as [| c s]; [contradiction |]. intros [-> | ->]; cbn; cls He. Qed.
Lemma last_opt_snoc {X} (l : list X) x : last_opt (l ++ [x]) = Some x. Proof. apply last_opt_app. Qed.
Definition dict_end (vs : list kv) : Prop := exists vs0 v, vs = vs0 ++ [v] /\ is_dict v = true.
Lemma dict_ends vs r : dict_end vs -> ends_in_dict (r ++ vs) = true.
Proof. intros (vs0 & v & -> & Hv). unfold ends_in_dict. now rewrite app_assoc, last_opt_snoc. Qed.

Definition Pparts (l : list (klex * kv)) (u : str) (_ : parts_text e odd l u) : Prop := forall up pre s, text = pre ++ u ++ s -> sstop s -> parts_run (up ++ [KSelector]) pre u l.
Definition Psel (v : kv) (t : str) (_ : selector_text e odd v t) : Prop := selstart t /\ is_dict v = true /\ forall c i up pre s, cidx c = Some i -> text = pre ++ t ++ s -> sstop s ->
  exists ns, hseg (up ++ [c]) pre t [Ctx KSelector ns] /\ calm ns /\ items [Ctx KSelector ns] = [IObj KSelector (Some v)].
Definition Pgroup (vs : list kv) (t : str) (_ : group_text e odd vs t) : Prop := selstart t /\ dict_end vs /\ forall c i up pre s, cidx c = Some i -> text = pre ++ t ++ s -> sstop s ->
  exists ns, hseg (up ++ [c]) pre t ns /\ calm ns /\ forall rest p r, prelude_loop (items ns ++ rest) p r = prelude_loop rest p ((if ends_in_dict r then r ++ [VStr [32]] else r) ++ vs).
Definition groups_run (gs : list (list kv)) (g : str) : Prop := forall c i up pre s, cidx c = Some i -> text = pre ++ g ++ s -> gstop s ->
  exists ns, hseg (up ++ [c]) pre g ns /\ calm ns /\ forall rest p, prelude_loop (items ns ++ rest) p [] = prelude_loop rest (p ++ removelast gs) (last gs []).
Definition Pgroups (gs : list (list kv)) (g : str) (_ : groups_text e odd gs g) : Prop :=
  gs <> [] /\ Forall dict_end gs /\ exists a g', g = a ++ g' /\ spaces a /\ selstart g' /\ groups_run gs g'.

Lemma push_part up x i f pre p t n s a idx l u o : ident_lex e x = Some (i, f) -> k_consume x = false -> name t n -> text = pre ++ (p ++ t ++ u) ++ s -> p <> [] -> stops e (u ++ s) ->
  pick_is e KSelector (p ++ t ++ u ++ s) idx (length p) -> rule_is e KSelector idx p (AStd a) [RLex x] ->
  (forall ts, is_named odd ts n -> items [Ctx x (map Tok ts)] = [IObj x (Some o)]) ->
  (forall pre, text = pre ++ u ++ s -> parts_run (up ++ [KSelector]) pre u l) -> parts_run (up ++ [KSelector]) pre (p ++ t ++ u) ((x, o) :: l).
Proof.
  intros Hx Hc Hn E Hp Hs Hpk Hr Hi IH. assert (E1 : text = pre ++ p ++ t ++ u ++ s) by (rewrite E, <- !app_assoc; reflexivity).
  destruct (ident_part e He odd text x i f up pre p t n (u ++ s) a idx Hx Hc Hn E1 Hp Hs Hpk Hr) as (ts & S1 & N1 & _).
  rewrite (app_assoc p t u). change ((x, o) :: l) with ([(x, o)] ++ l). apply parts_app.
  - apply (part_one e odd text _ _ _ [Ctx x (map Tok ts)] _ x o S1); [now apply Hi |]. eapply (calm_ctx e odd); [| | exact (Hi ts N1)]; [intros ->; discriminate Hx | apply calm_toks].
  - apply IH. rewrite E, <- !app_assoc. reflexivity.
Qed.
Lemma name_cons t n : name t n -> exists c r, t = c :: r /\ name_text (c :: r) n.
Proof. intros [H1 H2]. destruct t as [| c r]; [congruence | eauto]. Qed.
Lemma prelude_items gs ns tk : calm ns -> Forall dict_end gs -> gs <> [] -> str_eqb (k_text tk) [44] = false -> k_act tk <> AOp ->
  (forall rest p, prelude_loop (items ns ++ rest) p [] = prelude_loop rest (p ++ removelast gs) (last gs [])) -> prelude_of (items (ns ++ [Tok tk])) = Some gs.
Proof.
  intros Hc Hg Hne Ht Ha H. unfold prelude_of. rewrite items_app, items_tok, H. cbn [app].
  assert (El : prelude_loop [IToken tk] (removelast gs) (last gs []) = Some (removelast gs, last gs [])) by (cbn [prelude_loop]; rewrite Ht; destruct (k_act tk); try reflexivity; congruence).
  rewrite El. pose proof (app_removelast_last [] Hne) as Eg.
  assert (Hl : dict_end (last gs [])) by (rewrite Eg in Hg; apply Forall_app in Hg as [_ Hg]; now inversion Hg).
  assert (Em : (match last gs [] with [] => removelast gs | _ :: _ => removelast gs ++ [last gs []] end) = gs).
  { destruct (last gs []) as [| v vs] eqn:E0; [destruct Hl as (vs0 & v & Hl & _); now destruct vs0 | now rewrite <- Eg]. }
  rewrite Em. f_equal. clear -Hg. induction Hg as [| vs gs Hv _ IH]; [reflexivity |]. cbn [map]. pose proof (dict_ends vs [] Hv) as Hd. cbn [app] in Hd.
  destruct Hv as (vs0 & v & -> & _). destruct (vs0 ++ [v]) as [| x xs] eqn:Ex; [now destruct vs0 |]. rewrite Hd. cbn [filter]. now rewrite IH.
Qed.

Lemma pseudo_call ts n tk gs : is_named odd ts n -> k_act tk = ADelim ->
  k_pseudo_class odd (map IToken ts ++ [IToken tk; IObj KSelectorList (Some (VPrelude gs))]) = Some (VPseudo n (Some gs)).
Proof.
  intros Hn Ha. assert (El : last_opt (map IToken ts ++ [IToken tk; IObj KSelectorList (Some (VPrelude gs))] : list kitem) = Some (IObj KSelectorList (Some (VPrelude gs)))).
  { change [IToken tk; IObj KSelectorList (Some (VPrelude gs))] with ([IToken tk] ++ [IObj KSelectorList (Some (VPrelude gs))] : list kitem). rewrite app_assoc. apply last_opt_snoc. }
  unfold k_pseudo_class. rewrite (named_app ts n _ Hn), El. cbn [CssLangModel.ident_loop]. rewrite Ha. cbn [is_delim option_map app]. now rewrite app_nil_r.
Qed.
Theorem selectors_run : (forall l u H, Pparts l u H) /\ (forall v t H, Psel v t H) /\ (forall vs t H, Pgroup vs t H) /\ (forall gs g H, Pgroups gs g H).
Proof.
  apply selectors_ind.
  - (* no parts *) intros up pre s E Hs. apply parts_nil.
  - (* # *) intros t n l u Hn Hp IH up pre s E Hs. change (35 :: t ++ u) with ([35] ++ t ++ u) in *.
    eapply (push_part up KId 0 _ pre [35] t n s AIdDef 2); [reflexivity | reflexivity | exact Hn | exact E | discriminate | exact (parts_stops _ _ _ Hp Hs) | | left; reflexivity | |].
    + cbn [app length]. pick He. reflexivity.
    + intros ts Hts. apply items_simple; [left; reflexivity | exact Hts].
    + intros pre' E'. now apply (IH up pre' s).
  - (* . *) intros t n l u Hn Hd Hp IH up pre s E Hs. change (46 :: t ++ u) with ([46] ++ t ++ u) in *.
    eapply (push_part up KClass 0 _ pre [46] t n s AKey 3); [reflexivity | reflexivity | exact Hn | exact E | discriminate | exact (parts_stops _ _ _ Hp Hs) | | left; reflexivity | |].
    + destruct (name_cons t n Hn) as (c & r & -> & _). apply (pick_dot e c r). exact (Hd c r eq_refl).
    + intros ts Hts. apply items_simple; [right; left; reflexivity | exact Hts].
    + intros pre' E'. now apply (IH up pre' s).
  - (* :: *) intros t n l u Hn Hp IH up pre s E Hs. change (58 :: 58 :: t ++ u) with ([58; 58] ++ t ++ u) in *.
    eapply (push_part up KPseudoElement 0 _ pre [58; 58] t n s AKey 4); [reflexivity | reflexivity | exact Hn | exact E | discriminate | exact (parts_stops _ _ _ Hp Hs) | | left; reflexivity | |].
    + cbn [app length]. pick He. reflexivity.
    + intros ts Hts. apply items_simple; [right; right; left; reflexivity | exact Hts].
    + intros pre' E'. now apply (IH up pre' s).
  - (* : *) intros t n l u Hn Hp IH up pre s E Hs. change (58 :: t ++ u) with ([58] ++ t ++ u) in *.
    eapply (push_part up KPseudoClass 1 _ pre [58] t n s AKey 5); [reflexivity | reflexivity | exact Hn | exact E | discriminate | exact (parts_stops _ _ _ Hp Hs) | | left; reflexivity | |].
    + destruct (name_cons t n Hn) as (c & r & -> & Hn'). exact (pick_colon e He odd c r n _ Hn').
    + intros ts Hts. apply items_pseudo. exact Hts.
    + intros pre' E'. now apply (IH up pre' s).
  - (* : ( ) *) intros t n gs g l u Hn Hg (Hne & Hde & a & g' & -> & Ha & Hst & IHg) Hp IH up pre s E Hs.
    assert (E1 : text = pre ++ [58] ++ t ++ 40 :: (a ++ g') ++ 41 :: u ++ s) by (rewrite E; cbn [app]; rewrite <- !app_assoc; cbn [app]; rewrite <- !app_assoc; reflexivity).
    destruct (push_enters up KSelector KPseudoClass pre [58] t (40 :: (a ++ g') ++ 41 :: u ++ s) 5 AKey 1 _ n eq_refl eq_refl Hn E1 ltac:(discriminate) ltac:(cbn; cls He)) as (ts & H1 & H2 & H3).
    { destruct (name_cons t n Hn) as (c & r & -> & Hn'). exact (pick_colon e He odd c r n _ Hn'). }
    { left; reflexivity. }
    assert (E2 : text = ((pre ++ [58] ++ t) ++ [40]) ++ a ++ g' ++ 41 :: u ++ s) by (rewrite E1, <- !app_assoc; cbn [app]; reflexivity).
    assert (E3 : text = (((pre ++ [58] ++ t) ++ [40]) ++ a) ++ g' ++ 41 :: u ++ s) by (rewrite E2, <- !app_assoc; reflexivity).
    destruct (IHg KSelectorList 1 ((up ++ [KSelector]) ++ [KPseudoClass]) _ _ eq_refl E3 ltac:(right; reflexivity)) as (ns & G1 & G2 & G3).
    assert (Hrun : runs (((up ++ [KSelector]) ++ [KPseudoClass]) ++ [KSelectorList]) ((pre ++ [58] ++ t) ++ [40]) (a ++ g') ns).
    { intros w new. destruct a as [| x a].
      - rewrite app_nil_r in G1. destruct (G1 w new [] (hic_nil _ _)) as (c' & _ & R). eauto.
      - assert (Hl : lseg (((up ++ [KSelector]) ++ [KPseudoClass]) ++ [KSelectorList]) ((pre ++ [58] ++ t) ++ [40]) (x :: a) []).
        { apply (c_spaces e He text KSelectorList 1 _ _ (x :: a) (g' ++ 41 :: u ++ s) eq_refl E2); [discriminate | exact Ha |]. apply (selstart_nospace e He). now apply (selstart_app e). }
        destruct (Hl w new [] (bnd_nil _)) as (c1 & K1 & R1). destruct (G1 (w ++ words []) (nw [] new) c1 (low_hic _ _ _ K1)) as (c2 & _ & R2). exists (nw ns new), c2. rewrite (app_assoc _ (x :: a) g').
        eapply reach_trans; [exact R1 |]. eapply reach_to; [exact R2 |]. change (words []) with (@nil (sym klex kact)). rewrite app_nil_r. reflexivity. }
    pose proof (enters_call up KSelector KPseudoClass KSelectorList pre ([58] ++ t) (a ++ g') (u ++ s) _ ts 0 0 ADelim ADelim ns H1 ltac:(rewrite E1, <- app_assoc; reflexivity) eq_refl) as G.
    specialize (G ltac:(pick He; reflexivity) ltac:(left; reflexivity) Hrun ltac:(pick He; reflexivity) ltac:(left; reflexivity)).
    replace (58 :: t ++ 40 :: (a ++ g') ++ 41 :: u) with ((([58] ++ t) ++ 40 :: (a ++ g') ++ [41]) ++ u) by (cbn [app]; rewrite <- !app_assoc; cbn [app]; rewrite <- !app_assoc; reflexivity).
    change ((KPseudoClass, VPseudo n (Some gs)) :: l) with ([(KPseudoClass, VPseudo n (Some gs))] ++ l).
    assert (Is : items (call_of (pre ++ [58] ++ t) KSelectorList (a ++ g') ADelim ADelim ns) = [IToken (leaf (pre ++ [58] ++ t) [40] ADelim); IObj KSelectorList (Some (VPrelude gs))]).
      { unfold call_of. rewrite items_cons, items_tok. cbn [app]. f_equal. rewrite items_ctx; [| discriminate |].
        - do 2 f_equal. cbn [k_method]. unfold k_selector_list, ends_with. rewrite items_app, items_tok, last_opt_snoc. cbn [k_text leaf]. unfold str_eqb. cbn [list_eqb Nat.eqb andb].
          rewrite removelast_last. unfold k_prelude.
          assert (Ep : prelude_of (items (ns ++ [Tok (leaf [] [41] ADelim)])) = Some gs) by (apply prelude_items; try assumption; [reflexivity | discriminate]).
          assert (Eq : prelude_of (items ns) = prelude_of (items (ns ++ [Tok (leaf [] [41] ADelim)]))).
          { unfold prelude_of. rewrite items_app, items_tok, G3. cbn [prelude_loop leaf k_text k_act]. pose proof (G3 [] []) as G4. rewrite app_nil_r in G4. rewrite G4. reflexivity. }
          rewrite Eq, Ep. reflexivity.
        - apply calm_app; [exact G2 | apply calm_tok]. }
    assert (Cs : calm (map Tok ts ++ call_of (pre ++ [58] ++ t) KSelectorList (a ++ g') ADelim ADelim ns)).
    { apply calm_app; [apply calm_toks |]. pose proof Is as Is'. unfold call_of in *. rewrite items_cons, items_tok in Is'. apply (f_equal (@tl kitem)) in Is'. cbn [app tl] in Is'. change (calm ([Tok (leaf (pre ++ [58] ++ t) [40] ADelim)] ++ [Ctx KSelectorList (ns ++ [Tok (leaf (((pre ++ [58] ++ t) ++ [40]) ++ a ++ g') [41] ADelim)])])).
      apply calm_app; [apply calm_tok |]. eapply (calm_ctx e odd); [| | exact Is']; [discriminate |]. apply calm_app; [exact G2 | apply calm_tok]. }
    assert (Ii : items [Ctx KPseudoClass (map Tok ts ++ call_of (pre ++ [58] ++ t) KSelectorList (a ++ g') ADelim ADelim ns)] = [IObj KPseudoClass (Some (VPseudo n (Some gs)))]).
    { rewrite items_ctx; [| discriminate | exact Cs]. rewrite items_app, items_toks, Is. do 2 f_equal. apply (pseudo_call ts n _ gs H2); reflexivity. }
    apply parts_app.
    + eapply (part_one e odd text _ _ _ [_]); [exact G | exact Ii |]. eapply (calm_ctx e odd); [| | exact Ii]; [discriminate | exact Cs].
    + apply (IH up _ s); [| exact Hs]. rewrite E. asss.
  - (* a selector: parts *) intros l t Hl Hp IH. split; [exact (parts_start _ _ Hp Hl) |]. split; [reflexivity |]. intros c i up pre s Hc E Hs.
    destruct (IH (up ++ [c]) pre s E Hs) as (ns & S1 & C1 & T1 & I1). exists ns. split; [| split; [exact C1 |]].
    + apply (sel_enter e He text c i up pre t s ns); [exact Hc | exact E | exact (parts_start _ _ Hp Hl) | exact Hs | exact S1 | exact (T1 Hl)].
    + rewrite items_ctx; [| discriminate | exact C1]. do 2 f_equal. cbn [k_method]. unfold k_selector. specialize (I1 [] []). rewrite app_nil_r in I1. rewrite I1. cbn [selector_loop option_map]. f_equal. apply dictionary_ok.
  - (* with a star *) intros l t Hp IH. assert (Hst : selstart (42 :: t)) by (right; cbn; tauto). split; [exact Hst |]. split; [reflexivity |]. intros c i up pre s Hc E Hs.
    assert (E1 : text = (pre ++ [42]) ++ t ++ s) by (rewrite E, <- !app_assoc; reflexivity).
    destruct (IH (up ++ [c]) (pre ++ [42]) s E1 Hs) as (ns & S1 & C1 & T1 & I1).
    assert (S0 : seg ((up ++ [c]) ++ [KSelector]) pre [42] [Tok (leaf pre [42] AKey)]).
    { apply (seg_leaf e He text _ KSelector pre [42] (t ++ s) 0); [exact E | discriminate | cbn [app length]; pick He; reflexivity | left; reflexivity]. }
    exists (Tok (leaf pre [42] AKey) :: ns). split; [| split; [exact (calm_app e odd [_] ns (calm_tok _ _ _) C1) |]].
    + apply (sel_enter e He text c i up pre (42 :: t) s); [exact Hc | exact E | exact Hst | exact Hs | exact (seg_app _ _ _ _ _ _ _ _ S0 S1) | discriminate].
    + rewrite items_ctx; [| discriminate | exact (calm_app e odd [_] ns (calm_tok _ _ _) C1)]. do 2 f_equal. cbn [k_method]. unfold k_selector. rewrite items_cons, items_tok. cbn [app selector_loop].
      specialize (I1 [] []). rewrite app_nil_r in I1. rewrite I1. cbn [selector_loop option_map]. f_equal. apply dictionary_ok.
  - (* with an element *) intros n tn l t Hn Hp IH.
    assert (Hst : selstart (tn ++ t)). { destruct (name_cons tn n Hn) as (c & r & -> & Hn'). apply name_head in Hn' as [Hn' | ->]; [left; exact Hn' | right; cbn; tauto]. }
    split; [exact Hst |]. split; [reflexivity |]. intros c i up pre s Hc E Hs. rewrite <- app_assoc in E.
    assert (E1 : text = (pre ++ tn) ++ t ++ s) by (rewrite E, <- !app_assoc; reflexivity).
    pose proof (element_run (up ++ [c]) pre tn n (t ++ s) Hn E (parts_stops _ _ _ Hp Hs)) as P1.
    pose proof (parts_app _ _ _ _ _ _ _ _ _ P1 (IH (up ++ [c]) (pre ++ tn) s E1 Hs)) as (ns & S1 & C1 & T1 & I1). exists ns. split; [| split; [exact C1 |]].
    + apply (sel_enter e He text c i up pre (tn ++ t) s ns); [exact Hc | rewrite <- app_assoc; exact E | exact Hst | exact Hs | exact S1 | exact (T1 ltac:(discriminate))].
    + rewrite items_ctx; [| discriminate | exact C1]. do 2 f_equal. cbn [k_method]. unfold k_selector. specialize (I1 [] []). rewrite app_nil_r in I1. rewrite I1. cbn [selector_loop option_map]. f_equal. apply dictionary_ok.
  - (* one selector *) intros v t Hv (Hst & Hd & IH). split; [exact Hst |]. split; [exists [], v; now split |]. intros c i up pre s Hc E Hs.
    destruct (IH c i up pre s Hc E Hs) as (ns & S1 & C1 & I1). exists [Ctx KSelector ns]. split; [exact S1 |]. split; [eapply (calm_ctx e odd); [| | exact I1]; [discriminate | exact C1] |].
    intros rest p r. rewrite I1. cbn [app prelude_loop]. reflexivity.
  - (* and more *) intros v t o cb vs u Hv (Hst & Hd & IHv) Hcb Hg (Hst2 & Hde & IHg). split; [now apply (selstart_app e) |].
    split. { destruct Hde as (vs0 & v' & -> & Hv'). exists (v :: VStr o :: vs0), v'. now split. }
    intros c i up pre s Hc E Hs. rewrite <- !app_assoc in E.
    assert (E1 : text = (pre ++ t) ++ cb ++ u ++ s) by (rewrite E, <- !app_assoc; reflexivity).
    assert (E2 : text = ((pre ++ t) ++ cb) ++ u ++ s) by (rewrite E, <- !app_assoc; reflexivity).
    assert (Hs1 : sstop (cb ++ u ++ s)).
    { destruct Hcb as [a Ha Hsp | o' a b Ho Ha Hb | a b Ha Hsp Hb].
      - destruct a as [| x a]; [congruence |]. inversion Hsp. now left.
      - destruct a as [| x a]; [right; cbn in *; tauto | inversion Ha; now left].
      - destruct a as [| x a]; [congruence |]. inversion Hsp. now left. }
    destruct (IHv c i up pre _ Hc E Hs1) as (n1 & S1 & C1 & I1).
    destruct (comb_run e He text c i up o cb (pre ++ t) (u ++ s) Hc Hcb E1 (selstart_app e u s Hst2)) as (n2 & S2 & I2).
    destruct (IHg c i up _ s Hc E2 Hs) as (n3 & S3 & C3 & I3).
    exists ([Ctx KSelector n1] ++ n2 ++ n3). split; [exact (hseg_more e text _ _ _ _ _ _ _ _ S1 S2 S3) |]. split.
    + apply calm_app; [eapply (calm_ctx e odd); [| | exact I1]; [discriminate | exact C1] |]. apply calm_app; [| exact C3]. destruct I2 as [(-> & _) | (tk & -> & _)]; [apply calm_nil | apply calm_tok].
    + intros rest p r. rewrite !items_app, I1, <- !app_assoc. cbn [app prelude_loop].
      set (r1 := (if ends_in_dict r then r ++ [VStr [32]] else r) ++ [v]). assert (Hr1 : ends_in_dict r1 = true) by (unfold r1; apply dict_ends; exists [], v; now split).
      destruct I2 as [(-> & ->) | (tk & -> & K1 & K2 & K3)].
      * change (items []) with (@nil kitem). cbn [app]. rewrite I3, Hr1. unfold r1. rewrite <- !app_assoc. reflexivity.
      * rewrite items_tok. cbn [app prelude_loop]. rewrite K1, K3, K2, Hr1, I3.
        assert (Hr2 : ends_in_dict (r1 ++ [VStr o]) = false) by (unfold ends_in_dict; now rewrite last_opt_snoc). rewrite Hr2. unfold r1. rewrite <- !app_assoc. reflexivity.
  - (* one group *) intros a vs t b Ha Hg (Hst & Hde & IH) Hb. split; [discriminate |]. split; [constructor; [exact Hde | constructor] |]. exists a, (t ++ b). split; [reflexivity |]. split; [exact Ha |].
    split; [now apply (selstart_app e) |]. intros c i up pre s Hc E Hs. rewrite <- app_assoc in E.
    assert (Hs1 : sstop (b ++ s)) by (destruct b as [| x b]; [now apply gstop_sstop | inversion Hb; now left]).
    destruct (IH c i up pre _ Hc E Hs1) as (ns & S1 & C1 & I1). exists ns. split; [| split; [exact C1 |]].
    + destruct b as [| x b]; [rewrite app_nil_r; exact S1 |]. rewrite <- (app_nil_r ns). apply (hseg_lseg e text _ _ _ _ _ _ S1).
      apply (c_spaces e He text c i up (pre ++ t) (x :: b) s Hc); [rewrite E, <- !app_assoc; reflexivity | discriminate | exact Hb | exact (gstop_nospace s Hs)].
    + intros rest p. rewrite I1. cbn [ends_in_dict last_opt removelast last app]. now rewrite app_nil_r.
  - (* and more *) intros a vs t b gs u Ha Hg (Hst & Hde & IH) Hb Hgs (Hne & Hdes & a2 & g2 & -> & Ha2 & Hst2 & IHg). split; [discriminate |]. split; [now constructor |].
    exists a, (t ++ b ++ 44 :: a2 ++ g2). split; [reflexivity |]. split; [exact Ha |]. split; [now apply (selstart_app e) |]. intros c i up pre s Hc E Hs.
    assert (E0 : text = pre ++ t ++ b ++ 44 :: a2 ++ g2 ++ s) by (rewrite E, <- !app_assoc; cbn [app]; rewrite <- !app_assoc; reflexivity).
    assert (Hs1 : sstop (b ++ 44 :: a2 ++ g2 ++ s)) by (destruct b as [| x b]; [right; cbn; tauto | inversion Hb; now left]).
    destruct (IH c i up pre _ Hc E0 Hs1) as (n1 & S1 & C1 & I1).
    assert (E1 : text = (((pre ++ t) ++ b ++ 44 :: a2) ++ g2 ++ s)) by (rewrite E0, <- !app_assoc; cbn [app]; rewrite <- ?app_assoc; reflexivity).
    destruct (IHg c i up _ s Hc E1 Hs) as (n3 & S3 & C3 & I3).
    assert (S2 : lseg (up ++ [c]) (pre ++ t) (b ++ 44 :: a2) [Tok (leaf ((pre ++ t) ++ b) [44] ADelim)]).
    { apply (lseg_before e He text c i up (pre ++ t) b (44 :: a2) (g2 ++ s)); [exact Hc | rewrite E0, <- !app_assoc; reflexivity | exact Hb | cbn; cls He |].
      change (44 :: a2) with ([44] ++ a2). apply (lseg_after e He text c i up ((pre ++ t) ++ b) [44] a2 (g2 ++ s)); [exact Hc | rewrite E0, <- !app_assoc; reflexivity | exact Ha2 | |].
      - apply (selstart_nospace e He). now apply (selstart_app e).
      - apply (lseg_leaf e He text up c ((pre ++ t) ++ b) [44] (a2 ++ g2 ++ s) (S (S i))); [rewrite E0, <- !app_assoc; reflexivity | discriminate | |].
        + cbn [app length]. destruct c; try discriminate Hc; injection Hc as <-; pick He; reflexivity.
        + left. destruct c; try discriminate Hc; injection Hc as <-; reflexivity. }
    exists (n1 ++ [Tok (leaf ((pre ++ t) ++ b) [44] ADelim)] ++ n3). split; [| split].
    + replace (t ++ b ++ 44 :: a2 ++ g2) with (t ++ (b ++ 44 :: a2) ++ g2) by (rewrite <- !app_assoc; reflexivity). exact (hseg_more e text _ _ _ _ _ _ _ _ S1 S2 S3).
    + apply calm_app; [exact C1 |]. apply calm_app; [apply calm_tok | exact C3].
    + intros rest p. rewrite !items_app, <- !app_assoc, I1, items_tok. cbn [app prelude_loop leaf k_text]. unfold str_eqb. cbn [list_eqb Nat.eqb andb ends_in_dict last_opt].
      rewrite I3. destruct gs as [| g0 gs]; [congruence |]. cbn [removelast last]. rewrite <- app_assoc. reflexivity.
Qed.
End Groups.
