(** Runs of the lexer over CSS style sheets. *)
From Verif Require Import Base BaseFacts TargetModel TargetSpec LexerModel LexerSpec TargetProofs LexerProofs LexiconModel LexiconSpec TreeModel TreeSpec TreeProofs BuildModel BuildProofs
  TransformModel TransformSpec TransformTextProofs MachineProofs GeneratorProofs IniRunProofs IniFileProofs CssColorModel CssLangModel IniSpec CssTextSpec CssStepProofs CssCharProofs CssNameProofs CssSelectorProofs CssGroupProofs CssValueProofs.
From Coq Require Import ZArith ZifyBool.

Section Sheets.
Variable e : kenv.
Hypothesis He : classes_ok e.
Variable odd : nat -> option nat.
Variable text : str.
Notation name_text := (name_text e odd).
Notation name := (name e odd).
Notation items := (items e odd).
Notation calm := (calm e odd).
Notation seg := (seg e text).
Notation node := (node klex kact).
Notation reach := (reach k_consume (k_parse e) text).
Notation spaces := (Forall (fun c => k_space e c = true)).
Notation nospace := (nospace e).
Notation vstops := (vstops e).
Notation value_run := (value_run e odd text).

(** ** Values *)
Definition Pvalue (v : kv) (t : str) (_ : value_text e odd v t) : Prop := t <> [] /\ nospace t /\ forall l b up pre s, vidx l = Some b -> text = pre ++ t ++ s -> vstops s -> value_run (up ++ [l]) pre t [v].
Definition Pvalues (vs : list kv) (u : str) (_ : values_text e odd vs u) : Prop :=
  exists a u', u = a ++ u' /\ spaces a /\ (forall s, vend s -> nospace (u' ++ s)) /\ forall l b up pre s, vidx l = Some b -> text = pre ++ u' ++ s -> vend s -> value_run (up ++ [l]) pre u' vs.
Lemma name_nospace t n : name t n -> nospace t.
Proof. intros [Hne Hn]. destruct t as [| c r]; [exact I |]. cbn. destruct (name_head e odd c r n Hn) as [H | ->]; cls He. Qed.
Lemma number_nospace t : number_text e t -> nospace t.
Proof.
  intros H. destruct (number_head e t H) as (c & r & -> & Hc). cbn. destruct Hc as [Hc | Hc]; [apply (name_space e He), (digit_name e He); exact Hc |]. cbn in Hc. destruct Hc as [<- | [<- | [<- | []]]]; cls He.
Qed.
Lemma nospace_app s s' : s <> [] -> nospace s -> nospace (s ++ s'). Proof. now destruct s. Qed.
Lemma spaces_vstops b s : spaces b -> vstops s -> vstops (b ++ s).
Proof. intros Hb Hs. destruct b as [| x b]; [exact Hs |]. inversion Hb. now left. Qed.

Lemma value_call l b up pre t n vs a u s : vidx l = Some b -> name t n -> no_number e t -> n <> url -> spaces a -> (forall s, vend s -> nospace (u ++ s)) ->
  (forall l b up pre s, vidx l = Some b -> text = pre ++ u ++ s -> vend s -> value_run (up ++ [l]) pre u vs) ->
  text = pre ++ (t ++ 40 :: (a ++ u) ++ [41]) ++ s -> value_run (up ++ [l]) pre (t ++ 40 :: (a ++ u) ++ [41]) [function_call n vs].
Proof.
  intros Hl Hn Hnn Hu Ha Hns IH E.
  assert (E1 : text = pre ++ t ++ 40 :: (a ++ u) ++ 41 :: s) by (rewrite E; asss).
  destruct (consume_enters e He odd text up l KIdentifier pre t (40 :: (a ++ u) ++ 41 :: s) (b + 7) 1 _ n eq_refl eq_refl Hn E1 ltac:(cbn; cls He)) as (ts & H1 & H2 & H3).
  { intros t1 n1 t2 Et Hp. apply (name_pick e He odd l b t n _ t1 n1 t2 Hl Hn Hnn); [right; eauto | now right | exact Et | exact Hp]. }
  assert (E2 : text = ((pre ++ t) ++ [40]) ++ a ++ u ++ 41 :: s) by (rewrite E1; asss).
  assert (E3 : text = (((pre ++ t) ++ [40]) ++ a) ++ u ++ 41 :: s) by (rewrite E1; asss).
  assert (Hv : vend (41 :: s)) by (cbn; tauto).
  pose proof (vrun_app e odd text _ _ _ _ _ _ (vrun_nil e odd text _ _ _ (v_spaces e He text KFunction 2 ((up ++ [l]) ++ [KIdentifier]) a eq_refl Ha _ _ E2 (Hns _ Hv)))
    (IH KFunction 2 ((up ++ [l]) ++ [KIdentifier]) _ _ eq_refl E3 Hv)) as (ns & S1 & C1 & F1 & I1). cbn [app] in I1.
  pose proof (enters_call e He text up l KIdentifier KFunction pre t (a ++ u) s [] ts 0 0 ADelim ADelim ns H1 E1 eq_refl ltac:(pick He; reflexivity) ltac:(left; reflexivity)
    (seg_runs e text _ _ _ _ S1) ltac:(pick He; reflexivity) ltac:(left; reflexivity)) as G. cbn [app] in G.
  assert (Is : items (call_of (pre ++ t) KFunction (a ++ u) ADelim ADelim ns) = [IToken (leaf (pre ++ t) [40] ADelim); IObj KFunction (Some (VValues vs))]).
  { unfold call_of. rewrite items_cons, items_tok. cbn [app]. f_equal. rewrite items_ctx; [| discriminate |].
    - do 2 f_equal. cbn [k_method]. unfold k_function, ends_with. rewrite items_app, items_tok, last_opt_snoc. cbn [k_text leaf]. unfold str_eqb. cbn [list_eqb Nat.eqb andb].
      rewrite removelast_last. unfold values. destruct (I1 [] I) as [_ Ec]. rewrite app_nil_r in Ec. rewrite Ec. cbn [common option_map]. now rewrite app_nil_r.
    - apply calm_app; [exact C1 | apply calm_tok]. }
  assert (Cs : calm (map Tok ts ++ call_of (pre ++ t) KFunction (a ++ u) ADelim ADelim ns)).
  { apply calm_app; [apply calm_toks |]. pose proof Is as Is'. unfold call_of in *. rewrite items_cons, items_tok in Is'. apply (f_equal (@tl kitem)) in Is'. cbn [app tl] in Is'.
    change (calm ([Tok (leaf (pre ++ t) [40] ADelim)] ++ [Ctx KFunction (ns ++ [Tok (leaf (((pre ++ t) ++ [40]) ++ a ++ u) [41] ADelim)])])).
    apply calm_app; [apply calm_tok |]. eapply (calm_ctx e odd); [| | exact Is']; [discriminate |]. apply calm_app; [exact C1 | apply calm_tok]. }
  refine (vrun_obj e odd text _ _ _ _ _ _ G _ Cs eq_refl). rewrite items_ctx; [| discriminate | exact Cs]. rewrite items_app, items_toks, Is. do 2 f_equal. cbn [k_method]. apply identifier_call; [exact H2 | reflexivity].
Qed.
Theorem values_run : (forall v t H, Pvalue v t H) /\ (forall vs u H, Pvalues vs u H).
Proof.
  apply all_values_ind.
  - (* a name *) intros t n Hn Hnn Ht. split; [exact (proj1 Hn) |]. split; [exact (name_nospace t n Hn) |]. intros l b up pre s Hl E Hs.
    pose proof (vstops_stops e s Hs) as Hst.
    destruct (consume_enters e He odd text up l KIdentifier pre t s (b + 7) 1 _ n eq_refl eq_refl Hn E (stops_nend e He s Hst)) as (ts & H1 & H2 & H3).
    { intros t1 n1 t2 Et Hp. apply (name_pick e He odd l b t n _ t1 n1 t2 Hl Hn Hnn); [now left | now left | exact Et | exact Hp]. }
    pose proof (enters_leave e text up l KIdentifier pre t s [] ts H1 E (CssSelectorProofs.stops_ne e s Hst) eq_refl eq_refl (ident_leaves e He KIdentifier _ s eq_refl Hst)) as G. cbn [app] in G.
    refine (vrun_obj e odd text _ _ _ _ _ _ G _ (calm_toks _ _ _) eq_refl). rewrite items_ctx; [| discriminate | apply calm_toks]. rewrite items_toks. do 2 f_equal. cbn [k_method]. now apply identifier_name.
  - (* a color *) intros ds c Hd Hlen Hg. split; [discriminate |]. split; [cbn; cls He |]. intros l b up pre s Hl E Hs.
    eapply (vrun_tok e odd text _ _ _ (leaf pre (35 :: ds) AColor)).
    + apply (seg_leaf e He text up l pre (35 :: ds) s (b + 5)); [exact E | discriminate | |].
      * cbn [app length]. pose proof (color_match e He ds s Hd Hlen Hs) as Hm. destruct l; try discriminate Hl; injection Hl as <-; pick He; exact Hm.
      * left. destruct l; try discriminate Hl; injection Hl as <-; reflexivity.
    + cbn [no_colon leaf k_text]. unfold str_eqb. cbn [list_eqb Nat.eqb andb]. reflexivity.
    + intros rest _. cbn [common leaf k_act k_text tl]. rewrite Hg. destruct (common rest None false); reflexivity.
  - (* a number *) intros t Hn. split; [exact (number_ne e t Hn) |]. split; [exact (number_nospace t Hn) |]. intros l b up pre s Hl E Hs.
    pose proof (vstops_stops e s Hs) as Hst.
    pose proof (seg_push e He text up l KUnit pre t [] s (b + 4) ANumber [] E (number_ne e t Hn) (number_pick e He l b t s Hl Hn (vstops_numend e He s Hs)) (number_rule e l b t Hl) eq_refl (seg_nil _ _ _ _) eq_refl eq_refl
      (ident_leaves e He KUnit _ s eq_refl Hst) (CssSelectorProofs.stops_ne e s Hst)) as G. cbn [ctx] in G. rewrite app_nil_r in G.
    eapply (vrun_tok e odd text _ _ _ (leaf pre t ANumber)); [exact G | exact (number_colon e He t pre Hn) |].
    intros rest Hr. cbn [common leaf k_act k_text]. rewrite (common_unit rest t Hr). destruct (common rest None false); reflexivity.
  - (* a number with a unit *) intros t u n Hn Hu. split; [intros X; apply app_eq_nil in X as [X _]; exact (number_ne e t Hn X) |]. split; [exact (nospace_app _ _ (number_ne e t Hn) (number_nospace t Hn)) |].
    intros l b up pre s Hl E Hs. rewrite <- app_assoc in E. pose proof (vstops_stops e s Hs) as Hst. destruct Hu as [(-> & ->) | (Hname & Hd & He')].
    + assert (Hne : numend e ([37] ++ s)) by (cbn; split; [cls He |]; split; [reflexivity | discriminate]).
      pose proof (push_pop e He text up l KUnit pre t [37] s (b + 4) ANumber 0 APercent E (number_ne e t Hn) ltac:(discriminate) (number_pick e He l b t _ Hl Hn Hne) (number_rule e l b t Hl) eq_refl) as G.
      specialize (G ltac:(cbn [app length]; pick He; reflexivity) ltac:(left; reflexivity)). refine (vrun_unit e He odd text _ _ _ _ _ _ _ G Hn _ (calm_tok _ _ _)). reflexivity.
    + assert (Hne : numend e (u ++ s)).
      { destruct Hname as [Hu0 Hname]. destruct u as [| c r]; [congruence |]. cbn [app numend]. split; [exact (Hd c r eq_refl) |]. destruct (name_head e odd c r n Hname) as [Hc | ->].
        - split; [cls He |]. intros Hx. assert (Hx' : c = 69 \/ c = 101) by (apply orb_true_iff in Hx as [Hx | Hx]; apply Nat.eqb_eq in Hx; tauto).
          destruct r as [| d r].
          + cbn [app]. destruct s as [| d s]; [exact I |]. unfold CssCharProofs.vstops, vstopc, vends in Hs. stop_cases Hs; try reflexivity. assert ((d =? 43) = false) as -> by cls He. cbn [orb]. cls He.
          + cbn [app]. pose proof (He' c d r eq_refl Hx') as Hd45. apply Nat.eqb_neq in Hd45. rewrite Hd45. rewrite orb_false_r.
            destruct (name_tail e He odd _ _ _ Hname Hc) as (n' & Hn'). destruct (name_head e odd d r n' Hn') as [Hdd | ->]; cls He.
        - split; [reflexivity | discriminate]. }
      assert (E2 : text = (pre ++ t) ++ u ++ s) by (rewrite E; asss).
      destruct (ident_run e He odd text KUnit 1 _ eq_refl (length u) u n (le_n _) (proj2 Hname) (up ++ [l]) (pre ++ t) s E2 (stops_nend e He s Hst)) as (ts & S1 & N1 & T1 & F1).
      pose proof (seg_push e He text up l KUnit pre t u s (b + 4) ANumber _ E (number_ne e t Hn) (number_pick e He l b t _ Hl Hn Hne) (number_rule e l b t Hl) eq_refl S1 eq_refl eq_refl
        (ident_leaves e He KUnit _ s eq_refl Hst) (CssSelectorProofs.stops_ne e s Hst)) as G.
      specialize (T1 (proj1 Hname)). destruct ts as [| k ts]; [congruence |]. cbn [map ctx] in G. refine (vrun_unit e He odd text _ _ _ _ _ _ _ G Hn _ (calm_toks _ _ (k :: ts))).
      change (Tok k :: map Tok ts) with (map (@Tok klex kact) (k :: ts)). rewrite items_ctx; [| discriminate | apply calm_toks]. rewrite items_toks. do 2 f_equal. cbn [k_method map k_unit]. inversion F1 as [| x y F2 F3].
      apply str_eqb_false in F2. rewrite F2. unfold ident_token. change (IToken k :: map IToken ts) with (map IToken (k :: ts) : list kitem). now rewrite (named_all odd _ n N1).
  - (* a function *) intros t n vs v Hn Hnn Hu Hr Hv (a & u & -> & Ha & Hns & IH). split; [intros X; apply app_eq_nil in X as [X _]; exact (proj1 Hn X) |].
    split; [exact (nospace_app _ _ (proj1 Hn) (name_nospace t n Hn)) |]. intros l b up pre s Hl E Hs.
    assert (Ef : function_call n vs = VValue None None None None None (Some n) false vs).
    { unfold function_call. assert (str_eqb n [114; 103; 98] = false) as -> by (apply str_eqb_false; intros ->; apply Hr; cbn; tauto).
      assert (str_eqb n [114; 103; 98; 97] = false) as -> by (apply str_eqb_false; intros ->; apply Hr; cbn; tauto). assert (str_eqb n [117; 114; 108] = false) as -> by (now apply str_eqb_false). reflexivity. }
    rewrite <- Ef. now apply (value_call l b up pre t n vs a u s).
  - (* rgb *) intros t n vs v Hn Hnn Hr Hv (a & u & -> & Ha & Hns & IH). split; [intros X; apply app_eq_nil in X as [X _]; exact (proj1 Hn X) |].
    split; [exact (nospace_app _ _ (proj1 Hn) (name_nospace t n Hn)) |]. intros l b up pre s Hl E Hs.
    assert (Ef : function_call n vs = VValue None None None None (Some (Rgba vs)) None false []) by (destruct Hr as [<- | [<- | []]]; reflexivity).
    assert (Hu : n <> url) by (destruct Hr as [<- | [<- | []]]; discriminate).
    rewrite <- Ef. now apply (value_call l b up pre t n vs a u s).
  - (* nothing *) intros a Ha. exists a, []. split; [now rewrite app_nil_r |]. split; [exact Ha |]. split; [exact (vend_nospace e He) |]. intros l b up pre s Hl E Hs. apply vrun_nil, seg_nil.
  - (* one value *) intros a v t b Ha Hv (Hne & Hns & IH) Hb. exists a, (t ++ b). split; [reflexivity |]. split; [exact Ha |]. split; [intros s Hs; rewrite <- app_assoc; now apply nospace_app |].
    intros l i up pre s Hl E Hs. rewrite <- app_assoc in E. change [v] with ([v] ++ []). apply vrun_app.
    + apply (IH l i up pre (b ++ s) Hl E). apply spaces_vstops; [exact Hb | exact (vend_vstops e odd s Hs)].
    + apply vrun_nil. apply (v_spaces e He text l i up b Hl Hb _ s); [rewrite E; asss | exact (vend_nospace e He s Hs)].
  - (* more, after white space *) intros a v t b vs u Ha Hv (Hne & Hns & IH) Hbn Hb Hvs (a2 & u2 & -> & Ha2 & Hns2 & IH2). exists a, (t ++ b ++ a2 ++ u2). split; [reflexivity |]. split; [exact Ha |].
    split; [intros s Hs; rewrite <- app_assoc; now apply nospace_app |]. intros l i up pre s Hl E Hs.
    assert (E1 : text = pre ++ t ++ (b ++ a2) ++ u2 ++ s) by (rewrite E; asss). change (v :: vs) with ([v] ++ [] ++ vs). apply vrun_app; [| rewrite (app_assoc b); apply vrun_app].
    + apply (IH l i up pre _ Hl E1). destruct b as [| x b]; [congruence |]. inversion Hb. now left.
    + apply vrun_nil. apply (v_spaces e He text l i up (b ++ a2) Hl (proj2 (Forall_app _ b a2) (conj Hb Ha2)) _ (u2 ++ s)); [rewrite E1; asss | exact (Hns2 s Hs)].
    + apply (IH2 l i up _ s Hl); [rewrite E1; asss | exact Hs].
  - (* more, after a comma *) intros a v t b vs u Ha Hv (Hne & Hns & IH) Hb Hvs (a2 & u2 & -> & Ha2 & Hns2 & IH2). exists a, (t ++ b ++ 44 :: a2 ++ u2). split; [reflexivity |]. split; [exact Ha |].
    split; [intros s Hs; rewrite <- app_assoc; now apply nospace_app |]. intros l i up pre s Hl E Hs.
    assert (E1 : text = pre ++ t ++ b ++ 44 :: a2 ++ u2 ++ s) by (rewrite E; asss). change (v :: VStr [44] :: vs) with ([v] ++ [] ++ [VStr [44]] ++ [] ++ vs). change (44 :: a2 ++ u2) with ([44] ++ a2 ++ u2).
    apply vrun_app; [| apply vrun_app; [| apply vrun_app; [| apply vrun_app]]].
    + apply (IH l i up pre _ Hl E1). apply spaces_vstops; [exact Hb |]. right. unfold vends. cbn. tauto.
    + apply vrun_nil. apply (v_spaces e He text l i up b Hl Hb _ (44 :: a2 ++ u2 ++ s)); [rewrite E1; asss | cbn; cls He].
    + eapply (vrun_tok e odd text _ _ _ (leaf ((pre ++ t) ++ b) [44] ADelim)).
      * apply (seg_leaf e He text up l _ [44] (a2 ++ u2 ++ s) (i + 9)); [rewrite E1; asss | discriminate | |].
        -- cbn [app length]. destruct l; try discriminate Hl; injection Hl as <-; pick He; reflexivity.
        -- left. destruct l; try discriminate Hl; injection Hl as <-; reflexivity.
      * reflexivity.
      * intros rest _. cbn [common leaf k_act k_text]. destruct (common rest None false); reflexivity.
    + apply vrun_nil. apply (v_spaces e He text l i up a2 Hl Ha2 _ (u2 ++ s)); [rewrite E1; asss | exact (Hns2 s Hs)].
    + apply (IH2 l i up _ s Hl); [rewrite E1; asss | exact Hs].
Qed.

(** ** Declarations *)
Lemma property_enters up pre t s p : name t p -> text = pre ++ t ++ s -> nend e s ->
  exists ts, is_named odd ts p /\ forall w new circ, exists circ', okc circ' (length (pre ++ t)) (S (length ((up ++ [KRule]) ++ [KDeclaration]))) /\
    reach (Cfg (up ++ [KRule]) w new circ (length pre)) (Cfg (((up ++ [KRule]) ++ [KDeclaration]) ++ [KProperty]) (w ++ Enter KDeclaration :: Enter KProperty :: map Leaf ts) 0 circ' (length (pre ++ t))).
Proof.
  intros [Hne Hn] E Hs. destruct (name_split e He odd t p s Hn Hne Hs) as (t1 & n1 & t2 & n2 & -> & -> & Hpc & Hn2).
  set (f := fun s => if k_isprop e s then APropDef else AProp).
  assert (Hpr : pick_is e KRule (t1 ++ t2 ++ s) (pidx 1 t1) (length t1) /\ rule_is e KRule (pidx 1 t1) t1 (AStd (pact f t1)) [RLex KDeclaration; RLex KProperty]).
  { destruct Hpc as [r m s' A1 A2 | c r s' A1 A2 A3].
    - split; [| left; reflexivity]. cbn [app length pidx]. pick He. apply A1.
    - assert (Ec : (c =? 92) = false) by cls He. unfold pidx, pact. rewrite Ec. split; [cbn [app length]; pick He; now apply run_match |]. right. eexists. split; [reflexivity |]. intros m. reflexivity. }
  destruct Hpr as [Hp Hr]. pose proof (piece_ne _ _ _ _ _ Hpc) as Ht. rewrite <- app_assoc in E. assert (E2 : text = (pre ++ t1) ++ t2 ++ s) by (rewrite E; asss).
  destruct (ident_run e He odd text KProperty 0 f eq_refl (length t2) t2 n2 (le_n _) Hn2 ((up ++ [KRule]) ++ [KDeclaration]) (pre ++ t1) s E2 Hs) as (ts & S1 & N1 & _ & _).
  exists (leaf pre t1 (pact f t1) :: ts). split.
  - destruct (ident_act e KProperty 0 f t1 eq_refl) as [D1 D2]. apply is_named_cons; [exact (pact_name e He odd f t1 n1 _ Hpc D1 D2) | exact N1].
  - intros w new circ.
    pose proof (step_go e He text up KRule pre t1 _ (pidx 1 t1) (pact f t1) _ 0 [KDeclaration; KProperty] w new circ E Ht Hp Hr eq_refl ltac:(lia)) as R1. cbv zeta in R1.
    change (last_opt [KDeclaration; KProperty]) with (Some KProperty) in R1. cbn [k_consume] in R1. cbv iota in R1.
    rewrite drop_zero in R1. unfold g_emit, g_follow, g_leave in R1. cbn [fst snd t_pop t_push Nat.leb map length] in R1. rewrite drop_zero in R1.
    replace ((up ++ [KRule]) ++ [KDeclaration; KProperty]) with (((up ++ [KRule]) ++ [KDeclaration]) ++ [KProperty]) in R1 by asss.
    destruct (S1 ((w ++ [Enter KDeclaration; Enter KProperty]) ++ [Leaf (leaf pre t1 (pact f t1))]) 0 [] (bnd_nil _)) as (c1 & K1 & R2).
    pose proof (ok_after _ _ _ _ _ K1 (okc_nil _ _)) as K2. rewrite (len_snoc ((up ++ [KRule]) ++ [KDeclaration]) KProperty) in K2. exists c1. split; [rewrite app_assoc; exact K2 |].
    eapply reach_trans; [exact R1 |]. eapply reach_to; [exact R2 |]. rewrite app_assoc, words_toks. assert (Hz : nw (map Tok ts) 0 = 0) by now destruct ts. rewrite Hz.
    rewrite <- !app_assoc. reflexivity.
Qed.
Definition semi (m : str) (pre : str) : list node := match m with [] => [] | _ => [Tok (leaf pre m ADelim)] end.
Lemma declaration_run up pre t p b vs v m s : name t p -> spaces b -> values_text e odd vs v -> (m = [59] \/ m = [] /\ exists r, s = 125 :: r) -> text = pre ++ (t ++ b ++ 58 :: v ++ m) ++ s ->
  exists ns, seg (up ++ [KRule]) pre (t ++ b ++ 58 :: v ++ m) [Ctx KDeclaration ns] /\ calm ns /\ items [Ctx KDeclaration ns] = [IObj KDeclaration (Some (VDecl (Some (p, vs))))].
Proof.
  intros Hn Hb Hv Hm E. destruct (proj2 values_run vs v Hv) as (a & u & -> & Ha & Hns & Hrun).
  assert (E1 : text = pre ++ t ++ b ++ 58 :: a ++ u ++ m ++ s) by (rewrite E; asss).
  assert (Hst : stops e (b ++ 58 :: a ++ u ++ m ++ s)).
  { destruct b as [| x b]; [right; unfold ends; cbn; tauto |]. inversion Hb. now left. }
  destruct (property_enters up pre t _ p Hn E1 (stops_nend e He _ Hst)) as (ts & N1 & R1).
  assert (Hve : vend (m ++ s)) by (destruct Hm as [-> | (-> & r & ->)]; cbn; tauto).
  set (lex := (up ++ [KRule]) ++ [KDeclaration]).
  assert (Sb : seg lex (pre ++ t) b []) by (apply (v_spaces e He text KDeclaration 3 _ b eq_refl Hb _ (58 :: a ++ u ++ m ++ s)); [rewrite E1; asss | cbn; cls He]).
  assert (Sc : seg lex ((pre ++ t) ++ b) [58] [Tok (leaf ((pre ++ t) ++ b) [58] ADelim)]).
  { apply (seg_leaf e He text _ KDeclaration _ [58] (a ++ u ++ m ++ s) 0); [rewrite E1; asss | discriminate | cbn [app length]; pick He; reflexivity | left; reflexivity]. }
  assert (Sa : seg lex (((pre ++ t) ++ b) ++ [58]) a []) by (apply (v_spaces e He text KDeclaration 3 _ a eq_refl Ha _ (u ++ m ++ s)); [rewrite E1; asss | exact (Hns _ Hve)]).
  destruct (Hrun KDeclaration 3 (up ++ [KRule]) ((((pre ++ t) ++ b) ++ [58]) ++ a) (m ++ s) eq_refl ltac:(rewrite E1; asss) Hve) as (ns & Sv & Cv & Fv & Iv).
  pose proof (seg_app _ _ _ _ _ _ _ _ Sb (seg_app _ _ _ _ _ _ _ _ Sc (seg_app _ _ _ _ _ _ _ _ Sa Sv))) as Sall. cbn [app] in Sall.
  set (tc := leaf ((pre ++ t) ++ b) [58] ADelim) in *. set (m0 := semi m (pre ++ t ++ b ++ 58 :: a ++ u)).
  exists (Ctx KProperty (map Tok ts) :: (Tok tc :: ns) ++ m0).
  assert (Ip : items [Ctx KProperty (map Tok ts)] = [IObj KProperty (Some (VStr p))]).
  { rewrite items_ctx; [| discriminate | apply calm_toks]. rewrite items_toks. do 2 f_equal. cbn [k_method]. unfold ident_token. now rewrite (named_all odd ts p N1). }
  assert (Cm : calm m0) by (unfold m0, semi; destruct m; [apply calm_nil | apply calm_tok]).
  assert (Cs : calm (Ctx KProperty (map Tok ts) :: (Tok tc :: ns) ++ m0)).
  { change (calm ([Ctx KProperty (map Tok ts)] ++ ([Tok tc] ++ ns) ++ m0)). apply calm_app; [eapply (calm_ctx e odd); [| | exact Ip]; [discriminate | apply calm_toks] |].
    apply calm_app; [| exact Cm]. apply calm_app; [apply calm_tok | exact Cv]. }
  split; [| split; [exact Cs |]].
  - intros w new circ _. destruct (R1 w new circ) as (c1 & K1 & Q1).
    destruct (step_leave e text lex KProperty (pre ++ t) _ (w ++ Enter KDeclaration :: Enter KProperty :: map Leaf ts) 0 c1 ltac:(rewrite E1; asss) (CssSelectorProofs.stops_ne e _ Hst) eq_refl eq_refl (ident_leaves e He KProperty _ _ eq_refl Hst) ltac:(unfold lex; now destruct up) K1) as (c2 & K2 & Q2).
    pose proof (reach_trans _ _ _ _ _ _ _ _ Q1 Q2) as Q12. clear Q1 Q2. unfold left_word in Q12. cbn [Nat.eqb Nat.sub] in Q12.
    match type of Q12 with MachineProofs.reach _ _ _ _ (Cfg _ ?w2 _ _ _) => destruct (Sall w2 0 c2 (okc_bnd _ _ _ K2)) as (c3 & K3 & Q3) end.
    assert (K3' : okc c3 (length ((pre ++ t) ++ b ++ 58 :: a ++ u)) (length lex)) by (destruct K3 as [(Hx & _) | K3]; [now destruct b | exact K3]).
    pose proof (reach_trans _ _ _ _ _ _ _ _ Q12 Q3) as Q. clear Q12 Q3. assert (Hz : nw (Tok tc :: ns) 0 = 0) by reflexivity. rewrite Hz in Q.
    assert (Ep : (pre ++ t) ++ b ++ 58 :: a ++ u = pre ++ t ++ b ++ 58 :: a ++ u) by asss. rewrite Ep in Q, K3'.
    destruct Hm as [-> | (-> & r & ->)].
    + match type of Q with MachineProofs.reach _ _ _ _ (Cfg _ ?w3 _ _ _) =>
        pose proof (step_go e He text (up ++ [KRule]) KDeclaration (pre ++ t ++ b ++ 58 :: a ++ u) [59] s 1 ADelim _ 1 [] w3 0 c3 ltac:(rewrite E1; asss) ltac:(discriminate) ltac:(cbn [app length]; pick He; reflexivity)
          ltac:(left; reflexivity) eq_refl ltac:(rewrite app_length; cbn; lia)) as Q4 end.
      cbv zeta in Q4. change (last_opt (@nil klex)) with (@None klex) in Q4. cbv iota in Q4. unfold g_follow, g_leave in Q4. cbn [fst snd t_pop t_push Nat.leb map length Nat.sub repeat] in Q4. rewrite drop_zero in Q4.
      assert (Ed : drop_last 1 ((up ++ [KRule]) ++ [KDeclaration]) = up ++ [KRule]) by (rewrite drop_last_app by (cbn; lia); apply app_nil_r).
      rewrite Ed in Q4. rewrite !app_nil_r in Q4. exists []. split; [right; apply okc_nil |]. eapply reach_trans; [exact Q |]. eapply reach_to; [exact Q4 |]. cbn [nw]. f_equal; [| f_equal; asss].
      unfold m0, semi. rewrite words_ctx. change (Ctx KProperty (map Tok ts) :: (Tok tc :: ns) ++ [Tok (leaf (pre ++ t ++ b ++ 58 :: a ++ u) [59] ADelim)]) with ([Ctx KProperty (map Tok ts)] ++ (Tok tc :: ns) ++ [Tok (leaf (pre ++ t ++ b ++ 58 :: a ++ u) [59] ADelim)]).
      rewrite !words_app, words_ctx, words_toks, <- !app_assoc. cbn [app]. rewrite <- !app_assoc. reflexivity.
    + assert (El : text = (pre ++ t ++ b ++ 58 :: a ++ u) ++ 125 :: r) by (rewrite E1; asss).
      match type of Q with MachineProofs.reach _ _ _ _ (Cfg _ ?w3 _ _ _) => destruct (step_leave e text (up ++ [KRule]) KDeclaration _ _ w3 0 c3 El ltac:(discriminate) eq_refl eq_refl (declaration_leaves e He r) ltac:(now destruct up)) as (c4 & K4 & Q4) end.
      { unfold lex in K3'. rewrite len_snoc in K3'. exact K3'. }
      exists c4. rewrite app_nil_r. split; [right; exact K4 |]. eapply reach_trans; [exact Q |]. eapply reach_to; [exact Q4 |]. unfold left_word. cbn [Nat.eqb Nat.sub nw]. f_equal.
      unfold m0, semi. rewrite words_ctx, app_nil_r. change (Ctx KProperty (map Tok ts) :: Tok tc :: ns) with ([Ctx KProperty (map Tok ts)] ++ (Tok tc :: ns)).
      rewrite words_app, words_ctx, words_toks, <- !app_assoc. cbn [app]. rewrite <- !app_assoc. reflexivity.
  - rewrite items_ctx; [| discriminate | exact Cs]. do 2 f_equal. cbn [k_method]. rewrite items_cons, Ip. cbn [app k_declaration]. 
    change (Tok tc :: ns ++ m0) with ([Tok tc] ++ ns ++ m0). rewrite !items_app, !filter_app, items_tok. 
    assert (F1 : filter no_colon [IToken tc] = []) by reflexivity. rewrite F1. cbn [app].
    assert (F2 : filter no_colon (items m0) = []) by (unfold m0, semi; destruct Hm as [-> | (-> & _)]; reflexivity). rewrite F2, app_nil_r.
    assert (F3 : filter no_colon (items ns) = items ns) by (apply filter_all, Forall_forall; intros i Hi; rewrite forallb_forall in Fv; exact (Fv i Hi)). rewrite F3.
    destruct (Iv [] I) as [_ Ec]. rewrite app_nil_r in Ec. unfold values. rewrite Ec. cbn [common option_map]. now rewrite app_nil_r.
Qed.
Lemma r_spaces up a : spaces a -> forall pre s, text = pre ++ a ++ s -> seg (up ++ [KRule]) pre a [].
Proof.
  induction 1 as [| c a Hc Ha IH]; intros pre s E; [apply seg_nil |]. change (c :: a) with ([c] ++ a). change (@nil node) with (@nil node ++ []). apply seg_app.
  - apply (seg_miss e He text up KRule pre c (a ++ s) E eq_refl eq_refl). now apply rule_misses.
  - apply (IH (pre ++ [c]) s). rewrite E. asss.
Qed.
Lemma p_set_entry k v d : p_set k v d = entry str_dec k v d.
Proof.
  induction d as [| [k' v'] d IH]; [reflexivity |]. cbn [p_set entry]. destruct (str_dec k k') as [-> | D].
  - now rewrite str_eqb_refl.
  - apply str_eqb_false in D. now rewrite D, IH.
Qed.
Definition set_all (ds : list (str * list kv)) (d : list (str * list kv)) : list (str * list kv) := fold_left (fun d x => entry str_dec (fst x) (snd x) d) ds d.
Lemma declarations_run ds d : declarations_text e odd ds d -> forall up pre s, text = pre ++ d ++ 125 :: s ->
  exists ns, seg (up ++ [KRule]) pre d ns /\ calm ns /\ forall rest acc, inline_loop (items ns ++ rest) acc = inline_loop rest (set_all ds acc).
Proof.
  induction 1 as [a Ha | a t p b vs v Ha Hn Hb Hv | a t p b vs v ds u Ha Hn Hb Hv Hd IH]; intros up pre s E.
  - exists []. split; [exact (r_spaces up a Ha pre _ E) |]. split; [apply calm_nil | reflexivity].
  - destruct (declaration_run up (pre ++ a) t p b vs v [] (125 :: s) Hn Hb Hv ltac:(right; eauto) ltac:(rewrite app_nil_r, E; asss)) as (ns & S1 & C1 & I1). rewrite app_nil_r in S1.
    exists [Ctx KDeclaration ns]. split; [| split].
    + change [Ctx KDeclaration ns] with ([] ++ [Ctx KDeclaration ns]). apply seg_app; [| exact S1]. apply (r_spaces up a Ha pre ((t ++ b ++ 58 :: v) ++ 125 :: s)). rewrite E. asss.
    + eapply (calm_ctx e odd); [| | exact I1]; [discriminate | exact C1].
    + intros rest acc. rewrite I1. cbn [app inline_loop]. rewrite p_set_entry. reflexivity.
  - assert (E1 : text = (pre ++ a) ++ (t ++ b ++ 58 :: v ++ [59]) ++ u ++ 125 :: s) by (rewrite E; asss).
    destruct (declaration_run up (pre ++ a) t p b vs v [59] (u ++ 125 :: s) Hn Hb Hv ltac:(now left) E1) as (ns & S1 & C1 & I1).
    destruct (IH up ((pre ++ a) ++ (t ++ b ++ 58 :: v ++ [59])) s ltac:(rewrite E1; asss)) as (ns2 & S2 & C2 & I2).
    exists ([Ctx KDeclaration ns] ++ ns2). split; [| split].
    + replace (a ++ t ++ b ++ 58 :: v ++ 59 :: u) with (a ++ (t ++ b ++ 58 :: v ++ [59]) ++ u) by asss.
      change ([Ctx KDeclaration ns] ++ ns2) with ([] ++ [Ctx KDeclaration ns] ++ ns2). apply seg_app; [exact (r_spaces up a Ha pre _ ltac:(rewrite E; asss)) |]. exact (seg_app _ _ _ _ _ _ _ _ S1 S2).
    + apply calm_app; [| exact C2]. eapply (calm_ctx e odd); [| | exact I1]; [discriminate | exact C1].
    + intros rest acc. rewrite items_app, I1, <- app_assoc. cbn [app inline_loop]. rewrite p_set_entry, I2. reflexivity.
Qed.

(** ** Rules *)
Lemma root_spaces w new circ pre a s : spaces a -> text = pre ++ a ++ s -> nospace s ->
  reach (Cfg [KRoot] w new circ (length pre)) (Cfg [KRoot] w new circ (length (pre ++ a))).
Proof.
  intros Ha E Hs. destruct a as [| x a]; [rewrite app_nil_r; apply reach_refl |].
  apply (step_skip e He text [] KRoot pre (x :: a) s 2 w new circ E ltac:(discriminate)); [| left; reflexivity].
  pose proof (spaces_match e (x :: a) s ltac:(discriminate) Ha Hs) as Hm. inversion Ha. cbn [app] in *. pick He. exact Hm.
Qed.
Lemma root_enters s : selstart e s -> no_pick e KRoot s.
Proof. intros Hs. destruct s as [| x s]; [contradiction |]. unfold selstart in Hs. stop_cases Hs; nopick He. Qed.
Lemma rule_run gs g ds d pre s : groups_text e odd gs g -> declarations_text e odd ds d -> text = pre ++ g ++ 123 :: d ++ 125 :: s ->
  exists ns, calm ns /\ items ns = [IObj KPrelude (Some (VPrelude gs)); IObj KRule (Some (VProps (properties ds)))] /\
    forall w, reach (Cfg [KRoot] w 0 [] (length pre)) (Cfg [KRoot] (w ++ words ns) 0 [] (length (pre ++ g ++ 123 :: d ++ [125]))).
Proof.
  intros Hg Hd E. destruct (proj2 (proj2 (proj2 (selectors_run e He odd text))) gs g Hg) as (Hne & Hde & a & g' & -> & Ha & Hst & Hrun).
  assert (E1 : text = pre ++ a ++ g' ++ 123 :: d ++ 125 :: s) by (rewrite E; asss).
  assert (E2 : text = (pre ++ a) ++ g' ++ 123 :: d ++ 125 :: s) by (rewrite E; asss).
  assert (E3 : text = ((pre ++ a) ++ g') ++ [123] ++ d ++ 125 :: s) by (rewrite E; asss).
  assert (E4 : text = (((pre ++ a) ++ g') ++ [123]) ++ d ++ 125 :: s) by (rewrite E; asss).
  assert (E5 : text = ((((pre ++ a) ++ g') ++ [123]) ++ d) ++ [125] ++ s) by (rewrite E; asss).
  destruct (Hrun KPrelude 2 [KRoot] (pre ++ a) (123 :: d ++ 125 :: s) eq_refl E2 ltac:(left; reflexivity)) as (n1 & S1 & C1 & I1).
  destruct (declarations_run ds d Hd [KRoot] _ s E4) as (n2 & S2 & C2 & I2).
  set (t1 := leaf ((pre ++ a) ++ g') [123] ABracket). set (t2 := leaf ((((pre ++ a) ++ g') ++ [123]) ++ d) [125] ABracket).
  assert (C1' : calm (n1 ++ [Tok t1])) by (apply calm_app; [exact C1 | apply calm_tok]). assert (C2' : calm (n2 ++ [Tok t2])) by (apply calm_app; [exact C2 | apply calm_tok]).
  assert (J1 : items [Ctx KPrelude (n1 ++ [Tok t1])] = [IObj KPrelude (Some (VPrelude gs))]).
  { rewrite items_ctx; [| discriminate | exact C1']. do 2 f_equal. cbn [k_method]. unfold k_prelude. rewrite (prelude_items e odd gs n1 t1 C1 Hde Hne); [reflexivity | reflexivity | discriminate | exact I1]. }
  assert (J2 : items [Ctx KRule (n2 ++ [Tok t2])] = [IObj KRule (Some (VProps (properties ds)))]).
  { rewrite items_ctx; [| discriminate | exact C2']. do 2 f_equal. cbn [k_method]. unfold k_inline. rewrite items_app, I2. reflexivity. }
  exists ([Ctx KPrelude (n1 ++ [Tok t1])] ++ [Ctx KRule (n2 ++ [Tok t2])]). split; [| split].
  - apply calm_app; eapply (calm_ctx e odd); [| | exact J1 | | | exact J2]; try discriminate; assumption.
  - rewrite items_app, J1, J2. reflexivity.
  - intros w. eapply reach_trans; [apply (root_spaces w 0 [] pre a _ Ha E1); apply (selstart_nospace e He); now apply (selstart_app e) |].
    destruct (step_enter e text [] KRoot KPrelude (pre ++ a) _ w 0 [] E2 ltac:(apply (selstart_ne e); now apply (selstart_app e)) eq_refl eq_refl (root_enters _ (selstart_app e _ _ Hst)) (hic_nil _ _)) as (c1 & K1 & R1).
    eapply reach_trans; [exact R1 |]. destruct (S1 (w ++ [Enter KPrelude]) 1 c1 K1) as (c2 & K2 & R2). eapply reach_trans; [exact R2 |].
    match goal with |- MachineProofs.reach _ _ _ (Cfg _ ?w3 ?new3 _ _) _ =>
      pose proof (step_go e He text [KRoot] KPrelude ((pre ++ a) ++ g') [123] _ 0 ABracket _ 1 [KRule] w3 new3 c2 E3 ltac:(discriminate) ltac:(cbn [app length]; pick He; reflexivity) ltac:(left; reflexivity) eq_refl ltac:(cbn; lia)) as R3 end.
    cbv zeta in R3. change (last_opt [KRule]) with (Some KRule) in R3. cbn [k_consume] in R3. cbv iota in R3. unfold g_follow, g_leave in R3. cbn [fst snd t_pop t_push Nat.leb map length Nat.sub Nat.add repeat] in R3.
    change (drop_last 1 ([KRoot] ++ [KPrelude]) ++ [KRule]) with ([KRoot] ++ [KRule]) in R3. rewrite drop_zero in R3. eapply reach_trans; [exact R3 |]. clear R1 R2 R3.
    match goal with |- MachineProofs.reach _ _ _ (Cfg _ ?w4 ?new4 _ _) _ => destruct (S2 w4 new4 [] (bnd_nil _)) as (c4 & _ & R4) end. eapply reach_trans; [exact R4 |]. clear R4.
    match goal with |- MachineProofs.reach _ _ _ (Cfg _ ?w5 ?new5 _ _) _ =>
      pose proof (step_go e He text [KRoot] KRule _ [125] s 0 ABracket _ 1 [] w5 new5 c4 E5 ltac:(discriminate) ltac:(cbn [app length]; pick He; reflexivity) ltac:(left; reflexivity) eq_refl ltac:(cbn; lia)) as R5 end.
    cbv zeta in R5. change (last_opt (@nil klex)) with (@None klex) in R5. cbv iota in R5. unfold g_follow, g_leave in R5. cbn [fst snd t_pop t_push Nat.leb map length Nat.sub Nat.add repeat] in R5.
    change (drop_last 1 ([KRoot] ++ [KRule]) ++ []) with [KRoot] in R5. rewrite drop_zero in R5.
    fold t1 t2 in R5. eapply reach_to; [exact R5 |]. f_equal; [| f_equal; asss]. rewrite words_app, !words_ctx, !words_app. clearbody t1 t2.
    rewrite <- !app_assoc. cbn [app]. rewrite <- ?app_assoc. reflexivity.
Qed.
Lemma root_run rs u : sheet_text e odd rs u -> forall pre, text = pre ++ u ->
  exists ns, calm ns /\ (forall r, root_loop (items ns) None r = Some (r ++ rs)) /\ forall w, reach (Cfg [KRoot] w 0 [] (length pre)) (Cfg [KRoot] (w ++ words ns) 0 [] (length text)).
Proof.
  induction 1 as [a Ha | gs g ds d rs u Hg Hd Hs IH]; intros pre E.
  - exists []. split; [apply calm_nil |]. split; [intros r; now rewrite app_nil_r |]. intros w. change (words []) with (@nil (sym klex kact)). rewrite app_nil_r. replace (length text) with (length (pre ++ a)) by now rewrite E.
    apply (root_spaces w 0 [] pre a [] Ha); [now rewrite app_nil_r | exact I].
  - destruct (rule_run gs g ds d pre u Hg Hd E) as (n1 & C1 & I1 & R1). destruct (IH (pre ++ g ++ 123 :: d ++ [125])) as (n2 & C2 & I2 & R2); [rewrite E; asss |].
    exists (n1 ++ n2). split; [now apply calm_app |]. split.
    + intros r. rewrite items_app, I1. cbn [app root_loop]. rewrite I2, <- app_assoc. reflexivity.
    + intros w. rewrite words_app, app_assoc. eapply reach_trans; [apply R1 | apply R2].
Qed.
Lemma root_end : k_parse e KRoot text (length text) 0 = None.
Proof.
  assert (Em : c_match (k_compiled e KRoot) false text (length text) = None).
  { cbn [CssLangModel.k_compiled c_match]. unfold k_pick. rewrite skipn_all. reflexivity. }
  exact (dt_end klex kact (fun _ _ => []) KRoot (k_compiled e KRoot) text eq_refl ltac:(discriminate) (Target 0 [KPrelude]) eq_refl eq_refl Em).
Qed.
Theorem sheet_lexed rs : sheet_text e odd rs text ->
  exists n evs ns, l_run k_consume (k_parse e) text n (l_init [KRoot] 0) = (evs, None) /\ build_tree KRoot (map fst evs) = Some (Ctx KRoot ns) /\ calm ns /\ k_root (items ns) = Some (VSheet rs).
Proof.
  intros H. destruct (root_run rs text H [] eq_refl) as (ns & C1 & I1 & R1).
  destruct (reach_finish klex kact k_consume (k_parse e) text KRoot [KRoot] KRoot (words ns) 0 [] (length text) (R1 []) eq_refl root_end) as (n & evs & cs & H1 & H2 & H3).
  rewrite drop_zero in H3. cbn [length Nat.sub repeat] in H3. rewrite app_nil_r in H3. apply words_inj in H3. subst cs.
  exists n, evs, ns. split; [exact H1 |]. split; [exact H2 |]. split; [exact C1 |]. unfold k_root. rewrite I1. reflexivity.
Qed.

(** ** No comments *)
Lemma nocom_word (ns : list node) : forallb nocom ns = true -> ~ In (Enter KComment) (words ns).
Proof.
  assert (G : forall n : node, nocom n = true -> ~ In (Enter KComment) (words [n])).
  { intros n. induction n as [t | l cs IH] using node_ind'; intros Hn H; [destruct H as [H | []]; discriminate |].
    rewrite words_ctx in H. assert (Hl : l <> KComment /\ forallb nocom cs = true) by (cbn [nocom] in Hn; destruct l; split; (discriminate || exact Hn)). destruct Hl as [Hl Hcs].
    destruct H as [H | H]; [congruence |]. apply in_app_or in H as [H | [H | []]]; [| discriminate]. clear Hn.
    induction IH as [| c cs Hc _ IH']; [exact H |]. cbn [forallb] in Hcs. apply andb_prop in Hcs as [H1 H2]. rewrite words_cons in H. apply in_app_or in H as [H | H]; [| exact (IH' H H2)].
    apply (Hc H1). rewrite words_cons, app_nil_r. exact H. }
  induction ns as [| n ns IH]; [intros _ [] |]. cbn [forallb]. intros Hn H. apply andb_prop in Hn as [H1 H2]. change (n :: ns) with ([n] ++ ns) in H. rewrite words_app in H. apply in_app_or in H as [H | H]; [exact (G n H1 H) | exact (IH H2 H)].
Qed.
Lemma replay_in' (evs : list (event klex kact)) : forall st l, In l (replay st evs) -> In l st \/ In (Enter l) (concat (map event_word evs)).
Proof.
  induction evs as [| v evs IH]; intros st l H; [left; exact H |]. unfold replay in H. cbn [fold_left] in H. fold (replay (TargetSpec.follow st (e_target v)) evs) in H.
  cbn [map concat]. rewrite in_app_iff. apply IH in H as [H | H]; [| tauto]. unfold TargetSpec.follow in H. destruct (e_target v) as [t |] eqn:Et; [| tauto].
  apply in_app_or in H as [H | H].
  - left. unfold drop_last in H. rewrite <- (firstn_skipn (length st - t_pop t) st). apply in_or_app. now left.
  - right. left. unfold event_word. rewrite Et. cbn [target_word]. apply in_or_app. left. apply in_or_app. right. apply in_map. exact H.
Qed.
Lemma no_open_comment evs ns : stream_ok klex kact [KRoot] evs -> build_tree KRoot evs = Some (Ctx KRoot ns) -> forallb nocom ns = true -> ~ In KComment (tl (replay [KRoot] evs)).
Proof.
  intros Hst Hb Hn H. destruct (build_tree_ok klex kact KRoot evs Hst) as (cs & Hb' & Hw & _). rewrite Hb in Hb'. injection Hb' as <-.
  assert (Hi : In KComment (replay [KRoot] evs)) by (destruct (replay [KRoot] evs); [exact H | now right]).
  apply replay_in' in Hi as [[Hi | []] | Hi]; [discriminate |]. apply (nocom_word ns Hn). rewrite Hw. apply in_or_app. now left.
Qed.
Lemma quiet_css (n : node) : none_untransformed (fun _ => tt) (fun l => l) (fun _ : unit => k_methods e odd) false n.
Proof.
  induction n as [t | l cs IH] using node_ind'; [exact I |].
  assert (G : (fix all (cs : list node) := match cs with [] => True | c :: cs => none_untransformed (fun _ => tt) (fun l => l) (fun _ : unit => k_methods e odd) false c /\ all cs end) cs).
  { induction IH as [| c cs Hc Hcs IH']; [exact I |]. split; assumption. }
  destruct l; cbn; try exact G. reflexivity.
Qed.
Theorem sheet_read rs : sheet_text e odd rs text ->
  exists n evs, l_run k_consume (k_parse e) text n (l_init [KRoot] 0) = (evs, None) /\ k_read e odd (map fst evs) = Some (Some (Some (VSheet rs))).
Proof.
  intros H. destruct (sheet_lexed rs H) as (n & evs & ns & Hr & Hb & [H1 H2] & H3). exists n, evs. split; [exact Hr |].
  assert (Hl : forall a b : unit, (fun _ _ : unit => true) a b = true <-> a = b) by (intros [] []; tauto).
  assert (Em : meaning (fun _ => tt) (fun l => l) (fun _ => tt) (fun _ : unit => k_methods e odd) (Ctx KRoot ns) = Some (Some (VSheet rs))).
  { cbn [meaning method_of k_methods option_map]. f_equal. transitivity (if existsb k_raised (items ns) then None else k_root (items ns)); [reflexivity |]. now rewrite H1. }
  assert (Hst : stream_ok klex kact [KRoot] (map fst evs)) by (eapply run_stream_ok; [discriminate | exact Hr]).
  rewrite <- Em. refine (proj1 (text_ok klex kact KR unit klex unit (fun _ => tt) (fun l => l) (fun _ => tt) (fun _ _ => true) Hl (fun _ => k_methods e odd) KRoot (map fst evs) (Ctx KRoot ns) Hst Hb (quiet_css _)) _).
  left. apply Forall_forall. intros l Hin. assert (Hx : l <> KComment) by (intros ->; exact (no_open_comment _ ns Hst Hb H2 Hin)). destruct l; try discriminate. congruence.
Qed.
End Sheets.
