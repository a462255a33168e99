(** Runs of the lexer over CSS values, and the items for the transform. *)
From Verif Require Import Base BaseFacts TargetModel TargetSpec LexerModel LexerSpec TargetProofs LexerProofs LexiconModel LexiconSpec TreeModel TreeSpec TreeProofs BuildModel BuildProofs
  TransformModel TransformSpec TransformTextProofs MachineProofs GeneratorProofs CssColorModel CssLangModel IniSpec CssTextSpec CssStepProofs CssCharProofs CssNameProofs CssSelectorProofs CssGroupProofs.
From Coq Require Import ZArith ZifyBool.

Scheme value_ind' := Induction for value_text Sort Prop
with values_ind' := Induction for values_text Sort Prop.
Combined Scheme all_values_ind from value_ind', values_ind'.

Section Values.
Variable e : kenv.
Hypothesis He : classes_ok e.
Variable odd : nat -> option nat.
Variable text : str.
Notation name_text := (name_text e odd).
Notation name := (name e odd).
Notation items := (items e odd).
Notation calm := (calm e odd).
Notation seg := (seg e text).
Notation node := (node klex kact).
Notation reach := (reach k_consume (k_parse e) text).
Notation spaces := (Forall (fun c => k_space e c = true)).
Notation digits := (digits e).
Notation number_text := (number_text e).
Notation nospace := (nospace e).
Notation vstops := (vstops e).

(** ** Numbers *)
Definition numend (s : str) : Prop :=
  match s with
  | [] => True
  | c :: r => k_digit e c = false /\ (c =? 46) = false /\ ((c =? 69) || (c =? 101) = true -> match r with [] => True | d :: _ => (d =? 43) || (d =? 45) = false end)
  end.
Lemma exponent_no s : numend s -> re_exponent e s = 0.
Proof.
  destruct s as [| c [| d r]]; try reflexivity. intros (_ & _ & H). cbn [re_exponent]. destruct ((c =? 69) || (c =? 101)); [| reflexivity]. rewrite (H eq_refl). reflexivity.
Qed.
Lemma digits_span a s : Forall (fun c => k_digit e c = true) a -> match s with [] => True | c :: _ => k_digit e c = false end -> span (k_digit e) (a ++ s) = length a.
Proof. apply span_app. Qed.
Lemma mantisse_int a s : Forall (fun c => k_digit e c = true) a -> numend s -> re_mantisse e (a ++ s) = length a.
Proof.
  intros Ha Hs. unfold re_mantisse. rewrite (digits_span a s Ha) by (destruct s; [exact I | exact (proj1 Hs)]). rewrite skipn_pre. destruct s as [| c s]; [reflexivity |]. destruct Hs as (_ & -> & _). reflexivity.
Qed.
Lemma mantisse_frac a b s : Forall (fun c => k_digit e c = true) a -> digits b -> numend s -> re_mantisse e (a ++ 46 :: b ++ s) = length (a ++ 46 :: b).
Proof.
  intros Ha [Hb Hb'] Hs. unfold re_mantisse. assert (H46 : k_digit e 46 = false) by asc He. rewrite (digits_span a (46 :: b ++ s) Ha H46). rewrite skipn_pre. cbn [Nat.eqb].
  change (46 =? 46) with true. cbv iota. rewrite (digits_span b s Hb') by (destruct s; [exact I | exact (proj1 Hs)]). rewrite app_length. cbn [length]. destruct b as [| x b]; [congruence |]. cbn [length]. lia.
Qed.
Lemma digit_nosign c : k_digit e c = true -> (c =? 43) || (c =? 45) = false.
Proof. intros H. assert ((c =? 43) = false) as -> by cls He. assert ((c =? 45) = false) as -> by cls He. reflexivity. Qed.
Lemma number_match t s : number_text t -> numend s -> re_number e (t ++ s) = Some (length t).
Proof.
  intros (sign & a & Hsg & H) Hs.
  assert (G : exists body, t = sign ++ body /\ re_mantisse e (body ++ s) = length body /\ exists c r, body = c :: r /\ (c =? 43) || (c =? 45) = false).
  { destruct H as [([Ha Ha'] & ->) | (b & Ha & Hb & ->)].
    - exists a. split; [reflexivity |]. split; [now apply mantisse_int |]. destruct a as [| c r]; [congruence |]. exists c, r. split; [reflexivity |]. inversion Ha'. now apply digit_nosign.
    - exists (a ++ 46 :: b). split; [reflexivity |]. split; [rewrite <- app_assoc; apply mantisse_frac; try assumption; destruct Ha as [-> | [_ Ha]]; [constructor | exact Ha] |].
      destruct Ha as [-> | [Ha Ha']]; [exists 46, b; split; reflexivity |]. destruct a as [| c r]; [congruence |]. exists c, (r ++ 46 :: b). split; [reflexivity |]. inversion Ha'. now apply digit_nosign. }
  destruct G as (body & -> & Hm & c & r & Eb & Hc). rewrite <- app_assoc.
  assert (Hk : match sign ++ body ++ s with c :: _ => if (c =? 43) || (c =? 45) then 1 else 0 | [] => 0 end = length sign).
  { destruct Hsg as [-> | [-> | ->]]; [| reflexivity | reflexivity]. rewrite Eb. cbn [app]. now rewrite Hc. }
  unfold re_number. rewrite Hk, skipn_pre, Hm. assert (El : exists m, length body = S m) by (rewrite Eb; eexists; reflexivity). destruct El as (m & El). rewrite El. f_equal.
  rewrite app_length, <- El. rewrite <- skipn_skipn. rewrite skipn_pre, skipn_pre. rewrite (exponent_no s Hs). lia.
Qed.
Lemma number_head t : number_text t -> exists c r, t = c :: r /\ (k_digit e c = true \/ In c [43; 45; 46]).
Proof.
  intros (sign & a & Hsg & H). destruct Hsg as [-> | [-> | ->]].
  - destruct H as [([Ha Ha'] & ->) | (b & Ha & Hb & ->)].
    + destruct a as [| c r]; [congruence |]. inversion Ha'. exists c, r. split; [reflexivity | now left].
    + destruct Ha as [-> | [Ha Ha']]; [exists 46, b; split; [reflexivity | right; cbn; tauto] |]. destruct a as [| c r]; [congruence |]. inversion Ha'. exists c, (r ++ 46 :: b). split; [reflexivity | now left].
  - destruct H as [(_ & ->) | (b & _ & _ & ->)]; eexists 43, _; (split; [reflexivity | right; cbn; tauto]).
  - destruct H as [(_ & ->) | (b & _ & _ & ->)]; eexists 45, _; (split; [reflexivity | right; cbn; tauto]).
Qed.

(** ** Names that are no number *)
Definition vcall (s : str) : Prop := vstops s \/ exists r, s = 40 :: r.
Lemma vcall_head c r : vcall (c :: r) -> k_digit e c = false /\ (c =? 46) = false /\ namechar e c = false.
Proof. intros [H | (x & H)]; [unfold CssCharProofs.vstops, vstopc, vends in H; stop_cases H; (repeat split; cls He) | injection H as -> _; repeat split; cls He]. Qed.
Lemma name_tail c r n : name_text (c :: r) n -> namechar e c = true -> exists n', name_text r n'.
Proof. inversion 1; subst; intros Hc; [eauto | exfalso; revert Hc; rewrite (name_const e He) by reflexivity; discriminate ..]. Qed.
Lemma number_none t n s : name t n -> no_number e t -> vcall s -> re_number e (t ++ s) = None.
Proof.
  intros [Hne Hn] [Hd Hh] Hs. destruct t as [| c r]; [congruence |]. pose proof (Hd c r eq_refl) as Hc. cbn [app].
  destruct (name_head e odd c r n Hn) as [Hc' | ->]; [| apply number_no; cls He].
  destruct (Nat.eqb_spec c 45) as [-> | Hx]; [| apply Nat.eqb_neq in Hx; apply number_no; cls He].
  specialize (Hh r eq_refl). destruct (name_tail _ _ _ Hn Hc') as (n' & Hn'). unfold re_number. cbn [Nat.eqb orb skipn].
  change ((45 =? 43) || (45 =? 45)) with true. cbv iota. cbn [skipn].
  assert (G : match r ++ s with [] => False | d :: _ => k_digit e d = false /\ (d =? 46) = false end).
  { destruct r as [| d r].
    - cbn [app]. destruct s as [| d s]; [destruct Hs as [[] | (x & Hs)]; discriminate |]. destruct (vcall_head d s Hs) as (A & B & _). now split.
    - cbn [app]. split; [exact (Hh d r eq_refl) |]. destruct (name_head e odd d r n' Hn') as [Hd' | ->]; cls He. }
  destruct (r ++ s) as [| d x]; [contradiction |]. destruct G as [G1 G2]. unfold re_mantisse. cbn [span]. rewrite G1. cbn [skipn]. rewrite G2. reflexivity.
Qed.
Lemma name_plain r n : name_text r n -> Forall (fun c => namechar e c = true) r -> n = r.
Proof.
  intros H. induction H as [| c t n Hc Ht IH | c t n H1 H2 H3 Ht IH | ds k t n H1 H2 H3 Ht IH]; intros Hf; [reflexivity | inversion Hf; subst; f_equal; now apply IH | ..];
    inversion Hf as [| x y Hx _]; exfalso; revert Hx; rewrite (name_const e He) by reflexivity; discriminate.
Qed.
Lemma url_none t n s : name t n -> vcall s -> (vstops s \/ n <> url) -> lit [117; 114; 108; 40] (t ++ s) = None.
Proof.
  intros [Hne Hn] Hs Hu. unfold lit, starts. destruct (str_eqb _ _) eqn:E; [| reflexivity]. exfalso. apply str_eqb_spec in E. cbn [length] in E.
  assert (Hc : forall x r, s = x :: r -> namechar e x = false) by (intros x r ->; now apply vcall_head in Hs).
  assert (K : forall x, In x [117; 114; 108] -> namechar e x = true) by (intros x [<- | [<- | [<- | []]]]; asc He).
  assert (Hs0 : s <> []) by (destruct s; [destruct Hs as [[] | (x & Hs)]; discriminate | discriminate]).
  destruct t as [| a t]; [congruence |]. cbn [app firstn] in E. injection E as E1 E. subst a. assert (A0 : namechar e 117 = true) by (apply K; cbn; tauto).
  destruct t as [| a t]. { cbn [app] in E. destruct s as [| x s]; [congruence |]. cbn [firstn] in E. injection E as E _. subst x. specialize (Hc _ _ eq_refl). specialize (K 114 ltac:(cbn; tauto)). congruence. }
  cbn [app firstn] in E. injection E as E1 E. subst a.
  destruct t as [| a t]. { cbn [app] in E. destruct s as [| x s]; [congruence |]. cbn [firstn] in E. injection E as E _. subst x. specialize (Hc _ _ eq_refl). specialize (K 108 ltac:(cbn; tauto)). congruence. }
  cbn [app firstn] in E. injection E as E1 E. subst a.
  destruct t as [| a t].
  - destruct s as [| x s]; [congruence |]. cbn [app firstn] in E. injection E as E. subst x. destruct Hu as [Hu | Hu].
    + unfold CssCharProofs.vstops, vstopc, vends in Hu. destruct Hu as [Hu | Hu]; [revert Hu; rewrite (space_const e He) by reflexivity; discriminate | cbn in Hu; intuition discriminate].
    + apply Hu. apply name_plain; [exact Hn |]. repeat constructor; apply K; cbn; tauto.
  - cbn [app firstn] in E. injection E as E. subst a.
    destruct (name_tail _ _ _ Hn A0) as (n1 & H1). destruct (name_tail _ _ _ H1 (K 114 ltac:(cbn; tauto))) as (n2 & H2). destruct (name_tail _ _ _ H2 (K 108 ltac:(cbn; tauto))) as (n3 & H3).
    destruct (name_head e odd _ _ _ H3) as [X | X]; [revert X; rewrite (name_const e He) by reflexivity; discriminate | discriminate].
Qed.

(** ** Values *)
Definition vidx (l : klex) : option nat := match l with KDeclaration => Some 3 | KFunction => Some 2 | _ => None end.
Definition nounit (l : list kitem) : Prop := match l with IObj KUnit _ :: _ => False | _ => True end.
Definition vend (s : str) : Prop := match s with [] => False | c :: _ => In c [125; 59; 41] end.
Lemma vend_vstops s : vend s -> vstops s.
Proof. destruct s as [| c s]; [exact (fun x => x) |]. intros H. right. unfold vends. cbn in *. tauto. Qed.
Lemma vend_nospace s : vend s -> nospace s.
Proof. destruct s as [| c s]; [contradiction |]. intros H. cbn in *. destruct H as [<- | [<- | [<- | []]]]; cls He. Qed.
Lemma v_spaces l b up a : vidx l = Some b -> spaces a -> forall pre s, text = pre ++ a ++ s -> nospace s -> seg (up ++ [l]) pre a [].
Proof.
  intros Hl Ha. destruct l; try discriminate Hl.
  - intros pre s E Hs. destruct a as [| x a]; [apply seg_nil |]. apply (seg_skip e He text up KDeclaration pre (x :: a) s 13); [exact E | discriminate | | left; reflexivity].
    pose proof (spaces_match e (x :: a) s ltac:(discriminate) Ha Hs) as Hm. inversion Ha. cbn [app] in *. pick He. exact Hm.
  - induction Ha as [| x a Hx Ha IH]; intros pre s E Hs; [apply seg_nil |]. change (x :: a) with ([x] ++ a). change (@nil node) with (@nil node ++ []). apply seg_app.
    + apply (seg_miss e He text up KFunction pre x (a ++ s)); [exact E | reflexivity | reflexivity | now apply function_misses].
    + apply (IH _ s); [rewrite E, <- app_assoc; reflexivity | exact Hs].
Qed.
Definition value_run (lex : list klex) (pre t : str) (vs : list kv) : Prop :=
  exists ns, seg lex pre t ns /\ calm ns /\ forallb no_colon (items ns) = true /\
    forall rest, nounit rest -> nounit (items ns ++ rest) /\ common (items ns ++ rest) None false = option_map (app vs) (common rest None false).
Lemma vrun_nil lex pre t : seg lex pre t [] -> value_run lex pre t [].
Proof.
  intros H. exists []. split; [exact H |]. split; [apply calm_nil |]. split; [reflexivity |]. intros rest Hr. split; [exact Hr |]. change (items [] ++ rest) with rest. now destruct (common rest None false).
Qed.
Lemma vrun_app lex pre t u vs vs' : value_run lex pre t vs -> value_run lex (pre ++ t) u vs' -> value_run lex pre (t ++ u) (vs ++ vs').
Proof.
  intros (n1 & S1 & C1 & F1 & I1) (n2 & S2 & C2 & F2 & I2). exists (n1 ++ n2). split; [now apply seg_app |]. split; [now apply calm_app |]. split; [rewrite items_app, forallb_app; now rewrite F1, F2 |].
  intros rest Hr. rewrite items_app, <- app_assoc. destruct (I2 rest Hr) as [U2 E2]. destruct (I1 _ U2) as [U1 E1]. split; [exact U1 |]. rewrite E1, E2. destruct (common rest None false); [| reflexivity]. cbn [option_map]. now rewrite app_assoc.
Qed.
Lemma common_unit rest t : nounit rest -> common rest (Some t) false = option_map (cons (num t None)) (common rest None false).
Proof.
  destruct rest as [| i rest]; [reflexivity |]. intros Hu. cbn [common].
  destruct i as [k | nm o | c]; [| destruct nm; try contradiction |]; match goal with |- option_map _ ?x = option_map _ (option_map _ ?y) => change y with x; destruct x; reflexivity end.
Qed.

Lemma name_pick l b t n s t1 n1 t2 : vidx l = Some b -> name t n -> no_number e t -> vcall s -> (vstops s \/ n <> url) -> t = t1 ++ t2 -> piece e odd t1 n1 (t2 ++ s) ->
  pick_is e l (t1 ++ t2 ++ s) (pidx (b + 7) t1) (length t1)
  /\ rule_is e l (pidx (b + 7) t1) t1 (AStd (pact (fun s => if str_eqb s t_transparent then AColor else if named e s then AColor else ASymbol) t1)) [RLex KIdentifier].
Proof.
  intros Hl Hn Hnn Hs Hu Et Hp. pose proof (number_none t n s Hn Hnn Hs) as N1. pose proof (url_none t n s Hn Hs Hu) as N2. rewrite Et, <- app_assoc in N1, N2.
  destruct Hp as [r m s' A1 A2 | c r s' A1 A2 A3].
  - split; [| destruct l; try discriminate Hl; injection Hl as <-; left; reflexivity]. cbn [app length pidx] in *. destruct l; try discriminate Hl; injection Hl as <-; pick He; apply A1.
  - assert (Ec : (c =? 92) = false) by cls He. unfold pidx, pact. rewrite Ec. cbn [app length] in *. split.
    + destruct l; try discriminate Hl; injection Hl as <-; unfold pick_is; pats; fms He; (rewrite fm_skip; [| exact N1]); fms He; (rewrite fm_skip; [| exact N2]); fms He; apply fm_hit; now apply run_match.
    + destruct l; try discriminate Hl; injection Hl as <-; right; eexists; (split; [reflexivity |]); intros m; reflexivity.
Qed.
Lemma last_name_color l : match last_name l with Some AColor => true | _ => false end = false.
Proof.
  unfold last_name. assert (G : forall a, match a with Some AColor => true | _ => false end = false ->
    match fold_left (fun a (i : kitem) => match i with IToken t => if is_name (k_act t) then Some (k_act t) else a | _ => a end) l a with Some AColor => true | _ => false end = false).
  { induction l as [| i l IH]; intros a Ha; [exact Ha |]. cbn [fold_left]. apply IH. destruct i as [t | nm o | c]; [| exact Ha | exact Ha]. destruct (k_act t); first [exact Ha | reflexivity]. }
  now apply G.
Qed.
Lemma identifier_name ts n : is_named odd ts n -> n <> t_transparent -> k_identifier e odd (map IToken ts) = Some (name_value e n).
Proof.
  intros Hn Ht. unfold k_identifier. rewrite (named_all odd ts n Hn).
  assert (El : forall x : kitem, last_opt (map IToken ts) = Some x -> exists t, x = IToken t).
  { intros x El. apply last_opt_some in El as [l' El]. assert (Hx : In x (map IToken ts)) by (rewrite El; apply in_or_app; right; now left). apply in_map_iff in Hx as (t & <- & _). eauto. }
  assert (G : (if match last_name (map IToken ts) with Some AColor => true | _ => false end || named e n
    then Some (VValue (Some n) None None None (Some (Plain (get_named_color (k_colors e) n))) None false []) else Some (value_of n)) = Some (name_value e n)).
  { rewrite last_name_color. cbn [orb]. unfold named, name_value, get_named_color. assert (str_eqb n t_transparent = false) as -> by (apply str_eqb_false; exact Ht). destruct (k_colors e n) as [[[r g] b] |]; reflexivity. }
  destruct (last_opt (map IToken ts)) as [x |]; [destruct (El x eq_refl) as (t & ->) |]; exact G.
Qed.
Lemma identifier_call ts n tk vs : is_named odd ts n -> k_act tk = ADelim -> k_identifier e odd (map IToken ts ++ [IToken tk; IObj KFunction (Some (VValues vs))]) = Some (function_call n vs).
Proof.
  intros Hn Ha. assert (El : last_opt (map IToken ts ++ [IToken tk; IObj KFunction (Some (VValues vs))] : list kitem) = Some (IObj KFunction (Some (VValues vs)))).
  { change [IToken tk; IObj KFunction (Some (VValues vs))] with ([IToken tk] ++ [IObj KFunction (Some (VValues vs))] : list kitem). rewrite app_assoc. apply last_opt_snoc. }
  unfold k_identifier. rewrite (named_app odd ts n _ Hn), El. cbn [CssLangModel.ident_loop]. rewrite Ha. cbn [is_delim option_map app]. now rewrite app_nil_r.
Qed.
(** One node, for a value. *)
Lemma vrun_obj lex pre t x cs o : seg lex pre t [Ctx x cs] -> items [Ctx x cs] = [IObj x (Some o)] -> calm cs -> x = KIdentifier -> value_run lex pre t [o].
Proof.
  intros Hs Hi Hc ->. exists [Ctx KIdentifier cs]. split; [exact Hs |]. split; [eapply (calm_ctx e odd); [| | exact Hi]; [discriminate | exact Hc] |]. rewrite Hi. split; [reflexivity |]. intros rest Hr. split; [exact I |].
  cbn [app common option_map]. now destruct (common rest None false).
Qed.
Lemma vrun_tok lex pre t tk v : seg lex pre t [Tok tk] -> no_colon (IToken tk) = true ->
  (forall rest, nounit rest -> common (IToken tk :: rest) None false = option_map (cons v) (common rest None false)) -> value_run lex pre t [v].
Proof.
  intros Hs Hc H. exists [Tok tk]. split; [exact Hs |]. split; [apply calm_tok |]. rewrite items_tok. split; [cbn [forallb]; now rewrite Hc |]. intros rest Hr. split; [exact I |]. cbn [app]. rewrite (H rest Hr). now destruct (common rest None false).
Qed.
Lemma hexs_all ds : Forall (fun d => exists v, hex d v) ds -> Forall (fun c => hexd c = true) ds.
Proof. intros H. eapply Forall_impl; [| exact H]. intros c. apply hexd_hex. Qed.
Lemma vstops_hex s : vstops s -> match s with [] => True | c :: _ => hexd c = false end.
Proof.
  destruct s as [| c s]; [exact (fun _ => I) |]. intros [H | H].
  - destruct (hexd c) eqn:Ex; [| reflexivity]. exfalso. pose proof (hex_ascii c Ex) as Ha. rewrite (space_const e He c Ha) in H. unfold hexd, ascii_space in *. lia.
  - cbn in H. destruct H as [<- | [<- | [<- | [<- | []]]]]; reflexivity.
Qed.
Lemma color_match ds s : Forall (fun d => exists v, hex d v) ds -> In (length ds) [3; 4; 6; 8] -> vstops s -> re_hex_color (35 :: ds ++ s) = Some (S (length ds)).
Proof.
  intros Hd Hl Hs. unfold re_hex_color. change (35 =? 35) with true. cbv iota. rewrite (span_app hexd ds s (hexs_all ds Hd) (vstops_hex s Hs)).
  cbn in Hl. destruct Hl as [<- | [<- | [<- | [<- | []]]]]; reflexivity.
Qed.
Lemma vstops_numend s : vstops s -> numend s.
Proof.
  destruct s as [| c s]; [exact (fun _ => I) |]. intros H. unfold CssCharProofs.vstops, vstopc, vends in H. cbn.
  stop_cases H; (split; [cls He |]; split; [cls He |]; intros X; exfalso; revert X); try discriminate.
  assert ((c =? 69) = false) as -> by cls He. assert ((c =? 101) = false) as -> by cls He. discriminate.
Qed.
(** A number and its unit. *)
Lemma number_pick l b t s : vidx l = Some b -> number_text t -> numend s -> pick_is e l (t ++ s) (b + 4) (length t).
Proof.
  intros Hl Hn Hs. pose proof (number_match t s Hn Hs) as Hm. destruct (number_head t Hn) as (c & r & -> & Hc). cbn [app] in *.
  stop_cases Hc; (destruct l; try discriminate Hl; injection Hl as <-; pick He; exact Hm).
Qed.
Lemma number_rule l b t : vidx l = Some b -> rule_is e l (b + 4) t (AStd ANumber) [RLex KUnit].
Proof. intros Hl. left. destruct l; try discriminate Hl; injection Hl as <-; reflexivity. Qed.
Lemma number_colon t pre : number_text t -> no_colon (IToken (leaf pre t ANumber)) = true.
Proof.
  intros Hn. destruct (number_head t Hn) as (c & r & -> & Hc). cbn [no_colon leaf k_text]. unfold str_eqb. cbn [list_eqb].
  assert ((c =? 58) = false) as -> by (stop_cases Hc; cls He). assert ((c =? 59) = false) as -> by (stop_cases Hc; cls He). reflexivity.
Qed.
Lemma number_ne t : number_text t -> t <> [].
Proof. intros Hn. destruct (number_head t Hn) as (c & r & -> & _). discriminate. Qed.
Lemma vrun_unit lex pre t u tk cs n : seg lex pre (t ++ u) [Tok (leaf tk t ANumber); Ctx KUnit cs] -> number_text t -> items [Ctx KUnit cs] = [IObj KUnit (Some (VStr n))] -> calm cs ->
  value_run lex pre (t ++ u) [VValue (Some t) (Some t) (Some n) None None None false []].
Proof.
  intros Hs Hn Hi Hc. exists [Tok (leaf tk t ANumber); Ctx KUnit cs]. split; [exact Hs |]. rewrite items_cons, items_tok, Hi. split; [|split].
  - change (calm ([Tok (leaf tk t ANumber)] ++ [Ctx KUnit cs])). apply calm_app; [apply calm_tok | eapply (calm_ctx e odd); [| | exact Hi]; [discriminate | exact Hc]].
  - cbn [app forallb]. now rewrite (number_colon t tk Hn).
  - intros rest Hr. split; [exact I |]. cbn [app common leaf k_act k_text option_map]. destruct (common rest None false); reflexivity.
Qed.
(** A token that enters a lexicon, and one that leaves it. *)
Lemma push_pop up l x pre t0 t2 s i a j b : text = pre ++ t0 ++ t2 ++ s -> t0 <> [] -> t2 <> [] -> pick_is e l (t0 ++ t2 ++ s) i (length t0) -> rule_is e l i t0 (AStd a) [RLex x] -> k_consume x = false ->
  pick_is e x (t2 ++ s) j (length t2) -> rule_is e x j t2 (AStd b) [RInt (-1)] -> seg (up ++ [l]) pre (t0 ++ t2) [Tok (leaf pre t0 a); Ctx x [Tok (leaf (pre ++ t0) t2 b)]].
Proof.
  intros E Ht Ht2 Hp Hr Hc Hp2 Hr2 w new circ _.
  pose proof (step_go e He text up l pre t0 _ i a _ 0 [x] w new circ E Ht Hp Hr eq_refl ltac:(lia)) as R1. cbv zeta in R1. change (last_opt [x]) with (Some x) in R1. cbv iota in R1. rewrite Hc in R1. cbv iota in R1.
  rewrite drop_zero in R1. unfold g_follow, g_leave in R1. cbn [fst snd t_pop t_push Nat.leb map length] in R1. rewrite drop_zero in R1. cbn [Nat.sub Nat.add] in R1.
  assert (E2 : text = (pre ++ t0) ++ t2 ++ s) by (rewrite E, <- !app_assoc; reflexivity).
  pose proof (step_go e He text (up ++ [l]) x (pre ++ t0) t2 s j b _ 1 [] ((w ++ [Leaf (leaf pre t0 a)]) ++ [Enter x]) 1 [] E2 Ht2 Hp2 Hr2 eq_refl ltac:(rewrite app_length; cbn; lia)) as R2.
  cbv zeta in R2. change (last_opt (@nil klex)) with (@None klex) in R2. cbv iota in R2. unfold g_follow, g_leave in R2. cbn [fst snd t_pop t_push Nat.leb map length Nat.sub repeat] in R2. rewrite drop_zero in R2.
  rewrite drop_one, !app_nil_r in R2. exists []. split; [right; apply okc_nil |]. eapply reach_trans; [exact R1 |]. eapply reach_to; [exact R2 |]. f_equal.
  - rewrite words_tcons, words_ctx. rewrite <- !app_assoc. reflexivity.
  - f_equal. rewrite <- app_assoc. reflexivity.
Qed.
End Values.
