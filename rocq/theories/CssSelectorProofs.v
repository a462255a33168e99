(** Runs of the lexer over CSS selectors, and the items for the transform. *)
From Verif Require Import Base BaseFacts TargetModel TargetSpec LexerModel LexerSpec TargetProofs LexerProofs LexiconModel LexiconSpec TreeModel TreeSpec TreeProofs BuildModel BuildProofs
  TransformModel TransformSpec TransformTextProofs MachineProofs GeneratorProofs CssColorModel CssLangModel IniSpec CssTextSpec CssStepProofs CssCharProofs CssNameProofs.
From Coq Require Import ZArith ZifyBool Permutation.

(** ** The dictionary of a selector *)
Lemma klex_eqb_spec a b : klex_eqb a b = true <-> a = b.
Proof. split; [destruct a, b; first [reflexivity | discriminate] | intros <-; now destruct a]. Qed.
Lemma klex_eqb_dec a b : klex_eqb a b = if klex_dec a b then true else false.
Proof. destruct (klex_dec a b) as [-> | H]; [now apply klex_eqb_spec |]. destruct (klex_eqb a b) eqn:E; [apply klex_eqb_spec in E; contradiction | reflexivity]. Qed.
Definition sel_of (l : list (klex * kv)) (d : list (klex * list kv)) : list (klex * list kv) := fold_left (fun d x => d_append (fst x) (snd x) d) l d.
Definition isk (k : klex) (x : klex * kv) : bool := if klex_dec (fst x) k then true else false.
Definition notk (k : klex) (x : klex * kv) : bool := if klex_dec (fst x) k then false else true.
Definition has (d : list (klex * list kv)) (k : klex) : bool := existsb (fun p => klex_eqb k (fst p)) d.
Lemma filter_and {X} (f g : X -> bool) l : filter f (filter g l) = filter (fun x => g x && f x) l.
Proof. induction l as [| x l IH]; [reflexivity |]. cbn [filter]. destruct (g x); cbn [filter andb]; [destruct (f x) |]; now rewrite IH. Qed.
Lemma d_append_in k o d : has d k = true -> NoDup (map fst d) -> d_append k o d = map (fun p => (fst p, snd p ++ (if klex_dec k (fst p) then [o] else []))) d.
Proof.
  induction d as [| [k' os] d IH]; [discriminate |]. cbn [has existsb fst map d_append]. intros H Hn. inversion Hn as [| x l Hx Hd]. subst. rewrite (klex_eqb_dec k k') in *.
  destruct (klex_dec k k') as [-> | Hk]; cbn [fst snd].
  - f_equal. assert (G : forall p, In p d -> fst p <> k') by (intros p Hp E; apply Hx; rewrite <- E; now apply in_map). clear -G.
    induction d as [| p d IH]; [reflexivity |]. cbn [map]. rewrite <- IH by (intros q Hq; apply G; now right). destruct (klex_dec k' (fst p)) as [E | _]; [destruct (G p (or_introl eq_refl)); congruence |].
    rewrite app_nil_r. now destruct p.
  - rewrite app_nil_r. f_equal. apply IH; assumption.
Qed.
Lemma d_append_out k o d : has d k = false -> d_append k o d = d ++ [(k, [o])].
Proof.
  induction d as [| [k' os] d IH]; [reflexivity |]. cbn [has existsb fst d_append app]. intros H. apply orb_false_iff in H as [H1 H2]. rewrite H1. f_equal. now apply IH.
Qed.
Lemma has_in d k : has d k = true <-> In k (map fst d).
Proof.
  unfold has. rewrite existsb_exists. split.
  - intros (p & Hp & E). apply klex_eqb_spec in E. subst k. now apply in_map.
  - intros H. apply in_map_iff in H as (p & <- & Hp). exists p. split; [exact Hp | now apply klex_eqb_spec].
Qed.
Lemma sel_of_grouped l : forall n d, length l <= n -> NoDup (map fst d) ->
  sel_of l d = map (fun p => (fst p, snd p ++ map snd (filter (isk (fst p)) l))) d ++ grouped n (filter (fun x => negb (has d (fst x))) l).
Proof.
  induction l as [| [k o] l IH]; intros n d Hn Hd.
  - cbn [sel_of fold_left filter map]. assert (E : grouped n [] = []) by now destruct n. rewrite E, app_nil_r. clear. induction d as [| [k os] d IH]; [reflexivity |]. cbn [map fst snd]. now rewrite app_nil_r, <- IH.
  - destruct n as [| n]; [cbn in Hn; lia |]. cbn [length] in Hn. unfold sel_of. cbn [fold_left fst snd]. fold (sel_of l (d_append k o d)).
    destruct (has d k) eqn:Eh; cbn [filter fst negb].
    + rewrite Eh. cbn [negb]. rewrite (d_append_in k o d Eh Hd).
      assert (Em : map fst (map (fun p : klex * list kv => (fst p, snd p ++ (if klex_dec k (fst p) then [o] else []))) d) = map fst d) by (rewrite map_map; reflexivity).
      rewrite (IH (S n)); [| lia | now rewrite Em]. f_equal.
      * rewrite map_map. cbn [fst snd]. apply map_ext. intros p. cbn [isk fst snd]. f_equal. unfold isk at 2. cbn [fst].
        destruct (klex_dec k (fst p)); cbn [map snd app]; now rewrite <- app_assoc.
      * f_equal. apply filter_ext. intros x. f_equal. unfold has. clear. induction d as [| p d IH]; [reflexivity |]. cbn [map existsb fst]. now rewrite IH.
    + rewrite Eh. cbn [negb]. rewrite (d_append_out k o d Eh).
      rewrite (IH n); [| lia |].
      * rewrite map_app, <- app_assoc. cbn [map fst snd app]. f_equal.
        { apply map_ext_in. intros p Hp. f_equal. f_equal. unfold isk at 2. cbn [fst]. destruct (klex_dec k (fst p)) as [-> | _]; [| reflexivity].
          exfalso. assert (has d (fst p) = true) by (apply has_in; now apply in_map). congruence. }
        cbn [grouped]. f_equal.
        { f_equal. f_equal. rewrite filter_and. f_equal. apply filter_ext. intros x. unfold isk. destruct (klex_dec (fst x) k) as [-> | _]; [now rewrite Eh | now rewrite andb_false_r]. }
        { f_equal. rewrite filter_and. apply filter_ext. intros x. unfold has. rewrite existsb_app. cbn [existsb fst]. rewrite orb_false_r, negb_orb, klex_eqb_dec. now destruct (klex_dec (fst x) k). }
      * rewrite map_app. cbn [map fst]. apply (Permutation_NoDup (Permutation_cons_append (map fst d) k)). constructor; [| exact Hd]. intros Hi. apply has_in in Hi. congruence.
Qed.
Lemma filter_true {X} (l : list X) : filter (fun _ => true) l = l.
Proof. induction l as [| x l IH]; [reflexivity |]. cbn [filter]. now rewrite IH. Qed.
Lemma dictionary_ok l : VDict (sel_of l []) = dictionary l.
Proof. unfold dictionary. rewrite (sel_of_grouped l (length l) [] (le_n _) (NoDup_nil _)). cbn [map app]. now rewrite filter_true. Qed.

Section Selectors.
Variable e : kenv.
Hypothesis He : classes_ok e.
Variable odd : nat -> option nat.
Variable text : str.
Notation name_text := (name_text e odd).
Notation name := (name e odd).
Notation items := (items e odd).
Notation calm := (calm e odd).
Notation seg := (seg e text).
Notation node := (node klex kact).
Notation reach := (reach k_consume (k_parse e) text).
Notation spaces := (Forall (fun c => k_space e c = true)).

(** ** Characters *)
Lemma stops_nend s : stops e s -> nend e s.
Proof. destruct s as [| c s]; [exact (fun _ => I) |]. intros H. cbn. unfold stops, stopc, ends in H. stop_cases H; cls He. Qed.
Lemma name_head c r n : name_text (c :: r) n -> namechar e c = true \/ c = 92.
Proof. inversion 1; subst; [left; unfold namechar; destruct H2 as [-> | ->]; [reflexivity | apply orb_true_r] | now right | now right]. Qed.
Definition sstop (s : str) : Prop := match s with [] => False | c :: _ => k_space e c = true \/ In c [62; 43; 126; 44; 123; 41] end.
Lemma sstop_stops s : sstop s -> stops e s.
Proof. destruct s as [| c s]; [exact (fun x => x) |]. intros [H | H]; [left; exact H | right]. unfold ends. cbn in *. tauto. Qed.
Lemma sstop_leaves s : sstop s -> no_pick e KSelector s.
Proof. destruct s as [| c s]; [contradiction |]. apply (selector_leaves e He). Qed.
Definition selstart (s : str) : Prop := match s with [] => False | c :: _ => namechar e c = true \/ In c [92; 35; 46; 58; 42] end.
Lemma selstart_app s s' : selstart s -> selstart (s ++ s'). Proof. now destruct s. Qed.
Lemma selstart_ne s : selstart s -> s <> []. Proof. now destruct s. Qed.
Definition nospace (s : str) : Prop := match s with [] => True | c :: _ => k_space e c = false end.
Lemma selstart_nospace s : selstart s -> nospace s.
Proof. destruct s as [| c s]; [contradiction |]. intros H. cbn. unfold selstart in H. stop_cases H; cls He. Qed.
Lemma spaces_match a s : a <> [] -> spaces a -> nospace s -> re_spaces e (a ++ s) = Some (length a).
Proof. intros Ha Hs Hn. unfold re_spaces. rewrite (span_app (k_space e) a s Hs Hn). destruct a; [congruence | reflexivity]. Qed.
Lemma stops_ne s : stops e s -> s <> []. Proof. now destruct s. Qed.

(** ** Parts *)
Lemma ident_part x i f up pre p t n s a idx : ident_lex e x = Some (i, f) -> k_consume x = false -> name t n -> text = pre ++ p ++ t ++ s -> p <> [] -> stops e s ->
  pick_is e KSelector (p ++ t ++ s) idx (length p) -> rule_is e KSelector idx p (AStd a) [RLex x] ->
  exists ts, seg (up ++ [KSelector]) pre (p ++ t) [Tok (leaf pre p a); Ctx x (map Tok ts)] /\ is_named odd ts n /\ ts <> [].
Proof.
  intros Hx Hc [Hne Hn] E Hp Hs Hpk Hr. assert (E2 : text = (pre ++ p) ++ t ++ s) by (rewrite E, <- !app_assoc; reflexivity).
  destruct (ident_run e He odd text x i f Hx (length t) t n (le_n _) Hn (up ++ [KSelector]) (pre ++ p) s E2 (stops_nend s Hs)) as (ts & S1 & N1 & T1 & _).
  destruct (ident_dt e x _ Hx) as [D1 D2]. exists ts. split; [| split; [exact N1 | exact (T1 Hne)]].
  pose proof (seg_push e He text up KSelector x pre p t s idx a _ E Hp Hpk Hr Hc S1 D1 D2 (ident_leaves e He x _ s Hx Hs) (stops_ne s Hs)) as G.
  specialize (T1 Hne). destruct ts as [| t0 ts]; [congruence |]. exact G.
Qed.
Definition simple (x : klex) : Prop := x = KId \/ x = KClass \/ x = KPseudoElement \/ x = KElement.
Lemma items_simple x ts n : simple x -> is_named odd ts n -> items [Ctx x (map Tok ts)] = [IObj x (Some (VStr n))].
Proof.
  intros Hx Hn. rewrite items_ctx; [| destruct Hx as [-> | [-> | [-> | ->]]]; discriminate | apply calm_toks].
  rewrite items_toks. do 2 f_equal. assert (Em : k_method e odd x = ident_token odd) by (destruct Hx as [-> | [-> | [-> | ->]]]; reflexivity).
  rewrite Em. unfold ident_token. now rewrite (named_all odd ts n Hn).
Qed.
Lemma items_pseudo ts n : is_named odd ts n -> items [Ctx KPseudoClass (map Tok ts)] = [IObj KPseudoClass (Some (VPseudo n None))].
Proof.
  intros Hn. rewrite items_ctx; [| discriminate | apply calm_toks]. rewrite items_toks. do 2 f_equal. cbn [k_method]. unfold k_pseudo_class. rewrite (named_all odd ts n Hn).
  destruct (last_opt (map IToken ts)) as [x |] eqn:El; [| reflexivity]. apply last_opt_some in El as [l' El].
  assert (Hx : In x (map IToken ts)) by (rewrite El; apply in_or_app; right; now left). apply in_map_iff in Hx as (t & <- & _). reflexivity.
Qed.
Lemma lit2_no c r : (58 =? c) = false -> lit [58; 58] (58 :: c :: r) = None.
Proof. intros H. unfold lit, starts. cbn [length firstn]. unfold str_eqb. cbn [list_eqb]. now rewrite H, andb_false_r. Qed.
Lemma pick_colon c r n s : name_text (c :: r) n -> pick_is e KSelector (58 :: (c :: r) ++ s) 5 1.
Proof.
  intros Hn. apply name_head in Hn. unfold pick_is. pats. fms He. rewrite fm_skip; [fms He; now apply fm_hit |]. apply lit2_no. destruct Hn as [Hn | ->]; cls He.
Qed.
Lemma pick_dot c r s : k_digit e c = false -> pick_is e KSelector (46 :: (c :: r) ++ s) 3 1.
Proof. intros Hd. pick He. cbn. now rewrite Hd. Qed.

(** What a run over parts gives. *)
Definition parts_run (lex : list klex) (pre u : str) (l : list (klex * kv)) : Prop :=
  exists ns, seg lex pre u ns /\ calm ns /\ (l <> [] -> ns <> []) /\ forall rest d, selector_loop (items ns ++ rest) d = selector_loop rest (sel_of l d).
Lemma parts_nil lex pre : parts_run lex pre [] [].
Proof. exists []. split; [apply seg_nil |]. split; [apply calm_nil |]. split; [congruence | reflexivity]. Qed.
Lemma parts_app lex pre t u l l' : parts_run lex pre t l -> parts_run lex (pre ++ t) u l' -> parts_run lex pre (t ++ u) (l ++ l').
Proof.
  intros (n1 & S1 & C1 & T1 & I1) (n2 & S2 & C2 & T2 & I2). exists (n1 ++ n2). split; [now apply seg_app |]. split; [now apply calm_app |]. split.
  - intros Hl E. apply app_eq_nil in E as [-> ->]. destruct l; [| now apply T1]. destruct l'; [now apply Hl | now apply T2].
  - intros rest d. rewrite items_app, <- app_assoc, I1, I2. unfold sel_of. now rewrite fold_left_app.
Qed.
Lemma part_one lex pre t ns tk x o : seg lex pre t (Tok tk :: ns) -> items ns = [IObj x (Some o)] -> calm ns -> parts_run lex pre t [(x, o)].
Proof.
  intros Hs Hi Hc. exists (Tok tk :: ns). split; [exact Hs |]. rewrite <- (app_nil_l ns). change (Tok tk :: [] ++ ns) with ([Tok tk] ++ ns).
  split; [apply calm_app; [apply calm_tok | exact Hc] |]. split; [discriminate |]. intros rest d. rewrite items_app, Hi. reflexivity.
Qed.

(** ** Containers of selectors *)
Definition hseg (lex : list klex) (pre t : str) (ns : list node) : Prop := forall w new circ, hic circ (length pre) (length lex) ->
  exists circ', okc circ' (length (pre ++ t)) (length lex) /\ reach (Cfg lex w new circ (length pre)) (Cfg lex (w ++ words ns) (nw ns new) circ' (length (pre ++ t))).
Definition lseg (lex : list klex) (pre t : str) (ns : list node) : Prop := forall w new circ, bnd circ (length pre) ->
  exists circ', low circ' (length (pre ++ t)) /\ reach (Cfg lex w new circ (length pre)) (Cfg lex (w ++ words ns) (nw ns new) circ' (length (pre ++ t))).
Lemma low_bnd circ p : low circ p -> bnd circ p. Proof. intros H q d k Hi. apply H in Hi. lia. Qed.
Lemma lseg_seg lex pre t ns : lseg lex pre t ns -> seg lex pre t ns.
Proof. intros H w new circ Hb. destruct (H w new circ Hb) as (c & K & R). exists c. split; [right; now apply low_okc | exact R]. Qed.
Lemma join_reach lex (pre t t' : str) (ns ns' : list node) w new c c1 c2 :
  reach (Cfg lex w new c (length pre)) (Cfg lex (w ++ words ns) (nw ns new) c1 (length (pre ++ t))) ->
  reach (Cfg lex (w ++ words ns) (nw ns new) c1 (length (pre ++ t))) (Cfg lex ((w ++ words ns) ++ words ns') (nw ns' (nw ns new)) c2 (length ((pre ++ t) ++ t'))) ->
  reach (Cfg lex w new c (length pre)) (Cfg lex (w ++ words (ns ++ ns')) (nw (ns ++ ns') new) c2 (length (pre ++ t ++ t'))).
Proof. intros R1 R2. rewrite words_app, nw_app, !app_assoc. eapply reach_trans; [exact R1 | exact R2]. Qed.
Lemma lseg_app lex pre t t' ns ns' : lseg lex pre t ns -> lseg lex (pre ++ t) t' ns' -> lseg lex pre (t ++ t') (ns ++ ns').
Proof.
  intros H1 H2 w new circ Hb. destruct (H1 w new circ Hb) as (c1 & K1 & R1). destruct (H2 (w ++ words ns) (nw ns new) c1 (low_bnd _ _ K1)) as (c2 & K2 & R2).
  exists c2. split; [now rewrite app_assoc |]. exact (join_reach _ _ _ _ _ _ _ _ _ _ _ R1 R2).
Qed.
Lemma hseg_lseg lex pre t t' ns ns' : hseg lex pre t ns -> lseg lex (pre ++ t) t' ns' -> hseg lex pre (t ++ t') (ns ++ ns').
Proof.
  intros H1 H2 w new circ Hb. destruct (H1 w new circ Hb) as (c1 & K1 & R1). destruct (H2 (w ++ words ns) (nw ns new) c1 (okc_bnd _ _ _ K1)) as (c2 & K2 & R2).
  exists c2. split; [rewrite app_assoc; now apply low_okc |]. exact (join_reach _ _ _ _ _ _ _ _ _ _ _ R1 R2).
Qed.
Lemma hseg_more lex pre t m t' ns nm ns' : hseg lex pre t ns -> lseg lex (pre ++ t) m nm -> hseg lex ((pre ++ t) ++ m) t' ns' -> hseg lex pre (t ++ m ++ t') (ns ++ nm ++ ns').
Proof.
  intros H1 H2 H3 w new circ Hb. destruct (H1 w new circ Hb) as (c1 & K1 & R1). destruct (H2 (w ++ words ns) (nw ns new) c1 (okc_bnd _ _ _ K1)) as (c2 & K2 & R2).
  destruct (H3 ((w ++ words ns) ++ words nm) (nw nm (nw ns new)) c2 (low_hic _ _ _ K2)) as (c3 & K3 & R3). exists c3. split; [now rewrite !app_assoc in * |].
  pose proof (join_reach _ _ _ _ _ _ _ _ _ _ _ R2 R3) as R4. rewrite words_app, nw_app in R4. exact (join_reach _ _ _ _ _ _ _ _ _ _ _ R1 (eq_ind_r (fun x => reach _ x) R4 (f_equal2 (fun a b => Cfg lex a b c3 (length ((pre ++ t) ++ m ++ t'))) (f_equal (app (w ++ words ns)) (words_app klex kact nm ns')) (nw_app nm ns' (nw ns new))))).
Qed.
Definition cidx (c : klex) : option nat := match c with KPrelude => Some 2 | KSelectorList => Some 1 | _ => None end.
Lemma c_spaces c i up pre a s : cidx c = Some i -> text = pre ++ a ++ s -> a <> [] -> spaces a -> nospace s -> lseg (up ++ [c]) pre a [].
Proof.
  intros Hc E Ha Hs Hn w new circ Hb. exists circ. split; [apply (bnd_low _ _ _ Hb), len_lt, Ha |].
  eapply reach_to; [apply (step_skip e He text up c pre a s i w new circ E Ha) |].
  - destruct a as [| x a]; [congruence |]. pose proof (spaces_match (x :: a) s Ha Hs Hn) as Hm. inversion Hs. cbn [app] in *. destruct c; try discriminate Hc; injection Hc as <-; pick He; exact Hm.
  - left. destruct c; try discriminate Hc; injection Hc as <-; reflexivity.
  - cbn [nw]. change (words []) with (@nil (sym klex kact)). now rewrite app_nil_r.
Qed.
Lemma lseg_after c i up pre t a s ns : cidx c = Some i -> text = pre ++ t ++ a ++ s -> spaces a -> nospace s -> lseg (up ++ [c]) pre t ns -> lseg (up ++ [c]) pre (t ++ a) ns.
Proof.
  intros Hc E Hs Hn H. destruct a as [| x a]; [now rewrite app_nil_r |]. rewrite <- (app_nil_r ns). apply lseg_app; [exact H |]. apply (c_spaces c i up (pre ++ t) (x :: a) s); try assumption; [| discriminate].
  rewrite E, <- !app_assoc. reflexivity.
Qed.
Lemma lseg_before c i up pre a t s ns : cidx c = Some i -> text = pre ++ a ++ t ++ s -> spaces a -> nospace (t ++ s) -> lseg (up ++ [c]) (pre ++ a) t ns -> lseg (up ++ [c]) pre (a ++ t) ns.
Proof.
  intros Hc E Hs Hn H. destruct a as [| x a]; [rewrite app_nil_r in H; exact H |]. change ns with ([] ++ ns). apply lseg_app; [| exact H]. apply (c_spaces c i up pre (x :: a) (t ++ s)); try assumption. discriminate.
Qed.
Lemma lseg_leaf up l pre t s i a : text = pre ++ t ++ s -> t <> [] -> pick_is e l (t ++ s) i (length t) -> rule_is e l i t (AStd a) [] -> lseg (up ++ [l]) pre t [Tok (leaf pre t a)].
Proof.
  intros E Ht Hp Hr w new circ Hb. exists circ. split; [apply (bnd_low _ _ _ Hb), len_lt, Ht |]. exact (step_leaf e He text up l pre t s i a w new circ E Ht Hp Hr).
Qed.
(** A combinator. *)
Lemma comb_run c i up o t pre s : cidx c = Some i -> comb_text e o t -> text = pre ++ t ++ s -> selstart s ->
  exists ns, lseg (up ++ [c]) pre t ns /\ (ns = [] /\ o = [32] \/ exists tk, ns = [Tok tk] /\ k_text tk = o /\ k_act tk = AOp /\ str_eqb o [44] = false).
Proof.
  intros Hc H E Hs. pose proof (selstart_nospace s Hs) as Hn. destruct H as [a Ha Hsp | o a b Ho Ha Hb | a b Hne Ha Hb].
  - exists []. split; [| now left]. now apply (c_spaces c i up pre a s).
  - rewrite <- app_assoc in E. cbn [app] in E. exists [Tok (leaf (pre ++ a) [o] AOp)]. split.
    + apply (lseg_before c i up pre a (o :: b) s); [exact Hc | exact E | exact Ha | |].
      * cbn. cbn in Ho. destruct Ho as [<- | [<- | [<- | []]]]; cls He.
      * change (o :: b) with ([o] ++ b). apply (lseg_after c i up (pre ++ a) [o] b s); [exact Hc | rewrite E, <- !app_assoc; reflexivity | exact Hb | exact Hn |].
        apply (lseg_leaf up c (pre ++ a) [o] (b ++ s) (S i)); [rewrite E, <- !app_assoc; reflexivity | discriminate | |].
        -- cbn [app length]. cbn in Ho. destruct Ho as [<- | [<- | [<- | []]]]; (destruct c; try discriminate Hc; injection Hc as <-; pick He; reflexivity).
        -- left. destruct c; try discriminate Hc; injection Hc as <-; reflexivity.
    + right. eexists. split; [reflexivity |]. split; [reflexivity |]. split; [reflexivity |]. cbn in Ho. destruct Ho as [<- | [<- | [<- | []]]]; reflexivity.
  - rewrite <- app_assoc in E. cbn [app] in E. exists [Tok (leaf (pre ++ a) [124; 124] AOp)]. split.
    + apply (lseg_before c i up pre a (124 :: 124 :: b) s); [exact Hc | exact E | exact Ha | cbn; cls He |].
      change (124 :: 124 :: b) with ([124; 124] ++ b). apply (lseg_after c i up (pre ++ a) [124; 124] b s); [exact Hc | rewrite E, <- !app_assoc; reflexivity | exact Hb | exact Hn |].
      apply (lseg_leaf up c (pre ++ a) [124; 124] (b ++ s) (S i)); [rewrite E, <- !app_assoc; reflexivity | discriminate | |].
      * cbn [app length]. destruct c; try discriminate Hc; injection Hc as <-; pick He; reflexivity.
      * left. destruct c; try discriminate Hc; injection Hc as <-; reflexivity.
    + right. eexists. split; [reflexivity |]. split; [reflexivity |]. split; reflexivity.
Qed.
(** A selector. *)
Lemma c_enters c i s : cidx c = Some i -> selstart s -> no_pick e c s.
Proof. intros Hc Hs. destruct s as [| x s]; [contradiction |]. unfold selstart in Hs. stop_cases Hs; (destruct c; try discriminate Hc; nopick He). Qed.
Lemma c_dt c i : cidx c = Some i -> k_da c = NoDA /\ k_dt c = Some (Target 0 [KSelector]).
Proof. destruct c; try discriminate; split; reflexivity. Qed.
Lemma sel_enter c i up pre t s ns : cidx c = Some i -> text = pre ++ t ++ s -> selstart t -> sstop s -> seg ((up ++ [c]) ++ [KSelector]) pre t ns -> ns <> [] -> hseg (up ++ [c]) pre t [Ctx KSelector ns].
Proof.
  intros Hc E Ht Hs Hseg Hns w new circ Hh. destruct (c_dt c i Hc) as [D1 D2]. rewrite (len_snoc up c) in Hh.
  assert (Hne : t ++ s <> []) by (destruct t; [contradiction | discriminate]).
  destruct (step_enter e text up c KSelector pre (t ++ s) w new circ E Hne D1 D2 (c_enters c i _ Hc (selstart_app _ _ Ht)) Hh) as (c1 & K1 & R1).
  destruct (Hseg (w ++ [Enter KSelector]) (new + 1) c1 (hic_bnd _ _ _ K1)) as (c2 & K2 & R2).
  destruct K2 as [(-> & _) | K2]; [contradiction |]. rewrite (len_snoc (up ++ [c]) KSelector) in K2.
  assert (E2 : text = (pre ++ t) ++ s) by (rewrite E, <- app_assoc; reflexivity).
  destruct (step_leave e text (up ++ [c]) KSelector (pre ++ t) s ((w ++ [Enter KSelector]) ++ words ns) (nw ns (new + 1)) c2 E2 ltac:(now destruct s) eq_refl eq_refl (sstop_leaves s Hs) ltac:(now destruct up) K2) as (c3 & K3 & R3).
  exists c3. split; [exact K3 |]. eapply reach_trans; [exact R1 |]. eapply reach_trans; [exact R2 |]. eapply reach_to; [exact R3 |].
  destruct ns as [| n ns]; [congruence |]. cbn [nw]. unfold left_word. cbn [Nat.eqb]. rewrite words_ctx, <- !app_assoc. reflexivity.
Qed.
End Selectors.
