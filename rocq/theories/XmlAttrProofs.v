(** The lexer in the tags of XML documents: strings and attributes. *)
From Verif Require Import Base BaseFacts TargetModel LexerModel LexiconModel TreeModel TreeSpec MachineProofs XmlModel XmlSpec XmlMatchProofs XmlStepProofs.
From Coq Require Import ZArith ZifyBool.

Section Attrs.
Variable e : xenv.
Variable dtd : xlex -> compiled xlex xact.
Variable text : str.
Notation R := (R e dtd text).

(** ** Characters *)
Lemma blank_space c : blank c -> space e c = true.
Proof. unfold blank. cbn. intros [<- | [<- | [<- | [<- | []]]]]; reflexivity. Qed.
Lemma blank_nchar ic c : blank c -> nchar e ic c = false.
Proof. unfold blank. cbn. intros [<- | [<- | [<- | [<- | []]]]]; reflexivity. Qed.
Lemma blanks_space s : blanks s -> Forall (fun c => space e c = true) s.
Proof. intros H. eapply Forall_impl; [| exact H]. exact blank_space. Qed.
Lemma nstart_neq ic c k : nstart e ic c = true -> k < 128 -> nstart e ic k = false -> (c =? k) = false.
Proof. intros H1 H2 H3. apply Nat.eqb_neq. intros ->. congruence. Qed.
Lemma xname_cons n : xname e n -> exists c s, n = c :: s /\ (forall ic, nstart e ic c = true) /\ space e c = false /\ (forall ic, Forall (fun d => nchar e ic d = true) s).
Proof.
  destruct n as [| c s]; intros [H1 H2]; [contradiction |]. exists c, s. split; [reflexivity |]. split; [intros ic; apply H1 |]. inversion H2; subst. split; [assumption |]. intros ic. apply H1.
Qed.
Lemma xname_ne n : xname e n -> n <> [].
Proof. intros H. destruct (xname_cons n H) as (c & s & -> & _). discriminate. Qed.
Lemma name_at ic n s : xname e n -> hd_not (nchar e ic) s -> name_len e ic (n ++ s) = length n.
Proof.
  intros H Hs. destruct (xname_cons n H) as (c & r & -> & H1 & H2 & H3). cbn [app name_len length]. rewrite H1. now rewrite (span_app _ r s (H3 ic) Hs).
Qed.
Lemma spaced_at ic n s : xname e n -> hd_not (nchar e ic) s -> spaced_name e ic (n ++ s) = Some (0, length n).
Proof.
  intros H Hs. pose proof (name_at ic n s H Hs) as Hn. destruct (xname_cons n H) as (c & r & -> & H1 & H2 & H3). unfold spaced_name.
  cbn [app span]. rewrite H2. cbn [name_from]. change (skipn 0 (c :: r ++ s)) with ((c :: r) ++ s). rewrite Hn. reflexivity.
Qed.
(** A name with white space before it is not one. *)
Lemma hd_blanks f w s : (forall c, blank c -> f c = false) -> blanks w -> hd_not f s -> hd_not f (w ++ s).
Proof. intros Hf Hw Hs. destruct Hw as [| c w Hc Hw]; [exact Hs |]. exact (Hf c Hc). Qed.
Lemma name_blank ic c s : blank c -> name_len e ic (c :: s) = 0.
Proof. unfold blank. cbn. intros [<- | [<- | [<- | [<- | []]]]]; reflexivity. Qed.

(** ** Strings *)
Definition qlex (single : bool) : xlex := if single then XSq else XDq.
Lemma qlex_known single : known (qlex single). Proof. destruct single; exact I. Qed.
Lemma ref_at s r : ref_ok e s -> re_ref e ([38] ++ (s ++ [59]) ++ r) = Some (length ([38] ++ s ++ [59])).
Proof.
  intros H. cbn [app re_ref Nat.eqb]. cbv zeta. rewrite <- app_assoc. cbn [app]. rewrite (span_app _ s (59 :: r)).
  - rewrite nth_pre. cbn [Nat.eqb]. f_equal. cbn [length]. rewrite app_length. cbn [length]. lia.
  - eapply Forall_impl; [| exact H]. cbn beta. intros c [H1 H2]. rewrite H1. cbn [negb andb]. destruct (Nat.eqb_spec c 59); [contradiction | reflexivity].
  - cbn [hd_not Nat.eqb negb]. apply andb_false_r.
Qed.
Lemma ref_neq c s : c <> 38 -> re_ref e (c :: s) = None.
Proof. intros H. cbn [re_ref]. destruct (Nat.eqb_spec c 38); [contradiction | reflexivity]. Qed.
Lemma string_no single c p s : c <> quote single -> c <> 38 -> first_match 0 (x_patterns e (qlex single)) p (c :: s) = None.
Proof.
  intros H1 H2. assert (E : re_ref e (c :: s) = None) by now apply ref_neq. destruct single; cbn [qlex x_patterns first_match]; unfold plain; rewrite E; cbn [option_map]; unfold lit, starts;
    cbn [length firstn str_eqb list_eqb quote] in *.
  - destruct (Nat.eqb_spec 39 c); [congruence | reflexivity].
  - destruct (Nat.eqb_spec 34 c); [congruence | reflexivity].
Qed.
Lemma string_end single p s : first_match 0 (x_patterns e (qlex single)) p ([quote single] ++ s) = Some (1, (1, [])).
Proof. destruct single; cbn [quote app]; reflexivity. Qed.
Lemma string_ref single p s r : ref_ok e s -> first_match 0 (x_patterns e (qlex single)) p (([38] ++ s ++ [59]) ++ r) = Some (0, (length ([38] ++ s ++ [59]), [])).
Proof. intros H. rewrite <- app_assoc. destruct single; cbn [qlex x_patterns first_match]; unfold plain; rewrite (ref_at s r H); reflexivity. Qed.
Lemma string_nil single p : first_match 0 (x_patterns e (qlex single)) p [] = None.
Proof. destruct single; reflexivity. Qed.
Lemma q_rules single i pre t gs a tg : nth_error (x_rules (qlex single)) i = Some (SRule a tg) -> rule_is (qlex single) i pre t gs a tg.
Proof. unfold rule_is. intros ->. now split. Qed.

Lemma pieces_run single v : Forall (piece_ok e (quote single)) v -> apart is_ptext v -> forall up pre s w new,
  text = pre ++ concat (map piece_text v) ++ [quote single] ++ s ->
  exists ts new', map tn (map tk ts) = map (piece_node single) v /\
    R (up ++ [qlex single]) w new pre (up ++ [qlex single]) (w ++ map Leaf ts) new' (pre ++ concat (map piece_text v)).
Proof.
  induction 1 as [| x v Hx Hv IH]; intros Hap up pre s w new E.
  - exists [], new. split; [reflexivity |]. cbn [map concat]. rewrite !app_nil_r. apply R_refl.
  - assert (Hap' : apart is_ptext v) by (destruct v; [exact I | apply Hap]). cbn [map concat] in E |- *. rewrite <- app_assoc in E.
    assert (S1 : exists ts, map tn (map tk ts) = [piece_node single x] /\ R (up ++ [qlex single]) w new pre (up ++ [qlex single]) (w ++ map Leaf ts) 0 (pre ++ piece_text x)).
    { destruct x as [t | t].
      - destruct Hx as (H1 & H2 & H3). cbn [piece_text piece_node] in *.
        destruct (step_gap e dtd text up (qlex single) pre t (concat (map piece_text v) ++ [quote single] ++ s) (if single then ASq else ADq) w new (qlex_known single) E H1) as (ts & K1 & K2).
        + destruct single; reflexivity.
        + intros a c Hac Hc. destruct c as [| c0 c]; [congruence |]. apply string_no; intros ->; [apply H2 | apply H3]; rewrite Hac; apply in_or_app; right; now left.
        + destruct (concat (map piece_text v) ++ [quote single] ++ s) as [| c0 r] eqn:Er; [exact I |]. rewrite <- Er. destruct v as [| y v].
          * cbn [map concat app]. rewrite (string_end single _ s : first_match _ _ _ (quote single :: s) = _). discriminate.
          * destruct Hap as [Ha _]. specialize (Ha eq_refl). destruct y as [y | y]; [discriminate |]. inversion Hv; subst. cbn [map concat piece_text]. rewrite <- app_assoc.
            rewrite string_ref by assumption. discriminate.
        + apply string_nil.
        + exists ts. split; [rewrite K1; reflexivity | exact K2].
      - cbn [piece_text piece_node] in *.
        destruct (step_out e dtd text up (qlex single) pre ([38] ++ t ++ [59]) (concat (map piece_text v) ++ [quote single] ++ s) 0 [] (AStd AStrEsc) w new (qlex_known single) E) as (ts & K1 & K2).
        + discriminate.
        + now apply string_ref.
        + apply q_rules. destruct single; reflexivity.
        + exact I.
        + constructor.
        + discriminate.
        + exists ts. split; [rewrite K1; reflexivity | exact K2]. }
    destruct S1 as (ts & K1 & K2). rewrite app_assoc in E. destruct (IH Hap' up (pre ++ piece_text x) s (w ++ map Leaf ts) 0 E) as (ts' & new' & K3 & K4).
    exists (ts ++ ts'), new'. split; [rewrite !map_app, K1, K3; reflexivity |]. rewrite map_app, !app_assoc. rewrite <- app_assoc in K4. eapply R_trans; [exact K2 |]. rewrite <- !app_assoc in *. exact K4.
Qed.
(** After the quote, to the end of the string. *)
Lemma string_run single v up pre s w : up <> [] -> Forall (piece_ok e (quote single)) v -> apart is_ptext v -> text = pre ++ concat (map piece_text v) ++ [quote single] ++ s ->
  exists cs, map strip cs = map (piece_node single) v ++ [T (if single then ASqEnd else ADqEnd) [quote single]] /\
    R (up ++ [qlex single]) (w ++ [Enter (qlex single)]) 1 pre up (w ++ words [Ctx (qlex single) cs]) 0 (pre ++ concat (map piece_text v) ++ [quote single]).
Proof.
  intros Hup Hv Ha E. destruct (pieces_run single v Hv Ha up pre s (w ++ [Enter (qlex single)]) 1 E) as (ts & new' & K1 & K2).
  destruct (step_leave e dtd text up (qlex single) (pre ++ concat (map piece_text v)) [quote single] s 1 [] (AStd (if single then ASqEnd else ADqEnd)) ((w ++ [Enter (qlex single)]) ++ map Leaf ts) new' Hup (qlex_known single))
    as (ts' & K3 & K4).
  - rewrite E. now rewrite <- app_assoc.
  - discriminate.
  - apply string_end.
  - apply q_rules. destruct single; reflexivity.
  - exact I.
  - constructor.
  - discriminate.
  - exists (map Tok (ts ++ ts')). split.
    + rewrite strip_toks, !map_app, K1, K3. reflexivity.
    + eapply R_trans; [exact K2 |]. rewrite words_ctx, words_toks, map_app. rewrite <- !app_assoc in *. cbn [app] in *. exact K4.
Qed.

(** The quote itself, in one of the lexicons that have strings. *)
Lemma quoted_run l i single v up pre s w new : known l ->
  (forall p r, first_match 0 (x_patterns e l) p ([quote single] ++ r) = Some (i, (1, []))) ->
  nth_error (x_rules l) i = Some (SRule (AStd (if single then ASqStart else ADqStart)) [RLex (qlex single)]) ->
  Forall (piece_ok e (quote single)) v -> apart is_ptext v -> text = pre ++ [quote single] ++ concat (map piece_text v) ++ [quote single] ++ s ->
  exists ns, map strip ns = string_nodes single v /\
    R (up ++ [l]) w new pre (up ++ [l]) (w ++ words ns) 0 (pre ++ [quote single] ++ concat (map piece_text v) ++ [quote single]).
Proof.
  intros Hk Hf Hr Hv Ha E.
  destruct (step_enter e dtd text up l (qlex single) pre [quote single] (concat (map piece_text v) ++ [quote single] ++ s) i [] (AStd (if single then ASqStart else ADqStart)) w new Hk E) as (ts & K1 & K2).
  - discriminate.
  - apply Hf.
  - unfold rule_is. rewrite Hr. now split.
  - exact I.
  - constructor.
  - discriminate.
  - destruct (string_run single v (up ++ [l]) (pre ++ [quote single]) s (w ++ map Leaf ts)) as (cs & K3 & K4).
    + destruct up; discriminate.
    + exact Hv.
    + exact Ha.
    + rewrite E. now rewrite <- app_assoc.
    + exists (map Tok ts ++ [Ctx (qlex single) cs]). split.
      * rewrite map_app, strip_toks, K1. cbn [map strip]. rewrite K3. destruct single; reflexivity.
      * eapply R_trans; [exact K2 |]. rewrite words_app, words_toks. rewrite <- !app_assoc in *. exact K4.
Qed.

(** ** Attributes in tags *)
Lemma attrs_name p n s : xname e n -> hd_not (nchar e false) s -> first_match 0 (x_patterns e XAttrs) p (n ++ s) = Some (0, (length n, [])).
Proof.
  intros H Hs. cbn [x_patterns app first_match]. unfold plain at 1, re_name. rewrite (name_at false n s H Hs). pose proof (xname_ne n H). destruct n; [congruence | reflexivity].
Qed.
Lemma attrs_blanks p w s : w <> [] -> blanks w -> hd_not (space e) s -> first_match 0 (x_patterns e XAttrs) p (w ++ s) = Some (6, (length w, [])).
Proof.
  intros Hne H Hs. destruct w as [| c w]; [congruence |]. pose proof (span_app (space e) (c :: w) s (blanks_space _ H) Hs) as Hsp. inversion H as [| c' w' Hc Hw]; subst.
  cbn [x_patterns app first_match p_strings] in *. unfold plain at 1, re_name. change (c :: w ++ s) with ((c :: w) ++ s) in *. cbn [app] in *. rewrite (name_blank false c _ Hc). cbn [option_map].
  unfold plain, re_spaces. rewrite Hsp. unfold blank in Hc. cbn in Hc. destruct Hc as [<- | [<- | [<- | [<- | []]]]]; reflexivity.
Qed.
Lemma attrs_skip up w0 s pre w new : blanks w0 -> hd_not (space e) s -> text = pre ++ w0 ++ s ->
  R (up ++ [XAttrs]) w new pre (up ++ [XAttrs]) w new (pre ++ w0).
Proof.
  intros Hw Hs E. destruct w0 as [| c w0]; [rewrite app_nil_r; apply R_refl |].
  apply (step_skip e dtd text up XAttrs pre (c :: w0) s 6 []); [exact I | exact E | discriminate | | now split | constructor]. apply attrs_blanks; [discriminate | exact Hw | exact Hs].
Qed.
Lemma quote_facts single : (forall s, hd_not (space e) (quote single :: s)) /\ (forall s ic, hd_not (nchar e ic) (quote single :: s)).
Proof. destruct single; split; intros; reflexivity. Qed.
Lemma attr_run a up pre s w new : attr_ok e a -> text = pre ++ attr_text a ++ s ->
  exists ns, map strip ns = attr_nodes a /\ R (up ++ [XAttrs]) w new pre (up ++ [XAttrs]) (w ++ words ns) 0 (pre ++ attr_text a).
Proof.
  intros [[Hb1 Hb2] Hn He1 He2 [Hv1 Hv2]] E. unfold attr_text in *. set (b := a_before a) in *. set (n := a_name a) in *. set (w1 := a_eq1 a) in *. set (w2 := a_eq2 a) in *.
  set (q := quote (a_single a)) in *. set (v := concat (map piece_text (a_value a))) in *. rewrite <- !app_assoc in E.
  destruct (quote_facts (a_single a)) as [Q1 Q2]. fold q in Q1, Q2.
  assert (K0 : R (up ++ [XAttrs]) w new pre (up ++ [XAttrs]) w new (pre ++ b)).
  { apply (attrs_skip up b (n ++ w1 ++ [61] ++ w2 ++ [q] ++ v ++ [q] ++ s)); [exact Hb2 | | exact E]. destruct (xname_cons n Hn) as (c & r & -> & _ & Hc & _). exact Hc. }
  assert (E1 : text = (pre ++ b) ++ n ++ w1 ++ [61] ++ w2 ++ [q] ++ v ++ [q] ++ s) by (rewrite <- !app_assoc; exact E).
  destruct (step_out e dtd text up XAttrs (pre ++ b) n (w1 ++ [61] ++ w2 ++ [q] ++ v ++ [q] ++ s) 0 [] (AStd AAttr) w new I E1 (xname_ne n Hn)) as (t1 & A1 & K1).
  { apply attrs_name; [exact Hn |]. apply hd_blanks; [apply blank_nchar | exact He1 | reflexivity]. }
  { now split. } { exact I. } { constructor. } { discriminate. }
  assert (E2 : text = ((pre ++ b) ++ n) ++ w1 ++ [61] ++ w2 ++ [q] ++ v ++ [q] ++ s) by (rewrite <- !app_assoc; exact E).
  pose proof (attrs_skip up w1 ([61] ++ w2 ++ [q] ++ v ++ [q] ++ s) ((pre ++ b) ++ n) (w ++ map Leaf t1) 0 He1 eq_refl E2) as K2.
  assert (E3 : text = (((pre ++ b) ++ n) ++ w1) ++ [61] ++ w2 ++ [q] ++ v ++ [q] ++ s) by (rewrite <- !app_assoc; exact E).
  destruct (step_out e dtd text up XAttrs (((pre ++ b) ++ n) ++ w1) [61] (w2 ++ [q] ++ v ++ [q] ++ s) 1 [] (AStd AOp) (w ++ map Leaf t1) 0 I E3 ltac:(discriminate)) as (t2 & A2 & K3).
  { reflexivity. } { now split. } { exact I. } { constructor. } { discriminate. }
  assert (E4 : text = ((((pre ++ b) ++ n) ++ w1) ++ [61]) ++ w2 ++ [q] ++ v ++ [q] ++ s) by (rewrite <- !app_assoc; exact E).
  pose proof (attrs_skip up w2 ([q] ++ v ++ [q] ++ s) _ ((w ++ map Leaf t1) ++ map Leaf t2) 0 He2 (Q1 _) E4) as K4.
  assert (E5 : text = (((((pre ++ b) ++ n) ++ w1) ++ [61]) ++ w2) ++ [q] ++ v ++ [q] ++ s) by (rewrite <- !app_assoc; exact E).
  destruct (quoted_run XAttrs (if a_single a then 3 else 2) (a_single a) (a_value a) up (((((pre ++ b) ++ n) ++ w1) ++ [61]) ++ w2) s ((w ++ map Leaf t1) ++ map Leaf t2) 0 I) with (5 := E5) as (ns & A3 & K5).
  { destruct (a_single a); reflexivity. } { destruct (a_single a); reflexivity. } { exact Hv1. } { exact Hv2. }
  exists (map Tok (t1 ++ t2) ++ ns). split.
  - rewrite map_app, strip_toks, !map_app, A1, A2, A3. reflexivity.
  - eapply R_trans; [exact K0 |]. eapply R_trans; [exact K1 |]. eapply R_trans; [exact K2 |]. eapply R_trans; [exact K3 |]. eapply R_trans; [exact K4 |].
    rewrite words_app, words_toks, map_app. rewrite <- !app_assoc in *. exact K5.
Qed.
Lemma attrs_run ats : Forall (attr_ok e) ats -> forall up pre s w new, text = pre ++ attrs_text ats ++ s ->
  exists ns new', map strip ns = flat_map attr_nodes ats /\ R (up ++ [XAttrs]) w new pre (up ++ [XAttrs]) (w ++ words ns) new' (pre ++ attrs_text ats).
Proof.
  induction 1 as [| a ats Ha Hats IH]; intros up pre s w new E.
  - exists [], new. split; [reflexivity |]. cbn. rewrite !app_nil_r. apply R_refl.
  - unfold attrs_text in *. cbn [map concat flat_map] in *. rewrite <- app_assoc in E. destruct (attr_run a up pre _ w new Ha E) as (ns & A1 & K1). rewrite app_assoc in E.
    destruct (IH up (pre ++ attr_text a) s (w ++ words ns) 0 E) as (ns' & new' & A2 & K2). exists (ns ++ ns'), new'. split; [rewrite map_app, A1, A2; reflexivity |].
    eapply R_trans; [exact K1 |]. rewrite words_app. rewrite <- !app_assoc in *. exact K2.
Qed.

(** ** Attributes in processing instructions *)
Lemma pi_blank p c s : blank c -> first_match 0 (x_patterns e XPi) p (c :: s) = None.
Proof.
  intros Hc. cbn [x_patterns first_match app p_strings]. unfold re_pi_attr at 1. rewrite (name_blank false c s Hc). unfold blank in Hc. cbn in Hc.
  destruct Hc as [<- | [<- | [<- | [<- | []]]]]; reflexivity.
Qed.
Lemma pi_gap up w0 s pre w new : blanks w0 -> w0 <> [] -> first_match 0 (x_patterns e XPi) (before text (length (pre ++ w0))) s <> None -> text = pre ++ w0 ++ s ->
  exists ts, map tk ts = [(APiText, w0)] /\ R (up ++ [XPi]) w new pre (up ++ [XPi]) (w ++ map Leaf ts) 0 (pre ++ w0).
Proof.
  intros Hw Hne Hs E. apply (step_gap e dtd text up XPi pre w0 s APiText w new); [exact I | exact E | exact Hne | reflexivity | | | reflexivity].
  - intros a c Hac Hc. destruct c as [| c0 c]; [congruence |]. apply pi_blank. unfold blanks in Hw. rewrite Hac, Forall_app in Hw. destruct Hw as [_ Hw]. inversion Hw; assumption.
  - destruct s; [exact I | exact Hs].
Qed.
Lemma pi_attr_at p n w1 w2 single r : xname e n -> blanks w1 -> blanks w2 ->
  first_match 0 (x_patterns e XPi) p ((n ++ w1 ++ [61]) ++ w2 ++ [quote single] ++ r)
  = Some (0, (length (n ++ w1 ++ [61]), [Some (0, length n); Some (length n + length w1, length n + length w1 + 1)])).
Proof.
  intros Hn H1 H2. cbn [x_patterns first_match]. unfold re_pi_attr at 1. destruct (quote_facts single) as [Q1 Q2]. rewrite <- !app_assoc.
  rewrite (name_at false n _ Hn) by (apply hd_blanks; [apply blank_nchar | exact H1 | reflexivity]). pose proof (xname_ne n Hn) as Hne.
  destruct (length n) as [| k] eqn:Ek; [destruct n; [congruence | discriminate] |]. rewrite <- Ek. cbv zeta. rewrite skipn_pre.
  rewrite (span_app (space e) w1 _ (blanks_space _ H1)) by reflexivity. rewrite app_assoc, <- app_length, skipn_pre. cbn [app Nat.eqb andb].
  rewrite (span_app (space e) w2 _ (blanks_space _ H2)) by apply Q1. rewrite nth_pre.
  assert (Hm : mem [34; 39] (quote single) = true) by (destruct single; reflexivity). rewrite Hm. rewrite !app_length. cbn [length]. rewrite Nat.add_assoc. reflexivity.
Qed.
Lemma slice_pre (a b : str) : slice (a ++ b) 0 (length a) = a.
Proof. exact (slice_mid [] a b). Qed.
Lemma slice_end (a b : str) : slice (a ++ b) (length a) (length a + length b) = b.
Proof. rewrite <- app_length. rewrite <- (app_nil_r (a ++ b)) at 1. rewrite <- app_assoc. apply slice_mid. Qed.
Lemma pi_attr_run a up pre s w new : attr_ok e a -> text = pre ++ attr_text a ++ s ->
  exists ns, map strip ns = pi_attr_nodes a /\ R (up ++ [XPi]) w new pre (up ++ [XPi]) (w ++ words ns) 0 (pre ++ attr_text a).
Proof.
  intros [[Hb1 Hb2] Hn He1 He2 [Hv1 Hv2]] E. unfold attr_text, pi_attr_nodes in *. set (b := a_before a) in *. set (n := a_name a) in *. set (w1 := a_eq1 a) in *. set (w2 := a_eq2 a) in *.
  set (q := quote (a_single a)) in *. set (v := concat (map piece_text (a_value a))) in *. rewrite <- !app_assoc in E.
  destruct (pi_gap up b (n ++ w1 ++ [61] ++ w2 ++ [q] ++ v ++ [q] ++ s) pre w new Hb2 Hb1) as (t0 & A0 & K0).
  { replace (n ++ w1 ++ [61] ++ w2 ++ [q] ++ v ++ [q] ++ s) with ((n ++ w1 ++ [61]) ++ w2 ++ [q] ++ v ++ [q] ++ s) by (rewrite <- !app_assoc; reflexivity).
    unfold q at 1. rewrite (pi_attr_at _ n w1 w2 (a_single a) _ Hn He1 He2). discriminate. }
  { exact E. }
  assert (E1 : text = (pre ++ b) ++ (n ++ w1 ++ [61]) ++ w2 ++ [q] ++ v ++ [q] ++ s) by (rewrite <- !app_assoc; exact E).
  assert (G : gives (AGroups [AStd AAttr; AStd AOp]) (n ++ w1 ++ [61]) [Some (0, length n); Some (length n + length w1, length n + length w1 + 1)] = [(AAttr, n); (AOp, [61])]).
  { cbn [gives gout]. rewrite slice_pre. pose proof (slice_end (n ++ w1) [61]) as Hse. cbn [length] in Hse. rewrite app_length, <- app_assoc in Hse. rewrite Hse. pose proof (xname_ne n Hn). destruct n; [congruence | reflexivity]. }
  destruct (step_out e dtd text up XPi (pre ++ b) (n ++ w1 ++ [61]) (w2 ++ [q] ++ v ++ [q] ++ s) 0 [Some (0, length n); Some (length n + length w1, length n + length w1 + 1)]
    (AGroups [AStd AAttr; AStd AOp]) (w ++ map Leaf t0) 0 I E1) as (t1 & A1 & K1).
  { pose proof (xname_ne n Hn). destruct n; [congruence | discriminate]. }
  { apply pi_attr_at; assumption. }
  { now split. } { repeat constructor. } { rewrite !app_length. cbn [length]. repeat constructor; lia. } { rewrite G. discriminate. }
  rewrite G in A1.
  assert (S2 : exists t2, map tn (map tk t2) = opt_text APiText w2 /\ R (up ++ [XPi]) ((w ++ map Leaf t0) ++ map Leaf t1) 0 ((pre ++ b) ++ n ++ w1 ++ [61]) (up ++ [XPi])
    (((w ++ map Leaf t0) ++ map Leaf t1) ++ map Leaf t2) 0 (((pre ++ b) ++ n ++ w1 ++ [61]) ++ w2)).
  { destruct w2 as [| c0 w2'] eqn:Ew; [exists []; split; [reflexivity |]; cbn [map]; rewrite !app_nil_r; apply R_refl |].
    destruct (pi_gap up (c0 :: w2') ([q] ++ v ++ [q] ++ s) ((pre ++ b) ++ n ++ w1 ++ [61]) ((w ++ map Leaf t0) ++ map Leaf t1) 0 He2 ltac:(discriminate)) as (t2 & A2 & K2).
    - unfold q. destruct (a_single a); discriminate.
    - rewrite <- !app_assoc in *. exact E1.
    - exists t2. split; [rewrite A2; reflexivity | exact K2]. }
  destruct S2 as (t2 & A2 & K2).
  assert (E5 : text = (((pre ++ b) ++ n ++ w1 ++ [61]) ++ w2) ++ [q] ++ v ++ [q] ++ s) by (rewrite <- !app_assoc; exact E).
  destruct (quoted_run XPi (if a_single a then 2 else 1) (a_single a) (a_value a) up (((pre ++ b) ++ n ++ w1 ++ [61]) ++ w2) s (((w ++ map Leaf t0) ++ map Leaf t1) ++ map Leaf t2) 0 I) with (5 := E5) as (ns & A3 & K5).
  { destruct (a_single a); reflexivity. } { destruct (a_single a); reflexivity. } { exact Hv1. } { exact Hv2. }
  exists (map Tok (t0 ++ t1 ++ t2) ++ ns). split.
  - rewrite map_app, strip_toks, !map_app, A0, A1, A2, A3. reflexivity.
  - eapply R_trans; [exact K0 |]. eapply R_trans; [exact K1 |]. eapply R_trans; [exact K2 |].
    rewrite words_app, words_toks, !map_app. rewrite <- !app_assoc in *. exact K5.
Qed.
Lemma pi_attrs_run ats : Forall (attr_ok e) ats -> forall up pre s w new, text = pre ++ attrs_text ats ++ s ->
  exists ns new', map strip ns = flat_map pi_attr_nodes ats /\ R (up ++ [XPi]) w new pre (up ++ [XPi]) (w ++ words ns) new' (pre ++ attrs_text ats).
Proof.
  induction 1 as [| a ats Ha Hats IH]; intros up pre s w new E.
  - exists [], new. split; [reflexivity |]. cbn. rewrite !app_nil_r. apply R_refl.
  - unfold attrs_text in *. cbn [map concat flat_map] in *. rewrite <- app_assoc in E. destruct (pi_attr_run a up pre _ w new Ha E) as (ns & A1 & K1). rewrite app_assoc in E.
    destruct (IH up (pre ++ attr_text a) s (w ++ words ns) 0 E) as (ns' & new' & A2 & K2). exists (ns ++ ns'), new'. split; [rewrite map_app, A1, A2; reflexivity |].
    eapply R_trans; [exact K1 |]. rewrite words_app. rewrite <- !app_assoc in *. exact K2.
Qed.
End Attrs.
