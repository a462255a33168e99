(** Runs of the lexer over names in CSS, and the items for the transform. *)
From Verif Require Import Base BaseFacts TargetModel TargetSpec LexerModel LexerSpec TargetProofs LexerProofs LexiconModel LexiconSpec TreeModel TreeSpec TreeProofs BuildModel BuildProofs
  TransformModel TransformSpec TransformTextProofs MachineProofs GeneratorProofs CssColorModel CssLangModel IniSpec CssTextSpec CssStepProofs CssCharProofs.
From Coq Require Import ZArith ZifyBool.

Section Names.
Variable e : kenv.
Hypothesis He : classes_ok e.
Variable odd : nat -> option nat.
Notation name_text := (name_text e odd).
Notation get_escape := (get_escape odd).
Notation ident_loop := (ident_loop odd).

(** ** Escapes *)
Lemma hexd_hex c : hexd c = true <-> exists v, hex c v.
Proof.
  split.
  - unfold hexd. intros H. destruct ((48 <=? c) && (c <=? 57)) eqn:E1; [exists (c - 48); replace c with (48 + (c - 48)) at 1 by lia; constructor; lia |].
    destruct ((97 <=? c) && (c <=? 102)) eqn:E2; [exists (10 + (c - 97)); replace c with (97 + (c - 97)) at 1 by lia; constructor; lia |].
    exists (10 + (c - 65)). replace c with (65 + (c - 65)) at 1 by lia. constructor. lia.
  - intros (v & H). unfold hexd. destruct H; lia.
Qed.
Lemma hex_val c v : hex c v -> (if c <=? 57 then c - 48 else if c <=? 70 then c - 55 else c - 87) = v.
Proof.
  intros H. destruct H as [n Hn | n Hn | n Hn].
  - destruct (Nat.leb_spec (48 + n) 57); lia.
  - destruct (Nat.leb_spec (97 + n) 57); [lia |]. destruct (Nat.leb_spec (97 + n) 70); lia.
  - destruct (Nat.leb_spec (65 + n) 57); [lia |]. destruct (Nat.leb_spec (65 + n) 70); lia.
Qed.
Lemma hexn_all ds k : hex_number ds k -> Forall (fun c => hexd c = true) ds.
Proof. induction 1 as [| ds k c v H IH Hc]; [constructor |]. apply Forall_app. split; [exact IH |]. constructor; [apply hexd_hex; eauto | constructor]. Qed.
Lemma filter_all {X} (f : X -> bool) l : Forall (fun x => f x = true) l -> filter f l = l.
Proof. induction 1 as [| x l Hx _ IH]; [reflexivity |]. cbn [filter]. now rewrite Hx, IH. Qed.
Lemma hexn_code ds k : hex_number ds k -> code_of ds = k.
Proof.
  intros H. unfold code_of. rewrite (filter_all _ _ (hexn_all _ _ H)). induction H as [| ds k c v H IH Hc]; [reflexivity |].
  rewrite fold_left_app. cbn [fold_left]. rewrite IH. now rewrite (hex_val c v Hc).
Qed.

(** ** The pieces of a name: an escape, or characters *)
Definition nend (s : str) : Prop := match s with [] => True | c :: _ => namechar e c = false end.
Inductive piece : str -> str -> str -> Prop :=
| pc_esc r n s : (forall s', re_escape (92 :: r ++ s') = Some (S (length r))) -> get_escape (92 :: r) = Some n -> piece (92 :: r) n s
| pc_run c r s : namechar e c = true -> Forall (fun c => namechar e c = true) r -> nend s -> piece (c :: r) (c :: r) s.
Lemma esc_piece ds k s : hex_number ds k -> 1 <= length ds <= 6 -> k < 17 * 2 ^ 16 -> piece (92 :: ds ++ [32]) [k] s.
Proof.
  intros Hn Hl Hk. pose proof (hexn_all _ _ Hn) as Ha. constructor.
  - intros s'. rewrite <- app_assoc. cbn [app]. assert (Es : span hexd (ds ++ 32 :: s') = length ds) by (apply span_app; [exact Ha | reflexivity]).
    destruct ds as [| d ds]; [cbn in Hl; lia |]. cbn [app] in *. unfold re_escape. cbn [Nat.eqb]. rewrite Es.
    rewrite Nat.min_r by lia. cbn [length nth_error]. rewrite app_length. cbn [length]. rewrite nth_error_app2 by lia. rewrite Nat.sub_diag. cbn [nth_error Nat.eqb]. f_equal.
  - destruct ds as [| d ds]; [cbn in Hl; lia |]. cbn [app]. unfold CssLangModel.get_escape. inversion Ha as [| d' ds' Hd Hds]. subst. rewrite Hd.
    assert (Ec : code_of (d :: ds ++ [32]) = code_of (d :: ds)) by (unfold code_of; change (d :: ds ++ [32]) with ((d :: ds) ++ [32]); rewrite filter_app; cbn [filter hexd Nat.leb andb orb]; now rewrite app_nil_r).
    rewrite Ec, (hexn_code _ _ Hn). unfold chr. apply Nat.ltb_lt in Hk. now rewrite Hk.
Qed.
Lemma esc_one c s : c <> 10 -> (forall v, ~ hex c v) -> odd c = None -> piece [92; c] [c] s.
Proof.
  intros H1 H2 H3. assert (Hx : hexd c = false). { destruct (hexd c) eqn:E; [| reflexivity]. apply hexd_hex in E as (v & E). destruct (H2 v E). }
  constructor.
  - intros s'. cbn. rewrite Hx. apply Nat.eqb_neq in H1. now rewrite H1.
  - cbn. rewrite Hx. apply Nat.eqb_neq in H1. now rewrite H1, H3.
Qed.
Lemma name_run t n : name_text t n -> exists t1 t2 n2, t = t1 ++ t2 /\ n = t1 ++ n2 /\ Forall (fun c => namechar e c = true) t1 /\ name_text t2 n2 /\ (t2 = [] \/ exists r, t2 = 92 :: r).
Proof.
  induction 1 as [| c t n Hc Ht (t1 & t2 & n2 & -> & -> & H1 & H2 & H3) | c t n H1 H2 H3 Ht IH | ds k t n H1 H2 H3 Ht IH].
  - exists [], [], []. repeat split; [constructor | constructor | now left].
  - exists (c :: t1), t2, n2. repeat split; try assumption. constructor; [| assumption]. unfold namechar. destruct Hc as [-> | ->]; [reflexivity | apply orb_true_r].
  - exists [], (92 :: c :: t), (c :: n). repeat split; [constructor | now constructor | right; eauto].
  - exists [], (92 :: ds ++ 32 :: t), (k :: n). repeat split; [constructor | now constructor | right; eauto].
Qed.
Lemma name_split t n s : name_text t n -> t <> [] -> nend s -> exists t1 n1 t2 n2, t = t1 ++ t2 /\ n = n1 ++ n2 /\ piece t1 n1 (t2 ++ s) /\ name_text t2 n2.
Proof.
  intros H Ht Hs. destruct H as [| c t n Hc H | c t n H1 H2 H3 H | ds k t n H1 H2 H3 H]; [congruence | | |].
  - apply name_run in H as (t1 & t2 & n2 & -> & -> & K1 & K2 & K3). exists (c :: t1), (c :: t1), t2, n2. split; [reflexivity |]. split; [reflexivity |]. split; [| exact K2].
    constructor; [unfold namechar; destruct Hc as [-> | ->]; [reflexivity | apply orb_true_r] | exact K1 |].
    destruct K3 as [-> | (r & ->)]; [exact Hs |]. cbn. asc He.
  - exists [92; c], [c], t, n. split; [reflexivity |]. split; [reflexivity |]. split; [now apply esc_one | exact H].
  - exists (92 :: ds ++ [32]), [k], t, n. split; [cbn [app]; now rewrite <- app_assoc |]. split; [reflexivity |]. split; [now apply esc_piece | exact H].
Qed.
Lemma piece_ne t n s : piece t n s -> t <> []. Proof. now destruct 1. Qed.
Lemma run_match c r s : namechar e c = true -> Forall (fun c => namechar e c = true) r -> nend s -> re_name e (c :: r ++ s) = Some (S (length r)).
Proof.
  intros Hc Hr Hs. unfold re_name. replace (span (namechar e) (c :: r ++ s)) with (length (c :: r)); [reflexivity |]. symmetry. exact (span_app (namechar e) (c :: r) s (Forall_cons c Hc Hr) Hs).
Qed.

(** ** Nodes and items *)
Notation node := (node klex kact).
Definition items (ns : list node) : list kitem := concat (map (items_of (fun _ => tt) (fun l => l) (fun _ => tt) (fun _ : unit => k_methods e odd) false) ns).
Lemma items_app a b : items (a ++ b) = items a ++ items b.
Proof. unfold items. now rewrite map_app, concat_app. Qed.
Lemma items_cons a b : items (a :: b) = items [a] ++ items b. Proof. exact (items_app [a] b). Qed.
Lemma items_toks ts : items (map Tok ts) = map IToken ts.
Proof. unfold items. rewrite map_map. cbn. induction ts as [| t ts IH]; [reflexivity |]. cbn. now rewrite IH. Qed.
Lemma items_tok t : items [Tok t] = [IToken t]. Proof. reflexivity. Qed.
(** No method raises, and there are no comments. *)
Fixpoint nocom (n : node) : bool := match n with Tok _ => true | Ctx l cs => match l with KComment => false | _ => forallb nocom cs end end.
Definition calm (ns : list node) : Prop := existsb k_raised (items ns) = false /\ forallb nocom ns = true.
Lemma items_ctx l cs : l <> KComment -> calm cs -> items [Ctx l cs] = [IObj l (k_method e odd l (items cs))].
Proof.
  intros Hl [H _]. assert (E : items [Ctx l cs] = [IObj l (k_call (k_method e odd l) (ItemList tt (items cs)))]).
  { destruct l; try reflexivity. congruence. }
  rewrite E. unfold k_call. cbn [il_items]. now rewrite H.
Qed.
Lemma calm_app a b : calm a -> calm b -> calm (a ++ b).
Proof. unfold calm. rewrite items_app, existsb_app, forallb_app. intros [-> ->] [-> ->]. split; reflexivity. Qed.
Lemma calm_nil : calm []. Proof. split; reflexivity. Qed.
Lemma calm_tok t : calm [Tok t]. Proof. split; reflexivity. Qed.
Lemma calm_toks ts : calm (map Tok ts).
Proof. unfold calm. rewrite items_toks. induction ts as [| t ts IH]; [split; reflexivity | exact IH]. Qed.
Lemma calm_ctx l cs o : l <> KComment -> calm cs -> items [Ctx l cs] = [IObj l (Some o)] -> calm [Ctx l cs].
Proof. unfold calm. intros Hl [_ H] ->. split; [reflexivity |]. cbn [forallb nocom]. rewrite H. destruct l; try reflexivity. congruence. Qed.

(** ** Runs within a lexicon *)
Variable text : str.
Notation reach := (reach k_consume (k_parse e) text).
Definition nw (ns : list node) (new : nat) : nat := match ns with [] => new | _ => 0 end.
Lemma nw_app a b new : nw (a ++ b) new = nw b (nw a new).
Proof. destruct a; [reflexivity |]. now destruct b. Qed.
Definition bnd (circ : list (nat * nat * nat)) (p : nat) : Prop := forall q d k, In (q, d, k) circ -> q <= p.
Lemma bnd_nil p : bnd [] p. Proof. intros q d k []. Qed.
Lemma okc_bnd circ p d : okc circ p d -> bnd circ p. Proof. intros H q d' k Hi. apply H in Hi. lia. Qed.
Lemma hic_bnd circ p d : hic circ p d -> bnd circ p. Proof. intros H q d' k Hi. apply H in Hi. lia. Qed.
Lemma bnd_low circ p q : bnd circ p -> p < q -> low circ q. Proof. intros H Hq r d' k Hi. apply H in Hi. lia. Qed.
Lemma len_lt (pre t : str) : t <> [] -> length pre < length (pre ++ t).
Proof. intros H. rewrite app_length. destruct t; [congruence | cbn; lia]. Qed.
Lemma len_snoc {X} (l : list X) x : length (l ++ [x]) = S (length l).
Proof. rewrite app_length. cbn. lia. Qed.
Definition seg (lex : list klex) (pre t : str) (ns : list node) : Prop := forall w new circ, bnd circ (length pre) ->
  exists circ', (t = [] /\ circ' = circ \/ okc circ' (length (pre ++ t)) (length lex)) /\
    reach (Cfg lex w new circ (length pre)) (Cfg lex (w ++ words ns) (nw ns new) circ' (length (pre ++ t))).
Lemma seg_nil lex pre : seg lex pre [] [].
Proof. intros w new circ _. exists circ. split; [now left |]. cbn. rewrite !app_nil_r. apply reach_refl. Qed.
Lemma seg_app lex pre t t' ns ns' : seg lex pre t ns -> seg lex (pre ++ t) t' ns' -> seg lex pre (t ++ t') (ns ++ ns').
Proof.
  intros H1 H2 w new circ Hb. destruct (H1 w new circ Hb) as (c1 & K1 & R1).
  assert (Hb1 : bnd c1 (length (pre ++ t))) by (destruct K1 as [(-> & ->) | K1]; [now rewrite app_nil_r | exact (okc_bnd _ _ _ K1)]).
  destruct (H2 (w ++ words ns) (nw ns new) c1 Hb1) as (c2 & K2 & R2). exists c2. split.
  - destruct K2 as [(-> & ->) | K2]; [rewrite app_nil_r; exact K1 | right; now rewrite app_assoc].
  - rewrite words_app, nw_app, !app_assoc. eapply reach_trans; [exact R1 | exact R2].
Qed.
Lemma seg_eq lex pre t t' ns ns' : seg lex pre t ns -> t = t' -> ns = ns' -> seg lex pre t' ns'.
Proof. now intros H -> ->. Qed.

Lemma words_tok t : words [@Tok klex kact t] = [Leaf t]. Proof. reflexivity. Qed.
Lemma words_ctx l cs : words [Ctx l cs] = Enter l :: words cs ++ [@Exit klex kact].
Proof. unfold words. cbn [map concat]. rewrite app_nil_r. apply word_ctx. Qed.
Lemma words_tcons t ns : words (@Tok klex kact t :: ns) = Leaf t :: words ns. Proof. reflexivity. Qed.
Lemma reach_to a b b' : reach a b -> b = b' -> reach a b'. Proof. now intros H <-. Qed.

(** A token; the stack is [up ++ [l]]. *)
Lemma seg_leaf up l pre t s i a : text = pre ++ t ++ s -> t <> [] -> pick_is e l (t ++ s) i (length t) -> rule_is e l i t (AStd a) [] -> seg (up ++ [l]) pre t [Tok (leaf pre t a)].
Proof.
  intros E Ht Hp Hr w new circ Hb. exists circ. split; [right; apply low_okc; apply (bnd_low _ _ _ Hb), len_lt, Ht |]. exact (step_leaf e He text up l pre t s i a w new circ E Ht Hp Hr).
Qed.
Lemma seg_skip up l pre t s i : text = pre ++ t ++ s -> t <> [] -> pick_is e l (t ++ s) i (length t) -> rule_is e l i t ASkip [] -> seg (up ++ [l]) pre t [].
Proof.
  intros E Ht Hp Hr w new circ Hb. exists circ. split; [right; apply low_okc; apply (bnd_low _ _ _ Hb), len_lt, Ht |].
  eapply reach_to; [exact (step_skip e He text up l pre t s i w new circ E Ht Hp Hr) |]. cbn [nw]. change (words []) with (@nil (sym klex kact)). now rewrite app_nil_r.
Qed.
Lemma seg_miss up l pre c s : text = pre ++ c :: s -> k_da l = NoDA -> k_dt l = None -> no_pick e l (c :: s) -> seg (up ++ [l]) pre [c] [].
Proof.
  intros E H1 H2 Hp w new circ Hb. exists circ. split; [right; apply low_okc; apply (bnd_low _ _ _ Hb), len_lt; discriminate |].
  eapply reach_to; [exact (step_miss e He text up l pre c s w new circ E H1 H2 Hp) |]. cbn [nw]. change (words []) with (@nil (sym klex kact)). now rewrite app_nil_r.
Qed.
Definition ctx (x : klex) (ns : list node) : list node := match ns with [] => [] | _ => [Ctx x ns] end.
Lemma ok_after (t pre : str) circ circ' d : (t = [] /\ circ' = circ \/ okc circ' (length (pre ++ t)) d) -> okc circ (length pre) d -> okc circ' (length (pre ++ t)) d.
Proof. intros [(-> & ->) | H] H0; [now rewrite app_nil_r | exact H]. Qed.
(** A token that enters a lexicon, in which there is a run, and which is left where nothing matches. *)
Lemma seg_push up l x pre t0 t s i a ns : text = pre ++ t0 ++ t ++ s -> t0 <> [] -> pick_is e l (t0 ++ t ++ s) i (length t0) -> rule_is e l i t0 (AStd a) [RLex x] -> k_consume x = false ->
  seg ((up ++ [l]) ++ [x]) (pre ++ t0) t ns -> k_da x = NoDA -> k_dt x = Some (Target 1 []) -> no_pick e x s -> s <> [] -> seg (up ++ [l]) pre (t0 ++ t) (Tok (leaf pre t0 a) :: ctx x ns).
Proof.
  intros E Ht Hp Hr Hc Hs Hda Hdt Hn Hne w new circ Hb.
  pose proof (step_go e He text up l pre t0 _ i a _ 0 [x] w new circ E Ht Hp Hr eq_refl ltac:(lia)) as R1. cbv zeta in R1. change (last_opt [x]) with (Some x) in R1. cbv iota in R1. rewrite Hc in R1. cbv iota in R1. rewrite drop_zero in R1.
  unfold g_follow, g_leave in R1. cbn [fst snd t_pop t_push Nat.leb map length] in R1. rewrite drop_zero in R1. cbn [Nat.sub Nat.add] in R1.
  destruct (Hs ((w ++ [Leaf (leaf pre t0 a)]) ++ [Enter x]) 1 [] (bnd_nil _)) as (c1 & K1 & R2).
  pose proof (ok_after _ _ _ _ _ K1 (okc_nil _ _)) as K2. rewrite (len_snoc (up ++ [l]) x) in K2.
  assert (E2 : text = ((pre ++ t0) ++ t) ++ s) by (rewrite E, <- !app_assoc; reflexivity).
  destruct (step_leave e text (up ++ [l]) x ((pre ++ t0) ++ t) s (((w ++ [Leaf (leaf pre t0 a)]) ++ [Enter x]) ++ words ns) (nw ns 1) c1 E2 Hne Hda Hdt Hn ltac:(now destruct up) K2) as (c2 & K3 & R3).
  exists c2. split; [right; rewrite app_assoc; exact K3 |]. eapply reach_trans; [exact R1 |]. eapply reach_trans; [exact R2 |]. eapply reach_to; [exact R3 |].
  rewrite app_assoc. f_equal; [| destruct ns; reflexivity]. unfold left_word. destruct ns as [| n ns].
  - cbn [nw Nat.eqb ctx]. change (words []) with (@nil (sym klex kact)). rewrite app_nil_r, removelast_last. reflexivity.
  - cbn [nw Nat.eqb ctx]. rewrite words_tcons, words_ctx. rewrite <- !app_assoc. reflexivity.
Qed.
(** The same, when the lexicon consumes the token. *)
Lemma seg_consume up l x pre t0 t s i a ns : text = pre ++ t0 ++ t ++ s -> t0 <> [] -> pick_is e l (t0 ++ t ++ s) i (length t0) -> rule_is e l i t0 (AStd a) [RLex x] -> k_consume x = true ->
  seg ((up ++ [l]) ++ [x]) (pre ++ t0) t ns -> k_da x = NoDA -> k_dt x = Some (Target 1 []) -> no_pick e x s -> s <> [] -> seg (up ++ [l]) pre (t0 ++ t) [Ctx x (Tok (leaf pre t0 a) :: ns)].
Proof.
  intros E Ht Hp Hr Hc Hs Hda Hdt Hn Hne w new circ Hb.
  pose proof (step_go e He text up l pre t0 _ i a _ 0 [x] w new circ E Ht Hp Hr eq_refl ltac:(lia)) as R1. cbv zeta in R1. change (last_opt [x]) with (Some x) in R1. cbv iota in R1. rewrite Hc in R1. cbv iota in R1. rewrite drop_zero in R1.
  unfold g_emit, g_follow, g_leave in R1. cbn [fst snd t_pop t_push Nat.leb map length] in R1. rewrite drop_zero in R1.
  destruct (Hs ((w ++ [Enter x]) ++ [Leaf (leaf pre t0 a)]) 0 [] (bnd_nil _)) as (c1 & K1 & R2).
  pose proof (ok_after _ _ _ _ _ K1 (okc_nil _ _)) as K2. rewrite (len_snoc (up ++ [l]) x) in K2.
  assert (E2 : text = ((pre ++ t0) ++ t) ++ s) by (rewrite E, <- !app_assoc; reflexivity).
  destruct (step_leave e text (up ++ [l]) x ((pre ++ t0) ++ t) s (((w ++ [Enter x]) ++ [Leaf (leaf pre t0 a)]) ++ words ns) (nw ns 0) c1 E2 Hne Hda Hdt Hn ltac:(now destruct up) K2) as (c2 & K3 & R3).
  exists c2. split; [right; rewrite app_assoc; exact K3 |]. eapply reach_trans; [exact R1 |]. eapply reach_trans; [exact R2 |]. eapply reach_to; [exact R3 |].
  assert (Hz : nw ns 0 = 0) by now destruct ns. rewrite Hz. rewrite app_assoc. f_equal. unfold left_word. cbn [Nat.eqb]. rewrite words_ctx, words_tcons. rewrite <- !app_assoc. reflexivity.
Qed.

(** ** Names *)
Definition is_named (ts : list (tok kact)) (n : str) : Prop := forall rest, ident_loop (map IToken ts ++ rest) = option_map (app n) (ident_loop rest).
Lemma is_named_nil : is_named [] []. Proof. intros rest. cbn [map app]. destruct (ident_loop rest); reflexivity. Qed.
Lemma is_named_cons t ts n1 n2 : (match k_act t with AEsc => get_escape (k_text t) | a => if is_delim a then Some [] else Some (k_text t) end) = Some n1 -> is_named ts n2 -> is_named (t :: ts) (n1 ++ n2).
Proof.
  intros H1 H2 rest. cbn [map app CssLangModel.ident_loop]. rewrite (H2 rest), H1. destruct (ident_loop rest) as [x |]; [| reflexivity]. cbn [option_map]. now rewrite app_assoc.
Qed.
Lemma named_all ts n : is_named ts n -> ident_loop (map IToken ts) = Some n.
Proof. intros H. specialize (H []). rewrite app_nil_r in H. rewrite H. cbn. now rewrite app_nil_r. Qed.
(** The action of a piece. *)
Definition pact (f : str -> kact) (t : str) : kact := match t with c :: _ => if c =? 92 then AEsc else f t | [] => f t end.
Lemma pact_name f t n s : piece t n s -> is_delim (f t) = false -> f t <> AEsc ->
  (match pact f t with AEsc => get_escape t | a => if is_delim a then Some [] else Some t end) = Some n.
Proof.
  intros [r m s' H1 H2 | c r s' Hc Hr Hs] Hd Hf.
  - exact H2.
  - cbn [pact]. assert (E : (c =? 92) = false) by cls He. rewrite E. destruct (f (c :: r)); try discriminate Hd; try reflexivity. congruence.
Qed.
Lemma ident_piece l i f up pre t1 n1 s : ident_lex e l = Some (i, f) -> text = pre ++ t1 ++ s -> piece t1 n1 s -> seg (up ++ [l]) pre t1 [Tok (leaf pre t1 (pact f t1))].
Proof.
  intros Hl E Hp. pose proof (piece_ne _ _ _ Hp) as Hne. destruct Hp as [r m s' H1 H2 | c r s' Hc Hr Hs]; cbn [app] in E.
  - apply (seg_leaf up l pre (92 :: r) s' i); [exact E | discriminate | |].
    + cbn [app length]. destruct l; try discriminate Hl; injection Hl as <- <-; pick He; apply H1.
    + destruct l; try discriminate Hl; injection Hl as <- <-; left; reflexivity.
  - assert (Ec : (c =? 92) = false) by cls He. cbn [pact]. rewrite Ec.
    apply (seg_leaf up l pre (c :: r) s' (S i)); [exact E | discriminate | |].
    + cbn [app length]. destruct l; try discriminate Hl; injection Hl as <- <-; pick He; now apply run_match.
    + destruct l; try discriminate Hl; injection Hl as <- <-; first [left; reflexivity | right; eexists; split; [reflexivity |]; intros m; reflexivity].
Qed.
Lemma ident_act l i f t : ident_lex e l = Some (i, f) -> is_delim (f t) = false /\ f t <> AEsc.
Proof.
  destruct l; try discriminate; injection 1 as <- <-; try (split; [reflexivity | discriminate]).
  - destruct (k_isprop e t); split; reflexivity || discriminate.
  - destruct (str_eqb t t_transparent); [| destruct (named e t)]; split; reflexivity || discriminate.
Qed.
Lemma ident_run l i f : ident_lex e l = Some (i, f) -> forall m t n, length t <= m -> name_text t n -> forall up pre s, text = pre ++ t ++ s -> nend s ->
  exists ts, seg (up ++ [l]) pre t (map Tok ts) /\ is_named ts n /\ (t <> [] -> ts <> []) /\ Forall (fun k => k_text k <> [37]) ts.
Proof.
  intros Hl. induction m as [| m IH]; intros t n Hm Hn up pre s E Hs.
  - destruct t; [| cbn in Hm; lia]. inversion Hn. subst. exists []. split; [apply seg_nil |]. split; [apply is_named_nil |]. split; [congruence | constructor].
  - destruct t as [| c0 t0]. { inversion Hn. subst. exists []. split; [apply seg_nil |]. split; [apply is_named_nil |]. split; [congruence | constructor]. }
    destruct (name_split _ _ s Hn ltac:(discriminate) Hs) as (t1 & n1 & t2 & n2 & Et & -> & Hp & Hn2). rewrite Et in *. pose proof (piece_ne _ _ _ Hp) as Hne.
    assert (E2 : text = (pre ++ t1) ++ t2 ++ s) by (rewrite E, <- !app_assoc; reflexivity).
    assert (E1 : text = pre ++ t1 ++ t2 ++ s) by (rewrite E, <- !app_assoc; reflexivity).
    assert (Hm2 : length t2 <= m) by (rewrite app_length in Hm; destruct t1; [congruence | cbn in Hm; lia]).
    destruct (IH t2 n2 Hm2 Hn2 up (pre ++ t1) s E2 Hs) as (ts & S2 & N2 & _ & F2).
    exists (leaf pre t1 (pact f t1) :: ts). split; [| split; [| split]].
    + exact (seg_app _ _ _ _ _ _ (ident_piece l i f up pre t1 n1 _ Hl E1 Hp) S2).
    + destruct (ident_act l i f t1 Hl) as [D1 D2]. apply is_named_cons; [exact (pact_name f t1 n1 _ Hp D1 D2) | exact N2].
    + discriminate.
    + constructor; [| exact F2]. cbn [leaf k_text]. destruct Hp as [r m' s' _ _ | c r s' Hc _ _]; [discriminate |]. intros Ex. injection Ex as Ex _. subst c. revert Hc. rewrite (name_const e He) by reflexivity. discriminate.
Qed.
End Names.
