(** Runs of the lexer over CSV texts, and the values of the trees that are built. *)
From Verif Require Import Base BaseFacts TargetModel TargetSpec LexerModel LexerSpec LexerProofs LexiconModel LexiconSpec TreeModel TreeSpec TreeProofs BuildModel BuildProofs
  TransformModel TransformSpec TransformTextProofs MachineProofs GeneratorProofs CsvModel CsvSpec.
From Coq Require Import ZArith ZifyBool.

Section Runs.
Variable uspace : nat -> bool.
Variable text : str.
Notation c_solid := (c_solid uspace).
Notation c_space := (c_space uspace).
Notation c_patterns := (c_patterns uspace).
Notation c_compiled := (c_compiled uspace).
Notation c_parse := (c_parse uspace).
Notation reach := (reach c_consume c_parse text).
Notation wrd := (list (sym clex cact)).

Lemma run_of_le f s : run_of f s <= length s.
Proof. induction s as [| c s IH]; cbn [run_of length]; [lia |]. destruct (f c); lia. Qed.
Lemma skipn_pre {X} (pre s : list X) : skipn (length pre) (pre ++ s) = s.
Proof. now rewrite skipn_app, skipn_all, Nat.sub_diag. Qed.
Lemma run_of_app f a s : Forall (fun c => f c = true) a -> match s with [] => True | c :: _ => f c = false end -> run_of f (a ++ s) = length a.
Proof.
  induction 1 as [| c a Hc Ha IH]; intros Hs; cbn [app run_of length].
  - destruct s as [| c s]; [reflexivity |]. cbn. now rewrite Hs.
  - rewrite Hc. now rewrite (IH Hs).
Qed.

(** ** The patterns *)

Definition pat_ok (p : cpattern) : Prop := forall s n gs, p s = Some (n, gs) -> n <= length s.
Lemma line_ok : pat_ok p_line.
Proof. intros [| c s] n gs; cbn; [injection 1 as <- <-; lia |]. unfold p_line. do 11 (destruct c as [| c]; try discriminate). injection 1 as <- <-. lia. Qed.
Lemma plain_ok : pat_ok p_plain.
Proof.
  intros s n gs. unfold p_plain. pose proof (run_of_le c_plain s). destruct (run_of c_plain s) as [| k]; [discriminate |].
  destruct (skipn (S k) s) as [| c r]; [injection 1 as <- <-; lia |]. do 34 (destruct c as [| c]; [injection 1 as <- <-; lia |]).
  destruct c as [| c]; [discriminate |]. injection 1 as <- <-. lia.
Qed.
Lemma skipn_quote {X} k (s : list X) c r : skipn k s = c :: r -> k + 1 <= length s.
Proof. intros E. apply (f_equal (@length X)) in E. rewrite skipn_length in E. cbn in E. lia. Qed.
Lemma quote_ok : pat_ok (p_quote uspace).
Proof.
  intros s n gs. unfold p_quote. cbv zeta. set (k := run_of c_blank s + _). destruct (skipn k s) as [| c r] eqn:E; [discriminate |].
  pose proof (skipn_quote _ _ _ _ E). do 34 (destruct c as [| c]; [discriminate |]). destruct c as [| c]; [| discriminate]. injection 1 as <- <-. exact H.
Qed.
Lemma comma_ok : pat_ok p_comma.
Proof. intros [| c s] n gs; [discriminate |]. unfold p_comma. do 44 (destruct c as [| c]; [discriminate |]). destruct c; [| discriminate]. injection 1 as <- <-. cbn. lia. Qed.
Lemma double_ok : pat_ok p_double.
Proof.
  intros [| c [| d s]] n gs; unfold p_double; do 34 (try (destruct c as [| c]; [discriminate |])); try discriminate; (destruct c; [| discriminate]); try discriminate.
  do 34 (destruct d as [| d]; [discriminate |]). destruct d; [| discriminate]. injection 1 as <- <-. cbn. lia.
Qed.
Lemma unquote_ok : pat_ok (p_unquote uspace).
Proof.
  intros [| c s] n gs; [discriminate |]. unfold p_unquote. do 34 (destruct c as [| c]; [discriminate |]). destruct c; [| discriminate]. cbv zeta.
  pose proof (run_of_le c_blank s). pose proof (run_of_le c_solid (skipn (run_of c_blank s) s)). rewrite skipn_length in *. injection 1 as <- <-. cbn [length]. lia.
Qed.
Lemma pick_ok ps : Forall pat_ok ps -> forall i adv s k n gs, c_pick ps i adv s = Some (k, n, gs) -> n <= length s /\ (adv = true -> 0 < n).
Proof.
  induction 1 as [| p ps Hp Hps IH]; intros i adv s k n gs; cbn [c_pick]; [discriminate |].
  destruct (p s) as [[m g] |] eqn:E; [| apply IH]. destruct adv; cbn [andb].
  - destruct (Nat.eqb_spec m 0) as [-> | Hm]; [apply IH |]. injection 1 as <- <- <-. split; [exact (Hp _ _ _ E) | lia].
  - injection 1 as <- <- <-. split; [exact (Hp _ _ _ E) | discriminate].
Qed.
Lemma pats_ok l : Forall pat_ok (c_patterns l).
Proof.
  destruct l; cbn [CsvModel.c_patterns]; repeat (apply Forall_cons || apply Forall_nil);
    first [apply line_ok | apply plain_ok | apply quote_ok | apply comma_ok | apply double_ok | apply unquote_ok].
Qed.
Definition found (l : clex) (s : str) := c_pick (c_patterns l) 0 false s.
Lemma match_at l pre s : text = pre ++ s ->
  c_match (c_compiled l) false text (length pre) =
  match found l s with Some (i, n, gs) => Some (Mtch (length pre) (length pre + n) i (map (at_pos (length pre)) gs)) | None => None end.
Proof. intros ->. cbn [CsvModel.c_compiled c_match]. now rewrite skipn_pre. Qed.
Lemma c_match_ok l : match_ok (c_match (c_compiled l)) text.
Proof.
  intros adv p m Hp. cbn [CsvModel.c_compiled c_match]. destruct (c_pick _ _ _ _) as [[[i n] gs] |] eqn:E; [| discriminate].
  injection 1 as <-. cbn. apply pick_ok in E as [H1 H2]; [| apply pats_ok]. rewrite skipn_length in H1. split; [reflexivity |]. split; [lia |]. split; [lia |].
  intros Ha. specialize (H2 Ha). lia.
Qed.
Lemma rules_ne l : l <> CRoot -> c_rules (c_compiled l) <> [].
Proof. destruct l; [congruence | discriminate | discriminate]. Qed.

(** ** Items *)

Definition the_match (pre t : str) (i : nat) (gs : list (option (nat * nat))) : mtch :=
  Mtch (length pre) (length (pre ++ t)) i (map (at_pos (length pre)) gs).
Lemma parse_found l pre t s i gs : l <> CRoot -> text = pre ++ t ++ s -> found l (t ++ s) = Some (i, length t, gs) -> t <> [] ->
  c_parse l text (length pre) 0 = Some (token (fun _ _ => []) l (c_rules (c_compiled l)) text (the_match pre t i gs)) /\
  forall j, c_parse l text (length pre) (S j) = c_parse l text (length (pre ++ t)) j.
Proof.
  intros Hl E Ef Ht. pose proof (match_at l pre (t ++ s) E) as Em. rewrite Ef in Em.
  assert (Hlen : length pre <= length text) by (rewrite E, app_length; lia).
  unfold the_match. rewrite app_length. unfold CsvModel.c_parse.
  assert (Hlt : length pre < m_end (Mtch (length pre) (length pre + length t) i (map (at_pos (length pre)) gs))) by (cbn; destruct t; [congruence | cbn; lia]).
  destruct l; [congruence | |].
  - exact (plain_some clex cact (fun _ _ => []) CRecord (c_compiled CRecord) text eq_refl (rules_ne _ Hl) (c_match_ok _) eq_refl eq_refl _ _ Hlen Em Hlt).
  - exact (da_some clex cact (fun _ _ => []) CString (c_compiled CString) text eq_refl (rules_ne _ Hl) (c_match_ok _) ltac:(discriminate) _ _ Hlen Em Hlt).
Qed.
Lemma slice_mid (pre t s : str) : slice (pre ++ t ++ s) (length pre) (length (pre ++ t)) = t.
Proof.
  unfold slice. rewrite skipn_pre, app_length. replace (length pre + length t - length pre) with (length t) by lia.
  now rewrite firstn_app, firstn_all, Nat.sub_diag, app_nil_r.
Qed.
Lemma token_is l pre t s i gs a tg : text = pre ++ t ++ s -> t <> [] -> nth_error (c_actions l) i = Some (SRule a tg) ->
  token (fun _ _ => []) l (c_rules (c_compiled l)) text (the_match pre t i gs)
  = Item (length pre) t (act_lexemes (fun _ _ => []) text a (length pre) t (Some (the_match pre t i gs))) (t_make l tg).
Proof.
  intros E Ht En. unfold token. cbn [m_rule m_start m_end c_rules CsvModel.c_compiled the_match]. rewrite En.
  assert (Es : slice text (length pre) (length (pre ++ t)) = t) by (rewrite E; apply slice_mid). rewrite Es. unfold mk_item. destruct t; [congruence | reflexivity].
Qed.

Lemma step_item up l pre t s i gs a w new circ : l <> CRoot -> text = pre ++ t ++ s -> t <> [] -> found l (t ++ s) = Some (i, length t, gs) ->
  nth_error (c_actions l) i = Some (SRule (AStd a) []) ->
  reach (Cfg (up ++ [l]) w new circ (length pre)) (Cfg (up ++ [l]) (w ++ [Leaf (Token (length pre) t a None)]) 0 circ (length (pre ++ t))).
Proof.
  intros Hl E Ht Ef En. destruct (parse_found l pre t s i gs Hl E Ef Ht) as [H0 HS].
  rewrite (token_is l pre t s i gs _ _ E Ht En) in H0.
  pose proof (reach_item _ _ c_consume c_parse text (up ++ [l]) l w new circ _ _ _ (last_opt_app up l) H0 eq_refl Ht HS) as H.
  cbn [i_lexemes act_lexemes] in H. destruct t; [congruence |]. exact H.
Qed.
(** A piece of a string. *)
Lemma step_gap up pre t s w new circ : text = pre ++ t ++ s -> t <> [] ->
  (forall a x b, t = a ++ x :: b -> found CString (x :: b ++ s) = None) -> found CString s <> None ->  s <> [] ->
  reach (Cfg (up ++ [CString]) w new circ (length pre)) (Cfg (up ++ [CString]) (w ++ [Leaf (Token (length pre) t CText None)]) 0 circ (length (pre ++ t))).
Proof.
  intros E Ht Hno Hc Hs0.
  assert (Hgap : length pre < length (pre ++ t) <= length text).
  { rewrite E, !app_length. destruct t; [congruence |]. cbn. lia. }
  assert (H1 : forall p, length pre <= p < length (pre ++ t) -> c_match (c_compiled CString) false text p = None).
  { intros p Hp. rewrite app_length in Hp. set (k := p - length pre). assert (Hk : k < length t) by (unfold k; lia).
    destruct (nth_error t k) as [x |] eqn:Ex; [| apply nth_error_None in Ex; lia].
    apply nth_error_split in Ex as (a & b & Et & Ea). rewrite Et in E.
    pose proof (match_at CString (pre ++ a) (x :: b ++ s)) as Em. rewrite (Hno a x b Et) in Em.
    rewrite app_length, Ea in Em. replace (length pre + k) with p in Em by (unfold k; lia). apply Em. rewrite E, <- !app_assoc. reflexivity. }
  assert (Hlt : length (pre ++ t) < length text) by (rewrite E, !app_length; destruct s; [congruence | cbn; lia]).
  assert (H2 : c_match (c_compiled CString) false text (length (pre ++ t)) <> None).
  { rewrite (match_at CString (pre ++ t) s) by (rewrite E, <- app_assoc; reflexivity). destruct (found _ _) as [[[i n] gs] |]; [discriminate | congruence]. }
  destruct (da_gap clex cact (fun _ _ => []) CString (c_compiled CString) text eq_refl (rules_ne CString ltac:(discriminate)) (c_match_ok _) ltac:(discriminate) (length pre) (length (pre ++ t)) Hgap H1 ltac:(lia) (fun _ => H2)) as [H0 HS].
  assert (Es : slice text (length pre) (length (pre ++ t)) = t) by (rewrite E; apply slice_mid). rewrite Es in H0. cbn [c_da CsvModel.c_compiled da_item] in H0. unfold mk_item in H0. destruct t as [| c0 t]; [congruence |].
  exact (reach_item _ _ c_consume c_parse text (up ++ [CString]) CString w new circ _ _ _ (last_opt_app up CString) H0 eq_refl ltac:(discriminate) HS).
Qed.

(** The root only enters records. *)
Lemma root_parse p : c_parse CRoot text p 0 = (if p <? length text then Some (Item p [] [] (Some (Target 0 [CRecord]))) else None).
Proof. unfold CsvModel.c_parse, lexicon_parse. cbn [c_rules CsvModel.c_compiled c_actions]. unfold parse_empty. destruct (p <? length text); reflexivity. Qed.
Lemma step_root w p : p < length text ->
  exists circ, reach (Cfg [CRoot] w 0 [] p) (Cfg [CRoot; CRecord] (w ++ [Enter CRecord]) 1 circ p).
Proof.
  intros Hp. pose proof (root_parse p) as H0. destruct (Nat.ltb_spec p (length text)); [| lia].
  pose proof (reach_default _ _ c_consume c_parse text [CRoot] CRoot w 0 [] _ _ _ eq_refl H0 eq_refl eq_refl) as HH.
  cbn in HH. unfold g_follow, g_leave in HH. cbn [fst snd t_pop t_push Nat.leb l_clip Nat.eqb negb andb map length app] in HH.
  rewrite ?drop_last_0, ?Nat.sub_0_r, ?firstn_all in HH. eexists. exact HH.
Qed.
(** The end of a line. *)
Lemma step_line pre s w new circ : text = pre ++ 10 :: s -> new <= 1 ->
  reach (Cfg [CRoot; CRecord] w new circ (length pre)) (Cfg [CRoot] (if new =? 0 then w ++ [Exit] else removelast w) 0 [] (length (pre ++ [10]))).
Proof.
  intros E Hn. assert (Ef : found CRecord ([10] ++ s) = Some (0, length [10], [])) by reflexivity.
  destruct (parse_found CRecord pre [10] s 0 [] ltac:(discriminate) E Ef ltac:(discriminate)) as [H0 _].
  rewrite (token_is CRecord pre [10] s 0 [] ASkip [RInt (-1)] E ltac:(discriminate) eq_refl) in H0.
  pose proof (reach_target _ _ c_consume c_parse text [CRoot; CRecord] CRecord w new circ _ _ (Target 1 []) eq_refl H0 eq_refl ltac:(discriminate)) as H.
  cbn in H. unfold g_follow, g_leave in H. cbn [fst snd t_pop t_push map length app] in H.
  rewrite app_length. cbn [length]. destruct new as [| [| new]]; [| | lia]; cbn in H |- *.
  - rewrite ?drop_last_0, ?Nat.sub_0_r, ?firstn_all, ?app_nil_r, ?Nat.add_0_r in H. exact H.
  - rewrite ?drop_last_0, ?Nat.sub_0_r, ?firstn_all, ?app_nil_r, ?Nat.add_0_r in H. refine (eq_ind _ (fun c => reach _ c) H _ _). f_equal. unfold drop_last. rewrite removelast_firstn_len. f_equal. lia.
Qed.
Lemma step_end w circ : exists circ',
  reach (Cfg [CRoot; CRecord] w 0 circ (length text)) (Cfg [CRoot] (w ++ [Exit]) 0 circ' (length text)).
Proof.
  assert (Hm : c_match (c_compiled CRecord) false text (length text) = Some (Mtch (length text) (length text) 0 [])).
  { rewrite (match_at CRecord text [] ltac:(now rewrite app_nil_r)). cbn. now rewrite Nat.add_0_r. }
  assert (H0 : c_parse CRecord text (length text) 0 = Some (Item (length text) [] [] (Some (Target 1 [])))).
  { unfold CsvModel.c_parse. rewrite (plain_any clex cact (fun _ _ => []) CRecord (c_compiled CRecord) text eq_refl (rules_ne CRecord ltac:(discriminate)) eq_refl eq_refl _ _ (le_n _) Hm).
    unfold token. cbn [m_rule m_start m_end c_rules CsvModel.c_compiled c_actions nth_error]. unfold slice. rewrite Nat.sub_diag. reflexivity. }
  pose proof (reach_default _ _ c_consume c_parse text [CRoot; CRecord] CRecord w 0 circ _ _ _ eq_refl H0 eq_refl eq_refl) as H.
  cbn -[l_circle] in H. unfold g_follow, g_leave in H. cbn [fst snd t_pop t_push map length app Nat.leb repeat Nat.sub] in H.
  destruct (l_circle text circ (length text) 1 []) as [q circ'] eqn:Ec. rewrite ?drop_last_0, ?Nat.sub_0_r, ?firstn_all, ?app_nil_r, ?Nat.add_0_r in H. exists circ'.
  refine (eq_ind _ (fun c => reach _ c) H _ _). f_equal. unfold l_circle in Ec. destruct (existsb _ _); injection Ec as <- <-; reflexivity.
Qed.

(** ** Fields *)

Definition items (ns : list (node clex cact)) : list citem :=
  concat (map (items_of (fun _ => tt) (fun l => l) (fun _ => tt) (fun _ : unit => c_methods) false) ns).
Lemma items_app a b : items (a ++ b) = items a ++ items b.
Proof. unfold items. now rewrite map_app, concat_app. Qed.
Lemma items_toks ts : items (map Tok ts) = map IToken ts.
Proof. unfold items. rewrite map_map. cbn. induction ts as [| t ts IH]; [reflexivity |]. cbn. now rewrite IH. Qed.
Definition mcall (l : clex) (its : list citem) : R := if existsb c_raised its then None else (match l with CRoot => m_root | CRecord => m_record | CString => m_string end) its.
Lemma items_ctx l cs : items [Ctx l cs] = [IObj l (mcall l (items cs))].
Proof. reflexivity. Qed.

Definition ends (s : str) : Prop := match s with [] => True | c :: _ => c = 44 \/ c = 10 end.
Definition fv (f : option str) : cv := match f with None => VNone | Some s => VStr s end.

Lemma plain_run a s : a <> [] -> Forall (fun c => c <> 44 /\ c <> 34 /\ ~ In c [10]) a -> ends s -> found CRecord (a ++ s) = Some (1, length a, []).
Proof.
  intros Hne Ha Hs.
  assert (Hr : run_of c_plain (a ++ s) = length a).
  { apply run_of_app.
    - eapply Forall_impl; [| exact Ha]. intros c (H1 & H2 & H3). unfold c_plain. cbn in H3. lia.
    - destruct s as [| c s]; [exact I |]. destruct Hs as [-> | ->]; reflexivity. }
  assert (H1 : p_line (a ++ s) = None).
  { destruct a as [| c a]; [congruence |]. inversion Ha as [| ? ? (_ & _ & H) _]; subst. cbn in H. cbn [app]. unfold p_line.
    do 10 (destruct c as [| c]; [reflexivity |]). destruct c as [| c]; [exfalso; apply H; now left | reflexivity]. }
  assert (H2 : p_plain (a ++ s) = Some (length a, [])).
  { unfold p_plain. rewrite Hr. destruct (length a) as [| k] eqn:Ek; [destruct a; [congruence | discriminate] |]. rewrite <- Ek, skipn_pre.
    destruct s as [| d s]; [reflexivity |]. destruct Hs as [-> | ->]; reflexivity. }
  unfold found, CsvModel.c_patterns. cbn [c_pick]. rewrite H1, H2. reflexivity.
Qed.
Lemma quote_run a s : blanks a -> found CRecord ((a ++ [34]) ++ s) = Some (2, length (a ++ [34]), [None; Some (length a, length a + 1)]).
Proof.
  intros Ha. rewrite <- app_assoc. cbn [app].
  assert (Hr : run_of c_plain (a ++ 34 :: s) = length a).
  { apply run_of_app; [| reflexivity]. eapply Forall_impl; [| exact Ha]. intros c [-> | ->]; reflexivity. }
  assert (Hb : run_of c_blank (a ++ 34 :: s) = length a).
  { apply run_of_app; [| reflexivity]. eapply Forall_impl; [| exact Ha]. intros c [-> | ->]; reflexivity. }
  assert (H1 : p_line (a ++ 34 :: s) = None) by (destruct Ha as [| c a [-> | ->] Ha]; reflexivity).
  assert (H2 : p_plain (a ++ 34 :: s) = None) by (unfold p_plain; rewrite Hr; destruct (length a) as [| k] eqn:Ek; [reflexivity |]; now rewrite <- Ek, skipn_pre).
  assert (H3 : p_quote uspace (a ++ 34 :: s) = Some (length a + 1, [None; Some (length a, length a + 1)])).
  { unfold p_quote. rewrite Hb, skipn_pre. cbn [run_of]. unfold CsvModel.c_solid at 1. cbn. rewrite Nat.add_0_r, skipn_pre. reflexivity. }
  unfold found, CsvModel.c_patterns. cbn [c_pick]. rewrite H1, H2, H3, app_length. reflexivity.
Qed.
Lemma step_open pre a s w new circ : text = pre ++ (a ++ [34]) ++ s -> blanks a ->
  reach (Cfg [CRoot; CRecord] w new circ (length pre))
    (Cfg [CRoot; CRecord; CString] (w ++ [Enter CString; Leaf (Token (length (pre ++ a)) [34] CStart None)]) 0 [] (length (pre ++ a ++ [34]))).
Proof.
  intros E Ha. assert (Ht : a ++ [34] <> []) by (destruct a; discriminate).
  destruct (parse_found CRecord pre (a ++ [34]) s _ _ ltac:(discriminate) E (quote_run a s Ha) Ht) as [H0 _].
  rewrite (token_is CRecord pre (a ++ [34]) s 2 _ _ _ E Ht eq_refl) in H0.
  pose proof (reach_target _ _ c_consume c_parse text [CRoot; CRecord] CRecord w new circ _ _ (Target 0 [CString]) eq_refl H0 eq_refl Ht) as H.
  cbn [i_lexemes i_pos i_txt act_lexemes the_match m_groups map at_pos] in H.
  assert (Es : slice text (length pre + length a) (length pre + (length a + 1)) = [34]).
  { rewrite E. replace (pre ++ (a ++ [34]) ++ s) with ((pre ++ a) ++ [34] ++ s) by now rewrite <- !app_assoc.
    rewrite <- (slice_mid (pre ++ a) [34] s) at 2. rewrite !app_length. cbn [length]. f_equal. lia. }
  rewrite Es in H. cbn in H. unfold g_follow, g_leave in H. cbn [fst snd t_pop t_push map length app Nat.leb] in H. cbn in H.
  rewrite ?drop_last_0, ?Nat.sub_0_r, ?firstn_all, ?app_nil_r, ?Nat.add_0_r in H. refine (eq_ind _ (fun c => reach _ c) H _ _). rewrite <- app_assoc. cbn [app]. rewrite !app_length. reflexivity.
Qed.
Lemma step_close pre b s w circ : text = pre ++ (34 :: b) ++ s -> blanks b -> ends s ->
  reach (Cfg [CRoot; CRecord; CString] w 0 circ (length pre))
    (Cfg [CRoot; CRecord] (w ++ [Leaf (Token (length pre) [34] CEnd None); Exit]) 0 [] (length (pre ++ 34 :: b))).
Proof.
  intros E Hb Hs.
  assert (Hr : run_of c_blank (b ++ s) = length b).
  { apply run_of_app; [eapply Forall_impl; [| exact Hb]; intros c [-> | ->]; reflexivity |].
    destruct s as [| c s]; [exact I |]. destruct Hs as [-> | ->]; reflexivity. }
  assert (Hq : run_of c_solid s = 0).
  { destruct s as [| c s]; [reflexivity |]. destruct Hs as [-> | ->]; reflexivity. }
  assert (Ef : found CString ((34 :: b) ++ s) = Some (1, length (34 :: b), [Some (0, 1); None])).
  { unfold found, CsvModel.c_patterns. cbn [c_pick app]. assert (H1 : p_double (34 :: b ++ s) = None).
    { destruct Hb as [| c b Hc Hb]; cbn [app].
      - destruct s as [| c s]; [reflexivity |]. destruct Hs as [-> | ->]; reflexivity.
      - destruct Hc as [-> | ->]; reflexivity. }
    rewrite H1. unfold p_unquote. rewrite Hr, skipn_pre, Hq. cbn. now rewrite Nat.add_0_r. }
  destruct (parse_found CString pre (34 :: b) s _ _ ltac:(discriminate) E Ef ltac:(discriminate)) as [H0 _].
  rewrite (token_is CString pre (34 :: b) s 1 _ _ _ E ltac:(discriminate) eq_refl) in H0.
  pose proof (reach_target _ _ c_consume c_parse text [CRoot; CRecord; CString] CString w 0 circ _ _ (Target 1 []) eq_refl H0 eq_refl ltac:(discriminate)) as H.
  cbn [i_lexemes i_pos i_txt act_lexemes the_match m_groups map at_pos] in H.
  assert (Es : slice text (length pre + 0) (length pre + 1) = [34]).
  { rewrite Nat.add_0_r, E. change ((34 :: b) ++ s) with ([34] ++ b ++ s). rewrite <- (slice_mid pre [34] (b ++ s)) at 2. now rewrite !app_length. }
  rewrite Es in H. cbn in H. unfold g_follow, g_leave in H. cbn [fst snd t_pop t_push map length app Nat.leb] in H. cbn in H.
  rewrite ?drop_last_0, ?Nat.sub_0_r, ?firstn_all, ?app_nil_r, ?Nat.add_0_r in H. refine (eq_ind _ (fun c => reach _ c) H _ _). rewrite <- app_assoc. cbn [app]. rewrite !app_length. reflexivity.
Qed.

Lemma reach_eq a b c : reach a b -> b = c -> reach a c.
Proof. intros H <-. exact H. Qed.
Lemma reach_then a a' b c : reach a' b -> a = a' -> reach b c -> reach a c.
Proof. intros H -> H'. eapply reach_trans; eassumption. Qed.
Lemma reach_last a a' b b' : reach a' b' -> a = a' -> b' = b -> reach a b.
Proof. intros H -> <-. exact H. Qed.
Ltac norm := repeat (progress (rewrite ?map_app, ?app_nil_r; cbn [map app repeat length]; rewrite <- ?app_assoc; cbn [app])); reflexivity.
Ltac chain H := eapply reach_then; [exact H | f_equal; norm |].
Ltac finish H := eapply reach_last; [exact H | f_equal; norm | f_equal; norm].

(** ** Strings *)

Definition inner (t : tok cact) : Prop := k_act t = CText \/ k_act t = CEscape.
Lemma found_text c s : c <> 34 -> found CString (c :: s) = None.
Proof.
  intros H. unfold found, CsvModel.c_patterns. cbn [c_pick]. unfold p_double, p_unquote.
  do 34 (destruct c as [| c]; [reflexivity |]). destruct c; [congruence | reflexivity].
Qed.
Lemma gap_opt pre r s w circ : text = pre ++ r ++ 34 :: s -> Forall (fun c => c <> 34) r ->
  exists ts, c_join (map IToken ts) = Some r /\ Forall inner ts /\
    reach (Cfg [CRoot; CRecord; CString] w 0 circ (length pre)) (Cfg [CRoot; CRecord; CString] (w ++ map Leaf ts) 0 circ (length (pre ++ r))).
Proof.
  intros E Hr. destruct r as [| x r].
  - exists []. split; [reflexivity |]. split; [constructor |]. cbn [map]. rewrite !app_nil_r. apply reach_refl.
  - exists [Token (length pre) (x :: r) CText None]. split; [cbn; now rewrite app_nil_r |]. split; [repeat constructor |].
    apply (step_gap [CRoot; CRecord] pre (x :: r) (34 :: s) w 0 circ E ltac:(discriminate)); [| | discriminate].
    + intros a y b Eq. apply found_text. rewrite Eq in Hr. apply Forall_app in Hr as [_ Hr]. now inversion Hr.
    + unfold found, CsvModel.c_patterns. cbn [c_pick]. destruct (p_double (34 :: s)) as [[? ?] |]; discriminate.
Qed.
Lemma join_app a b : c_join (a ++ b) = match c_join a, c_join b with Some x, Some y => Some (x ++ y) | _, _ => None end.
Proof.
  induction a as [| i a IH]; cbn [app c_join]; [destruct (c_join b); reflexivity |]. destruct i as [t | ? ? | ?]; try reflexivity. rewrite IH.
  destruct (c_join a) as [x |]; [| reflexivity]. destruct (c_join b) as [y |]; cbn; [| reflexivity]. now rewrite app_assoc.
Qed.
Lemma quoted_run t s : quoted t s -> forall r pre u w circ, text = pre ++ r ++ t ++ 34 :: u -> Forall (fun c => c <> 34) r ->
  exists ts, c_join (map IToken ts) = Some (r ++ s) /\ Forall inner ts /\
    reach (Cfg [CRoot; CRecord; CString] w 0 circ (length pre)) (Cfg [CRoot; CRecord; CString] (w ++ map Leaf ts) 0 circ (length (pre ++ r ++ t))).
Proof.
  induction 1 as [| c t s Hc Ht IH | t s Ht IH]; intros r pre u w circ E Hr.
  - cbn [app] in E. rewrite !app_nil_r. exact (gap_opt pre r u w circ E Hr).
  - destruct (IH (r ++ [c]) pre u w circ) as (ts & H1 & H2 & H3).
    { rewrite E, <- app_assoc. reflexivity. }
    { apply Forall_app. split; [exact Hr | now constructor]. }
    exists ts. rewrite <- app_assoc in H1. split; [exact H1 |]. split; [exact H2 |]. finish H3.
  - destruct (gap_opt pre r (34 :: t ++ 34 :: u) w circ E Hr) as (ts1 & A1 & A2 & A3).
    assert (Ef : found CString ([34; 34] ++ t ++ 34 :: u) = Some (0, length [34; 34], [])) by reflexivity.
    assert (E1 : text = (pre ++ r) ++ [34; 34] ++ t ++ 34 :: u) by (rewrite E, <- app_assoc; reflexivity).
    pose proof (step_item [CRoot; CRecord] CString (pre ++ r) [34; 34] _ 0 [] CEscape (w ++ map Leaf ts1) 0 circ ltac:(discriminate) E1 ltac:(discriminate) Ef eq_refl) as B.
    destruct (IH [] ((pre ++ r) ++ [34; 34]) u ((w ++ map Leaf ts1) ++ [Leaf (Token (length (pre ++ r)) [34; 34] CEscape None)]) circ) as (ts2 & C1 & C2 & C3).
    { rewrite E, <- !app_assoc. reflexivity. }
    { constructor. }
    exists (ts1 ++ Token (length (pre ++ r)) [34; 34] CEscape None :: ts2). split; [| split].
    + rewrite map_app, join_app, A1. cbn [map c_join k_act]. rewrite C1. reflexivity.
    + apply Forall_app. split; [exact A2 |]. constructor; [right; reflexivity | exact C2].
    + chain A3. chain B. finish C3.
Qed.
Lemma rev_strip l : Forall inner l -> strip_rev (rev (map (IToken (L := clex) (R := R) (Name := clex)) l)) = rev (map IToken l).
Proof.
  intros H. destruct l as [| t l _] using rev_ind; [reflexivity |]. rewrite map_app, rev_app_distr. cbn.
  apply Forall_app in H as [_ H]. inversion H as [| ? ? Ht _]; subst. unfold closing. cbn. destruct Ht as [-> | ->]; reflexivity.
Qed.
Lemma string_value p q ts s : Forall inner ts -> c_join (map IToken ts) = Some s ->
  mcall CString (IToken (Token p [34] CStart None) :: map IToken ts ++ [IToken (Token q [34] CEnd None)]) = Some (VStr s).
Proof.
  intros H1 H2. unfold mcall.
  assert (Hr : existsb c_raised (IToken (Token p [34] CStart None) :: map IToken ts ++ [IToken (Token q [34] CEnd None)]) = false).
  { cbn [existsb c_raised orb]. rewrite existsb_app. cbn. rewrite orb_false_r. clear. induction ts as [| t ts IH]; [reflexivity | exact IH]. }
  rewrite Hr. unfold m_string. cbn [strip_start]. unfold opening at 1. cbn [act_of k_act].
  assert (Hs : strip_start (map IToken ts ++ [IToken (Token q [34] CEnd None)]) = Some (map IToken ts ++ [IToken (Token q [34] CEnd None)])).
  { destruct H1 as [| t ts Ht Hts]; [reflexivity |]. cbn [map app strip_start]. unfold opening. cbn [act_of]. destruct Ht as [-> | ->]; reflexivity. }
  rewrite Hs, rev_app_distr. cbn [rev app strip_rev]. unfold closing at 1. cbn [act_of k_act]. rewrite (rev_strip ts H1), rev_involutive, H2. reflexivity.
Qed.

(** ** Fields and rows *)

Definition no_comma (l : list citem) : Prop := Forall (fun i => is_comma i = false) l.
Lemma field_run f t pre s w new circ : field_text [10] f t -> text = pre ++ t ++ s -> ends s ->
  exists ns new' circ', field_of (items ns) = Some (fv f) /\ no_comma (items ns) /\ existsb c_raised (items ns) = false /\ (new' = 0 \/ new' = new /\ t = []) /\
    reach (Cfg [CRoot; CRecord] w new circ (length pre)) (Cfg [CRoot; CRecord] (w ++ words ns) new' circ' (length (pre ++ t))).
Proof.
  intros H E Hs. destruct H as [| t Hne Ht | a t b v Ha Ht Hb].
  - exists [], new, circ. split; [reflexivity |]. split; [constructor |]. split; [reflexivity |]. split; [right; split; reflexivity |]. cbn. rewrite !app_nil_r. apply reach_refl.
  - exists [Tok (Token (length pre) t CName None)], 0, circ. split; [reflexivity |]. split; [| split; [reflexivity |]].
    + constructor; [| constructor]. cbn. destruct t as [| c t]; [reflexivity |]. inversion Ht as [| ? ? (Hc & _) _]; subst. cbn. destruct (Nat.eqb_spec c 44); [congruence | reflexivity].
    + split; [now left |].
      exact (step_item [CRoot] CRecord pre t s 1 [] CName w new circ ltac:(discriminate) E Hne (plain_run t s Hne Ht Hs) eq_refl).
  - assert (E1 : text = pre ++ (a ++ [34]) ++ t ++ 34 :: b ++ s) by (rewrite E, <- !app_assoc; cbn [app]; rewrite <- app_assoc; reflexivity).
    pose proof (step_open pre a _ w new circ E1 Ha) as H1.
    destruct (quoted_run t v Ht [] (pre ++ a ++ [34]) (b ++ s) (w ++ [Enter CString; Leaf (Token (length (pre ++ a)) [34] CStart None)]) []) as (ts & J1 & J2 & J3).
    { rewrite E1, <- !app_assoc. reflexivity. }
    { constructor. }
    assert (E2 : text = ((pre ++ a ++ [34]) ++ [] ++ t) ++ (34 :: b) ++ s) by (rewrite E1, <- !app_assoc; reflexivity).
    pose proof (step_close _ b s ((w ++ [Enter CString; Leaf (Token (length (pre ++ a)) [34] CStart None)]) ++ map Leaf ts) [] E2 Hb Hs) as H3.
    set (p := length (pre ++ a)) in *. set (q := length ((pre ++ a ++ [34]) ++ [] ++ t)) in *.
    exists [Ctx CString (Tok (Token p [34] CStart None) :: map Tok ts ++ [Tok (Token q [34] CEnd None)])], 0, [].
    assert (Ev : items [Ctx CString (Tok (Token p [34] CStart None) :: map Tok ts ++ [Tok (Token q [34] CEnd None)])] = [IObj CString (Some (VStr v))]).
    { rewrite items_ctx. f_equal. f_equal. change (Tok (Token p [34] CStart None) :: map Tok ts ++ [Tok (Token q [34] CEnd None)])
        with (map (@Tok clex cact) [Token p [34] CStart None] ++ map Tok ts ++ map Tok [Token q [34] CEnd None]). rewrite !items_app, !items_toks. exact (string_value p q ts v J2 J1). }
    rewrite Ev. split; [reflexivity |]. split; [repeat constructor |]. split; [reflexivity |]. split; [now left |].
    eapply reach_then; [exact H1 | reflexivity |]. eapply reach_then; [exact J3 | reflexivity |].
    eapply reach_last; [exact H3 | reflexivity |]. f_equal.
    + unfold words at 1. cbn [map concat]. rewrite word_ctx, words_cons, words_app, words_toks. rewrite app_nil_r. cbn. rewrite <- !app_assoc. reflexivity.
    + f_equal. rewrite <- !app_assoc. reflexivity.
Qed.
Lemma split_field a b cur : no_comma a -> c_split (a ++ IToken (Token b [44] CSeparator None) :: cur) [] = a :: c_split cur [].
Proof.
  intros H. assert (G : forall k, c_split (a ++ IToken (Token b [44] CSeparator None) :: cur) k = (k ++ a) :: c_split cur []).
  { induction H as [| i a Hi Ha IH]; intros k; cbn [app c_split].
    - cbn. now rewrite app_nil_r.
    - rewrite Hi, IH, <- app_assoc. reflexivity. }
  exact (G []).
Qed.
Lemma split_last a : no_comma a -> c_split a [] = [a].
Proof.
  intros H. assert (G : forall k, c_split a k = [k ++ a]).
  { induction H as [| i a Hi Ha IH]; intros k; cbn [c_split]; [now rewrite app_nil_r |]. rewrite Hi, IH, <- app_assoc. reflexivity. }
  exact (G []).
Qed.
Lemma row_run r t : row_text [10] r t -> forall pre s w new circ, text = pre ++ t ++ s -> (match s with [] => True | c :: _ => c = 10 end) ->
  exists ns new' circ', fields_of (c_split (items ns) []) = Some (map fv r) /\ existsb c_raised (items ns) = false /\ (new' = 0 \/ new' = new /\ t = []) /\
    reach (Cfg [CRoot; CRecord] w new circ (length pre)) (Cfg [CRoot; CRecord] (w ++ words ns) new' circ' (length (pre ++ t))).
Proof.
  induction 1 as [f t Hf | f t r u Hf Hr IH]; intros pre s w new circ E Hs.
  - assert (Hs' : ends s) by (destruct s as [| c s]; [exact I | right; exact Hs]).
    destruct (field_run f t pre s w new circ Hf E Hs') as (ns & new' & circ' & H1 & H2 & H3 & H4 & H5). exists ns, new', circ'.
    split; [| split; [exact H3 |]; split; [exact H4 | exact H5]]. rewrite (split_last _ H2). cbn [fields_of map]. now rewrite H1.
  - rewrite <- app_assoc in E. cbn [app] in E.
    destruct (field_run f t pre (44 :: u ++ s) w new circ Hf E ltac:(left; reflexivity)) as (ns & new' & circ' & H1 & H2 & H3 & _ & H5).
    assert (E1 : text = (pre ++ t) ++ [44] ++ u ++ s) by (rewrite E, <- app_assoc; reflexivity).
    assert (Ef : found CRecord ([44] ++ u ++ s) = Some (3, length [44], [])) by reflexivity.
    pose proof (step_item [CRoot] CRecord (pre ++ t) [44] (u ++ s) 3 [] CSeparator (w ++ words ns) new' circ' ltac:(discriminate) E1 ltac:(discriminate) Ef eq_refl) as H6.
    assert (E2 : text = ((pre ++ t) ++ [44]) ++ u ++ s) by (rewrite E1, <- !app_assoc; reflexivity).
    destruct (IH ((pre ++ t) ++ [44]) s ((w ++ words ns) ++ [Leaf (Token (length (pre ++ t)) [44] CSeparator None)]) 0 circ' E2 Hs) as (ms & new2 & circ2 & K1 & K2 & K3 & K4).
    exists (ns ++ Tok (Token (length (pre ++ t)) [44] CSeparator None) :: ms), new2, circ2.
    assert (Ei : items (ns ++ Tok (Token (length (pre ++ t)) [44] CSeparator None) :: ms) = items ns ++ IToken (Token (length (pre ++ t)) [44] CSeparator None) :: items ms)
      by (rewrite items_app; reflexivity).
    rewrite Ei. split; [| split; [| split]].
    + rewrite (split_field _ _ _ H2). cbn [fields_of map]. now rewrite H1, K1.
    + rewrite existsb_app, H3. exact K2.
    + left. destruct K3 as [K3 | [K3 _]]; exact K3.
    + chain H5. chain H6. eapply reach_last; [exact K4 | reflexivity |]. f_equal; [rewrite words_app, words_cons |]; norm.
Qed.

(** ** Tables *)

Lemma record_value ns r : existsb c_raised (items ns) = false -> fields_of (c_split (items ns) []) = Some (map fv r) ->
  items [Ctx CRecord ns] = [IObj CRecord (Some (VTuple (map fv r)))].
Proof. intros H1 H2. rewrite items_ctx. unfold mcall, m_record. now rewrite H1, H2. Qed.
Definition rows_of (ns : list (node clex cact)) (rs : list (list (option str))) : Prop :=
  items ns = map (fun r => IObj CRecord (Some (VTuple (map fv r)))) rs.
Lemma table_run rs u : table_text [10] rs u -> forall pre w, text = pre ++ u ->
  exists ns circ, rows_of ns rs /\ reach (Cfg [CRoot] w 0 [] (length pre)) (Cfg [CRoot] (w ++ words ns) 0 circ (length text)).
Proof.
  induction 1 as [| r t Hr Ht | r t rs u Hr Ht Hu IH | rs u Hu IH]; intros pre w E.
  - exists [], []. split; [reflexivity |]. rewrite E, !app_nil_r. apply reach_refl.
  - destruct (step_root w (length pre)) as [c0 H0]; [rewrite E, app_length; destruct t; [congruence | cbn; lia] |].
    assert (E1 : text = pre ++ t ++ []) by now rewrite app_nil_r.
    destruct (row_run r t Hr pre [] (w ++ [Enter CRecord]) 1 c0 E1 I) as (ns & new & c1 & H1 & H2 & H3 & H4).
    destruct H3 as [-> | [_ H3]]; [| congruence]. rewrite <- E in H4.
    destruct (step_end ((w ++ [Enter CRecord]) ++ words ns) c1) as [c2 H5].
    exists [Ctx CRecord ns], c2. split; [exact (record_value ns r H2 H1) |].
    chain H0. chain H4. eapply reach_last; [exact H5 | reflexivity |]. f_equal. unfold words at 2. cbn [map concat]. rewrite word_ctx. norm.
  - cbn [app] in E.
    destruct (step_root w (length pre)) as [c0 H0]; [rewrite E, app_length; destruct t; [congruence | cbn; lia] |].
    destruct (row_run r t Hr pre (10 :: u) (w ++ [Enter CRecord]) 1 c0 E eq_refl) as (ns & new & c1 & H1 & H2 & H3 & H4).
    destruct H3 as [-> | [_ H3]]; [| congruence].
    assert (E1 : text = (pre ++ t) ++ 10 :: u) by (rewrite E, <- app_assoc; reflexivity).
    pose proof (step_line (pre ++ t) u ((w ++ [Enter CRecord]) ++ words ns) 0 c1 E1 ltac:(lia)) as H5. cbn [Nat.eqb] in H5.
    destruct (IH ((pre ++ t) ++ [10]) (((w ++ [Enter CRecord]) ++ words ns) ++ [Exit])) as (ms & c2 & K1 & K2); [rewrite E1, <- !app_assoc; reflexivity |].
    exists (Ctx CRecord ns :: ms), c2. split.
    + unfold rows_of in *. change (Ctx CRecord ns :: ms) with ([Ctx CRecord ns] ++ ms). rewrite items_app, (record_value ns r H2 H1), K1. reflexivity.
    + chain H0. chain H4. chain H5. eapply reach_last; [exact K2 | reflexivity |]. f_equal. rewrite words_cons, word_ctx. norm.
  - cbn [app] in E. destruct (step_root w (length pre)) as [c0 H0]; [rewrite E, app_length; cbn; lia |].
    pose proof (step_line pre u (w ++ [Enter CRecord]) 1 c0 E ltac:(lia)) as H5. cbn [Nat.eqb] in H5.
    rewrite removelast_app in H5 by discriminate. cbn [removelast] in H5. rewrite app_nil_r in H5.
    destruct (IH (pre ++ [10]) w) as (ms & c2 & K1 & K2); [rewrite E, <- app_assoc; reflexivity |].
    exists ms, c2. split; [exact K1 |]. chain H0. chain H5. exact K2.
Qed.

Lemma quiet_csv n : none_untransformed (fun _ => tt) (fun l => l) (fun _ : unit => c_methods) false n.
Proof. induction n as [t | l cs IH] using node_ind'; [exact I |]. cbn. induction IH as [| c cs Hc Hcs IH']; cbn; auto. Qed.
Lemma methods_all l : method_of (fun _ => tt) (fun l => l) (fun _ : unit => c_methods) l <> None.
Proof. discriminate. Qed.
Lemma read_tree evs cs : stream_ok clex cact [CRoot] evs -> build_tree CRoot evs = Some (Ctx CRoot cs) -> c_read evs = Some (Some (mcall CRoot (items cs))).
Proof.
  intros Hst Hb. unfold c_read.
  rewrite (proj1 (text_ok clex cact R unit clex unit (fun _ => tt) (fun l => l) (fun _ => tt) (fun _ _ => true) ltac:(intros [] []; tauto)
    (fun _ => c_methods) CRoot evs (Ctx CRoot cs) Hst Hb (quiet_csv _))); [reflexivity |].
  left. apply Forall_forall. intros l _. exact (methods_all l).
Qed.
Lemma rows_value ns rs : rows_of ns rs -> mcall CRoot (items ns) = Some (VList (map (fun r => VTuple (map fv r)) rs)).
Proof.
  unfold rows_of. intros ->. unfold mcall.
  assert (H1 : existsb c_raised (map (fun r => IObj CRecord (Some (VTuple (map fv r)))) rs) = false) by (induction rs; [reflexivity | assumption]).
  rewrite H1. unfold m_root.
  assert (H2 : c_objs (map (fun r => IObj CRecord (Some (VTuple (map fv r)))) rs) = Some (map (fun r => VTuple (map fv r)) rs)).
  { clear H1. induction rs as [| r rs IH]; [reflexivity |]. cbn [map c_objs]. now rewrite IH. }
  now rewrite H2.
Qed.
Theorem table_read rs : table_text [10] rs text ->
  exists n evs cs, l_run c_consume c_parse text n (l_init [CRoot] 0) = (evs, None) /\ build_tree CRoot (map fst evs) = Some (Ctx CRoot cs)
    /\ mcall CRoot (items cs) = Some (VList (map (fun r => VTuple (map fv r)) rs)).
Proof.
  intros H. destruct (table_run rs text H [] [] eq_refl) as (ns & circ & H1 & H2). cbn [length app] in H2.
  assert (He : c_parse CRoot text (length text) 0 = None) by (rewrite root_parse, Nat.ltb_irrefl; reflexivity).
  destruct (reach_end _ _ _ _ _ CRoot [CRoot] CRoot (words ns) circ (length text) H2 eq_refl He) as (n & evs & cs & Hr & Hb & Hw).
  cbn [length Nat.sub repeat] in Hw. rewrite app_nil_r in Hw. apply words_inj in Hw. subst cs.
  exists n, evs, ns. split; [exact Hr |]. split; [exact Hb |]. exact (rows_value ns rs H1).
Qed.
End Runs.
