(** Runs of the lexer over INI texts. *)
From Verif Require Import Base BaseFacts TargetModel TargetSpec LexerModel LexerSpec TargetProofs LexerProofs LexiconModel LexiconSpec TreeModel TreeSpec TreeProofs BuildModel BuildProofs
  TransformModel TransformSpec TransformTextProofs MachineProofs GeneratorProofs IniModel IniSpec.
From Coq Require Import ZArith ZifyBool.

(** The end of a run, also when lexicons were entered after the last event. *)
Section Finish.
Variables L A : Type.
Variable consume : L -> bool.
Variable parse : L -> str -> nat -> gen (item L A).
Variable text : str.
Lemma reach_finish root lex l w new circ p : reach consume parse text (Cfg [root] [] 0 [] 0) (Cfg lex w new circ p) -> last_opt lex = Some l -> parse l text p 0 = None ->
  exists n evs cs, l_run consume parse text n (l_init [root] 0) = (evs, None) /\ build_tree root (map fst evs) = Some (Ctx root cs) /\
    words cs = drop_last new w ++ repeat Exit (length lex - 1 - new).
Proof.
  intros H Hl Hp. destruct (H (l_init [root] 0) []) as (n & evs & s & E & [R1 R2 R3 R4 R5]).
  { split; reflexivity. }
  cbn in *. exists (n + 1), evs.
  assert (Es : l_step consume parse text s = None).
  { unfold l_step. rewrite R1, Hl. pose proof (R5 l Hl 0) as E0. rewrite Nat.add_0_r in E0. now rewrite E0, Hp. }
  assert (Er : l_run consume parse text (n + 1) (l_init [root] 0) = (evs, None)).
  { rewrite (run_app L A consume parse text n 1 _ _ _ E). cbn [l_run]. rewrite Es. now rewrite app_nil_r. }
  assert (Hst : stream_ok L A [root] (map fst evs)) by (eapply run_stream_ok; [discriminate | exact Er]).
  destruct (build_tree_ok L A root _ Hst) as (cs & Hb & Hw & _). exists cs. split; [exact Er |]. split; [exact Hb |]. rewrite Hw.
  pose proof (proj2 (run_stack L A consume parse text n _ _ _ _ (stack_inv_start L [root] 0 ltac:(discriminate)) E) s eq_refl) as [Hs Hlt].
  unfold f_sem in Hs. rewrite R1 in Hs. rewrite R2. unfold f_word, evs_word. rewrite app_assoc, drop_last_app by (rewrite map_length; lia).
  rewrite drop_last_map, R3. replace (drop_last (length (f_push (s_fac s))) (f_push (s_fac s))) with (@nil L) by (unfold drop_last; now rewrite Nat.sub_diag).
  cbn [map]. rewrite app_nil_r, <- app_assoc, <- repeat_app. do 2 f_equal.
  rewrite Hs, app_length, drop_last_length. lia.
Qed.
End Finish.

(** What is assumed about the patterns for marks in comments: they match text inside of a line. *)
Definition marks_ok (marks : str -> nat -> option (nat * nat)) : Prop :=
  forall text p k n, marks text p = Some (k, n) -> k < 3 /\ 0 < n /\ p + n <= length text /\ ~ In 10 (firstn n (skipn p text)).

Section Runs.
Variable marks : str -> nat -> option (nat * nat).
Hypothesis Hmarks : marks_ok marks.
Variable text : str.
Notation i_compiled := (i_compiled marks).
Notation i_parse := (i_parse marks).
Notation i_pick := (i_pick marks).
Notation reach := (reach i_consume i_parse text).
Notation wrd := (list (sym ilex iact)).

Lemma span_le f s : i_span f s <= length s.
Proof. induction s as [| c s IH]; cbn [i_span length]; [lia |]. destruct (f c); lia. Qed.
Lemma skipn_pre {X} (pre s : list X) : skipn (length pre) (pre ++ s) = s.
Proof. now rewrite skipn_app, skipn_all, Nat.sub_diag. Qed.
Lemma span_app f a s : Forall (fun c => f c = true) a -> match s with [] => True | c :: _ => f c = false end -> i_span f (a ++ s) = length a.
Proof.
  induction 1 as [| c a Hc Ha IH]; intros Hs; cbn [app i_span length].
  - destruct s as [| c s]; [reflexivity |]. cbn. now rewrite Hs.
  - rewrite Hc. now rewrite (IH Hs).
Qed.
Lemma slice_mid (pre t s : str) : slice (pre ++ t ++ s) (length pre) (length (pre ++ t)) = t.
Proof.
  unfold slice. rewrite skipn_pre, app_length. replace (length pre + length t - length pre) with (length t) by lia.
  now rewrite firstn_app, firstn_all, Nat.sub_diag, app_nil_r.
Qed.

Lemma escape_le s n : i_escape s = Some n -> 2 <= n <= length s.
Proof.
  destruct s as [| b [| c s]]; cbn [i_escape]; try discriminate. destruct (b =? 92); [| discriminate].
  destruct (i_escapable c); [injection 1 as <-; cbn; lia |].
  destruct (i_x c); cbn [andb]; [| discriminate]. destruct (i_hex4 (firstn 4 s)) eqn:E; [| discriminate]. injection 1 as <-.
  unfold i_hex4 in E. rewrite firstn_length in E. cbn [length]. lia.
Qed.
Lemma values_le s i n : i_values_at s = Some (i, n) -> 0 < n <= length s.
Proof.
  unfold i_values_at. destruct (i_escape s) as [k |] eqn:E; [intros H; injection H as <- <-; apply escape_le in E; lia |].
  pose proof (span_le i_plain s). destruct (i_span i_plain s) as [| k]; [discriminate |]. injection 1 as <- <-. lia.
Qed.
Lemma i_match_ok l : match_ok (c_match (i_compiled l)) text.
Proof.
  intros adv p m Hp. cbn [IniModel.i_compiled c_match]. destruct (i_pick l adv text p) as [[i n] |] eqn:E; [| discriminate].
  injection 1 as <-. cbn [m_start m_end].
  assert (H : n <= length (skipn p text) /\ (adv = true -> 0 < n)).
  { destruct l; cbn [IniModel.i_pick] in E.
    - destruct (skipn p text) as [| c s]; [discriminate |]. assert (n = 1) by (destruct (c =? 91), ((c =? 59) || (c =? 35)), (c =? 61); congruence). subst n. cbn. lia.
    - destruct (skipn p text) as [| c s]; [discriminate |]. assert (n = 1) by (destruct (c =? 93); congruence). subst n. cbn. lia.
    - apply values_le in E. lia.
    - apply values_le in E. lia.
    - destruct (_ && _) eqn:Ea.
      + injection E as <- <-. split; [lia |]. intros ->. rewrite andb_false_r in Ea. discriminate.
      + destruct (marks text p) as [[k m] |] eqn:Em; [| discriminate]. injection E as <- <-. destruct (Hmarks _ _ _ _ Em) as (_ & H1 & H2 & _). rewrite skipn_length. lia. }
  rewrite skipn_length in H. split; [reflexivity |]. split; [lia |]. split; [lia |]. intros Ha. destruct H as [_ H]. specialize (H Ha). lia.
Qed.

(** ** Items *)

Definition dt_of (l : ilex) : target ilex := match l with IRoot => Target 0 [IKey] | _ => Target 1 [] end.
Definition with_dt (l : ilex) : Prop := l = IRoot \/ l = IKey \/ l = IValue.
Lemma pos_lt pre (t s : str) : text = pre ++ t ++ s -> length pre <= length text.
Proof. intros ->. rewrite app_length. lia. Qed.

Lemma token_is l pre t s i a tg : text = pre ++ t ++ s -> t <> [] -> nth_error (i_rules l) i = Some (SRule a tg) ->
  token (fun _ _ => []) l (c_rules (i_compiled l)) text (Mtch (length pre) (length pre + length t) i [])
  = Item (length pre) t (act_lexemes (fun _ _ => []) text a (length pre) t (Some (Mtch (length pre) (length pre + length t) i []))) (t_make l tg).
Proof.
  intros E Ht En. unfold token. cbn [m_rule m_start m_end c_rules IniModel.i_compiled]. rewrite En.
  assert (Es : slice text (length pre) (length pre + length t) = t) by (rewrite E, <- app_length; apply slice_mid). rewrite Es. unfold mk_item. destruct t; [congruence | reflexivity].
Qed.
Lemma parse_found l pre t s i : l <> ISection -> text = pre ++ t ++ s -> t <> [] -> i_pick l false text (length pre) = Some (i, length t) ->
  i_parse l text (length pre) 0 = Some (token (fun _ _ => []) l (c_rules (i_compiled l)) text (Mtch (length pre) (length pre + length t) i [])) /\
  forall j, i_parse l text (length pre) (S j) = i_parse l text (length (pre ++ t)) j.
Proof.
  intros Hl E Ht Ef. assert (Em : c_match (i_compiled l) false text (length pre) = Some (Mtch (length pre) (length pre + length t) i [])) by (cbn [IniModel.i_compiled c_match]; now rewrite Ef).
  pose proof (pos_lt _ _ _ E) as Hlen. rewrite app_length. unfold IniModel.i_parse.
  assert (Hlt : length pre < m_end (Mtch (length pre) (length pre + length t) i [])) by (cbn; destruct t; [congruence | cbn; lia]).
  destruct l; [| congruence | | |].
  - exact (dt_some ilex iact (fun _ _ => []) IRoot (i_compiled IRoot) text eq_refl ltac:(discriminate) (Target 0 [IKey]) eq_refl eq_refl _ _ Em).
  - exact (dt_some ilex iact (fun _ _ => []) IKey (i_compiled IKey) text eq_refl ltac:(discriminate) (Target 1 []) eq_refl eq_refl _ _ Em).
  - exact (dt_some ilex iact (fun _ _ => []) IValue (i_compiled IValue) text eq_refl ltac:(discriminate) (Target 1 []) eq_refl eq_refl _ _ Em).
  - exact (da_some ilex iact (fun _ _ => []) IComment (i_compiled IComment) text eq_refl ltac:(discriminate) (i_match_ok _) ltac:(discriminate) _ _ Hlen Em Hlt).
Qed.
Lemma parse_default l p : with_dt l -> p < length text -> i_pick l false text p = None -> i_parse l text p 0 = Some (Item p [] [] (Some (dt_of l))).
Proof.
  intros Hl Hp Ef. assert (Em : c_match (i_compiled l) false text p = None) by (cbn [IniModel.i_compiled c_match]; now rewrite Ef). unfold IniModel.i_parse.
  destruct Hl as [-> | [-> | ->]].
  - exact (dt_none ilex iact (fun _ _ => []) IRoot (i_compiled IRoot) text eq_refl ltac:(discriminate) (Target 0 [IKey]) eq_refl eq_refl _ Hp Em).
  - exact (dt_none ilex iact (fun _ _ => []) IKey (i_compiled IKey) text eq_refl ltac:(discriminate) (Target 1 []) eq_refl eq_refl _ Hp Em).
  - exact (dt_none ilex iact (fun _ _ => []) IValue (i_compiled IValue) text eq_refl ltac:(discriminate) (Target 1 []) eq_refl eq_refl _ Hp Em).
Qed.
Lemma parse_end l : with_dt l -> i_parse l text (length text) 0 = None.
Proof.
  intros Hl. assert (Em : c_match (i_compiled l) false text (length text) = None).
  { cbn [IniModel.i_compiled c_match]. destruct Hl as [-> | [-> | ->]]; cbn [IniModel.i_pick]; rewrite skipn_all; reflexivity. }
  unfold IniModel.i_parse. destruct Hl as [-> | [-> | ->]].
  - exact (dt_end ilex iact (fun _ _ => []) IRoot (i_compiled IRoot) text eq_refl ltac:(discriminate) (Target 0 [IKey]) eq_refl eq_refl Em).
  - exact (dt_end ilex iact (fun _ _ => []) IKey (i_compiled IKey) text eq_refl ltac:(discriminate) (Target 1 []) eq_refl eq_refl Em).
  - exact (dt_end ilex iact (fun _ _ => []) IValue (i_compiled IValue) text eq_refl ltac:(discriminate) (Target 1 []) eq_refl eq_refl Em).
Qed.

Lemma step_item up l pre t s i a w new circ : l <> ISection -> text = pre ++ t ++ s -> t <> [] -> i_pick l false text (length pre) = Some (i, length t) ->
  nth_error (i_rules l) i = Some (SRule (AStd a) []) ->
  reach (Cfg (up ++ [l]) w new circ (length pre)) (Cfg (up ++ [l]) (w ++ [Leaf (Token (length pre) t a None)]) 0 circ (length (pre ++ t))).
Proof.
  intros Hl E Ht Ef En. destruct (parse_found l pre t s i Hl E Ht Ef) as [H0 HS].
  rewrite (token_is l pre t s i _ _ E Ht En) in H0.
  pose proof (reach_item _ _ i_consume i_parse text (up ++ [l]) l w new circ _ _ _ (last_opt_app up l) H0 eq_refl Ht HS) as H.
  cbn [i_lexemes act_lexemes] in H. destruct t; [congruence |]. exact H.
Qed.
(** From the root into a lexicon, by a character. *)
Lemma step_enter pre c s i a l w circ : text = pre ++ [c] ++ s -> i_pick IRoot false text (length pre) = Some (i, 1) ->
  nth_error (i_rules IRoot) i = Some (SRule (AStd a) [RLex l]) ->
  reach (Cfg [IRoot] w 0 circ (length pre)) (Cfg [IRoot; l] ((w ++ [Leaf (Token (length pre) [c] a None)]) ++ [Enter l]) 1 [] (length (pre ++ [c]))).
Proof.
  intros E Ef En. destruct (parse_found IRoot pre [c] s i ltac:(discriminate) E ltac:(discriminate) Ef) as [H0 _].
  rewrite (token_is IRoot pre [c] s i _ _ E ltac:(discriminate) En) in H0.
  pose proof (reach_target _ _ i_consume i_parse text [IRoot] IRoot w 0 circ _ _ (Target 0 [l]) eq_refl H0 eq_refl ltac:(discriminate)) as H.
  cbn in H. unfold g_follow, g_leave in H. cbn [fst snd t_pop t_push map length app Nat.leb] in H. cbn in H.
  rewrite ?drop_last_0, ?Nat.sub_0_r, ?firstn_all, ?app_nil_r, ?Nat.add_0_r in H. rewrite app_length. exact H.
Qed.

(** ** Default targets and circles *)

Lemma existsb_in st circ : existsb (triple_eqb st) circ = true <-> In st circ.
Proof.
  rewrite existsb_exists. split.
  - intros ([[a b] c] & H1 & H2). destruct st as [[x y] z]. unfold triple_eqb in H2. cbn in H2. assert ((x, y, z) = (a, b, c)) as -> by (f_equal; [f_equal |]; lia). exact H1.
  - intros H. exists st. split; [exact H |]. destruct st as [[x y] z]. unfold triple_eqb. cbn. lia.
Qed.
Definition okc (circ : list (nat * nat * nat)) (p : nat) : Prop := forall q, p <= q -> ~ In (q, 1, 1) circ.
Lemma okc_nil p : okc [] p. Proof. intros q _ []. Qed.
Lemma okc_le circ p q : okc circ p -> p <= q -> okc circ q.
Proof. intros H Hq r Hr. apply H. lia. Qed.

(** The root enters a key. *)
Lemma step_root w circ p : p < length text -> i_pick IRoot false text p = None -> ~ In (p, 1, 1) circ ->
  reach (Cfg [IRoot] w 0 circ p) (Cfg [IRoot; IKey] (w ++ [Enter IKey]) 1 ((p, 1, 1) :: circ) p).
Proof.
  intros Hp Ef Hc. pose proof (parse_default IRoot p (or_introl eq_refl) Hp Ef) as H0.
  pose proof (reach_default _ _ i_consume i_parse text [IRoot] IRoot w 0 circ _ _ _ eq_refl H0 eq_refl eq_refl) as H.
  cbn -[l_circle] in H. unfold g_follow, g_leave in H. cbn [fst snd t_pop t_push Nat.leb map length app] in H. unfold l_circle in H.
  destruct (existsb _ circ) eqn:Ex; [apply existsb_in in Ex; contradiction |]. rewrite ?drop_last_0, ?Nat.sub_0_r, ?firstn_all in H. exact H.
Qed.
(** It has been here before: a character is skipped. *)
Lemma step_skip w circ p : p < length text -> i_pick IRoot false text p = None -> In (p, 1, 1) circ ->
  reach (Cfg [IRoot] w 0 circ p) (Cfg [IRoot; IKey] (w ++ [Enter IKey]) 1 [] (p + 1)).
Proof.
  intros Hp Ef Hc. pose proof (parse_default IRoot p (or_introl eq_refl) Hp Ef) as H0.
  pose proof (reach_default _ _ i_consume i_parse text [IRoot] IRoot w 0 circ _ _ _ eq_refl H0 eq_refl eq_refl) as H.
  cbn -[l_circle] in H. unfold g_follow, g_leave in H. cbn [fst snd t_pop t_push Nat.leb map length app] in H. unfold l_circle in H.
  assert (Ex : existsb (triple_eqb (p, 1, length [IKey])) circ = true) by (apply existsb_in; exact Hc). cbn [length] in Ex, H. rewrite ?drop_last_0 in H. cbn [length] in H. rewrite Ex in H.
  assert (Hlt : (p <? length text) = true) by lia. rewrite Hlt in H. cbn in H. rewrite ?drop_last_0, ?Nat.sub_0_r, ?firstn_all in H. exact H.
Qed.
Definition left_word (w : wrd) (new : nat) : wrd := if new =? 0 then w ++ [Exit] else removelast w.
(** A key or a value is left. *)
Lemma step_leave l w new circ p : l = IKey \/ l = IValue -> p < length text -> i_pick l false text p = None -> new <= 1 ->
  reach (Cfg [IRoot; l] w new circ p) (Cfg [IRoot] (left_word w new) 0 (if existsb (triple_eqb (p, 1, 0)) circ then [] else (p, 1, 0) :: circ) p).
Proof.
  intros Hl Hp Ef Hn. pose proof (parse_default l p (or_intror Hl) Hp Ef) as H0.
  assert (Hd : dt_of l = Target 1 []) by (destruct Hl as [-> | ->]; reflexivity). rewrite Hd in H0.
  pose proof (reach_default _ _ i_consume i_parse text [IRoot; l] l w new circ _ _ _ eq_refl H0 eq_refl eq_refl) as H.
  cbn -[l_circle] in H. unfold g_follow, g_leave in H. cbn [fst snd t_pop t_push map length app] in H. unfold l_circle in H.
  change (length (drop_last 1 [IRoot; l])) with 1 in H. change (drop_last 1 [IRoot; l]) with [IRoot] in H. unfold left_word.
  destruct new as [| [| new]]; [| | lia]; cbn in H |- *; rewrite ?drop_last_0, ?Nat.sub_0_r, ?firstn_all, ?app_nil_r, ?Nat.add_0_r in H.
  - destruct (existsb _ circ); exact H.
  - assert (Ew : drop_last 1 w = removelast w) by (unfold drop_last; rewrite removelast_firstn_len; f_equal; lia). rewrite Ew in H. destruct (existsb _ circ); exact H.
Qed.

Lemma reach_eq a b c : reach a b -> b = c -> reach a c.
Proof. intros H <-. exact H. Qed.
Lemma reach_then a a' b c : reach a' b -> a = a' -> reach b c -> reach a c.
Proof. intros H -> H'. eapply reach_trans; eassumption. Qed.
Lemma reach_last a a' b b' : reach a' b' -> a = a' -> b' = b -> reach a b.
Proof. intros H -> <-. exact H. Qed.

(** Before a key, at the level of the root. *)
Definition before (w : wrd) (p : nat) (c : cfg ilex iact) : Prop :=
  exists circ, okc circ p /\ (c = Cfg [IRoot] w 0 circ p \/ c = Cfg [IRoot; IKey] (w ++ [Enter IKey]) 1 circ p).
(** The same, or a key or a value that has ended. *)
Definition after (w : wrd) (p : nat) (c : cfg ilex iact) : Prop :=
  exists circ, okc circ p /\ (c = Cfg [IRoot] w 0 circ p \/
    exists l w' new, (l = IKey \/ l = IValue) /\ c = Cfg [IRoot; l] w' new circ p /\ (new = 0 /\ w = w' ++ [Exit] \/ new = 1 /\ w' = w ++ [Enter l])).
Lemma before_after w p c : before w p c -> after w p c.
Proof.
  intros (circ & H1 & [H2 | H2]); exists circ; (split; [exact H1 |]); [left; exact H2 |]. right. exists IKey, (w ++ [Enter IKey]), 1. auto 8.
Qed.
Lemma leave_ok circ p : okc circ p -> okc (if existsb (triple_eqb (p, 1, 0)) circ then [] else (p, 1, 0) :: circ) p.
Proof. intros H. destruct (existsb _ _); [apply okc_nil |]. intros q Hq [E | E]; [discriminate | exact (H q Hq E)]. Qed.
Lemma removelast_snoc {X} (l : list X) x : removelast (l ++ [x]) = l.
Proof. rewrite removelast_app by discriminate. cbn. apply app_nil_r. Qed.
Lemma to_root w p c : after w p c -> p < length text -> i_pick IKey false text p = None ->
  exists circ, okc circ p /\ reach c (Cfg [IRoot] w 0 circ p).
Proof.
  intros (circ & Hc & [-> | (l & w' & new & Hl & -> & Hw)]) Hp Ef; [exists circ; split; [exact Hc | apply reach_refl] |].
  assert (Ef' : i_pick l false text p = None) by (destruct Hl as [-> | ->]; exact Ef).
  pose proof (step_leave l w' new circ p Hl Hp Ef' ltac:(destruct Hw as [[-> _] | [-> _]]; lia)) as H.
  eexists. split; [apply leave_ok; exact Hc |]. eapply reach_eq; [exact H |]. f_equal. unfold left_word.
  destruct Hw as [[-> ->] | [-> ->]]; cbn [Nat.eqb]; [reflexivity | apply removelast_snoc].
Qed.
Lemma values_none c s : In c [91; 10; 59; 61; 35; 58] -> i_values_at (c :: s) = None.
Proof. intros H. repeat destruct H as [<- | H]; try (destruct s; reflexivity). contradiction. Qed.
Lemma skip_line w pre s c : after w (length pre) c -> text = pre ++ 10 :: s -> exists c', before w (length (pre ++ [10])) c' /\ reach c c'.
Proof.
  intros Ha E. assert (Hp : length pre < length text) by (rewrite E, app_length; cbn; lia).
  assert (Es : skipn (length pre) text = 10 :: s) by (rewrite E; apply skipn_pre).
  assert (E1 : i_pick IRoot false text (length pre) = None) by (cbn [IniModel.i_pick]; rewrite Es; reflexivity).
  assert (E2 : i_pick IKey false text (length pre) = None) by (cbn [IniModel.i_pick]; rewrite Es; apply values_none; cbn; tauto).
  destruct (to_root w _ c Ha Hp E2) as (circ & Hc & H1).
  pose proof (step_root w circ _ Hp E1 (Hc _ (le_n _))) as H2.
  pose proof (step_leave IKey (w ++ [Enter IKey]) 1 ((length pre, 1, 1) :: circ) _ (or_introl eq_refl) Hp E2 (le_n _)) as H3.
  unfold left_word in H3. cbn [Nat.eqb] in H3. rewrite removelast_snoc in H3.
  exists (Cfg [IRoot; IKey] (w ++ [Enter IKey]) 1 [] (length pre + 1)). split.
  { exists []. split; [apply okc_nil |]. right. f_equal. rewrite app_length. reflexivity. }
  eapply reach_trans; [exact H1 |]. eapply reach_trans; [exact H2 |]. eapply reach_trans; [exact H3 |].
  destruct (existsb _ _).
  - eapply reach_trans; [exact (step_root w [] _ Hp E1 (fun x => x)) |].
    pose proof (step_leave IKey (w ++ [Enter IKey]) 1 [(length pre, 1, 1)] _ (or_introl eq_refl) Hp E2 (le_n _)) as H4.
    unfold left_word in H4. cbn [Nat.eqb] in H4. rewrite removelast_snoc in H4. eapply reach_trans; [exact H4 |].
    assert (Ex : existsb (triple_eqb (length pre, 1, 0)) [(length pre, 1, 1)] = false) by (cbn; unfold triple_eqb; cbn; lia). rewrite Ex.
    apply step_skip; [exact Hp | exact E1 |]. right. left. reflexivity.
  - apply step_skip; [exact Hp | exact E1 |]. right. left. reflexivity.
Qed.
Lemma enter_key w p c : before w p c -> p < length text -> i_pick IRoot false text p = None ->
  exists circ, okc circ (p + 1) /\ reach c (Cfg [IRoot; IKey] (w ++ [Enter IKey]) 1 circ p).
Proof.
  intros (circ & Hc & [-> | ->]) Hp Ef.
  - eexists. split; [| exact (step_root w circ p Hp Ef (Hc _ (le_n _)))]. intros q Hq [E | E]; [injection E as E; lia |]. apply (Hc q ltac:(lia) E).
  - exists circ. split; [eapply okc_le; [exact Hc | lia] | apply reach_refl].
Qed.
End Runs.
