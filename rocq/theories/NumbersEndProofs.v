(** Lexing a text with numerals ends, whatever is in the text. *)
From Verif Require Import Base BaseFacts TargetModel TargetSpec LexerModel LexerSpec TargetProofs LexerProofs LexiconModel LexiconSpec TreeModel TreeSpec TreeProofs BuildModel BuildProofs
  TransformModel TransformSpec TransformTextProofs MachineProofs GeneratorProofs IniRunProofs NumbersModel NumbersSpec NumbersRunProofs NumbersLevelProofs NumbersTotalProofs.
From Coq Require Import ZArith ZifyBool String.
Open Scope string_scope. Open Scope list_scope. Open Scope nat_scope.
Notation length := List.length.

(** ** Matches go forward *)

Definition forward (rules : list (action nlex nact * list (ritem nlex))) (s : str) (h : hit) : Prop :=
  let '(i, n, gs) := h in
  0 < n <= length s /\
  exists a tg, nth_error rules i = Some (a, tg) /\
    ((a = ASkip /\ tg = []) \/
     exists push, tg = OUT ++ map RLex push /\ (push = [] \/ push = [NP1]) /\ (a = NUMBER \/ (a = PAIR /\ exists k r, gs = Some (0, k) :: r /\ 0 < k <= length s))).
Section Forward.
Variable uspace : nat -> bool.
Variable umatch : nat -> nat -> bool.
Notation longest := (longest umatch).
Definition no_empty (ws : list str) : Prop := Forall (fun w => w <> []) ws.
Lemma starts_length w : forall s, starts umatch w s = true -> length w <= length s.
Proof. clear uspace. induction w as [| p w IH]; intros s H; [cbn; lia |]. destruct s as [| c s]; [discriminate |]. cbn [starts] in H. apply andb_true_iff in H as [_ H]. apply IH in H. cbn [length]. lia. Qed.
Lemma longest_fits ws s n : no_empty ws -> longest ws s = Some n -> 0 < n <= length s.
Proof.
  clear uspace. intros Hw H. destruct (longest_some umatch ws s n H) as (w & Hin & Hst & ->). split; [| exact (starts_length _ _ Hst)]. unfold no_empty in Hw. rewrite Forall_forall in Hw. specialize (Hw w Hin). destruct w; [congruence | cbn; lia].
Qed.
Lemma span_fits f s : n_span f s <= length s.
Proof. clear uspace umatch. induction s as [| c s IH]; [cbn; lia |]. cbn [n_span length]. destruct (f c); lia. Qed.
Lemma sep_forward rules s h r : rules = (ASkip, []) :: r -> sep_hit uspace s = Some h -> forward rules s h.
Proof.
  intros -> H. unfold sep_hit in H. pose proof (span_fits (n_sep uspace) s) as Hl. destruct (n_span _ s) as [| n]; [discriminate |]. injection H as <-. cbn [forward]. split; [lia |]. exists ASkip, []. split; [reflexivity | now left].
Qed.
Lemma one_forward rules i ws s h push : nth_error rules i = Some (NUMBER, OUT ++ map RLex push) -> push = [] \/ push = [NP1] -> no_empty ws -> one_hit i (longest ws s) = Some h -> forward rules s h.
Proof.
  intros Hn Hp Hw H. unfold one_hit in H. destruct (longest ws s) as [n |] eqn:E; [| discriminate]. injection H as <-. cbn [forward]. split; [exact (longest_fits _ _ _ Hw E) |].
  exists NUMBER, (OUT ++ map RLex push). split; [exact Hn |]. right. exists push. tauto.
Qed.
Lemma two_fits ws vs glue s a x : no_empty ws -> no_empty vs -> two umatch ws vs glue s = Some (a, x) -> 0 < a <= length s /\ match x with None => True | Some (p, b) => p + b <= length s /\ 0 < b end.
Proof.
  intros Hw Hv H. unfold two in H. destruct (longest ws s) as [a' |] eqn:E; [| discriminate]. injection H as -> <-. split; [exact (longest_fits _ _ _ Hw E) |].
  destruct (glue (skipn a s)) as [q |]; [| exact I]. destruct (longest vs (skipn (a + q) s)) as [b |] eqn:E2; [| exact I]. pose proof (longest_fits _ _ _ Hv E2) as Hb. rewrite skipn_length in Hb. lia.
Qed.
Lemma two_forward rules i o s h : nth_error rules i = Some (PAIR, OUT) -> (forall a x, o = Some (a, x) -> 0 < a <= length s /\ match x with None => True | Some (p, b) => p + b <= length s /\ 0 < b end) ->
  two_hit i o = Some h -> forward rules s h.
Proof.
  intros Hn Ho H. unfold two_hit in H. destruct o as [[a x] |]; [| discriminate]. destruct (Ho a x eq_refl) as [H1 H2].
  destruct x as [[p b] |]; injection H as <-; cbn [forward]; (split; [lia |]); exists PAIR, OUT; (split; [exact Hn |]); right; exists []; (split; [reflexivity |]); (split; [now left |]); right; (split; [reflexivity |]); exists a; eexists; (split; [reflexivity | exact H1]).
Qed.
Lemma no_empty_dec ws : forallb (fun w : str => match w with [] => false | _ => true end) ws = true -> no_empty ws.
Proof. intros H. rewrite forallb_forall in H. apply Forall_forall. intros w Hw. specialize (H w Hw). intros ->. discriminate. Qed.

Definition lang_forward (g : nlang) : Prop :=
  (forall s h, g_99 g s = Some h -> forward (g_99rules g) s h) /\ no_empty (g_100 g) /\ no_empty (g_1000 g) /\ no_empty (g_1000000 g).
Lemma english_forward : lang_forward (english uspace umatch).
Proof.
  split; [| repeat split; apply no_empty_dec; reflexivity].
  intros s h H. apply first_of_in in H. cbn [In] in H. destruct H as [H | [H | [H | []]]].
  - exact (sep_forward _ s h _ eq_refl H).
  - eapply (one_forward _ 1 EN_TENS s h [NP1]); [reflexivity | now right | | exact H]. apply no_empty_dec; vm_compute; reflexivity.
  - eapply (one_forward _ 2 EN_TO19 s h []); [reflexivity | now left | | exact H]. apply no_empty_dec; vm_compute; reflexivity.
Qed.
Lemma nederlands_forward : lang_forward (nederlands uspace umatch).
Proof.
  split; [| repeat split; apply no_empty_dec; reflexivity].
  intros s h H. apply first_of_in in H. cbn [In] in H. destruct H as [H | [H | [H | [H | [H | []]]]]].
  - exact (sep_forward _ s h _ eq_refl H).
  - eapply (one_forward _ 1 _ s h []); [reflexivity | now left | | exact H]. apply no_empty_dec; vm_compute; reflexivity.
  - eapply (two_forward _ 2 _ s h); [reflexivity | | exact H]. intros a x. apply two_fits; apply no_empty_dec; vm_compute; reflexivity.
  - eapply (one_forward _ 3 _ s h []); [reflexivity | now left | | exact H]. apply no_empty_dec; vm_compute; reflexivity.
  - eapply (one_forward _ 4 _ s h []); [reflexivity | now left | | exact H]. apply no_empty_dec; vm_compute; reflexivity.
Qed.
Lemma deutsch_forward : lang_forward (deutsch uspace umatch).
Proof.
  split; [| repeat split; apply no_empty_dec; reflexivity].
  intros s h H. apply first_of_in in H. cbn [In] in H. destruct H as [H | [H | [H | [H | []]]]].
  - exact (sep_forward _ s h _ eq_refl H).
  - eapply (one_forward _ 1 _ s h []); [reflexivity | now left | | exact H]. apply no_empty_dec; vm_compute; reflexivity.
  - eapply (two_forward _ 2 _ s h); [reflexivity | | exact H]. intros a x. apply two_fits; apply no_empty_dec; vm_compute; reflexivity.
  - eapply (one_forward _ 3 _ s h []); [reflexivity | now left | | exact H]. apply no_empty_dec; vm_compute; reflexivity.
Qed.
Lemma francais_forward : lang_forward (francais uspace umatch).
Proof.
  split; [| repeat split; apply no_empty_dec; reflexivity].
  intros s h H. apply first_of_in in H. cbn [In] in H. destruct H as [H | [H | [H | [H | [H | []]]]]].
  - exact (sep_forward _ s h _ eq_refl H).
  - eapply (two_forward _ 1 _ s h); [reflexivity | | exact H]. intros a x Hx.
    assert (Hx' : two umatch (slc 4 5 FR_TENS ++ slc 6 7 FR_TENS) (slc 1 10 FR_TO19) (glue_sep uspace) s = Some (a, x)).
    { revert Hx. generalize (two umatch (slc 4 5 FR_TENS ++ slc 6 7 FR_TENS) (slc 1 10 FR_TO19) (glue_sep uspace) s). intros o. unfold two_must. destruct o as [[a0 [x0 |]] |]; try discriminate. auto. }
    revert Hx'. apply two_fits; apply no_empty_dec; vm_compute; reflexivity.
  - eapply (two_forward _ 2 _ s h); [reflexivity | | exact H]. intros a x. apply two_fits; apply no_empty_dec; vm_compute; reflexivity.
  - eapply (one_forward _ 3 _ s h []); [reflexivity | now left | | exact H]. apply no_empty_dec; vm_compute; reflexivity.
  - eapply (one_forward _ 4 _ s h []); [reflexivity | now left | | exact H]. apply no_empty_dec; vm_compute; reflexivity.
Qed.
End Forward.

(** ** Runs go forward *)

Section Ends.
Variable uspace : nat -> bool.
Variable umatch : nat -> nat -> bool.
Variable g : nlang.
Variable text : str.
Hypothesis Hg : exists r, g_99rules g = (ASkip, []) :: r.
Hypothesis Hlang : lang_forward g.
Notation n_pick := (n_pick uspace umatch g).
Notation n_parse := (n_parse uspace umatch g).
Notation reach := (reach n_consume n_parse text).

Definition rank (l : nlex) : nat := match l with NRoot => 5 | NNumber => 4 | NP6 => 3 | NP3 => 2 | NP2 => 1 | N99 | NP1 => 0 end.
Fixpoint desc (b : nat) (ls : list nlex) : Prop := match ls with [] => True | l :: ls => rank l < b /\ desc (rank l) ls end.
Lemma desc_mono b c ls : desc b ls -> b <= c -> desc c ls.
Proof. destruct ls as [| l ls]; [auto |]. cbn [desc]. intuition lia. Qed.
Lemma desc_length ls : forall b, desc b ls -> length ls <= b.
Proof. induction ls as [| l ls IH]; intros b; cbn [desc length]; [lia |]. intros [H1 H2]. apply IH in H2. lia. Qed.
Lemma desc_root ls : forall b, b <= 5 -> desc b ls -> Forall (fun l => l <> NRoot) ls.
Proof.
  induction ls as [| l ls IH]; intros b Hb; cbn [desc]; [constructor |]. intros [H1 H2]. constructor; [intros ->; cbn in H1; lia | exact (IH (rank l) ltac:(lia) H2)].
Qed.
Lemma desc_swap a l push : desc (S (rank l)) push -> forall b, desc b (a ++ [l]) -> desc b (a ++ push).
Proof.
  intros Hp. induction a as [| x a IH]; intros b; cbn [app desc].
  - intros [H _]. apply (desc_mono (S (rank l))); [exact Hp | lia].
  - intros [H1 H2]. split; [exact H1 | exact (IH _ H2)].
Qed.
Lemma desc_front a : forall l b, desc b (a ++ [l]) -> desc b a.
Proof. induction a as [| x a IH]; intros l b; cbn [app desc]; [auto |]. intros [H1 H2]. split; [exact H1 | exact (IH _ _ H2)]. Qed.
Lemma at_start p : p <= length text -> text = firstn p text ++ skipn p text /\ length (firstn p text) = p.
Proof. intros H. split; [now rewrite firstn_skipn | rewrite firstn_length; lia]. Qed.

(** A match: the current lexicon goes on, or is replaced by lower ones. *)
Lemma step_hit up l p i n gs w new circ : skips l -> up <> [] -> p <= length text -> n_pick l (skipn p text) = Some (i, n, gs) ->
  0 < n <= length (skipn p text) /\
  ((exists w' new' circ', new' = new /\ circ' = circ /\ reach (Cfg (up ++ [l]) w new circ p) (Cfg (up ++ [l]) w' new' circ' (p + n))) \/
   exists push w', desc (S (rank l)) push /\ reach (Cfg (up ++ [l]) w new circ p) (Cfg (up ++ push) w' (length push) [] (p + n))).
Proof.
  intros Hl Hup Hp E. set (s := skipn p text) in *.
  assert (F : forall a tg, nth_error (n_rules g l) i = Some (a, tg) -> 0 < n <= length s ->
    ((a = ASkip /\ tg = []) \/ exists push, tg = OUT ++ map RLex push /\ desc (S (rank l)) push /\ (a = NUMBER \/ (a = PAIR /\ exists k r, gs = Some (0, k) :: r /\ 0 < k <= length s))) ->
    0 < n <= length s /\
    ((exists w' new' circ', new' = new /\ circ' = circ /\ reach (Cfg (up ++ [l]) w new circ p) (Cfg (up ++ [l]) w' new' circ' (p + n))) \/
     exists push w', desc (S (rank l)) push /\ reach (Cfg (up ++ [l]) w new circ p) (Cfg (up ++ push) w' (length push) [] (p + n)))).
  { intros a tg Hn Hlen Ha. split; [exact Hlen |]. destruct (at_start p Hp) as [Et Elen]. fold s in Et.
    assert (Es : s = firstn n s ++ skipn n s) by (symmetry; apply firstn_skipn). assert (El : length (firstn n s) = n) by (rewrite firstn_length; lia).
    assert (Hne : firstn n s <> []) by (intros C; rewrite C in El; cbn in El; lia).
    set (pre := firstn p text) in *. set (t := firstn n s) in *. assert (Et' : text = pre ++ t ++ skipn n s) by (rewrite <- Es; exact Et).
    assert (Ef : n_pick l (t ++ skipn n s) = Some (i, length t, gs)) by (rewrite <- Es, El; exact E).
    assert (Epos : p + n = length (pre ++ t)) by (rewrite app_length; lia).
    destruct Ha as [[-> ->] | (push & -> & Hd & Ha)].
    - left. destruct (parse_found uspace umatch g text Hg l pre t _ i gs Hl Et' Ef) as [H0 HS]. rewrite (token_is uspace umatch g text l pre t _ i gs _ _ Et' Hne Hn) in H0.
      exists w, new, circ. split; [reflexivity |]. split; [reflexivity |]. rewrite Epos, <- Elen. exact (reach_item _ _ n_consume n_parse text (up ++ [l]) l w new circ _ _ _ (last_opt_app up l) H0 eq_refl Hne HS).
    - right. exists push. eexists. split; [exact Hd |]. rewrite Epos, <- Elen. apply (step_match uspace umatch g text Hg up l pre t _ i gs a push w new circ Hl Hup Et' Hne Ef Hn).
      destruct Ha as [-> | [-> (k & r & -> & Hk)]].
      + cbn [NUMBER act_lexemes]. destruct t; [congruence | discriminate].
      + cbn [PAIR act_lexemes m_groups moved map option_map fst snd]. rewrite Elen, Nat.add_0_r.
        assert (Hsl : slice text p (p + k) = firstn k s) by (unfold slice; replace (p + k - p) with k by lia; reflexivity). rewrite Hsl.
        destruct (firstn k s) as [| c cs] eqn:Ek; [| discriminate]. exfalso. assert (Hfl : length (firstn k s) = k) by (rewrite firstn_length; lia). rewrite Ek in Hfl. cbn in Hfl. lia. }
  assert (Fs : sep_hit uspace s = Some (i, n, gs) -> nth_error (n_rules g l) 0 = Some (ASkip, []) -> 0 < n <= length s /\ nth_error (n_rules g l) i = Some (ASkip, [])).
  { intros Hs Hr. unfold sep_hit in Hs. pose proof (span_fits (n_sep uspace) s) as Hsp. destruct (n_span _ s) as [| k]; [discriminate |]. injection Hs as <- <- <-. split; [lia | exact Hr]. }
  assert (Fo : forall ws, no_empty ws -> one_hit 1 (longest umatch ws s) = Some (i, n, gs) -> 0 < n <= length s /\ i = 1).
  { intros ws Hw Ho. unfold one_hit in Ho. destruct (longest umatch ws s) as [k |] eqn:Ek; [| discriminate]. injection Ho as <- <- <-. split; [exact (longest_fits umatch ws s k Hw Ek) | reflexivity]. }
  destruct Hlang as (L1 & L2 & L3 & L4). destruct Hl as [Hl1 Hl2]. destruct l; try congruence; cbn [NumbersModel.n_pick] in E.
  - apply first_of_in in E. destruct E as [E | [E | []]]; [destruct (Fs E eq_refl) as [F1 F2]; apply (F _ _ F2 F1); now left |].
    destruct (Fo _ L4 E) as [F1 ->]. apply (F NUMBER (OUT ++ map RLex [NP3; NP2; N99]) eq_refl F1). right. exists [NP3; NP2; N99]. split; [reflexivity |]. cbn. intuition (try discriminate; lia).
  - apply first_of_in in E. destruct E as [E | [E | []]]; [destruct (Fs E eq_refl) as [F1 F2]; apply (F _ _ F2 F1); now left |].
    destruct (Fo _ L3 E) as [F1 ->]. apply (F NUMBER (OUT ++ map RLex [NP2; N99]) eq_refl F1). right. exists [NP2; N99]. split; [reflexivity |]. cbn. intuition (try discriminate; lia).
  - apply first_of_in in E. destruct E as [E | [E | []]]; [destruct (Fs E eq_refl) as [F1 F2]; apply (F _ _ F2 F1); now left |].
    destruct (Fo _ L2 E) as [F1 ->]. apply (F NUMBER (OUT ++ map RLex [N99]) eq_refl F1). right. exists [N99]. split; [reflexivity |]. cbn. intuition (try discriminate; lia).
  - destruct (L1 _ _ E) as [F1 (a & tg & Hn & Ha)]. apply (F a tg Hn F1). destruct Ha as [Ha | (push & -> & Hpush & Ha)]; [now left |]. right. exists push. split; [reflexivity |].
    split; [destruct Hpush as [-> | ->]; cbn; auto | exact Ha].
  - apply first_of_in in E. destruct E as [E | [E | []]]; [destruct (Fs E eq_refl) as [F1 F2]; apply (F _ _ F2 F1); now left |].
    assert (L5 : no_empty (slc 1 10 EN_TO19)) by (apply no_empty_dec; reflexivity). destruct (Fo _ L5 E) as [F1 ->]. apply (F NUMBER (OUT ++ map RLex []) eq_refl F1). right. exists []. split; [reflexivity |]. cbn. intuition.
Qed.
(** A configuration of a run. *)
Definition going (p : nat) (c : cfg nlex nact) : Prop := exists rest w new circ, c = Cfg (NRoot :: rest) w new circ p /\ desc 5 rest /\ new <= length rest /\ before p circ.
Lemma forward_run p : p < length text -> forall fuel rest w new K circ, desc 5 rest -> new <= length rest -> before p circ -> sim fuel (length rest) K = true ->
  exists p' c', reach (Cfg (NRoot :: rest) w new (map (at_p p) K ++ circ) p) c' /\ p < p' <= length text /\ going p' c'.
Proof.
  intros Hp. induction fuel as [| fuel IH]; intros rest w new K circ Hd H1 Hb Hs; [discriminate |]. cbn [sim] in Hs.
  destruct rest as [| l0 rest0] using rev_ind; [| clear IHrest0].
  - cbn [length] in *. assert (new = 0) by lia. subst new.
    pose proof (step_root uspace umatch g text Hg w (map (at_p p) K ++ circ) p Hp) as St. rewrite (exists_at p 1 5 K circ Hb) in St. destruct (existsb _ K).
    + exists (p + 1). eexists. split; [exact St |]. split; [lia |]. exists chain. eexists _, _, _. split; [reflexivity |]. split; [cbn; intuition (try discriminate; lia) |]. split; [cbn; lia | apply before_nil].
    + destruct (IH chain (w ++ map Enter chain) 5 ((1, 5) :: K) circ) as (p' & c' & R & H); [cbn; intuition (try discriminate; lia) | cbn; lia | exact Hb | exact Hs |].
      exists p', c'. split; [eapply reach_trans; [exact St | exact R] | exact H].
  - rewrite app_length in Hs, H1. cbn [length] in Hs, H1. rewrite Nat.add_1_r in Hs. cbn match in Hs.
    pose proof (desc_root _ 5 (le_n _) Hd) as Hroot. apply Forall_app in Hroot as [_ Hl]. inversion Hl as [| ? ? Hl0 _]; subst.
    destruct (n_pick l0 (skipn p text)) as [[[i n] gs] |] eqn:E.
    + assert (Hsk : skips l0) by (split; [exact Hl0 |]; intros ->; discriminate).
      destruct (step_hit (NRoot :: rest0) l0 p i n gs w new (map (at_p p) K ++ circ) Hsk ltac:(discriminate) ltac:(lia) E) as [Hn St]. rewrite skipn_length in Hn.
      exists (p + n). destruct St as [(w' & new' & circ' & -> & -> & St) | (push & w' & Hpush & St)]; eexists; (split; [exact St |]); (split; [lia |]).
      * exists (rest0 ++ [l0]). eexists _, _, _. split; [reflexivity |]. split; [exact Hd |]. split; [rewrite app_length; cbn; lia |].
        intros q a b Hin. apply in_app_or in Hin as [Hin | Hin]; [apply in_map_iff in Hin as ([x y] & Ex & _); injection Ex as <- <- <-; lia | specialize (Hb _ _ _ Hin); lia].
      * exists (rest0 ++ push). eexists _, _, _. split; [reflexivity |]. split; [exact (desc_swap rest0 l0 push Hpush 5 Hd) |]. split; [rewrite app_length; lia | apply before_nil].
    + pose proof (step_leave uspace umatch g text Hg (NRoot :: rest0) l0 w new (map (at_p p) K ++ circ) p Hl0 ltac:(discriminate) Hp E) as St. cbn [length] in St.
      rewrite (exists_at p (S (length rest0)) 0 K circ Hb) in St. pose proof (desc_front _ _ _ Hd) as Hd'.
      destruct (existsb _ K).
      * destruct (IH rest0 (left_word w new) (new - 1) [] [] Hd' ltac:(lia) (before_nil p) Hs) as (p' & c' & R & H). exists p', c'. split; [eapply reach_trans; [exact St | exact R] | exact H].
      * destruct (IH rest0 (left_word w new) (new - 1) ((S (length rest0), 0) :: K) circ Hd' ltac:(lia) Hb Hs) as (p' & c' & R & H). exists p', c'. split; [eapply reach_trans; [exact St | exact R] | exact H].
Qed.
Lemma run_ends : exists n evs, l_run n_consume n_parse text n (l_init [NRoot] 0) = (evs, None).
Proof.
  assert (G : forall k p c, length text - p <= k -> p <= length text -> going p c -> exists c', reach c c' /\ going (length text) c').
  { induction k as [| k IH]; intros p c Hk Hp Hc.
    - assert (p = length text) by lia. subst p. exists c. split; [apply reach_refl | exact Hc].
    - destruct (Nat.eq_dec p (length text)) as [-> | Hne]; [exists c; split; [apply reach_refl | exact Hc] |].
      destruct Hc as (rest & w & new & circ & -> & Hd & Hn & Hb).
      destruct (forward_run p ltac:(lia) 60 rest w new [] circ Hd Hn Hb (sim_ok _ (desc_length _ _ Hd))) as (p' & c1 & R1 & Hp' & Hc1).
      destruct (IH p' c1 ltac:(lia) ltac:(lia) Hc1) as (c2 & R2 & Hc2). exists c2. split; [eapply reach_trans; [exact R1 | exact R2] | exact Hc2]. }
  destruct (G (length text) 0 (Cfg [NRoot] [] 0 [] 0) ltac:(lia) ltac:(lia)) as (c & R & rest & w & new & circ & -> & Hd & Hn & _).
  { exists [], [], 0, []. split; [reflexivity |]. split; [exact I |]. split; [cbn; lia | apply before_nil]. }
  destruct (exists_last (l := NRoot :: rest) ltac:(discriminate)) as (up & l & El). rewrite El in R.
  destruct (reach_finish nlex nact n_consume n_parse text NRoot (up ++ [l]) l w new circ (length text) R (last_opt_app up l)) as (n & evs & cs & Hr & _).
  { apply (parse_end uspace umatch g text Hg). destruct (n_pick l []) as [[[i m] gs] |] eqn:E; [| reflexivity]. exfalso.
    destruct Hlang as (L1 & L2 & L3 & L4).
    assert (Fo : forall ws, no_empty ws -> one_hit 1 (longest umatch ws []) = Some (i, m, gs) -> False).
    { intros ws Hw Ho. unfold one_hit in Ho. destruct (longest umatch ws []) as [k |] eqn:Ek; [| discriminate]. pose proof (longest_fits umatch ws [] k Hw Ek) as Hx. cbn in Hx. lia. }
    destruct l; cbn [NumbersModel.n_pick] in E; try discriminate.
    - apply first_of_in in E. destruct E as [E | [E | []]]; [discriminate | exact (Fo _ L4 E)].
    - apply first_of_in in E. destruct E as [E | [E | []]]; [discriminate | exact (Fo _ L3 E)].
    - apply first_of_in in E. destruct E as [E | [E | []]]; [discriminate | exact (Fo _ L2 E)].
    - destruct (L1 _ _ E) as [Hx _]. cbn in Hx. lia. }
  exists n, evs. exact Hr.
Qed.
End Ends.
