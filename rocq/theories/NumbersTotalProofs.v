(** Reading a text of fair characters never raises. *)
From Verif Require Import Base BaseFacts TargetModel TargetSpec LexerModel LexerSpec TargetProofs LexerProofs LexiconModel LexiconSpec TreeModel TreeSpec TreeProofs BuildModel BuildProofs
  TransformModel TransformSpec TransformTextProofs MachineProofs GeneratorProofs IniRunProofs NumbersModel NumbersSpec NumbersRunProofs NumbersLevelProofs.
From Coq Require Import ZArith ZifyBool String.
Open Scope string_scope. Open Scope list_scope. Open Scope nat_scope.
Notation length := List.length.

Section Total.
Variable uspace : nat -> bool.
Variable umatch : nat -> nat -> bool.
Variable ulower : nat -> str.
Notation starts := (starts umatch).
Notation longest := (longest umatch).
Notation n_lower := (n_lower ulower).
(** A character that is matched as a letter, is that letter in lower case. *)
Definition fair (c : nat) : Prop := 128 <= c -> forall p, umatch p c = true -> ulower c = [p].

(** ** Words *)

Lemma starts_lower w : forall s, Forall fair s -> starts w s = true -> n_lower (firstn (length w) s) = w /\ length w <= length s.
Proof.
  induction w as [| p w IH]; intros s Hs H; [split; [reflexivity | cbn; lia] |]. destruct s as [| c s]; [discriminate |]. cbn [NumbersModel.starts] in H. apply andb_true_iff in H as [H1 H2].
  inversion Hs as [| ? ? Hc Hs']; subst. destruct (IH s Hs' H2) as [E1 E2]. split; [| cbn [length]; lia].
  cbn [length firstn]. change (n_lower (c :: firstn (length w) s)) with ((if c <? 128 then [a_low c] else ulower c) ++ n_lower (firstn (length w) s)). rewrite E1.
  unfold ieq in H1. destruct (c <? 128) eqn:E.
  - apply Nat.eqb_eq in H1. subst p. reflexivity.
  - assert (Hc' : 128 <= c) by lia. rewrite (Hc Hc' p H1). reflexivity.
Qed.
Lemma longest_some ws s n : longest ws s = Some n -> exists w, In w ws /\ starts w s = true /\ n = length w.
Proof.
  clear uspace ulower. unfold NumbersModel.longest.
  assert (G : forall ws b, fold_left (fun b w => if starts w s then match b with Some n => Some (Nat.max n (length w)) | None => Some (length w) end else b) ws b = Some n ->
    b = Some n \/ exists w, In w ws /\ starts w s = true /\ n = length w).
  { clear ws. induction ws as [| w ws IH]; intros b; cbn [fold_left]; [now left |]. intros H. apply IH in H. destruct H as [H | (v & Hv & Ht)]; [| right; exists v; split; [now right | exact Ht]].
    destruct (starts w s) eqn:Es; [| now left].
    destruct b as [m |].
    - destruct (Nat.max_spec m (length w)) as [[_ E] | [_ E]]; rewrite E in H; [| left; exact H]. injection H as <-. right. exists w. split; [now left | tauto].
    - injection H as <-. right. exists w. split; [now left | tauto]. }
  intros H. destruct (G ws None H) as [[=] | H']. exact H'.
Qed.

Variable g : nlang.
Definition known (t : str) : Prop := lookup (n_lower t) (g_values g) <> None.
Definition words_known (ws : list str) : Prop := Forall (fun w => lookup w (g_values g) <> None) ws.
Lemma longest_known ws s n : words_known ws -> Forall fair s -> longest ws s = Some n -> known (firstn n s).
Proof.
  clear uspace. intros Hw Hs H. destruct (longest_some _ _ _ H) as (w & Hin & Hst & ->). destruct (starts_lower w s Hs Hst) as [E _]. unfold known. rewrite E. unfold words_known in Hw. rewrite Forall_forall in Hw. exact (Hw w Hin).
Qed.

(** What a match of n99 and p1 is. *)
Definition group_known (s : str) (o : option (nat * nat)) : Prop := match o with None => True | Some (a, b) => known (slice s a b) end.
Definition hit_fine (rules : list (action nlex nact * list (ritem nlex))) (s : str) (h : hit) : Prop :=
  let '(i, n, gs) := h in
  match nth_error rules i with
  | Some (a, tg) =>
      (a = ASkip \/ (a = NUMBER /\ known (firstn n s)) \/ (a = PAIR /\ exists x y, gs = [x; y] /\ group_known s x /\ group_known s y))
      /\ (tg = [] \/ tg = OUT \/ (tg = OUT ++ [RLex NP1] /\ words_known (slc 1 10 EN_TO19)))
  | None => False
  end.
Lemma first_of_in {X} (l : list (option X)) x : first_of l = Some x -> In (Some x) l.
Proof. induction l as [| o l IH]; [discriminate |]. cbn [first_of]. unfold orelse. destruct o as [y |]; [intros [= ->]; now left | intros H; right; exact (IH H)]. Qed.
Lemma sep_fine rules s h r : rules = (ASkip, []) :: r -> sep_hit uspace s = Some h -> hit_fine rules s h.
Proof. intros -> H. unfold sep_hit in H. destruct (n_span _ s); [discriminate |]. injection H as <-. cbn. split; now left. Qed.
Lemma one_fine rules i ws s h tg : nth_error rules i = Some (NUMBER, tg) -> tg = OUT \/ (tg = OUT ++ [RLex NP1] /\ words_known (slc 1 10 EN_TO19)) -> words_known ws -> Forall fair s -> one_hit i (longest ws s) = Some h -> hit_fine rules s h.
Proof.
  intros Hn Ht Hw Hs H. unfold one_hit in H. destruct (longest ws s) as [n |] eqn:E; [| discriminate]. injection H as <-. cbn [hit_fine]. rewrite Hn. split; [| tauto].
  right. left. split; [reflexivity |]. exact (longest_known _ _ _ Hw Hs E).
Qed.
Lemma fair_skipn n s : Forall fair s -> Forall fair (skipn n s).
Proof. rewrite !Forall_forall. intros H c Hc. apply H. rewrite <- (firstn_skipn n s). apply in_or_app. now right. Qed.
Lemma two_known ws vs glue s a x : words_known ws -> words_known vs -> Forall fair s -> two umatch ws vs glue s = Some (a, x) ->
  known (firstn a s) /\ match x with None => True | Some (p, b) => known (slice s p (p + b)) end.
Proof.
  intros Hw Hv Hs H. unfold two in H. destruct (longest ws s) as [a' |] eqn:E; [| discriminate]. injection H as -> <-. split; [exact (longest_known _ _ _ Hw Hs E) |].
  destruct (glue (skipn a s)) as [q |]; [| exact I]. destruct (longest vs (skipn (a + q) s)) as [b |] eqn:E2; [| exact I].
  unfold slice. replace (a + q + b - (a + q)) with b by lia. exact (longest_known _ _ _ Hv (fair_skipn _ _ Hs) E2).
Qed.
Lemma two_fine rules i o s h : nth_error rules i = Some (PAIR, OUT) ->
  (forall a x, o = Some (a, x) -> known (firstn a s) /\ match x with None => True | Some (p, b) => known (slice s p (p + b)) end) ->
  two_hit i o = Some h -> hit_fine rules s h.
Proof.
  intros Hn Ho H. unfold two_hit in H. destruct o as [[a x] |]; [| discriminate]. destruct (Ho a x eq_refl) as [H1 H2].
  assert (G : slice s 0 a = firstn a s) by (unfold slice; cbn [skipn]; f_equal; lia).
  destruct x as [[p b] |]; injection H as <-; cbn [hit_fine]; rewrite Hn; (split; [| tauto]); right; right; (split; [reflexivity |]); eexists _, _; (split; [reflexivity |]); cbn [group_known]; rewrite G; tauto.
Qed.
End Total.

(** ** The languages *)

Lemma known_dec g ws : forallb (fun w => match lookup w (g_values g) with Some _ => true | None => false end) ws = true -> words_known g ws.
Proof.
  intros H. rewrite forallb_forall in H. apply Forall_forall. intros w Hw. specialize (H w Hw). destruct (lookup w (g_values g)); [discriminate | discriminate H].
Qed.
Section Languages.
Variable uspace : nat -> bool.
Variable umatch : nat -> nat -> bool.
Variable ulower : nat -> str.
Notation fair := (fair umatch ulower).
Definition lang_fine (g : nlang) : Prop := forall s h, Forall fair s -> g_99 g s = Some h -> hit_fine ulower g (g_99rules g) s h.
Lemma english_fine : lang_fine (english uspace umatch).
Proof.
  intros s h Hs H. apply first_of_in in H. cbn [In] in H. destruct H as [H | [H | [H | []]]].
  - exact (sep_fine uspace ulower _ _ s h _ eq_refl H).
  - eapply (one_fine uspace umatch ulower _ _ 1 EN_TENS s h); [reflexivity | right; split; [reflexivity | apply known_dec; vm_compute; reflexivity] | apply known_dec; vm_compute; reflexivity | exact Hs | exact H].
  - eapply (one_fine uspace umatch ulower _ _ 2 EN_TO19 s h); [reflexivity | now left | | exact Hs | exact H]. apply known_dec; vm_compute; reflexivity.
Qed.
Lemma nederlands_fine : lang_fine (nederlands uspace umatch).
Proof.
  intros s h Hs H. apply first_of_in in H. cbn [In] in H. destruct H as [H | [H | [H | [H | [H | []]]]]].
  - exact (sep_fine uspace ulower _ _ s h _ eq_refl H).
  - eapply (one_fine uspace umatch ulower _ _ 1 _ s h); [reflexivity | now left | | exact Hs | exact H]. apply known_dec; vm_compute; reflexivity.
  - eapply (two_fine uspace umatch ulower _ _ 2 _ s h); [reflexivity | | exact H]. intros a x. apply two_known; [apply known_dec; vm_compute; reflexivity .. | exact Hs].
  - eapply (one_fine uspace umatch ulower _ _ 3 _ s h); [reflexivity | now left | | exact Hs | exact H]. apply known_dec; vm_compute; reflexivity.
  - eapply (one_fine uspace umatch ulower _ _ 4 _ s h); [reflexivity | now left | | exact Hs | exact H]. apply known_dec; vm_compute; reflexivity.
Qed.
Lemma deutsch_fine : lang_fine (deutsch uspace umatch).
Proof.
  intros s h Hs H. apply first_of_in in H. cbn [In] in H. destruct H as [H | [H | [H | [H | []]]]].
  - exact (sep_fine uspace ulower _ _ s h _ eq_refl H).
  - eapply (one_fine uspace umatch ulower _ _ 1 _ s h); [reflexivity | now left | | exact Hs | exact H]. apply known_dec; vm_compute; reflexivity.
  - eapply (two_fine uspace umatch ulower _ _ 2 _ s h); [reflexivity | | exact H]. intros a x. apply two_known; [apply known_dec; vm_compute; reflexivity .. | exact Hs].
  - eapply (one_fine uspace umatch ulower _ _ 3 _ s h); [reflexivity | now left | | exact Hs | exact H]. apply known_dec; vm_compute; reflexivity.
Qed.
Lemma francais_fine : lang_fine (francais uspace umatch).
Proof.
  intros s h Hs H. apply first_of_in in H. cbn [In] in H. destruct H as [H | [H | [H | [H | [H | []]]]]].
  - exact (sep_fine uspace ulower _ _ s h _ eq_refl H).
  - eapply (two_fine uspace umatch ulower _ _ 1 _ s h); [reflexivity | | exact H]. intros a x Hx.
    assert (Hx' : two umatch (slc 4 5 FR_TENS ++ slc 6 7 FR_TENS) (slc 1 10 FR_TO19) (glue_sep uspace) s = Some (a, x)).
    { revert Hx. generalize (two umatch (slc 4 5 FR_TENS ++ slc 6 7 FR_TENS) (slc 1 10 FR_TO19) (glue_sep uspace) s). intros o. unfold two_must. destruct o as [[a0 [x0 |]] |]; try discriminate. auto. }
    revert Hx'. apply two_known; [apply known_dec; vm_compute; reflexivity .. | exact Hs].
  - eapply (two_fine uspace umatch ulower _ _ 2 _ s h); [reflexivity | | exact H]. intros a x. apply two_known; [apply known_dec; vm_compute; reflexivity .. | exact Hs].
  - eapply (one_fine uspace umatch ulower _ _ 3 _ s h); [reflexivity | now left | | exact Hs | exact H]. apply known_dec; vm_compute; reflexivity.
  - eapply (one_fine uspace umatch ulower _ _ 4 _ s h); [reflexivity | now left | | exact Hs | exact H]. apply known_dec; vm_compute; reflexivity.
Qed.
End Languages.

(** ** Items *)

Section Runs.
Variable uspace : nat -> bool.
Variable umatch : nat -> nat -> bool.
Variable ulower : nat -> str.
Variable g : nlang.
Variable text : str.
Hypothesis Hfair : Forall (fair umatch ulower) text.
Hypothesis Hlang : lang_fine umatch ulower g.
Hypothesis Hg : exists r, g_99rules g = (ASkip, []) :: r.
Notation n_compiled := (n_compiled uspace umatch g).
Notation n_parse := (n_parse uspace umatch g).
Notation known := (known ulower g).
Notation p1_known := (words_known g (slc 1 10 EN_TO19)).

Definition tok_fine (l : nlex) (t : str) : Prop := skips l /\ (l = N99 \/ l = NP1 -> known t).
Definition tgt_fine (l : nlex) (t : target nlex) : Prop :=
  (l = NRoot /\ t = Target 0 chain) \/ (l <> NRoot /\ exists push, t = Target 1 push /\ In push [[]; [N99]; [NP2; N99]; [NP3; NP2; N99]; [NP1]] /\ (In NP1 push -> p1_known)).
Definition item_fine (l : nlex) (it : item nlex nact) : Prop :=
  Forall (fun x => tok_fine l (x_text x)) (i_lexemes it) /\ forall t, i_target it = Some t -> tgt_fine l t.

Lemma slice_part p n s a b : s = skipn p text -> slice text (p + a) (p + b) = slice s a b /\ slice text p (p + n) = firstn n s.
Proof.
  intros ->. unfold slice. split; [| f_equal; lia]. replace (p + b - (p + a)) with (b - a) by lia. f_equal.
  now rewrite skipn_skipn.
Qed.
Lemma token_fine l adv p m : skips l -> (l = NP1 -> p1_known) -> c_match (n_compiled l) adv text p = Some m -> item_fine l (token (fun _ _ => []) l (c_rules (n_compiled l)) text m).
Proof.
  intros Hl Hp1. cbn [c_match c_rules NumbersModel.n_compiled]. destruct (n_pick uspace umatch g l (skipn p text)) as [[[i n] gs] |] eqn:E; [| discriminate]. injection 1 as <-.
  set (s := skipn p text) in *. assert (Hs : Forall (fair umatch ulower) s) by (apply fair_skipn, Hfair).
  assert (G : forall a tg, nth_error (n_rules g l) i = Some (a, tg) ->
     (a = ASkip \/ (a = NUMBER /\ (l = N99 \/ l = NP1 -> known (firstn n s))) \/ (a = PAIR /\ exists x y, gs = [x; y] /\ group_known ulower g s x /\ group_known ulower g s y)) ->
     (forall t, t_make l tg = Some t -> tgt_fine l t) ->
     item_fine l (token (fun _ _ => []) l (map (fun r => SRule (fst r) (snd r)) (n_rules g l)) text (Mtch p (p + n) i (map (option_map (fun x => (p + fst x, p + snd x))) gs)))).
  { intros a tg Hn Ha Ht. unfold token. cbn [m_rule m_start m_end]. rewrite (map_nth_error _ _ _ Hn). cbn [fst snd].
    rewrite (proj2 (slice_part p n s 0 0 eq_refl)). unfold item_fine, mk_item. cbn [i_lexemes i_target]. split; [| exact Ht].
    destruct (firstn n s) as [| c cs] eqn:Ef; [constructor |].
    destruct Ha as [-> | [[-> Hk] | [-> (x & y & -> & Hx & Hy)]]].
    - constructor.
    - cbn [act_lexemes NUMBER]. constructor; [| constructor]. cbn [x_text]. split; [exact Hl | exact Hk].
    - assert (Gr : forall o, group_known ulower g s o -> forall a b, option_map (fun z => (p + fst z, p + snd z)) o = Some (a, b) -> Forall (fun z => tok_fine l (x_text z)) (match slice text a b with [] => [] | _ => [Lexeme a (slice text a b) tt] end)).
      { intros [[a b] |] Ho a' b'; cbn [option_map fst snd]; [| discriminate]. intros [= <- <-]. rewrite (proj1 (slice_part p 0 s a b eq_refl)). cbn [group_known] in Ho.
        destruct (slice s a b) as [| z zs]; [constructor |]. constructor; [| constructor]. cbn [x_text]. split; [exact Hl | intros _; exact Ho]. }
      cbn [PAIR act_lexemes m_groups map]. pose proof (Gr x Hx) as Gx. pose proof (Gr y Hy) as Gy.
      destruct (option_map _ x) as [[a1 b1] |]; destruct (option_map _ y) as [[a2 b2] |]; cbn [app]; try rewrite app_nil_r.
      + apply Forall_app. split; [exact (Gx _ _ eq_refl) | exact (Gy _ _ eq_refl)].
      + exact (Gx _ _ eq_refl).
      + exact (Gy _ _ eq_refl).
      + constructor. }
  assert (Gt : forall push, l <> NRoot -> In push [[]; [N99]; [NP2; N99]; [NP3; NP2; N99]; [NP1]] -> (In NP1 push -> p1_known) -> forall t, t_make l (OUT ++ map RLex push) = Some t -> tgt_fine l t).
  { intros push Hlr Hin Hp t Et. right. split; [exact Hlr |]. exists push. split; [| tauto]. cbn [In] in Hin. repeat (destruct Hin as [<- | Hin]; [vm_compute in Et; injection Et as <-; reflexivity |]). destruct Hin. }
  assert (Gs : forall j, sep_hit uspace s = Some j -> exists k, j = (0, k, [])) by (intros j Hj; unfold sep_hit in Hj; destruct (n_span _ s); [discriminate |]; injection Hj as <-; eauto).
  assert (Go : forall ws j, one_hit 1 (longest umatch ws s) = Some j -> exists k, longest umatch ws s = Some k /\ j = (1, k, [])) by (intros ws j Hj; unfold one_hit in Hj; destruct (longest umatch ws s); [| discriminate]; injection Hj as <-; eauto).
  destruct Hl as [Hl1 Hl2]. destruct l; try congruence; cbn [NumbersModel.n_pick] in E.
  1-3: apply first_of_in in E; destruct E as [E | [E | []]];
    [destruct (Gs _ E) as [k [= -> -> ->]]; eapply G; [reflexivity | now left | discriminate]
    | destruct (Go _ _ E) as (k & Ek & [= -> -> ->]); eapply G; [reflexivity | right; left; split; [reflexivity |]; intros [Hc | Hc]; discriminate |]].
  - apply (Gt [NP3; NP2; N99]); [discriminate | cbn; tauto | cbn; intuition discriminate].
  - apply (Gt [NP2; N99]); [discriminate | cbn; tauto | cbn; intuition discriminate].
  - apply (Gt [N99]); [discriminate | cbn; tauto | cbn; intuition discriminate].
  - pose proof (Hlang s _ Hs E) as Hh. unfold hit_fine in Hh. change (g_99rules g) with (n_rules g N99) in Hh. destruct (nth_error (n_rules g N99) i) as [[a tg] |] eqn:En; [| destruct Hh].
    destruct Hh as [Ha Ht]. apply (G a tg eq_refl).
    + destruct Ha as [-> | [[-> Ha] | Ha]]; [now left | right; left; split; [reflexivity | intros _; exact Ha] | right; right; exact Ha].
    + destruct Ht as [-> | [-> | [-> Ht]]]; [discriminate | apply (Gt []); [discriminate | cbn; tauto | intros []] | apply (Gt [NP1]); [discriminate | cbn; tauto | intros _; exact Ht]].
  - apply first_of_in in E. destruct E as [E | [E | []]].
    + destruct (Gs _ E) as [k [= -> -> ->]]. eapply G; [reflexivity | now left | discriminate].
    + destruct (Go _ _ E) as (k & Ek & [= -> -> ->]). eapply G; [reflexivity | |].
      * right. left. split; [reflexivity |]. intros _. exact (longest_known umatch ulower g _ _ _ (Hp1 eq_refl) Hs Ek).
      * apply (Gt []); [discriminate | cbn; tauto | intros []].
Qed.
Lemma default_fine l p : item_fine l (Item p [] [] (Some (dt_of l))).
Proof.
  split; [constructor |]. cbn [i_target]. intros t [= <-]. destruct l; cbn [dt_of]; [left; split; reflexivity | ..]; (right; split; [discriminate |]; exists []; split; [reflexivity |]; split; [cbn; tauto | intros []]).
Qed.
Lemma parse_fine l pos k it : (l = NP1 -> p1_known) -> n_parse l text pos k = Some it -> item_fine l it.
Proof.
  intros Hp1. assert (D : skips l \/ (l = NRoot \/ l = NNumber)) by (destruct l; unfold skips; auto; left; split; discriminate). destruct D as [Hl | Hl].
  - rewrite (not_fast uspace umatch g Hg l Hl). unfold parse_regex. rewrite (dt_is_of uspace umatch g l). change (c_da (n_compiled l)) with (@NoDA nlex nact).
    revert pos. induction k as [| k IH]; intros pos; cbn [dt_gen]; destruct (c_match (n_compiled l) false text pos) as [m |] eqn:E.
    + injection 1 as <-. exact (token_fine l false pos m Hl Hp1 E).
    + destruct (pos <? length text); [| discriminate]. injection 1 as <-. apply default_fine.
    + apply IH.
    + discriminate.
  - assert (Ep : n_parse l text pos k = parse_empty (fun _ _ => []) (n_compiled l) text pos k) by (destruct Hl as [-> | ->]; reflexivity). rewrite Ep. unfold parse_empty.
    rewrite (dt_is_of uspace umatch g l). change (c_da (n_compiled l)) with (@NoDA nlex nact). cbv iota beta. destruct (pos <? length text); [| destruct k; discriminate].
    destruct k as [| [| k]]; try discriminate. injection 1 as <-. apply default_fine.
Qed.

(** ** Runs *)

Definition low (l : nlex) : bool := match l with N99 | NP1 => true | _ => false end.
(** The root is only at the bottom; n99 and p1 are only at the top. *)
Definition stack_fine (lex : list nlex) : Prop :=
  exists ms l, (lex = NRoot :: ms ++ [l] /\ l <> NRoot \/ lex = [NRoot] /\ ms = [] /\ l = NRoot) /\ Forall (fun x => x <> NRoot /\ low x = false) ms /\ (l = NP1 -> p1_known).
Definition top (lex : list nlex) : nlex := last lex NRoot.
Definition leaf_fine (lex : list nlex) (t : str) : Prop := stack_fine lex /\ tok_fine (top lex) t.
Definition seen_fine (x : seen nlex nact) : Prop := Forall (fun y => leaf_fine (snd x) (x_text y)) (e_lexemes (fst x)).

Lemma emit_fine f it lex evs f' : l_emit f it lex = (evs, f') -> stack_fine lex -> item_fine (top lex) it -> Forall seen_fine evs.
Proof.
  unfold l_emit. destruct (i_lexemes it) as [| y ys] eqn:El; [intros [= <- _]; constructor |]. destruct (f_get f) as [t f2]. intros [= <- _] H [H1 _].
  rewrite El in H1. constructor; [| constructor]. unfold seen_fine. cbn [fst snd e_lexemes]. eapply Forall_impl; [| exact H1]. intros z Hz. split; assumption.
Qed.
Lemma stack_last lex : stack_fine lex -> last_opt lex = Some (top lex) /\ (top lex = NP1 -> p1_known).
Proof.
  intros (ms & l & [[-> Hl] | [-> [-> ->]]] & _ & Hp).
  - unfold top. change (NRoot :: ms ++ [l]) with ((NRoot :: ms) ++ [l]). rewrite last_opt_app, last_last. auto.
  - split; [reflexivity |]. discriminate.
Qed.
Lemma stack_push ms push : Forall (fun x => x <> NRoot /\ low x = false) ms -> In push [[]; [N99]; [NP2; N99]; [NP3; NP2; N99]; [NP1]; chain] -> (In NP1 push -> p1_known) -> stack_fine (NRoot :: ms ++ push).
Proof.
  intros Hms Hin Hp. cbn [In] in Hin.
  assert (G : forall a l, Forall (fun x => x <> NRoot /\ low x = false) a -> l <> NRoot -> (l = NP1 -> p1_known) -> stack_fine (NRoot :: ms ++ a ++ [l])).
  { intros a l Ha Hl Hq. exists (ms ++ a), l. rewrite <- app_assoc. split; [left; split; [reflexivity | exact Hl] |]. split; [apply Forall_app; now split | exact Hq]. }
  destruct Hin as [<- | [<- | [<- | [<- | [<- | [<- | []]]]]]].
  - rewrite app_nil_r. destruct ms as [| x ms] using rev_ind; [exists [], NRoot; split; [right; tauto |]; split; [constructor | discriminate] |]. clear IHms.
    apply Forall_app in Hms as [Hms Hx]. inversion Hx as [| ? ? [Hx1 Hx2] _]; subst. exists ms, x. split; [left; split; [reflexivity | exact Hx1] |]. split; [exact Hms |]. intros ->. discriminate.
  - apply (G [] N99); [constructor | discriminate | discriminate].
  - apply (G [NP2] N99); [repeat constructor; discriminate | discriminate | discriminate].
  - apply (G [NP3; NP2] N99); [repeat constructor; discriminate | discriminate | discriminate].
  - apply (G [] NP1); [constructor | discriminate | intros _; apply Hp; now left].
  - apply (G [NNumber; NP6; NP3; NP2] N99); [repeat constructor; discriminate | discriminate | discriminate].
Qed.
Lemma stack_target lex t : stack_fine lex -> tgt_fine (top lex) t -> stack_fine (drop_last (t_pop (l_clip (length lex) t)) lex ++ t_push (l_clip (length lex) t)).
Proof.
  intros (ms & l & Hs & Hms & Hq) Ht.
  assert (Etop : top lex = l) by (destruct Hs as [[-> _] | [-> [-> ->]]]; [unfold top; change (NRoot :: ms ++ [l]) with ((NRoot :: ms) ++ [l]); apply last_last | reflexivity]). rewrite Etop in Ht.
  destruct Ht as [[-> ->] | [Hl (push & -> & Hin & Hp)]].
  - destruct Hs as [[_ Hs] | [-> _]]; [congruence |]. apply (stack_push [] chain); [constructor | cbn; tauto | cbn; intuition discriminate].
  - destruct Hs as [[-> _] | [-> [-> ->]]]; [| congruence].
    assert (Ec : l_clip (length (NRoot :: ms ++ [l])) (Target 1 push) = Target 1 push).
    { unfold l_clip. cbn [t_pop length]. rewrite app_length. cbn [length]. replace (S (length ms + 1) <=? 1) with false by (symmetry; apply Nat.leb_gt; lia). reflexivity. }
    rewrite Ec. cbn [t_pop t_push]. assert (Ed : drop_last 1 (NRoot :: ms ++ [l]) = NRoot :: ms).
    { change (NRoot :: ms ++ [l]) with ((NRoot :: ms) ++ [l]). rewrite drop_last_app by (cbn; lia). cbn. now rewrite app_nil_r. }
    rewrite Ed. cbn [app]. apply stack_push; [exact Hms | cbn [In] in *; tauto | exact Hp].
Qed.
Lemma step_fine s evs s' : stack_fine (s_lex s) -> l_step n_consume n_parse text s = Some (evs, s') -> Forall seen_fine evs /\ stack_fine (s_lex s').
Proof.
  intros H. unfold l_step. destruct (stack_last _ H) as [El Hp]. rewrite El. set (l := top (s_lex s)) in *.
  destruct (n_parse l text (s_pos s) (s_idx s)) as [it |] eqn:Ep; [| discriminate].
  pose proof (parse_fine _ _ _ _ Hp Ep) as Hit. destruct (i_target it) as [t0 |] eqn:Et.
  - pose proof (stack_target _ _ H (proj2 Hit _ Et)) as Hm.
    cbv zeta. destruct (i_txt it) as [| x xs].
    + destruct (l_circle _ _ _ _ _) as [pos circ]. injection 1 as <- <-. split; [constructor | exact Hm].
    + destruct (l_consumes _ _) eqn:Ec.
      { exfalso. unfold l_consumes, n_consume in Ec. destruct (last_opt (t_push _)); discriminate Ec. }
      destruct (l_emit (s_fac s) it (s_lex s)) as [evs1 f1] eqn:Ee. injection 1 as <- <-. split; [exact (emit_fine _ _ _ _ _ Ee H Hit) | exact Hm].
  - destruct (i_txt it) as [| x xs]; [injection 1 as <- <-; split; [constructor | exact H] |].
    destruct (l_emit (s_fac s) it (s_lex s)) as [evs1 f1] eqn:Ee. injection 1 as <- <-. split; [exact (emit_fine _ _ _ _ _ Ee H Hit) | exact H].
Qed.
Lemma run_fine n : forall s evs r, stack_fine (s_lex s) -> l_run n_consume n_parse text n s = (evs, r) -> Forall seen_fine evs.
Proof.
  induction n as [| n IH]; intros s evs r H; cbn [l_run]; [intros [= <- _]; constructor |].
  destruct (l_step n_consume n_parse text s) as [[ev s'] |] eqn:Es; [| intros [= <- _]; constructor].
  destruct (step_fine _ _ _ H Es) as [H1 H2]. destruct (l_run n_consume n_parse text n s') as [ev' r'] eqn:Er. intros [= <- _].
  apply Forall_app. split; [exact H1 | exact (IH _ _ _ H2 Er)].
Qed.

(** ** Trees *)

Notation tleaf := (list nlex * TreeModel.tok nact)%type.
Definition tok_leaf (y : tleaf) : Prop := leaf_fine (fst y) (k_text (snd y)).
Lemma leaves_fine (evs : list (seen nlex nact)) : forall st, stream_ok nlex nact st (map fst evs) -> (forall before x after, evs = before ++ x :: after -> snd x = TargetSpec.follow (replay st (map fst before)) (e_target (fst x))) ->
  Forall seen_fine evs -> Forall tok_leaf (event_leaves nlex nact st (map fst evs)).
Proof.
  induction evs as [| x evs IH]; intros st Hst Hsn Hf; cbn [map event_leaves]; [constructor |]. inversion Hf as [| ? ? Hx Hf']; subst.
  pose proof (Hsn [] x evs eq_refl) as Ex. cbn in Ex. apply Forall_app. split.
  - rewrite <- Ex. unfold seen_fine in Hx. apply Forall_forall. intros y Hy. apply in_map_iff in Hy as (t & <- & Ht). unfold tok_leaf. cbn [fst snd].
    rewrite Forall_forall in Hx. pose proof (make_tokens_lexemes nact (e_lexemes (fst x))) as Em.
    assert (Hin : In (lexeme_of t) (e_lexemes (fst x))) by (rewrite <- Em; apply in_map; exact Ht). exact (Hx _ Hin).
  - apply IH; [apply Hst | | exact Hf']. intros before y after E. pose proof (Hsn (x :: before) y after ltac:(now rewrite E)) as H. exact H.
Qed.
Lemma leaves_up (n : node nlex nact) : forall up y, In y (leaves up n) -> exists s, fst y = up ++ s /\ (match n with Ctx l _ => exists s', s = l :: s' | _ => s = [] end).
Proof.
  induction n as [t | l cs IH] using node_ind'; intros up y.
  - cbn. intros [<- | []]. exists []. now rewrite app_nil_r.
  - rewrite leaves_ctx. intros H. apply in_concat in H as (ys & Hys & Hy). apply in_map_iff in Hys as (c & <- & Hc). rewrite Forall_forall in IH.
    destruct (IH c Hc _ _ Hy) as (s & E & _). exists (l :: s). rewrite E, <- app_assoc. split; [reflexivity | eauto].
Qed.
Lemma full_leaf (n : node nlex nact) : full n -> forall up, leaves up n <> [].
Proof.
  induction n as [t | l cs IH] using node_ind'; intros H up; [discriminate |]. inversion H as [| ? ? Hne Hf]; subst. rewrite leaves_ctx. destruct cs as [| c cs]; [congruence |].
  inversion IH; subst. inversion Hf; subst. cbn [map concat]. intros E. apply app_eq_nil in E as [E _]. match goal with Hh : full c -> _ |- _ => now apply (Hh ltac:(assumption) _ E) end.
Qed.
(** Above the root is nothing, and below n99 and p1 are no contexts. *)
Lemma stack_above up l s : stack_fine (up ++ l :: s) -> up <> [] -> l <> NRoot /\ (s <> [] -> low l = false).
Proof.
  intros (ms & x & [[E Hx] | [E _]] & Hms & _) Hup.
  - destruct up as [| u up]; [congruence |]. cbn [app] in E. injection E as -> E. rewrite Forall_forall in Hms.
    destruct s as [| z s] using rev_ind.
    + apply app_inj_tail in E as [_ ->]. split; [exact Hx | congruence].
    + clear IHs. change (l :: s ++ [z]) with ((l :: s) ++ [z]) in E. rewrite app_assoc in E. apply app_inj_tail in E as [E _].
      destruct (Hms l) as [H1 H2]; [rewrite <- E; apply in_or_app; right; now left |]. split; [exact H1 | intros _; exact H2].
  - destruct up as [| u [| v up]]; [congruence | cbn in E; injection E as _ E; discriminate | cbn in E; injection E as _ E; discriminate].
Qed.

Notation nitems := (nitems ulower g).
Lemma nitems_cons c cs : nitems (c :: cs) = nitems [c] ++ nitems cs.
Proof. exact (nitems_app ulower g [c] cs). Qed.
Definition number_item (i : nitem) : Prop := exists nm z, i = IObj nm (Some (VNum z)).
Definition known_item (i : nitem) : Prop := match i with IToken t => known (k_text t) | _ => False end.
Definition factor_item (i : nitem) : Prop := number_item i \/ exists t, i = IToken t.
Lemma raised_none is : Forall (fun i => number_item i \/ exists t, i = IToken t) is -> existsb n_raised is = false.
Proof. induction 1 as [| i is Hi _ IH]; [reflexivity |]. cbn [existsb]. rewrite IH, orb_false_r. destruct Hi as [(nm & z & ->) | (t & ->)]; reflexivity. Qed.
Lemma sum_some {X} (f : X -> option Z) l : Forall (fun x => f x <> None) l -> exists z, sum_opt f l = Some z.
Proof. induction 1 as [| x l Hx _ [z IH]]; [eexists; reflexivity |]. cbn [sum_opt]. rewrite IH. destruct (f x); [eauto | congruence]. Qed.
Lemma number_obj i : number_item i -> obj_of i <> None.
Proof. intros (nm & z & ->). discriminate. Qed.
Lemma factor_some f is : Forall factor_item is -> forall vs, exists z, factor_loop f vs is = Some z.
Proof.
  induction 1 as [| i is Hi _ IH]; intros vs; cbn [factor_loop]; [eauto |]. destruct Hi as [(nm & z & ->) | (t & ->)]; [apply IH | eauto].
Qed.
Lemma objs_some is : Forall number_item is -> exists zs, objs is = Some zs.
Proof. induction 1 as [| i is (nm & z & ->) _ [zs IH]]; [eexists; reflexivity |]. cbn [objs obj_of]. rewrite IH. eauto. Qed.

(** Every context but the root is a number. *)
Lemma ctx_number (n : node nlex nact) : full n -> forall up, up <> [] -> Forall tok_leaf (leaves up n) -> match n with Ctx _ _ => Forall number_item (nitems [n]) | Tok _ => True end.
Proof.
  induction n as [t | l cs IH] using node_ind'; intros Hf up Hup Hl; [exact I |].
  pose proof (full_leaf _ Hf up) as Hne. inversion Hf as [| ? ? Hcs Hfs]; subst.
  assert (Hlr : l <> NRoot).
  { destruct (leaves up (Ctx l cs)) as [| y ys] eqn:El; [congruence |]. destruct (leaves_up (Ctx l cs) up y ltac:(rewrite El; now left)) as (s & E & s' & ->).
    inversion Hl as [| ? ? [Hst _] _]; subst. rewrite E in Hst. exact (proj1 (stack_above _ _ _ Hst Hup)). }
  clear Hne. rewrite leaves_ctx in Hl.
  assert (Hc : Forall (fun c => full c /\ Forall tok_leaf (leaves (up ++ [l]) c)) cs).
  { rewrite Forall_forall in *. intros c Hin. split; [exact (Hfs c Hin) |]. apply Forall_forall. intros y Hy. apply Hl. apply in_concat. exists (leaves (up ++ [l]) c). split; [now apply in_map | exact Hy]. }
  assert (Hi : Forall (fun i => match i with IToken t => tok_fine l (k_text t) | _ => number_item i /\ low l = false end) (nitems cs)).
  { clear Hl Hfs Hcs Hf. revert IH. induction Hc as [| c cs [Hc1 Hc2] _ IHc]; intros IH; [constructor |]. inversion IH as [| ? ? H1 H2]; subst. rewrite nitems_cons. apply Forall_app. split; [| exact (IHc H2)].
    destruct c as [t | l' ds].
    - cbn [leaves] in Hc2. inversion Hc2 as [| ? ? [_ Ht] _]; subst. unfold top in Ht. cbn [fst snd] in Ht. rewrite last_last in Ht. constructor; [exact Ht | constructor].
    - specialize (H1 Hc1 (up ++ [l]) ltac:(now destruct up) Hc2). cbv iota in H1.
      assert (Hlow : low l = false).
      { pose proof (full_leaf _ Hc1 (up ++ [l])) as Hne. destruct (leaves (up ++ [l]) (Ctx l' ds)) as [| y ys] eqn:El; [congruence |]. destruct (leaves_up (Ctx l' ds) (up ++ [l]) y ltac:(rewrite El; now left)) as (s & E & s' & ->).
        inversion Hc2 as [| ? ? [Hst _] _]; subst. rewrite E, <- app_assoc in Hst. apply (proj2 (stack_above up l _ Hst Hup)). discriminate. }
      eapply Forall_impl; [| exact H1]. intros i (nm & z & ->). split; [now exists nm, z | exact Hlow]. }
  assert (Hr : existsb n_raised (nitems cs) = false).
  { apply raised_none. eapply Forall_impl; [| exact Hi]. intros [t | nm r | c0]; [right; now exists t | intros [H _]; now left ..]. }
  assert (G : forall f, nitems [Ctx l cs] = [IObj l (if existsb n_raised (nitems cs) then None else f (nitems cs))] -> (exists z, f (nitems cs) = Some (VNum z)) -> Forall number_item (nitems [Ctx l cs])).
  { intros f E [z Ez]. rewrite E, Hr, Ez. constructor; [now exists l, z | constructor]. }
  assert (Hfac : forall f, exists z, n_factor f (nitems cs) = Some (VNum z)).
  { intros f. unfold n_factor. destruct (factor_some f (nitems cs)) with (vs := @nil Z) as [z Ez]; [| rewrite Ez; now exists z]. eapply Forall_impl; [| exact Hi]. intros [t | nm r | c0]; [right; now exists t | intros [H _]; now left ..]. }
  destruct l; [congruence | ..].
  - apply (G n_number); [reflexivity |]. unfold n_number. destruct (sum_some obj_of (nitems cs)) as [z Ez]; [| rewrite Ez; now exists z].
    eapply Forall_impl; [| exact Hi]. intros [t | nm r | c0]; [intros [[_ Hc0] _]; congruence | intros [H _]; exact (number_obj _ H) ..].
  - apply (G (n_factor 1000000)); [reflexivity | apply Hfac].
  - apply (G (n_factor 1000)); [reflexivity | apply Hfac].
  - apply (G (n_factor 100)); [reflexivity | apply Hfac].
  - apply (G (n_99 ulower g)); [reflexivity |]. unfold n_99. match goal with |- exists z, option_map VNum (sum_opt ?f _) = _ => destruct (sum_some f (nitems cs)) as [z Ez]; [| rewrite Ez; now exists z] end.
    eapply Forall_impl; [| exact Hi]. intros [t | nm r | c0]; [intros [_ Hk]; apply Hk; now left | intros [_ Hc0]; discriminate ..].
  - apply (G (n_99 ulower g)); [reflexivity |]. unfold n_99. match goal with |- exists z, option_map VNum (sum_opt ?f _) = _ => destruct (sum_some f (nitems cs)) as [z Ez]; [| rewrite Ez; now exists z] end.
    eapply Forall_impl; [| exact Hi]. intros [t | nm r | c0]; [intros [_ Hk]; apply Hk; now right | intros [_ Hc0]; discriminate ..].
Qed.

Theorem read_total n evs r : l_run n_consume n_parse text n (l_init [NRoot] 0) = (evs, r) ->
  exists cs zs, build_tree NRoot (map fst evs) = Some (Ctx NRoot cs) /\ n_call n_root (ItemList tt (nitems cs)) = Some (VNums zs).
Proof.
  intros Hr. pose proof (run_stream_ok nlex nact n_consume n_parse text n [NRoot] 0 evs r ltac:(discriminate) Hr) as Hst.
  destruct (build_tree_ok nlex nact NRoot _ Hst) as (cs & Hb & Hw & _).
  assert (Hfine : Forall seen_fine evs).
  { apply (run_fine n (l_init [NRoot] 0) evs r); [| exact Hr]. exists [], NRoot. split; [right; repeat split |]. split; [constructor | discriminate]. }
  assert (Hsn : forall before x after, evs = before ++ x :: after -> snd x = TargetSpec.follow (replay [NRoot] (map fst before)) (e_target (fst x))).
  { intros before x after E. pose proof (stack_inv_start nlex [NRoot] 0 ltac:(discriminate)) as Hinv.
    exact (proj1 (proj1 (run_stack nlex nact n_consume n_parse text n _ _ _ _ Hinv Hr) before x after E)). }
  pose proof (leaves_fine evs [NRoot] Hst Hsn Hfine) as Hl. rewrite <- (build_leaves nlex nact NRoot _ cs _ Hw) in Hl.
  pose proof (build_full nlex nact _ _ _ _ Hst Hw) as Hfull. rewrite leaves_ctx in Hl. cbn [app] in Hl.
  assert (Hi : Forall number_item (nitems cs)).
  { clear - Hfull Hl. induction Hfull as [| c cs Hc _ IH]; [constructor |]. cbn [map concat] in Hl. apply Forall_app in Hl as [Hl1 Hl2]. rewrite nitems_cons. apply Forall_app. split; [| exact (IH Hl2)].
    pose proof (ctx_number c Hc [NRoot] ltac:(discriminate) Hl1) as H. destruct c as [t | l ds]; [| exact H].
    cbn [leaves] in Hl1. inversion Hl1 as [| ? ? [_ [[Ht _] _]] _]; subst. exfalso. apply Ht. reflexivity. }
  destruct (objs_some _ Hi) as [zs Ez]. exists cs, zs. split; [exact Hb |]. unfold n_call. cbn [il_items]. rewrite raised_none.
  - unfold n_root. now rewrite Ez.
  - eapply Forall_impl; [| exact Hi]. intros i H. now left.
Qed.
End Runs.
