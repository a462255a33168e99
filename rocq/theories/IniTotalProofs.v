(** Which INI texts can be read at all. *)
From Verif Require Import Base BaseFacts TargetModel TargetSpec LexerModel LexerSpec LexerProofs LexiconModel LexiconSpec TreeModel TreeSpec TreeProofs BuildModel BuildProofs
  TransformModel TransformSpec TransformTextProofs MachineProofs GeneratorProofs IniModel IniSpec IniTextProofs IniRunProofs IniLineProofs.
From Coq Require Import ZArith ZifyBool.

Section Total.
Variable marks : str -> nat -> option (nat * nat).
Variable odd : str -> option nat.
Variable text : str.
Notation i_parse := (i_parse marks).
Notation i_compiled := (i_compiled marks).
Notation items := (items odd).

(** The text of a token that gives no exception. *)
Definition calm (t : str) : Prop := unescape odd (l_strip t) <> None.
Lemma escaped_strip t : escaped t = true -> l_strip t = t.
Proof. destruct t as [| c t]; [discriminate |]. cbn [escaped l_strip]. intros H. apply Nat.eqb_eq in H. now subst c. Qed.
Lemma unescaped t : escaped t = false -> unescape odd t = Some t.
Proof. unfold unescape. now intros ->. Qed.

Definition lex_fine (a : iact) (t : str) : Prop := match a with IEscape | IIdent | IData | IEnd => calm t | _ => True end.
(** Only tokens of keys, values and section names are of these actions. *)
Definition lex_in (l : ilex) (a : iact) : Prop :=
  match l with
  | ISection => a = INamespace \/ a = IEnd
  | IKey => a = IEscape \/ a = IIdent
  | IValue => a = IEscape \/ a = IData
  | IRoot | IComment => a <> INamespace
  end.
Definition tgt_fine (l : ilex) (t : target ilex) : Prop := (l = IRoot /\ exists x, x <> IRoot /\ t = Target 0 [x]) \/ (l <> IRoot /\ t = Target 1 []).
Definition item_fine (l : ilex) (it : item ilex iact) : Prop :=
  Forall (fun x => lex_fine (x_act x) (x_text x) /\ lex_in l (x_act x)) (i_lexemes it) /\
  forall t, i_target it = Some t -> tgt_fine l t.

Lemma strip_plain t : ~ In 92 t -> calm t.
Proof.
  intros H. unfold calm. rewrite unescaped; [discriminate |]. destruct (escaped (l_strip t)) eqn:E; [| reflexivity]. exfalso. apply H. assert (G : forall s, In 92 (l_strip s) -> In 92 s).
  { induction s as [| c s IH]; [exact (fun x => x) |]. cbn [l_strip]. destruct (i_blank c); [right; auto | exact (fun x => x)]. }
  apply G. destruct (l_strip t) as [| c s]; [discriminate |]. cbn in E. apply Nat.eqb_eq in E. subst c. now left.
Qed.
Lemma escape_calm s n : i_escape s = Some n -> calm (firstn n s).
Proof.
  unfold i_escape. destruct s as [| b [| c s]]; try discriminate. destruct (Nat.eqb_spec b 92) as [-> | ]; [| discriminate].
  destruct (i_escapable c) eqn:Ee.
  - injection 1 as <-. unfold calm. rewrite escaped_strip by reflexivity. cbn [firstn escaped unescape Nat.eqb].
    destruct (i_x c) eqn:Ex; [| discriminate]. exfalso. unfold i_x in Ex. unfold i_escapable in Ee. cbn [existsb] in Ee. lia.
  - destruct (i_x c && i_hex4 (firstn 4 s)) eqn:Ex; [| discriminate]. injection 1 as <-. apply andb_true_iff in Ex as [E1 E2].
    change (firstn 6 (92 :: c :: s)) with (92 :: c :: firstn 4 s). unfold calm. rewrite escaped_strip by reflexivity. unfold unescape, escaped, chr_int. cbn [Nat.eqb]. rewrite E1, E2. discriminate.
Qed.
Lemma span_plain s : ~ In 92 (firstn (i_span i_plain s) s).
Proof.
  induction s as [| c s IH]; [exact (fun x => x) |]. cbn [i_span]. destruct (i_plain c) eqn:E; [| exact (fun x => x)]. cbn [firstn]. intros [-> | H]; [discriminate | exact (IH H)].
Qed.
Lemma values_calm s k n : i_values_at s = Some (k, n) -> calm (firstn n s) /\ (k = 0 \/ k = 1).
Proof.
  unfold i_values_at. destruct (i_escape s) as [m |] eqn:E; [intros [= <- <-]; split; [exact (escape_calm _ _ E) | now left] |].
  destruct (i_span i_plain s) as [| m] eqn:E1; [discriminate |]. intros [= <- <-]. split; [| now right]. apply strip_plain. rewrite <- E1. apply span_plain.
Qed.
Lemma token_fine l adv p m : c_match (i_compiled l) adv text p = Some m -> item_fine l (token (fun _ _ => []) l (c_rules (i_compiled l)) text m).
Proof.
  cbn [c_match c_rules IniModel.i_compiled]. destruct (i_pick marks l adv text p) as [[i n] |] eqn:E; [| discriminate]. injection 1 as <-.
  assert (Es : slice text p (p + n) = firstn n (skipn p text)) by (unfold slice; f_equal; lia).
  assert (G : forall a tg, nth_error (i_rules l) i = Some (SRule (AStd a) tg) -> lex_fine a (firstn n (skipn p text)) -> lex_in l a ->
     (forall t, t_make l tg = Some t -> tgt_fine l t) ->
     item_fine l (token (fun _ _ => []) l (i_rules l) text (Mtch p (p + n) i []))).
  { intros a tg Hn H1 H2 H3. unfold token. cbn [m_rule m_start m_end]. rewrite Hn, Es. unfold item_fine, mk_item. cbn [i_lexemes i_target]. split; [| exact H3].
    destruct (firstn n (skipn p text)) as [| x xs] eqn:Ef; [constructor |]. cbn [act_lexemes]. repeat constructor; cbn [x_act x_text]; assumption. }
  destruct l; cbn [i_pick] in E.
  - destruct (skipn p text) as [| c s]; [discriminate |]. destruct (c =? 91); [| destruct ((c =? 59) || (c =? 35)); [| destruct (c =? 61); [| discriminate]]]; injection E as <- <-;
      (eapply G; [reflexivity | exact I | discriminate |]; intros t Et; vm_compute in Et; injection Et as <-; left; split; [reflexivity |]; eexists; split; [| reflexivity]; discriminate).
  - destruct (skipn p text) as [| c s]; [discriminate |]. destruct (Nat.eqb_spec c 93) as [-> |]; [| discriminate]. injection E as <- <-.
    eapply G; [reflexivity | cbn; apply strip_plain; cbn; intuition discriminate | now right |]. intros t Et; vm_compute in Et; injection Et as <-; right; split; [discriminate | reflexivity].
  - destruct (values_calm _ _ _ E) as [Hc [-> | ->]]; (eapply G; [reflexivity | exact Hc | first [now left | now right] |]; intros t Et; vm_compute in Et; discriminate).
  - destruct (values_calm _ _ _ E) as [Hc [-> | ->]]; (eapply G; [reflexivity | exact Hc | first [now left | now right] |]; intros t Et; vm_compute in Et; discriminate).
  - destruct (_ && _).
    + injection E as <- <-. eapply G; [reflexivity | exact I | discriminate |]. intros t Et; vm_compute in Et; injection Et as <-; right; split; [discriminate | reflexivity].
    + destruct (marks text p) as [[k n'] |]; [| discriminate]. injection E as <- <-.
      destruct k as [| [| [| k]]]; try (eapply G; [reflexivity | exact I | discriminate |]; intros t Et; vm_compute in Et; discriminate).
      unfold token. cbn [m_rule]. assert (En : nth_error (i_rules IComment) (S (S (S (S k)))) = None) by (destruct k; reflexivity). rewrite En. unfold mk_item, item_fine. cbn [i_lexemes i_target].
      split; [destruct (slice _ _ _); constructor | discriminate].
Qed.
Lemma scan_in mat fuel : forall adv pos m, In m (scan mat text fuel adv pos) -> exists a p, mat a text p = Some m.
Proof.
  induction fuel as [| fuel IH]; intros adv pos m; cbn [scan]; [contradiction |]. destruct (length text <? pos); [contradiction |].
  destruct (mat adv text pos) as [m' |] eqn:E; [intros [<- | H]; eauto | eauto].
Qed.
Lemma da_fine l a : (l = ISection /\ a = INamespace) \/ (l = IComment /\ a = ICom) -> forall p s, item_fine l (da_item (L := ilex) (fun _ _ => []) text (StaticDA (AStd a)) p s).
Proof. intros [[-> ->] | [-> ->]] p s; (split; [| intros ? [=]]); cbn; destruct s; repeat constructor; discriminate. Qed.
Lemma gaps_fine l a : (l = ISection /\ a = INamespace) \/ (l = IComment /\ a = ICom) -> forall it ms p, (forall m, In m ms -> exists a q, c_match (i_compiled l) a text q = Some m) ->
  In it (gaps (fun _ _ => []) l (c_rules (i_compiled l)) (StaticDA (AStd a)) text p ms) -> item_fine l it.
Proof.
  intros Hl it. induction ms as [| m ms IH]; intros p Hms; cbn [gaps].
  - destruct (p <? length text); [intros [<- | []]; now apply da_fine | contradiction].
  - intros H. apply in_app_or in H as [H | [<- | H]].
    + destruct (p <? m_start m); [| contradiction]. destruct H as [<- | []]. now apply da_fine.
    + destruct (Hms m (or_introl eq_refl)) as (a' & q & E). exact (token_fine l a' q m E).
    + apply (IH _ (fun m' Hm' => Hms m' (or_intror Hm')) H).
Qed.
Lemma dt_fine l t : (l = IRoot /\ t = Target 0 [IKey]) \/ ((l = IKey \/ l = IValue) /\ t = Target 1 []) -> forall it k pos,
  dt_gen (fun _ _ => []) l (c_rules (i_compiled l)) (c_match (i_compiled l)) (Some t) text pos k = Some it -> item_fine l it.
Proof.
  intros Hl it. induction k as [| k IH]; intros pos; cbn [dt_gen].
  - match goal with |- context [match ?x with Some _ => _ | None => _ end] => destruct x as [m |] eqn:E end.
    + injection 1 as <-. exact (token_fine l false pos m E).
    + destruct (pos <? length text); [| discriminate]. injection 1 as <-. split; [constructor |]. cbn. intros t0 [= <-].
      destruct Hl as [[-> ->] | [[-> | ->] ->]]; [left; split; [reflexivity |]; exists IKey; split; [discriminate | reflexivity] | right; split; [discriminate | reflexivity] ..].
  - match goal with |- context [match ?x with Some _ => _ | None => _ end] => destruct x as [m |] eqn:E end; [apply IH | discriminate].
Qed.
Lemma fast_fine it fuel : forall pos, In it (fast_find (L := ilex) (fun _ _ => []) text [93] (StaticDA (AStd INamespace)) (AStd IEnd) (t_make ISection [RInt (-1)]) fuel pos) -> item_fine ISection it.
Proof.
  assert (Hda : forall p s, item_fine ISection (da_item (L := ilex) (fun _ _ => []) text (StaticDA (AStd INamespace)) p s)) by (intros; apply da_fine; left; split; reflexivity).
  induction fuel as [| fuel IH]; intros pos; cbn [fast_find]; [contradiction |]. destruct (str_find [93] text pos) as [i |].
  - intros H. apply in_app_or in H as [H | [<- | H]].
    + destruct (pos <? i); [| contradiction]. destruct H as [<- | []]. apply Hda.
    + split; [cbn; constructor; [| constructor]; split; [apply strip_plain; cbn; intuition discriminate | now right] |]. intros t Et. vm_compute in Et. injection Et as <-. right. split; [discriminate | reflexivity].
    + exact (IH _ H).
  - destruct (pos <? length text); [intros [<- | []]; apply Hda | contradiction].
Qed.
Lemma parse_fine l pos k it : i_parse l text pos k = Some it -> item_fine l it.
Proof.
  unfold IniModel.i_parse. destruct l.
  - exact (dt_fine IRoot (Target 0 [IKey]) (or_introl (conj eq_refl eq_refl)) it k pos).
  - intros H. apply nth_error_In in H. exact (fast_fine it _ _ H).
  - exact (dt_fine IKey (Target 1 []) (or_intror (conj (or_introl eq_refl) eq_refl)) it k pos).
  - exact (dt_fine IValue (Target 1 []) (or_intror (conj (or_intror eq_refl) eq_refl)) it k pos).
  - intros H. apply nth_error_In in H. refine (gaps_fine IComment ICom (or_intror (conj eq_refl eq_refl)) it _ _ _ H). intros m Hm. exact (scan_in _ _ _ _ _ Hm).
Qed.

(** ** Runs *)

Definition stack_fine (lex : list ilex) : Prop := lex = [IRoot] \/ exists l, l <> IRoot /\ lex = [IRoot; l].
Definition top (lex : list ilex) : ilex := last lex IRoot.
Definition leaf_fine (lex : list ilex) (a : iact) (t : str) : Prop := stack_fine lex /\ lex_fine a t /\ lex_in (top lex) a.
Definition seen_fine (x : seen ilex iact) : Prop := Forall (fun y => leaf_fine (snd x) (x_act y) (x_text y)) (e_lexemes (fst x)).

Lemma emit_fine f it lex evs f' : l_emit f it lex = (evs, f') -> stack_fine lex -> item_fine (top lex) it -> Forall seen_fine evs.
Proof.
  unfold l_emit. destruct (i_lexemes it) as [| y ys] eqn:El; [intros [= <- _]; constructor |]. destruct (f_get f) as [t f2]. intros [= <- _] H [H1 _].
  rewrite El in H1. constructor; [| constructor]. unfold seen_fine. cbn [fst snd e_lexemes]. eapply Forall_impl; [| exact H1]. intros z [Hz1 Hz2]. split; [exact H |]. split; assumption.
Qed.
Lemma step_fine s evs s' : stack_fine (s_lex s) -> l_step i_consume i_parse text s = Some (evs, s') -> Forall seen_fine evs /\ stack_fine (s_lex s').
Proof.
  intros H. unfold l_step. assert (El : last_opt (s_lex s) = Some (top (s_lex s))) by (destruct H as [-> | (l & _ & ->)]; reflexivity). rewrite El. set (l := top (s_lex s)) in *.
  destruct (i_parse l text (s_pos s) (s_idx s)) as [it |] eqn:Ep; [| discriminate].
  pose proof (parse_fine _ _ _ _ Ep) as Hit. destruct (i_target it) as [t0 |] eqn:Et.
  - assert (Hm : stack_fine (drop_last (t_pop (l_clip (length (s_lex s)) t0)) (s_lex s) ++ t_push (l_clip (length (s_lex s)) t0))).
    { destruct (proj2 Hit _ Et) as [[Hl (x & Hx & ->)] | [Hl ->]].
      - destruct H as [-> | (l' & Hl' & E)]; [right; exists x; split; [exact Hx | reflexivity] |]. exfalso. unfold l in Hl. rewrite E in Hl. exact (Hl' Hl).
      - destruct H as [E | (l' & Hl' & ->)]; [exfalso; apply Hl; unfold l; now rewrite E |]. left. reflexivity. }
    cbv zeta. destruct (i_txt it) as [| x xs].
    + destruct (l_circle _ _ _ _ _) as [pos circ]. injection 1 as <- <-. split; [constructor | exact Hm].
    + destruct (l_consumes _ _) eqn:Ec.
      { exfalso. unfold l_consumes, i_consume in Ec. destruct (last_opt (t_push _)); discriminate Ec. }
      destruct (l_emit (s_fac s) it (s_lex s)) as [evs1 f1] eqn:Ee. injection 1 as <- <-. split; [exact (emit_fine _ _ _ _ _ Ee H Hit) | exact Hm].
  - destruct (i_txt it) as [| x xs]; [injection 1 as <- <-; split; [constructor | exact H] |].
    destruct (l_emit (s_fac s) it (s_lex s)) as [evs1 f1] eqn:Ee. injection 1 as <- <-. split; [exact (emit_fine _ _ _ _ _ Ee H Hit) | exact H].
Qed.
Lemma run_fine n : forall s evs r, stack_fine (s_lex s) -> l_run i_consume i_parse text n s = (evs, r) -> Forall seen_fine evs.
Proof.
  induction n as [| n IH]; intros s evs r H; cbn [l_run]; [intros [= <- _]; constructor |].
  destruct (l_step i_consume i_parse text s) as [[ev s'] |] eqn:Es; [| intros [= <- _]; constructor].
  destruct (step_fine _ _ _ H Es) as [H1 H2]. destruct (l_run i_consume i_parse text n s') as [ev' r'] eqn:Er. intros [= <- _].
  apply Forall_app. split; [exact H1 | exact (IH _ _ _ H2 Er)].
Qed.

(** ** Trees *)

Definition tok_leaf (y : list ilex * TreeModel.tok iact) : Prop := leaf_fine (fst y) (k_act (snd y)) (k_text (snd y)) /\ (k_act (snd y) = INamespace -> calm (k_text (snd y))).
Lemma leaves_fine (evs : list (seen ilex iact)) : forall st, stream_ok ilex iact st (map fst evs) -> (forall before x after, evs = before ++ x :: after -> snd x = TargetSpec.follow (replay st (map fst before)) (e_target (fst x))) ->
  Forall seen_fine evs -> Forall (fun x => Forall (fun y => x_act y = INamespace -> calm (x_text y)) (e_lexemes (fst x))) evs ->
  Forall tok_leaf (event_leaves ilex iact st (map fst evs)).
Proof.
  induction evs as [| x evs IH]; intros st Hst Hsn Hf Hc; cbn [map event_leaves]; [constructor |]. inversion Hf as [| ? ? Hx Hf']; subst. inversion Hc as [| ? ? Hcx Hc']; subst.
  pose proof (Hsn [] x evs eq_refl) as Ex. cbn in Ex. apply Forall_app. split.
  - rewrite <- Ex. unfold seen_fine in Hx. apply Forall_forall. intros y Hy. apply in_map_iff in Hy as (t & <- & Ht). unfold tok_leaf. cbn [fst snd].
    rewrite Forall_forall in Hx, Hcx. pose proof (make_tokens_lexemes iact (e_lexemes (fst x))) as Em.
    assert (Hin : In (lexeme_of t) (e_lexemes (fst x))) by (rewrite <- Em; apply in_map; exact Ht). split; [exact (Hx _ Hin) | exact (Hcx _ Hin)].
  - apply IH; [apply Hst | | exact Hf' | exact Hc']. intros before y after E. pose proof (Hsn (x :: before) y after ltac:(now rewrite E)) as H. exact H.
Qed.
Lemma leaves_up (n : node ilex iact) : forall up y, In y (leaves up n) -> exists s, fst y = up ++ s /\ (match n with Ctx l _ => exists s', s = l :: s' | _ => s = [] end).
Proof.
  induction n as [t | l cs IH] using node_ind'; intros up y.
  - cbn. intros [<- | []]. exists []. now rewrite app_nil_r.
  - rewrite leaves_ctx. intros H. apply in_concat in H as (ys & Hys & Hy). apply in_map_iff in Hys as (c & <- & Hc). rewrite Forall_forall in IH.
    destruct (IH c Hc _ _ Hy) as (s & E & _). exists (l :: s). rewrite E, <- app_assoc. split; [reflexivity | eauto].
Qed.
Lemma full_leaf (n : node ilex iact) : full n -> forall up, leaves up n <> [].
Proof.
  induction n as [t | l cs IH] using node_ind'; intros H up; [discriminate |]. inversion H as [| ? ? Hne Hf]; subst. rewrite leaves_ctx. destruct cs as [| c cs]; [congruence |].
  inversion IH; subst. inversion Hf; subst. cbn [map concat]. intros E. apply app_eq_nil in E as [E _]. match goal with Hh : full c -> _ |- _ => now apply (Hh ltac:(assumption) _ E) end.
Qed.
Lemma leaves_plain (evs : list (seen ilex iact)) : forall st, stream_ok ilex iact st (map fst evs) -> (forall before x after, evs = before ++ x :: after -> snd x = TargetSpec.follow (replay st (map fst before)) (e_target (fst x))) ->
  Forall seen_fine evs -> Forall (fun y => leaf_fine (fst y) (k_act (snd y)) (k_text (snd y))) (event_leaves ilex iact st (map fst evs)).
Proof.
  induction evs as [| x evs IH]; intros st Hst Hsn Hf; cbn [map event_leaves]; [constructor |]. inversion Hf as [| ? ? Hx Hf']; subst.
  pose proof (Hsn [] x evs eq_refl) as Ex. cbn in Ex. apply Forall_app. split.
  - rewrite <- Ex. unfold seen_fine in Hx. apply Forall_forall. intros y Hy. apply in_map_iff in Hy as (t & <- & Ht). cbn [fst snd].
    rewrite Forall_forall in Hx. pose proof (make_tokens_lexemes iact (e_lexemes (fst x))) as Em.
    assert (Hin : In (lexeme_of t) (e_lexemes (fst x))) by (rewrite <- Em; apply in_map; exact Ht). exact (Hx _ Hin).
  - apply IH; [apply Hst | | exact Hf']. intros before y after E. pose proof (Hsn (x :: before) y after ltac:(now rewrite E)) as H. exact H.
Qed.
Lemma shallow l ds : full (Ctx l ds) -> Forall (fun y => leaf_fine (fst y) (k_act (snd y)) (k_text (snd y))) (leaves [IRoot] (Ctx l ds)) -> l <> IRoot /\ exists ts, ds = map Tok ts.
Proof.
  intros Hf Hc.
  assert (Hl : l <> IRoot).
  { pose proof (full_leaf _ Hf [IRoot]) as Hne. destruct (leaves [IRoot] (Ctx l ds)) as [| y ys] eqn:El; [congruence |].
    destruct (leaves_up (Ctx l ds) [IRoot] y ltac:(rewrite El; now left)) as (s & E & s' & ->). inversion Hc as [| ? ? [Hs _] _]; subst.
    rewrite E in Hs. destruct Hs as [Hs | (l' & Hl' & Hs)]; cbn in Hs; congruence. }
  split; [exact Hl |]. inversion Hf as [| ? ? Hne Hfs]; subst. rewrite leaves_ctx in Hc. cbn [app] in Hc. clear Hne Hf.
  induction ds as [| d ds IH]; [exists []; reflexivity |]. inversion Hfs as [| ? ? Hd Hds]; subst. cbn [map concat] in Hc. apply Forall_app in Hc as [Hc1 Hc2].
  destruct (IH Hc2 Hds) as (ts & ->). destruct d as [t | l2 es]; [exists (t :: ts); reflexivity |].
  exfalso. pose proof (full_leaf _ Hd [IRoot; l]) as Hne. destruct (leaves [IRoot; l] (Ctx l2 es)) as [| y ys] eqn:El; [congruence |].
  destruct (leaves_up (Ctx l2 es) [IRoot; l] y ltac:(rewrite El; now left)) as (s & E & s' & ->). inversion Hc1 as [| ? ? [Hs _] _]; subst.
  rewrite E in Hs. destruct Hs as [Hs | (l' & Hl' & Hs)]; cbn in Hs; congruence.
Qed.
(** What can be below the root. *)
Definition child_fine (n : node ilex iact) : Prop :=
  match n with
  | Tok _ => True
  | Ctx l cs => l <> IRoot /\ exists ts, cs = map Tok ts /\ Forall (fun t => lex_in l (k_act t) /\ lex_fine (k_act t) (k_text t) /\ (k_act t = INamespace -> calm (k_text t))) ts
  end.
Lemma tree_fine cs : Forall full cs -> Forall tok_leaf (leaves [] (Ctx IRoot cs)) -> Forall child_fine cs.
Proof.
  intros Hf H. rewrite leaves_ctx in H. cbn [app] in H. rewrite Forall_forall in Hf. apply Forall_forall. intros c Hin. specialize (Hf c Hin).
  assert (Hc : Forall tok_leaf (leaves [IRoot] c)).
  { rewrite Forall_forall in *. intros y Hy. apply H. apply in_concat. exists (leaves [IRoot] c). split; [apply in_map, Hin | exact Hy]. }
  destruct c as [t | l ds]; [exact I |]. cbn [child_fine]. clear H Hin.
  assert (Hl : l <> IRoot).
  { pose proof (full_leaf _ Hf [IRoot]) as Hne. destruct (leaves [IRoot] (Ctx l ds)) as [| y ys] eqn:El; [congruence |].
    destruct (leaves_up (Ctx l ds) [IRoot] y ltac:(rewrite El; now left)) as (s & E & s' & ->). inversion Hc as [| ? ? [[Hs _] _] _]; subst.
    rewrite E in Hs. destruct Hs as [Hs | (l' & Hl' & Hs)]; cbn in Hs; congruence. }
  split; [exact Hl |]. inversion Hf as [| ? ? Hne Hfs]; subst. rewrite leaves_ctx in Hc. cbn [app] in Hc. clear Hne Hf.
  induction ds as [| d ds IH]; [exists []; split; [reflexivity | constructor] |]. inversion Hfs as [| ? ? Hd Hds]; subst. cbn [map concat] in Hc. apply Forall_app in Hc as [Hc1 Hc2].
  destruct (IH Hc2 Hds) as (ts & -> & Hts). destruct d as [t | l2 es].
  - exists (t :: ts). split; [reflexivity |]. constructor; [| exact Hts]. cbn in Hc1. inversion Hc1 as [| ? ? [[_ [H1 H2]] H3] _]; subst. split; [exact H2 |]. split; [exact H1 | exact H3].
  - exfalso. pose proof (full_leaf _ Hd [IRoot; l]) as Hne. destruct (leaves [IRoot; l] (Ctx l2 es)) as [| y ys] eqn:El; [congruence |].
    destruct (leaves_up (Ctx l2 es) [IRoot; l] y ltac:(rewrite El; now left)) as (s & E & s' & ->). inversion Hc1 as [| ? ? [[Hs _] _] _]; subst.
    rewrite E in Hs. destruct Hs as [Hs | (l' & Hl' & Hs)]; cbn in Hs; congruence.
Qed.

(** ** Values *)

Lemma calm_as_is t : calm t -> unescape odd t <> None.
Proof. intros H. destruct (escaped t) eqn:E; [unfold calm in H; now rewrite (escaped_strip t E) in H | now rewrite (unescaped t E)]. Qed.
Lemma strip_idem t : l_strip (l_strip t) = l_strip t.
Proof. induction t as [| c t IH]; [reflexivity |]. cbn [l_strip]. destruct (i_blank c) eqn:E; [exact IH |]. cbn [l_strip]. now rewrite E. Qed.
Lemma calm_l t : calm t -> calm (l_strip t).
Proof. unfold calm. now rewrite strip_idem. Qed.
Lemma r_escaped t : escaped t = false -> escaped (r_strip t) = false.
Proof.
  intros H. unfold r_strip. destruct t as [| c t]; [reflexivity |]. cbn [rev].
  assert (G : forall s, l_strip (s ++ [c]) = [] \/ exists s', l_strip (s ++ [c]) = s' ++ [c]).
  { induction s as [| x s IH]; cbn [app l_strip]; [destruct (i_blank c); [now left | right; now exists []] |]. destruct (i_blank x); [exact IH | right; now exists (x :: s)]. }
  destruct (G (rev t)) as [-> | (s' & ->)]; [reflexivity |]. rewrite rev_app_distr. exact H.
Qed.
Lemma join_fine ts : Forall (fun t => unescape odd t <> None) ts -> join_all odd ts <> None.
Proof.
  induction 1 as [| t ts Ht _ IH]; [discriminate |]. cbn [join_all]. destruct (unescape odd t); [| congruence]. destruct (join_all odd ts); congruence.
Qed.
Lemma strips_fine ts : Forall calm ts -> join_all odd (strip_last (strip_first ts)) <> None.
Proof.
  intros H. apply join_fine. assert (H1 : Forall calm (strip_first ts)).
  { destruct H as [| t ts Ht Hts]; constructor; [| exact Hts]. destruct (escaped t); [exact Ht | now apply calm_l]. }
  unfold strip_last. destruct (strip_first ts) as [| t k _] using rev_ind; [constructor |]. rewrite rev_app_distr. cbn [rev app]. rewrite rev_involutive. apply Forall_app in H1 as [H1 H2].
  apply Forall_app. split; [eapply Forall_impl; [| exact H1]; exact calm_as_is |]. constructor; [| constructor].
  destruct (escaped t) eqn:E; [apply calm_as_is; exact (Forall_inv H2) |]. rewrite unescaped; [discriminate | now apply r_escaped].
Qed.
Lemma texts_toks ts : texts_of (map IToken ts) = Some (map k_text ts).
Proof. induction ts as [| t ts IH]; [reflexivity |]. cbn [map texts_of]. now rewrite IH. Qed.
Definition shape (i : iitem) : Prop :=
  match i with IToken _ => True | IObj l o => (exists s, o = Some (VStr s)) | IUntransformed _ => False end.
Lemma child_value n : child_fine n -> Forall shape (items [n]).
Proof.
  destruct n as [t | l cs]; [intros _; repeat constructor |]. intros [Hl (ts & -> & Ht)].
  assert (Hr : existsb i_raised (items (map Tok ts)) = false) by (rewrite items_toks; clear; induction ts; [reflexivity | assumption]).
  assert (Hv : forall ts', incl ts' ts -> l <> IComment -> exists s, i_values odd (map IToken ts') = Some (VStr s)).
  { intros ts' Hi Hlc. unfold i_values. rewrite texts_toks. pose proof (strips_fine (map k_text ts')) as Hs. destruct (join_all odd _) as [s |]; [exists s; reflexivity |]. exfalso. apply Hs; [| reflexivity].
    apply Forall_forall. intros x Hx. apply in_map_iff in Hx as (t & <- & Hin). rewrite Forall_forall in Ht. destruct (Ht t (Hi t Hin)) as (H1 & H2 & H3).
    destruct l; try congruence; cbn in H1; destruct H1 as [H1 | H1]; rewrite H1 in *; cbn in H2; auto. }
  destruct l; [congruence | | | |].
  - rewrite items_section, Hr, items_toks. constructor; [| constructor]. cbn [shape]. unfold i_section. rewrite <- map_rev. destruct (rev ts) as [| t k] eqn:Er.
    + apply Hv; [intros x Hx; exact Hx | discriminate].
    + cbn [map]. destruct (k_act t); try (apply Hv; [intros x Hx; exact Hx | discriminate]).
      rewrite <- map_rev. apply Hv; [| discriminate]. intros x Hx. apply in_rev in Hx. apply in_rev. rewrite Er. now right.
  - rewrite items_kv by (now left). rewrite Hr, items_toks. constructor; [| constructor]. cbn [shape]. apply Hv; [intros x Hx; exact Hx | discriminate].
  - rewrite items_kv by (now right). rewrite Hr, items_toks. constructor; [| constructor]. cbn [shape]. apply Hv; [intros x Hx; exact Hx | discriminate].
  - constructor.
Qed.
Lemma not_raised its : Forall shape its -> existsb i_raised its = false.
Proof. induction 1 as [| i its Hi _ IH]; [reflexivity |]. cbn [existsb]. rewrite IH. destruct i as [t | l o | c]; [reflexivity | destruct Hi as (s & ->); reflexivity | contradiction]. Qed.
Lemma loop_fine k : forall its, length its <= k -> Forall shape its -> forall cur r, root_loop its cur r <> None.
Proof.
  induction k as [| k IH]; intros its Hk H cur r; [destruct its; [discriminate | cbn in Hk; lia] |].
  destruct its as [| i its]; [discriminate |]. inversion H as [| ? ? Hi Hs]; subst. cbn [length] in Hk.
  assert (Hd : forall cur r, root_loop its cur r <> None) by (intros; apply IH; [lia | exact Hs]).
  destruct i as [t | l o | c]; [apply Hd | | contradiction]. destruct Hi as (s & ->). destruct l; cbn [root_loop]; try apply Hd.
  destruct its as [| [t | l' o' | c'] its]; try apply Hd. inversion Hs as [| ? ? _ Hs']; subst. cbn [length] in Hk.
  destruct (k_act t); try apply Hd. destruct its as [| [t' | l' o' | c'] its]; try (apply IH; [cbn [length] in *; lia | exact Hs']).
  inversion Hs' as [| ? ? Hi' Hs'']; subst. cbn [length] in Hk. destruct l'; try (apply IH; [cbn [length]; lia | exact Hs']).
  destruct Hi' as (v & ->). apply IH; [lia | exact Hs''].
Qed.

Theorem read_total n evs r : l_run i_consume i_parse text n (l_init [IRoot] 0) = (evs, r) ->
  Forall (fun x => Forall (fun y => x_act y = INamespace -> calm (x_text y)) (e_lexemes (fst x))) evs ->
  exists cs v, build_tree IRoot (map fst evs) = Some (Ctx IRoot cs) /\ existsb i_raised (items cs) = false /\ i_root (items cs) = Some v.
Proof.
  intros Hr Hn. pose proof (run_stream_ok ilex iact i_consume i_parse text n [IRoot] 0 evs r ltac:(discriminate) Hr) as Hst.
  destruct (build_tree_ok ilex iact IRoot _ Hst) as (cs & Hb & Hw & _).
  assert (Hfine : Forall seen_fine evs) by (apply (run_fine n (l_init [IRoot] 0) evs r); [now left | exact Hr]).
  assert (Hsn : forall before x after, evs = before ++ x :: after -> snd x = TargetSpec.follow (replay [IRoot] (map fst before)) (e_target (fst x))).
  { intros before x after E. pose proof (stack_inv_start ilex [IRoot] 0 ltac:(discriminate)) as Hinv.
    exact (proj1 (proj1 (run_stack ilex iact i_consume i_parse text n _ _ _ _ Hinv Hr) before x after E)). }
  pose proof (leaves_fine evs [IRoot] Hst Hsn Hfine Hn) as Hl. rewrite <- (build_leaves ilex iact IRoot _ cs _ Hw) in Hl.
  pose proof (tree_fine cs (build_full ilex iact _ _ _ _ Hst Hw) Hl) as Hc.
  assert (Hi : Forall shape (items cs)).
  { clear - Hc. induction Hc as [| c cs Hc _ IH]; [constructor |]. change (c :: cs) with ([c] ++ cs). rewrite items_app. apply Forall_app. split; [now apply child_value | exact IH]. }
  exists cs. pose proof (loop_fine _ _ (le_n _) Hi None [(None, [])]) as Hv. unfold i_root. destruct (root_loop (items cs) None [(None, [])]) as [v |]; [| congruence].
  eexists. split; [exact Hb |]. split; [exact (not_raised _ Hi) | reflexivity].
Qed.

(** A section name that starts with a backslash, and not with an escape, raises. *)
Definition bad (t : str) : Prop := escaped t = true /\ unescape odd t = None.
Lemma join_bad ts t : In t ts -> unescape odd t = None -> join_all odd ts = None.
Proof.
  induction ts as [| u ts IH]; [contradiction |]. cbn [join_all]. intros [-> | H] Ht; [now rewrite Ht |]. rewrite (IH H Ht). now destruct (unescape odd u).
Qed.
Lemma first_bad ts t : In t ts -> bad t -> In t (strip_first ts).
Proof. destruct ts as [| u ts]; [contradiction |]. cbn [strip_first]. intros [-> | H] [Hb _]; [rewrite Hb; now left | now right]. Qed.
Lemma last_bad ts t : In t ts -> bad t -> In t (strip_last ts).
Proof.
  intros H [Hb _]. unfold strip_last. apply in_rev in H. destruct (rev ts) as [| u k]; [contradiction |]. cbn [rev]. apply in_or_app. destruct H as [-> | H]; [rewrite Hb; right; now left | left; now apply -> in_rev].
Qed.
Lemma values_bad ts t : In t ts -> bad (k_text t) -> i_values odd (map IToken ts) = None.
Proof.
  intros H Hb. unfold i_values. rewrite texts_toks. rewrite (join_bad _ (k_text t)); [reflexivity | | exact (proj2 Hb)]. apply last_bad; [| exact Hb]. apply first_bad; [| exact Hb]. now apply in_map.
Qed.
Lemma section_bad ts t : In t ts -> k_act t = INamespace -> bad (k_text t) -> i_section odd (map IToken ts) = None.
Proof.
  intros H Ha Hb. unfold i_section. rewrite <- map_rev. destruct (rev ts) as [| u k] eqn:Er; [exact (values_bad ts t H Hb) |]. cbn [map].
  destruct (k_act u) eqn:Eu; try exact (values_bad ts t H Hb). rewrite <- map_rev. apply (values_bad _ t); [| exact Hb]. apply in_rev in H. rewrite Er in H. destruct H as [-> | H]; [congruence | now apply -> in_rev].
Qed.
Lemma leaves_in (evs : list (seen ilex iact)) x y : In x evs -> In y (e_lexemes (fst x)) -> forall st, exists st' t, In (st', t) (event_leaves ilex iact st (map fst evs)) /\ lexeme_of t = y.
Proof.
  induction evs as [| z evs IH]; [contradiction |]. intros [-> | H] Hy st; cbn [map event_leaves].
  - rewrite <- (make_tokens_lexemes iact (e_lexemes (fst x))) in Hy. apply in_map_iff in Hy as (t & <- & Ht). eexists _, t. split; [| reflexivity]. apply in_or_app. left. apply in_map_iff. exists t. split; [reflexivity | exact Ht].
  - destruct (IH H Hy (TargetSpec.follow st (e_target (fst z)))) as (st' & t & H1 & H2). exists st', t. split; [apply in_or_app; right; exact H1 | exact H2].
Qed.
Theorem read_bad n evs r x y : l_run i_consume i_parse text n (l_init [IRoot] 0) = (evs, r) ->
  In x evs -> In y (e_lexemes (fst x)) -> x_act y = INamespace -> bad (x_text y) ->
  exists cs, build_tree IRoot (map fst evs) = Some (Ctx IRoot cs) /\ existsb i_raised (items cs) = true.
Proof.
  intros Hr Hx Hy Ha Hbad. pose proof (run_stream_ok ilex iact i_consume i_parse text n [IRoot] 0 evs r ltac:(discriminate) Hr) as Hst.
  destruct (build_tree_ok ilex iact IRoot _ Hst) as (cs & Hb & Hw & _).
  assert (Hfine : Forall seen_fine evs) by (apply (run_fine n (l_init [IRoot] 0) evs r); [now left | exact Hr]).
  assert (Hsn : forall before x after, evs = before ++ x :: after -> snd x = TargetSpec.follow (replay [IRoot] (map fst before)) (e_target (fst x))).
  { intros before x0 after E. pose proof (stack_inv_start ilex [IRoot] 0 ltac:(discriminate)) as Hinv.
    exact (proj1 (proj1 (run_stack ilex iact i_consume i_parse text n _ _ _ _ Hinv Hr) before x0 after E)). }
  destruct (leaves_in evs x y Hx Hy [IRoot]) as (st & t & Hleaf & Et).
  exists cs. split; [exact Hb |].
  assert (Hl : Forall (fun y => leaf_fine (fst y) (k_act (snd y)) (k_text (snd y))) (event_leaves ilex iact [IRoot] (map fst evs))) by exact (leaves_plain evs [IRoot] Hst Hsn Hfine).
  pose proof (build_full ilex iact _ _ _ _ Hst Hw) as Hfull.
  rewrite <- (build_leaves ilex iact IRoot _ cs _ Hw) in Hl, Hleaf. rewrite leaves_ctx in Hl, Hleaf. cbn [app] in Hl, Hleaf.
  apply in_concat in Hleaf as (ys & Hys & Hin). apply in_map_iff in Hys as (c & <- & Hc).
  assert (Hlc : Forall (fun y => leaf_fine (fst y) (k_act (snd y)) (k_text (snd y))) (leaves [IRoot] c)).
  { rewrite Forall_forall in *. intros z Hz. apply Hl. apply in_concat. exists (leaves [IRoot] c). split; [apply in_map, Hc | exact Hz]. }
  assert (Hfc : full c) by (rewrite Forall_forall in Hfull; exact (Hfull c Hc)).
  assert (Eact : k_act t = INamespace) by (subst y; exact Ha). assert (Etext : bad (k_text t)) by (subst y; exact Hbad).
  assert (G : existsb i_raised (items [c]) = true).
  { destruct c as [t' | l ds].
    - exfalso. destruct Hin as [E | []]. injection E as <- <-. inversion Hlc as [| ? ? (_ & _ & Hlex) _]; subst. cbn in Hlex. congruence.
    - destruct (shallow l ds Hfc Hlc) as [Hlr (ts & ->)]. rewrite leaves_ctx in Hin. apply in_concat in Hin as (zs & Hzs & Hz). apply in_map_iff in Hzs as (d & <- & Hd). apply in_map_iff in Hd as (t' & <- & Ht').
      destruct Hz as [E | []]. injection E as <- <-.
      assert (Hlex : lex_in l (k_act t')).
      { rewrite Forall_forall in Hlc. specialize (Hlc ([IRoot] ++ [l], t')). cbn [fst snd] in Hlc. apply Hlc. rewrite leaves_ctx. apply in_concat. exists (leaves ([IRoot] ++ [l]) (Tok t')). split; [apply in_map, in_map, Ht' | now left]. }
      rewrite Eact in Hlex. destruct l; cbn in Hlex; try congruence; try (destruct Hlex; discriminate).
      rewrite items_section, items_toks. rewrite (section_bad ts t' Ht' Eact Etext). cbn [existsb]. now destruct (existsb i_raised (map IToken ts)). }
  clear - Hc G. apply in_split in Hc as (a & b & ->). rewrite items_app. change (c :: b) with ([c] ++ b). rewrite items_app, !existsb_app, G. now rewrite orb_true_r.
Qed.
End Total.
