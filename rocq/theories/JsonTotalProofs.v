(** No text makes the reader of JSON raise an exception. *)
From Verif Require Import Base BaseFacts TargetModel TargetSpec LexerModel LexerSpec LexerProofs LexiconModel LexiconSpec TreeModel TreeSpec TreeProofs BuildModel BuildProofs
  TransformModel TransformSpec TransformTextProofs ItemListModel MachineProofs GeneratorProofs JsonModel JsonSpec JsonStepProofs JsonRunProofs JsonDocProofs.
From Coq Require Import ZArith ZifyBool.

Section Total.
Variables udigit uword uspace : nat -> bool.
Variable F : Type.
Variable float_of : str -> option F.
Variable is_integer : F -> option Z.
Notation is_digit := (is_digit udigit).
Notation j_parse := (j_parse udigit uword uspace).
Notation j_rules := (j_rules udigit uword uspace).
Notation j_compiled := (j_compiled udigit uword uspace).
Notation pv := (pv F).
Notation j_read := (j_read F float_of is_integer).
Notation items := (items F float_of is_integer).
Notation mcall := (mcall F float_of is_integer).
Notation titem := (TransformModel.titem jlex jact (option pv) jlex).
Hypothesis Hfloat : forall n, number_like is_digit n -> float_of n <> None.
Variable text : str.

(** ** What the patterns match *)

Lemma span_all f s : Forall (fun c => f c = true) (firstn (span f s) s).
Proof. induction s as [| c s IH]; cbn [span firstn]; [constructor |]. destruct (f c) eqn:E; cbn [firstn]; constructor; assumption. Qed.
Lemma some_digits_span s : span is_digit s <> 0 -> some_digits is_digit (firstn (span is_digit s) s).
Proof.
  intros H. split; [| apply span_all]. intros E. apply H. apply (f_equal (@length nat)) in E. rewrite firstn_length in E. pose proof (span_le is_digit s). cbn in E. lia.
Qed.
Lemma firstn_plus {X} n m (s : list X) : firstn (n + m) s = firstn n s ++ firstn m (skipn n s).
Proof. revert s. induction n as [| n IH]; intros s; [reflexivity |]. destruct s as [| x s]; cbn; [now rewrite !firstn_nil |]. f_equal. apply IH. Qed.
Lemma frac_matches s : let c := firstn (n_frac udigit s) s in c = [] \/ exists e, c = 46 :: e /\ some_digits is_digit e.
Proof.
  cbv zeta. destruct s as [| x s]; [left; reflexivity |]. unfold n_frac. do 47 (destruct x as [| x]; [try (left; reflexivity) |]); [| left; reflexivity].
  pose proof (some_digits_span s) as H. destruct (span is_digit s) as [| n] eqn:E; [left; reflexivity |]. right. exists (firstn (S n) s).
  split; [reflexivity |]. apply H. discriminate.
Qed.
Lemma sign_matches s : let c := firstn (n_sign s) s in c = [] \/ c = [43] \/ c = [45].
Proof.
  cbv zeta. destruct s as [| x s]; [left; reflexivity |]. unfold n_sign. do 46 (destruct x as [| x]; [try (left; reflexivity); try (right; left; reflexivity); right; right; reflexivity |]).
  left; reflexivity.
Qed.
Lemma minus_matches s : opt_minus (firstn (n_minus s) s).
Proof.
  destruct s as [| x s]; [left; reflexivity |]. unfold n_minus. do 46 (destruct x as [| x]; [try (left; reflexivity); right; reflexivity |]). left; reflexivity.
Qed.
Lemma exp_matches s : let c := firstn (n_exp udigit s) s in
  c = [] \/ exists e sign f, c = e :: sign ++ f /\ (e = 69 \/ e = 101) /\ (sign = [] \/ sign = [43] \/ sign = [45]) /\ some_digits is_digit f.
Proof.
  cbv zeta. destruct s as [| x s]; [left; reflexivity |].
  assert (G : x = 69 \/ x = 101 -> n_exp udigit (x :: s) = match span is_digit (skipn (n_sign s) s) with 0 => 0 | S n => 1 + n_sign s + S n end)
    by (intros [-> | ->]; reflexivity).
  destruct (Nat.eq_dec x 69) as [H | H]; [| destruct (Nat.eq_dec x 101) as [H' | H']].
  3: { left. rewrite (exp_not udigit); [reflexivity |]. cbn. intros [-> | ->]; congruence. }
  all: rewrite G by auto; pose proof (some_digits_span (skipn (n_sign s) s)) as Hd; destruct (span is_digit (skipn (n_sign s) s)) as [| n] eqn:E; [left; reflexivity |];
    right; exists x, (firstn (n_sign s) s), (firstn (S n) (skipn (n_sign s) s)); (split; [| split; [auto | split; [apply sign_matches | apply Hd; discriminate]]]);
    cbn [Nat.add]; change (firstn (S (n_sign s + S n)) (x :: s)) with (x :: firstn (n_sign s + S n) s); now rewrite firstn_plus.
Qed.
Lemma number_matches prev s n : p_number udigit prev s = Some n -> number_like is_digit (firstn n s).
Proof.
  unfold p_number. pose proof (some_digits_span (skipn (n_minus s) s)) as Hd. destruct (span is_digit (skipn (n_minus s) s)) as [| d]; [discriminate |].
  specialize (Hd ltac:(discriminate)). injection 1 as <-. rewrite !firstn_plus, <- !app_assoc. do 4 eexists. split; [reflexivity |].
  split; [apply minus_matches |]. split; [exact Hd |]. split; [apply frac_matches | apply exp_matches].
Qed.
Lemma constant_matches prev s n : p_constant uword prev s = Some n -> constant_of F (firstn n s) <> None.
Proof.
  unfold p_constant. destruct (at_bound _ _ _); [| discriminate]. destruct (find _ _) as [w |] eqn:E; [| discriminate]. injection 1 as <-.
  apply find_some in E as (Hin & Hf). apply andb_true_iff in Hf as [Hf _]. unfold prefix in Hf. apply str_eqb_spec in Hf. rewrite <- Hf.
  destruct Hin as [<- | [<- | [<- | []]]]; discriminate.
Qed.
Definition escape_fine (t : str) : Prop := piece_of F (IToken (Token 0 t AStringEscape None)) <> None.
Lemma escape_matches prev s n : p_escape prev s = Some n -> escape_fine (firstn n s).
Proof.
  destruct s as [| x s]; [discriminate |]. destruct (Nat.eq_dec x 92) as [-> | Hx]; [| now rewrite escape_not]. destruct s as [| c s]; [discriminate |].
  unfold p_escape. destruct (is_escape_char c) eqn:Ec.
  - injection 1 as <-. unfold is_escape_char in Ec. apply existsb_exists in Ec as (y & Hy & Hc). apply Nat.eqb_eq in Hc. subst y. cbn in Hy.
    repeat (destruct Hy as [<- | Hy]; [discriminate |]). contradiction.
  - destruct (Nat.eqb_spec c 117) as [-> | _]; [| discriminate]. cbn [andb]. destruct (Nat.leb_spec 4 (length (firstn 4 s))) as [Hl | _]; [| discriminate].
    cbn [andb]. destruct (forallb is_hex (firstn 4 s)) eqn:Eh; [| discriminate]. injection 1 as <-. unfold escape_fine, piece_of. cbn [k_act k_text].
    change (firstn 6 (92 :: 117 :: s)) with (92 :: 117 :: firstn 4 s). cbn [nth_error skipn]. rewrite Eh. destruct (length (firstn 4 s)); [lia |]. discriminate.
Qed.

(** ** The items of the generators *)

Definition lex_fine (a : jact) (t : str) : Prop :=
  match a with
  | ANumber => float_of t <> None
  | AConstant => constant_of F t <> None
  | AStringEscape => escape_fine t
  | _ => True
  end.
Definition item_fine (l : jlex) (it : item jlex jact) : Prop :=
  Forall (fun x => lex_fine (x_act x) (x_text x)) (i_lexemes it) /\
  forall t, i_target it = Some t -> (t_push t <> [] -> l <> JString) /\ length (t_push t) <= 1.

Lemma pick_is ps : forall i prev s k n, pick ps i prev s = Some (k, n) -> exists p, nth_error ps (k - i) = Some p /\ i <= k /\ p prev s = Some n.
Proof.
  induction ps as [| p ps IH]; intros i prev s k n; cbn [pick]; [discriminate |]. destruct (p prev s) as [m |] eqn:E.
  - injection 1 as <- <-. exists p. rewrite Nat.sub_diag. auto.
  - intros H. destruct (IH _ _ _ _ _ H) as (q & H1 & H2 & H3). exists q. replace (k - i) with (S (k - S i)) by lia. split; [exact H1 |]. split; [lia | exact H3].
Qed.

Definition rule_fine (l : jlex) (r : pattern * rule jlex jact) : Prop :=
  match snd r with
  | SRule a tg =>
      match a with
      | AStd b => forall prev s n, fst r prev s = Some n -> lex_fine b (firstn n s)
      | ASkip => True
      | _ => False
      end /\ forall t, t_make l tg = Some t -> (t_push t <> [] -> l <> JString) /\ length (t_push t) <= 1
  | _ => False
  end.
Lemma rules_fine l : Forall (rule_fine l) (j_rules l).
Proof.
  assert (Hn : forall prev s n, p_number udigit prev s = Some n -> float_of (firstn n s) <> None) by (intros; eapply Hfloat, number_matches; eassumption).
  assert (Hs : forall l p b tg, (forall prev s n, p prev s = Some n -> lex_fine b (firstn n s)) ->
    (forall t, t_make l tg = Some t -> (t_push t <> [] -> l <> JString) /\ length (t_push t) <= 1) -> rule_fine l (std p b tg)) by (intros; split; assumption).
  assert (Ht : forall l, Forall (rule_fine l) [(p_spaces uspace, SRule ASkip [])]) by (intros l0; repeat constructor; discriminate).
  destruct l; unfold JsonModel.j_rules, values_rules; cbn [app]; repeat (apply Forall_cons; [| try apply Ht; try apply Forall_nil]); try apply Hs;
    try (intros t Et; vm_compute in Et; first [discriminate Et | injection Et as <-; cbn; (split; [congruence | lia])]);
    try (intros prev s n H; cbn [lex_fine]; first [exact I | eapply Hn; exact H | eapply constant_matches; exact H | eapply escape_matches; exact H]).
Qed.

Lemma token_fine l adv p m : c_match (j_compiled l) adv text p = Some m -> item_fine l (token (fun _ _ => []) l (c_rules (j_compiled l)) text m).
Proof.
  cbn [c_match JsonModel.j_compiled]. destruct (pick _ _ _ _) as [[i n] |] eqn:E; [| discriminate]. injection 1 as <-.
  apply pick_is in E as (pt & Hp & _ & Hm). rewrite Nat.sub_0_r in Hp. rewrite nth_error_map in Hp.
  destruct (nth_error (j_rules l) i) as [[q r] |] eqn:Er; [| discriminate]. cbn in Hp. injection Hp as ->.
  pose proof (rules_fine l) as Hf. rewrite Forall_forall in Hf. specialize (Hf _ (nth_error_In _ _ Er)). unfold rule_fine in Hf. cbn [fst snd] in Hf.
  unfold token. cbn [m_rule c_rules JsonModel.j_compiled m_start m_end]. rewrite nth_error_map, Er. cbn [option_map snd].
  destruct r as [a tg | ev]; [| contradiction]. destruct Hf as [H1 H2]. unfold item_fine, mk_item. cbn [i_lexemes i_target]. split; [| exact H2].
  assert (Es : slice text p (p + n) = firstn n (skipn p text)) by (unfold slice; f_equal; lia). rewrite Es.
  destruct (firstn n (skipn p text)) as [| x xs] eqn:Ef; [constructor |].
  destruct a as [b | | ? | ? | ?]; try contradiction; cbn [act_lexemes]; repeat constructor. cbn [x_act x_text]. rewrite <- Ef. exact (H1 _ _ _ Hm).
Qed.
Lemma scan_in mat fuel : forall adv pos m, In m (scan mat text fuel adv pos) -> exists a p, mat a text p = Some m.
Proof.
  induction fuel as [| fuel IH]; intros adv pos m; cbn [scan]; [contradiction |]. destruct (length text <? pos); [contradiction |].
  destruct (mat adv text pos) as [m' |] eqn:E; [intros [<- | H]; eauto | eauto].
Qed.
Lemma parse_fine l pos k it : j_parse l text pos k = Some it -> item_fine l it.
Proof.
  unfold JsonModel.j_parse. rewrite (parse_is_regex jlex jact (fun _ _ => []) l (j_compiled l) text eq_refl (j_rules_ne udigit uword uspace l)).
  unfold parse_regex.
  assert (Hplain : forall k, nth_error (map (token (fun _ _ => []) l (c_rules (j_compiled l)) text) (finditer (c_match (j_compiled l)) text pos)) k = Some it -> item_fine l it).
  { intros j H. apply nth_error_In, in_map_iff in H as (m & <- & Hin). apply scan_in in Hin as (a & p & E). exact (token_fine l a p m E). }
  destruct l; cbn [c_da c_dt JsonModel.j_compiled]; try exact (Hplain k).
  - clear Hplain. change (t_make JObject [RLex JKey]) with (Some (Target 0 [JKey])). cbn iota.
    revert pos. induction k as [| k IH]; intros pos; cbn [dt_gen].
    + match goal with |- context [match ?x with Some _ => _ | None => _ end] => destruct x as [m |] eqn:E end.
      * injection 1 as <-. exact (token_fine JObject false pos m E).
      * destruct (pos <? length text); [| discriminate]. injection 1 as <-. split; [constructor |]. cbn. intros t [= <-]. cbn. split; [discriminate | lia].
    + match goal with |- context [match ?x with Some _ => _ | None => _ end] => destruct x as [m |] eqn:E end; [apply IH | discriminate].
  - intros H. apply nth_error_In in H. revert H. clear Hplain.
    assert (G : forall ms p, (forall m, In m ms -> exists a q, c_match (j_compiled JString) a text q = Some m) ->
              In it (gaps (fun _ _ => []) JString (c_rules (j_compiled JString)) (StaticDA (AStd AString)) text p ms) -> item_fine JString it).
    { assert (Hda : forall p s, item_fine JString (da_item (L := jlex) (fun _ _ => []) text (StaticDA (AStd AString)) p s)).
      { intros p s. split; [| intros ? [=]]. cbn. destruct s; repeat constructor. }
      induction ms as [| m ms IH]; intros p Hms; cbn [gaps].
      - destruct (p <? length text); [intros [<- | []]; apply Hda | contradiction].
      - intros H. apply in_app_or in H as [H | [<- | H]].
        + destruct (p <? m_start m); [| contradiction]. destruct H as [<- | []]. apply Hda.
        + destruct (Hms m (or_introl eq_refl)) as (a & q & E). exact (token_fine JString a q m E).
        + apply (IH _ (fun m' Hm' => Hms m' (or_intror Hm')) H). }
    apply G. intros m Hm. exact (scan_in _ _ _ _ _ Hm).
Qed.

(** ** Runs *)

(** Nothing is above a string. *)
Definition stack_fine (lex : list jlex) : Prop := ~ In JString (removelast lex).
Definition seen_fine (x : seen jlex jact) : Prop := stack_fine (snd x) /\ Forall (fun y => lex_fine (x_act y) (x_text y)) (e_lexemes (fst x)).

Lemma removelast_snoc {X} (l : list X) x : removelast (l ++ [x]) = l.
Proof. rewrite removelast_app by discriminate. now rewrite app_nil_r. Qed.
Lemma last_opt_split {X} (l : list X) x : last_opt l = Some x -> exists l', l = l' ++ [x].
Proof.
  unfold last_opt. destruct (rev l) as [| y r] eqn:E; [discriminate |]. injection 1 as <-. apply (f_equal (@rev X)) in E. rewrite rev_involutive in E. cbn in E. eauto.
Qed.
Lemma drop_last_in {X} n (l : list X) x : In x (drop_last n l) -> In x l.
Proof. unfold drop_last. intros H. rewrite <- (firstn_skipn (length l - n) l). apply in_or_app. now left. Qed.
Lemma drop_last_le {X} n (l : list X) x : In x (removelast (drop_last n l)) -> In x (removelast l).
Proof.
  unfold drop_last. destruct (Nat.eq_dec n 0) as [-> | Hn]; [now rewrite Nat.sub_0_r, firstn_all |].
  destruct l as [| y l _] using rev_ind; [now rewrite firstn_nil |]. rewrite removelast_snoc, app_length. cbn [length].
  rewrite firstn_app. replace (length l + 1 - n - length l) with 0 by lia. cbn [firstn]. rewrite app_nil_r. intros H.
  assert (G : forall k : list X, In x (removelast k) -> In x k).
  { clear. intros k H. destruct k as [| z k _] using rev_ind; [contradiction |]. rewrite removelast_snoc in H. apply in_or_app. now left. }
  apply G in H. rewrite <- (firstn_skipn (length l + 1 - n) l). apply in_or_app. now left.
Qed.
Lemma move_fine lex l t pop : stack_fine lex -> last_opt lex = Some l -> (t_push t <> [] -> l <> JString) /\ length (t_push t) <= 1 ->
  stack_fine (drop_last pop lex ++ t_push t).
Proof.
  intros H Hl [H1 H2] Hin. destruct (t_push t) as [| x [| ? ?]]; [| | cbn in H2; lia].
  - rewrite app_nil_r in Hin. exact (H (drop_last_le _ _ _ Hin)).
  - rewrite removelast_snoc in Hin. apply drop_last_in in Hin. specialize (H1 ltac:(discriminate)). destruct (last_opt_split _ _ Hl) as (l' & ->).
    unfold stack_fine in H. rewrite removelast_snoc in H. apply in_app_or in Hin as [Hin | [-> | []]]; [exact (H Hin) | congruence].
Qed.
Lemma emit_fine f it lex evs f' l : l_emit f it lex = (evs, f') -> stack_fine lex -> item_fine l it -> Forall seen_fine evs.
Proof.
  unfold l_emit. destruct (i_lexemes it) as [| y ys] eqn:El; [intros [= <- _]; constructor |]. destruct (f_get f) as [t f2]. intros [= <- _] H [H1 _].
  rewrite El in H1. constructor; [split; assumption | constructor].
Qed.
Lemma clip_push n (t : target jlex) : t_push (l_clip n t) = t_push t.
Proof. unfold l_clip. destruct (_ && _); reflexivity. Qed.
Lemma step_fine s evs s' : stack_fine (s_lex s) -> l_step j_consume j_parse text s = Some (evs, s') -> Forall seen_fine evs /\ stack_fine (s_lex s').
Proof.
  intros H. unfold l_step. destruct (last_opt (s_lex s)) as [l |] eqn:El; [| discriminate]. destruct (j_parse l text (s_pos s) (s_idx s)) as [it |] eqn:Ep; [| discriminate].
  pose proof (parse_fine _ _ _ _ Ep) as Hit. destruct (i_target it) as [t0 |] eqn:Et.
  - assert (Hm : stack_fine (drop_last (t_pop (l_clip (length (s_lex s)) t0)) (s_lex s) ++ t_push (l_clip (length (s_lex s)) t0))).
    { apply (move_fine _ l); [exact H | exact El |]. rewrite clip_push. exact (proj2 Hit _ Et). }
    cbv zeta. destruct (i_txt it) as [| x xs].
    + destruct (l_circle _ _ _ _ _) as [pos circ]. injection 1 as <- <-. split; [constructor | exact Hm].
    + destruct (l_consumes _ _) eqn:Ec.
      { exfalso. unfold l_consumes, j_consume in Ec. destruct (last_opt (t_push _)); discriminate Ec. }
      destruct (l_emit (s_fac s) it (s_lex s)) as [evs1 f1] eqn:Ee. injection 1 as <- <-. split; [exact (emit_fine _ _ _ _ _ _ Ee H Hit) | exact Hm].
  - destruct (i_txt it) as [| x xs]; [injection 1 as <- <-; split; [constructor | exact H] |].
    destruct (l_emit (s_fac s) it (s_lex s)) as [evs1 f1] eqn:Ee. injection 1 as <- <-. split; [exact (emit_fine _ _ _ _ _ _ Ee H Hit) | exact H].
Qed.
Lemma run_fine n : forall s evs r, stack_fine (s_lex s) -> l_run j_consume j_parse text n s = (evs, r) -> Forall seen_fine evs.
Proof.
  induction n as [| n IH]; intros s evs r H; cbn [l_run]; [intros [= <- _]; constructor |].
  destruct (l_step j_consume j_parse text s) as [[ev s'] |] eqn:Es; [| intros [= <- _]; constructor].
  destruct (step_fine _ _ _ H Es) as [H1 H2]. destruct (l_run j_consume j_parse text n s') as [ev' r'] eqn:Er. intros [= <- _].
  apply Forall_app. split; [exact H1 | exact (IH _ _ _ H2 Er)].
Qed.

(** ** Trees *)

Lemma leaves_fine (evs : list (seen jlex jact)) : forall st, stream_ok jlex jact st (map fst evs) -> (forall before x after, evs = before ++ x :: after -> snd x = TargetSpec.follow (replay st (map fst before)) (e_target (fst x))) ->
  Forall seen_fine evs -> Forall (fun y => stack_fine (fst y) /\ lex_fine (k_act (snd y)) (k_text (snd y))) (event_leaves jlex jact st (map fst evs)).
Proof.
  induction evs as [| x evs IH]; intros st Hst Hsn Hf; cbn [map event_leaves]; [constructor |]. inversion Hf as [| ? ? Hx Hf']; subst.
  pose proof (Hsn [] x evs eq_refl) as Ex. cbn in Ex. apply Forall_app. split.
  - rewrite <- Ex. destruct Hx as [H1 H2]. apply Forall_forall. intros y Hy. apply in_map_iff in Hy as (t & <- & Ht). cbn [fst snd]. split; [exact H1 |].
    rewrite Forall_forall in H2. pose proof (make_tokens_lexemes jact (e_lexemes (fst x))) as Em.
    assert (Hin : In (lexeme_of t) (e_lexemes (fst x))) by (rewrite <- Em; apply in_map; exact Ht). exact (H2 _ Hin).
  - apply IH; [apply Hst | | exact Hf']. intros before y after E. pose proof (Hsn (x :: before) y after ltac:(now rewrite E)) as H. exact H.
Qed.

Fixpoint node_fine (n : node jlex jact) : Prop :=
  match n with
  | Tok t => lex_fine (k_act t) (k_text t)
  | Ctx l cs => (l = JString -> exists ts, cs = map Tok ts) /\ (fix all cs := match cs with [] => True | c :: cs => node_fine c /\ all cs end) cs
  end.
Lemma node_fine_all l cs : (l = JString -> exists ts, cs = map Tok ts) -> Forall node_fine cs -> node_fine (Ctx l cs).
Proof. intros H1 H2. split; [exact H1 |]. clear H1. induction H2; auto. Qed.
Lemma fine_all l cs : node_fine (Ctx l cs) -> Forall node_fine cs.
Proof. intros [_ H]. induction cs as [| c cs IH]; constructor; [apply H | apply IH, H]. Qed.

Lemma leaves_up (n : node jlex jact) : forall up y, In y (leaves up n) -> exists s, fst y = up ++ s /\ (match n with Ctx l _ => exists s', s = l :: s' | _ => s = [] end).
Proof.
  induction n as [t | l cs IH] using node_ind'; intros up y.
  - cbn. intros [<- | []]. exists []. now rewrite app_nil_r.
  - rewrite leaves_ctx. intros H. apply in_concat in H as (ys & Hys & Hy). apply in_map_iff in Hys as (c & <- & Hc). rewrite Forall_forall in IH.
    destruct (IH c Hc _ _ Hy) as (s & E & _). exists (l :: s). rewrite E, <- app_assoc. split; [reflexivity | eauto].
Qed.
Lemma full_leaf (n : node jlex jact) : full n -> forall up, leaves up n <> [].
Proof.
  induction n as [t | l cs IH] using node_ind'; intros H up; [discriminate |]. inversion H as [| ? ? Hne Hf]; subst. rewrite leaves_ctx. destruct cs as [| c cs]; [congruence |].
  inversion IH; subst. inversion Hf; subst. cbn [map concat]. intros E. apply app_eq_nil in E as [E _]. match goal with Hh : full c -> _ |- _ => now apply (Hh ltac:(assumption) _ E) end.
Qed.
Lemma tree_fine n : forall up, full n -> Forall (fun y => stack_fine (fst y) /\ lex_fine (k_act (snd y)) (k_text (snd y))) (leaves up n) -> node_fine n.
Proof.
  induction n as [t | l cs IH] using node_ind'; intros up Hf H.
  - cbn in H. inversion H as [| ? ? [_ Ht] _]; subst. exact Ht.
  - inversion Hf as [| ? ? Hne Hfs]; subst. rewrite leaves_ctx in H.
    assert (Hc : forall c, In c cs -> Forall (fun y => stack_fine (fst y) /\ lex_fine (k_act (snd y)) (k_text (snd y))) (leaves (up ++ [l]) c)).
    { intros c Hin. rewrite Forall_forall in *. intros y Hy. apply H. apply in_concat. exists (leaves (up ++ [l]) c). split; [apply in_map, Hin | exact Hy]. }
    rewrite Forall_forall in IH, Hfs. apply node_fine_all.
    + intros ->. assert (G : forall c, In c cs -> exists t, c = Tok t).
      { intros c Hin. destruct c as [t | l' cs']; [eauto |]. exfalso. pose proof (full_leaf _ (Hfs _ Hin) (up ++ [JString])) as Hl.
        specialize (Hc _ Hin). destruct (leaves (up ++ [JString]) (Ctx l' cs')) as [| y ys] eqn:El; [congruence |].
        destruct (leaves_up (Ctx l' cs') (up ++ [JString]) y ltac:(rewrite El; now left)) as (s & E & s' & ->). inversion Hc as [| ? ? [Hs _] _]; subst.
        apply Hs. rewrite E. rewrite removelast_app by discriminate. apply in_or_app. left. apply in_or_app. right. now left. }
      clear - G. induction cs as [| c cs IH]; [exists []; reflexivity |]. destruct (G c (or_introl eq_refl)) as (t & ->).
      destruct (IH (fun c Hc => G c (or_intror Hc))) as (ts & ->). exists (t :: ts). reflexivity.
    + apply Forall_forall. intros c Hin. exact (IH c Hin _ (Hfs c Hin) (Hc c Hin)).
Qed.

(** ** Values *)

Definition shape (i : titem) : Prop :=
  match i with
  | IToken t => lex_fine (k_act t) (k_text t)
  | IObj nm o => exists v, o = Some v /\ (nm = JString -> exists s, v = PStr s) /\ (nm = JKey -> v = PNone \/ exists s, v = PStr s)
  | IUntransformed _ => False
  end.
Lemma not_raised its : Forall shape its -> existsb (raised F) its = false.
Proof.
  induction 1 as [| i its Hi _ IH]; [reflexivity |]. cbn [existsb]. rewrite IH. destruct i as [t | nm o | ?]; cbn in Hi |- *; try reflexivity.
  destruct Hi as (v & -> & _). reflexivity.
Qed.
Lemma value_of_fine i : shape i -> value_of F float_of is_integer i <> Some None.
Proof.
  destruct i as [t | nm o | ?]; cbn [shape value_of]; [| intros (v & -> & _); discriminate | contradiction].
  destruct (k_act t); cbn [lex_fine]; try discriminate.
  - unfold number_of. destruct (float_of (k_text t)); [discriminate | congruence].
  - destruct (constant_of F (k_text t)); congruence.
Qed.
Lemma first_value_fine its : Forall shape its -> first_value F float_of is_integer its <> None.
Proof.
  induction 1 as [| i its Hi _ IH]; cbn [first_value]; [discriminate |]. pose proof (value_of_fine i Hi) as H. destruct (value_of F float_of is_integer i) as [[v |] |]; [discriminate | congruence | exact IH].
Qed.
Lemma all_values_fine its : Forall shape its -> all_values F float_of is_integer its <> None.
Proof.
  induction 1 as [| i its Hi _ IH]; cbn [all_values]; [discriminate |]. pose proof (value_of_fine i Hi) as H. destruct (value_of F float_of is_integer i) as [[v |] |]; [| congruence | exact IH].
  destruct (all_values F float_of is_integer its); [discriminate | congruence].
Qed.
Lemma pieces_fine ts : Forall (fun t => lex_fine (k_act t) (k_text t)) ts -> pieces F (map IToken ts) <> None.
Proof.
  induction 1 as [| t ts Ht _ IH]; cbn [map pieces]; [discriminate |].
  assert (Hp : piece_of F (IToken t) <> None).
  { unfold piece_of. destruct t as [p tx a g]. cbn [k_act k_text] in *. destruct a; try discriminate. exact Ht. }
  destruct (piece_of F (IToken t)); [| congruence]. destruct (pieces F (map IToken ts)); [discriminate | congruence].
Qed.
Lemma dict_from_fine l : Forall (fun p => hashable F (fst p) = true) l -> forall d, dict_from F d l <> None.
Proof. induction 1 as [| [k v] l Hk _ IH]; intros d; cbn [dict_from]; [discriminate |]. cbn in Hk. rewrite Hk. apply IH. Qed.

Lemma grouped_keys (P : pv -> Prop) l : (forall o, In (JKey, o) l -> P o) -> forall r last, (forall o, nth 0 r None = Some o -> P o) ->
  forall g, In g (grouped_loop jlex_eqb [JKey; JValue] r last l) -> forall o, nth 0 g None = Some o -> P o.
Proof.
  induction l as [| [n o] l IH]; intros Hl r last Hr g Hg o' Ho.
  - cbn in Hg. destruct last; [| contradiction]. destruct Hg as [<- | []]. exact (Hr _ Ho).
  - specialize (IH (fun x Hx => Hl x (or_intror Hx))).
    assert (Hset : forall r0 k, (forall o, nth 0 r0 None = Some o -> P o) -> k = 0 /\ n = JKey \/ k = 1 -> forall x, nth 0 (set_at r0 k (Some o)) None = Some x -> P x).
    { intros r0 k Hr0 [[-> ->] | ->] x; destruct r0 as [| a [| b r0]]; cbn; try discriminate; try (apply Hr0); intros [= <-]; apply Hl; now left. }
    assert (Hrep : forall x, nth 0 (repeat (@None pv) 2) None = Some x -> P x) by discriminate.
    cbn [grouped_loop] in Hg. destruct n; cbn [index_in jlex_eqb] in Hg;
      try exact (IH r last Hr g Hg o' Ho); destruct (match last with Some _ => _ | None => _ end).
    all: try (destruct Hg as [<- | Hg]; [exact (Hr _ Ho) |]).
    all: eapply IH; [| exact Hg | exact Ho]; first [apply Hset; [exact Hrep | auto] | apply Hset; [exact Hr | auto]].
Qed.
Lemma items_shape its nm o : Forall shape its -> In (nm, o) (ItemListModel.il_items (map (entry_of F) its)) -> shape (IObj nm (Some o)).
Proof.
  intros H Hin. unfold ItemListModel.il_items in Hin. apply in_flat_map in Hin as (e & He & Hin). apply in_map_iff in He as (i & <- & Hi).
  rewrite Forall_forall in H. specialize (H i Hi). destruct i as [t | n x | ?]; cbn [entry_of] in Hin; [contradiction | | contradiction].
  destruct Hin as [[= <- <-] | []]. destruct H as (v & -> & H). exists v. auto.
Qed.

Theorem node_value n : node_fine n -> Forall shape (items [n]).
Proof.
  induction n as [t | l cs IH] using node_ind'; intros Hf.
  - repeat constructor. exact Hf.
  - rewrite items_ctx. constructor; [| constructor].
    assert (Hi : Forall shape (items cs)).
    { apply fine_all in Hf. clear - IH Hf. induction cs as [| c cs IHc]; [constructor |]. inversion IH; subst. inversion Hf; subst.
      change (c :: cs) with ([c] ++ cs). rewrite items_app. apply Forall_app. split; auto. }
    pose proof (not_raised _ Hi) as Hr. cbn [shape].
    assert (G : exists v, mcall l (items cs) = Some v /\ (l = JString -> exists s, v = PStr s) /\ (l = JKey -> v = PNone \/ exists s, v = PStr s)); [| exact G].
    unfold JsonRunProofs.mcall, j_methods. cbn [m_call]. unfold call. cbn [TransformModel.il_items]. rewrite Hr. destruct l.
    + pose proof (first_value_fine _ Hi) as H. destruct (first_value F float_of is_integer (items cs)) as [v |]; [| congruence]. exists v. split; [reflexivity |]. split; discriminate.
    + unfold m_object. pose proof (dict_from_fine (map (pair_of F) (grouped_objects jlex_eqb [JKey; JValue] (map (entry_of F) (items cs))))) as H.
      destruct (dict_from F [] _) as [d |] eqn:E; [exists (PDict d); split; [reflexivity |]; split; discriminate |]. exfalso. revert E. apply H. clear H.
      apply Forall_forall. intros p Hp. apply in_map_iff in Hp as (g & <- & Hg). unfold pair_of. cbn [fst].
      destruct (nth 0 g None) as [o |] eqn:Eg; [| reflexivity]. cbn [or_none].
      apply (grouped_keys (fun v => hashable F v = true) (ItemListModel.il_items (map (entry_of F) (items cs)))) with (3 := Hg); [| discriminate | exact Eg].
      intros x Hx. destruct (items_shape _ _ _ Hi Hx) as (v & [= <-] & _ & Hk). destruct (Hk eq_refl) as [-> | [s ->]]; reflexivity.
    + unfold m_key. destruct (find _ _) as [[nm o] |] eqn:E.
      * exists o. split; [reflexivity |]. split; [discriminate |]. intros _. apply find_some in E as [Hin Hnm]. cbn in Hnm.
        assert (nm = JString) by (destruct nm; (reflexivity || discriminate)). subst nm. right. destruct (items_shape _ _ _ Hi Hin) as (v & [= <-] & Hk & _). exact (Hk eq_refl).
      * exists PNone. split; [reflexivity |]. split; [discriminate | auto].
    + pose proof (first_value_fine _ Hi) as H. destruct (first_value F float_of is_integer (items cs)) as [v |]; [| congruence]. exists v. split; [reflexivity |]. split; discriminate.
    + unfold m_array. pose proof (all_values_fine _ Hi) as H. destruct (all_values F float_of is_integer (items cs)) as [v |]; [| congruence]. exists (PList v). split; [reflexivity |]. split; discriminate.
    + destruct Hf as [Hts Hall]. destruct (Hts eq_refl) as (ts & ->).
      assert (Ht : Forall (fun t => lex_fine (k_act t) (k_text t)) ts).
      { rewrite items_toks in Hi. clear - Hi. induction ts as [| t ts IH]; [constructor |]. inversion Hi; subst. constructor; auto. }
      unfold m_string. rewrite items_toks. set (b := peek _ _ _ _ _). assert (G : exists s, pieces F (if b then removelast (map IToken ts) else map IToken ts) = Some s).
      { destruct b.
        - destruct ts as [| t ts _] using rev_ind; [exists []; reflexivity |]. rewrite map_app. cbn [map]. rewrite removelast_snoc. apply Forall_app in Ht as [Ht _].
          pose proof (pieces_fine ts Ht) as H. destruct (pieces F (map IToken ts)); [eauto | congruence].
        - pose proof (pieces_fine ts Ht) as H. destruct (pieces F (map IToken ts)); [eauto | congruence]. }
      destruct G as [s ->]. exists (PStr s). split; [reflexivity |]. split; [eauto | discriminate].
Qed.

Theorem read_total n evs r : l_run j_consume j_parse text n (l_init [JRoot] 0) = (evs, r) -> exists v, j_read (map fst evs) = Some (Some (Some v)).
Proof.
  intros Hr. pose proof (run_stream_ok jlex jact j_consume j_parse text n [JRoot] 0 evs r ltac:(discriminate) Hr) as Hst.
  destruct (build_tree_ok jlex jact JRoot _ Hst) as (cs & Hb & Hw & _).
  rewrite (read_tree F float_of is_integer text _ cs Hst Hb).
  assert (Hfine : Forall seen_fine evs) by (apply (run_fine n (l_init [JRoot] 0) evs r); [intros [] | exact Hr]).
  assert (Hsn : forall before x after, evs = before ++ x :: after -> snd x = TargetSpec.follow (replay [JRoot] (map fst before)) (e_target (fst x))).
  { intros before x after E. pose proof (stack_inv_start jlex [JRoot] 0 ltac:(discriminate)) as Hinv.
    exact (proj1 (proj1 (run_stack jlex jact j_consume j_parse text n _ _ _ _ Hinv Hr) before x after E)). }
  pose proof (leaves_fine evs [JRoot] Hst Hsn Hfine) as Hl. rewrite <- (build_leaves jlex jact JRoot _ cs _ Hw) in Hl.
  destruct evs as [| x0 evs].
  { cbn in Hw. apply (words_inj jlex jact cs []) in Hw. subst cs. eexists. reflexivity. }
  assert (Hfull : full (Ctx JRoot cs)).
  { constructor; [| exact (build_full jlex jact _ _ _ _ Hst Hw)]. intros ->. cbn [map] in Hl, Hst. destruct Hst as (_ & Hne & _).
    pose proof (build_leaves jlex jact JRoot _ [] _ Hw) as E. cbn [map event_leaves] in E. pose proof (make_tokens_nonempty _ _ Hne) as Hm.
    destruct (make_tokens (e_lexemes (fst x0))); [congruence | discriminate]. }
  pose proof (node_value _ (tree_fine (Ctx JRoot cs) [] Hfull Hl)) as Hv. rewrite items_ctx in Hv. pose proof (Forall_inv Hv) as (v & E & _). exists v. now rewrite E.
Qed.
End Total.
