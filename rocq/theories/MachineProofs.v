(** Runs of a lexer, as a machine that has a stack of lexicons and a position, and writes the word of the tree that is being built. *)
From Verif Require Import Base BaseFacts TargetModel TargetSpec LexerModel LexerSpec TargetProofs LexerProofs TreeModel TreeSpec TreeProofs BuildModel BuildProofs.
From Coq Require Import ZArith ZifyBool.

Section Machine.
Variables L A : Type.
Variable consume : L -> bool.
Variable parse : L -> str -> nat -> gen (item L A).
Variable text : str.
Notation wrd := (list (sym L A)).

(** The stack of lexicons; the word of all that was done, also the targets that have not been part of an event yet; how many lexicons were entered by these
    targets; the set of circular states; and the position from where the current lexicon goes on. *)
Record cfg := Cfg { g_lex : list L; g_word : wrd; g_new : nat; g_circ : list (nat * nat * nat); g_pos : nat }.

Definition g_leave (w : wrd) (new pop : nat) : wrd * nat :=
  if pop <=? new then (drop_last pop w, new - pop) else (drop_last new w ++ repeat Exit (pop - new), 0).
Definition g_follow (x : wrd * nat) (t : target L) : wrd * nat :=
  let '(w, new) := g_leave (fst x) (snd x) (t_pop t) in (w ++ map Enter (t_push t), new + length (t_push t)).
Definition g_emit (x : wrd * nat) (xs : list (lexeme A)) : wrd * nat :=
  match xs with [] => x | _ => (fst x ++ map Leaf (make_tokens xs), 0) end.

Definition evs_word (evs : list (seen L A)) : wrd := concat (map event_word (map fst evs)).
Definition f_word (f : factory L) : wrd := repeat Exit (f_pop f) ++ map Enter (f_push f).

Record rep (s : lstate L) (evs : list (seen L A)) (c : cfg) : Prop := Rep {
  r_lex : s_lex s = g_lex c;
  r_word : g_word c = evs_word evs ++ f_word (s_fac s);
  r_new : g_new c = length (f_push (s_fac s));
  r_circ : s_circ s = g_circ c;
  r_gen : forall l, last_opt (g_lex c) = Some l -> forall j, parse l text (s_pos s) (s_idx s + j) = parse l text (g_pos c) j }.

Notation run := (l_run consume parse text).
Notation step := (l_step consume parse text).

Definition reach (c c' : cfg) : Prop := forall s evs0, rep s evs0 c ->
  exists n evs s', run n s = (evs, Some s') /\ rep s' (evs0 ++ evs) c'.

Lemma reach_refl c : reach c c.
Proof. intros s evs0 H. exists 0, [], s. rewrite app_nil_r. split; [reflexivity | exact H]. Qed.

Lemma run_app n m : forall s evs s', run n s = (evs, Some s') -> run (n + m) s = (let '(evs', r) := run m s' in (evs ++ evs', r)).
Proof.
  induction n as [| n IH]; intros s evs s' H; cbn [l_run Nat.add] in *.
  - injection H as <- <-. destruct (run m s) as [x r]. reflexivity.
  - destruct (step s) as [[e s1] |]; [| discriminate]. destruct (run n s1) as [e' r] eqn:E. injection H as <- ->.
    rewrite (IH _ _ _ E). destruct (run m s') as [x r']. now rewrite app_assoc.
Qed.

Lemma reach_trans a b c : reach a b -> reach b c -> reach a c.
Proof.
  intros H1 H2 s evs0 H. destruct (H1 s evs0 H) as (n & evs & s' & E & H'). destruct (H2 s' _ H') as (m & evs' & s'' & E' & H'').
  exists (n + m), (evs ++ evs'), s''. rewrite (run_app n m _ _ _ E), E'. split; [reflexivity |]. now rewrite app_assoc.
Qed.

Lemma reach_step a b : (forall s evs0, rep s evs0 a -> exists evs s', step s = Some (evs, s') /\ rep s' (evs0 ++ evs) b) -> reach a b.
Proof.
  intros H s evs0 R. destruct (H s evs0 R) as (evs & s' & E & R'). exists 1, evs, s'. cbn [l_run]. rewrite E, app_nil_r. split; [reflexivity | exact R'].
Qed.

(** The current lexicon goes on in the same way from another position. *)
Lemma reach_move lex l w new circ p q : last_opt lex = Some l -> (forall j, parse l text p j = parse l text q j) ->
  reach (Cfg lex w new circ p) (Cfg lex w new circ q).
Proof.
  intros Hl H s evs0 [R1 R2 R3 R4 R5]. exists 0, [], s. split; [reflexivity |]. rewrite app_nil_r. split; cbn in *; try assumption.
  intros l' Hl' j. rewrite (R5 l' Hl' j). rewrite Hl in Hl'. injection Hl' as <-. apply H.
Qed.

Lemma evs_word_app a b : evs_word (a ++ b) = evs_word a ++ evs_word b.
Proof. unfold evs_word. now rewrite !map_app, concat_app. Qed.

Lemma word_get f : target_word (fst (f_get f)) = f_word f /\ (exists k, snd (f_get f) = Factory k [] /\ f_word (snd (f_get f)) = []).
Proof.
  unfold f_get. destruct f as [k ls]. cbn [f_pop f_push]. unfold f_word. cbn [f_pop f_push].
  destruct (Nat.eqb_spec k 0) as [-> | Hk]; cbn [negb orb].
  - destruct ls as [| l ls]; cbn [length Nat.eqb negb fst snd target_word t_pop t_push repeat app map].
    + split; [reflexivity |]. exists 0. split; reflexivity.
    + split; [reflexivity |]. exists 0. split; reflexivity.
  - cbn [fst snd target_word t_pop t_push]. split; [reflexivity |]. exists 0. split; reflexivity.
Qed.

Lemma emit_word f it lex evs w new : w = evs_word evs ++ f_word f -> new = length (f_push f) ->
  let '(e, f') := l_emit f it lex in g_emit (w, new) (i_lexemes it) = (evs_word (evs ++ e) ++ f_word f', length (f_push f')).
Proof.
  intros -> ->. unfold l_emit, g_emit. destruct (i_lexemes it) as [| x xs]; [now rewrite app_nil_r |].
  destruct (word_get f) as (E1 & k & E2 & E3). destruct (f_get f) as [t f']. cbn [fst snd] in *. subst f'. rewrite E3. cbn [f_push length].
  rewrite evs_word_app. unfold evs_word at 3. cbn [map fst concat event_word e_target e_lexemes]. unfold event_word. cbn [e_target e_lexemes]. rewrite E1.
  now rewrite !app_nil_r, !app_assoc.
Qed.

Lemma drop_last_map {X Y} (g : X -> Y) n l : drop_last n (map g l) = map g (drop_last n l).
Proof. unfold drop_last. now rewrite map_length, firstn_map. Qed.

Lemma add_word f t evs w new : w = evs ++ f_word f -> new = length (f_push f) ->
  g_follow (w, new) t = (evs ++ f_word (f_add f (Some t)), length (f_push (f_add f (Some t)))).
Proof.
  intros -> ->. unfold g_follow, g_leave, f_add, f_word. cbn [fst snd]. destruct (Nat.eqb_spec (t_pop t) 0) as [Hz | Hz].
  - rewrite Hz. cbn [Nat.leb]. rewrite drop_last_0, Nat.sub_0_r. cbn [f_pop f_push]. rewrite map_app, app_length, !app_assoc. reflexivity.
  - destruct (Nat.leb_spec (t_pop t) (length (f_push f))) as [H | H]; cbn [f_pop f_push].
    + rewrite app_assoc, drop_last_app by (rewrite map_length; exact H). rewrite drop_last_map, map_app, app_length, drop_last_length, !app_assoc. reflexivity.
    + rewrite app_assoc, drop_last_app_more by (rewrite map_length; lia). rewrite map_length, Nat.sub_diag, drop_last_0, repeat_app, !app_assoc. reflexivity.
Qed.

(** An item without target. *)
Lemma reach_item lex l w new circ p q it : last_opt lex = Some l -> parse l text p 0 = Some it -> i_target it = None -> i_txt it <> [] ->
  (forall j, parse l text p (S j) = parse l text q j) ->
  reach (Cfg lex w new circ p) (let '(w', new') := g_emit (w, new) (i_lexemes it) in Cfg lex w' new' circ q).
Proof.
  intros Hl Hp Ht Hx Hq. apply reach_step. intros s evs0 [R1 R2 R3 R4 R5]. cbn in *. unfold l_step. rewrite R1, Hl.
  pose proof (R5 l Hl 0) as E. rewrite Nat.add_0_r in E. rewrite E, Hp, Ht. destruct (i_txt it) as [| c0 t0] eqn:Et; [congruence |].
  pose proof (emit_word (s_fac s) it lex evs0 w new R2 R3) as Em. destruct (l_emit (s_fac s) it lex) as [e f'].
  exists e, (LState lex f' (s_circ s) (s_pos s) (S (s_idx s))). split; [reflexivity |]. rewrite Em. split; cbn; try reflexivity; try assumption.
  intros l' Hl' j. rewrite Hl in Hl'. injection Hl' as <-. rewrite <- Hq, <- Nat.add_succ_r. apply R5. exact Hl.
Qed.

(** An item with text and a target. *)
Lemma reach_target lex l w new circ p it t0 : last_opt lex = Some l -> parse l text p 0 = Some it -> i_target it = Some t0 -> i_txt it <> [] ->
  let t := l_clip (length lex) t0 in
  let '(w', new') := if l_consumes consume t then g_emit (g_follow (w, new) t) (i_lexemes it) else g_follow (g_emit (w, new) (i_lexemes it)) t in
  reach (Cfg lex w new circ p) (Cfg (drop_last (t_pop t) lex ++ t_push t) w' new' [] (i_pos it + length (i_txt it))).
Proof.
  intros Hl Hp Ht Hx t. destruct (if l_consumes consume t then _ else _) as [w' new'] eqn:Ew.
  apply reach_step. intros s evs0 [R1 R2 R3 R4 R5]. cbn in *. unfold l_step. rewrite R1, Hl.
  pose proof (R5 l Hl 0) as E. rewrite Nat.add_0_r in E. rewrite E, Hp, Ht. fold t.
  destruct (i_txt it) as [| c0 tx] eqn:Et; [congruence |]. cbv zeta.
  destruct (l_consumes consume t).
  - pose proof (add_word (s_fac s) t (evs_word evs0) w new R2 R3) as Ea. rewrite Ea in Ew.
    pose proof (emit_word (f_add (s_fac s) (Some t)) it (drop_last (t_pop t) lex ++ t_push t) evs0 _ _ eq_refl eq_refl) as Em.
    destruct (l_emit _ it _) as [e f']. rewrite Em in Ew. injection Ew as <- <-.
    eexists _, _. split; [reflexivity |]. split; cbn; reflexivity.
  - pose proof (emit_word (s_fac s) it lex evs0 w new R2 R3) as Em. destruct (l_emit (s_fac s) it lex) as [e f'].
    rewrite Em in Ew. rewrite (add_word f' t (evs_word (evs0 ++ e)) _ _ eq_refl eq_refl) in Ew. injection Ew as <- <-.
    eexists _, _. split; [reflexivity |]. split; cbn; reflexivity.
Qed.

(** An item without text: a default target, or a match of nothing. *)
Lemma reach_default lex l w new circ p it t0 : last_opt lex = Some l -> parse l text p 0 = Some it -> i_target it = Some t0 -> i_txt it = [] ->
  let t := l_clip (length lex) t0 in
  let '(w', new') := g_follow (w, new) t in
  let lex1 := drop_last (t_pop t) lex in
  let '(q, circ') := l_circle text circ (i_pos it) (length lex1) (t_push t) in
  reach (Cfg lex w new circ p) (Cfg (lex1 ++ t_push t) w' new' circ' q).
Proof.
  intros Hl Hp Ht Hx t. destruct (g_follow (w, new) t) as [w' new'] eqn:Ew. cbv zeta.
  destruct (l_circle text circ (i_pos it) (length (drop_last (t_pop t) lex)) (t_push t)) as [q circ'] eqn:Ec.
  apply reach_step. intros s evs0 [R1 R2 R3 R4 R5]. cbn in *. unfold l_step. rewrite R1, Hl.
  pose proof (R5 l Hl 0) as E. rewrite Nat.add_0_r in E. rewrite E, Hp, Ht, Hx. fold t. cbv zeta. rewrite R4, Ec.
  eexists _, _. split; [reflexivity |]. rewrite (add_word (s_fac s) t (evs_word evs0) w new R2 R3) in Ew. injection Ew as <- <-.
  rewrite app_nil_r. split; cbn; reflexivity.
Qed.

(** The end: no more items. *)
Lemma reach_end root lex l w circ p : reach (Cfg [root] [] 0 [] 0) (Cfg lex w 0 circ p) -> last_opt lex = Some l -> parse l text p 0 = None ->
  exists n evs cs, run n (l_init [root] 0) = (evs, None) /\ build_tree root (map fst evs) = Some (Ctx root cs) /\
    words cs = w ++ repeat Exit (length lex - 1).
Proof.
  intros H Hl Hp. destruct (H (l_init [root] 0) []) as (n & evs & s & E & [R1 R2 R3 R4 R5]).
  { split; reflexivity. }
  cbn in *. exists (n + 1), evs.
  assert (Es : step s = None).
  { unfold l_step. rewrite R1, Hl. pose proof (R5 l Hl 0) as E0. rewrite Nat.add_0_r in E0. now rewrite E0, Hp. }
  assert (Er : run (n + 1) (l_init [root] 0) = (evs, None)).
  { rewrite (run_app n 1 _ _ _ E). cbn [l_run]. rewrite Es. now rewrite app_nil_r. }
  assert (Hst : stream_ok L A [root] (map fst evs)) by (eapply run_stream_ok; [discriminate | exact Er]).
  destruct (build_tree_ok L A root _ Hst) as (cs & Hb & Hw & _). exists cs. split; [exact Er |]. split; [exact Hb |]. rewrite Hw.
  pose proof (proj2 (run_stack L A consume parse text n _ _ _ _ (stack_inv_start L [root] 0 ltac:(discriminate)) E) s eq_refl) as [Hs Hlt].
  unfold f_sem in Hs. rewrite R1 in Hs.
  assert (Hn : f_push (s_fac s) = []) by (destruct (f_push (s_fac s)); [reflexivity | discriminate]).
  rewrite R2. unfold f_word, evs_word. rewrite Hn. cbn [map]. rewrite app_nil_r, <- app_assoc, <- repeat_app. do 2 f_equal.
  rewrite Hs, Hn, app_nil_r, drop_last_length. lia.
Qed.

End Machine.
Arguments Cfg {L A}. Arguments reach {L A}. Arguments g_emit {L A}. Arguments g_follow {L A}. Arguments g_leave {L A}.
