(** Updating a tree gives the tree that is built from scratch. *)
From Verif Require Import Base BaseFacts TargetModel TargetSpec LexerModel LexerSpec LexerProofs TreeModel TreeSpec TreeProofs TreeWalkProofs
  TreeRangeProofs BuildModel BuildProofs TreeDeleteProofs ChangesModel ChangesSpec RebuildModel RebuildSpec RestartProofs
  RebuildTreeProofs RebuildEventsProofs RebuildPrepareProofs RebuildStartProofs ReplaceTreeProofs.
From Coq Require Import ZArith ZifyBool.

Section Rebuild.
Variables L A : Type.
Notation node := (node L A).
Notation tok := (tok A).
Notation handle := (handle A).
Notation event := (event L A).
Notation hev := (event * list handle)%type.
Notation sym := (sym L A).

(** ** The last context of the new tree *)

Lemma spine_lex_word d : forall l cs (w : list sym) up, spine_ok L A d (Ctx l cs) -> words cs = w ++ repeat Exit d ->
  wstack L A (up ++ [l]) w = up ++ spine_lex d (Ctx l cs).
Proof.
  induction d as [|d IH]; intros l cs w up Hs Hw.
  - cbn [repeat] in Hw. rewrite app_nil_r in Hw. subst w. cbn [spine_lex]. rewrite wstack_words. reflexivity.
  - cbn [spine_ok] in Hs. cbn [spine_lex]. destruct (last_opt cs) as [c|] eqn:El; [|contradiction]. apply last_opt_some in El as (cs0 & ->).
    destruct c as [t|l' cs']; [destruct d; contradiction|].
    rewrite words_app, words_cons, word_ctx in Hw. cbn [words map concat] in Hw. rewrite app_nil_r in Hw. rewrite repeat_snoc in Hw.
    rewrite app_comm_cons, !app_assoc in Hw. apply app_inj_tail in Hw as [Hw _]. fold (words cs0) in Hw.
    destruct (exits_split L A _ _ _ _ _ Hw) as (v0 & E1 & ->).
    rewrite wstack_app, wstack_words. cbn [wstack]. rewrite (IH l' cs' v0 (up ++ [l]) Hs E1), <- app_assoc. reflexivity.
Qed.

Lemma spine_app_empty d : forall (n : node) l, spine_ok L A d n -> spine_empty (S d) (spine_app d n [Ctx l []]) = true.
Proof.
  induction d as [|d IH]; intros [t|l0 cs] l Hs; try contradiction.
  - cbn [spine_app spine_empty]. rewrite last_opt_app. reflexivity.
  - cbn [spine_ok] in Hs. cbn [spine_app]. destruct (last_opt cs) as [c|] eqn:El; [|contradiction]. cbn [spine_empty].
    rewrite last_opt_app. apply IH, Hs.
Qed.

Lemma spine_app_lex d (n : node) ns : root_lex (spine_app d n ns) = root_lex n.
Proof. destruct n as [t|l cs]; destruct d; cbn [spine_app]; try reflexivity. destruct (last_opt cs); reflexivity. Qed.

(** ** Going on with an event *)

Definition good (l : L) (s : bstate L A) (stack : list L) (w : list sym) : Prop :=
  b_ok L A s /\ b_word L A s w /\ root_lex (b_root s) = Some l /\ length stack = S (b_depth s) /\ wstack L A [l] w = stack.

Lemma good_spine l s stack w : good l s stack w -> spine_lex (b_depth s) (b_root s) = stack.
Proof.
  intros ((Hs & _) & Hw & Hl & _ & <-). destruct (b_root s) as [t|l' cs] eqn:E; [discriminate|]. injection Hl as ->.
  unfold b_word in Hw. rewrite E in Hw. symmetry. exact (spine_lex_word _ l cs w [] Hs Hw).
Qed.

Lemma pushes_lex ls : forall s, root_lex (b_root (fold_left (@b_push L A) ls s)) = root_lex (b_root s).
Proof. induction ls as [|l ls IH]; intros s; [reflexivity|]. cbn [fold_left]. rewrite IH. cbn [b_push b_root]. apply spine_app_lex. Qed.
Lemma pushes_empty ls l s w : b_ok L A s -> b_word L A s w ->
  spine_empty (b_depth (fold_left (@b_push L A) (ls ++ [l]) s)) (b_root (fold_left (@b_push L A) (ls ++ [l]) s)) = true.
Proof.
  intros Hs Hw. rewrite fold_left_app. cbn [fold_left]. destruct (b_pushes_ok L A ls s w Hs Hw) as ((Hs' & _) & _ & _). cbn [b_push b_depth b_root]. apply spine_app_empty, Hs'.
Qed.

Lemma target_good l s stack w t : good l s stack w -> keeps_root stack t ->
  exists s', b_target s t = Some s' /\ good l s' (follow stack t) (w ++ target_word t)
    /\ match t with Some t => forall ls l', t_push t = ls ++ [l'] -> spine_empty (b_depth s') (b_root s') = true | None => True end.
Proof.
  intros (Hs & Hw & Hl & Hlen & Hst) Hk. destruct t as [t|].
  2:{ exists s. cbn [target_word b_target follow]. rewrite app_nil_r. split; [reflexivity|]. split; [|exact I]. repeat (split; [assumption|]). assumption. }
  cbn [b_target keeps_root] in *. replace (t_pop t <=? b_depth s) with true by lia.
  assert (H0 : b_ok L A (BState (b_root s) (b_depth s - t_pop t))).
  { split; cbn [b_root b_depth]; [apply (spine_ok_le L A (b_depth s)); [lia|apply Hs]|apply Hs]. }
  assert (H1 : b_word L A (BState (b_root s) (b_depth s - t_pop t)) (w ++ repeat Exit (t_pop t))).
  { unfold b_word in *. cbn [b_root b_depth]. rewrite Hw, <- app_assoc, <- repeat_app. do 2 f_equal. lia. }
  destruct (b_pushes_ok L A (t_push t) _ _ H0 H1) as (H2 & H3 & H4). eexists. split; [reflexivity|]. split.
  - cbn [target_word]. rewrite <- app_assoc in H3. split; [exact H2|]. split; [exact H3|]. split; [rewrite pushes_lex; exact Hl|]. split.
    + rewrite H4. cbn [b_depth follow]. rewrite app_length, drop_last_length. lia.
    + rewrite wstack_app, Hst. exact (wstack_target L A stack (Some t)).
  - intros ls l' E. rewrite E. exact (pushes_empty ls l' _ _ H0 H1).
Qed.

Lemma tokens_good l s stack w ts : good l s stack w -> grouped (map (@Tok L A) ts) ->
  good l (BState (spine_app (b_depth s) (b_root s) (map Tok ts)) (b_depth s)) stack (w ++ map Leaf ts).
Proof.
  intros ((Hs & Hg) & Hw & Hl & Hlen & Hst) Hgr. split; [split|split; [|split; [|split]]]; cbn [b_root b_depth].
  - apply spine_app_ok, Hs.
  - apply spine_app_grouped; [assumption|exact Hgr|]. apply Forall_forall. intros n Hn. apply in_map_iff in Hn as (t & <- & _). constructor.
  - unfold b_word in *. cbn [b_root b_depth]. destruct (spine_app_word L A _ _ Hs) as (w' & E & Hns). rewrite Hw in E.
    apply repeat_app_cancel in E as <-. rewrite Hns, words_toks, <- app_assoc. reflexivity.
  - rewrite spine_app_lex. exact Hl.
  - exact Hlen.
  - rewrite wstack_app, wstack_leaves. exact Hst.
Qed.

Lemma stream_app stack (a b : list event) : stream_ok L A stack (a ++ b) -> stream_ok L A (replay stack a) b.
Proof. revert stack; induction a as [|e a IH]; intros stack H; [exact H|]. cbn [app stream_ok] in H. apply IH, H. Qed.

(** ** Starting *)

Lemma chain_words (ls : list L) : forall l, words (children (@chain_tree L A l ls)) = map Enter ls ++ repeat Exit (length ls).
Proof.
  induction ls as [|m ls IH]; intros l; [reflexivity|]. cbn [chain_tree children map length]. rewrite words_cons. cbn [words map concat].
  specialize (IH m). destruct (@chain_tree L A m ls) as [t|l' cs'] eqn:E; [destruct ls; discriminate|]. assert (l' = m) by (destruct ls; injection E; auto). subst l'.
  rewrite word_ctx. cbn [children] in IH. rewrite IH, app_nil_r. cbn [app]. rewrite (repeat_snoc Exit (length ls)), app_assoc. reflexivity.
Qed.
Lemma chain_ok (ls : list L) : forall l, spine_ok L A (length ls) (@chain_tree L A l ls) /\ all_grouped (@chain_tree L A l ls) /\ root_lex (@chain_tree L A l ls) = Some l.
Proof.
  induction ls as [|m ls IH]; intros l; cbn [chain_tree length spine_ok root_lex].
  - split; [exact I|]. split; [apply ag_empty|reflexivity].
  - destruct (IH m) as (H1 & H2 & H3). cbn [last_opt]. split; [exact H1|]. split; [|reflexivity].
    destruct (@chain_tree L A m ls) as [t|l' cs'] eqn:E; [discriminate|]. constructor; [apply grouped_ctx|constructor; [exact H2|constructor]].
Qed.
Lemma chain_good l (ls : list L) : good l (BState (@chain_tree L A l ls) (length ls)) (l :: ls) (map Enter ls).
Proof.
  destruct (chain_ok ls l) as (H1 & H2 & H3). split; [split; assumption|]. split; [apply chain_words|]. split; [exact H3|]. split; [reflexivity|].
  rewrite wstack_enters. reflexivity.
Qed.

(** ** The loop over the events *)

Variables l_is l_eq : L -> L -> bool.
Variable a_eq : A -> A -> bool.
Variable consume : L -> bool.
Variable parse : L -> str -> nat -> gen (item L A).
Variable K : nat.
Hypothesis His : forall a b, l_is a b = true <-> a = b.
Hypothesis Heq : forall a, l_eq a a = true.
Hypothesis Hact : forall a b, a_eq a b = true <-> a = b.
Hypothesis HL : local_parse K parse.
Hypothesis HK : K <= 9.
Local Notation all := (l_all consume parse).

Variables (old new : str) (n : nat) (l : L) (evs evs' : list event) (fin fin' : list L) (cs : list node).
Hypothesis Hold : all old n (l_init [l] 0) = Some (evs, fin).
Hypothesis Hnew : all new n (l_init [l] 0) = Some (evs', fin').
Hypothesis Hcs : build_tree l evs = Some (Ctx l cs).
Notation root := (Ctx l cs).

Variable off : Z.
Section Loop.
Variable tail_ok : handle -> Prop.

Definition reused (rest done : list event) (w : list sym) (s : bstate L A) (pos : nat) : Prop :=
  exists mid e post h x xs, rest = mid ++ e :: post /\ good l s (replay [l] (done ++ mid ++ [e])) (w ++ concat (map event_word mid) ++ target_word (e_target e))
    /\ tail_ok h /\ pos = k_pos (snd h) /\ plain L A consume e /\ e_lexemes e = x :: xs /\ (Z.of_nat (x_pos x) - off = Z.of_nat (k_pos (snd h)))%Z
    /\ lex_at root (fst h) = replay [l] (done ++ mid ++ [e]).

Lemma drop_ok pos tail : Forall tail_ok tail -> Forall tail_ok (drop_before pos tail).
Proof. induction 1 as [|h tail Hh Ht IH]; [constructor|]. cbn [drop_before]. destruct (_ <? _)%Z; [exact IH|constructor; assumption]. Qed.

Lemma drop_suffix pos (tail : list handle) : exists dropped, tail = dropped ++ drop_before pos tail.
Proof. induction tail as [|h tail (u & IH)]; [exists []; reflexivity|]. cbn [drop_before]. destruct (_ <? _)%Z; [exists (h :: u); cbn [app]; congruence|exists []; reflexivity]. Qed.

(** The outcomes: to the end, the tail can be reused, or a change has come in after the events [mid]. *)
Lemma run_sched rest : forall done s w tail sched, evs' = done ++ rest -> good l s (replay [l] done) w -> Forall tail_ok tail ->
  (exists s' j sc, run_events l_is a_eq consume root s rest tail off sched = OEnd s' sc /\ sched = repeat [] j ++ sc /\ good l s' (replay [l] evs') (w ++ concat (map event_word rest)))
  \/ (exists s' pos j sc, run_events l_is a_eq consume root s rest tail off sched = OReuse s' pos sc /\ sched = repeat [] j ++ sc /\ reused rest done w s' pos)
  \/ (exists s' tail' k b sched' mid rest', run_events l_is a_eq consume root s rest tail off sched = OChanged s' tail' (get_changes b) sched'
        /\ sched = repeat [] k ++ b :: sched' /\ b <> [] /\ rest = mid ++ rest' /\ length mid = S k
        /\ good l s' (replay [l] (done ++ mid)) (w ++ concat (map event_word mid)) /\ Forall tail_ok tail' /\ (exists dropped, tail = dropped ++ tail')).
Proof.
  induction rest as [|e rest IH]; intros done s w tail sched Hev Hg Ht.
  - left. exists s, 0, sched. split; [reflexivity|]. split; [reflexivity|]. cbn [map concat]. rewrite app_nil_r in *. rewrite Hev. exact Hg.
  - assert (Hstr : stream_ok L A [l] evs').
    { destruct (all_run L A consume parse new n _ _ _ Hnew) as (es & Hr & E). rewrite <- E. eapply run_stream_ok; [discriminate|]. exact Hr. }
    rewrite Hev in Hstr. apply stream_app in Hstr. cbn [stream_ok] in Hstr. destruct Hstr as (Hk & Hne & _).
    destruct (target_good l s _ w (e_target e) Hg Hk) as (s1 & Es1 & Hg1 & Hem).
    assert (Hrep : follow (replay [l] done) (e_target e) = replay [l] (done ++ [e])) by (rewrite replay_app; reflexivity). rewrite Hrep in Hg1.
    destruct (e_lexemes e) as [|x xs] eqn:Ex; [congruence|].
    cbn [run_events]. rewrite Es1, Ex. destruct (make_tokens (x :: xs)) as [|t ts] eqn:Em; [destruct (make_tokens_nonempty A (x :: xs)); [discriminate|exact Em]|].
    assert (Htx : lexeme_of t = x). { pose proof (make_tokens_lexemes A (x :: xs)) as El. rewrite Em in El. cbn [map] in El. injection El as El _. exact El. }
    cbv zeta. set (pos := (Z.of_nat (k_pos t) - off)%Z). pose proof (drop_ok pos tail Ht) as Ht'. set (tl' := drop_before pos tail) in *.
    assert (Hnil : exists dropped, tail = dropped ++ tl') by apply drop_suffix.
    assert (Hgr : grouped (map (@Tok L A) (t :: ts))) by (rewrite <- Em; apply make_tokens_grouped).
    pose proof (tokens_good l s1 _ _ (t :: ts) Hg1 Hgr) as Hg2.
    assert (Hw2 : (w ++ target_word (e_target e)) ++ map Leaf (t :: ts) = w ++ event_word e) by (unfold event_word; rewrite Ex, Em, <- app_assoc; reflexivity).
    rewrite Hw2 in Hg2. set (s2 := BState (spine_app (b_depth s1) (b_root s1) (map Tok (t :: ts))) (b_depth s1)) in *.
    set (out := match sched with
                | (n :: ns) :: sched => OChanged s2 tl' (get_changes (n :: ns)) sched
                | [] :: sched => run_events l_is a_eq consume root s2 rest tl' off sched
                | [] => run_events l_is a_eq consume root s2 rest tl' off []
                end).
    assert (Hcont : (exists s' j sc, out = OEnd s' sc /\ sched = repeat [] j ++ sc /\ good l s' (replay [l] evs') (w ++ concat (map event_word (e :: rest))))
        \/ (exists s' pos j sc, out = OReuse s' pos sc /\ sched = repeat [] j ++ sc /\ reused (e :: rest) done w s' pos)
        \/ (exists s' tail' k b sched' mid rest', out = OChanged s' tail' (get_changes b) sched'
              /\ sched = repeat [] k ++ b :: sched' /\ b <> [] /\ e :: rest = mid ++ rest' /\ length mid = S k
              /\ good l s' (replay [l] (done ++ mid)) (w ++ concat (map event_word mid)) /\ Forall tail_ok tail' /\ (exists dropped, tail = dropped ++ tail'))).
    { assert (Hstep : forall sc, (exists k0, forall k b sched', sc = repeat [] k ++ b :: sched' -> b <> [] -> sched = repeat [] (k0 + k) ++ b :: sched' /\ k0 = 1) ->
        (forall j rs, sc = repeat [] j ++ rs -> exists j', sched = repeat [] j' ++ rs) ->
        out = run_events l_is a_eq consume root s2 rest tl' off sc -> (exists s' j sc, out = OEnd s' sc /\ sched = repeat [] j ++ sc /\ good l s' (replay [l] evs') (w ++ concat (map event_word (e :: rest))))
        \/ (exists s' pos j sc, out = OReuse s' pos sc /\ sched = repeat [] j ++ sc /\ reused (e :: rest) done w s' pos)
        \/ (exists s' tail' k b sched' mid rest', out = OChanged s' tail' (get_changes b) sched'
              /\ sched = repeat [] k ++ b :: sched' /\ b <> [] /\ e :: rest = mid ++ rest' /\ length mid = S k
              /\ good l s' (replay [l] (done ++ mid)) (w ++ concat (map event_word mid)) /\ Forall tail_ok tail' /\ (exists dropped, tail = dropped ++ tail'))).
      { intros sc (k0 & Hsc) Hsc0 ->.
        destruct (IH (done ++ [e]) _ _ tl' sc ltac:(rewrite <- app_assoc; exact Hev) Hg2 Ht') as [(s' & j & rs & E1 & Ej & E2)|[(s' & p & j & rs & E1 & Ej & E2)|(s' & tail' & k & b & sched' & mid & rest' & E1 & E2 & E3 & E4 & E5 & E6 & E7 & E8)]].
        - left. destruct (Hsc0 j rs Ej) as (j' & Ej'). exists s', j', rs. split; [exact E1|]. split; [exact Ej'|]. cbn [map concat]. rewrite app_assoc. exact E2.
        - right. left. destruct (Hsc0 j rs Ej) as (j' & Ej'). exists s', p, j', rs. split; [exact E1|]. split; [exact Ej'|]. destruct E2 as (mid & e2 & post & h & x2 & xs2 & -> & F2 & F3 & F4 & F5 & F6 & F7 & F8).
          exists (e :: mid), e2, post, h, x2, xs2. rewrite <- !app_assoc in *. cbn [app map concat] in *. rewrite <- app_assoc. split; [reflexivity|].
          repeat (split; [assumption|]). assumption.
        - right. right. destruct (Hsc k b sched' E2 E3) as [E9 ->]. exists s', tail', (1 + k), b, sched', (e :: mid), rest'.
          split; [exact E1|]. split; [exact E9|]. split; [exact E3|]. split; [rewrite E4; reflexivity|]. split; [cbn [length]; lia|].
          rewrite <- app_assoc in E6. cbn [app] in E6. cbn [map concat]. rewrite app_assoc. split; [exact E6|]. split; [exact E7|]. destruct Hnil as (u & Eu). destruct E8 as (v & Ev). exists (u ++ v). rewrite <- app_assoc, <- Ev. exact Eu. }
      destruct sched as [|[|b0 bs] sched0].
      - apply (Hstep []); [| |reflexivity]; [exists 1; intros k b sched' E; destruct k; discriminate|intros j rs E; exists j; exact E].
      - apply (Hstep sched0); [| |reflexivity]; [exists 1; intros k b sched' -> _; split; reflexivity|intros j rs ->; exists (S j); reflexivity].
      - right. right. exists s2, tl', 0, (b0 :: bs), sched0, [e], rest. split; [reflexivity|]. split; [reflexivity|]. split; [discriminate|]. split; [reflexivity|].
        split; [reflexivity|]. cbn [map concat]. rewrite app_nil_r. assert (Hr2 : good l s2 (replay [l] (done ++ [e])) (w ++ event_word e)) by exact Hg2.
        split; [exact Hr2|]. split; [exact Ht'|exact Hnil]. }
    destruct tl' as [|h tl'']; [exact Hcont|]. destruct (tail_matches l_is a_eq consume root s1 t pos h) eqn:Etm; [|exact Hcont].
    right. left. exists s1, (k_pos (snd h)), 0, sched. split; [reflexivity|]. split; [reflexivity|]. unfold tail_matches in Etm. rewrite !andb_true_iff in Etm. destruct Etm as [[T1 [[T2 T3] T4]] T5].
    inversion Ht' as [|? ? Hh _]; subst x0 l0.
    assert (Hlx : spine_lex (b_depth s1) (b_root s1) = lex_at root (fst h)).
    { apply (proj1 (list_eqb_spec l_is His _ _)) in T4. apply (f_equal (@rev L)) in T4. rewrite !rev_involutive in T4. exact T4. }
    pose proof (good_spine l s1 _ _ Hg1) as Hsp.
    exists [], e, rest, h, x, xs. cbn [app map concat]. split; [reflexivity|]. split; [exact Hg1|]. split; [exact Hh|]. split; [reflexivity|].
    split; [|split; [exact Ex|split]].
    + unfold plain. destruct (e_target e) as [tg|] eqn:Etg; [|exact I]. unfold l_consumes. destruct (last_opt (t_push tg)) as [l'|] eqn:Elo; [|reflexivity].
      apply last_opt_some in Elo as (ls & Elo). rewrite (Hem ls l' Elo) in T5. rewrite Hsp, replay_app in T5. cbn [replay fold_left] in T5. rewrite Etg in T5.
      cbn [follow] in T5. rewrite Elo, app_assoc, last_opt_app in T5. cbn [negb orb] in T5. destruct (consume l'); [discriminate|reflexivity].
    + subst x. cbn [lexeme_of x_pos]. unfold pos in T1. lia.
    + rewrite <- Hlx. exact Hsp.
Qed.
Lemma run_ok rest : forall done s w tail, evs' = done ++ rest -> good l s (replay [l] done) w -> Forall tail_ok tail ->
  (exists s', run_events l_is a_eq consume root s rest tail off [] = OEnd s' [] /\ good l s' (replay [l] evs') (w ++ concat (map event_word rest)))
  \/ (exists s' pos, run_events l_is a_eq consume root s rest tail off [] = OReuse s' pos [] /\ reused rest done w s' pos).
Proof.
  intros done s w tail Hev Hg Ht. destruct (run_sched rest done s w tail [] Hev Hg Ht) as [(s' & j & sc & E1 & Ej & H)|[(s' & p & j & sc & E1 & Ej & H)|(s' & tail' & k & b & sched' & mid & rest' & _ & E & _)]];
    [left; destruct j; [|discriminate]; cbn [repeat app] in Ej; subst sc; exists s'; auto|right; destruct j; [|discriminate]; cbn [repeat app] in Ej; subst sc; exists s', p; auto|].
  destruct k; discriminate.
Qed.
End Loop.

(** ** Moved events *)

Lemma shift_tokens (xs : list (lexeme A)) : make_tokens (map (shift_lexeme off) xs) = map (shift_tok off) (make_tokens xs).
Proof.
  assert (G : forall (xs : list (lexeme A)) (k : nat), make_group_from k (map (shift_lexeme off) xs) = map (@shift_tok A off) (make_group_from k xs)).
  { induction xs0 as [|x [|y ys] IH]; intros k; [reflexivity|reflexivity|].
    change (Token (x_pos (shift_lexeme off x)) (x_text x) (x_act x) (Some (Z.of_nat k)) :: make_group_from (S k) (map (shift_lexeme off) (y :: ys))
            = map (@shift_tok A off) (Token (x_pos x) (x_text x) (x_act x) (Some (Z.of_nat k)) :: make_group_from (S k) (y :: ys))).
    rewrite IH. reflexivity. }
  destruct xs as [|x [|y xs]]; [reflexivity|reflexivity|]. exact (G (x :: y :: xs) 0).
Qed.
Lemma shift_leaves (ts : list tok) : map (@Leaf L A) (map (shift_tok off) ts) = shiftw L A off (map Leaf ts).
Proof. unfold shiftw. rewrite !map_map. reflexivity. Qed.
Lemma shift_target (t : option (target L)) : shiftw L A off (target_word t) = target_word t.
Proof.
  destruct t as [t|]; [|reflexivity]. cbn [target_word]. rewrite shiftw_app, shiftw_exits. f_equal. unfold shiftw. rewrite map_map. reflexivity.
Qed.
Lemma shift_event_words (es : list event) : concat (map event_word (map (shift_event off) es)) = shiftw L A off (concat (map event_word es)).
Proof.
  induction es as [|e es IH]; [reflexivity|]. cbn [map concat]. rewrite shiftw_app, IH. f_equal. unfold event_word. cbn [shift_event e_target e_lexemes].
  rewrite shift_tokens, shift_leaves, shiftw_app, shift_target. reflexivity.
Qed.
Lemma shift_replay (es : list event) : forall st, replay st (map (shift_event off) es) = replay st es.
Proof. induction es as [|e es IH]; intros st; [reflexivity|]. cbn [map replay fold_left]. apply IH. Qed.
Lemma sleaves_shift (w : list sym) : sleaves L A (shiftw L A off w) = map (shift_tok off) (sleaves L A w).
Proof. induction w as [|s w IH]; [reflexivity|]. unfold sleaves, shiftw in *. cbn [map concat]. rewrite IH, map_app. destruct s; reflexivity. Qed.
Lemma sleaves_exits k : sleaves L A (repeat Exit k) = [].
Proof. induction k as [|k IH]; [reflexivity|]. exact IH. Qed.

(** ** The old tree *)

Variable hevs : list hev.
Hypothesis Hevs : map fst hevs = evs.
Hypothesis Hword : hwords L A [] 0 cs = hevs_word L A hevs ++ repeat (hx L A) (k0 L A l evs).
Hypothesis Hok : Forall (hev_ok L A) hevs.
Variables (start removed added : nat).
Hypothesis Hcov : covers_change old new start removed added.
Hypothesis Hoff : off = (Z.of_nat added - Z.of_nat removed)%Z.

Definition tail_good (h : handle) : Prop := In h (handles L A root) /\ good_tail consume root h = true /\ start + removed <= k_pos (snd h).

Lemma ord : in_order (flat cs).
Proof. exact (old_order L A consume parse K HL HK old n l evs fin cs Hold hevs Hevs Hword Hok). Qed.
Lemma wf : wf_children cs.
Proof. exact (old_wf L A consume parse K HL HK old n l evs fin cs Hold Hcs hevs Hevs Hword Hok). Qed.

Lemma tail_found : exists tail,
  (if start + added <? length new then
     match find_after_h root (start + removed) with
     | None => None
     | Some None => Some []
     | Some (Some h) => Some (filter (good_tail consume root) (h :: forward_h root (fst h)))
     end
   else Some []) = Some tail /\ Forall tail_good tail.
Proof.
  destruct (start + added <? length new); [|exists []; auto]. pose proof (find_after_ok L A l cs (start + removed) wf) as Hf.
  destruct (find (fun t => start + removed <=? k_pos t) (flat cs)) as [t|] eqn:Ef; [|rewrite Hf; exists []; auto].
  destruct Hf as (p & Hp & -> & Hat). eexists. split; [reflexivity|]. apply Forall_forall. intros h Hh. apply filter_In in Hh as [Hh Hg].
  pose proof (handles_split L A p root t Hat) as Hs. change (ptoks [] root) with (handles L A root) in Hs.
  assert (Ht : start + removed <= k_pos t) by (apply find_some in Ef as [_ Ef]; lia). cbn [fst] in Hh. destruct Hh as [<-|Hh].
  - split; [rewrite Hs; apply in_or_app; right; left; reflexivity|]. auto.
  - assert (Hin : In h (handles L A root)) by (rewrite Hs; apply in_or_app; right; right; exact Hh). split; [exact Hin|]. split; [exact Hg|].
    apply in_split in Hh as (u & v & E). rewrite E in Hs. pose proof (handles_order L A l cs ord _ _ _ _ _ Hs) as Ho. cbn [snd] in Ho. unfold k_end in Ho. lia.
Qed.

Lemma reuse_ok D e post (h : handle) x xs : evs' = D ++ e :: post -> tail_good h -> plain L A consume e -> e_lexemes e = x :: xs ->
  (Z.of_nat (x_pos x) - off = Z.of_nat (k_pos (snd h)))%Z -> lex_at root (fst h) = replay [l] (D ++ [e]) ->
  exists G1 eo hb G2, hevs = G1 ++ (eo, h :: hb) :: G2 /\ e_lexemes e = map (shift_lexeme off) (e_lexemes eo)
    /\ post = map (shift_event off) (map fst G2) /\ fin' = fin.
Proof.
  intros HE (Hin & Hgt & Hpos) Hpl Ex Hx Hlx. unfold good_tail in Hgt. apply andb_true_iff in Hgt as [Hgz Hgc].
  destruct (zero_first L A l cs hevs _ Hword Hok h Hin Hgz) as (G1 & eo & hb & G2 & EG). exists G1, eo, hb, G2. split; [exact EG|].
  assert (Hplo : plain L A consume eo).
  { eapply (not_consumed_plain L A consume parse K HL HK old n l evs fin cs Hold Hcs hevs Hevs Hword Hok); [exact EG|]. destruct (h_consumed consume root h); [discriminate|reflexivity]. }
  pose proof (lex_at_hev L A consume parse K HL HK old n l evs fin cs Hold Hcs hevs Hevs Hword Hok G1 eo [] h hb G2 EG) as Hlo.
  assert (HO : all old n (l_init [l] 0) = Some (map fst G1 ++ eo :: map fst G2, fin)) by (rewrite Hold, <- Hevs, EG, map_app; reflexivity).
  assert (HN : all new n (l_init [l] 0) = Some (D ++ e :: post, fin')) by (rewrite Hnew, HE; reflexivity).
  pose proof (restart_event L A consume parse K HL old n [l] (l_init [l] 0) (map fst G1) eo (map fst G2) fin
                ltac:(apply stack_inv_start; discriminate) ltac:(apply circ_start; lia) HO Hplo) as RO.
  pose proof (restart_event L A consume parse K HL new n [l] (l_init [l] 0) D e post fin'
                ltac:(apply stack_inv_start; discriminate) ltac:(apply circ_start; lia) HN Hpl) as RN.
  assert (Hxo : exists xo xso, e_lexemes eo = xo :: xso /\ x_pos xo = k_pos (snd h)).
  { assert (Hoko : hev_ok L A (eo, h :: hb)) by (rewrite Forall_forall in Hok; apply Hok; rewrite EG; apply in_or_app; right; left; reflexivity).
    destruct Hoko as (Et & _ & _). cbn [fst snd map] in Et. apply (f_equal (map lexeme_of)) in Et. rewrite make_tokens_lexemes in Et. cbn [map] in Et.
    rewrite <- Et. do 2 eexists. split; reflexivity. }
  destruct Hxo as (xo & xso & Exo & Epo). rewrite Exo in RO. rewrite Ex in RN. destruct RO as [QO RO]. destruct RN as [QN RN].
  destruct Hcov as (C1 & C2 & C3 & C4).
  assert (Hsuf : skipn (x_pos xo) old = skipn (x_pos x) new).
  { assert (S1 : forall (t : str) a b, b <= a -> skipn a t = skipn (a - b) (skipn b t)).
    { clear. intros t a b. revert t a. induction b as [|b IH]; intros t a Hb; [rewrite Nat.sub_0_r; reflexivity|]. destruct a as [|a]; [lia|].
      destruct t as [|c t]; [rewrite !skipn_nil; reflexivity|]. cbn [skipn Nat.sub]. apply IH. lia. }
    rewrite (S1 old (x_pos xo) (start + removed)), (S1 new (x_pos x) (start + added)), C4 by lia. f_equal. lia. }
  pose proof (suffix_events L A consume parse K HL old new (x_pos xo) (x_pos x) n (replay [l] (D ++ [e])) QO QN Hsuf) as Hse.
  rewrite RN in Hse. rewrite <- Hlx, Hlo, RO in Hse. replace (Z.of_nat (x_pos x) - Z.of_nat (x_pos xo))%Z with off in Hse by lia.
  injection Hse as E1 E2 E3. rewrite Ex, Exo. split; [|auto]. cbn [map]. rewrite E1. rewrite <- E2 at 1. reflexivity.
Qed.

(** ** The result *)

Definition done_ok (done : list event) (w : list sym) (s : bstate L A) (low : nat) : Prop :=
  good l s (replay [l] done) w /\ exists ch, w = map Enter ch /\ start_at L A l cs low (concat (map event_word done)) ch /\ low <= start.

Lemma new_order cs' : build_tree l evs' = Some (Ctx l cs') -> in_order (flat cs').
Proof.
  intros Hb. destruct (old_hevs L A consume parse new n l evs' fin' cs' Hnew Hb) as (hevs' & E1 & E2 & E3).
  exact (old_order L A consume parse K HL HK new n l evs' fin' cs' Hnew hevs' E1 E2 E3).
Qed.
Lemma pieces_end (text : str) (xs : list (lexeme A)) : forall lo hi, pieces text lo hi xs -> forall x, In x xs -> x_end x <= hi.
Proof.
  induction xs as [|y xs IH]; intros lo hi H x Hx; [destruct Hx|]. cbn [pieces] in H. destruct H as (_ & _ & _ & H1 & _ & H2).
  destruct Hx as [<-|Hx]; [exact H1|apply (IH _ _ H2 x Hx)].
Qed.
Lemma new_inside cs' : build_tree l evs' = Some (Ctx l cs') -> forall t, In t (flat cs') -> k_end t <= length new.
Proof.
  intros Hb t Ht. destruct (old_hevs L A consume parse new n l evs' fin' cs' Hnew Hb) as (hevs' & E1 & E2 & E3).
  assert (Hp : pieces new 0 (length new) (map lexeme_of (flat cs'))).
  { replace (map lexeme_of (flat cs')) with (all_lexemes evs').
    - apply (all_pieces L A consume parse K HL new n 0 (l_init [l] 0) evs' fin'); [apply low_inv_start; lia|exact Hnew].
    - rewrite <- E1, (hev_lex L A hevs' E3), <- (handles_hevs L A l cs' hevs' _ E2), handles_snd, flatten_ctx. reflexivity. }
  apply (pieces_end new _ 0 (length new) Hp (lexeme_of t)). apply in_map, Ht.
Qed.


Lemma events_leaves (es : list event) : sleaves L A (concat (map event_word es)) = concat (map (fun e => make_tokens (e_lexemes e)) es).
Proof.
  induction es as [|e es IH]; [reflexivity|]. cbn [map concat]. rewrite sleaves_app, IH. f_equal. unfold event_word. rewrite sleaves_app.
  assert (H1 : sleaves L A (target_word (e_target e)) = []).
  { destruct (e_target e) as [t|]; [|reflexivity]. cbn [target_word]. rewrite sleaves_app, sleaves_exits. clear. induction (t_push t) as [|x xs IH]; [reflexivity|exact IH]. }
  rewrite H1. cbn [app]. clear. induction (make_tokens (e_lexemes e)) as [|t ts IH]; [reflexivity|]. unfold sleaves in *. cbn [map concat sleaf app]. f_equal. exact IH.
Qed.

Notation range_ok := (fun cs' lo hi => updated_range new off start added cs cs' lo hi).

Lemma start_leaves low done ch : start_at L A l cs low (concat (map event_word done)) ch ->
  exists b, flat cs = sleaves L A (concat (map event_word done)) ++ b /\ Forall (fun t => k_end t <= low) (sleaves L A (concat (map event_word done)))
   /\ (low = 0 \/ exists a t, sleaves L A (concat (map event_word done)) = a ++ [t] /\ k_end t = low).
Proof.
  intros [(-> & E & _)|(p & t & Hp & Hat & -> & E & _)].
  - rewrite E. exists (flat cs). split; [reflexivity|]. split; [constructor|auto].
  - pose proof (pre_post L A root p (Tok t) Hp Hat) as Hw. cbn [children word] in Hw. apply (f_equal (sleaves L A)) in Hw.
    rewrite sleaves_words, app_assoc, sleaves_app in Hw. rewrite E. unfold upto. exists (sleaves L A (post_word L A root p)). split; [exact Hw|].
    rewrite sleaves_app in *. cbn [sleaves map concat sleaf app] in *. fold (sleaves L A (pre_word L A root p)) in *. split; [|right; eauto].
    pose proof ord as Ho. rewrite Hw, <- app_assoc in Ho. cbn [app] in Ho. apply Forall_app. split; [|constructor; [lia|constructor]].
    apply Forall_forall. intros y Hy. pose proof (in_order_before A _ _ _ _ Ho Hy). unfold k_end in *. lia.
Qed.

Lemma whole_range low done ch cs' rest : start_at L A l cs low (concat (map event_word done)) ch -> low <= start ->
  build_tree l evs' = Some (Ctx l cs') -> flat cs' = sleaves L A (concat (map event_word done)) ++ rest -> range_ok cs' low (length new).
Proof.
  intros Hst Hlow Hb Hfl. destruct Hcov as (C1 & C2 & C3 & C4). split; [exact Hlow|]. split; [lia|]. split; [lia|].
  destruct (start_leaves low done ch Hst) as (b & Eb & Fa & Hlast). exists (sleaves L A (concat (map event_word done))), b, [], rest. rewrite app_nil_r. cbn [map]. rewrite app_nil_r.
  split; [exact Eb|]. split; [exact Hfl|]. split; [exact Fa|]. split; [|constructor]. apply Forall_forall. intros t Ht. split.
  - destruct Hlast as [->|(a & t0 & Ea & <-)]; [lia|]. pose proof (new_order cs' Hb) as Ho. rewrite Hfl, Ea, <- app_assoc in Ho. cbn [app] in Ho.
    exact (in_order_after A _ _ _ _ Ho Ht).
  - apply (new_inside cs' Hb). rewrite Hfl. apply in_or_app. right. exact Ht.
Qed.

(** parce/treebuilder.py:287-302, see [build_loop]: where to go on in the old tree. *)
Definition prep_root (text : str) (l1 : L) (from lowest : nat) : option (bstate L A * list event * list L * nat) :=
  let start := Nat.min lowest from in
  match get_prepared_lexer l_is l_eq a_eq consume (lex_events consume parse n) root text start false with
  | None => None
  | Some (Some (evs, fin, hs)) =>
      match hs, last_opt hs with
      | h :: _, Some h' =>
          match new_tree root h with
          | Some s => Some (s, evs, fin, Nat.min lowest (k_end (snd h')))
          | None => None
          end
      | _, _ => None
      end
  | Some None =>
      match lex_events consume parse n [l1] text 0 with
      | None => None
      | Some (evs, fin) => Some (BState (Ctx l1 []) 0, evs, fin, 0)
      end
  end.

Lemma prep_ok from lowest : Nat.min lowest from = start ->
  exists done rest s w low, prep_root new l from lowest = Some (s, rest, fin', low) /\ evs' = done ++ rest /\ done_ok done w s low.
Proof.
  intros Hmin. unfold prep_root. cbv zeta. rewrite Hmin.
  destruct (prepared_ok L A l_is l_eq a_eq consume parse K His Heq Hact HL HK old new n l evs evs' fin fin' cs Hold Hnew Hcs hevs Hevs Hword Hok start removed added Hcov)
    as [->|(r & -> & Hr)].
  - unfold lex_events at 1. rewrite Hnew. exists [], evs', (BState (Ctx l []) 0), [], 0. split; [reflexivity|]. split; [reflexivity|].
    split; [exact (chain_good l [])|]. exists []. split; [reflexivity|]. split; [left; auto|lia].
  - destruct Hr as (H1 & e & hs & H2 & rest & EH & Ee & -> & Hb0).
    assert (Hok1 : hev_ok L A (e, hs)) by (rewrite Forall_forall in Hok; apply Hok; rewrite EH; apply in_or_app; right; left; reflexivity).
    assert (Hhs : hs <> []). { destruct Hok1 as (Et & Hne & _). cbn [fst snd] in *. intros ->. symmetry in Et. revert Et. apply make_tokens_nonempty, Hne. }
    destruct hs as [|h0 hs0] eqn:Ehs; [congruence|]. destruct (@exists_last _ hs) as (hsa & h1 & Eh1); [congruence|]. rewrite <- Ehs in *.
    assert (El : last_opt hs = Some h1) by (rewrite Eh1; apply last_opt_app).
    assert (Eh0 : hs = [] ++ h0 :: hs0) by exact Ehs.
    pose proof (lex_at_hev L A consume parse K HL HK old n l evs fin cs Hold Hcs hevs Hevs Hword Hok H1 e [] h0 hs0 H2 ltac:(rewrite <- Eh0; exact EH)) as Hx0.
    pose proof (lex_at_hev L A consume parse K HL HK old n l evs fin cs Hold Hcs hevs Hevs Hword Hok H1 e hsa h1 [] H2 ltac:(rewrite <- Eh1; exact EH)) as Hx1.
    assert (In1 : In h1 (handles L A root)).
    { rewrite (handles_hevs L A l cs hevs _ Hword), EH, map_app, concat_app. cbn [map concat snd]. apply in_or_app. right. apply in_or_app. left. rewrite Eh1. apply in_or_app. right. left. reflexivity. }
    destruct (handles_at L A l cs h1 In1) as [Hat1 Hne1].
    assert (Hl : exists ls, lex_at root (fst h1) = l :: ls). { destruct (fst h1) as [|i p]; [congruence|]. cbn [lex_at]. eexists. reflexivity. }
    destruct Hl as (ls & Els). rewrite El. unfold new_tree. rewrite Hx0, <- Hx1, Els. 
    exists (map fst H1 ++ [e]), rest, (BState (chain_tree l ls) (length ls)), (map Enter ls), (Nat.min lowest (k_end (snd h1))).
    split; [reflexivity|]. split; [rewrite <- app_assoc; exact Ee|].
    assert (Hend : k_end (snd h1) <= start) by (apply Hb0; rewrite Eh1; apply in_or_app; right; left; reflexivity).
    split; [rewrite <- Hx1, Els; apply chain_good|]. exists ls. split; [reflexivity|]. split; [|lia]. right. exists (fst h1), (snd h1).
    split; [exact Hne1|]. split; [exact Hat1|]. split; [lia|]. split; [|rewrite Els; reflexivity].
    destruct (word_at L A consume parse K HL HK old n l evs fin cs Hold Hcs hevs Hevs Hword Hok H1 e hsa h1 [] H2 ltac:(rewrite <- Eh1; exact EH)) as [Hpw _].
    unfold upto. rewrite Hpw, map_app, concat_app. cbn [map concat]. unfold event_word at 2. destruct Hok1 as (Et & _ & _). cbn [fst snd] in Et.
    replace (make_tokens (e_lexemes e)) with (map snd (hsa ++ [h1])) by (rewrite <- Eh1; exact Et). rewrite !map_app. cbn [map]. lnorm. reflexivity.
Qed.

(** The result when all events were read. *)
Lemma finish_end done rest s w low s' lft : evs' = done ++ rest -> done_ok done w s low -> good l s' (replay [l] evs') (w ++ concat (map event_word rest)) ->
  exists cs', replace_tree l_eq root (BResult (b_root s') low (length new) 0 (Some (tl fin')) lft) = Some (Ctx l cs')
    /\ build_tree l evs' = Some (Ctx l cs') /\ range_ok cs' low (length new).
Proof.
  intros Eev (Hg & ch & -> & Hst & Hlow) Hg'.
  destruct (build_tree_ok L A l evs' (new_stream L A consume parse new n l evs' fin' Hnew)) as (cs' & Hb & Hbw & _).
  destruct Hg' as (_ & Hw & Hl & Hd & _). destruct (b_root s') as [t|l' ts] eqn:Eb; [discriminate|]. injection Hl as ->.
  unfold b_word in Hw. rewrite Eb in Hw. cbn [children] in Hw. rewrite <- app_assoc in Hw.
  assert (Hen : end_at L A 0 l cs (Some (tl fin')) (length new) (b_depth s') (repeat Exit (b_depth s'))).
  { left. split; [discriminate|]. split; reflexivity. }
  pose proof (replace_words L A l_eq Heq l cs ts low (length new) 0 (Some (tl fin')) (concat (map event_word done)) ch (b_depth s') (repeat Exit (b_depth s'))
    (concat (map event_word rest)) lft wf Hst Hen ltac:(discriminate) Hw) as (cs2 & Hrt & Hw2). rewrite Hrt.
  assert (cs2 = cs').
  { apply (words_inj L A). rewrite Hw2, Hbw, Eev, map_app, concat_app, <- app_assoc, <- Eev. do 3 f_equal. lia. }
  subst cs2. exists cs'. split; [reflexivity|]. split; [exact Hb|].
  eapply (whole_range low done ch cs'); [exact Hst|exact Hlow|exact Hb|].
  rewrite <- (sleaves_words L A cs'), Hw2, sleaves_app. reflexivity.
Qed.

(** The result when the tail is reused. *)
Lemma finish_reuse done rest s w low s' pos lft : evs' = done ++ rest -> done_ok done w s low -> reused tail_good rest done w s' pos ->
  exists cs', replace_tree l_eq root (BResult (b_root s') low pos off None lft) = Some (Ctx l cs')
    /\ build_tree l evs' = Some (Ctx l cs') /\ fin' = fin /\ range_ok cs' low (Z.to_nat (Z.of_nat pos + off)).
Proof.
  intros Eev (Hg & ch & -> & Hst & Hlow) Hre.
  destruct (build_tree_ok L A l evs' (new_stream L A consume parse new n l evs' fin' Hnew)) as (cs' & Hb & Hbw & _).
  destruct Hre as (mid & e & post & h & x & xs & Erest & Hg' & Hth & Epos & Hpl & Ex & Hx & Hlx). subst rest pos. 
  destruct (reuse_ok (done ++ mid) e post h x xs) as (G1 & eo & hb & G2 & EG & Exo & Epost & Efin); [rewrite <- app_assoc; exact Eev|exact Hth|exact Hpl|exact Ex|exact Hx|rewrite <- app_assoc; exact Hlx|].
  destruct Hg' as (_ & Hw & Hl & Hd & _). destruct (b_root s') as [t|l' ts] eqn:Eb; [discriminate|]. injection Hl as ->.
  unfold b_word in Hw. rewrite Eb in Hw. cbn [children] in Hw. rewrite <- app_assoc in Hw.
  destruct Hth as (Hin & Hgt & Hps). destruct (handles_at L A l cs h Hin) as [Hat Hne].
  assert (Hdep : b_depth s' = length (fst h) - 1) by (rewrite <- Hlx, (lex_at_length L A _ _ _ Hat) in Hd; lia).
  rewrite Hdep in Hw.
  assert (Hen : end_at L A off l cs None (k_pos (snd h)) (length (fst h) - 1) (shiftw L A off (Leaf (snd h) :: post_word L A root (fst h)))).
  { right. exists (fst h), (snd h). split; [exact Hne|]. split; [exact Hat|]. repeat split. }
  assert (Hle : @None (list L) = None -> low <= k_pos (snd h)) by (intros _; lia).
  pose proof (replace_words L A l_eq Heq l cs ts low (k_pos (snd h)) off None (concat (map event_word done)) ch (length (fst h) - 1) _
    (concat (map event_word mid) ++ target_word (e_target e)) lft wf Hst Hen Hle Hw) as (cs2 & Hrt & Hw2). rewrite Hrt.
  destruct (word_at L A consume parse K HL HK old n l evs fin cs Hold Hcs hevs Hevs Hword Hok G1 eo [] h hb G2 EG) as [_ Hpw].
  assert (Hoko : hev_ok L A (eo, h :: hb)) by (rewrite Forall_forall in Hok; apply Hok; rewrite EG; apply in_or_app; right; left; reflexivity).
  destruct Hoko as (Eto & _ & _). cbn [fst snd map] in Eto.
  assert (Htl : shiftw L A off (Leaf (snd h) :: post_word L A root (fst h))
     = map Leaf (make_tokens (e_lexemes e)) ++ concat (map event_word post) ++ repeat Exit (k0 L A l evs)).
  { rewrite Hpw. change (Leaf (snd h) :: map Leaf (map snd hb) ++ concat (map event_word (map fst G2)) ++ repeat Exit (k0 L A l evs))
      with (map (@Leaf L A) (snd h :: map snd hb) ++ concat (map event_word (map fst G2)) ++ repeat Exit (k0 L A l evs)).
    replace (snd h :: map snd hb) with (make_tokens (e_lexemes eo)) by (symmetry; exact Eto). rewrite !shiftw_app, shiftw_exits, <- shift_leaves, <- shift_tokens, <- Exo, Epost, shift_event_words. reflexivity. }
  assert (Hk : k0 L A l evs = length (replay [l] evs') - 1).
  { unfold k0. do 2 f_equal. rewrite <- Hevs, EG, Eev. rewrite map_app. cbn [map fst].
    change (eo :: map fst G2) with ([eo] ++ map fst G2). rewrite app_assoc, replay_app.
    rewrite <- (lex_at_hev L A consume parse K HL HK old n l evs fin cs Hold Hcs hevs Hevs Hword Hok G1 eo [] h hb G2 EG), Hlx.
    rewrite <- (shift_replay (map fst G2)), <- Epost, <- replay_app. rewrite <- !app_assoc. reflexivity. }
  assert (cs2 = cs').
  { apply (words_inj L A). rewrite Hw2, Htl, Hbw, <- Hk, Eev. rewrite !map_app, !concat_app. cbn [map concat]. change (event_word e) with (target_word (e_target e) ++ map (@Leaf L A) (make_tokens (e_lexemes e))). lnorm. reflexivity. }
  subst cs2. exists cs'. split; [reflexivity|]. split; [exact Hb|]. split; [exact Efin|].
  (* the range *)
  set (hi := Z.to_nat (Z.of_nat (k_pos (snd h)) + off)).
  assert (Hhi : hi = x_pos x) by (unfold hi; lia).
  destruct (start_leaves low done ch Hst) as (b0 & Eb0 & Fa & Hlast).
  pose proof (f_equal (sleaves L A) Hw2) as Hfl. rewrite sleaves_words, !sleaves_app, sleaves_shift in Hfl.
  set (B := sleaves L A (Leaf (snd h) :: post_word L A root (fst h))) in *.
  pose proof (pre_post L A root (fst h) _ Hne Hat) as Hpp. cbn [children word] in Hpp. apply (f_equal (sleaves L A)) in Hpp. rewrite sleaves_words, sleaves_app in Hpp.
  change ([Leaf (snd h)] ++ post_word L A root (fst h)) with (Leaf (snd h) :: post_word L A root (fst h)) in Hpp. fold B in Hpp.
  assert (HB : B = snd h :: sleaves L A (post_word L A root (fst h))) by reflexivity.
  pose proof ord as Ho. pose proof (new_order cs' Hb) as Hon.
  destruct Hcov as (C1 & C2 & C3 & C4).
  split; [exact Hlow|]. split; [lia|]. split.
  { assert (Hi : In (shift_tok off (snd h)) (flat cs')).
    { rewrite Hfl, HB. apply in_or_app. right. apply in_or_app. right. left. reflexivity. }
    pose proof (new_inside cs' Hb _ Hi) as Hlh. unfold k_end in Hlh. cbn [shift_tok k_pos] in Hlh. unfold hi. lia. }
  (* the common part of the two *)
  assert (Hm : exists m, flat cs = sleaves L A (concat (map event_word done)) ++ m ++ B).
  { rewrite Eb0 in Hpp. destruct Hlast as [->|(a & t0 & Ea & Hlt)].
    - destruct Hst as [(_ & E & _)|(p & t & Hp & Hat0 & E0 & _)].
      + exists (sleaves L A (pre_word L A root (fst h))). rewrite E. cbn [sleaves map concat app]. rewrite Eb0, E in *. exact Hpp.
      + exfalso. assert (k_pos t < k_end t) by (destruct (flat_at L A _ _ _ _ Hat0) as (a1 & b1 & E1); rewrite E1 in Ho; apply (in_order_text _ _ _ Ho); apply in_or_app; right; left; reflexivity). lia.
    - rewrite HB in Hpp. destruct (app_cons_cases _ _ _ _ _ Hpp) as [(r & E1 & E2)|(r & E1 & E2)].
      + exfalso. assert (Hi : In (snd h) (sleaves L A (concat (map event_word done)))) by (rewrite E1; apply in_or_app; right; left; reflexivity).
        rewrite Forall_forall in Fa. specialize (Fa _ Hi). assert (k_pos (snd h) < k_end (snd h)) by (apply (handle_text L A l cs Ho h Hin)). lia.
      + exists r. rewrite Eb0, HB. f_equal. exact E2. }
  destruct Hm as (m & Em). exists (sleaves L A (concat (map event_word done))), m, B, (sleaves L A (concat (map event_word mid) ++ target_word (e_target e))).
  split; [exact Em|]. split; [rewrite sleaves_app; rewrite Hfl, !app_assoc; reflexivity|]. split; [exact Fa|].
  rewrite sleaves_app. rewrite HB in Hfl. cbn [map] in Hfl. split.
  + apply Forall_forall. intros t Ht. split.
    * destruct Hlast as [->|(a & t0 & Ea & <-)]; [lia|]. rewrite Hfl, Ea in Hon. rewrite <- !app_assoc in Hon. cbn [app] in Hon.
      apply (in_order_after A _ _ _ _ Hon). rewrite app_assoc. apply in_or_app. left. exact Ht.
    * rewrite Hfl in Hon. rewrite !app_assoc in Hon.
      assert (Hbf : k_end t <= k_pos (shift_tok off (snd h))).
      { apply (in_order_before A _ _ _ _ Hon). rewrite <- app_assoc. apply in_or_app. right. exact Ht. }
      exact Hbf.
  + rewrite HB. constructor; [unfold hi, move_tok, move_pos; cbn [k_pos]; lia|]. apply Forall_forall. intros t Ht. rewrite Hpp, HB in Ho.
    pose proof (in_order_after A _ _ _ _ Ho Ht) as Haf. unfold move_tok, move_pos. cbn [k_pos]. unfold hi. unfold k_end in Haf. lia.
Qed.

Lemma build_first tail sched fuel from : build_loop l_is l_eq a_eq consume (lex_events consume parse n) (S fuel) root new l from from None tail off sched =
  match prep_root new l from from with
  | None => None
  | Some (s, evs, fin, low) =>
      go_on (build_loop l_is l_eq a_eq consume (lex_events consume parse n) fuel root) new l low fin off (run_events l_is a_eq consume root s evs tail off sched)
  end.
Proof. reflexivity. Qed.

Theorem rebuild_ok tb : tb_root tb = root -> tb_lexicons tb = tl fin ->
  exists tb' cs', process1 l_is l_eq a_eq consume (lex_events consume parse n) tb new None start removed added [] = Some tb'
    /\ tb_root tb' = Ctx l cs' /\ build_tree l evs' = Some (Ctx l cs') /\ tb_lexicons tb' = tl fin' /\ range_ok cs' (tb_start tb') (tb_end tb').
Proof.
  intros Hroot Hlex. unfold process1. rewrite Hroot. unfold build_new_tree. cbn [root_lex].
  destruct tail_found as (tail & Etail & Htail). rewrite Etail, <- Hoff. cbn [length].
  rewrite build_first. destruct (prep_ok start start (Nat.min_id start)) as (done & rest & s & w & low & -> & Eev & Hdone).
  destruct (run_ok tail_good rest done s w tail Eev (proj1 Hdone) Htail) as [(s' & -> & Hg')|(s' & pos & -> & Hre)]; cbn [go_on].
  - destruct (finish_end done rest s w low s' [] Eev Hdone Hg') as (cs' & -> & Hb & Hran). eexists. exists cs'. split; [reflexivity|].
    cbn [tb_root tb_lexicons tb_start tb_end r_start r_end r_offset r_lexicons]. rewrite Z.add_0_r, Nat2Z.id. auto.
  - destruct (finish_reuse done rest s w low s' pos [] Eev Hdone Hre) as (cs' & -> & Hb & Hfin & Hran). eexists. exists cs'. split; [reflexivity|].
    cbn [tb_root tb_lexicons tb_start tb_end r_start r_end r_offset r_lexicons]. split; [reflexivity|]. split; [exact Hb|]. split; [rewrite Hlex, Hfin; reflexivity|exact Hran].
Qed.
End Rebuild.
