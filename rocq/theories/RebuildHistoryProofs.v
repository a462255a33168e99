(** Histories of updates of a tree. *)
From Verif Require Import Base BaseFacts TargetModel TargetSpec LexerModel LexerSpec LexerProofs TreeModel TreeSpec TreeProofs TreeWalkProofs
  TreeRangeProofs BuildModel BuildProofs TreeDeleteProofs ChangesModel ChangesSpec RebuildModel RebuildSpec RestartProofs
  RebuildTreeProofs RebuildEventsProofs RebuildPrepareProofs RebuildStartProofs ReplaceTreeProofs RebuildProofs.
From Coq Require Import ZArith ZifyBool.

Section History.
Variables L A : Type.
Notation node := (node L A).
Notation event := (event L A).
Variables l_is l_eq : L -> L -> bool.
Variable a_eq : A -> A -> bool.
Variable consume : L -> bool.
Variable parse : L -> str -> nat -> gen (item L A).
Variable K : nat.
Hypothesis His : forall a b, l_is a b = true <-> a = b.
Hypothesis Heq : forall a, l_eq a a = true.
Hypothesis Hact : forall a b, a_eq a b = true <-> a = b.
Hypothesis HL : local_parse K parse.
Hypothesis HK : K <= 9.
Variable n : nat.
Notation process := (fun tb text rl s r a => process1 l_is l_eq a_eq consume (lex_events consume parse n) tb text rl s r a []).
Notation updated := (up_to_date consume parse n).

Lemma scratch_root l text evs fin (r : node) : lex_events consume parse n [l] text 0 = Some (evs, fin) -> build_tree l evs = Some r -> exists cs, r = Ctx l cs.
Proof.
  intros H Hb. destruct (build_tree_ok L A l evs (new_stream L A consume parse text n l evs fin H)) as (cs & Hb' & _). exists cs. congruence.
Qed.

Lemma edit_updates tb l old new s r a : updated tb l old -> covers_change old new s r a -> lex_events consume parse n [l] new 0 <> None ->
  exists tb', process tb new None s r a = Some tb' /\ updated tb' l new
    /\ updated_range new (Z.of_nat a - Z.of_nat r) s a (children (tb_root tb)) (children (tb_root tb')) (tb_start tb') (tb_end tb').
Proof.
  intros (evs & fin & Ho & Hb & Hl) Hc Hn. destruct (lex_events consume parse n [l] new 0) as [[evs' fin']|] eqn:En; [|congruence].
  destruct (scratch_root l old evs fin _ Ho Hb) as (cs & Hr). rewrite Hr in Hb.
  destruct (old_hevs L A consume parse old n l evs fin cs Ho Hb) as (hevs & H1 & H2 & H3).
  destruct (rebuild_ok L A l_is l_eq a_eq consume parse K His Heq Hact HL HK old new n l evs evs' fin fin' cs Ho En Hb _ hevs H1 H2 H3 s r a Hc eq_refl tb Hr Hl)
    as (tb' & cs' & E1 & E2 & E3 & E4 & E5).
  exists tb'. split; [exact E1|]. split; [|rewrite Hr, E2; exact E5]. exists evs', fin'. rewrite E2. auto.
Qed.

Lemma run_nil root root' evs : forall s off off', run_events l_is a_eq consume root s evs [] off [] = run_events l_is a_eq consume root' s evs [] off' [].
Proof.
  induction evs as [|e evs IH]; intros s off off'; [reflexivity|]. cbn [run_events]. destruct (b_target s (e_target e)) as [s1|]; [|reflexivity].
  destruct (make_tokens (e_lexemes e)) as [|t ts]; [reflexivity|]. cbn [drop_before]. apply IH.
Qed.

Lemma root_updates tb l old l' new : updated tb l old -> (l_eq l' l = true -> l' = l) -> lex_events consume parse n [l'] new 0 <> None ->
  exists tb', process tb new (Some l') 0 0 0 = Some tb' /\ updated tb' l' new /\ tb_start tb' = 0 /\ tb_end tb' = length new.
Proof.
  intros (evs & fin & Ho & Hb & Hl) Hll Hn. destruct (lex_events consume parse n [l'] new 0) as [[evs' fin']|] eqn:En; [|congruence].
  destruct (scratch_root l old evs fin _ Ho Hb) as (cs & Hr). rewrite Hr in Hb.
  destruct (old_hevs L A consume parse old n l evs fin cs Ho Hb) as (hevs & H1 & H2 & H3).
  pose proof (old_wf L A consume parse K HL HK old n l evs fin cs Ho Hb hevs H1 H2 H3) as Hwf.
  destruct (build_tree_ok L A l' evs' (new_stream L A consume parse new n l' evs' fin' En)) as (cs' & Hb' & Hw' & _).
  unfold process1. rewrite Hr. unfold build_new_tree. cbn [root_lex Nat.add]. rewrite Nat.ltb_irrefl. cbn [length build_loop Nat.min].
  assert (Hp : get_prepared_lexer l_is l_eq a_eq consume (lex_events consume parse n) (Ctx l cs) new 0 false = Some None).
  { unfold get_prepared_lexer. pose proof (ufind_before_ok L A l cs 0 Hwf) as Hu.
    match type of Hu with match ?x with _ => _ end => destruct x end.
    - destruct Hu as (p & _ & -> & _). destruct (group_ended (p, t)); [|destruct (skip_group _) as [[? ?]|]; [|reflexivity]]; reflexivity.
    - rewrite Hu. reflexivity. }
  rewrite Hp, En.
  rewrite (run_nil (Ctx l cs) (Ctx l' cs') evs' _ _ 0%Z).
  destruct (run_ok L A l_is a_eq consume parse K His HK new n l' evs' fin' cs' En 0%Z (fun _ => False) evs' [] (BState (Ctx l' []) 0) [] [] eq_refl (chain_good L A l' []) ltac:(constructor))
    as [(s' & Es & Hg)|(s' & pos & _ & Hre)].
  2:{ destruct Hre as (mid & e & post & h & x & xs & _ & _ & [] & _). }
  rewrite Es. cbn [go_on]. destruct Hg as (_ & Hw & Hlx & Hd & _). destruct (b_root s') as [t|l2 ts] eqn:Ebr; [discriminate|]. injection Hlx as ->.
  unfold b_word in Hw. rewrite Ebr in Hw. cbn [children app] in Hw.
  assert (Ets : ts = cs') by (apply (words_inj L A); rewrite Hw, Hw'; do 2 f_equal; lia). subst ts.
  cbn [r_tree].
  assert (Hrep : replace_tree l_eq (Ctx l cs) (BResult (Ctx l' cs') 0 (length new) 0 (Some (tl fin')) []) = Some (Ctx l' cs')).
  { destruct (l_eq l' l) eqn:El.
    - specialize (Hll eq_refl). subst l'.
      assert (Hst : start_at L A l cs 0 [] []) by (left; auto).
      assert (Hen : end_at L A 0 l cs (Some (tl fin')) (length new) (b_depth s') (repeat Exit (b_depth s'))) by (left; split; [discriminate|auto]).
      assert (Hno : Some (tl fin') = None -> 0 <= length new) by discriminate.
      pose proof (replace_words L A l_eq Heq l cs cs' 0 (length new) 0 (Some (tl fin')) [] [] (b_depth s') (repeat Exit (b_depth s')) (concat (map event_word evs')) [] Hwf Hst Hen Hno Hw)
        as (cs2 & E2 & Hw2).
      rewrite E2. do 2 f_equal. apply (words_inj L A). rewrite Hw2, Hw. reflexivity.
    - unfold replace_tree. cbn [r_tree]. rewrite El. reflexivity. }
  rewrite Hrep. eexists. split; [reflexivity|]. cbn [tb_root tb_lexicons tb_start tb_end r_start r_end r_offset r_lexicons]. split; [|split; [reflexivity|lia]].
  exists evs', fin'. auto.
Qed.

Theorem history_updates : forall cs tb l text, updated tb l text -> calls_ok consume parse l_eq n l text cs ->
  exists tb', run_calls process tb cs = Some tb' /\ updated tb' (fst (after_calls l text cs)) (snd (after_calls l text cs)).
Proof.
  induction cs as [|[new s r a|new l'] cs IH]; intros tb l text Hu Hc.
  - exists tb. auto.
  - cbn [calls_ok] in Hc. destruct Hc as (H1 & H2 & H3). destruct (edit_updates tb l text new s r a Hu H1 H2) as (tb1 & E & Hu1 & _).
    cbn [run_calls after_calls]. cbv beta in E. rewrite E. apply IH; assumption.
  - cbn [calls_ok] in Hc. destruct Hc as (H1 & H2 & H3). destruct (root_updates tb l text l' new Hu H1 H2) as (tb1 & E & Hu1 & _).
    cbn [run_calls after_calls]. cbv beta in E. rewrite E. apply IH; assumption.
Qed.

(** [TreeBuilder(l)] is up to date for the empty text, if nothing is found there. *)
Lemma initial_updated l : 1 <= n -> parse l [] 0 0 = None -> updated (Builder (Ctx l []) 0 0 []) l [].
Proof.
  intros Hn Hp. exists [], [l]. cbn [tb_root tb_lexicons tl]. split; [|split; reflexivity].
  unfold lex_events. destruct n as [|n0]; [lia|]. cbn [l_all]. unfold l_step. cbn [l_init s_lex last_opt rev app s_pos s_idx]. rewrite Hp. reflexivity.
Qed.
End History.
