(** Putting together the lexer and the parse functions of lexicons. *)
From Verif Require Import Base BaseFacts TargetModel TargetSpec LexerModel LexerSpec LexerProofs
  LexiconModel LexiconSpec LexiconProofs ActionProofs CircularProofs LexerExamples.

Section Thms.
Variables L B : Type.
Variable sublex : L -> str -> list (lexeme B).

Lemma std_tiles c text : match_ok (c_match c) text ->
  (forall adv p m, p <= length text -> c_match c adv text p = Some m -> exists b t, nth_error (c_rules c) (m_rule m) = Some (SRule (AStd b) t)) ->
  (forall b t, In (SRule b t) (c_rules c) -> exists x, b = AStd x) ->
  (forall t a, da_action (c_da c) t = Some a -> exists b, a = AStd b) ->
  actions_sat sublex tiles c text /\ rules_ok c text.
Proof.
  intros Hm H1 H2 H3.
  assert (Hgo : forall i j b m, i < j -> j <= length text ->
    tiles text i j (act_lexemes sublex text (AStd b) i (slice text i j) m)).
  { intros i j b m Hi Hj. pose proof (slice_length text i j) as Hl. cbn [act_lexemes].
    destruct (slice text i j) as [|x xs] eqn:E; [simpl in Hl; lia|].
    cbn [tiles]. unfold x_end; cbn [x_pos x_text].
    replace (i + length (x :: xs)) with j by lia.
    repeat split; [discriminate|symmetry; exact E|exact Hj]. }
  split; [split; [|split]|].
  - intros adv p m a Hp E Ha Hlt. destruct (Hm _ _ _ Hp E) as (M1 & M2 & M3 & _).
    unfold rule_action in Ha. destruct (H1 _ _ _ Hp E) as (b & t & Er). rewrite Er in Ha.
    injection Ha as <-. apply Hgo; lia.
  - intros i j a Hi Hj Ha. destruct (H3 _ _ Ha) as (b & ->). apply Hgo; assumption.
  - intros needle a t i Hr Hn Hne Hi E. destruct (H2 a t) as (b & ->); [rewrite Hr; left; reflexivity|].
    rewrite E at 2. apply Hgo; [|exact Hi]. destruct needle; [congruence|simpl; lia].
  - intros adv p m Hp E. destruct (H1 _ _ _ Hp E) as (b & t & Er).
    apply nth_error_Some. rewrite Er. discriminate.
Qed.

Lemma gaps_targets self (c : compiled L B) text : no_empty_match (c_match c) text ->
  forall ms pos, mchain (c_match c) text pos ms ->
  forall it, In it (gaps sublex self (c_rules c) (c_da c) text pos ms) -> i_target it <> None -> i_txt it <> [].
Proof.
  intros Hne. assert (Hda : forall p t, i_target (da_item sublex text (c_da c) p t) = None).
  { intros p t. unfold da_item. destruct (c_da c); reflexivity. }
  induction ms as [|m ms IH]; intros pos Hc it Hin Ht.
  - simpl in Hin. destruct (pos <? length text); [|destruct Hin].
    destruct Hin as [<-|[]]. exfalso; apply Ht, Hda.
  - cbn [gaps] in Hin. simpl in Hc. destruct Hc as (H1 & H2 & H3 & (adv & H4) & H5).
    apply in_app_or in Hin. destruct Hin as [Hin|[<-|Hin]].
    + destruct (pos <? m_start m); [|destruct Hin]. destruct Hin as [<-|[]]. exfalso; apply Ht, Hda.
    + assert (Hlt : m_start m < m_end m) by (eapply Hne; [|exact H4]; lia).
      assert (E : i_txt (token sublex self (c_rules c) text m) = slice text (m_start m) (m_end m)).
      { unfold token. destruct (nth_error _ _) as [[a t|ev]|]; [reflexivity| |reflexivity].
        destruct (ev m _); reflexivity. }
      rewrite E. intros C. apply (f_equal (@length nat)) in C. rewrite slice_length in C. simpl in C. lia.
    + eapply IH; eassumption.
Qed.

Lemma fast_targets (c : compiled L B) needle text a t : needle <> [] -> forall fuel pos it,
  In it (fast_find sublex text needle (c_da c) a t fuel pos) -> i_target it <> None -> i_txt it <> [].
Proof.
  intros Hn. assert (Hda : forall p s, i_target (da_item sublex text (c_da c) p s) = None).
  { intros p s. unfold da_item. destruct (c_da c); reflexivity. }
  induction fuel as [|fuel IH]; intros pos it Hin Ht; [destruct Hin|].
  cbn [fast_find] in Hin. destruct (str_find needle text pos) as [i|].
  - apply in_app_or in Hin. destruct Hin as [Hin|[<-|Hin]].
    + assert (E : In it (if pos <? i then [da_item sublex text (c_da c) pos (slice text pos i)] else [])).
      { destruct (c_da c); [destruct Hin|exact Hin|exact Hin]. }
      destruct (pos <? i); [|destruct E]. destruct E as [<-|[]]. exfalso; apply Ht, Hda.
    + exact Hn.
    + eapply IH; eassumption.
  - assert (E : In it (if pos <? length text then [da_item sublex text (c_da c) pos (from text pos)] else [])).
    { destruct (c_da c); [destruct Hin|exact Hin|exact Hin]. }
    destruct (pos <? length text); [|destruct E]. destruct E as [<-|[]]. exfalso; apply Ht, Hda.
Qed.

Lemma lexicon_targets_advance self (c : compiled L B) text pos k it :
  match_ok (c_match c) text -> no_empty_match (c_match c) text -> c_da c <> NoDA -> pos <= length text ->
  lexicon_parse sublex self c text pos k = Some it -> i_target it <> None -> i_txt it <> [].
Proof.
  intros Hm Hne Hda Hp. unfold lexicon_parse.
  assert (Hregex : parse_regex sublex self c text pos k = Some it -> i_target it <> None -> i_txt it <> []).
  { unfold parse_regex. intros E Ht. pose proof (finditer_mchain _ _ pos Hm) as Hf.
    assert (E' : nth_error (gaps sublex self (c_rules c) (c_da c) text pos (finditer (c_match c) text pos)) k = Some it).
    { destruct (c_da c); [congruence|exact E|exact E]. }
    eapply gaps_targets; [exact Hne|exact Hf|eapply nth_error_In; exact E'|exact Ht]. }
  destruct (c_rules c) as [|r [|r' rs]].
  - unfold parse_empty. intros E Ht. apply nth_error_In in E. exfalso. apply Ht.
    destruct (pos <? length text); [|destruct E].
    destruct (c_da c); [congruence| |]; destruct E as [<-|[]]; reflexivity.
  - destruct r as [a t|ev]; [|exact Hregex].
    destruct (c_needle c) as [[|n needle]|]; [exact Hregex| |exact Hregex].
    unfold parse_fast. intros E Ht.
    assert (E' : nth_error (fast_find sublex text (n :: needle) (c_da c) a (t_make self t) (S (length text - pos)) pos) k = Some it).
    { destruct (c_da c); [congruence|exact E|exact E]. }
    eapply fast_targets; [|eapply nth_error_In; exact E'|exact Ht]. discriminate.
  - destruct r; exact Hregex.
Qed.

Variable consume : L -> bool.
Variable defs : L -> compiled L B.
Definition parse_of (l : L) := lexicon_parse sublex l (defs l).

Lemma defs_pieces text : (forall l, match_ok (c_match (defs l)) text /\ wf_lexicon sublex (defs l) text) ->
  parse_pieces L B parse_of text.
Proof.
  intros H l pos Hp. destruct (H l) as (H1 & H2).
  destruct (wf_actions_sat _ _ _ _ _ H1 H2) as (H3 & H4).
  apply lexicon_pieces; assumption.
Qed.

Lemma defs_lossless text lexs pos :
  (forall l, match_ok (c_match (defs l)) text /\ rules_ok (defs l) text
     /\ actions_sat sublex tiles (defs l) text
     /\ no_empty_match (c_match (defs l)) text /\ c_da (defs l) <> NoDA) ->
  lexs <> [] -> pos <= length text ->
  exists evs, l_events consume parse_of text lexs pos evs
    /\ texts (all_lexemes (map fst evs)) = skipn pos text.
Proof.
  intros H Hl Hp.
  destruct (lossless L B consume parse_of text lexs pos Hl Hp) as (evs & E1 & _ & E2).
  - intros l p Hlp. destruct (H l) as (H1 & H2 & H3 & H4 & H5). apply lexicon_tiles; assumption.
  - intros l p Hlp. destruct (H l) as (H1 & H2 & H3 & H4 & H5). apply lexicon_finite; auto.
  - intros l p k it Hlp E Ht. destruct (H l) as (H1 & H2 & H3 & H4 & H5).
    eapply lexicon_targets_advance; eassumption.
  - exists evs. auto.
Qed.
End Thms.

(** ** Divergence by going round *)

Section Loop.
Variables L A : Type.
Variable consume : L -> bool.
Variable parse : L -> str -> nat -> gen (item L A).
Variable text : str.
Local Notation run := (l_run consume parse text).

Lemma run_Some_app n m s evs s' : run n s = (evs, Some s') ->
  run (n + m) s = (evs ++ fst (run m s'), snd (run m s')).
Proof.
  intros H. destruct (run m s') as [e r] eqn:E. simpl. exact (run_app L A consume parse text n m s evs s' e r H E).
Qed.

Lemma loop_run p s : run p s = ([], Some s) -> forall k, run (k * p) s = ([], Some s).
Proof.
  intros H. induction k as [|k IH]; [reflexivity|].
  cbn [Nat.mul]. rewrite (run_Some_app _ _ _ _ _ H), IH. reflexivity.
Qed.

Lemma loop_mod p s : p <> 0 -> run p s = ([], Some s) -> forall n, run n s = run (n mod p) s.
Proof.
  intros Hp H n. rewrite (Nat.div_mod n p Hp) at 1. rewrite Nat.mul_comm.
  rewrite (run_Some_app _ _ _ _ _ (loop_run p s H (n / p))). simpl.
  destruct (run (n mod p) s); reflexivity.
Qed.

(** All of the first [p] states satisfy a test. *)
Definition all_states (P : lstate L -> bool) (p : nat) (s : lstate L) : bool :=
  forallb (fun n => match run n s with ([], Some s') => P s' | _ => false end) (seq 0 p).

Lemma loop_forever P p s : p <> 0 -> run p s = ([], Some s) -> all_states P p s = true ->
  forall n, exists s', run n s = ([], Some s') /\ P s' = true.
Proof.
  intros Hp H HA n. rewrite (loop_mod p s Hp H).
  unfold all_states in HA. rewrite forallb_forall in HA.
  specialize (HA (n mod p)). rewrite in_seq in HA.
  pose proof (Nat.mod_upper_bound n p Hp).
  specialize (HA ltac:(lia)). destruct (run (n mod p) s) as [[|e evs] [s'|]]; try discriminate.
  exists s'. auto.
Qed.

Lemma prefix_forever P q p s s1 : p <> 0 -> run q s = ([], Some s1) -> run p s1 = ([], Some s1) ->
  all_states P q s = true -> all_states P p s1 = true ->
  forall n, exists s', run n s = ([], Some s') /\ P s' = true.
Proof.
  intros Hp Hq H1 HAq HAp n. destruct (Nat.lt_ge_cases n q) as [Hlt|Hge].
  - unfold all_states in HAq. rewrite forallb_forall in HAq.
    specialize (HAq n). rewrite in_seq in HAq. specialize (HAq ltac:(lia)).
    destruct (run n s) as [[|e evs] [s'|]]; try discriminate. exists s'. auto.
  - replace n with (q + (n - q)) by lia. rewrite (run_Some_app _ _ _ _ _ Hq).
    destruct (loop_forever P p s1 Hp H1 HAp (n - q)) as (s' & E & HP).
    rewrite E. exists s'. auto.
Qed.
(** A test on all states of a finite run. *)
Lemma reach_check P N s :
  (match run N s with (_, None) => true | _ => false end) &&
  forallb (fun n => match run n s with (_, Some s') => P s' | _ => true end) (seq 0 N) = true ->
  forall n evs s', run n s = (evs, Some s') -> P s' = true.
Proof.
  intros H n evs s' E. apply andb_prop in H as [H1 H2].
  destruct (run N s) as [e [s1|]] eqn:EN; [discriminate|].
  destruct (Nat.lt_ge_cases n N) as [Hlt|Hge].
  - rewrite forallb_forall in H2. specialize (H2 n). rewrite in_seq, E in H2. apply H2. lia.
  - exfalso. pose proof (run_None_more L A consume parse text N (n - N) s e EN) as H.
    replace (N + (n - N)) with n in H by lia. congruence.
Qed.
End Loop.

Lemma lang2_hangs : forall n, exists s',
  l_run no_consume parse2 [120] n (l_init [0] 0) = ([], Some s') /\ (length (s_lex s') <=? 1) && (s_pos s' =? 0) = true.
Proof.
  apply (loop_forever nat nat no_consume parse2 [120] (fun s => (length (s_lex s) <=? 1) && (s_pos s =? 0)) 2);
    [discriminate|vm_compute; reflexivity|vm_compute; reflexivity].
Qed.

Lemma lang3_hangs : forall n, exists s',
  l_run no_consume parse3 [120] n (l_init [0] 0) = ([], Some s') /\ (length (s_lex s') <=? 4) && (s_pos s' =? 0) &&
  match last_opt (s_lex s') with
  | Some l => match c_dt (lang3 l) with Some t => t_pop t <? length (s_lex s') | None => true end
  | None => true end = true.
Proof.
  destruct (l_run no_consume parse3 [120] 4 (l_init [0] 0)) as [e [s1|]] eqn:E; [|vm_compute in E; discriminate].
  vm_compute in E. injection E as <- <-.
  eapply (prefix_forever nat nat no_consume parse3 [120] (fun s => (length (s_lex s) <=? 4) && (s_pos s =? 0) &&
  match last_opt (s_lex s) with
  | Some l => match c_dt (lang3 l) with Some t => t_pop t <? length (s_lex s) | None => true end
  | None => true end) 4 5);
    [discriminate|vm_compute; reflexivity|vm_compute; reflexivity|vm_compute; reflexivity|vm_compute; reflexivity].
Qed.

(** ** Termination with the circle detection *)
Lemma circular_ends (L A : Type) (consume : L -> bool) (parse : L -> str -> nat -> gen (item L A))
    (text : str) (lexs : list L) (pos D : nat) (always_push : bool) :
  parse_pieces L A parse text -> parse_finite L A parse text -> pos <= length text ->
  (forall n evs s, l_run consume parse text n (l_init lexs pos) = (evs, Some s) -> length (s_lex s) <= D) ->
  (forall n evs s l it t, l_run consume parse text n (l_init lexs pos) = (evs, Some s) ->
     last_opt (s_lex s) = Some l -> parse l text (s_pos s) (s_idx s) = Some it ->
     i_txt it = [] -> i_target it = Some t ->
     i_pos it < length text /\ (t_push t <> [] \/ (0 < t_pop t /\ t_pop t < length (s_lex s)))
     /\ (if always_push then t_push t <> [] else length (t_push t) <= 1)) ->
  exists evs, l_events consume parse text lexs pos evs.
Proof.
  intros HP HF Hp HB HI.
  set (R := fun s => exists n evs, l_run consume parse text n (l_init lexs pos) = (evs, Some s)).
  assert (R0 : R (l_init lexs pos)) by (exists 0, []; reflexivity).
  destruct (circular_terminates L A consume parse text HP HF R) with (D := D) (always_push := always_push)
    (M := S (measure L text D (S D) (l_init lexs pos))) (s := l_init lexs pos) (c := S D) as (n & evs & Hn).
  - intros s evs s' (n & e & E) Es. exists (n + 1), (e ++ evs).
    rewrite (run_Some_app _ _ _ _ _ _ _ _ _ _ E). simpl. rewrite Es. simpl. rewrite app_nil_r. reflexivity.
  - intros s (n & e & E). eapply HB, E.
  - intros s it t (n & e & E) (l & El & Ei) Et Etg. destruct (HI _ _ _ _ _ _ E El Ei Et Etg) as (H1 & H2 & H3). auto.
  - intros s it t (n & e & E) (l & El & Ei) Et Etg. destruct (HI _ _ _ _ _ _ E El Ei Et Etg) as (H1 & H2 & H3). auto.
  - exact R0.
  - apply circ_inv_clear; simpl; auto. pose proof (HB 0 [] _ eq_refl) as H. simpl in H. lia.
  - lia.
  - exists evs, n. exact Hn.
Qed.
