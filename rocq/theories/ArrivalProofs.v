(** The tree is right when changes come in while it is built, if the new tree is started again. *)
From Verif Require Import Base BaseFacts TargetModel TargetSpec LexerModel LexerSpec LexerProofs TreeModel TreeSpec TreeProofs TreeWalkProofs
  TreeRangeProofs BuildModel BuildProofs TreeDeleteProofs ChangesModel ChangesSpec ChangesProofs RebuildModel RebuildSpec RestartProofs
  RebuildTreeProofs RebuildEventsProofs RebuildPrepareProofs RebuildStartProofs ReplaceTreeProofs RebuildProofs RebuildHistoryProofs ArrivalSpec.
From Coq Require Import ZArith ZifyBool.

(** ** Regions of change *)
Lemma skipn_le {T} (x : list T) a b : b <= a -> skipn a x = skipn (a - b) (skipn b x).
Proof. intros H. rewrite skipn_skipn. f_equal. lia. Qed.
Lemma covers_compose old cur new lo r a s r2 a2 : covers_change old cur lo r a -> covers_change cur new s r2 a2 ->
  let e := Nat.max (lo + a) (s + r2) in let lo2 := Nat.min lo s in
  covers_change old new lo2 (e + r - a - lo2) (e + a2 - r2 - lo2).
Proof.
  intros (A1 & A2 & A3 & A4) (B1 & B2 & B3 & B4) e lo2.
  assert (LA : length old - (lo + r) = length cur - (lo + a)) by (apply (f_equal (@length nat)) in A4; rewrite !skipn_length in A4; exact A4).
  assert (LB : length cur - (s + r2) = length new - (s + a2)) by (apply (f_equal (@length nat)) in B4; rewrite !skipn_length in B4; exact B4).
  split; [lia|]. split; [lia|]. split.
  - apply (f_equal (firstn lo2)) in A3. apply (f_equal (firstn lo2)) in B3. rewrite !firstn_firstn in A3, B3.
    replace (Nat.min lo2 lo) with lo2 in A3 by lia. replace (Nat.min lo2 s) with lo2 in B3 by lia. congruence.
  - replace (lo2 + (e + r - a - lo2)) with (e + r - a) by lia. replace (lo2 + (e + a2 - r2 - lo2)) with (e + a2 - r2) by lia.
    rewrite (skipn_le old (e + r - a) (lo + r)), A4, skipn_skipn by lia.
    rewrite (skipn_le new (e + a2 - r2) (s + a2)), <- B4, skipn_skipn by lia. f_equal. lia.
Qed.
Lemma covers_all_of (L : Type) old d ds : edits_fit old (d :: ds) -> Forall (fun e => d_start d <= d_start e) ds ->
  exists r a, let c := get_changes (@entries_of L old (d :: ds)) in
    c_root c = None /\ c_start c = Z.of_nat (d_start d) /\ c_removed c = Z.of_nat r /\ c_added c = Z.of_nat a
    /\ c_text c = apply_edits old (d :: ds) /\ covers_change old (apply_edits old (d :: ds)) (d_start d) r a.
Proof.
  intros [Hf Hf'] Hs.
  set (c0 := c_add (@c_init L) (apply_edit old d) None (Z.of_nat (d_start d)) (Some (Z.of_nat (d_removed d))) (Some (Z.of_nat (length (d_ins d))))).
  assert (H0 : c_covers L old (apply_edit old d) c0).
  { exists (d_start d), (d_removed d), (length (d_ins d)). repeat (split; [reflexivity|]). apply covers_one. exact Hf. }
  pose proof (covers_all L ds old (apply_edit old d) c0 H0 Hf') as H.
  assert (Hs' : Forall (fun e => (c_start c0 <= Z.of_nat (d_start e))%Z) ds).
  { eapply Forall_impl; [|exact Hs]. intros e He. cbn in He. subst c0. cbn. lia. }
  specialize (H Hs'). destruct H as (s & r & a & E1 & E2 & E3 & H).
  assert (Est : forall es text c, edits_fit text es -> Forall (fun e => (c_start c <= Z.of_nat (d_start e))%Z) es -> (0 <= c_start c)%Z ->
    c_text c = text -> c_root c = None ->
    let c' := fold_left (fun c n => c_add c (n_text n) (n_root n) (n_start n) (Some (n_removed n)) (Some (n_added n))) (@entries_of L text es) c in
    c_start c' = c_start c /\ c_text c' = apply_edits text es /\ c_root c' = None).
  { induction es as [|e es IH]; intros text c Hfit Hle H0' Htext Hroot; [split; [reflexivity|split; assumption]|].
    inversion Hle as [|? ? He Hle']; subst. destruct Hfit as [_ Hfit]. cbn [entries_of fold_left entry_of n_text n_root n_start n_removed n_added apply_edits].
    set (c1 := c_add c _ _ _ _ _).
    assert (Ec : c_start c1 = c_start c /\ c_text c1 = apply_edit (c_text c) e /\ c_root c1 = None).
    { subst c1. unfold c_add. destruct (c_start c =? -1)%Z eqn:E; cbn [c_start c_text c_root]; [lia|]. split; [lia|]. split; [reflexivity|exact Hroot]. }
    destruct Ec as (Ec1 & Ec2 & Ec3). specialize (IH (apply_edit (c_text c) e) c1 Hfit).
    rewrite Ec1 in IH. exact (IH Hle' H0' Ec2 Ec3). }
  specialize (Est ds (apply_edit old d) c0 Hf' Hs' ltac:(subst c0; cbn; lia) eq_refl eq_refl). cbv zeta in Est. destruct Est as (Est1 & Est2 & Est3).
  exists r, a. unfold get_changes. cbn [entries_of fold_left entry_of n_text n_root n_start n_removed n_added]. fold c0. cbv zeta.
  split; [exact Est3|]. split; [rewrite Est1; reflexivity|]. split; [exact E2|]. split; [exact E3|]. split; [exact Est2|].
  cbn [apply_edits]. replace (d_start d) with s; [exact H|]. rewrite Est1 in E1. subst c0. cbn in E1. lia.
Qed.

Section Few.
Variables L A : Type.
Notation node := (node L A).
Notation tok := (tok A).
Notation handle := (handle A).

(** ** No place to start in a new tree with few tokens *)
Lemma bsearch_below (below : nat -> bool) fuel : forall lo hi, hi - lo < fuel -> lo <= hi -> (lo = 0 \/ below (lo - 1) = true) ->
  exists r, bsearch (fun i => Some (below i)) fuel lo hi = Some r /\ lo <= r <= hi /\ (r = 0 \/ below (r - 1) = true).
Proof.
  induction fuel as [|fuel IH]; intros lo hi Hf Hle Hb; [lia|]. cbn [bsearch]. destruct (Nat.ltb_spec lo hi) as [H|H]; [|exists lo; split; [reflexivity|]; split; [lia|exact Hb]].
  assert (Hm : lo <= (lo + hi) / 2 < hi) by (split; [apply Nat.div_le_lower_bound; lia|apply Nat.div_lt_upper_bound; lia]).
  destruct (below ((lo + hi) / 2)) eqn:E.
  - destruct (IH ((lo + hi) / 2 + 1) hi ltac:(lia) ltac:(lia) ltac:(right; rewrite Nat.add_sub; exact E)) as (r & E1 & E2 & E3). exists r. split; [exact E1|]. split; [lia|exact E3].
  - destruct (IH lo ((lo + hi) / 2) ltac:(lia) ltac:(lia) Hb) as (r & E1 & E2 & E3). exists r. split; [exact E1|]. split; [lia|exact E3].
Qed.
Lemma bsearch_ext f g fuel : forall lo hi, (forall i, lo <= i < hi -> f i = g i) -> bsearch f fuel lo hi = bsearch g fuel lo hi.
Proof.
  induction fuel as [|fuel IH]; intros lo hi H; [reflexivity|]. cbn [bsearch]. destruct (Nat.ltb_spec lo hi) as [Hl|Hl]; [|reflexivity].
  assert (Hm : lo <= (lo + hi) / 2 < hi) by (split; [apply Nat.div_le_lower_bound; lia|apply Nat.div_lt_upper_bound; lia]).
  rewrite (H _ Hm). destruct (g ((lo + hi) / 2)) as [[]|]; [apply IH; intros; apply H; lia|apply IH; intros; apply H; lia|reflexivity].
Qed.
Definition left_of (pos : nat) (n : node) : bool := match ubefore_below pos n with Some b => b | None => false end.
Lemma left_some pos n : ubefore_below pos n = Some (left_of pos n).
Proof. destruct n; reflexivity. Qed.
Lemma search_left pos (cs : list node) : exists r, bsearch_in (ubefore_below pos) cs = Some r /\ r <= length cs
  /\ (r = 0 \/ exists c, nth_error cs (r - 1) = Some c /\ left_of pos c = true).
Proof.
  unfold bsearch_in. set (below := fun i => match nth_error cs i with Some c => left_of pos c | None => false end).
  rewrite (bsearch_ext _ (fun i => Some (below i))).
  - destruct (bsearch_below below (S (length cs)) 0 (length cs) ltac:(lia) ltac:(lia) (or_introl eq_refl)) as (r & E1 & E2 & E3). exists r. split; [exact E1|]. split; [lia|].
    destruct E3 as [->|E3]; [left; reflexivity|]. unfold below in E3. destruct (nth_error cs (r - 1)) as [c|]; [|discriminate]. right. eauto.
  - intros i Hi. unfold below. destruct (nth_error cs i) as [c|] eqn:E; [apply left_some|]. apply nth_error_None in E. lia.
Qed.
Lemma size_child (l : L) (cs : list node) i c : nth_error cs i = Some c -> size c < size (Ctx l cs).
Proof.
  cbn [size]. revert i. induction cs as [|d cs IH]; intros i H; [destruct i; discriminate|]. destruct i as [|i]; cbn [nth_error] in H.
  - injection H as ->. lia.
  - specialize (IH i H). lia.
Qed.
Lemma find_left fuel : forall l (cs : list node) path pos, size (Ctx l cs) <= fuel ->
  exists r, ubefore_loop fuel path cs pos = Some r
    /\ match r with None => True | Some (p, t) => exists q, p = path ++ q /\ node_at (Ctx l cs) q = Some (Tok t) /\ k_end t <= pos end.
Proof.
  induction fuel as [|fuel IH]; intros l cs path pos Hf; [cbn [size] in Hf; lia|]. cbn [ubefore_loop].
  destruct (search_left pos cs) as (r & -> & Hr & Hb). destruct r as [|i]; [exists None; split; [reflexivity|exact I]|].
  destruct Hb as [?|(c & Hc & Hl)]; [lia|]. rewrite Nat.sub_succ, Nat.sub_0_r in Hc. rewrite Hc. destruct c as [t|l' cs'].
  - exists (Some (path ++ [i], t)). split; [reflexivity|]. exists [i]. split; [reflexivity|]. split; [cbn [node_at children]; rewrite Hc; reflexivity|].
    unfold left_of in Hl. cbn [ubefore_below] in Hl. lia.
  - pose proof (size_child l cs i _ Hc) as Hs. destruct (IH l' cs' (path ++ [i]) pos ltac:(lia)) as (r & E & Hr'). exists r. split; [exact E|].
    destruct r as [[p t]|]; [|exact I]. destruct Hr' as (q & -> & Hq & Hk). exists (i :: q). split; [rewrite <- app_assoc; reflexivity|]. split; [|exact Hk].
    cbn [node_at children]. rewrite Hc. exact Hq.
Qed.

Variables l_is l_eq : L -> L -> bool.
Variable a_eq : A -> A -> bool.
Variable consume : L -> bool.
Variable evts : list L -> str -> nat -> option (list (event L A) * list L).

Definition single (h : handle) : bool := match k_group (snd h) with None => true | Some _ => false end.
Lemma scan_few root gb : forall count cur, 1 <= count -> (length gb < count \/ length (filter single (cur :: gb)) < count) -> exists h gb', scan10 consume root count cur gb = (h, 0, gb').
Proof.
  induction gb as [|nx gb IH]; intros count cur H1 H; cbn [scan10]; [eauto|]. cbn [length] in H.
  assert (Hf : good_start consume root cur = true -> filter single (cur :: nx :: gb) = cur :: filter single (nx :: gb)).
  { intros Hg. cbn [filter]. unfold good_start in Hg. unfold single at 1. destruct (k_group (snd cur)); [discriminate|reflexivity]. }
  assert (Hd : length (filter single (nx :: gb)) <= length (filter single (cur :: nx :: gb))) by (cbn [filter]; destruct (single cur); cbn [length]; lia).
  destruct (good_start consume root cur).
  - rewrite Hf in H by reflexivity. cbn [length] in H. destruct count as [|[|c]]; [lia|lia|]. apply IH; lia.
  - apply IH; lia.
Qed.

Lemma in_order_le (a : list tok) t b : in_order (a ++ t :: b) -> forall x, In x a -> k_end x <= k_end t.
Proof. intros H x Hx. pose proof (in_order_before A a t b x H Hx). unfold k_end in *. lia. Qed.
Lemma filter_app_le {T} (f : T -> bool) a b : length (filter f a) <= length (filter f (a ++ b)).
Proof. rewrite filter_app, app_length. lia. Qed.
Lemma filter_all {T} (f : T -> bool) a : Forall (fun x => f x = true) a -> filter f a = a.
Proof. induction 1 as [|x a H _ IH]; [reflexivity|]. cbn [filter]. rewrite H, IH. reflexivity. Qed.

Lemma no_place l (cs : list node) text pos : in_order (flat cs) ->
  length (filter (fun t => match k_group t with None => true | Some _ => false end) (flat cs)) <= 9 \/ length (filter (fun t => k_end t <=? pos) (flat cs)) <= 11 ->
  get_prepared_lexer l_is l_eq a_eq consume evts (Ctx l cs) text pos true = Some None.
Proof.
  intros Ho Hfew. unfold get_prepared_lexer, ufind_before. cbn [children]. destruct (find_left (size (Ctx l cs)) l cs [] pos (le_n _)) as (r & -> & Hr).
  destruct r as [[p t]|]; [|reflexivity]. destruct Hr as (q & -> & Hat & Hk). cbn [app fst].
  pose proof (handles_split L A q (Ctx l cs) t Hat) as Hs. set (bw := backward_h (Ctx l cs) q) in *.
  assert (Hfl : flat cs = map snd (rev bw) ++ t :: map snd (forward_h (Ctx l cs) q)).
  { pose proof (handles_snd L A (Ctx l cs)) as E. unfold handles in E. rewrite Hs, map_app, flatten_ctx in E. symmetry. exact E. }
  assert (Hbw : length bw <= 10 \/ length (filter single bw) <= 9).
  { destruct Hfew as [H|H].
    - right. rewrite Hfl in H. pose proof (filter_app_le (fun t => match k_group t with None => true | Some _ => false end) (map snd (rev bw)) (t :: map snd (forward_h (Ctx l cs) q))) as H'.
      assert (E : forall x : list handle, length (filter (fun t => match k_group t with None => true | Some _ => false end) (map snd x)) = length (filter single x)).
      { induction x as [|y x IHx]; [reflexivity|]. cbn [map filter]. unfold single at 1. destruct (k_group (snd y)); cbn [length]; congruence. }
      rewrite E in H'. assert (E2 : length (filter single (rev bw)) = length (filter single bw)).
      { clear. induction bw as [|x b IH]; [reflexivity|]. cbn [rev]. rewrite filter_app, app_length, IH. cbn [filter]. destruct (single x); cbn [length]; lia. }
      lia.
    - left. rewrite Hfl in H, Ho. rewrite filter_app, app_length in H. cbn [filter] in H.
      rewrite (filter_all _ (map snd (rev bw))), map_length, rev_length in H.
      + replace (k_end t <=? pos) with true in H by lia. cbn [length] in H. lia.
      + apply Forall_forall. intros x Hx. pose proof (in_order_le _ _ _ Ho x Hx). lia. }
  assert (G : forall last gb, length gb <= length bw -> length (filter single gb) <= length (filter single bw) ->
    prepare_loop l_is l_eq a_eq consume evts (S (S (length gb))) (Ctx l cs) l text true pos (q, t) last gb = Some None).
  { intros last gb H1 H2. cbn [prepare_loop]. destruct (pos =? 0); [reflexivity|]. destruct gb as [|c gb]; [reflexivity|].
    destruct (scan_few (Ctx l cs) gb 10 c ltac:(lia)) as (h & gb' & ->); [|reflexivity]. cbn [length] in H1. destruct Hbw; [left; lia|right; lia]. }
  destruct (group_ended (q, t)); [apply G; lia|]. destruct (skip_group bw) as [[last gb]|] eqn:Esk; [|reflexivity].
  assert (Hsk : forall b, skip_group b = Some (last, gb) -> length gb <= length b /\ length (filter single gb) <= length (filter single b)).
  { clear. induction b as [|h b IH]; cbn [skip_group]; [discriminate|]. intros H. cbn [length filter]. destruct (group_ended h).
    - injection H as -> ->. destruct (single last); cbn [length]; lia.
    - destruct (IH H). destruct (single h); cbn [length]; lia. }
  destruct (Hsk bw Esk). apply G; assumption.
Qed.
End Few.

Section Loop.
Variables L A : Type.
Notation node := (node L A).
Notation tok := (tok A).
Notation handle := (handle A).
Notation event := (event L A).
Variables l_is l_eq : L -> L -> bool.
Variable a_eq : A -> A -> bool.
Variable consume : L -> bool.
Variable parse : L -> str -> nat -> gen (item L A).
Variable K : nat.
Hypothesis His : forall a b, l_is a b = true <-> a = b.
Hypothesis Heq : forall a, l_eq a a = true.
Hypothesis Hact : forall a b, a_eq a b = true <-> a = b.
Hypothesis HL : local_parse K parse.
Hypothesis HK : K <= 9.
Variable n : nat.
Variables (old : str) (l0 : L) (evs : list event) (fin : list L) (cs : list node).
Hypothesis Hold : l_all consume parse old n (l_init [l0] 0) = Some (evs, fin).
Hypothesis Hcs : build_tree l0 evs = Some (Ctx l0 cs).
Notation root := (Ctx l0 cs).
Notation evts := (lex_events consume parse n).
Notation loop := (build_loop l_is l_eq a_eq consume evts).
Notation run := (run_events l_is a_eq consume).

Lemma run_off rest : forall (rt rt' : node) s off off' sched, run rt s rest [] off sched = run rt' s rest [] off' sched.
Proof.
  induction rest as [|e rest IH]; intros rt rt' s off off' sched; [reflexivity|]. cbn [run_events]. destruct (b_target s (e_target e)) as [s1|]; [|reflexivity].
  destruct (make_tokens (e_lexemes e)) as [|t ts]; [reflexivity|]. cbn [drop_before]. destruct sched as [|[|b bs] sched]; [apply IH|apply IH|reflexivity].
Qed.

(** ** The tokens of the new tree *)
Lemma events_few (es : list event) : length (filter (fun t : tok => match k_group t with None => true | Some _ => false end) (concat (map (fun e => make_tokens (e_lexemes e)) es))) <= length es.
Proof.
  induction es as [|e es IH]; [reflexivity|]. cbn [map concat length]. rewrite filter_app, app_length.
  assert (H : length (filter (fun t : tok => match k_group t with None => true | Some _ => false end) (make_tokens (e_lexemes e))) <= 1).
  { assert (G : forall (xs : list (lexeme A)) k, filter (fun t : tok => match k_group t with None => true | Some _ => false end) (make_group_from k xs) = []).
    { induction xs as [|x [|y xs] IHx]; intros k; [reflexivity|reflexivity|].
      change (make_group_from k (x :: y :: xs)) with (Token (x_pos x) (x_text x) (x_act x) (Some (Z.of_nat k)) :: make_group_from (S k) (y :: xs)). cbn [filter k_group]. apply IHx. }
    destruct (e_lexemes e) as [|x [|y xs]]; [cbn; lia|cbn; lia|]. change (make_tokens (x :: y :: xs)) with (make_group_from 0 (x :: y :: xs)). rewrite G. cbn. lia. }
  lia.
Qed.
Lemma tokens_lexemes (es : list event) : map lexeme_of (concat (map (fun e => make_tokens (e_lexemes e)) es)) = concat (map (fun e => e_lexemes e) es).
Proof. induction es as [|e es IH]; [reflexivity|]. cbn [map concat]. rewrite map_app, make_tokens_lexemes, IH. reflexivity. Qed.
Lemma before_lexemes pos (ts : list tok) : length (filter (fun t => k_end t <=? pos) ts) = length (filter (fun x => x_end x <=? pos) (map lexeme_of ts)).
Proof. induction ts as [|t ts IH]; [reflexivity|]. cbn [map filter]. change (x_end (lexeme_of t)) with (k_end t). destruct (k_end t <=? pos); cbn [length]; congruence. Qed.

Lemma new_tree_few l cur evs' fin' done mid rest' s' ch k pos text :
  l_all consume parse cur n (l_init [l] 0) = Some (evs', fin') -> evs' = done ++ mid ++ rest' -> length mid = S k ->
  good L A l s' (replay [l] (done ++ mid)) (map Enter ch ++ concat (map event_word mid)) ->
  k < 9 \/ tokens_before consume parse n l cur pos <= 11 ->
  get_prepared_lexer l_is l_eq a_eq consume evts (b_root s') text pos true = Some None.
Proof.
  intros Hnew Eev Hlen Hg Hfew. destruct Hg as (_ & Hw & Hl & _ & _). destruct (b_root s') as [t|l' ts] eqn:Eb; [discriminate|]. injection Hl as ->.
  unfold b_word in Hw. rewrite Eb in Hw. cbn [children] in Hw.
  assert (Hfl : flat ts = concat (map (fun e => make_tokens (e_lexemes e)) mid)).
  { rewrite <- (sleaves_words L A ts), Hw, !sleaves_app, sleaves_exits, app_nil_r, events_leaves.
    assert (E : sleaves L A (map Enter ch) = []) by (clear; induction ch as [|x ch IH]; [reflexivity|exact IH]). rewrite E. reflexivity. }
  destruct (build_tree_ok L A l evs' (new_stream L A consume parse cur n l evs' fin' Hnew)) as (cs' & Hb & Hbw & _).
  assert (Hfl' : flat cs' = concat (map (fun e => make_tokens (e_lexemes e)) evs')).
  { rewrite <- (sleaves_words L A cs'), Hbw, sleaves_app, sleaves_exits, app_nil_r, events_leaves. reflexivity. }
  assert (Ho : in_order (flat cs')).
  { destruct (old_hevs L A consume parse cur n l evs' fin' cs' Hnew Hb) as (hevs' & E1 & E2 & E3).
    exact (old_order L A consume parse K HL HK cur n l evs' fin' cs' Hnew hevs' E1 E2 E3). }
  rewrite Hfl', Eev, !map_app, !concat_app in Ho. apply in_order_app in Ho as (_ & Ho & _). apply in_order_app in Ho as (Ho & _ & _). rewrite <- Hfl in Ho.
  apply no_place; [exact Ho|]. destruct Hfew as [H|H]; [left|right].
  - rewrite Hfl. pose proof (events_few mid). lia.
  - unfold tokens_before, lex_events in H. rewrite Hnew in H. rewrite before_lexemes, Hfl, tokens_lexemes. rewrite Eev, !map_app, !concat_app, !filter_app, !app_length in H. lia.
Qed.

(** ** The states in which the loop starts again *)
Variable hevs : list (event * list handle).
Hypothesis Hevs : map fst hevs = evs.
Hypothesis Hword : hwords L A [] 0 cs = hevs_word L A hevs ++ repeat (hx L A) (k0 L A l0 evs).
Hypothesis Hok : Forall (hev_ok L A) hevs.

Definition sorted_tail (tail : list handle) : Prop := StronglySorted (fun h h' : handle => k_pos (snd h) <= k_pos (snd h')) tail.
Definition region (cur : str) (lo : nat) (tail : list handle) (off : Z) : Prop :=
  exists r a, covers_change old cur lo r a /\ Forall (tail_good L A consume l0 cs lo r) tail /\ sorted_tail tail /\ (tail = [] \/ off = (Z.of_nat a - Z.of_nat r)%Z).
Definition at_ok (l : L) (cur : str) (lo : nat) (tail : list handle) (off : Z) : Prop := (l = l0 /\ region cur lo tail off) \/ (lo = 0 /\ tail = []).

Definition right_tree (l : L) (cur : str) (r : bresult L A) : Prop :=
  exists evs' fin' cs', evts [l] cur 0 = Some (evs', fin') /\ replace_tree l_eq root r = Some (Ctx l cs') /\ build_tree l evs' = Some (Ctx l cs')
    /\ match r_lexicons r with Some ls => ls = tl fin' | None => fin' = fin end.

Lemma loop_step fuel l cur from lowest tree tail off sched :
  match tree with None => True | Some t => get_prepared_lexer l_is l_eq a_eq consume evts t cur from true = Some None end ->
  loop (S fuel) root cur l from lowest tree tail off sched =
    match prep_root L A l_is l_eq a_eq consume parse n l0 cs cur l from lowest with
    | None => None
    | Some (s, es, fin', low) => go_on (loop fuel root) cur l low fin' off (run root s es tail off sched)
    end.
Proof. destruct tree as [t|]; intros H; cbn [build_loop]; [rewrite H|]; reflexivity. Qed.

Lemma prep_scratch cur l from lowest evs' fin' : Nat.min lowest from = 0 -> evts [l] cur 0 = Some (evs', fin') ->
  prep_root L A l_is l_eq a_eq consume parse n l0 cs cur l from lowest = Some (BState (Ctx l []) 0, evs', fin', 0).
Proof.
  intros Hm En. unfold prep_root. cbv zeta. rewrite Hm.
  pose proof (old_wf L A consume parse K HL HK old n l0 evs fin cs Hold Hcs hevs Hevs Hword Hok) as Hwf.
  assert (Hp : get_prepared_lexer l_is l_eq a_eq consume evts root cur 0 false = Some None).
  { unfold get_prepared_lexer. pose proof (ufind_before_ok L A l0 cs 0 Hwf) as Hu.
    match type of Hu with match ?x with _ => _ end => destruct x end.
    - destruct Hu as (p & _ & -> & _). destruct (group_ended (p, t)); [|destruct (skip_group _) as [[? ?]|]; [|reflexivity]]; reflexivity.
    - rewrite Hu. reflexivity. }
  rewrite Hp, En. reflexivity.
Qed.

Lemma scratch_right cur l evs' fin' s' lft : (l_eq l l0 = true -> l = l0) -> evts [l] cur 0 = Some (evs', fin') ->
  good L A l s' (replay [l] evs') (concat (map event_word evs')) ->
  right_tree l cur (BResult (b_root s') 0 (length cur) 0 (Some (tl fin')) lft).
Proof.
  intros Hll En Hg. pose proof (old_wf L A consume parse K HL HK old n l0 evs fin cs Hold Hcs hevs Hevs Hword Hok) as Hwf.
  destruct (build_tree_ok L A l evs' (new_stream L A consume parse cur n l evs' fin' En)) as (cs' & Hb' & Hw' & _).
  destruct Hg as (_ & Hw & Hlx & Hd & _). destruct (b_root s') as [t|l2 ts] eqn:Ebr; [discriminate|]. injection Hlx as ->.
  unfold b_word in Hw. rewrite Ebr in Hw. cbn [children] in Hw.
  assert (Ets : ts = cs') by (apply (words_inj L A); rewrite Hw, Hw'; do 2 f_equal; lia). subst ts.
  exists evs', fin', cs'. split; [exact En|]. split; [|split; [exact Hb'|reflexivity]].
  destruct (l_eq l l0) eqn:El.
  - specialize (Hll eq_refl). subst l.
    assert (Hst : start_at L A l0 cs 0 [] []) by (left; auto).
    assert (Hen : end_at L A 0 l0 cs (Some (tl fin')) (length cur) (b_depth s') (repeat Exit (b_depth s'))) by (left; split; [discriminate|auto]).
    assert (Hno : Some (tl fin') = None -> 0 <= length cur) by discriminate.
    pose proof (replace_words L A l_eq Heq l0 cs cs' 0 (length cur) 0 (Some (tl fin')) [] [] (b_depth s') (repeat Exit (b_depth s')) (concat (map event_word evs')) lft Hwf Hst Hen Hno Hw)
      as (cs2 & E2 & Hw2).
    rewrite E2. do 2 f_equal. apply (words_inj L A). rewrite Hw2, Hw. reflexivity.
  - unfold replace_tree. cbn [r_tree]. rewrite El. reflexivity.
Qed.

Lemma sorted_suffix (u v : list handle) : sorted_tail (u ++ v) -> sorted_tail v.
Proof. induction u as [|h u IH]; intros H; [exact H|]. apply IH. inversion H; assumption. Qed.

(** ** One round *)
Lemma covers_widen a b lo r d lo' : covers_change a b lo r d -> lo' <= lo -> covers_change a b lo' (lo + r - lo') (lo + d - lo').
Proof.
  intros (A1 & A2 & A3 & A4) Hle. split; [lia|]. split; [lia|]. split.
  - apply (f_equal (firstn lo')) in A3. rewrite !firstn_firstn in A3. replace (Nat.min lo' lo) with lo' in A3 by lia. exact A3.
  - replace (lo' + (lo + r - lo')) with (lo + r) by lia. replace (lo' + (lo + d - lo')) with (lo + d) by lia. exact A4.
Qed.

Lemma round l cur from lowest tree tail off sched fuel :
  match tree with None => True | Some t => get_prepared_lexer l_is l_eq a_eq consume evts t cur from true = Some None end ->
  at_ok l cur (Nat.min lowest from) tail off -> (l_eq l l0 = true -> l = l0) -> evts [l] cur 0 <> None ->
  (exists r j, loop (S fuel) root cur l from lowest tree tail off sched = Some r /\ right_tree l cur r /\ sched = repeat [] j ++ r_left r)
  \/ (exists low fin' s' tail' k b sched' evs' done mid rest' ch,
        loop (S fuel) root cur l from lowest tree tail off sched = go_on (loop fuel root) cur l low fin' off (OChanged s' tail' (get_changes b) sched')
        /\ sched = repeat [] k ++ b :: sched' /\ b <> []
        /\ evts [l] cur 0 = Some (evs', fin') /\ evs' = done ++ mid ++ rest' /\ length mid = S k
        /\ good L A l s' (replay [l] (done ++ mid)) (map Enter ch ++ concat (map event_word mid)) /\ at_ok l cur low tail' off).
Proof.
  intros Htree Hat Hll Hne. destruct (evts [l] cur 0) as [[evs' fin']|] eqn:En; [|congruence]. clear Hne. rewrite (loop_step _ _ _ _ _ _ _ _ _ Htree).
  destruct Hat as [[-> (r & a & Hcov & Htail & Hsort & Hoff)]|[Hmin ->]].
  - set (off1 := (Z.of_nat a - Z.of_nat r)%Z).
    destruct (prep_ok L A l_is l_eq a_eq consume parse K His Heq Hact HL HK old cur n l0 evs evs' fin fin' cs Hold En Hcs hevs Hevs Hword Hok _ r a Hcov from lowest eq_refl)
      as (done & rest & s & w & low & -> & Eev & Hdone).
    assert (Hlow : low <= Nat.min lowest from) by (destruct Hdone as (_ & ? & _ & _ & H); exact H).
    assert (Erun : run root s rest tail off sched = run root s rest tail off1 sched) by (destruct Hoff as [-> | ->]; [apply run_off|reflexivity]). rewrite Erun.
    set (P := fun h => tail_good L A consume l0 cs (Nat.min lowest from) r h /\ tail <> []).
    assert (HP : Forall P tail).
    { apply Forall_forall. intros h Hh. split; [rewrite Forall_forall in Htail; apply Htail, Hh|]. intros ->. destruct Hh. }
    destruct (run_sched L A l_is a_eq consume parse K His HK cur n l0 evs' fin' cs En off1 P rest done s w tail sched Eev (proj1 Hdone) HP)
      as [(s' & j & sc & E & Ej & Hg)|[(s' & pos & j & sc & E & Ej & Hre)|(s' & tail' & k & b & sched' & mid & rest' & E & E1 & E2 & E3 & E4 & E5 & E6 & E7)]]; rewrite E.
    + left. cbn [go_on]. eexists. exists j. split; [reflexivity|]. split; [|exact Ej].
      destruct (finish_end L A l_eq consume parse K Heq HL HK old cur n l0 evs evs' fin fin' cs Hold En Hcs off1 hevs Hevs Hword Hok _ r a Hcov done rest s w low s' sc Eev Hdone Hg)
        as (cs' & E1 & E2 & _). exists evs', fin', cs'. split; [exact En|]. split; [exact E1|]. split; [exact E2|reflexivity].
    + left. cbn [go_on]. eexists. exists j. split; [reflexivity|]. split; [|exact Ej].
      assert (Hre' : reused L A consume l0 cs off1 (tail_good L A consume l0 cs (Nat.min lowest from) r) rest done w s' pos /\ tail <> []).
      { destruct Hre as (mid & e & post & h & x & xs & F1 & F2 & [F3 F3'] & F4). split; [|exact F3']. exists mid, e, post, h, x, xs. split; [exact F1|]. split; [exact F2|]. split; [exact F3|exact F4]. }
      destruct Hre' as [Hre' Hnt]. assert (Eo : off = off1) by (destruct Hoff as [->|H]; [congruence|exact H]). rewrite Eo.
      destruct (finish_reuse L A l_eq consume parse K Heq HL HK old cur n l0 evs evs' fin fin' cs Hold En Hcs off1 hevs Hevs Hword Hok _ r a Hcov eq_refl done rest s w low s' pos sc Eev Hdone Hre')
        as (cs' & E1 & E2 & E3 & _). exists evs', fin', cs'. split; [exact En|]. split; [exact E1|]. split; [exact E2|exact E3].
    + right. destruct Hdone as (Hg0 & ch & -> & _ & _).
      exists low, fin', s', tail', k, b, sched', evs', done, mid, rest', ch. split; [reflexivity|]. split; [exact E1|]. split; [exact E2|]. split; [reflexivity|].
      split; [rewrite Eev, E3; reflexivity|]. split; [exact E4|]. split; [exact E5|]. left. split; [reflexivity|].
      exists (Nat.min lowest from + r - low), (Nat.min lowest from + a - low). split; [apply covers_widen; assumption|]. split.
      * eapply Forall_impl; [|exact E6]. intros h ((H1 & H2 & H3) & _). split; [exact H1|]. split; [exact H2|]. lia.
      * destruct E7 as (u & ->). split; [exact (sorted_suffix _ _ Hsort)|]. destruct Hoff as [Hn|Hn]; [left; apply app_eq_nil in Hn; apply Hn|right; rewrite Hn; lia].
  - rewrite (prep_scratch cur l from lowest evs' fin' Hmin En).
    rewrite (run_off evs' root (Ctx l []) _ off 0%Z sched).
    destruct (run_sched L A l_is a_eq consume parse K His HK cur n l evs' fin' [] En 0%Z (fun _ => False) evs' [] (BState (Ctx l []) 0) [] [] sched eq_refl (chain_good L A l []) ltac:(constructor))
      as [(s' & j & sc & E & Ej & Hg)|[(s' & pos & j & sc & E & Ej & Hre)|(s' & tail' & k & b & sched' & mid & rest' & E & E1 & E2 & E3 & E4 & E5 & E6 & E7)]]; rewrite E.
    + left. cbn [go_on]. eexists. exists j. split; [reflexivity|]. split; [|exact Ej]. apply (scratch_right cur l evs' fin' s' sc Hll En). exact Hg.
    + destruct Hre as (mid & e & post & h & x & xs & _ & _ & [] & _).
    + right. exists 0, fin', s', tail', k, b, sched', evs', [], mid, rest', []. split; [reflexivity|]. split; [exact E1|]. split; [exact E2|]. split; [reflexivity|].
      split; [exact E3|]. split; [exact E4|]. split; [exact E5|]. right. split; [reflexivity|]. destruct E7 as (u & E7). symmetry in E7. apply app_eq_nil in E7. apply E7.
Qed.

(** ** All rounds *)
Lemma sched_split k : forall cur arr b sched', sched_of cur arr = repeat [] k ++ b :: sched' -> b <> [] ->
  exists x arr', arr = repeat Quiet k ++ x :: arr'
    /\ match x with
       | Quiet => False
       | Edits d ds => b = entries_of cur (d :: ds) /\ sched' = sched_of (apply_edits cur (d :: ds)) arr'
       | NewRoot t l z1 z2 z3 => b = [@Entry L t (Some (Some l)) z1 z2 z3] /\ sched' = sched_of t arr'
       end.
Proof.
  induction k as [|k IH]; intros cur arr b sched' E Hb.
  - destruct arr as [|[|d ds|t l z1 z2 z3] arr]; [discriminate| | |]; cbn [sched_of repeat app] in E; injection E as <- <-.
    + congruence.
    + exists (Edits d ds), arr. split; [reflexivity|split; reflexivity].
    + exists (NewRoot t l z1 z2 z3), arr. split; [reflexivity|split; reflexivity].
  - destruct arr as [|[|d ds|t l z1 z2 z3] arr]; [discriminate| | |]; cbn [sched_of repeat app] in E; [|discriminate|discriminate].
    injection E as E. destruct (IH cur arr b sched' E Hb) as (x & arr' & -> & Hx). exists x, arr'. split; [reflexivity|exact Hx].
Qed.
Lemma quiet_after k : forall l cur arr, after_arrivals l cur (repeat (@Quiet L) k ++ arr) = after_arrivals l cur arr.
Proof. induction k as [|k IH]; intros l cur arr; [reflexivity|]. cbn [repeat app after_arrivals]. apply IH. Qed.
Lemma quiet_ok k : forall l cur j arr, arrivals_ok consume parse l_eq n l0 l cur j (repeat (@Quiet L) k ++ arr) -> arrivals_ok consume parse l_eq n l0 l cur (k + j) arr.
Proof. induction k as [|k IH]; intros l cur j arr H; [exact H|]. cbn [repeat app arrivals_ok] in H. apply IH in H. rewrite Nat.add_succ_r in H. exact H. Qed.
Lemma sched_quiet j : forall cur arr rs, sched_of cur arr = repeat [] j ++ rs -> exists arr', arr = repeat (@Quiet L) j ++ arr' /\ rs = sched_of cur arr'.
Proof.
  induction j as [|j IH]; intros cur arr rs E; [exists arr; split; [reflexivity|symmetry; exact E]|].
  destruct arr as [|[|d ds|t l z1 z2 z3] arr]; [discriminate| | |]; cbn [sched_of repeat app] in E; [|discriminate|discriminate].
  injection E as E. destruct (IH cur arr rs E) as (arr' & -> & Hx). exists arr'. split; [reflexivity|exact Hx].
Qed.
Lemma loop_ok fuel : forall arr l cur from lowest tree tail off, length arr < fuel ->
  match tree with None => True | Some t => get_prepared_lexer l_is l_eq a_eq consume evts t cur from true = Some None end ->
  at_ok l cur (Nat.min lowest from) tail off -> (l_eq l l0 = true -> l = l0) -> evts [l] cur 0 <> None ->
  arrivals_ok consume parse l_eq n l0 l cur 0 arr ->
  exists arr1 arr2 r, arr = arr1 ++ arr2 /\ loop fuel root cur l from lowest tree tail off (sched_of cur arr) = Some r
    /\ right_tree (fst (after_arrivals l cur arr1)) (snd (after_arrivals l cur arr1)) r /\ r_left r = sched_of (snd (after_arrivals l cur arr1)) arr2.
Proof.
  induction fuel as [|fuel IH]; intros arr l cur from lowest tree tail off Hf Htree Hat Hll Hne Harr; [lia|].
  destruct (round l cur from lowest tree tail off (sched_of cur arr) fuel Htree Hat Hll Hne) as [(r & j & Er & Hr & Hj)|H].
  - destruct (sched_quiet j cur arr _ Hj) as (arr' & -> & Hl). exists (repeat Quiet j), arr', r. split; [reflexivity|]. split; [exact Er|].
    pose proof (quiet_after j l cur []) as Hq. rewrite app_nil_r in Hq. rewrite Hq. split; [exact Hr|exact Hl].
  - destruct H as (low & fin' & s' & tail' & k & b & sched' & evs' & done & mid & rest' & ch & El & Es & Hb & En & Eev & Hmid & Hg & Hat').
    rewrite El. destruct (sched_split k cur arr b sched' Es Hb) as (x & arr' & -> & Hx). apply quiet_ok in Harr. rewrite Nat.add_0_r in Harr.
    rewrite app_length, repeat_length in Hf. cbn [length] in Hf.
    destruct x as [|d ds|t l' z1 z2 z3]; [contradiction| |]; destruct Hx as [-> ->]; cbn [arrivals_ok] in Harr.
    + destruct Harr as (Hfit & Hst & Hfew & Hne' & Harr).
      destruct (covers_all_of L cur d ds Hfit Hst) as (r2 & a2 & E1 & E2 & E3 & E4 & E5 & Hcov2). cbn [go_on]. rewrite E1, E2, E3, E4, E5, Nat2Z.id. cbv zeta.
      set (new := apply_edits cur (d :: ds)) in *.
      pose proof (new_tree_few l cur evs' fin' done mid rest' s' ch k (d_start d) new En Eev Hmid Hg Hfew) as Hp.
      assert (Hnext : forall tail2 off2, at_ok l new (Nat.min low (d_start d)) tail2 off2 ->
        exists arr1 arr2 r, repeat Quiet k ++ Edits d ds :: arr' = arr1 ++ arr2
          /\ loop fuel root new l (d_start d) low (Some (b_root s')) tail2 off2 (sched_of new arr') = Some r
          /\ right_tree (fst (after_arrivals l cur arr1)) (snd (after_arrivals l cur arr1)) r /\ r_left r = sched_of (snd (after_arrivals l cur arr1)) arr2).
      { intros tail2 off2 Hat2. destruct (IH arr' l new (d_start d) low (Some (b_root s')) tail2 off2 ltac:(lia) Hp Hat2 Hll Hne' Harr) as (a1 & a3 & r & -> & Er & Hr).
        exists (repeat Quiet k ++ Edits d ds :: a1), a3, r. split; [rewrite <- app_assoc; reflexivity|]. split; [exact Er|]. rewrite quiet_after. exact Hr. }
      destruct Hat' as [[-> (r & a & Hcov & Htail & Hsort & Hoff)]|[-> ->]].
      * pose proof (covers_compose _ _ _ _ _ _ _ _ _ Hcov Hcov2) as Hc. cbv zeta in Hc.
        destruct tail' as [|h0 tl0] eqn:Etl.
        { apply Hnext. left. split; [reflexivity|]. eexists. eexists. split; [exact Hc|]. split; [constructor|]. split; [constructor|left; reflexivity]. }
        rewrite <- Etl in *. assert (Hnil : tail' <> []) by (rewrite Etl; discriminate). clear Etl.
        destruct (_ <=? _)%Z.
        { apply Hnext. left. split; [reflexivity|]. eexists. eexists. split; [exact Hc|]. split; [constructor|]. split; [constructor|left; reflexivity]. }
        apply Hnext. left. split; [reflexivity|]. eexists. eexists. split; [exact Hc|].
        assert (Eoff : off = (Z.of_nat a - Z.of_nat r)%Z) by (destruct Hoff; [congruence|assumption]).
        destruct Hcov as (C1 & C2 & _ & C4). destruct Hcov2 as (D1 & D2 & _ & D4).
        set (pos := (Z.of_nat (d_start d) + Z.of_nat a2 - (off + (Z.of_nat a2 - Z.of_nat r2)))%Z).
        assert (Hd : Forall (tail_good L A consume l0 cs low r) (drop_before pos tail')).
        { clear - Htail. induction Htail as [|h tl Hh Ht IHt]; [constructor|]. cbn [drop_before]. destruct (_ <? _)%Z; [exact IHt|constructor; assumption]. }
        assert (Hge : Forall (fun h => (pos <= Z.of_nat (k_pos (snd h)))%Z) (drop_before pos tail')).
        { clear - Hsort. induction Hsort as [|h tl Hs IHs Hall]; [constructor|]. cbn [drop_before]. destruct (_ <? _)%Z eqn:E; [exact IHs|].
          constructor; [lia|]. eapply Forall_impl; [|exact Hall]. intros h' Hh'. cbn in Hh'. lia. }
        split; [|split; [destruct (drop_suffix A pos tail') as (u & Eu); rewrite Eu in Hsort; exact (sorted_suffix _ _ Hsort)|right; lia]].
        rewrite Forall_forall in Hd, Hge |- *. intros h Hh. destruct (Hd h Hh) as (G1 & G2 & G3). specialize (Hge h Hh). split; [exact G1|]. split; [exact G2|].
        unfold pos in Hge. lia.
      * apply Hnext. right. split; reflexivity.
    + destruct Harr as (Hll' & Hne' & Harr). cbn [go_on]. change (get_changes [@Entry L t (Some (Some l')) z1 z2 z3]) with (@Changes L t (Some (Some l')) z1 z2 z3).
      cbn [c_root c_text].
      destruct (IH arr' l' t 0 low None [] off ltac:(lia) I ltac:(right; split; [lia|reflexivity]) Hll' Hne' Harr) as (a1 & a3 & r & -> & Er & Hr).
      exists (repeat Quiet k ++ NewRoot t l' z1 z2 z3 :: a1), a3, r. split; [rewrite <- app_assoc; reflexivity|]. split; [exact Er|]. rewrite quiet_after. exact Hr.
Qed.

Lemma sorted_filter f (hs : list handle) : sorted_tail hs -> sorted_tail (filter f hs).
Proof.
  induction 1 as [|h hs Hs IH Hall]; [constructor|]. cbn [filter]. destruct (f h); [|exact IH]. constructor; [exact IH|].
  rewrite Forall_forall in *. intros x Hx. apply filter_In in Hx as [Hx _]. apply Hall, Hx.
Qed.
Lemma sorted_handles : sorted_tail (handles L A root).
Proof.
  pose proof (old_order L A consume parse K HL HK old n l0 evs fin cs Hold hevs Hevs Hword Hok) as [Ho _]. rewrite <- (flatten_ctx L A l0 cs), <- handles_snd in Ho.
  induction (handles L A root) as [|h hs IH]; [constructor|]. cbn [map] in Ho. inversion Ho as [|? ? Hs Hall]; subst. constructor; [apply IH, Hs|].
  rewrite Forall_forall in *. intros x Hx. specialize (Hall (snd x) (in_map snd _ _ Hx)). unfold k_end in Hall. lia.
Qed.
Lemma tail_ready new start removed added : covers_change old new start removed added -> exists tail,
  (if start + added <? length new then
     match find_after_h root (start + removed) with
     | None => None
     | Some None => Some []
     | Some (Some h) => Some (filter (good_tail consume root) (h :: forward_h root (fst h)))
     end
   else Some []) = Some tail /\ Forall (tail_good L A consume l0 cs start removed) tail /\ sorted_tail tail.
Proof.
  intros Hcov. pose proof (old_wf L A consume parse K HL HK old n l0 evs fin cs Hold Hcs hevs Hevs Hword Hok) as Hwf.
  destruct (tail_found L A consume parse K HL HK old new n l0 evs fin cs Hold Hcs hevs Hevs Hword Hok start removed added) as (tail & E & Ht). exists tail. split; [exact E|]. split; [exact Ht|].
  destruct (start + added <? length new); [|injection E as <-; constructor]. pose proof (find_after_ok L A l0 cs (start + removed) Hwf) as Hf.
  destruct (find (fun t => start + removed <=? k_pos t) (flat cs)) as [t|]; [|rewrite Hf in E; injection E as <-; constructor].
  destruct Hf as (p & Hp & Ef & Hat). rewrite Ef in E. pose proof (f_equal (fun o => match o with Some x => x | None => [] end) E) as Etl.
  cbv beta iota in Etl. rewrite <- Etl. apply sorted_filter. pose proof (handles_split L A p root t Hat) as Hs.
  pose proof sorted_handles as Hh. unfold handles in Hh. rewrite Hs in Hh. exact (sorted_suffix _ _ Hh).
Qed.

Lemma sched_length cur arr : length (sched_of (L:=L) cur arr) = length arr.
Proof. revert cur. induction arr as [|[|d ds|t l z1 z2 z3] arr IH]; intros cur; cbn [sched_of length]; [reflexivity| | |]; rewrite IH; reflexivity. Qed.

Lemma process_right tb l cur r : tb_root tb = root -> tb_lexicons tb = tl fin -> right_tree l cur r ->
  exists tb', match replace_tree l_eq (tb_root tb) r with
      | None => None
      | Some rt => Some (Builder rt (r_start r) (Z.to_nat (Z.of_nat (r_end r) + r_offset r)) (match r_lexicons r with Some ls => ls | None => tb_lexicons tb end))
      end = Some tb' /\ up_to_date consume parse n tb' l cur.
Proof.
  intros Hr Hl (evs' & fin' & cs' & E1 & E2 & E3 & E4). rewrite Hr, E2. eexists. split; [reflexivity|]. exists evs', fin'. split; [exact E1|]. cbn [tb_root tb_lexicons].
  split; [exact E3|]. destruct (r_lexicons r) as [ls|]; [exact E4|]. rewrite Hl, E4. reflexivity.
Qed.
End Loop.

Section Top.
Variables L A : Type.
Variables l_is l_eq : L -> L -> bool.
Variable a_eq : A -> A -> bool.
Variable consume : L -> bool.
Variable parse : L -> str -> nat -> gen (item L A).
Variable K : nat.
Hypothesis His : forall a b, l_is a b = true <-> a = b.
Hypothesis Heq : forall a, l_eq a a = true.
Hypothesis Hact : forall a b, a_eq a b = true <-> a = b.
Hypothesis HL : local_parse K parse.
Hypothesis HK : K <= 9.
Variable n : nat.

Theorem arrivals_update (tb : builder L A) l old new start removed added arr :
  up_to_date consume parse n tb l old -> covers_change old new start removed added -> lex_events consume parse n [l] new 0 <> None ->
  arrivals_ok consume parse l_eq n l l new 0 arr ->
  exists arr1 arr2 tb', arr = arr1 ++ arr2
    /\ process1 l_is l_eq a_eq consume (lex_events consume parse n) tb new None start removed added (sched_of new arr) = Some tb'
    /\ changes_left l_is l_eq a_eq consume (lex_events consume parse n) tb new None start removed added (sched_of new arr) = Some (sched_of (snd (after_arrivals l new arr1)) arr2)
    /\ up_to_date consume parse n tb' (fst (after_arrivals l new arr1)) (snd (after_arrivals l new arr1)).
Proof.
  intros (evs & fin & Ho & Hb & Hl) Hc Hn Harr.
  destruct (scratch_root L A consume parse n l old evs fin _ Ho Hb) as (cs & Hr). rewrite Hr in Hb.
  destruct (old_hevs L A consume parse old n l evs fin cs Ho Hb) as (hevs & H1 & H2 & H3).
  destruct (tail_ready L A consume parse K HL HK n old l evs fin cs Ho Hb hevs H1 H2 H3 new start removed added Hc) as (tail & Et & Ht & Hs).
  unfold process1, changes_left. rewrite Hr. unfold build_new_tree. cbn [root_lex]. rewrite Et, sched_length.
  destruct (loop_ok L A l_is l_eq a_eq consume parse K His Heq Hact HL HK n old l evs fin cs Ho Hb hevs H1 H2 H3 (S (length arr)) arr l new start start None tail
    (Z.of_nat added - Z.of_nat removed)%Z ltac:(lia) I) as (arr1 & arr2 & r & E1 & E2 & E3 & E6).
  - rewrite Nat.min_id. left. split; [reflexivity|]. exists removed, added. split; [exact Hc|]. split; [exact Ht|]. split; [exact Hs|right; reflexivity].
  - auto.
  - exact Hn.
  - exact Harr.
  - rewrite E2. destruct (process_right L A l_eq consume parse n l fin cs tb _ _ r Hr Hl E3) as (tb' & E4 & E5). rewrite Hr in E4. exists arr1, arr2, tb'. split; [exact E1|]. split; [exact E4|]. split; [rewrite E6; reflexivity|exact E5].
Qed.

Theorem arrivals_root (tb : builder L A) l old l' new arr :
  up_to_date consume parse n tb l old -> (l_eq l' l = true -> l' = l) -> lex_events consume parse n [l'] new 0 <> None ->
  arrivals_ok consume parse l_eq n l l' new 0 arr ->
  exists arr1 arr2 tb', arr = arr1 ++ arr2
    /\ process1 l_is l_eq a_eq consume (lex_events consume parse n) tb new (Some l') 0 0 0 (sched_of new arr) = Some tb'
    /\ changes_left l_is l_eq a_eq consume (lex_events consume parse n) tb new (Some l') 0 0 0 (sched_of new arr) = Some (sched_of (snd (after_arrivals l' new arr1)) arr2)
    /\ up_to_date consume parse n tb' (fst (after_arrivals l' new arr1)) (snd (after_arrivals l' new arr1)).
Proof.
  intros (evs & fin & Ho & Hb & Hl) Hll Hn Harr.
  destruct (scratch_root L A consume parse n l old evs fin _ Ho Hb) as (cs & Hr). rewrite Hr in Hb.
  destruct (old_hevs L A consume parse old n l evs fin cs Ho Hb) as (hevs & H1 & H2 & H3).
  unfold process1, changes_left. rewrite Hr. unfold build_new_tree. cbn [root_lex Nat.add]. rewrite Nat.ltb_irrefl, sched_length.
  destruct (loop_ok L A l_is l_eq a_eq consume parse K His Heq Hact HL HK n old l evs fin cs Ho Hb hevs H1 H2 H3 (S (length arr)) arr l' new 0 0 None []
    (Z.of_nat (length new) - Z.of_nat 0)%Z ltac:(lia) I ltac:(right; split; reflexivity) Hll Hn Harr) as (arr1 & arr2 & r & E1 & E2 & E3 & E6).
  rewrite E2. destruct (process_right L A l_eq consume parse n l fin cs tb _ _ r Hr Hl E3) as (tb' & E4 & E5). rewrite Hr in E4. exists arr1, arr2, tb'. split; [exact E1|]. split; [exact E4|]. split; [rewrite E6; reflexivity|exact E5].
Qed.
End Top.
