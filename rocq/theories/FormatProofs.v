(** Proofs about formatting. *)
From Verif Require Import Base BaseFacts TreeModel TreeSpec TreeProofs TreeWalkProofs TreeRangeProofs UtilModel UtilSpec UtilProofs FormatModel FormatSpec Prop_Util.
From Coq Require Import ZArith ZifyBool.

Section Stream.
Variables A F : Type.
Notation fcache := (fcache A F).
Notation tok := (tok A).
Notation entry := (fcache * tok)%type.

(** Both streams are this one. *)
Fixpoint gstream (before fmt : entry -> option F) (tail : option F) (prev : nat) (end_ : option nat) (ts : list entry) : list (item F) :=
  match ts with
  | x :: ts =>
      match before x with
      | Some b => if prev <? k_pos (snd x) then [Item prev (k_pos (snd x)) b] else []
      | None => []
      end
      ++ match fmt x with Some f => [Item (k_pos (snd x)) (k_end (snd x)) f] | None => [] end
      ++ gstream before fmt tail (k_end (snd x)) end_ ts
  | [] => match tail, end_ with
          | Some b, Some e => if prev <? e then [Item prev e b] else []
          | _, _ => []
          end
  end.
Definition g_before (unparsed : option F) (x : entry) : option F :=
  match unparsed with
  | Some u => Some u
  | None => match fc_text (fst x) (k_act (snd x)) with Some _ => fc_base (fst x) | None => None end
  end.
Definition g_fmt (unparsed : option F) (x : entry) : option F := token_format unparsed (fst x) (snd x).
Definition g_tail (unparsed : option F) (last : fcache) : option F :=
  match unparsed with Some u => Some u | None => fc_base last end.

Lemma unparsed_gstream u last end_ ts : forall prev,
  unparsed_stream u prev end_ ts = gstream (g_before (Some u)) (g_fmt (Some u)) (g_tail (Some u) last) prev end_ ts.
Proof.
  induction ts as [|[fc t] ts IH]; intros prev; cbn [unparsed_stream gstream]; [reflexivity|].
  rewrite IH. unfold g_before, g_fmt, token_format. cbn [fst snd]. destruct (fc_text fc (k_act t)); reflexivity.
Qed.
Lemma base_gstream last end_ ts : forall prev,
  base_stream last prev end_ ts = gstream (g_before None) (g_fmt None) (g_tail None last) prev end_ ts.
Proof.
  induction ts as [|[fc t] ts IH]; intros prev; cbn [base_stream gstream]; [reflexivity|].
  rewrite IH. unfold g_before, g_fmt, token_format. cbn [fst snd]. destruct (fc_text fc (k_act t)); cbn [app]; [|reflexivity].
  rewrite <- app_assoc. reflexivity.
Qed.

Definition g_at (before fmt : entry -> option F) (tail : option F) (end_ : option nat) (ts : list entry) (p : nat) : option F :=
  match find (tok_at p) ts with
  | Some x => fmt x
  | None => match find (tok_after p) ts with
            | Some x => before x
            | None => match end_ with Some _ => tail | None => None end
            end
  end.
Lemma format_at_g unparsed last end_ ts p :
  format_at unparsed last end_ ts p = g_at (g_before unparsed) (g_fmt unparsed) (g_tail unparsed last) end_ ts p.
Proof.
  unfold format_at, g_at. destruct (find (tok_at p) ts) as [[fc t]|]; [reflexivity|].
  destruct (find (tok_after p) ts) as [[fc t]|]; [|destruct end_, unparsed; reflexivity]. destruct unparsed; reflexivity.
Qed.

Lemma cover_app (l1 l2 : list (item F)) p : cover (l1 ++ l2) p = match cover l1 p with Some r => Some r | None => cover l2 p end.
Proof.
  induction l1 as [|i l1 IH]; [reflexivity|]. cbn [app]. rewrite !cover_cons, IH. destruct ((i_pos i <=? p) && (p <? i_end i)); reflexivity.
Qed.
Lemma cover_above (l : list (item F)) p m : Forall (fun i => m <= i_pos i) l -> p < m -> cover l p = None.
Proof.
  intros H Hp. apply cover_none. intros i Hi [K _]. rewrite Forall_forall in H. specialize (H i Hi). cbv beta in H. lia.
Qed.

Lemma gstream_pos before fmt tail end_ : forall ts prev m, m <= prev -> Forall (fun x : entry => m <= k_pos (snd x)) ts ->
  Forall (fun x : entry => k_pos (snd x) <= k_end (snd x)) ts ->
  Forall (fun i => m <= i_pos i) (gstream before fmt tail prev end_ ts).
Proof.
  induction ts as [|x ts IH]; intros prev m Hm H Hk; cbn [gstream].
  - destruct tail, end_; [|constructor..]. destruct (prev <? n); repeat constructor. exact Hm.
  - inversion H; subst. inversion Hk; subst. apply Forall_app. split; [|apply Forall_app; split].
    + destruct (before x); [|constructor]. destruct (prev <? _); repeat constructor. exact Hm.
    + destruct (fmt x); repeat constructor. assumption.
    + apply IH; [lia|assumption|assumption].
Qed.

Lemma ordered_cons_above (i : item F) l : i_pos i < i_end i -> Forall (fun j => i_end i <= i_pos j) l -> ordered l -> ordered (i :: l).
Proof. intros H1 H2 H3. cbn [ordered]. split; [exact H1|]. split; [|exact H3]. intros j Hj. rewrite Forall_forall in H2. apply H2. exact Hj. Qed.

Lemma gstream_ok before fmt tail start end_ : forall ts prev, start <= prev ->
  in_order (map snd ts) -> Forall (fun x : entry => overlaps start end_ (Item (k_pos (snd x)) (k_end (snd x)) tt)) ts ->
  Forall (fun x : entry => prev < k_end (snd x)) ts ->
  (forall x y ts', ts = x :: y :: ts' -> prev <= k_pos (snd y)) ->
  ordered (gstream before fmt tail prev end_ ts) /\ Forall (overlaps start end_) (gstream before fmt tail prev end_ ts)
  /\ forall p, prev <= p -> in_window start end_ p -> cover (gstream before fmt tail prev end_ ts) p = g_at before fmt tail end_ ts p.
Proof.
  induction ts as [|x ts IH]; intros prev Hs Ho Hov Hprev _; cbn [gstream].
  - destruct tail as [b|], end_ as [e|]; try (split; [exact I|]; split; [constructor|]; reflexivity).
    destruct (prev <? e) eqn:E.
    + split; [cbn; split; [lia|]; split; [intros j []|exact I]|]. split; [repeat constructor; cbn; lia|].
      intros p Hp [W1 W2]. cbn [find g_at]. unfold g_at. cbn [find]. rewrite cover_cons. cbn [i_pos i_end i_rest].
      replace (prev <=? p) with true by lia. replace (p <? e) with true by lia. reflexivity.
    + split; [exact I|]. split; [constructor|]. intros p Hp [W1 W2]. lia.
  - inversion Hov as [|? ? V1 V2]; subst. inversion Hprev as [|? ? P1 P2]; subst. destruct Ho as [O1 O2]. cbn [map] in O1, O2.
    inversion O1 as [|? ? S1 S2]; subst. inversion O2 as [|? ? T1 T2]; subst.
    assert (Hlen : k_pos (snd x) < k_end (snd x)) by (unfold k_end; destruct (k_text (snd x)); [congruence|cbn; lia]).
    assert (Hafter : Forall (fun y : entry => k_end (snd x) <= k_pos (snd y)) ts).
    { apply Forall_forall. intros y Hy. rewrite Forall_forall in S2. apply S2. apply in_map. exact Hy. }
    assert (Hlens : Forall (fun y : entry => k_pos (snd y) < k_end (snd y)) ts).
    { apply Forall_forall. intros y Hy. rewrite Forall_forall in T2. specialize (T2 (snd y) (in_map snd _ _ Hy)).
      unfold k_end. destruct (k_text (snd y)); [congruence|cbn; lia]. }
    destruct V1 as [V1a V1b]. cbn [i_pos i_end] in V1a, V1b.
    destruct (IH (k_end (snd x))) as (I1 & I2 & I3); [lia|split; assumption|assumption| | |].
    { apply Forall_forall. intros y Hy. rewrite Forall_forall in Hafter, Hlens. specialize (Hafter y Hy). specialize (Hlens y Hy). cbv beta in Hafter, Hlens. lia. }
    { intros a b ts' ->. inversion Hafter as [|? ? H1 H2]; subst. inversion H2; assumption. }
    set (rest := gstream before fmt tail (k_end (snd x)) end_ ts) in *.
    assert (Habove : Forall (fun i => k_end (snd x) <= i_pos i) rest).
    { apply gstream_pos; [lia|exact Hafter|]. eapply Forall_impl; [|exact Hlens]. intros y Hy. cbv beta in Hy. lia. }
    set (mid := match fmt x with Some f => [Item (k_pos (snd x)) (k_end (snd x)) f] | None => [] end).
    assert (M1 : ordered (mid ++ rest)).
    { unfold mid. destruct (fmt x); [|exact I1]. cbn [app]. apply ordered_cons_above; [exact Hlen|exact Habove|exact I1]. }
    assert (M2 : Forall (overlaps start end_) (mid ++ rest)).
    { unfold mid. destruct (fmt x); [|exact I2]. constructor; [split; assumption|exact I2]. }
    assert (M3 : Forall (fun i => k_pos (snd x) <= i_pos i) (mid ++ rest)).
    { apply Forall_app. split; [unfold mid; destruct (fmt x); repeat constructor|]. eapply Forall_impl; [|exact Habove]. intros i Hi. cbv beta in Hi. lia. }
    assert (M4 : forall p, k_pos (snd x) <= p -> prev <= p -> in_window start end_ p -> cover (mid ++ rest) p = g_at before fmt tail end_ (x :: ts) p).
    { intros p Hp Hpp W. unfold g_at. cbn [find]. unfold tok_at at 1. replace (k_pos (snd x) <=? p) with true by lia. cbn [andb].
      rewrite cover_app. destruct (p <? k_end (snd x)) eqn:E.
      - unfold mid. destruct (fmt x); [rewrite cover_cons; cbn [i_pos i_end i_rest]|].
        + replace (k_pos (snd x) <=? p) with true by lia. rewrite E. reflexivity.
        + cbn. apply cover_above with (m := k_end (snd x)); [exact Habove|lia].
      - unfold tok_after at 1. replace (p <? k_pos (snd x)) with false by lia.
        replace (cover mid p) with (@None F).
        + rewrite I3; [reflexivity|lia|exact W].
        + symmetry. unfold mid. destruct (fmt x); [|reflexivity]. rewrite cover_cons. cbn [i_pos i_end]. rewrite E, andb_false_r. reflexivity. }
    assert (M5 : forall p, p < k_pos (snd x) -> g_at before fmt tail end_ (x :: ts) p = before x).
    { intros p Hp. unfold g_at. cbn [find]. unfold tok_at at 1. replace (k_pos (snd x) <=? p) with false by lia. cbn [andb].
      unfold tok_after at 1. replace (p <? k_pos (snd x)) with true by lia.
      destruct (find (tok_at p) ts) as [y|] eqn:Ef; [|reflexivity]. apply find_some in Ef as [Hy Ht]. unfold tok_at in Ht.
      rewrite Forall_forall in Hafter. specialize (Hafter y Hy). cbv beta in Hafter. lia. }
    destruct (before x) as [b|] eqn:Eb.
    + destruct (prev <? k_pos (snd x)) eqn:E.
      * cbn [app]. split; [|split].
        -- apply ordered_cons_above; [cbn; lia|exact M3|exact M1].
        -- constructor; [|exact M2]. split; cbn [i_pos i_end]; [lia|]. destruct end_ as [e|]; [|exact I]. lia.
        -- intros p Hp W. rewrite cover_cons. cbn [i_pos i_end i_rest]. replace (prev <=? p) with true by lia.
           destruct (p <? k_pos (snd x)) eqn:E2; cbn [andb]; [rewrite M5 by lia; reflexivity|]. apply M4; [lia|lia|exact W].
      * cbn [app]. split; [exact M1|]. split; [exact M2|]. intros p Hp W. apply M4; [lia|lia|exact W].
    + cbn [app]. split; [exact M1|]. split; [exact M2|]. intros p Hp W.
      destruct (p <? k_pos (snd x)) eqn:E2; [|apply M4; [lia|lia|exact W]].
      rewrite M5 by lia. apply cover_above with (m := k_pos (snd x)); [exact M3|lia].
Qed.
End Stream.

Section Pieces.
Variable F : Type.

Lemma slice_seq (text : str) (f : option F) : forall a b, map (fun c => (c, f)) (slice text a b) = map (fun p => (nth p text 0, f)) (seq a (Nat.min b (length text) - a)).
Proof.
  induction text as [|c text IH]; intros a b.
  - unfold slice. rewrite skipn_nil, firstn_nil. cbn [length]. rewrite Nat.min_0_r. reflexivity.
  - destruct a as [|a].
    + unfold slice. cbn [skipn]. rewrite Nat.sub_0_r. destruct b as [|b]; [reflexivity|]. cbn [firstn length Nat.min map].
      rewrite Nat.sub_0_r. cbn [seq map nth]. f_equal. specialize (IH 0 b). unfold slice in IH. cbn [skipn] in IH. rewrite Nat.sub_0_r in IH.
      rewrite IH. rewrite Nat.sub_0_r. rewrite <- seq_shift, map_map. reflexivity.
    + destruct b as [|b].
      * unfold slice. cbn [skipn Nat.sub firstn Nat.min seq map]. reflexivity.
      * specialize (IH a b). unfold slice in *. cbn [skipn length Nat.min Nat.sub]. rewrite IH. rewrite <- seq_shift, map_map. reflexivity.
Qed.

Lemma seq_split_at a b n : a <= b -> seq a (Nat.min b n - a) ++ seq b (n - b) = seq a (n - a).
Proof.
  intros H. destruct (Nat.le_gt_cases b n).
  - rewrite Nat.min_l by assumption. replace (n - a) with ((b - a) + (n - b)) by lia. rewrite seq_app. f_equal. f_equal. lia.
  - rewrite Nat.min_r by lia. replace (n - b) with 0 by lia. apply app_nil_r.
Qed.

Lemma pieces_ok (text : str) end_ : forall (rs : list (item F)) prev, ordered rs -> (forall i, In i rs -> prev <= i_pos i) ->
  (forall i e, In i rs -> end_ = Some e -> i_end i <= e) ->
  per_char (text_pieces text prev end_ rs)
  = map (fun p => (nth p text 0, cover rs p)) (seq prev (Nat.min (match end_ with Some e => e | None => length text end) (length text) - prev)).
Proof.
  set (E := match end_ with Some e => e | None => length text end).
  induction rs as [|r rs IH]; intros prev Ho Hp He; cbn [text_pieces].
  - fold E. cbn [cover find option_map]. destruct (prev <? E) eqn:P.
    + cbn [per_char flat_map]. rewrite app_nil_r. apply slice_seq.
    + replace (Nat.min E (length text) - prev) with 0 by lia. reflexivity.
  - destruct Ho as (O1 & O2 & O3).
    assert (Hr : prev <= i_pos r) by (apply Hp; left; reflexivity).
    assert (HE : Nat.min (i_end r) (length text) = Nat.min (i_end r) (Nat.min E (length text)) /\ Nat.min (i_pos r) (length text) = Nat.min (i_pos r) (Nat.min E (length text))).
    { unfold E. destruct end_ as [e|]; [|split; lia]. specialize (He r e (or_introl eq_refl) eq_refl). split; lia. }
    destruct HE as [HE1 HE2].
    rewrite <- (seq_split_at prev (i_pos r) (Nat.min E (length text))) by lia.
    rewrite <- (seq_split_at (i_pos r) (i_end r) (Nat.min E (length text))) by lia.
    unfold per_char. rewrite flat_map_app. cbn [flat_map]. change (flat_map _ (text_pieces text (i_end r) end_ rs)) with (per_char (text_pieces text (i_end r) end_ rs)). rewrite !map_app. f_equal; [|f_equal].
    + transitivity (map (fun p => (nth p text 0, @None F)) (seq prev (Nat.min (i_pos r) (Nat.min E (length text)) - prev))).
      * destruct (prev <? i_pos r) eqn:P.
        -- cbn [flat_map]. rewrite app_nil_r, slice_seq, HE2. reflexivity.
        -- replace (Nat.min (i_pos r) (Nat.min E (length text)) - prev) with 0 by lia. reflexivity.
      * apply map_ext_in. intros p Hin. apply in_seq in Hin. f_equal. symmetry. apply cover_none. intros i [<-|Hi]; [lia|].
        specialize (O2 i Hi). lia.
    + rewrite slice_seq, HE1. apply map_ext_in. intros p Hin. apply in_seq in Hin. f_equal. rewrite cover_cons.
      replace (i_pos r <=? p) with true by lia. replace (p <? i_end r) with true by lia. reflexivity.
    + rewrite IH; [|exact O3|exact O2|intros i e Hi; apply He; right; exact Hi].
      apply map_ext_in. intros p Hin. apply in_seq in Hin. f_equal. rewrite cover_cons. replace (p <? i_end r) with false by lia.
      rewrite andb_false_r. reflexivity.
Qed.

Lemma per_char_text (pieces : list (str * option F)) : map fst (per_char pieces) = concat (map fst pieces).
Proof.
  induction pieces as [|[s f] pieces IH]; [reflexivity|]. unfold per_char in *. cbn [flat_map map concat fst]. rewrite map_app, IH. f_equal.
  rewrite map_map. cbn [fst]. apply map_id.
Qed.
Lemma map_nth_seq (text : str) a b : map (fun p => nth p text 0) (seq a (Nat.min b (length text) - a)) = slice text a b.
Proof.
  pose proof (slice_seq text None a b) as H. apply (f_equal (map fst)) in H. rewrite !map_map in H. cbn [fst] in H. rewrite map_id in H. symmetry. exact H.
Qed.
End Pieces.

Section Ranges.
Variables L A F Lang : Type.
Variable lang_of : L -> Lang.
Variable lang_eqb : Lang -> Lang -> bool.
Variable fmt_eqb : F -> F -> bool.
Hypothesis fmt_ok : forall a b, fmt_eqb a b = true <-> a = b.

Definition ranges_of (unparsed : option F) (last : fcache A F) (ts : list (fcache A F * tok A)) start end_ : list (item F) :=
  merge_adjacent fmt_eqb (fix_boundaries
    (match unparsed with Some u => unparsed_stream u start end_ ts | None => base_stream last start end_ ts end) start end_).

Lemma ranges_of_ok unparsed last ts start end_ text : (forall e, end_ = Some e -> start < e) ->
  in_order (map snd ts) -> Forall (fun x => overlaps start end_ (Item (k_pos (snd x)) (k_end (snd x)) tt)) ts ->
  let out := ranges_of unparsed last ts start end_ in
  ordered out /\ Forall (inside start end_) out /\ no_mergeable out
  /\ (forall p, in_window start end_ p -> cover out p = format_at unparsed last end_ ts p)
  /\ per_char (text_pieces text start end_ out)
     = map (fun p => (nth p text 0, format_at unparsed last end_ ts p))
           (seq start (Nat.min (match end_ with Some e => e | None => length text end) (length text) - start)).
Proof.
  intros Hw Ho Hov out.
  assert (Hg : out = merge_adjacent fmt_eqb (fix_boundaries (gstream _ _ (g_before _ _ unparsed) (g_fmt _ _ unparsed) (g_tail _ _ unparsed last) start end_ ts) start end_)).
  { unfold out, ranges_of. destruct unparsed; [rewrite unparsed_gstream with (last := last)|rewrite base_gstream]; reflexivity. }
  destruct (gstream_ok A F (g_before _ _ unparsed) (g_fmt _ _ unparsed) (g_tail _ _ unparsed last) start end_ ts start) as (G1 & G2 & G3);
    [lia|exact Ho|exact Hov| | |].
  { eapply Forall_impl; [|exact Hov]. intros x [H _]. exact H. }
  { intros x y ts' ->. destruct Ho as [O1 _]. cbn [map] in O1. inversion O1 as [|? ? _ S2]; subst. inversion S2; subst. inversion Hov as [|? ? [V _] _]; subst. cbn [i_end] in V. lia. }
  pose proof (C33_merge_clip F fmt_eqb _ start end_ fmt_ok Hw G1 G2) as H. cbv zeta in H. rewrite <- Hg in H. destruct H as (H1 & H2 & H3 & H4 & H5).
  assert (Hat : forall p, in_window start end_ p -> cover out p = format_at unparsed last end_ ts p).
  { intros p W. rewrite H4 by exact W. rewrite format_at_g. apply G3; [apply W|exact W]. }
  split; [exact H1|]. split; [exact H2|]. split; [exact H3|]. split; [exact Hat|].
  rewrite pieces_ok; [|exact H1| |].
  - apply map_ext_in. intros p Hp. apply in_seq in Hp. f_equal. apply Hat. split; [lia|]. destruct end_; [lia|exact I].
  - intros i Hi. rewrite Forall_forall in H2. apply (H2 i Hi).
  - intros i e Hi ->. rewrite Forall_forall in H2. apply (H2 i Hi).
Qed.

Lemma format_ranges_some cs tree start end_ r ts last :
  range_from_tree tree start end_ = Some (Some r) -> format_tokens lang_of lang_eqb cs tree r = Some (ts, last) ->
  format_ranges lang_of lang_eqb fmt_eqb cs tree start end_
  = Some (ranges_of (match fc_default cs with Some fc => fc_unparsed fc | None => None end) last ts start end_).
Proof. intros H1 H2. unfold format_ranges. rewrite H1, H2. reflexivity. Qed.

Lemma in_order_filter (p : tok A -> bool) ts : in_order ts -> in_order (filter p ts).
Proof.
  intros [H1 H2]. split.
  - induction ts as [|t ts IH]; [constructor|]. inversion H1; subst. inversion H2; subst. cbn [filter]. destruct (p t); [|apply IH; assumption].
    constructor; [apply IH; assumption|]. apply Forall_forall. intros y Hy. apply filter_In in Hy as [Hy _]. rewrite Forall_forall in H4. apply H4. exact Hy.
  - apply Forall_forall. intros y Hy. apply filter_In in Hy as [Hy _]. rewrite Forall_forall in H2. apply H2. exact Hy.
Qed.

(** No token in the region, and the region does not lie between two tokens. *)
Lemma range_none (l : L) (cs : list (node L A)) start end_ : wf_children cs ->
  Forall (fun t => k_end t <= start) (flat cs)
  \/ (exists e, end_ = Some e /\ (e <= start \/ Forall (fun t => e <= k_pos t) (flat cs))) ->
  range_from_tree (Ctx l cs) start end_ = Some None.
Proof.
  intros Hwf H. pose proof Hwf as [HF HO]. destruct cs as [|c0 cs0] eqn:Ecs; [reflexivity|]. rewrite <- Ecs in *.
  assert (Hne : cs <> []) by (rewrite Ecs; discriminate). unfold range_from_tree. cbn [children].
  replace (match cs with [] => _ | _ :: _ => _ end) with
    (match (match end_ with
        | Some e =>
            if e <? n_end (Ctx l cs) then
              if e <=? start then Some None
              else match find_token_left_with_trail cs e with
                   | None => None
                   | Some None => Some None
                   | Some (Some (_, t)) => Some (Some (nat_trail t))
                   end
            else Some (Some [])
        | None => Some (Some [])
        end) with
      | None => None
      | Some None => Some None
      | Some (Some et) =>
          if start =? 0 then Some (Some (Range [] [] et))
          else match find_token_with_trail cs start with
               | None => None
               | Some None => Some None
               | Some (Some (_, t)) =>
                   let st := nat_trail t in
                   let n := match et with [] => 0 | _ => common_steps (Ctx l cs) st et end in
                   Some (Some (Range (firstn n st) (skipn n st) (skipn n et)))
               end
      end) by (rewrite Ecs; reflexivity).
  clear c0 cs0 Ecs.
  assert (Hfull : full (Ctx l cs)) by (constructor; assumption).
  destruct (n_end_last _ _ _ Hfull) as (tl & ts' & Etl & Hend). rewrite flatten_ctx in Etl.
  assert (Htl : In tl (flat cs)) by (rewrite Etl; apply in_or_app; right; left; reflexivity).
  assert (Htxt : k_pos tl < k_end tl) by (apply (in_order_text _ _ _ HO Htl)).
  assert (Hfirst : Forall (fun t => k_end t <= start) (flat cs) -> start <> 0 /\ find_token_with_trail cs start = Some None).
  { intros Ha. rewrite Forall_forall in Ha. split; [specialize (Ha tl Htl); cbv beta in Ha; lia|].
    pose proof (find_with_trail_spec _ _ (sel_first A (fun t => k_end t <=? start)) (c_find start) cs
                    (sel_first_ok A _) (fun cs H => c_find_pick _ _ start cs H) Hwf) as Hs.
    destruct (sel_first A (fun t => k_end t <=? start) (flat cs)) as [a|] eqn:Es; [|exact Hs].
    unfold sel_first in Es. apply find_some in Es as [Hin E]. specialize (Ha a Hin). cbv beta in Ha. lia. }
  assert (Hlast : Forall (fun t => k_end t <= start) (flat cs) -> forall e, e <? n_end (Ctx l cs) = true -> e <=? start = true).
  { intros Ha e He. rewrite Forall_forall in Ha. specialize (Ha tl Htl). cbv beta in Ha. lia. }
  assert (Hcase : Forall (fun t => k_end t <= start) (flat cs) \/ exists e, end_ = Some e /\ e < n_end (Ctx l cs) /\ (e <= start \/ Forall (fun t => e <= k_pos t) (flat cs))).
  { destruct H as [H|(e & -> & H)]; [left; exact H|]. destruct (e <? n_end (Ctx l cs)) eqn:E; [right; exists e; split; [reflexivity|]; split; [lia|exact H]|]. left.
    destruct H as [H|H].
    - apply Forall_forall. intros t Ht. rewrite Etl in Ht, HO. apply in_app_or in Ht as [Ht|[<-|[]]]; [|lia].
      pose proof (in_order_before _ _ _ _ _ HO Ht). lia.
    - rewrite Forall_forall in H. specialize (H tl Htl). cbv beta in H. lia. }
  destruct Hcase as [Ha|(e & -> & He & Hc)].
  - destruct (Hfirst Ha) as [H0 Hf]. rewrite Hf. replace (start =? 0) with false by lia.
    destruct end_ as [e|]; [|reflexivity]. destruct (e <? n_end (Ctx l cs)) eqn:E; [|reflexivity]. rewrite (Hlast Ha e E). reflexivity.
  - replace (e <? n_end (Ctx l cs)) with true by lia. destruct (e <=? start) eqn:E; [reflexivity|]. destruct Hc as [Hc|Hc]; [lia|].
    pose proof (find_with_trail_spec _ _ (sel_last A (fun t => k_pos t <? e)) (c_find_left e) cs
                  (sel_last_ok A _) (fun cs H => c_find_left_pick _ _ e cs H) Hwf) as Hs.
    destruct (sel_last A (fun t => k_pos t <? e) (flat cs)) as [b|] eqn:Es.
    + unfold sel_last, find_last in Es. apply find_some in Es as [Hin E2]. apply in_rev in Hin. rewrite Forall_forall in Hc. specialize (Hc b Hin). cbv beta in Hc. lia.
    + unfold find_token_left_with_trail. rewrite Hs. reflexivity.
Qed.

(** ** The loop that follows the language *)
Definition lex_of (d : L) (n : node L A) : L := match n with Ctx l _ => l | Tok _ => d end.
Definition rest_leaves (p : node L A) (i : nat) : list (L * tok A) :=
  match p with Ctx l cs => flat_map (ctx_leaves l) (skipn i cs) | Tok _ => [] end.
Definition is_ctx (n : node L A) : Prop := match n with Ctx _ _ => True | Tok _ => False end.
Lemma ctx_leaves_ctx l l' cs : ctx_leaves l (Ctx l' cs : node L A) = flat_map (ctx_leaves l') cs.
Proof. induction cs as [|c cs IH]; [reflexivity|]. cbn [flat_map]. rewrite <- IH. reflexivity. Qed.

Definition lcost (stack : list (nat * node L A)) : nat := list_sum (map (fun x : nat * node L A => S (cost _ _ (skipn (S (fst x)) (children (snd x))))) stack).
Lemma lang_loop_ok (get : L -> fcache A F) d bottom : forall fuel stack l cs i,
  Forall (fun x => is_ctx (snd x)) stack -> last (map (fun x => lex_of d (snd x)) stack) l = bottom ->
  cost _ _ (skipn i cs) + lcost stack < fuel ->
  lang_loop get fuel (get l) stack (Ctx l cs) cs i
  = Some (map (fun x => (get (fst x), snd x)) (rest_leaves (Ctx l cs) i ++ concat (map (fun x => rest_leaves (snd x) (S (fst x))) stack)), get bottom).
Proof.
  induction fuel as [|fuel IH]; intros stack l cs i Hst Hb Hf; [lia|]. cbn [lang_loop].
  destruct (nth_error cs i) as [[t|l' cs']|] eqn:E.
  - rewrite (skipn_nth _ _ _ _ _ E), cost_cons in Hf. cbn [size] in Hf. replace (i + 1) with (S i) by lia. rewrite IH; [|assumption|assumption|lia].
    cbn [option_map fst snd rest_leaves]. rewrite (skipn_nth _ _ _ _ _ E). cbn [flat_map ctx_leaves app map fst snd]. reflexivity.
  - rewrite (skipn_nth _ _ _ _ _ E), cost_cons, cost_ctx in Hf. rewrite IH.
    + f_equal. f_equal. f_equal. cbn [rest_leaves map concat fst snd skipn]. rewrite (skipn_nth _ _ _ _ _ E). cbn [flat_map].
      rewrite ctx_leaves_ctx, <- app_assoc. reflexivity.
    + constructor; [exact I|assumption].
    + rewrite <- Hb. cbn [map snd lex_of]. destruct stack as [|s stack]; [reflexivity|]. cbn [map last].
      assert (G : forall (xs : list L) x a b, last (x :: xs) a = last (x :: xs) b).
      { induction xs as [|y xs IHx]; intros x a b; [reflexivity|]. change (last (y :: xs) a = last (y :: xs) b). apply IHx. }
      apply G.
    + unfold lcost, list_sum in *. cbn [map fold_right fst snd children]. change (skipn 0 cs') with cs'. lia.
  - assert (Hnil : skipn i cs = []) by (apply skipn_all2; apply nth_error_None in E; exact E).
    destruct stack as [|[j p] stack].
    + cbn [rest_leaves map concat app]. rewrite Hnil. cbn [map last] in Hb. rewrite Hb. reflexivity.
    + inversion Hst as [|? ? H1 H2]; subst. cbn [snd] in H1. destruct p as [t|lp cp]; [destruct H1|]. cbn [children].
      replace (j + 1) with (S j) by lia. rewrite IH.
      * f_equal. f_equal. f_equal. cbn [rest_leaves map concat fst snd]. rewrite Hnil. reflexivity.
      * assumption.
      * cbn [map snd lex_of]. destruct stack as [|s stack]; [reflexivity|]. cbn [map last].
        assert (G : forall (xs : list L) x a b, last (x :: xs) a = last (x :: xs) b).
        { induction xs as [|y xs IHx]; intros x a b; [reflexivity|]. change (last (y :: xs) a = last (y :: xs) b). apply IHx. }
        apply G.
      * unfold lcost in Hf |- *. cbn [map list_sum fold_right fst snd children] in Hf. unfold list_sum. lia.
Qed.

Lemma leaves_flatten (n : node L A) : forall l, map snd (ctx_leaves l n) = TreeSpec.flatten n.
Proof.
  induction n as [t|l' cs IH] using node_ind'; intros l; [reflexivity|]. rewrite ctx_leaves_ctx, flatten_ctx. unfold flat.
  induction cs as [|c cs IHc]; [reflexivity|]. inversion IH; subst. cbn [flat_map map concat]. rewrite map_app, H1, IHc by assumption. reflexivity.
Qed.
End Ranges.

(** ** HTML *)
Definition esc_char (c : nat) : str :=
  if c =? 38 then [38; 97; 109; 112; 59] else if c =? 60 then [38; 108; 116; 59] else if c =? 62 then [38; 103; 116; 59] else [c].
Definition attr_char (c : nat) : str := if c =? 34 then [38; 113; 117; 111; 116; 59] else esc_char c.
Lemma replace_flat_map c by_ (f : nat -> str) (s : str) : replace_char c by_ (flat_map f s) = flat_map (fun x => replace_char c by_ (f x)) s.
Proof. unfold replace_char. induction s as [|x s IH]; [reflexivity|]. cbn [flat_map]. rewrite flat_map_app, IH. reflexivity. Qed.
Lemma escape_chars s : escape s = flat_map esc_char s.
Proof.
  unfold escape. unfold replace_char at 3. rewrite !replace_flat_map. apply flat_map_ext. intros c. unfold esc_char.
  destruct (c =? 38) eqn:E1; [reflexivity|]. unfold replace_char at 2. cbn [flat_map]. destruct (c =? 60) eqn:E2; [reflexivity|].
  unfold replace_char. cbn [flat_map app]. destruct (c =? 62); reflexivity.
Qed.
Lemma attrescape_chars s : attrescape s = flat_map attr_char s.
Proof.
  unfold attrescape. rewrite escape_chars, replace_flat_map. apply flat_map_ext. intros c. unfold attr_char, esc_char.
  destruct (c =? 38) eqn:E1; [apply Nat.eqb_eq in E1; subst; reflexivity|]. destruct (c =? 60) eqn:E2; [apply Nat.eqb_eq in E2; subst; reflexivity|].
  destruct (c =? 62) eqn:E3; [apply Nat.eqb_eq in E3; subst; reflexivity|]. unfold replace_char. cbn [flat_map app]. destruct (c =? 34); reflexivity.
Qed.

Section Read.
Variable entity : str -> option str.
Hypothesis known : knows_entities entity.

Lemma option_map_app {T} (a b : list T) (o : option (list T)) : option_map (app a) (option_map (app b) o) = option_map (app (a ++ b)) o.
Proof. destruct o; [cbn; rewrite app_assoc; reflexivity|reflexivity]. Qed.

Lemma read_escaped text : forall s, read_html entity InText (escape text ++ s) = option_map (app (map Char text)) (read_html entity InText s).
Proof.
  rewrite escape_chars. induction text as [|c text IH]; intros s; [cbn; destruct (read_html entity InText s); reflexivity|].
  cbn [flat_map map]. rewrite <- app_assoc. destruct known as (K1 & K2 & K3 & K4).
  change (Char c :: map Char text) with ([Char c] ++ map Char text). rewrite <- option_map_app, <- IH. unfold esc_char.
  destruct (c =? 38) eqn:E1; [apply Nat.eqb_eq in E1; subst c; cbn [app read_html Nat.eqb]; rewrite K1; reflexivity|].
  destruct (c =? 60) eqn:E2; [apply Nat.eqb_eq in E2; subst c; cbn [app read_html Nat.eqb]; rewrite K2; reflexivity|].
  destruct (c =? 62) eqn:E3; [apply Nat.eqb_eq in E3; subst c; cbn [app read_html Nat.eqb]; rewrite K3; reflexivity|].
  cbn [app read_html]. rewrite E1, E2, E3. reflexivity.
Qed.

Lemma read_attr text : forall n v s, read_html entity (InValue n v) (attrescape text ++ s) = read_html entity (InValue n (v ++ text)) s.
Proof.
  rewrite attrescape_chars. induction text as [|c text IH]; intros n v s; [rewrite app_nil_r; reflexivity|].
  cbn [flat_map]. rewrite <- app_assoc. destruct known as (K1 & K2 & K3 & K4).
  replace (v ++ c :: text) with ((v ++ [c]) ++ text) by (rewrite <- app_assoc; reflexivity). rewrite <- IH. unfold attr_char, esc_char.
  destruct (c =? 34) eqn:E0; [apply Nat.eqb_eq in E0; subst c; cbn [app read_html Nat.eqb]; rewrite K4; reflexivity|].
  destruct (c =? 38) eqn:E1; [apply Nat.eqb_eq in E1; subst c; cbn [app read_html Nat.eqb]; rewrite K1; reflexivity|].
  destruct (c =? 60) eqn:E2; [apply Nat.eqb_eq in E2; subst c; cbn [app read_html Nat.eqb]; rewrite K2; reflexivity|].
  destruct (c =? 62) eqn:E3; [apply Nat.eqb_eq in E3; subst c; cbn [app read_html Nat.eqb]; rewrite K3; reflexivity|].
  cbn [app read_html]. rewrite E0, E1, E2, E3. reflexivity.
Qed.

Lemma read_tag_name a : ~ In 62 a -> ~ In 34 a -> forall n v s, read_html entity (InTag n v) (a ++ s) = read_html entity (InTag (n ++ a) v) s.
Proof.
  induction a as [|c a IH]; intros H1 H2 n v s; [rewrite app_nil_r; reflexivity|]. cbn [app read_html].
  replace (c =? 62) with false by (symmetry; apply Nat.eqb_neq; intros ->; apply H1; left; reflexivity).
  replace (c =? 34) with false by (symmetry; apply Nat.eqb_neq; intros ->; apply H2; left; reflexivity).
  rewrite IH; [rewrite <- app_assoc; reflexivity|firstorder|firstorder].
Qed.
End Read.
