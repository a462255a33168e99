(** Proofs about undo and redo. *)
From Verif Require Import Base BaseFacts MutableModel MutableSpec MutableProofs DocumentModel DocumentSpec.
From Coq Require Import ZArith ZifyBool.

Implicit Types text : str.

(** ** Reversing changes *)

Lemma gen_pre text (tail a : nat) : (if tail <? a then slice text tail a else []) = slice text tail a.
Proof. destruct (tail <? a) eqn:E; [reflexivity|]. symmetry. apply slice_nil. lia. Qed.

Lemma reverse_ok text : forall cs tail h pre N,
  ordered tail cs -> (forall c, In c cs -> g_end c <= length text) -> tail <= length text ->
  N = pre ++ generate_text text tail cs ->
  (h + Z.of_nat tail = Z.of_nat (length pre))%Z ->
  generate_text N (length pre) (reverse_from text h cs) = skipn tail text
  /\ ordered (length pre) (reverse_from text h cs)
  /\ (forall c, In c (reverse_from text h cs) -> g_end c <= length N).
Proof.
  induction cs as [|c cs IH]; intros tail h pre N Ho Hl Ht HN Hh.
  - cbn [reverse_from generate_text]. split; [|split; [exact I|intros c []]].
    subst N. unfold from. cbn [generate_text]. rewrite skipn_app, skipn_all, Nat.sub_diag. reflexivity.
  - destruct Ho as (H1 & H2 & H3). assert (Hc : g_end c <= length text) by (apply Hl; left; reflexivity).
    cbn [reverse_from]. cbn [generate_text] in HN. rewrite gen_pre in HN.
    set (pre' := pre ++ slice text tail (g_start c) ++ g_text c).
    assert (Hs : length (slice text tail (g_start c)) = g_start c - tail) by (rewrite slice_length; lia).
    assert (Hp' : length pre' = length pre + (g_start c - tail) + length (g_text c)).
    { unfold pre'. rewrite !app_length, Hs. lia. }
    destruct (IH (g_end c) (h + Z.of_nat (g_start c) + (Z.of_nat (length (g_text c)) - Z.of_nat (g_end c)))%Z pre' N)
      as (E1 & E2 & E3); try assumption.
    + intros x Hx. apply Hl. right; exact Hx.
    + unfold pre'. rewrite HN, <- !app_assoc. reflexivity.
    + lia.
    + set (st := Z.to_nat (h + Z.of_nat (g_start c))).
      assert (Hst : st = length pre + (g_start c - tail)) by (unfold st; lia).
      assert (Hen : st + length (g_text c) = length pre') by lia.
      split; [|split].
      * cbn [generate_text g_start g_end g_text]. rewrite gen_pre, Hen, E1.
        assert (Es : slice N (length pre) st = slice text tail (g_start c)).
        { rewrite HN. unfold slice. rewrite skipn_app, skipn_all, Nat.sub_diag. cbn [skipn app].
          replace (st - length pre) with (g_start c - tail) by lia.
          rewrite firstn_app. rewrite firstn_all2 by (unfold slice in Hs; lia).
          fold (slice text tail (g_start c)). rewrite Hs, Nat.sub_diag. cbn [firstn]. apply app_nil_r. }
        rewrite Es, app_assoc, slice_app_slice by lia. unfold slice. 
        rewrite <- (firstn_skipn (g_end c - tail) (skipn tail text)) at 2. rewrite skipn_skipn. f_equal. f_equal. lia.
      * cbn [ordered g_start g_end]. split; [lia|]. split; [lia|]. rewrite Hen. exact E2.
      * intros x [<-|Hx]; [|apply E3; exact Hx]. cbn [g_end]. rewrite Hen, HN. unfold pre'.
        rewrite !app_length. lia.
Qed.

(** [cs] leads from text [a] to text [b]. *)
Definition leads (a : str) (cs : list change) (b : str) : Prop :=
  ordered 0 cs /\ (forall c, In c cs -> g_end c <= length a) /\ update_text a cs = b.

Lemma reverse_leads (a b : str) cs : leads a cs b -> leads b (reverse_changes a cs) a.
Proof.
  intros (H1 & H2 & H3).
  destruct (reverse_ok a cs 0 0%Z [] b H1 H2 ltac:(lia)) as (E1 & E2 & E3); [symmetry; exact H3|reflexivity|].
  split; [exact E2|]. split; [exact E3|exact E1].
Qed.

(** ** Changes that change nothing can be left out *)

Lemma ordered_weaken (a b : nat) cs : a <= b -> ordered b cs -> ordered a cs.
Proof. destruct cs; [auto|]. cbn [ordered]. intros H (H1 & H2 & H3). split; [lia|auto]. Qed.

Lemma ordered_filter f : forall cs tail, ordered tail cs -> ordered tail (filter f cs).
Proof.
  induction cs as [|c cs IH]; intros tail H; [exact I|]. destruct H as (H1 & H2 & H3). cbn [filter].
  destruct (f c); [cbn [ordered]; auto|]. apply (ordered_weaken _ (g_end c)); [lia|]. apply IH. exact H3.
Qed.

Lemma generate_text_from text : forall cs (a b : nat), a <= b -> b <= length text -> ordered b cs ->
  generate_text text a cs = slice text a b ++ generate_text text b cs.
Proof.
  intros [|c cs] a b H Hb Ho.
  - cbn [generate_text]. unfold from. rewrite <- (slice_app_from _ a b) by lia. reflexivity.
  - destruct Ho as (H1 & H2 & H3). cbn [generate_text]. rewrite !gen_pre, (app_assoc (slice text a b)).
    destruct (Nat.le_gt_cases (g_start c) (length text)).
    + rewrite slice_app_slice by lia. reflexivity.
    + f_equal. rewrite slice_app_slice by lia. reflexivity.
Qed.

Lemma generate_text_filter text : forall cs tail, ordered tail cs -> (forall c, In c cs -> g_end c <= length text) ->
  generate_text text tail (filter (does_something text) cs) = generate_text text tail cs.
Proof.
  induction cs as [|c cs IH]; intros tail H Hl; [reflexivity|]. destruct H as (H1 & H2 & H3). cbn [filter].
  assert (Hc : g_end c <= length text) by (apply Hl; left; reflexivity).
  specialize (IH (g_end c) H3 (fun x Hx => Hl x (or_intror Hx))).
  destruct (does_something text c) eqn:E.
  - cbn [generate_text]. rewrite IH. reflexivity.
  - unfold does_something in E. assert (Es : str_eqb (slice text (g_start c) (g_end c)) (g_text c) = true) by lia.
    apply str_eqb_spec in Es. cbn [generate_text]. rewrite gen_pre, <- Es, app_assoc, slice_app_slice by lia.
    rewrite <- IH. apply generate_text_from; [lia|exact Hc|]. apply ordered_filter. exact H3.
Qed.

Lemma leads_filter (a b : str) cs : leads a cs b -> leads a (filter (does_something a) cs) b.
Proof.
  intros (H1 & H2 & H3). split; [apply ordered_filter; exact H1|]. split.
  - intros c Hc. apply filter_In in Hc. apply H2, Hc.
  - rewrite <- H3. apply generate_text_filter; assumption.
Qed.

Lemma leads_edited a cs b : leads a cs b -> edited a cs = b.
Proof. intros (H1 & H2 & H3). rewrite <- H3. symmetry. apply update_text_edited; assumption. Qed.

(** ** One application of changes *)

Lemma d_apply_ok m s text c d es : d_m s = MState text c d ->
  pending text d es -> (forall a b, In a es -> In b es -> ~ cuts a b) -> es <> [] ->
  exists cs p r (a : nat), leads text cs (edited text es) /\ splice_of text (edited text es) p r a
    /\ d_apply m s = (let '(s1, evs) := d_update_text m cs s in
                      (with_m s1 (MState (edited text es) c []), evs ++ [ETextChange p r a], false)).
Proof.
  intros Hm (H1 & H2 & H3 & H5) Hc Hes. unfold d_apply. rewrite Hm. cbn [m_pend m_text m_ctx]. destruct d as [|x d].
  - assert (es = []) by tauto. congruence.
  - destruct (get_changes (x :: d)) as [cs|] eqn:E.
    + destruct (get_changes_some text _ _ H1 ltac:(discriminate) E) as (C1 & (tail & C2) & C3 & C4 & _).
      { intros e He. apply H3. apply (same_groups_in _ _ _ H2). exact He. }
      destruct (summary_splice text cs tail C1 C2 C3) as (p & r & a & E1 & E2). rewrite E1.
      assert (Ho : ordered 0 cs) by (apply (ordered_weaken _ tail); [lia|exact C2]).
      assert (E3 : update_text text cs = edited text es).
      { rewrite update_text_edited by assumption. rewrite C4. apply edited_same. exact H2. }
      exists cs, p, r, a. rewrite <- E3. split; [split; [exact Ho|split; [exact C3|reflexivity]]|].
      split; [exact E2|]. unfold d_update_text, store_undo, set_modified. rewrite Hm. cbn [m_text m_ctx m_pend].
      destruct s as [sm smod su sr sen srev]. cbn [d_m d_mod d_undo d_redo d_enabled d_rev] in *. subst sm.
      destruct m, sen; cbn [d_m d_mod d_undo d_redo d_enabled d_rev m_text m_ctx m_pend negb]; reflexivity.
    + exfalso. destruct (get_changes_none _ H1 E) as (a & b & Ha & Hb & Hab).
      apply (Hc a b); [| |exact Hab]; apply (same_groups_in _ _ _ H2); assumption.
Qed.

(** ** Edits inside a context do nothing but collect *)

Lemma d_inside_run : forall ops n m s, 1 <= n -> inside n ops m -> m_ctx (d_m s) = n ->
  exists exc, d_run s (map DEdit ops) = (with_m s (fst (m_run (d_m s) ops)), [], exc)
    /\ m_ctx (fst (m_run (d_m s) ops)) = m.
Proof.
  induction ops as [|o ops IH]; intros n m s Hn Hi Hs.
  - exists false. simpl in *. subst. split; [destruct s; reflexivity|reflexivity].
  - assert (HH : forall m' n', 1 <= n' -> inside n' ops m -> m_ctx m' = n' -> m_op (d_m s) o = (m', snd (m_op (d_m s) o)) ->
                 (exists x, d_op s (DEdit o) = (with_m s m', [], x)) ->
                 exists exc, d_run s (map DEdit (o :: ops)) = (with_m s (fst (m_run (d_m s) (o :: ops))), [], exc)
                   /\ m_ctx (fst (m_run (d_m s) (o :: ops))) = m).
    { intros m' n' Hn' Hi' Hm' Em [x Ex]. cbn [map d_run m_run]. rewrite Ex, Em.
      destruct (IH n' m (with_m s m') Hn' Hi' Hm') as (exc & E & E'). rewrite E.
      cbn [with_m d_m] in *. destruct (m_run m' ops) as [m2 o2]. cbn [fst] in *.
      exists (x || exc). split; [reflexivity|exact E']. }
    destruct o as [|exc|k t|t]; cbn [inside] in Hi.
    + apply (HH (m_enter (d_m s)) (S n)); [lia|exact Hi|unfold m_enter; cbn [m_ctx]; lia|reflexivity|].
      exists false. reflexivity.
    + destruct exc; [destruct Hi|]. destruct Hi as [H1 Hi].
      apply (HH (MState (m_text (d_m s)) (m_ctx (d_m s) - 1) (m_pend (d_m s))) (n - 1));
        [lia|exact Hi|cbn [m_ctx]; lia| |].
      * cbn [m_op]. unfold m_exit. replace (1 <? m_ctx (d_m s)) with true by lia. reflexivity.
      * exists false. cbn [d_op]. unfold d_exit. replace (1 <? m_ctx (d_m s)) with true by lia. reflexivity.
    + cbn [m_op] in HH. unfold m_setitem in HH. destruct (parse_key (length (m_text (d_m s))) k) as [(i, j)|] eqn:Ek.
      * destruct (effective (m_text (d_m s)) (Change i j t)) eqn:Ee.
        -- cbn [m_text m_ctx m_pend] in HH. replace (m_ctx (d_m s) =? 0) with false in HH by lia.
           eapply HH; [exact Hn|exact Hi| |reflexivity|].
           ++ exact Hs.
           ++ exists false. cbn [d_op]. unfold d_setitem. rewrite Ek, Ee. cbn [with_m d_m m_ctx].
              replace (m_ctx (d_m s) =? 0) with false by lia. reflexivity.
        -- apply (HH (d_m s) n); auto. exists false. cbn [d_op]. unfold d_setitem. rewrite Ek, Ee. destruct s; reflexivity.
      * apply (HH (d_m s) n); auto. exists true. cbn [d_op]. unfold d_setitem. rewrite Ek. destruct s; reflexivity.
    + destruct Hi.
Qed.

Lemma d_run_app s a b : d_run s (a ++ b) =
  let '(s1, e1, x1) := d_run s a in let '(s2, e2, x2) := d_run s1 b in (s2, e1 ++ e2, x1 || x2).
Proof.
  revert s. induction a as [|o a IH]; intros s; cbn [app d_run].
  - destruct (d_run s b) as [[? ?] ?]; reflexivity.
  - destruct (d_op s o) as [[s' e'] x']. rewrite IH. destruct (d_run s' a) as [[s1 e1] x1].
    destruct (d_run s1 b) as [[s2 e2] x2]. rewrite app_assoc, orb_assoc. reflexivity.
Qed.

(** A whole batch. *)
Lemma d_batch s text ops : d_m s = MState text 0 [] -> inside 1 ops 1 ->
  (forall a b, In a (batch text ops) -> In b (batch text ops) -> ~ cuts a b) ->
  exists d exc, pending text d (batch text ops) /\
    d_run s (map DEdit (Enter :: ops ++ [Exit_ false]))
    = (let '(s, evs, x) := d_apply Normal (with_m s (MState text 0 d)) in (s, evs, exc || x)).
Proof.
  intros Hm Hi Hc.
  destruct (inside_run text ops 1 1 [] [] ltac:(lia) Hi (pending_nil text)) as (d & outs & E & Hp & _).
  cbn [app] in Hp.
  destruct (d_inside_run ops 1 1 (with_m s (MState text 1 [])) ltac:(lia) Hi eq_refl) as (exc & E2 & _).
  cbn [with_m d_m] in E2. rewrite E in E2. cbn [fst] in E2. exists d, exc. split; [exact Hp|].
  cbn [map d_run d_op]. unfold m_enter. rewrite Hm. cbn [m_text m_ctx m_pend].
  rewrite map_app, d_run_app. unfold with_m in *. rewrite E2. cbn [map d_run d_op]. unfold d_exit.
  cbn [d_m m_ctx m_text m_pend]. replace (1 <? 1) with false by reflexivity. unfold with_m.
  cbn [d_m d_mod d_undo d_redo d_enabled d_rev].
  destruct (d_apply _ _) as [[s' e'] x']. cbn [app]. rewrite app_nil_r, orb_false_r. reflexivity.
Qed.

(** ** Replaying an entry of a stack *)

Lemma parse_key_nat text c : in_text text c ->
  parse_key (length text) (KSlice (Some (Z.of_nat (g_start c))) (Some (Z.of_nat (g_end c)))) = Some (g_start c, g_end c).
Proof.
  intros [H1 H2]. rewrite parse_key_span. unfold key_span. f_equal.
  replace (Z.of_nat (g_start c) <? 0)%Z with false by lia. replace (Z.of_nat (g_end c) <? 0)%Z with false by lia.
  f_equal; lia.
Qed.

Lemma change_eta c : Change (g_start c) (g_end c) (g_text c) = c.
Proof. destruct c; reflexivity. Qed.

Lemma d_sets_ok md text : forall cs s n d es, d_m s = MState text (S n) d -> pending text d es ->
  (forall c, In c cs -> in_text text c) ->
  exists d', d_sets md cs s = (with_m s (MState text (S n) d'), [], false)
    /\ pending text d' (es ++ filter (does_something text) cs).
Proof.
  induction cs as [|c cs IH]; intros s n d es Hm Hp Hin.
  - exists d. cbn [d_sets filter]. rewrite app_nil_r. split; [|exact Hp]. destruct s as [s1 s2 s3 s4 s5 s6]; cbn [d_m] in Hm; subst; reflexivity.
  - cbn [d_sets filter]. unfold d_setitem. rewrite Hm. cbn [m_text m_ctx m_pend].
    assert (Hc : in_text text c) by (apply Hin; left; reflexivity).
    rewrite (parse_key_nat _ _ Hc), change_eta, (effective_does _ _ Hc).
    assert (Hin' : forall x, In x cs -> in_text text x) by (intros x Hx; apply Hin; right; exact Hx).
    destruct (does_something text c).
    + cbn [with_m d_m m_ctx]. replace (S n =? 0) with false by reflexivity.
      destruct (IH (with_m s (MState text (S n) (dict_add (g_start c) (g_end c) (g_text c) d))) n _ _ eq_refl
                  (pending_add text d es (g_start c) (g_end c) (g_text c) Hp Hc) Hin') as (d' & E & Hp').
      exists d'. rewrite change_eta, <- app_assoc in Hp'. split; [|exact Hp'].
      unfold with_m in E |- *. cbn [d_m d_mod d_undo d_redo d_enabled d_rev] in E |- *. rewrite E. reflexivity.
    + destruct (IH s n d es Hm Hp Hin') as (d' & E & Hp'). rewrite E. exists d'. auto.
Qed.

Lemma leads_in_text a cs b c : leads a cs b -> In c cs -> in_text a c.
Proof. intros (H1 & H2 & _) H. split; [apply (ordered_in _ _ H1 c H)|apply H2; exact H]. Qed.

Lemma d_replay_ok md e s text b : d_m s = MState text 0 [] -> leads text (fst e) b ->
  (filter (does_something text) (fst e) = [] /\ b = text
   /\ d_replay md e s = (let '(s3, e3) := set_modified Normal (snd e) s in (s3, e3, false)))
  \/ (exists cs p r (a : nat), leads text cs b /\ splice_of text b p r a /\ filter (does_something text) (fst e) <> []
      /\ d_replay md e s = (let '(s1, evs) := d_update_text md cs (with_m s (m_enter (d_m s))) in
                            let '(s3, e3) := set_modified Normal (snd e) (with_m s1 (MState b 0 [])) in
                            (s3, evs ++ [ETextChange p r a] ++ e3, false))).
Proof.
  intros Hm Hl. unfold d_replay.
  destruct (d_sets_ok md text (fst e) (with_m s (m_enter (d_m s))) 0 [] []) as (d' & E & Hp).
  { cbn [with_m d_m]. unfold m_enter. rewrite Hm. reflexivity. }
  { apply pending_nil. }
  { intros c Hc. apply (leads_in_text _ _ _ _ Hl Hc). }
  rewrite E. cbn [app] in Hp. pose proof (leads_filter _ _ _ Hl) as Hf.
  unfold d_exit. cbn [with_m d_m m_ctx m_text m_pend]. replace (1 <? 1) with false by reflexivity.
  destruct (filter (does_something text) (fst e)) as [|c0 es] eqn:Ef.
  - left. assert (d' = []) by (apply Hp; reflexivity). subst d'. split; [reflexivity|].
    split. { destruct Hf as (_ & _ & <-). reflexivity. }
    unfold d_apply, with_m. cbn [d_m d_mod d_undo d_redo d_enabled d_rev m_pend orb app].
    replace (DState (MState text 0 []) (d_mod s) (d_undo s) (d_redo s) (d_enabled s) (d_rev s)) with s
      by (destruct s as [s1 s2 s3 s4 s5 s6]; cbn [d_m] in Hm; subst; reflexivity).
    destruct (set_modified Normal (snd e) s). reflexivity.
  - right. destruct (d_apply_ok md (with_m s (MState text 0 d')) text 0 d' _ eq_refl Hp) as (cs & p & r & a & L & Hs & Ea).
    + apply (ordered_no_cut _ 0). apply Hf.
    + discriminate.
    + rewrite (leads_edited _ _ _ Hf) in *. exists cs, p, r, a. split; [exact L|]. split; [exact Hs|].
      split; [discriminate|]. unfold with_m in Ea |- *. cbn [d_mod d_undo d_redo d_enabled d_rev d_m] in Ea |- *. rewrite Ea.
      unfold d_update_text, store_undo, set_modified, m_enter, check_undo_state, can_undo, can_redo. rewrite Hm.
      cbn [m_text m_ctx m_pend d_m d_mod d_undo d_redo d_enabled d_rev].
      destruct (d_enabled s), md; cbn [m_text m_ctx m_pend d_m d_mod d_undo d_redo d_enabled d_rev orb app];
        rewrite <- ?app_assoc; reflexivity.
Qed.
