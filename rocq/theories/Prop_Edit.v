(** C17-C21: editing a mutable string in batches. *)
From Verif Require Import Base BaseFacts MutableModel MutableSpec MutableProofs.
From Coq Require Import ZArith ZifyBool.

(** Batch used in the examples: on "abcdef", nested contexts, edits in mixed order, two insertions
    at one place, negative numbers in a key. *)
Definition text_abc : str := [97; 98; 99; 100; 101; 102].
Definition batch_abc : list mop :=
  [Set_ (KSlice (Some (-2)%Z) None) [88]; Enter; Set_ (KSlice (Some 1) (Some 1))%Z [89]; Exit_ false;
   Set_ (KSlice (Some 1) (Some 1))%Z [90]; Set_ (KSlice (Some 2) (Some 4))%Z []].

(** C18. A batch of edits, made anywhere between [__enter__] and the last [__exit__] in any nesting,
    of which none starts inside the piece another one replaces: as long as the batch lasts the
    text does not change, and in the end all edits that change something take effect, once, on the
    original text; the state is ready for the next edit. *)
Theorem C18_batch_applies_all_edits :
  forall (text : str) (ops : list mop),
    inside 1 ops 1 ->
    let edits := filter (does_something text) (flat_map (edit_of text) ops) in
    (forall a b, In a edits -> In b edits -> ~ cuts a b) ->
    (exists outs, m_run (MState text 0 []) (Enter :: ops ++ [Exit_ false]) = (MState (edited text edits) 0 [], outs))
    /\ forall before after, ops = before ++ after ->
         m_text (fst (m_run (MState text 0 []) (Enter :: before))) = text.
Proof.
  intros text ops Hi edits Hc. split.
  - destruct (batch_ok text ops Hi Hc) as (outs & out & E & _). eauto.
  - intros before after ->. destruct (inside_app _ _ _ _ Hi) as [k Hk].
    destruct (inside_run text before 1 k [] [] ltac:(lia) Hk (pending_nil text)) as (d & outs & E & _).
    cbn [m_run m_op]. unfold m_enter. cbn [m_text m_ctx m_pend]. rewrite E. reflexivity.
Qed.
Print Assumptions C18_batch_applies_all_edits.

(** If no two edits start at the same place, it does not matter that edits that change nothing are
    left out. (If they do, it matters: replacing "ab" by "ab" and then inserting "X" before it gives
    "Xab", replacing "ab" by "cd" and then inserting "X" gives "cdX".) *)
Theorem C18_useless_edits_do_not_matter :
  forall (text : str) (ops : list mop),
    let edits := flat_map (edit_of text) ops in
    NoDup (map g_start edits) -> (forall a b, In a edits -> In b edits -> ~ cuts a b) ->
    edited text (filter (does_something text) edits) = edited text edits.
Proof.
  intros text ops edits Hnd Hc. symmetry. apply (edited_batch text edits []); try assumption.
  intros e He. exact (edits_in_text text ops e He).
Qed.
Print Assumptions C18_useless_edits_do_not_matter.

(** A single edit outside an edit context. *)
Theorem C18_single_edit :
  forall (text : str) (k : key) (t : str),
    match key_piece (length text) k with
    | None => m_op (MState text 0 []) (Set_ k t) = (MState text 0 [], Raised)
    | Some (a, b) => m_text (fst (m_op (MState text 0 []) (Set_ k t))) = firstn a text ++ t ++ skipn b text
                     /\ (slice text a b = t -> m_op (MState text 0 []) (Set_ k t) = (MState text 0 [], Quiet))
                     /\ (slice text a b <> t -> exists p r n, m_op (MState text 0 []) (Set_ k t)
                           = (MState (firstn a text ++ t ++ skipn b text) 0 [], TextChanged p r n))
    end.
Proof.
  intros text k t. rewrite key_piece_parse. destruct (parse_key (length text) k) as [[a b]|] eqn:E.
  2:{ cbn [m_op]. unfold m_setitem. cbn [m_text]. rewrite E. reflexivity. }
  pose proof (parse_key_ok text k a b t E) as Hin.
  assert (H1 : slice text a b = t -> m_op (MState text 0 []) (Set_ k t) = (MState text 0 [], Quiet)).
  { intros Hs. cbn [m_op]. unfold m_setitem. cbn [m_text]. rewrite E, (effective_does _ _ Hin).
    unfold does_something. cbn [g_start g_end g_text]. rewrite Hs, str_eqb_refl. reflexivity. }
  assert (H2 : slice text a b <> t -> exists p r n, m_op (MState text 0 []) (Set_ k t)
                           = (MState (firstn a text ++ t ++ skipn b text) 0 [], TextChanged p r n)).
  { intros Hs. destruct (single_ok text k t a b E) as (p & r & n & E1 & _).
    - unfold does_something. cbn [g_start g_end g_text]. destruct (str_eqb _ _) eqn:Es; [|reflexivity].
      apply str_eqb_spec in Es. congruence.
    - eauto. }
  split; [|split; assumption]. destruct (list_eq_dec Nat.eq_dec (slice text a b) t) as [Hs|Hs].
  - rewrite (H1 Hs). cbn [fst m_text]. rewrite <- Hs. destruct Hin as [Ha Hb]. cbn [g_start g_end] in *.
    rewrite <- slice_0, app_assoc, slice_app_slice by lia. rewrite slice_0. symmetry. apply firstn_skipn.
  - destruct (H2 Hs) as (p & r & n & E2). rewrite E2. reflexivity.
Qed.
Print Assumptions C18_single_edit.

(** C64. Reading [d[k]] gives the piece of text of the key. *)
Theorem C64_reading_a_piece :
  forall (text : str) (k : key),
    getitem text k = match key_piece (length text) k with Some (a, b) => Some (slice text a b) | None => None end.
Proof.
  intros text k. rewrite key_piece_parse. unfold getitem. destruct (parse_key (length text) k) as [[a b]|]; [|reflexivity].
  destruct (Nat.eqb_spec a b) as [->|Hab]; [rewrite slice_nil by lia; reflexivity|].
  destruct (Nat.eqb_spec a 0) as [->|Ha]; cbn [andb]; [|reflexivity].
  destruct (Nat.eqb_spec b (length text)) as [->|Hb]; [|reflexivity]. rewrite slice_all. reflexivity.
Qed.
Print Assumptions C64_reading_a_piece.

(** ... and after an edit outside a context the new text can be read where it was put. *)
Theorem C64_reading_back_an_edit :
  forall (text t : str) (k : key) (a b : nat), key_piece (length text) k = Some (a, b) ->
    let new := m_text (fst (m_op (MState text 0 []) (Set_ k t))) in
    getitem new (KSlice (Some (Z.of_nat a)) (Some (Z.of_nat (a + length t)))) = Some t.
Proof.
  intros text t k a b E new. pose proof (C18_single_edit text k t) as H. rewrite E in H. destruct H as [H _]. fold new in H.
  rewrite key_piece_parse in E. pose proof (parse_key_ok text k a b t E) as [H1 H2]. cbn [g_start g_end] in *.
  rewrite C64_reading_a_piece, H. cbn [key_piece]. unfold key_span.
  rewrite !app_length, firstn_length, skipn_length.
  replace (Z.of_nat a <? 0)%Z with false by lia. replace (Z.of_nat (a + length t) <? 0)%Z with false by lia.
  f_equal. transitivity (slice (firstn a text ++ t ++ skipn b text) a (a + length t)).
  - f_equal; lia.
  - unfold slice. rewrite skipn_app, skipn_all2 by (rewrite firstn_length; lia). rewrite firstn_length.
    replace (a - Nat.min a (length text)) with 0 by lia. cbn [skipn app]. replace (a + length t - a) with (length t) by lia.
    rewrite firstn_app, firstn_all, Nat.sub_diag. cbn [firstn]. apply app_nil_r.
Qed.
Print Assumptions C64_reading_back_an_edit.

Example C64_example : getitem text_abc (KInt (-1)) = Some [102] /\ getitem text_abc (KInt 6) = None
  /\ getitem text_abc (KSlice (Some (-3)%Z) (Some 5%Z)) = Some [100; 101]
  /\ getitem text_abc (KSlice (Some 4%Z) (Some 2%Z)) = Some [].
Proof. repeat split. Qed.

Example C18_example : inside 1 batch_abc 1
  /\ (forall a b, In a (filter (does_something text_abc) (flat_map (edit_of text_abc) batch_abc)) ->
        In b (filter (does_something text_abc) (flat_map (edit_of text_abc) batch_abc)) -> ~ cuts a b)
  /\ edited text_abc (filter (does_something text_abc) (flat_map (edit_of text_abc) batch_abc)) = [97; 89; 90; 98; 88].
Proof.
  split; [simpl; lia|]. split; [|vm_compute; reflexivity].
  change (filter (does_something text_abc) (flat_map (edit_of text_abc) batch_abc))
    with [Change 4 6 [88]; Change 1 1 [89]; Change 1 1 [90]; Change 2 4 []].
  intros a b Ha Hb. unfold cuts.
  simpl in Ha, Hb. intuition (subst; simpl in *; lia).
Qed.

(** C17. The numbers handed to [text_changed] after a batch or a single edit describe the change:
    the text before [position] and after the [removed] characters is unchanged, and what is between
    has length [added]. There is no notification when nothing was changed. *)
Theorem C17_notification_describes_the_edit :
  forall (text : str) (ops : list mop),
    inside 1 ops 1 ->
    let edits := filter (does_something text) (flat_map (edit_of text) ops) in
    (forall a b, In a edits -> In b edits -> ~ cuts a b) ->
    exists new outs out, m_run (MState text 0 []) (Enter :: ops ++ [Exit_ false]) = (MState new 0 [], outs ++ [out])
      /\ (forall p r a, ~ In (TextChanged p r a) outs)
      /\ match out with
         | Quiet => edits = [] /\ new = text
         | TextChanged position removed added => edits <> [] /\ splice_of text new position removed added
         | Raised => False
         end.
Proof.
  intros text ops Hi edits Hc. destruct (batch_ok text ops Hi Hc) as (outs & out & E & Hq & Hout).
  exists (edited text edits), outs, out. split; [exact E|]. split.
  - intros p r a Hin. rewrite Forall_forall in Hq. destruct (Hq _ Hin); discriminate.
  - destruct out as [|p r a|]; [|exact Hout|exact Hout]. split; [exact Hout|]. unfold edits. unfold batch in Hout.
    rewrite Hout. pose proof (update_text_edited text [] I) as Ee. rewrite <- Ee; [reflexivity|intros c []].
Qed.
Print Assumptions C17_notification_describes_the_edit.

Theorem C17_notification_of_a_single_edit :
  forall (text : str) (k : key) (i j : nat) (t : str),
    parse_key (length text) k = Some (i, j) -> slice text i j <> t ->
    exists position removed added,
      m_op (MState text 0 []) (Set_ k t)
        = (MState (firstn i text ++ t ++ skipn j text) 0 [], TextChanged position removed added)
      /\ splice_of text (firstn i text ++ t ++ skipn j text) position removed added.
Proof.
  intros text k i j t Ek H. apply single_ok; [exact Ek|].
  unfold does_something. cbn [g_start g_end g_text]. destruct (str_eqb _ _) eqn:Es; [|reflexivity].
  apply str_eqb_spec in Es. congruence.
Qed.
Print Assumptions C17_notification_of_a_single_edit.

Example C17_example : snd (m_run (MState text_abc 0 []) (Enter :: batch_abc ++ [Exit_ false]))
  = [Quiet; Quiet; Quiet; Quiet; Quiet; Quiet; Quiet; TextChanged 1 5 4].
Proof. vm_compute. reflexivity. Qed.

(** C19. An exception at any nesting level of a batch: the state is the one before the batch. *)
Theorem C19_exception_discards_the_batch :
  forall (text : str) (ops : list mop) (level : nat),
    inside 1 ops level ->
    exists outs, m_run (MState text 0 []) (Enter :: ops ++ [Exit_ true]) = (MState text 0 [], outs)
      /\ forall p r a, ~ In (TextChanged p r a) outs.
Proof.
  intros text ops n Hi. destruct (batch_exception text ops n Hi) as (outs & E & Hq). exists outs. split; [exact E|].
  intros p r a Hin. rewrite Forall_forall in Hq. destruct (Hq _ Hin); discriminate.
Qed.
Print Assumptions C19_exception_discards_the_batch.
Example C19_example : inside 1 (batch_abc ++ [Enter; Set_ (KInt 0%Z) [1]]) 2.
Proof. simpl. lia. Qed.

(** C20. After any rejected batch the document is stuck: the rejected edits stay pending, and
    whatever is done afterwards (unless an exception leaves another edit context) never changes
    the text again; an edit outside an edit context raises, whatever it is. *)
Theorem C20_rejected_batch_refuted :
  forall (text : str) (ops : list mop) (a b : change),
    inside 1 ops 1 ->
    let edits := filter (does_something text) (flat_map (edit_of text) ops) in
    In a edits -> In b edits -> cuts a b ->
    exists s outs, m_run (MState text 0 []) (Enter :: ops ++ [Exit_ false]) = (s, outs ++ [Raised])
      /\ m_ctx s = 0
      /\ (forall k i j t, parse_key (length text) k = Some (i, j) -> slice text i j <> t ->
            snd (m_op s (Set_ k t)) = Raised /\ m_text (fst (m_op s (Set_ k t))) = text)
      /\ forall later, Forall no_exception later -> m_text (fst (m_run s later)) = text.
Proof.
  intros text ops a b Hi edits Ha Hb Hab. destruct (batch_cut text ops a b Hi Ha Hb Hab) as (outs & d & E & Hp).
  exists (MState text 0 d), outs. split; [exact E|]. split; [reflexivity|]. split.
  - intros k i j t Ek Hne. cbn [m_op]. unfold m_setitem. cbn [m_text m_ctx m_pend]. rewrite Ek.
    pose proof (parse_key_ok text k i j t Ek) as Hin. rewrite (effective_does _ _ Hin).
    replace (does_something text (Change i j t)) with true.
    + rewrite Nat.eqb_refl. rewrite (apply_cut text 0 _ _ a b (pending_add _ _ _ _ _ _ Hp Hin)).
      * split; reflexivity.
      * apply in_app_iff. left; exact Ha.
      * apply in_app_iff. left; exact Hb.
      * exact Hab.
    + symmetry. unfold does_something. cbn [g_start g_end g_text]. destruct (str_eqb _ _) eqn:Es; [|reflexivity].
      apply str_eqb_spec in Es. congruence.
  - intros later Hl. destruct (frozen text a b Hab later 0 d _ Hp Ha Hb Hl) as (n' & d' & o' & E' & _).
    rewrite E'. reflexivity.
Qed.
Print Assumptions C20_rejected_batch_refuted.
Example C20_example : let ops := [Set_ (KSlice (Some 0) (Some 3))%Z [88]; Set_ (KSlice (Some 2) (Some 4))%Z [89]] in
  inside 1 ops 1 /\ exists a b, filter (does_something text_abc) (flat_map (edit_of text_abc) ops) = [a; b] /\ cuts a b.
Proof. split; [reflexivity|]. do 2 eexists. split; [vm_compute; reflexivity|]. unfold cuts. simpl. lia. Qed.

(** What does hold: the text itself is not changed by the rejected batch, and an exception that
    leaves a later edit context makes the document usable again. Missing: that it is usable
    directly. *)
Theorem C20_rejected_batch_partial :
  forall (text : str) (ops : list mop) (a b : change),
    inside 1 ops 1 ->
    let edits := filter (does_something text) (flat_map (edit_of text) ops) in
    In a edits -> In b edits -> cuts a b ->
    exists s outs, m_run (MState text 0 []) (Enter :: ops ++ [Exit_ false]) = (s, outs)
      /\ m_text s = text
      /\ fst (m_run s [Enter; Exit_ true]) = MState text 0 [].
Proof.
  intros text ops a b Hi edits Ha Hb Hab. destruct (batch_cut text ops a b Hi Ha Hb Hab) as (outs & d & E & Hp).
  do 2 eexists. split; [exact E|]. split; reflexivity.
Qed.
Print Assumptions C20_rejected_batch_partial.

(** C21. Two edits that start at the same place and replace overlapping pieces are applied. *)
Theorem C21_overlap_at_same_start_refuted :
  exists (text : str) (ops : list mop) (a b : change),
    inside 1 ops 1
    /\ filter (does_something text) (flat_map (edit_of text) ops) = [a; b] /\ overlap a b
    /\ exists s outs, m_run (MState text 0 []) (Enter :: ops ++ [Exit_ false]) = (s, outs)
         /\ ~ In Raised outs /\ m_text s <> text.
Proof.
  exists text_abc, [Set_ (KSlice (Some 0) (Some 4))%Z [88]; Set_ (KSlice (Some 0) (Some 2))%Z [89]].
  exists (Change 0 4 [88]), (Change 0 2 [89]). split; [reflexivity|]. split; [vm_compute; reflexivity|].
  split; [exists 0; simpl; lia|]. do 2 eexists. split; [vm_compute; reflexivity|].
  split; [simpl; intuition discriminate|discriminate].
Qed.
Print Assumptions C21_overlap_at_same_start_refuted.

(** What does hold: a batch is rejected exactly if one edit starts strictly inside a piece that
    another one replaces. Missing: overlapping edits with the same start. *)
Theorem C21_overlap_rejected_partial :
  forall (text : str) (ops : list mop),
    inside 1 ops 1 ->
    let edits := filter (does_something text) (flat_map (edit_of text) ops) in
    let '(s, outs) := m_run (MState text 0 []) (Enter :: ops ++ [Exit_ false]) in
    (last_opt outs = Some Raised <-> exists a b, In a edits /\ In b edits /\ cuts a b)
    /\ (last_opt outs = Some Raised -> m_text s = text).
Proof.
  intros text ops Hi edits. destruct (m_run (MState text 0 []) (Enter :: ops ++ [Exit_ false])) as [s outs] eqn:E.
  assert (Hdec : (exists a b, In a edits /\ In b edits /\ cuts a b) \/ forall a b, In a edits -> In b edits -> ~ cuts a b).
  { destruct (existsb (fun a => existsb (fun b => (g_start a <? g_start b) && (g_start b <? g_end a)) edits) edits) eqn:Ed.
    - left. apply existsb_exists in Ed as (a & Ha & Ed). apply existsb_exists in Ed as (b & Hb & Ed).
      exists a, b. unfold cuts. repeat split; try assumption; lia.
    - right. intros a b Ha Hb Hab. apply Bool.not_true_iff_false in Ed. apply Ed. apply existsb_exists.
      exists a. split; [exact Ha|]. apply existsb_exists. exists b. split; [exact Hb|]. unfold cuts in Hab. lia. }
  destruct Hdec as [(a & b & Ha & Hb & Hab)|Hc].
  - destruct (batch_cut text ops a b Hi Ha Hb Hab) as (outs' & d & E' & Hp). rewrite E in E'.
    injection E' as -> ->. rewrite last_opt_app. split; [split; [eauto|reflexivity]|reflexivity].
  - destruct (batch_ok text ops Hi Hc) as (outs' & out & E' & _ & Ho). rewrite E in E'.
    injection E' as -> ->. rewrite last_opt_app. split.
    + split; [intros [= ->]; destruct Ho|]. intros (a & b & Ha & Hb & Hab). exfalso. exact (Hc a b Ha Hb Hab).
    + intros [= ->]. destruct Ho.
Qed.
Print Assumptions C21_overlap_rejected_partial.
