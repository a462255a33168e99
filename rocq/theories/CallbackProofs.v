(** Proofs about the callbacks of a worker. *)
From Verif Require Import Base WorkModel WorkSpec WorkProofs CallbackModel.
From Coq Require Import ZArith ZifyBool.

Lemma mem_spec : forall x l, mem x l = true <-> In x l.
Proof.
  intros x l. unfold mem. rewrite existsb_exists. split.
  - intros [y [H E]]. apply Nat.eqb_eq in E. now subst.
  - intros H. exists x. split; [exact H | apply Nat.eqb_refl].
Qed.

Definition before_done (p : wproc) : bool := active p || match p with PRelease | PSetDone => true | _ => false end.
Definition past (p : wproc) : bool := match p with PSetIdle | PTransform | PFinally | PEnd _ => true | _ => false end.
Definition late (p : wproc) : bool := match p with PClear | PRelease | PSetDone | PSetIdle => true | _ => false end.

(** While a caller waits, a process is about to be started, or one is building. *)
Definition occupied (s : wstate) : Prop := waits s = true -> w_call s 0 = CSpawn \/ exists i, before_done (w_proc s i) = true.
Definition emitted_ok (s : cstate) : Prop :=
  forall i, In i (c_emitted s) -> past (w_proc (c_w s) i) = true.

Lemma not_ended : forall p, before_done p = true -> ~ ended p.
Proof. intros p H [-> | [ok ->]]; discriminate. Qed.

Record all_inv (s : wstate) : Prop := {
  ai_inv : inv s; ai_alone : alone s; ai_occ : occupied s; ai_single : exists o, single s o }.

Lemma all_init : all_inv w_init.
Proof. constructor; [exact inv_init | exact alone_init | intros H; discriminate | exists None; exact single_init]. Qed.

(** What a step does to the processes. *)
Lemma proc_change : forall s s' i, proc_step s i = Some s' -> exists p, w_proc s' = wset (w_proc s) i p /\ w_call s' = w_call s /\ w_added s' = w_added s.
Proof.
  intros s s' i H. unfold proc_step in H.
  destruct (w_proc s i) as [| | es | es | es | es | es base | es base | es base | es base | | | | | | | | ok] eqn:Hp; try discriminate;
    try (destruct (w_lock s); [discriminate |]); try (destruct (w_changes s)); try (destruct es);
    (match type of H with Some ?u = Some _ => assert (E2 : s' = u) by congruence; clear H; subst s' end); eexists; repeat split; reflexivity.
Qed.

Lemma step_occupied : forall s s' l, all_inv s -> from_main l ->
  match l with Caller t => w_call s t = CStart -> all_ended s | _ => True end -> w_step s l = Some s' -> occupied s'.
Proof.
  intros s s' l [I A O [o G]] F K H. destruct (step_single _ _ _ _ I G F H) as [o' G']. destruct l as [t e | t | t | i | i | i]; cbn [from_main w_step] in *; try contradiction.
  - subst t. destruct (w_call s 0) eqn:Hc; try discriminate. injection H as <-. intros W. destruct (O W) as [X | X]; [congruence | right; exact X].
  - unfold call_step in H.
    assert (t = 0) as ->. { destruct (Nat.eq_dec t 0) as [X | X]; [exact X |]. rewrite (sg_call _ _ G t X) in H. discriminate. }
    destruct (w_call s 0) as [| e | | | |] eqn:Hc; try discriminate.
    + destruct (w_lock s); [discriminate |]. injection H as <-. intros W. destruct (O W) as [X | X]; [congruence | right; exact X].
    + injection H as <-. intros W. destruct (O W) as [X | X]; [congruence | right; exact X].
    + injection H as <-. intros W. destruct (O W) as [X | X]; [congruence | right; exact X].
    + injection H as <-. intros _. left. reflexivity.
    + injection H as <-. intros _. right. exists (w_next s). cbn. now rewrite wset_same.
  - unfold proc_step in H.
    destruct (w_proc s i) as [| | es | es | es | es | es base | es base | es base | es base | | | | | | | | ok] eqn:Hp; try discriminate;
      try (destruct (w_lock s); [discriminate |]); try (destruct (w_changes s)); try (destruct es);
      (match type of H with Some ?u = Some _ => assert (E2 : s' = u) by congruence; clear H; subst s' end);
      intros W; try discriminate W;
      try (right; exists i; cbn; rewrite wset_same; reflexivity).
    1-4: exfalso; pose proof (sg_fail _ _ G' i) as X; cbn [with_proc w_proc] in X; rewrite wset_same in X; discriminate X.
    all: destruct (O W) as [X | [j X]]; [left; exact X |]; right; assert (j = i) as -> by (apply (al_one s A); [now apply not_ended | rewrite Hp; intros [Z | [ok Z]]; discriminate]);
      rewrite Hp in X; discriminate.
  - destruct (w_proc s i) eqn:Hp; try discriminate. destruct (w_changes s); try discriminate. injection H as <-.
    intros W. right. exists i. cbn. rewrite wset_same. reflexivity.
Qed.

Lemma step_all : forall s s' l, all_inv s -> from_main l ->
  match l with Caller t => w_call s t = CStart -> all_ended s | _ => True end -> w_step s l = Some s' -> all_inv s'.
Proof.
  intros s s' l AI F K H. pose proof AI as [I A O [o G]]. constructor.
  - exact (step_inv _ _ _ I H).
  - exact (step_alone _ _ _ _ I G F A K H).
  - exact (step_occupied _ _ _ AI F K H).
  - exact (step_single _ _ _ _ I G F H).
Qed.

(** In the last part of building, the tree has all edits that were taken. *)
Lemma late_tree : forall s i, all_inv s -> late (w_proc s i) = true -> exists t, w_tree s = Some t /\ t ++ w_changes s = w_added s.
Proof.
  intros s i [I A O [o G]] Hl. destruct (sg_tree _ _ G) as [t [T1 T2]]. exists t. split; [exact T1 |].
  assert (E : taken_of s o = []); [| rewrite E in T2; exact T2].
  destruct o as [j |]; [| reflexivity]. destruct (sg_active _ _ G j eq_refl) as [Hj _]. cbn [taken_of].
  assert (j = i) as ->. { apply (al_one s A); [now apply active_not_ended |]. intros [Z | [ok Z]]; rewrite Z in Hl; discriminate. }
  destruct (w_proc s i); cbn in *; congruence.
Qed.

Definition prefix (a b : list nat) : Prop := exists r, b = a ++ r.
Lemma prefix_trans : forall a b c, prefix a b -> prefix b c -> prefix a c.
Proof. intros a b c [r ->] [q ->]. exists (r ++ q). now rewrite app_assoc. Qed.

Definition calls_of (c : nat) (log : list (nat * option (list nat))) : list (option (list nat)) := map snd (filter (fun x => fst x =? c) log).

(** Callback [c] was asked for when the edits [A0] had been made, and [n] calls had been logged. *)
Definition on_its_way (s : cstate) (c n : nat) (A0 : list nat) : Prop :=
  prefix A0 (w_added (c_w s)) /\
  ((In c (c_pending s) /\ calls_of c (skipn n (c_log s)) = [] /\
    exists i, (before_done (w_proc (c_w s) i) = true \/ w_proc (c_w s) i = PSetIdle) /\ ~ In i (c_emitted s) /\
      (late (w_proc (c_w s) i) = true -> exists t, w_tree (c_w s) = Some t /\ prefix A0 t))
   \/ (~ In c (c_pending s) /\ exists t, calls_of c (skipn n (c_log s)) = [Some t] /\ prefix A0 t)).

Definition not_asked (c : nat) (l : clabel) : Prop := match l with Ask _ d => d <> c | _ => True end.

Lemma added_grows : forall s s' l, w_step s l = Some s' -> prefix (w_added s) (w_added s').
Proof.
  intros s s' l H. destruct l as [t e | t | t | i | i | i]; cbn [w_step] in H.
  - destruct (w_call s t); try discriminate. injection H as <-. exists []. now rewrite app_nil_r.
  - destruct (w_call s t); try discriminate. destruct (w_trans s); try discriminate. injection H as <-. exists []. now rewrite app_nil_r.
  - unfold call_step in H. destruct (w_call s t) as [| e | | | |]; try discriminate; try (destruct (w_lock s); [discriminate |]); injection H as <-;
      first [exists [e]; reflexivity | exists []; now rewrite app_nil_r].
  - destruct (proc_change _ _ _ H) as (p & _ & _ & E). rewrite E. exists []. now rewrite app_nil_r.
  - destruct (w_proc s i); try discriminate. destruct (w_changes s); try discriminate. injection H as <-. exists []. now rewrite app_nil_r.
  - destruct (w_proc s i); try discriminate; injection H as <-; exists []; now rewrite app_nil_r.
Qed.

Lemma calls_none : forall c (P : list nat) T, ~ In c P -> calls_of c (map (fun d => (d, T)) P) = [].
Proof.
  intros c P T. induction P as [| d P IH]; intros H; [reflexivity |]. unfold calls_of. cbn [map filter fst].
  destruct (d =? c) eqn:E; [apply Nat.eqb_eq in E; subst; exfalso; apply H; now left |]. apply IH. intros X. apply H. now right.
Qed.
Lemma calls_one : forall c (P : list nat) T, NoDup P -> In c P -> calls_of c (map (fun d => (d, T)) P) = [T].
Proof.
  intros c P T. induction P as [| d P IH]; intros N H; [contradiction |]. inversion N as [| x y N1 N2]; subst. unfold calls_of. cbn [map filter fst].
  destruct (d =? c) eqn:E.
  - apply Nat.eqb_eq in E. subst. cbn [map snd]. f_equal. now apply calls_none.
  - apply Nat.eqb_neq in E. destruct H as [H | H]; [congruence |]. now apply IH.
Qed.
Lemma calls_app : forall c a b, calls_of c (a ++ b) = calls_of c a ++ calls_of c b.
Proof. intros c a b. unfold calls_of. now rewrite filter_app, map_app. Qed.

(** [Work] steps with the restrictions, on one step. *)
Definition step_ok (s : cstate) (l : clabel) : Prop :=
  match l with
  | Work l => from_main l /\ match l with Caller t => w_call (c_w s) t = CStart -> all_ended (c_w s) | _ => True end
  | _ => True
  end.

Record c_inv (s : cstate) : Prop := {
  ci_all : all_inv (c_w s); ci_nodup : NoDup (c_pending s); ci_emitted : emitted_ok s }.
Lemma c_inv_init : c_inv c_init.
Proof. constructor; [exact all_init | constructor | intros i []]. Qed.

Lemma past_stays : forall s s' l i, (forall j, w_next s <= j -> w_proc s j = PNone) -> w_step s l = Some s' -> past (w_proc s i) = true -> past (w_proc s' i) = true.
Proof.
  intros s s' l i N H P. destruct l as [t e | t | t | j | j | j]; cbn [w_step] in H.
  - destruct (w_call s t); try discriminate. injection H as <-. exact P.
  - destruct (w_call s t); try discriminate. destruct (w_trans s); try discriminate. injection H as <-. exact P.
  - unfold call_step in H. destruct (w_call s t); try discriminate; try (destruct (w_lock s); [discriminate |]); injection H as <-; try exact P.
    cbn [with_call with_proc with_next w_proc]. rewrite wset_other; [exact P |]. intros ->. rewrite (N (w_next s) (le_n _)) in P. discriminate.
  - destruct (Nat.eq_dec i j) as [-> | D].
    + unfold proc_step in H. destruct (w_proc s j); try discriminate; injection H as <-; cbn [with_proc w_proc]; rewrite wset_same; reflexivity.
    + destruct (proc_change _ _ _ H) as (p & E & _). rewrite E, wset_other by exact D. exact P.
  - destruct (w_proc s j) eqn:Hp; try discriminate. destruct (w_changes s); try discriminate. injection H as <-. cbn [with_proc w_proc].
    rewrite wset_other; [exact P |]. intros ->. rewrite Hp in P. discriminate.
  - destruct (w_proc s j) eqn:Hp; try discriminate; injection H as <-; cbn [with_proc w_proc]; (rewrite wset_other; [exact P |]; intros ->; rewrite Hp in P; discriminate).
Qed.

Lemma nodup_snoc : forall (c : nat) l, NoDup l -> ~ In c l -> NoDup (l ++ [c]).
Proof.
  intros c l. induction l as [| d l IH]; intros N H; cbn [app]; [constructor; [intros [] | constructor] |]. inversion N as [| x y N1 N2]; subst. constructor.
  - intros X. apply in_app_or in X as [X | [X | []]]; [contradiction | subst; apply H; now left].
  - apply IH; [exact N2 | intros X; apply H; now right].
Qed.

Lemma step_c_inv : forall s s' l, c_inv s -> step_ok s l -> c_step s l = Some s' -> c_inv s'.
Proof.
  intros s s' l [AI ND EM] K H. destruct l as [l | i | t c]; cbn [c_step step_ok] in *.
  - destruct (match l with Proc i => match w_proc (c_w s) i with PSetIdle => negb (mem i (c_emitted s)) | _ => false end | _ => false end); [discriminate |].
    destruct (w_step (c_w s) l) as [w |] eqn:E; [| discriminate]. injection H as <-. destruct K as [F K].
    constructor; cbn [c_w c_pending c_emitted]; [exact (step_all _ _ _ AI F K E) | exact ND |].
    intros i Hi. exact (past_stays _ _ _ _ (inv_next _ (ai_inv _ AI)) E (EM i Hi)).
  - destruct (w_proc (c_w s) i) eqn:Hp; try discriminate. destruct (mem i (c_emitted s)); [discriminate |]. injection H as <-.
    constructor; cbn [c_w c_pending c_emitted]; [exact AI | constructor |]. intros j [<- | Hj]; cbn [c_w]; [now rewrite Hp | exact (EM j Hj)].
  - destruct (w_call (c_w s) t); try discriminate. injection H as <-. constructor; cbn [c_w c_pending c_emitted]; [exact AI | | exact EM].
    destruct (waits (c_w s)); cbn [andb]; [| exact ND]. destruct (mem c (c_pending s)) eqn:Hm; cbn [negb]; [exact ND |]. apply nodup_snoc; [exact ND |].
    intros X. apply mem_spec in X. congruence.
Qed.

(** The log grows at its end. *)
Lemma log_grows : forall s s' l, c_step s l = Some s' -> exists x, c_log s' = c_log s ++ x.
Proof.
  intros s s' l H. destruct l as [l | i | t c]; cbn [c_step] in H.
  - destruct (match l with Proc i => match w_proc (c_w s) i with PSetIdle => negb (mem i (c_emitted s)) | _ => false end | _ => false end); [discriminate |].
    destruct (w_step (c_w s) l); [| discriminate]. injection H as <-. exists []. cbn. now rewrite app_nil_r.
  - destruct (w_proc (c_w s) i); try discriminate. destruct (mem i (c_emitted s)); [discriminate |]. injection H as <-. eexists. reflexivity.
  - destruct (w_call (c_w s) t); try discriminate. injection H as <-. exists []. cbn. now rewrite app_nil_r.
Qed.

(** The process that will call the callback keeps being there. *)
Lemma step_building : forall s s' l i A0, all_inv s -> from_main l -> match l with Caller t => w_call s t = CStart -> all_ended s | _ => True end ->
  w_step s l = Some s' -> (forall j, l = Proc j -> w_proc s j <> PSetIdle) -> prefix A0 (w_added s) ->
  (before_done (w_proc s i) = true \/ w_proc s i = PSetIdle) -> (late (w_proc s i) = true -> exists t, w_tree s = Some t /\ prefix A0 t) ->
  (before_done (w_proc s' i) = true \/ w_proc s' i = PSetIdle) /\ (late (w_proc s' i) = true -> exists t, w_tree s' = Some t /\ prefix A0 t).
Proof.
  intros s s' l i A0 AI F K H NI PA P LT. pose proof AI as [I A O [o G]].
  assert (NE : ~ ended (w_proc s i)). { destruct P as [P | P]; [now apply not_ended |]. rewrite P. intros [Z | [ok Z]]; discriminate. }
  pose proof (step_all _ _ _ AI F K H) as AI'.
  destruct l as [t e | t | t | j | j | j]; cbn [w_step from_main] in *; try contradiction.
  - destruct (w_call s t); try discriminate. injection H as <-. auto.
  - unfold call_step in H. destruct (w_call s t) eqn:Hc; try discriminate; try (destruct (w_lock s); [discriminate |]).
    1-3: injection H as <-; auto.
    + exfalso. apply NE. exact (K eq_refl i).
    + exfalso. apply NE. exact (proj1 (al_spawn s A t Hc) i).
  - assert (j = i) as ->.
    { apply (al_one s A); [| exact NE]. intros [Z | [ok Z]]; unfold proc_step in H; rewrite Z in H; discriminate. }
    specialize (NI i eq_refl). destruct P as [P | P]; [| contradiction].
    destruct (proc_change _ _ _ H) as (p & EP & _ & EA).
    assert (FP : failed p = false). { destruct (ai_single _ AI') as [o' G']. pose proof (sg_fail _ _ G' i) as X. rewrite EP, wset_same in X. exact X. }
    assert (LT' : late (w_proc s' i) = true -> exists t, w_tree s' = Some t /\ prefix A0 t).
    { intros L'. destruct (late (w_proc s i)) eqn:L.
      - destruct (LT eq_refl) as [t [T1 T2]]. exists t. split; [| exact T2]. rewrite <- T1. unfold proc_step in H. destruct (w_proc s i); try discriminate L; injection H as <-; reflexivity.
      - destruct (late_tree _ _ AI' L') as [t [T1 T2]]. exists t. split; [exact T1 |].
        assert (C0 : w_changes s' = []).
        { apply (inv_empty _ (ai_inv _ AI') i). unfold proc_step in H.
          destruct (w_proc s i) as [| | es | es | es | es | es base | es base | es base | es base | | | | | | | | ok]; try discriminate L; try discriminate P;
            try (destruct (w_lock s); [discriminate |]); try (destruct (w_changes s)); try (destruct es);
            (match type of H with Some ?u = Some _ => assert (E2 : s' = u) by congruence; clear H; subst s' end);
            cbn [with_proc with_lock with_changes with_busy with_tree with_state w_proc] in *; rewrite wset_same in *; try discriminate L'; try reflexivity. }
        rewrite C0, app_nil_r in T2. rewrite T2, EA. exact PA. }
    split; [| exact LT']. rewrite EP, wset_same. clear LT'.
    unfold proc_step in H. assert (X : w_proc s' i = p) by (rewrite EP; apply wset_same). rewrite <- X in FP |- *. clear X EP.
    destruct (w_proc s i) as [| | es | es | es | es | es base | es base | es base | es base | | | | | | | | ok]; try discriminate P;
            try (destruct (w_lock s); [discriminate |]); try (destruct (w_changes s)); try (destruct es);
            (match type of H with Some ?u = Some _ => assert (E2 : s' = u) by congruence; clear H; subst s' end);
            cbn [with_proc with_lock with_changes with_busy with_tree with_state w_proc] in *; rewrite wset_same in *; try discriminate FP; auto.
  - destruct (w_proc s j) eqn:Hp; try discriminate. destruct (w_changes s) eqn:Hch; try discriminate. injection H as <-.
    assert (j = i) as ->. { apply (al_one s A); [| exact NE]. rewrite Hp. intros [Z | [ok Z]]; discriminate. }
    cbn [with_proc w_proc]. rewrite wset_same. split; [left; reflexivity | discriminate].
Qed.

Lemma step_way : forall s s' l c n A0, c_inv s -> step_ok s l -> not_asked c l -> n <= length (c_log s) -> c_step s l = Some s' ->
  on_its_way s c n A0 -> on_its_way s' c n A0.
Proof.
  intros s s' l c n A0 CI K Q Hn H [PA W]. destruct CI as [AI ND EM]. destruct l as [l | i | t d]; cbn [c_step step_ok not_asked] in *.
  - destruct (match l with Proc i => match w_proc (c_w s) i with PSetIdle => negb (mem i (c_emitted s)) | _ => false end | _ => false end) eqn:Hg; [discriminate |].
    destruct (w_step (c_w s) l) as [w |] eqn:E; [| discriminate]. injection H as <-. destruct K as [F K].
    split; [exact (prefix_trans _ _ _ PA (added_grows _ _ _ E)) |].
    destruct W as [(Hin & Hno & i & P & Ne & LT) | W]; [left | right; exact W]. cbn [c_w c_pending c_emitted c_log] in *. split; [exact Hin |]. split; [exact Hno |]. exists i.
    destruct (step_building (c_w s) w l i A0 AI F K E) as [P' LT']; auto.
    intros j -> Hj. rewrite Hj in Hg. apply negb_false_iff, mem_spec in Hg.
    assert (j = i) as ->; [| contradiction].
    apply (al_one _ (ai_alone _ AI)); [rewrite Hj; intros [Z | [ok Z]]; discriminate |]. destruct P as [P | P]; [now apply not_ended |]. rewrite P. intros [Z | [ok Z]]; discriminate.
  - destruct (w_proc (c_w s) i) eqn:Hp; try discriminate. destruct (mem i (c_emitted s)) eqn:Hm; [discriminate |]. injection H as <-. split; [exact PA |]. right.
    cbn [c_w c_pending c_emitted c_log]. split; [intros [] |]. rewrite skipn_app, calls_app. replace (n - length (c_log s)) with 0 by lia. cbn [skipn].
    destruct W as [(Hin & Hno & j & P & Ne & LT) | (Hni & t & T1 & T2)].
    + assert (j = i) as ->.
      { apply (al_one _ (ai_alone _ AI)); [| rewrite Hp; intros [Z | [ok Z]]; discriminate]. destruct P as [P | P]; [now apply not_ended |]. rewrite P. intros [Z | [ok Z]]; discriminate. }
      destruct LT as [t [T1 T2]]; [rewrite Hp; reflexivity |]. exists t. split; [| exact T2]. rewrite Hno, calls_one by assumption. cbn [app]. now rewrite T1.
    + exists t. split; [| exact T2]. rewrite T1, calls_none by exact Hni. reflexivity.
  - destruct (w_call (c_w s) t); try discriminate. injection H as <-. split; [exact PA |]. cbn [c_w c_pending c_emitted c_log].
    assert (X : In c (if waits (c_w s) && negb (mem d (c_pending s)) then c_pending s ++ [d] else c_pending s) <-> In c (c_pending s)).
    { destruct (waits (c_w s) && negb (mem d (c_pending s))); [| tauto]. rewrite in_app_iff. cbn. split; [| tauto]. intros [X | [X | []]]; [exact X | congruence]. }
    rewrite X. exact W.
Qed.

Fixpoint run_ok (s : cstate) (ls : list clabel) : Prop :=
  match ls with [] => True | l :: ls => step_ok s l /\ match c_step s l with Some s => run_ok s ls | None => True end end.

Lemma run_c_inv : forall ls s s', c_inv s -> run_ok s ls -> c_run s ls = Some s' -> c_inv s'.
Proof.
  induction ls as [| l ls IH]; intros s s' I K H; cbn [c_run run_ok] in *; [injection H as <-; exact I |].
  destruct (c_step s l) as [s1 |] eqn:E; [| discriminate]. destruct K as [K1 K2]. exact (IH s1 s' (step_c_inv _ _ _ I K1 E) K2 H).
Qed.
Lemma run_way : forall ls s s' c n A0, c_inv s -> run_ok s ls -> Forall (not_asked c) ls -> n <= length (c_log s) -> c_run s ls = Some s' ->
  on_its_way s c n A0 -> on_its_way s' c n A0.
Proof.
  induction ls as [| l ls IH]; intros s s' c n A0 I K Q Hn H W; cbn [c_run run_ok] in *; [injection H as <-; exact W |].
  destruct (c_step s l) as [s1 |] eqn:E; [| discriminate]. destruct K as [K1 K2]. inversion Q as [| x y Q1 Q2]; subst.
  apply (IH s1 s' c n A0 (step_c_inv _ _ _ I K1 E) K2 Q2); [| exact H | exact (step_way _ _ _ _ _ _ I K1 Q1 Hn E W)].
  destruct (log_grows _ _ _ E) as [x ->]. rewrite app_length. lia.
Qed.

(** The restrictions are those of the steps of the threads. *)
Lemma run_ok_of : forall ls s s', Forall from_main (work_of ls) -> one_at_a_time (c_w s) (work_of ls) -> c_run s ls = Some s' -> run_ok s ls.
Proof.
  induction ls as [| l ls IH]; intros s s' F K H; cbn [c_run run_ok] in *; [exact I |].
  destruct (c_step s l) as [s1 |] eqn:E; [| discriminate]. destruct l as [l | i | t c]; cbn [work_of flat_map app] in F, K; fold (work_of ls) in F, K.
  - inversion F as [| x y F1 F2]; subst. cbn [one_at_a_time] in K. destruct K as [K1 K2]. split; [split; assumption |]. cbn [c_step] in E.
    destruct (match l with Proc i => match w_proc (c_w s) i with PSetIdle => negb (mem i (c_emitted s)) | _ => false end | _ => false end); [discriminate |].
    destruct (w_step (c_w s) l) as [w |] eqn:Ew; [| discriminate]. injection E as <-. exact (IH (CState w (c_emitted s) (c_pending s) (c_log s)) s' F2 K2 H).
  - split; [exact I |]. assert (Ec : c_w s1 = c_w s). { cbn [c_step] in E. destruct (w_proc (c_w s) i); try discriminate. destruct (mem i (c_emitted s)); [discriminate |]. now injection E as <-. }
    apply (IH s1 s' F); [now rewrite Ec | exact H].
  - split; [exact I |]. assert (Ec : c_w s1 = c_w s). { cbn [c_step] in E. destruct (w_call (c_w s) t); try discriminate. now injection E as <-. }
    apply (IH s1 s' F); [now rewrite Ec | exact H].
Qed.
Lemma run_app : forall a b s, c_run s (a ++ b) = match c_run s a with Some s => c_run s b | None => None end.
Proof. induction a as [| l a IH]; intros b s; cbn [app c_run]; [reflexivity |]. destruct (c_step s l); [apply IH | reflexivity]. Qed.
Lemma run_ok_app : forall a b s s', run_ok s (a ++ b) -> c_run s a = Some s' -> run_ok s a /\ run_ok s' b.
Proof.
  induction a as [| l a IH]; intros b s s' K H; cbn [app c_run run_ok] in *; [injection H as <-; auto |].
  destruct K as [K1 K2]. destruct (c_step s l) as [s1 |]; [| discriminate]. destruct (IH b s1 s' K2 H). auto.
Qed.

(** Asking while building connects the callback. *)
Lemma ask_way : forall s s' c, c_inv s -> c_step s (Ask 0 c) = Some s' -> waits (c_w s) = true -> on_its_way s' c (length (c_log s)) (w_added (c_w s)).
Proof.
  intros s s' c [AI ND EM] H W. cbn [c_step] in H. destruct (w_call (c_w s) 0) eqn:Hc; try discriminate. injection H as <-. rewrite W. cbn [andb].
  split; [exists []; now rewrite app_nil_r |]. left. cbn [c_w c_pending c_emitted c_log]. split; [| split].
  - destruct (mem c (c_pending s)) eqn:Hm; cbn [negb]; [now apply mem_spec | apply in_or_app; right; now left].
  - now rewrite skipn_all.
  - pose proof AI as [I A O [o G]]. destruct (O W) as [X | [i X]]; [congruence |]. exists i. split; [now left |]. split.
    + intros Y. specialize (EM i Y). destruct (w_proc (c_w s) i) as [| | | | [| ? ?] | | | | | | | | | | | | |]; discriminate.
    + intros L. destruct (late_tree _ _ AI L) as [t [T1 T2]]. exists t. split; [exact T1 |].
      assert (C0 : w_changes (c_w s) = []).
      { destruct (w_changes (c_w s)) as [| e l] eqn:Hch; [reflexivity | exfalso]. destruct (inv_more _ I) as [[u Y] | [[j Y] | [j Y]]]; [rewrite Hch; discriminate | | |].
        - destruct (Nat.eq_dec u 0) as [-> | D]; [rewrite Hc in Y; discriminate |]. rewrite (sg_call _ _ G u D) in Y. discriminate.
        - assert (j = i) as ->. { apply (al_one _ A); [apply active_not_ended; unfold active; rewrite Y; reflexivity | now apply not_ended]. }
          destruct (w_proc (c_w s) i) as [| | | | [| ? ?] | | | | | | | | | | | | |]; discriminate.
        - rewrite (sg_fail _ _ G j) in Y. discriminate. }
      rewrite C0, app_nil_r in T2. subst t. exists []. now rewrite app_nil_r.
Qed.

Theorem called_once : forall ls1 ls2 c s1 s2, Forall from_main (work_of (ls1 ++ Ask 0 c :: ls2)) -> one_at_a_time w_init (work_of (ls1 ++ Ask 0 c :: ls2)) ->
  c_run c_init ls1 = Some s1 -> waits (c_w s1) = true -> c_run s1 (Ask 0 c :: ls2) = Some s2 -> Forall (not_asked c) ls2 ->
  length (calls_of c (skipn (length (c_log s1)) (c_log s2))) <= 1 /\
  (stopped (c_w s2) -> exists t, calls_of c (skipn (length (c_log s1)) (c_log s2)) = [Some t] /\ prefix (w_added (c_w s1)) t).
Proof.
  intros ls1 ls2 c s1 s2 F K H1 W H2 Q.
  assert (R : run_ok c_init (ls1 ++ Ask 0 c :: ls2)). { apply (run_ok_of _ _ s2); [exact F | exact K |]. now rewrite run_app, H1. }
  destruct (run_ok_app _ _ _ _ R H1) as [R1 [_ R2]]. pose proof (run_c_inv _ _ _ c_inv_init R1 H1) as CI. cbn [c_run] in H2.
  destruct (c_step s1 (Ask 0 c)) as [s |] eqn:E; [| discriminate].
  assert (CI' : c_inv s) by (exact (step_c_inv _ _ (Ask 0 c) CI I E)).
  assert (Hn : length (c_log s1) <= length (c_log s)) by (destruct (log_grows _ _ _ E) as [x ->]; rewrite app_length; lia).
  destruct (run_way _ _ _ _ _ _ CI' R2 Q Hn H2 (ask_way _ _ _ CI E W)) as [PA [(Hin & Hno & i & P & _) | (_ & t & T1 & T2)]].
  - rewrite Hno. split; [cbn; lia |]. intros [_ S]. exfalso. destruct (S i) as [Z | [ok Z]]; rewrite Z in P; destruct P; discriminate.
  - rewrite T1. split; [cbn; lia |]. intros _. exists t. auto.
Qed.

(** After an exception no callback is called any more, unless a transformer is set. *)
Lemma dead_log : forall ls s s', dead (c_w s) -> Forall (fun l => forall t, l <> SetTransformer t) (work_of ls) -> c_run s ls = Some s' -> c_log s' = c_log s.
Proof.
  induction ls as [| l ls IH]; intros s s' D F H; cbn [c_run] in H; [injection H as <-; reflexivity |].
  destruct (c_step s l) as [s1 |] eqn:E; [| discriminate]. destruct l as [l | i | t c]; cbn [work_of flat_map app] in F; fold (work_of ls) in F; cbn [c_step] in E.
  - inversion F as [| x y F1 F2]; subst.
    destruct (match l with Proc i => match w_proc (c_w s) i with PSetIdle => negb (mem i (c_emitted s)) | _ => false end | _ => false end); [discriminate |].
    destruct (w_step (c_w s) l) as [w |] eqn:Ew; [| discriminate]. injection E as <-. destruct (dead_step _ _ _ D F1 Ew) as [D' _]. exact (IH (CState w (c_emitted s) (c_pending s) (c_log s)) s' D' F2 H).
  - exfalso. destruct D as [D1 D2 D3]. destruct (D1 i) as [Z | [ok Z]]; rewrite Z in E; discriminate.
  - destruct (w_call (c_w s) t); try discriminate. injection E as <-. exact (IH (CState _ _ _ _) s' D F H).
Qed.
