(** Properties C41 and C42: edits, background building and waiting for the tree. *)
From Verif Require Import Base WorkModel WorkSpec WorkProofs.

(** * C41: no edit is lost by the tree builder *)

(** For any number of threads that call [update], also if a transformer is set meanwhile, and for every interleaving: when all
    calls have returned and all processes have ended, no edit is left pending; provided that no exception was raised in a
    process. *)
Theorem C41_nothing_pending_partial : forall ls s, w_run w_init ls = Some s -> stopped s -> no_exception s -> w_changes s = [].
Proof. exact nothing_pending. Qed.
Print Assumptions C41_nothing_pending_partial.

(** When all edits come from one thread, no transformer is set meanwhile and building does not raise an exception, then no other
    exception occurs, and in the end the tree reflects all edits, in order, and was never replaced with the result of a build
    that started from another tree. *)
Theorem C41_tree_reflects_all_edits_partial : forall ls s, Forall from_main ls -> w_run w_init ls = Some s ->
  no_exception s /\ (stopped s -> w_changes s = [] /\ w_tree s = Some (w_added s)).
Proof. exact main_reflects. Qed.
Print Assumptions C41_tree_reflects_all_edits_partial.

(** Without new calls of [update] or [set_transformer], it ends: there is a bound for the number of steps that can be done. *)
Theorem C41_building_ends : forall ls s, w_run w_init ls = Some s ->
  exists n, forall ls' s', forallb inside ls' = true -> w_run s ls' = Some s' -> length ls' <= n.
Proof. exact stops. Qed.
Print Assumptions C41_building_ends.

(** And as long as something is to be done, something can be done: no deadlock. *)
Theorem C41_no_deadlock_partial : forall ls s, w_run w_init ls = Some s -> no_exception s ->
  (exists t, w_call s t <> CIdle) \/ (exists i, w_proc s i <> PNone /\ forall ok, w_proc s i <> PEnd ok) ->
  exists l s', (exists t, l = Caller t \/ l = Proc t) /\ w_step s l = Some s'.
Proof. exact never_stuck. Qed.
Print Assumptions C41_no_deadlock_partial.

(** What thread 0 does for an [update] that starts a process, and for one that finds the builder busy. *)
Definition up_start (t e : nat) : list wlabel := Update t e :: repeat (Caller t) 5.
Definition up_busy (t e : nat) : list wlabel := Update t e :: repeat (Caller t) 2.
Definition procs (i n : nat) : list wlabel := repeat (Proc i) n.

(** An edit arrives while a process is building, and one while it replaces the tree; a last one when it is about to end, so that
    another process is started. *)
Definition ex_labels : list wlabel :=
  up_start 0 11 ++ procs 0 6 ++ up_busy 0 12 ++ [More 0] ++ procs 0 3 ++ up_busy 0 13 ++ procs 0 15 ++
  up_start 0 14 ++ procs 1 13 ++ procs 0 4 ++ procs 1 5.
Example C41_example : Forall from_main ex_labels /\
  exists s, w_run w_init ex_labels = Some s /\ stopped s /\ no_exception s /\ w_tree s = Some [11; 12; 13; 14].
Proof.
  split; [repeat constructor |]. eexists. split; [vm_compute; reflexivity |]. split; [split |].
  - intros [| k]; reflexivity.
  - intros [| [| k]]; [right; eexists; reflexivity | right; eexists; reflexivity | left; reflexivity].
  - split; [| reflexivity]. intros [| [| k]]; split; discriminate.
Qed.

(** With an exception, C41 is false: when building the tree (or replacing it) raises an exception, the builder stays busy. All
    later edits are accepted and never processed, whatever happens, unless a transformer is set; and waiting for the tree
    immediately returns the old tree. *)
Theorem C41_exception_refuted : exists ls s, w_run w_init ls = Some s /\ stopped s /\ w_changes s = [12] /\ waits s = false /\
  w_tree s = Some [] /\
  forall ls' s', Forall (fun l => forall t, l <> SetTransformer t) ls' -> w_run s ls' = Some s' ->
    w_tree s' = Some [] /\ w_added s' = 11 :: w_changes s'.
Proof.
  exists (up_start 0 11 ++ procs 0 6 ++ [Raise 0] ++ procs 0 1 ++ up_busy 0 12). eexists.
  split; [vm_compute; reflexivity |]. split; [split; [intros [| k]; reflexivity | intros [| k]; [right; eexists; reflexivity | left; reflexivity]] |].
  do 3 (split; [reflexivity |]). intros ls' s' F H.
  match type of H with w_run ?s _ = _ => assert (D : dead s) end.
  { constructor; [intros [| k]; [right; eexists; reflexivity | left; reflexivity] | reflexivity | intros [| k]; left; reflexivity]. }
  destruct (dead_run _ _ _ D F H) as [_ [T [m [C A]]]]. rewrite T, C, A. split; reflexivity.
Qed.
Print Assumptions C41_exception_refuted.

(** Setting a transformer while the tree is being built starts a second process, although the first one is still building. Then
    two threads build and replace the tree at the same time: here edit 12 is built by the second process on the tree that the
    first one is about to replace. Afterwards the tree is broken (the second result did not belong to the tree it was put in). *)
Theorem C41_two_builds_refuted : exists ls s, w_run w_init ls = Some s /\ stopped s /\ no_exception s /\
  (forall t e, In (Update t e) ls -> t = 0) /\ w_tree s = None.
Proof.
  exists (up_start 0 11 ++ procs 0 6 ++ [SetTransformer 0; Caller 0; Caller 0] ++ up_busy 0 12 ++ procs 1 6 ++ procs 0 3 ++
          procs 1 12 ++ procs 0 9). eexists.
  split; [vm_compute; reflexivity |]. split; [split; [intros [| k]; reflexivity |
    intros [| [| k]]; [right; eexists; reflexivity | right; eexists; reflexivity | left; reflexivity]] |].
  split; [intros [| [| k]]; split; discriminate |]. split; [| reflexivity].
  intros t e H. cbn in H. repeat (destruct H as [H | H]; [congruence |]). contradiction.
Qed.
Print Assumptions C41_two_builds_refuted.

(** * C42: waiting for the tree returns an up-to-date tree *)

(** When processes run one at a time, the edits come from one thread, no transformer is set meanwhile and no exception is raised:
    whenever that thread, not being inside [update], asks for the tree and need not wait (any more), the tree reflects all edits
    it made. *)
Theorem C42_up_to_date_partial : forall ls s, Forall from_main ls -> one_at_a_time w_init ls -> w_run w_init ls = Some s ->
  w_call s 0 = CIdle -> waits s = false -> w_tree s = Some (w_added s).
Proof. exact waiting_gives_all. Qed.
Print Assumptions C42_up_to_date_partial.

(** The second process is started after the first one has ended. An edit is added while the first one is building; the state is
    looked at when the second one has replaced the tree and has just set the state to DONE. *)
Definition ex_one_by_one : list wlabel :=
  up_start 0 11 ++ procs 0 6 ++ up_busy 0 12 ++ [More 0] ++ procs 0 13 ++ up_start 0 13 ++ procs 1 15.
Example C42_example : Forall from_main ex_one_by_one /\ one_at_a_time w_init ex_one_by_one /\
  exists s, w_run w_init ex_one_by_one = Some s /\ w_call s 0 = CIdle /\ waits s = false /\ w_tree s = Some [11; 12; 13].
Proof.
  split; [repeat constructor |]. split; [| eexists; split; [vm_compute; reflexivity | repeat split; reflexivity]].
  apply check_one_correct; [exact inv_init | vm_compute; reflexivity].
Qed.

(** In general C42 is false. The first process has replaced the tree and is no longer busy, but is not finished (it may still be
    running a transformer). The next edit starts a second process and sets the state to BUILD; then the first process sets the
    state to IDLE. So get_root(wait=True) returns at once, while the second process is replacing the tree: the tree does not
    reflect the second edit, and is not intact. Only one thread makes edits; no transformer is set, no exception is raised. *)
Theorem C42_refuted : exists ls s, Forall from_main ls /\ w_run w_init ls = Some s /\ w_call s 0 = CIdle /\ waits s = false /\
  w_tree s = Some [11] /\ w_added s = [11; 12] /\ exists es base, w_proc s 1 = PReplace es base.
Proof.
  exists (up_start 0 11 ++ procs 0 16 ++ up_start 0 12 ++ procs 1 8 ++ procs 0 2). eexists.
  split; [repeat constructor |]. split; [vm_compute; reflexivity |]. repeat split. do 2 eexists. reflexivity.
Qed.
Print Assumptions C42_refuted.
