(** Property C122: the callback given when asking for the tree. *)
From Verif Require Import Base WorkModel WorkSpec WorkProofs CallbackModel CallbackProofs Prop_Work.

(** C122. When processes run one at a time, all calls come from one thread, no transformer is set meanwhile and no exception is raised: a callback that was given when asking for the tree
    while it was being built is called at most once, and has been called once when all is done; at that time the tree reflected all edits made before asking. *)
Theorem C122_called_once_partial : forall ls1 ls2 c s1 s2,
  Forall from_main (work_of (ls1 ++ Ask 0 c :: ls2)) -> one_at_a_time w_init (work_of (ls1 ++ Ask 0 c :: ls2)) ->
  c_run c_init ls1 = Some s1 -> waits (c_w s1) = true -> c_run s1 (Ask 0 c :: ls2) = Some s2 -> (forall t, ~ In (Ask t c) ls2) ->
  let calls := map snd (filter (fun x => fst x =? c) (skipn (length (c_log s1)) (c_log s2))) in
  length calls <= 1 /\ (stopped (c_w s2) -> exists t r, calls = [Some t] /\ t = w_added (c_w s1) ++ r).
Proof.
  intros ls1 ls2 c s1 s2 F K H1 W H2 Q calls. destruct (called_once ls1 ls2 c s1 s2 F K H1 W H2) as [A B].
  - apply Forall_forall. intros l Hl. destruct l as [l | i | t d]; cbn; try exact I. intros ->. exact (Q t Hl).
  - split; [exact A |]. intros S. destruct (B S) as (t & E & r & P). eauto.
Qed.
Print Assumptions C122_called_once_partial.

Definition wk := map Work.
(** Two edits; the callback is given while the first one is built; the second one is made after that, and is built in the same process. *)
Definition ex_before : list clabel := wk (up_start 0 11) ++ wk (procs 0 6).
Definition ex_after : list clabel := wk (up_busy 0 12) ++ wk (procs 0 18) ++ [Emit 0] ++ wk (procs 0 3).
Example C122_example : exists s1 s2, Forall from_main (work_of (ex_before ++ Ask 0 7 :: ex_after)) /\ one_at_a_time w_init (work_of (ex_before ++ Ask 0 7 :: ex_after))
  /\ c_run c_init ex_before = Some s1 /\ waits (c_w s1) = true /\ c_run s1 (Ask 0 7 :: ex_after) = Some s2 /\ stopped (c_w s2) /\ c_log s2 = [(7, Some [11; 12])].
Proof.
  do 2 eexists. split; [repeat constructor |]. split; [apply check_one_correct; [exact inv_init | vm_compute; reflexivity] |]. split; [vm_compute; reflexivity |].
  split; [reflexivity |]. split; [vm_compute; reflexivity |]. split; [| reflexivity]. split; [intros [| k]; reflexivity | intros [| k]; [right; eexists; reflexivity | left; reflexivity]].
Qed.

(** In general it is false: the first process has built the tree and is about to call the callbacks when the second edit starts another process; a callback given now is called by the
    first process, before the second one has begun. *)
Theorem C122_too_early_refuted : exists ls1 ls2 s1 s2,
  Forall from_main (work_of (ls1 ++ Ask 0 7 :: ls2)) /\ c_run c_init ls1 = Some s1 /\ waits (c_w s1) = true /\ w_added (c_w s1) = [11; 12] /\
  c_run s1 (Ask 0 7 :: ls2) = Some s2 /\ c_log s2 = [(7, Some [11])] /\ stopped (c_w s2).
Proof.
  exists (wk (up_start 0 11) ++ wk (procs 0 14) ++ wk (up_start 0 12)), (wk (procs 0 1) ++ [Emit 0] ++ wk (procs 0 3) ++ wk (procs 1 15) ++ [Emit 1] ++ wk (procs 1 3)).
  do 2 eexists. split; [repeat constructor |]. split; [vm_compute; reflexivity |]. split; [reflexivity |]. split; [reflexivity |]. split; [vm_compute; reflexivity |].
  split; [reflexivity |]. split; [intros [| k]; reflexivity | intros [| [| k]]; [right; eexists; reflexivity | right; eexists; reflexivity | left; reflexivity]].
Qed.
Print Assumptions C122_too_early_refuted.

(** With an exception it is false as well: a callback given while the tree is being built is not called when building raises an exception, nor afterwards, whatever is done, unless a
    transformer is set; and the tree is said to be ready. *)
Theorem C122_exception_refuted : exists ls s, c_run c_init ls = Some s /\ In (Ask 0 7) ls /\ c_pending s = [7] /\ c_log s = [] /\ stopped (c_w s) /\ waits (c_w s) = false /\
  forall ls' s', Forall (fun l => forall t, l <> SetTransformer t) (work_of ls') -> c_run s ls' = Some s' -> c_log s' = [].
Proof.
  exists (wk (up_start 0 11) ++ wk (procs 0 6) ++ [Ask 0 7; Work (Raise 0)] ++ wk (procs 0 1)). eexists. split; [vm_compute; reflexivity |].
  split; [cbn; tauto |]. do 2 (split; [reflexivity |]).
  split; [split; [intros [| k]; reflexivity | intros [| k]; [right; eexists; reflexivity | left; reflexivity]] |]. split; [reflexivity |].
  intros ls' s' F H. match type of H with c_run ?s _ = _ => assert (D : dead (c_w s)) end.
  { constructor; [intros [| k]; [right; eexists; reflexivity | left; reflexivity] | reflexivity | intros [| k]; left; reflexivity]. }
  exact (dead_log _ _ _ D F H).
Qed.
Print Assumptions C122_exception_refuted.
