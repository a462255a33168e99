(** C35, C68, C69: locks and caches. *)
From Verif Require Import Base LockModel LockSpec LockProofs.
From Coq Require Import ZArith.

(** C35 is false: two threads are enough. Thread 0 makes a lock and enters; thread 1 asks for the lock and waits; thread 0
    leaves and removes the lock from the registry; thread 1 enters; thread 0 asks again, gets a new lock and enters too. *)
Theorem C35_refuted : exists ts s, l_run l_init ts = Some s /\ inside_context (l_pc s 0) /\ inside_context (l_pc s 1).
Proof. exists [0; 0; 1; 0; 0; 1; 0; 0]. eexists. split; [reflexivity|]. split; exact I. Qed.
Print Assumptions C35_refuted.

(** Part of C35, for any number of threads and any interleaving: two threads that are inside at the same time have different
    locks, and removing the lock never fails. When moreover a new lock is only made while no thread waits for or holds an
    earlier one, no two threads are inside at the same time. *)
Theorem C35_partial :
  (forall ts s, l_run l_init ts = Some s ->
     (forall t u id, (l_pc s t = InRaw id \/ l_pc s t = InCln id) -> (l_pc s u = InRaw id \/ l_pc s u = InCln id) -> t = u)
     /\ forall t, l_pc s t <> KeyErr)
  /\ (forall ts s, l_run_fresh l_init ts s -> exclusive s).
Proof.
  split.
  - intros ts s H. pose proof (linv_run ts _ _ linv_init H) as (H1 & _ & _ & _ & H5 & _). split; [|exact H5]. intros t u id Ht Hu. apply (H1 t u id).
    + destruct Ht as [-> | ->]; cbn; apply Nat.eqb_refl.
    + destruct Hu as [-> | ->]; cbn; apply Nat.eqb_refl.
  - intros ts s H. assert (Hn : newest l_init) by (intros t id E; discriminate).
    destruct (fresh_newest _ _ _ H linv_init Hn ltac:(intros id E; discriminate)) as [(H1 & _) Hnew].
    intros t u Ht Hu. destruct (l_pc s t) as [|i|i|i|i| |] eqn:Et; try contradiction; destruct (l_pc s u) as [|j|j|j|j| |] eqn:Eu; try contradiction.
    all: assert (Hi : S i = l_next s) by (apply (Hnew t); rewrite Et; reflexivity); assert (Hj : S j = l_next s) by (apply (Hnew u); rewrite Eu; reflexivity).
    all: assert (i = j) by lia; subst j; apply (H1 t u i); [rewrite Et|rewrite Eu]; cbn; apply Nat.eqb_refl.
Qed.
Print Assumptions C35_partial.

(** Two threads that use the same lock, one after the other, after which a new one is made. *)
Example C35_example : exists s, l_run_fresh l_init [0; 0; 1; 0; 0; 1; 1; 1; 1] s /\ inside_context (l_pc s 1) /\ l_next s = 2.
Proof.
  eexists. split.
  - do 9 (eapply fresh_cons;
      [cbv -[upd]; reflexivity|first [intros K; discriminate|intros _ K; discriminate|intros _ _ [|[|u]] K; exact K]|]).
    apply fresh_nil.
  - split; [exact I|reflexivity].
Qed.

(** C68: whatever threads ask for, in any interleaving, and whatever the factory function returns or raises: two threads never
    run it at the same time; what is returned for a key is a value that the function returned for that key; and once such a
    value is to be kept (any value, or with [cache_none] False any value but None), the function is not called for that
    key any more, and when it has been returned, it is returned ever after. *)
Theorem C68_caching_dict : forall cache_none ls s, c_run cache_none c_init ls = Some s ->
  (forall t u, calling (c_pc s t) -> calling (c_pc s u) -> t = u)
  /\ (forall k v, In (k, v) (c_results s) -> In (k, v) (c_calls s))
  /\ (forall l1 k v l2, c_calls s = l1 ++ (k, v) :: l2 -> (cache_none = true \/ v <> None) -> forall w, ~ In (k, w) l2)
  /\ (forall l1 k v l2, c_results s = l1 ++ (k, v) :: l2 -> (cache_none = true \/ v <> None) -> forall w, In (k, w) l2 -> w = v).
Proof.
  intros cache_none ls s H. pose proof (cinv_run cache_none ls _ _ (cinv_init cache_none) H) as (H1 & _ & _ & H4 & _ & H6 & H7).
  assert (Hk : forall v, (cache_none = true \/ v <> None) -> kept cache_none v = true).
  { intros v [-> | Hv]; unfold kept; [reflexivity|]. destruct v; [apply orb_true_r|congruence]. }
  split; [|split; [|split]].
  - intros t u Ht Hu. destruct (c_pc s t) eqn:Et; try contradiction. destruct (c_pc s u) eqn:Eu; try contradiction.
    assert (c_lock s = Some t) by (apply H1; rewrite Et; reflexivity). assert (c_lock s = Some u) by (apply H1; rewrite Eu; reflexivity). congruence.
  - intros k v Hkv. apply H6. exact Hkv.
  - intros l1 k v l2 E Hv w Hw. apply (H4 _ _ _ _ E (Hk v Hv) _ Hw).
  - intros l1 k v l2 E Hv w Hw. apply (H7 _ _ _ _ E (Hk v Hv) _ Hw).
Qed.
Print Assumptions C68_caching_dict.

(** Two threads ask for the same key at the same time; the first call raises an exception. *)
Example C68_example : exists s,
  c_run true c_init [Ask 0 7; Ask 1 7; Step 0; Step 0; Raise 0; Step 0; Step 1; Step 1; Ask 0 7; Return 1 (Some 3); Step 1; Step 1; Step 0; Step 0; Step 0] = Some s
  /\ c_calls s = [(7, Some 3)] /\ c_results s = [(7, Some 3); (7, Some 3)].
Proof. eexists. split; [vm_compute; reflexivity|]. split; reflexivity. Qed.

(** C69 is false when the time of a file happens to be -1: the first time it is asked for, an exception is raised. *)
Theorem C69_refuted : forall content, f_run (FState (File (Some (-1)%Z) content) None []) [Get []] = None.
Proof. reflexivity. Qed.
Print Assumptions C69_refuted.

(** Part of C69: for all other times, in any history where the time shows that the file has changed, asking always succeeds
    and gives a value for the file as it was at a moment during the call. *)
Theorem C69_partial : forall (f : file) (ops : list fop),
  times_ok (files f ops) -> (forall g, In g (files f ops) -> f_mtime g <> Some (-1)%Z) ->
  exists s, f_run (FState f None []) ops = Some s
  /\ forall v f1 f2, In (v, (f1, f2)) (fs_results s) -> v = f_content f1 \/ v = f_content f2.
Proof.
  intros f ops Ht Hm. destruct (f_run_ok ops [] (FState f None []) Ht Hm I) as (s & new & H1 & H2 & H3). exists s. split; [exact H1|].
  intros v f1 f2 Hin. rewrite H2 in Hin. cbn [app fs_results] in Hin. rewrite Forall_forall in H3. apply (H3 _ Hin).
Qed.
Print Assumptions C69_partial.

(** The file is changed while it is being read: the next time it is read again. *)
Example C69_example :
  let ops := [Get []; Write (File (Some 5%Z) 20); Get [File (Some 6%Z) 30]; Get []] in
  times_ok (files (File (Some 4%Z) 10) ops)
  /\ exists s, f_run (FState (File (Some 4%Z) 10) None []) ops = Some s /\ map fst (fs_results s) = [10; 30; 30].
Proof.
  cbv zeta. split; [|eexists; split; reflexivity]. intros i j fi fj a b Hij Hi Hj Ha Hb.
  assert (Hl : forall k fk, nth_error (files (File (Some 4%Z) 10) [Get []; Write (File (Some 5%Z) 20); Get [File (Some 6%Z) 30]; Get []]) k = Some fk ->
    (k < 2 /\ fk = File (Some 4%Z) 10) \/ (k = 2 /\ fk = File (Some 5%Z) 20) \/ (2 < k /\ fk = File (Some 6%Z) 30)).
  { intros k fk Hk. do 6 (destruct k as [|k]; [injection Hk as <-; auto with arith|]). destruct k; discriminate. }
  apply Hl in Hi, Hj.
  assert (Hsame : forall k fk, nth_error (files (File (Some 4%Z) 10) [Get []; Write (File (Some 5%Z) 20); Get [File (Some 6%Z) 30]; Get []]) k = Some fk -> a = b -> i <= k <= j -> fk = fi).
  { intros k fk Hk E Hr. apply Hl in Hk. destruct Hi as [[Ki ->]|[[Ki ->]|[Ki ->]]]; injection Ha as <-; destruct Hj as [[Kj ->]|[[Kj ->]|[Kj ->]]]; injection Hb as <-; try discriminate;
      destruct Hk as [[Kk ->]|[[Kk ->]|[Kk ->]]]; (reflexivity || (exfalso; lia)). }
  split; [|intros E k fk Hr Hk; exact (Hsame k fk Hk E Hr)].
  destruct Hi as [[Ki ->]|[[Ki ->]|[Ki ->]]]; injection Ha as <-; destruct Hj as [[Kj ->]|[[Kj ->]|[Kj ->]]]; injection Hb as <-; lia.
Qed.
