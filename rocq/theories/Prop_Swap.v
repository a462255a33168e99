(** C133: setting another transformer. *)
From Verif Require Import Base BaseFacts TargetModel LexerModel TreeModel TreeSpec BuildModel ChangesModel RebuildModel TransformModel TransformSpec
  TransformUpdateModel TransformUpdateSpec TransformUpdateProofs Prop_Transform SwapModel SwapSpec SwapProofs.
From Coq Require Import ZArith ZifyBool.

(** C133. In every history of changes of the text and of setting transformers, one call after the other: the result that the worker gives is that of the transformer
    that is set, for the tree as it is; and setting one does not raise.  The methods do not use positions (see C45).
    Missing: a transformer that is set again after the tree was changed without it, see below. *)
Theorem C133_swap_partial :
  forall (L A R Lang Name Arg : Type) (lang : L -> Lang) (name : L -> Name) (arg : L -> Arg) (lang_is : Lang -> Lang -> bool)
         (methods : nat -> Lang -> transform L A R Name Arg) (l_eq : L -> L -> bool) used missed s,
    (forall a b, lang_is a b = true <-> a = b) ->
    (forall t, position_blind lang name (methods t)) ->
    xhistory lang name arg lang_is methods l_eq used missed s ->
    x_get s = match x_cur s with Some t => meaning lang name arg (methods t) (erase (x_tree s)) | None => None end
    /\ forall t, (forall x, t = Some x -> ~ In x missed) ->
         exists s', x_set L A R Lang Name Arg lang name arg lang_is methods s t = Some s' /\
           x_get s' = match t with Some x => meaning lang name arg (methods x) (erase (x_tree s')) | None => None end.
Proof.
  intros L A R Lang Name Arg lang name arg lang_is methods l_eq used missed s Hl Hb H.
  split; [exact (proj2 (swap_right L A R Lang Name Arg lang name arg lang_is Hl methods l_eq Hb used missed s H)) |].
  intros t Ht. destruct (swap_works L A R Lang Name Arg lang name arg lang_is Hl methods l_eq Hb used missed s t H Ht) as (s' & E). exists s'. split; [exact E |].
  pose proof (xh_set _ _ _ _ _ _ _ _ _ _ _ l_eq _ _ _ _ _ H Ht E) as H'. rewrite (proj2 (swap_right L A R Lang Name Arg lang name arg lang_is Hl methods l_eq Hb _ _ s' H')).
  assert (Ec : x_cur s' = t); [| now rewrite Ec]. unfold x_set in E. destruct (same_transformer t (x_cur s)) eqn:Es; [apply same_spec in Es; congruence |].
  unfold x_run in E. cbn [x_cur] in E. destruct t; [| now injection E as <-]. destruct (t_process _ _ _ _ _ _ _ _ _ _ _ _ _ _ _); [| discriminate]. now injection E as <-.
Qed.
Print Assumptions C133_swap_partial.

Notation ex_set s t := (x_set nat nat (list nat) unit nat unit ex_lang ex_name ex_arg ex_is (fun _ => ex_all) s t).
Notation ex_upd s r := (x_update nat nat (list nat) unit nat unit ex_lang ex_name ex_arg ex_is (fun _ => ex_all) Nat.eqb s r).
Notation ex_xhistory := (xhistory ex_lang ex_name ex_arg ex_is (fun _ => ex_all) Nat.eqb).
Definition ex_xstart (tree : node (nat * nat) nat) : xstate nat nat (list nat) := XState tree None (fun _ => TCache (fun _ => None) None).
Lemma ex_none1 id : 9 <= id -> cnt nat nat id ex_t1 = 0. Proof. nocnt. Qed.
Lemma ex_none2 id : 9 <= id -> cnt nat nat id ex_t2 = 0. Proof. nocnt. Qed.
Lemma ex_update used missed missed' s r s' : ex_xhistory used missed s -> wf_children (children (x_tree s)) -> at_tokens (x_tree s) r ->
  (forall t, fresh (UState (x_tree s) (x_caches s t)) r) -> ex_upd s r = Some s' ->
  filter (fun x => negb (same_transformer (Some x) (x_cur s))) used ++ missed = missed' -> ex_xhistory used missed' s'.
Proof. intros H1 H2 H3 H4 H5 <-. eapply xh_update; eassumption. Qed.
(** Transformer 1 is set, the text is changed, transformer 2 is set, and 1 again. *)
Example C133_case : exists s, ex_xhistory [1; 2; 1] [] s /\ x_cur s = Some 1 /\ x_get s = Some [0; 97; 97; 98; 1; 99; 51; 50].
Proof.
  assert (H : exists s1 s2 s3 s4, ex_set (ex_xstart ex_t1) (Some 1) = Some s1 /\ ex_upd s1 ex_r1 = Some s2 /\ ex_set s2 (Some 2) = Some s3 /\ ex_set s3 (Some 1) = Some s4 /\ ex_xhistory [1; 2; 1] [] s4
    /\ x_cur s4 = Some 1 /\ x_get s4 = Some [0; 97; 97; 98; 1; 99; 51; 50]).
  { do 4 eexists. do 4 (split; [vm_compute; reflexivity |]). split; [| split; vm_compute; reflexivity].
    eapply (xh_set _ _ _ _ _ _ _ _ _ _ _ _ [2; 1] [] _ (Some 1)); [| easy |].
    - eapply (xh_set _ _ _ _ _ _ _ _ _ _ _ _ [1] [] _ (Some 2)); [| easy |].
      + eapply (ex_update [1] [] [] _ ex_r1).
        * eapply (xh_set _ _ _ _ _ _ _ _ _ _ _ _ [] [] _ (Some 1)); [apply (xh_start _ _ _ _ _ _ _ _ _ _ _ _ (0, 0) (children ex_t1)); ex_once | easy | vm_compute; reflexivity].
        * exact ex_wf1.
        * ex_at [0] [1].
        * intros t. apply (ex_fresh _ _ 9); [| nocnt | ex_once]. intros id Hid. split; [exact (ex_none1 id Hid) |]. destruct t as [| [| t]]; cbn; try reflexivity. destruct id as [| [| id]]; [lia | lia | reflexivity].
        * vm_compute; reflexivity.
        * reflexivity.
      + vm_compute; reflexivity.
    - vm_compute; reflexivity. }
  destruct H as (s1 & s2 & s3 & s4 & _ & _ & _ & _ & H). exists s4. exact H.
Qed.

(** C133 does not hold for a transformer that is set again after a change: transformer 1 is set, then none, the text abc is changed to abbc, and transformer 1 is set again.
    The result is that for abc: the transformer still has the result for the context that was changed, as it was not told. *)
Theorem C133_stale_refuted :
  exists s1 s2 s3 s4, ex_set (ex_xstart ex_t2) (Some 1) = Some s1 /\ ex_set s1 None = Some s2 /\ ex_upd s2 ex_r2 = Some s3 /\ ex_set s3 (Some 1) = Some s4
    /\ wf_children (children (x_tree s2)) /\ at_tokens (x_tree s2) ex_r2 /\ (forall t, fresh (UState (x_tree s2) (x_caches s2 t)) ex_r2)
    /\ meaning ex_lang ex_name ex_arg ex_all (erase (x_tree s4)) = Some [0; 1; 97; 98; 98; 99; 51; 50]
    /\ x_get s4 = Some [0; 1; 97; 98; 99; 51; 50].
Proof.
  do 4 eexists. do 4 (split; [vm_compute; reflexivity |]). split; [exact ex_wf2 |]. split; [ex_at [0; 0] [0; 2] |]. split; [| split; vm_compute; reflexivity].
  intros t. apply (ex_fresh _ _ 9); [| nocnt | ex_once]. intros id Hid. split; [exact (ex_none2 id Hid) |]. destruct t as [| [| t]]; cbn; try reflexivity. destruct id as [| [| id]]; [lia | lia | reflexivity].
Qed.
Print Assumptions C133_stale_refuted.

(** C133, with a process in the background: transformers may be set at any time, but none is taken away, and no second process is started while one is running.
    When no process is running, the result of the transformer that is set is there, and up to date; and a process ends.
    Missing: taking the transformer away, and asking for the result while a process is running, see below. *)
Theorem C133_background_partial ls s : Forall keeps_one ls -> q_run q_init ls = Some s ->
  (forall t, q_proc s = None -> q_cur s = Some t -> q_waits s = false /\ q_done s t = true) /\
  exists n s', q_run s (repeat LProc n) = Some s' /\ q_proc s' = None /\ forall t, q_cur s = Some t -> q_cur s' = Some t /\ q_done s' t = true.
Proof.
  intros K E. split; [intros t P C; exact (idle_done ls s t K E P C) |]. destruct (process_ends s) as (n & s' & R & P & C). exists n, s'. split; [exact R |]. split; [exact P |].
  intros t Ht. rewrite <- C in Ht. split; [exact Ht |]. apply (idle_done (ls ++ repeat LProc n) s' t); [| | exact P | exact Ht].
  - apply Forall_app. split; [exact K |]. apply Forall_forall. intros l Hl. apply repeat_spec in Hl. now subst.
  - now rewrite (run_app _ _ _ _ E).
Qed.
Print Assumptions C133_background_partial.
(** Transformer 1 is set; while it is running the transformer is set to 2, and to 3 while that is running. *)
Example C133_background_case :
  let ls := [LSet (Some 1); LProc; LProc; LProc; LSet (Some 2); LProc; LProc; LProc; LProc; LSet (Some 3); LProc; LProc; LProc; LProc; LProc; LProc; LProc; LProc] in
  Forall keeps_one ls /\ option_map (fun s => (q_proc s, q_cur s, map (q_done s) [1; 2; 3])) (q_run q_init ls) = Some (None, Some 3, [true; true; true]).
Proof. split; [repeat constructor; discriminate | reflexivity]. Qed.

(** C133 does not hold when the transformer is taken away while the tree is built, and another one is set just before the process ends: that is never run. *)
Theorem C133_lost_refuted : exists ls s, q_run q_init ls = Some s /\ q_proc s = None /\ q_cur s = Some 2 /\ q_waits s = false /\ q_done s 2 = false.
Proof. exists [LSet (Some 1); LSet None; LProc; LProc; LSet (Some 2); LProc]. eexists. now repeat split. Qed.
Print Assumptions C133_lost_refuted.
(** And when transformer 2 is set while 1 is running, there is a moment at which [get_transform] does not wait, although 2 was not run yet. *)
Theorem C133_early_refuted : exists ls s, Forall keeps_one ls /\ q_run q_init ls = Some s /\ q_cur s = Some 2 /\ q_waits s = false /\ q_done s 2 = false.
Proof. exists [LSet (Some 1); LProc; LProc; LSet (Some 2); LProc; LProc; LProc]. eexists. split; [repeat constructor; discriminate |]. now repeat split. Qed.
Print Assumptions C133_early_refuted.
