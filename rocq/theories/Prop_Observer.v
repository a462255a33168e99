(** C31, C32: observers. *)
From Verif Require Import Base ObserverModel ObserverSpec ObserverProofs.
From Coq Require Import ZArith.

(** C31: any history of connecting, disconnecting and emitting, by functions that do not use the Observable themselves,
    goes well and calls what the specification says; afterwards [has_connections] and [is_connected] tell the
    connections of the specification. *)
Theorem C31_observers : forall (alive : nat -> bool) (ops : list uop),
  exists n s r, (forall fuel, n <= fuel -> run_ops alive (fun _ => []) fuel u_init ops = Some s)
  /\ spec_run alive (fun _ => [], []) ops (r, u_log s)
  /\ forall e, has_connections s e = negb (match r e with [] => true | _ => false end)
               /\ forall f, is_connected s e f = existsb (fun o => o_func o =? f) (r e).
Proof.
  intros alive ops. destruct (run_refines alive ops u_init _ reps_init) as (n & s & r & H1 & H2 & Hi & H3).
  exists n, s, r. split; [exact H1|]. split; [exact H2|]. intros e. destruct (H3 e) as (K1 & K2 & K3). unfold has_connections, is_connected. split.
  - destruct (lookup e (u_cbs s)) as [id|] eqn:E.
    + destruct (r e) as [|x l] eqn:Er; [|reflexivity]. exfalso. apply K3; [discriminate|]. apply (in_order_nil _ _ K1). reflexivity.
    + destruct (r e) as [|x l] eqn:Er; [reflexivity|]. exfalso. unfold slots in K1. rewrite E in K1. apply (in_order_in _ _ x K1). left; reflexivity.
  - intros f. rewrite <- (in_order_existsb _ _ _ K1). unfold slots. destruct (lookup e (u_cbs s)); reflexivity.
Qed.
Print Assumptions C31_observers.

(** The specification leaves no freedom in the calls. *)
Theorem C31_deterministic : forall alive r log ops x y, spec_run alive (r, log) ops x -> spec_run alive (r, log) ops y ->
  snd x = snd y /\ forall e, fst x e = fst y e.
Proof.
  intros alive r log ops x y Hx. revert y. remember (r, log) as s0 eqn:E0. clear E0.
  assert (Hg : forall z, (snd z = snd s0 /\ forall e, fst z e = fst s0 e) -> forall y, spec_run alive z ops y -> snd x = snd y /\ forall e, fst x e = fst y e).
  { induction Hx as [s|s o s1 ops s2 Hs Hr IH]; intros z [Hz1 Hz2] y Hy.
    - inversion Hy; subst. split; [symmetry; exact Hz1|]. intros e. rewrite Hz2. reflexivity.
    - inversion Hy as [|? ? z1 ? ? Hzs Hzr]; subst. apply (IH z1); [|exact Hzr]. clear - Hz1 Hz2 Hs Hzs.
      destruct Hs; inversion Hzs; subst; cbn [fst snd] in *; subst; (split; [try reflexivity|intros x; unfold reg_connect, reg_disconnect; rewrite ?Hz2; try reflexivity; try (destruct (x =? _); reflexivity)]).
      f_equal. rewrite Hz2 in *. match goal with A : in_order (r e) calls, B : in_order (r e) ?c |- _ => rewrite (in_order_unique _ _ _ A B) end. reflexivity. }
  intros y Hy. apply (Hg s0); [auto|exact Hy].
Qed.
Print Assumptions C31_deterministic.

(** Three functions, one of them for a single call. Function 4 is gone. *)
Example C31_example : exists s,
  run_ops (fun f => negb (f =? 4)) (fun _ => []) 10 u_init
    [Connect 0 1 false 0; Connect 0 2 true (-1)%Z; Connect 0 3 false 0; Connect 0 4 false (-5)%Z; Connect 0 1 true 7; Emit 0; Disconnect 0 3; Emit 0; Emit 1]
  = Some s /\ u_log s = [(0, 2); (0, 1); (0, 3); (0, 1)] /\ is_connected s 0 1 = true /\ is_connected s 0 2 = false.
Proof. eexists. split; [vm_compute; reflexivity|]. vm_compute. auto. Qed.

(** C32 is false: function 2, to be called once, disconnects function 1 which is before it. Then function 3 is never
    called and disconnected, although it was to stay, and function 2 stays connected. *)
Theorem C32_refuted : exists (effect : nat -> list uop) (s : ustate),
  effect 1 = [] /\ effect 2 = [Disconnect 0 1] /\ effect 3 = []
  /\ (forall fuel, 5 <= fuel -> run_ops (fun _ => true) effect fuel u_init [Connect 0 1 false 0; Connect 0 2 true 0; Connect 0 3 false 0; Emit 0] = Some s)
  /\ u_log s = [(0, 1); (0, 2)] /\ is_connected s 0 3 = false /\ is_connected s 0 2 = true.
Proof.
  exists (fun f => if f =? 2 then [Disconnect 0 1] else []). eexists. do 3 (split; [reflexivity|]). split.
  - intros fuel Hf. do 5 (destruct fuel as [|fuel]; [lia|]). vm_compute. reflexivity.
  - vm_compute. auto.
Qed.
Print Assumptions C32_refuted.

(** Part of C32: when the functions may do anything with the Observable except with the event that is being emitted, then
    all functions are called that should be, and those that should be called once are gone afterwards. [s] is any state
    that can be reached. *)
Theorem C32_partial : forall (alive : nat -> bool) (effect : nat -> list uop) e fuel ops s s',
  (forall f, Forall (fun o => ~ touches e o) (effect f)) ->
  run_ops alive effect fuel u_init ops = Some s -> run_op alive effect fuel s (Emit e) = Some s' ->
  filter (fun x => fst x =? e) (u_log s')
  = filter (fun x => fst x =? e) (u_log s) ++ map (fun o => (e, o_func o)) (filter (fun o => alive (o_func o)) (slots s e))
  /\ slots s' e = filter (fun o => alive (o_func o) && negb (o_once o)) (slots s e).
Proof.
  intros alive effect e fuel ops s s' Hq Hs He.
  assert (Hi : inv s).
  { assert (H0 : inv u_init) by (apply reps_init). revert H0 Hs. generalize u_init. induction ops as [|o ops IH]; intros s0 H0 Hs.
    - injection Hs as <-. exact H0.
    - cbn [run_ops] in Hs. destruct (run_op alive effect fuel s0 o) as [s1|] eqn:E; [|discriminate]. apply (IH s1); [|exact Hs].
      destruct o as [e' f once prio|e' f|e'|e'].
      + destruct fuel; injection E as <-; apply connect_inv; exact H0.
      + destruct fuel; injection E as <-; apply disconnect_inv; exact H0.
      + destruct fuel; injection E as <-; apply disconnect_all_inv; exact H0.
      + destruct (Nat.eq_dec e' e) as [->|Hne]; [apply (emit_own alive effect e fuel s0 s1 Hq H0 E)|].
        apply (run_op_frame alive effect e Hq fuel s0 (Emit e') s1 H0 Hne E). }
  destruct (emit_own alive effect e fuel s s' Hq Hi He) as (_ & H2 & _ & H4). auto.
Qed.
Print Assumptions C32_partial.

(** Function 1, on event 0, connects function 5 to event 1, emits that, and disconnects all from it. *)
Example C32_example :
  let effect := fun f => if f =? 1 then [Connect 1 5 true 0; Emit 1; DisconnectAll (Some 1)] else [] in
  (forall f, Forall (fun o => ~ touches 0 o) (effect f))
  /\ exists s s', run_ops (fun _ => true) effect 9 u_init [Connect 1 6 false 0; Connect 0 1 true 0; Connect 0 2 false 0] = Some s
     /\ run_op (fun _ => true) effect 9 s (Emit 0) = Some s' /\ u_log s' = [(0, 1); (1, 6); (1, 5); (0, 2)] /\ map o_func (slots s' 0) = [2].
Proof.
  split; [intros f; cbv zeta; destruct (f =? 1); [|constructor]; repeat constructor; cbn; lia|].
  eexists. eexists. split; [vm_compute; reflexivity|]. split; [vm_compute; reflexivity|]. split; reflexivity.
Qed.
