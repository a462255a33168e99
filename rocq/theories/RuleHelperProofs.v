(** The helpers of parce/rule.py choose as they should. *)
From Verif Require Import Base BaseFacts RuleValues RuleItemModel RuleItemSpec RuleItemProofs.
From Coq Require Import ZArith ZifyBool.

Section Helpers.
Variable peq : pv -> pv -> bool.
Variable escape_str : str -> str.
Variable other : nat -> list pv -> option pv.
Notation denote := (denote peq escape_str other).
Notation rcall := (rcall peq escape_str other).

Lemma select_bool e i (b : bool) x y : denote e i = Some (RAtom (ABool b)) -> denote e (OSelect i [x; y]) = if b then denote e y else denote e x.
Proof. intros E. rewrite denote_select. unfold dselect_. rewrite E. destruct b; reflexivity. Qed.
Lemma select_nat e i n l : denote e i = Some (RAtom (AInt (Z.of_nat n))) -> denote e (OSelect i l) = match nth_error l n with Some o => denote e o | None => None end.
Proof.
  intros E. rewrite denote_select. unfold dselect_. rewrite E. cbn [rint as_int]. rewrite py_get_map. unfold py_get. destruct (0 <=? Z.of_nat n)%Z eqn:Hz; [|lia]. rewrite Nat2Z.id. destruct (nth_error l n); reflexivity.
Qed.
Lemma call_value e f args rs vs : omap (denote e) args = Some rs -> omap pv_of rs = Some vs ->
  denote e (OCall (OFun f) args) = match call_fn peq escape_str other f vs with Some r => Some (rv_of r) | None => None end.
Proof. intros E1 E2. rewrite denote_call. unfold dcall. rewrite <- omap_dseq, E1. cbn [RuleItemSpec.denote]. unfold RuleItemSpec.rcall. cbn [pv_of]. rewrite E2. reflexivity. Qed.
Lemma call1 e f a x : denote e a = Some (rv_of x) -> denote e (OCall (OFun f) [a]) = match call_fn peq escape_str other f [x] with Some r => Some (rv_of r) | None => None end.
Proof. intros E. apply (call_value e f [a] [rv_of x]); [rewrite omap_cons, E; reflexivity|rewrite omap_cons, pv_rv; reflexivity]. Qed.
Lemma call2 e f a b x y : denote e a = Some (rv_of x) -> denote e b = Some (rv_of y) -> denote e (OCall (OFun f) [a; b]) = match call_fn peq escape_str other f [x; y] with Some r => Some (rv_of r) | None => None end.
Proof. intros E1 E2. apply (call_value e f [a; b] [rv_of x; rv_of y]); [rewrite !omap_cons, E1, E2; reflexivity|rewrite !omap_cons, !pv_rv; reflexivity]. Qed.

Lemma lookup_app d d' x : lookup peq (d ++ d') x = match lookup peq d x with Some i => Some i | None => lookup peq d' x end.
Proof. induction d as [|[k i] d IH]; [reflexivity|]. cbn [app lookup]. destruct (peq x k); [reflexivity|exact IH]. Qed.
Lemma lookup_combine {A} (mapping : list (pv * A)) n x :
  match lookup peq (combine (map fst mapping) (seq n (length mapping))) x with
  | Some i => exists k v, n <= i /\ nth_error mapping (i - n) = Some (k, v) /\ find (fun kv => peq x (fst kv)) mapping = Some (k, v)
  | None => find (fun kv => peq x (fst kv)) mapping = None
  end.
Proof.
  revert n. induction mapping as [|[k v] mapping IH]; intros n; [reflexivity|]. cbn [map fst length seq combine lookup find]. destruct (peq x k); [exists k, v; rewrite Nat.sub_diag; repeat split; lia|].
  specialize (IH (S n)). destruct (lookup peq _ x) as [i|]; [|exact IH]. destruct IH as (k' & v' & H1 & H2 & H3). exists k', v'. split; [lia|]. split; [|exact H3]. replace (i - n) with (S (i - S n)) by lia. exact H2.
Qed.

(** [findmember] *)
Variable peq_trans : forall a b c, peq a b = true -> peq b c = true -> peq a c = true.
(** The index of the first sequence that contains [x]: the index of its result among the items. *)
Definition member (x : pv) (l : list pv) : bool := existsb (peq x) l.
Definition fm_inv (x : pv) (default : obj) (pairs : list (list pv * obj)) (acc : list (pv * nat) * list obj) : Prop :=
  snd acc <> [] /\ nth_error (snd acc) 0 = Some default
  /\ (forall i, lookup peq (fst acc) x = Some i -> exists p, find (fun p => member x (fst p)) pairs = Some p /\ nth_error (snd acc) i = Some (snd p))
  /\ (lookup peq (fst acc) x = None -> find (fun p => member x (fst p)) pairs = None).
Lemma find_app {A} (f : A -> bool) l l' : find f (l ++ l') = match find f l with Some x => Some x | None => find f l' end.
Proof. induction l as [|x l IH]; [reflexivity|]. cbn [app find]. destruct (f x); [reflexivity|exact IH]. Qed.
Lemma lookup_const s n x : lookup peq (map (fun y => (y, n)) s) x = if member x s then Some n else None.
Proof. unfold member. induction s as [|y s IH]; [reflexivity|]. cbn [map lookup existsb]. destruct (peq x y); [reflexivity|exact IH]. Qed.
Lemma lookup_key d x y : peq x y = true -> (exists i, lookup peq d y = Some i) -> exists i, lookup peq d x = Some i.
Proof.
  intros Hxy. induction d as [|[k j] d IH]; intros [i Hi]; [discriminate|]. cbn [lookup] in *. destruct (peq y k) eqn:Ey; [rewrite (peq_trans x y k Hxy Ey); eauto|]. destruct (peq x k); eauto.
Qed.
Lemma existsb_lookup d x : existsb (fun q => peq x (fst q)) d = true <-> exists i, lookup peq d x = Some i.
Proof. induction d as [|[k j] d IH]; [split; [discriminate|intros [i Hi]; discriminate]|]. cbn [existsb lookup fst]. destruct (peq x k); cbn [orb]; [split; eauto|exact IH]. Qed.
Lemma member_filter d s x : lookup peq d x = None -> member x (filter (fun y => negb (existsb (fun q => peq y (fst q)) d)) s) = member x s.
Proof.
  intros Hd. unfold member. induction s as [|y s IH]; [reflexivity|]. cbn [filter existsb]. destruct (existsb (fun q => peq y (fst q)) d) eqn:Ey; cbn [negb].
  - rewrite IH. destruct (peq x y) eqn:Exy; [|reflexivity]. exfalso. apply existsb_lookup in Ey. destruct (lookup_key d x y Exy Ey) as [i Hi]. congruence.
  - cbn [existsb]. rewrite IH. reflexivity.
Qed.
Lemma fm_step_inv x default pairs acc p : fm_inv x default pairs acc -> fm_inv x default (pairs ++ [p]) (fm_step peq acc p).
Proof.
  destruct acc as [d items]. intros (H0 & Hd & H1 & H2). cbn [fst snd] in *. unfold fm_step. set (s := filter _ (fst p)).
  assert (Hm : lookup peq d x = None -> member x s = member x (fst p)) by (intros Hn; apply member_filter; exact Hn).
  assert (Hfind : find (fun p => member x (fst p)) (pairs ++ [p]) = match find (fun p => member x (fst p)) pairs with Some q => Some q | None => if member x (fst p) then Some p else None end) by (rewrite find_app; reflexivity).
  destruct s as [|y s'] eqn:Es.
  - split; [exact H0|]. split; [exact Hd|]. cbn [fst snd]. rewrite Hfind. split.
    + intros i Hi. destruct (H1 i Hi) as (q & Eq & Hq). rewrite Eq. eauto.
    + intros Hn. rewrite (H2 Hn). rewrite <- (Hm Hn). reflexivity.
  - rewrite <- Es in *. clear Es s'. split; [cbn [snd]; destruct items; discriminate|]. cbn [fst snd]. split; [destruct items; [discriminate|exact Hd]|].
    rewrite lookup_app, lookup_const, Hfind. split.
    + intros i Hi. destruct (lookup peq d x) as [j|] eqn:Ej.
      * injection Hi as <-. destruct (H1 j eq_refl) as (q & Eq & Hq). rewrite Eq. exists q. split; [reflexivity|]. rewrite nth_error_app1; [exact Hq|]. apply nth_error_Some. congruence.
      * rewrite (H2 eq_refl), <- (Hm eq_refl). destruct (member x s); [|discriminate]. injection Hi as <-. exists p. split; [reflexivity|]. rewrite nth_error_app2, Nat.sub_diag by lia. reflexivity.
    + intros Hn. destruct (lookup peq d x); [discriminate|]. rewrite (H2 eq_refl), <- (Hm eq_refl). destruct (member x s); [discriminate|reflexivity].
Qed.
Lemma fm_fold x default : forall pairs done acc, fm_inv x default done acc -> fm_inv x default (done ++ pairs) (fold_left (fm_step peq) pairs acc).
Proof.
  induction pairs as [|p pairs IH]; intros done acc H; [rewrite app_nil_r; exact H|]. cbn [fold_left]. replace (done ++ p :: pairs) with ((done ++ [p]) ++ pairs) by (rewrite <- app_assoc; reflexivity). apply IH. apply fm_step_inv. exact H.
Qed.
Lemma fm_inv_start x default : fm_inv x default [] ([], [default]).
Proof. split; [discriminate|]. split; [reflexivity|]. split; [discriminate|reflexivity]. Qed.

(** [gselect] *)
Lemma first_group_spec gs : forall l i, (forall n, In n l -> exists g, group gs n = Some g) ->
  exists k, first_group gs i l = Some (i + k) /\ (forall j n, j < k -> nth_error l j = Some n -> group gs n = Some None)
    /\ (k = length l \/ exists n s, nth_error l k = Some n /\ group gs n = Some (Some s)).
Proof.
  induction l as [|n l IH]; intros i H; [exists 0; cbn [first_group]; rewrite Nat.add_0_r; split; [reflexivity|]; split; [lia|left; reflexivity]|].
  cbn [first_group]. destruct (H n (or_introl eq_refl)) as [g Eg]. rewrite Eg. destruct g as [s|].
  - exists 0. rewrite Nat.add_0_r. split; [reflexivity|]. split; [lia|]. right. exists n, s. split; [reflexivity|exact Eg].
  - destruct (IH (S i)) as (k & Ek & H1 & H2); [intros m Hm; apply H; right; exact Hm|]. exists (S k). rewrite Ek. split; [f_equal; lia|]. split.
    + intros [|j] m Hj Em; [injection Em as <-; exact Eg|]. apply (H1 j m); [lia|exact Em].
    + destruct H2 as [->|H2]; [left; reflexivity|right; exact H2].
Qed.
End Helpers.
