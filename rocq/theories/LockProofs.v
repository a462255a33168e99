(** Proofs about locks and caches. *)
From Verif Require Import Base LockModel LockSpec.
From Coq Require Import ZArith ZifyBool.

Lemma upd_same {A} (f : nat -> A) t x : upd f t x t = x.
Proof. unfold upd. rewrite Nat.eqb_refl. reflexivity. Qed.
Lemma upd_other {A} (f : nat -> A) t x u : u <> t -> upd f t x u = f u.
Proof. intros H. unfold upd. replace (u =? t) with false by lia. reflexivity. Qed.
Lemma upd_cases {A} (f : nat -> A) t x u : (u = t /\ upd f t x u = x) \/ (u <> t /\ upd f t x u = f u).
Proof. destruct (Nat.eq_dec u t) as [->|H]; [left; split; [reflexivity|apply upd_same]|right; split; [exact H|apply upd_other; exact H]]. Qed.

(** ** object_locker *)

Definition holds (id : nat) (pc : lpc) : bool := match pc with InRaw i | InCln i => i =? id | _ => false end.
(** A thread that will remove the entry. *)
Definition cleaner (pc : lpc) : bool := match pc with WaitCln _ | InCln _ | Del => true | _ => false end.
Definition lock_of (pc : lpc) : option nat := match pc with WaitRaw i | WaitCln i | InRaw i | InCln i => Some i | _ => None end.

Definition linv (s : lstate) : Prop :=
  (forall t u id, holds id (l_pc s t) = true -> holds id (l_pc s u) = true -> t = u)
  /\ (forall id, l_held s id = true <-> exists t, holds id (l_pc s t) = true)
  /\ (forall t u, cleaner (l_pc s t) = true -> cleaner (l_pc s u) = true -> t = u)
  /\ (l_entry s <> None <-> exists t, cleaner (l_pc s t) = true)
  /\ (forall t, l_pc s t <> KeyErr)
  /\ (forall t id, lock_of (l_pc s t) = Some id -> id < l_next s)
  /\ (forall id, l_entry s = Some id -> id < l_next s).

Ltac updc := repeat match goal with
  | H : context [upd ?f ?t ?x ?u] |- _ => destruct (upd_cases f t x u) as [[? ->]|[? ->]] || (let K := fresh in let L := fresh in destruct (upd_cases f t x u) as [[K L]|[K L]]; rewrite L in *)
  | |- context [upd ?f ?t ?x ?u] => let K := fresh in let L := fresh in destruct (upd_cases f t x u) as [[K L]|[K L]]; rewrite L in *
  end.

Lemma linv_init : linv l_init.
Proof.
  unfold linv, l_init. cbn. repeat split; try discriminate; try congruence; try (intros [t Ht]; discriminate).
Qed.

Lemma linv_step s t s' : linv s -> l_step s t = Some s' -> linv s'.
Proof.
  intros (H1 & H2 & H3 & H4 & H5 & H6 & H7) Hs. unfold l_step in Hs. destruct (l_pc s t) as [|id|id|id|id| |] eqn:Ep.
  - destruct (l_entry s) as [id|] eqn:Ee; injection Hs as <-; unfold linv; cbn [l_pc l_held l_entry l_next].
    + split; [|split; [|split; [|split; [|split; [|split]]]]].
      * intros a b i Ha Hb. destruct (upd_cases (l_pc s) t (WaitRaw id) a) as [[-> E]|[Na E]]; rewrite E in Ha; [discriminate|].
        destruct (upd_cases (l_pc s) t (WaitRaw id) b) as [[-> E']|[Nb E']]; rewrite E' in Hb; [discriminate|]. eauto.
      * intros i. rewrite H2. split; intros [a Ha]; exists a.
        -- destruct (upd_cases (l_pc s) t (WaitRaw id) a) as [[-> E]|[Na E]]; rewrite E; [rewrite Ep in Ha; discriminate|exact Ha].
        -- destruct (upd_cases (l_pc s) t (WaitRaw id) a) as [[-> E]|[Na E]]; rewrite E in Ha; [discriminate|exact Ha].
      * intros a b Ha Hb. destruct (upd_cases (l_pc s) t (WaitRaw id) a) as [[-> E]|[Na E]]; rewrite E in Ha; [discriminate|].
        destruct (upd_cases (l_pc s) t (WaitRaw id) b) as [[-> E']|[Nb E']]; rewrite E' in Hb; [discriminate|]. eauto.
      * rewrite H4. split; intros [a Ha]; exists a.
        -- destruct (upd_cases (l_pc s) t (WaitRaw id) a) as [[-> E]|[Na E]]; rewrite E; [rewrite Ep in Ha; discriminate|exact Ha].
        -- destruct (upd_cases (l_pc s) t (WaitRaw id) a) as [[-> E]|[Na E]]; rewrite E in Ha; [discriminate|exact Ha].
      * intros a. destruct (upd_cases (l_pc s) t (WaitRaw id) a) as [[-> E]|[Na E]]; rewrite E; [discriminate|apply H5].
      * intros a i. destruct (upd_cases (l_pc s) t (WaitRaw id) a) as [[-> E]|[Na E]]; rewrite E; [intros [= <-]; apply H7; reflexivity|apply H6].
      * exact H7.
    + assert (Hnc : forall a, cleaner (l_pc s a) = false).
      { intros a. destruct (cleaner (l_pc s a)) eqn:E; [|reflexivity]. exfalso. assert (K : @None nat <> None) by (apply H4; exists a; exact E). congruence. }
      set (pc := WaitCln (l_next s)).
      split; [|split; [|split; [|split; [|split; [|split]]]]].
      * intros a b i Ha Hb. destruct (upd_cases (l_pc s) t pc a) as [[-> E]|[Na E]]; rewrite E in Ha; [discriminate|].
        destruct (upd_cases (l_pc s) t pc b) as [[-> E']|[Nb E']]; rewrite E' in Hb; [discriminate|]. eauto.
      * intros i. rewrite H2. split; intros [a Ha]; exists a.
        -- destruct (upd_cases (l_pc s) t pc a) as [[-> E]|[Na E]]; rewrite E; [rewrite Ep in Ha; discriminate|exact Ha].
        -- destruct (upd_cases (l_pc s) t pc a) as [[-> E]|[Na E]]; rewrite E in Ha; [discriminate|exact Ha].
      * intros a b Ha Hb. destruct (upd_cases (l_pc s) t pc a) as [[-> E]|[Na E]]; [|rewrite E, Hnc in Ha; discriminate].
        destruct (upd_cases (l_pc s) t pc b) as [[-> E']|[Nb E']]; [reflexivity|rewrite E', Hnc in Hb; discriminate].
      * split; [intros _; exists t; rewrite upd_same; reflexivity|discriminate].
      * intros a. destruct (upd_cases (l_pc s) t pc a) as [[-> E]|[Na E]]; rewrite E; [discriminate|apply H5].
      * intros a i. destruct (upd_cases (l_pc s) t pc a) as [[-> E]|[Na E]]; rewrite E; [intros [= <-]; lia|]. intros Hi. specialize (H6 a i Hi). lia.
      * intros i [= <-]. lia.
  - (* WaitRaw *) destruct (l_held s id) eqn:Eh; [discriminate|]. injection Hs as <-. unfold linv; cbn [l_pc l_held l_entry l_next]. set (pc := InRaw id).
    assert (Hnh : forall a, holds id (l_pc s a) = false).
    { intros a. destruct (holds id (l_pc s a)) eqn:E; [|reflexivity]. assert (l_held s id = true) by (apply H2; eauto). congruence. }
    split; [|split; [|split; [|split; [|split; [|split]]]]].
    + intros a b i Ha Hb. destruct (upd_cases (l_pc s) t pc a) as [[-> E]|[Na E]]; rewrite E in Ha; destruct (upd_cases (l_pc s) t pc b) as [[-> E']|[Nb E']]; rewrite E' in Hb.
      * reflexivity.
      * cbn in Ha. apply Nat.eqb_eq in Ha. subst i. rewrite Hnh in Hb. discriminate.
      * cbn in Hb. apply Nat.eqb_eq in Hb. subst i. rewrite Hnh in Ha. discriminate.
      * eauto.
    + intros i. destruct (upd_cases (l_held s) id true i) as [[-> E]|[Ni E]]; rewrite E.
      * split; [intros _; exists t; rewrite upd_same; cbn; apply Nat.eqb_refl|reflexivity].
      * rewrite H2. split; intros [a Ha]; exists a.
        -- destruct (upd_cases (l_pc s) t pc a) as [[-> E2]|[Na E2]]; rewrite E2; [rewrite Ep in Ha; discriminate|exact Ha].
        -- destruct (upd_cases (l_pc s) t pc a) as [[-> E2]|[Na E2]]; rewrite E2 in Ha; [cbn in Ha; lia|exact Ha].
    + intros a b Ha Hb. destruct (upd_cases (l_pc s) t pc a) as [[-> E]|[Na E]]; rewrite E in Ha; [discriminate|].
      destruct (upd_cases (l_pc s) t pc b) as [[-> E']|[Nb E']]; rewrite E' in Hb; [discriminate|]. eauto.
    + rewrite H4. split; intros [a Ha]; exists a.
      * destruct (upd_cases (l_pc s) t pc a) as [[-> E]|[Na E]]; rewrite E; [rewrite Ep in Ha; discriminate|exact Ha].
      * destruct (upd_cases (l_pc s) t pc a) as [[-> E]|[Na E]]; rewrite E in Ha; [discriminate|exact Ha].
    + intros a. destruct (upd_cases (l_pc s) t pc a) as [[-> E]|[Na E]]; rewrite E; [discriminate|apply H5].
    + intros a i. destruct (upd_cases (l_pc s) t pc a) as [[-> E]|[Na E]]; rewrite E; [intros [= <-]; apply (H6 t); rewrite Ep; reflexivity|apply H6].
    + exact H7.
  - (* WaitCln *) destruct (l_held s id) eqn:Eh; [discriminate|]. injection Hs as <-. unfold linv; cbn [l_pc l_held l_entry l_next]. set (pc := InCln id).
    assert (Hnh : forall a, holds id (l_pc s a) = false).
    { intros a. destruct (holds id (l_pc s a)) eqn:E; [|reflexivity]. assert (l_held s id = true) by (apply H2; eauto). congruence. }
    assert (Hcl : forall a, cleaner (upd (l_pc s) t pc a) = cleaner (l_pc s a)).
    { intros a. destruct (upd_cases (l_pc s) t pc a) as [[-> E]|[Na E]]; rewrite E; [rewrite Ep; reflexivity|reflexivity]. }
    split; [|split; [|split; [|split; [|split; [|split]]]]].
    + intros a b i Ha Hb. destruct (upd_cases (l_pc s) t pc a) as [[-> E]|[Na E]]; rewrite E in Ha; destruct (upd_cases (l_pc s) t pc b) as [[-> E']|[Nb E']]; rewrite E' in Hb.
      * reflexivity.
      * cbn in Ha. apply Nat.eqb_eq in Ha. subst i. rewrite Hnh in Hb. discriminate.
      * cbn in Hb. apply Nat.eqb_eq in Hb. subst i. rewrite Hnh in Ha. discriminate.
      * eauto.
    + intros i. destruct (upd_cases (l_held s) id true i) as [[-> E]|[Ni E]]; rewrite E.
      * split; [intros _; exists t; rewrite upd_same; cbn; apply Nat.eqb_refl|reflexivity].
      * rewrite H2. split; intros [a Ha]; exists a.
        -- destruct (upd_cases (l_pc s) t pc a) as [[-> E2]|[Na E2]]; rewrite E2; [rewrite Ep in Ha; discriminate|exact Ha].
        -- destruct (upd_cases (l_pc s) t pc a) as [[-> E2]|[Na E2]]; rewrite E2 in Ha; [cbn in Ha; lia|exact Ha].
    + intros a b. rewrite !Hcl. apply H3.
    + rewrite H4. split; intros [a Ha]; exists a; [rewrite Hcl|rewrite Hcl in Ha]; exact Ha.
    + intros a. destruct (upd_cases (l_pc s) t pc a) as [[-> E]|[Na E]]; rewrite E; [discriminate|apply H5].
    + intros a i. destruct (upd_cases (l_pc s) t pc a) as [[-> E]|[Na E]]; rewrite E; [intros [= <-]; apply (H6 t); rewrite Ep; reflexivity|apply H6].
    + exact H7.
  - (* InRaw *) injection Hs as <-. unfold linv; cbn [l_pc l_held l_entry l_next].
    assert (Hme : holds id (l_pc s t) = true) by (rewrite Ep; cbn; apply Nat.eqb_refl).
    split; [|split; [|split; [|split; [|split; [|split]]]]].
    + intros a b i Ha Hb. destruct (upd_cases (l_pc s) t Idle a) as [[-> E]|[Na E]]; rewrite E in Ha; [discriminate|].
      destruct (upd_cases (l_pc s) t Idle b) as [[-> E']|[Nb E']]; rewrite E' in Hb; [discriminate|]. eauto.
    + intros i. destruct (upd_cases (l_held s) id false i) as [[-> E]|[Ni E]]; rewrite E.
      * split; [discriminate|]. intros [a Ha]. exfalso. destruct (upd_cases (l_pc s) t Idle a) as [[-> E2]|[Na E2]]; rewrite E2 in Ha; [discriminate|]. apply Na. eauto.
      * rewrite H2. split; intros [a Ha]; exists a.
        -- destruct (upd_cases (l_pc s) t Idle a) as [[-> E2]|[Na E2]]; rewrite E2; [rewrite Ep in Ha; cbn in Ha; lia|exact Ha].
        -- destruct (upd_cases (l_pc s) t Idle a) as [[-> E2]|[Na E2]]; rewrite E2 in Ha; [discriminate|exact Ha].
    + intros a b Ha Hb. destruct (upd_cases (l_pc s) t Idle a) as [[-> E]|[Na E]]; rewrite E in Ha; [discriminate|].
      destruct (upd_cases (l_pc s) t Idle b) as [[-> E']|[Nb E']]; rewrite E' in Hb; [discriminate|]. eauto.
    + rewrite H4. split; intros [a Ha]; exists a.
      * destruct (upd_cases (l_pc s) t Idle a) as [[-> E]|[Na E]]; rewrite E; [rewrite Ep in Ha; discriminate|exact Ha].
      * destruct (upd_cases (l_pc s) t Idle a) as [[-> E]|[Na E]]; rewrite E in Ha; [discriminate|exact Ha].
    + intros a. destruct (upd_cases (l_pc s) t Idle a) as [[-> E]|[Na E]]; rewrite E; [discriminate|apply H5].
    + intros a i. destruct (upd_cases (l_pc s) t Idle a) as [[-> E]|[Na E]]; rewrite E; [discriminate|apply H6].
    + exact H7.
  - (* InCln *) injection Hs as <-. unfold linv; cbn [l_pc l_held l_entry l_next].
    assert (Hme : holds id (l_pc s t) = true) by (rewrite Ep; cbn; apply Nat.eqb_refl).
    assert (Hcl : forall a, cleaner (upd (l_pc s) t Del a) = cleaner (l_pc s a)).
    { intros a. destruct (upd_cases (l_pc s) t Del a) as [[-> E]|[Na E]]; rewrite E; [rewrite Ep; reflexivity|reflexivity]. }
    split; [|split; [|split; [|split; [|split; [|split]]]]].
    + intros a b i Ha Hb. destruct (upd_cases (l_pc s) t Del a) as [[-> E]|[Na E]]; rewrite E in Ha; [discriminate|].
      destruct (upd_cases (l_pc s) t Del b) as [[-> E']|[Nb E']]; rewrite E' in Hb; [discriminate|]. eauto.
    + intros i. destruct (upd_cases (l_held s) id false i) as [[-> E]|[Ni E]]; rewrite E.
      * split; [discriminate|]. intros [a Ha]. exfalso. destruct (upd_cases (l_pc s) t Del a) as [[-> E2]|[Na E2]]; rewrite E2 in Ha; [discriminate|]. apply Na. eauto.
      * rewrite H2. split; intros [a Ha]; exists a.
        -- destruct (upd_cases (l_pc s) t Del a) as [[-> E2]|[Na E2]]; rewrite E2; [rewrite Ep in Ha; cbn in Ha; lia|exact Ha].
        -- destruct (upd_cases (l_pc s) t Del a) as [[-> E2]|[Na E2]]; rewrite E2 in Ha; [discriminate|exact Ha].
    + intros a b. rewrite !Hcl. apply H3.
    + rewrite H4. split; intros [a Ha]; exists a; [rewrite Hcl|rewrite Hcl in Ha]; exact Ha.
    + intros a. destruct (upd_cases (l_pc s) t Del a) as [[-> E]|[Na E]]; rewrite E; [discriminate|apply H5].
    + intros a i. destruct (upd_cases (l_pc s) t Del a) as [[-> E]|[Na E]]; rewrite E; [discriminate|apply H6].
    + exact H7.
  - (* Del *) assert (He : l_entry s <> None) by (apply H4; exists t; rewrite Ep; reflexivity).
    destruct (l_entry s) as [id|] eqn:Ee; [|congruence]. injection Hs as <-. unfold linv; cbn [l_pc l_held l_entry l_next].
    split; [|split; [|split; [|split; [|split; [|split]]]]].
    + intros a b i Ha Hb. destruct (upd_cases (l_pc s) t Idle a) as [[-> E]|[Na E]]; rewrite E in Ha; [discriminate|].
      destruct (upd_cases (l_pc s) t Idle b) as [[-> E']|[Nb E']]; rewrite E' in Hb; [discriminate|]. eauto.
    + intros i. rewrite H2. split; intros [a Ha]; exists a.
      * destruct (upd_cases (l_pc s) t Idle a) as [[-> E2]|[Na E2]]; rewrite E2; [rewrite Ep in Ha; discriminate|exact Ha].
      * destruct (upd_cases (l_pc s) t Idle a) as [[-> E2]|[Na E2]]; rewrite E2 in Ha; [discriminate|exact Ha].
    + intros a b Ha Hb. destruct (upd_cases (l_pc s) t Idle a) as [[-> E]|[Na E]]; rewrite E in Ha; [discriminate|].
      destruct (upd_cases (l_pc s) t Idle b) as [[-> E']|[Nb E']]; rewrite E' in Hb; [discriminate|]. eauto.
    + split; [congruence|]. intros [a Ha]. exfalso. destruct (upd_cases (l_pc s) t Idle a) as [[-> E]|[Na E]]; rewrite E in Ha; [discriminate|].
      apply Na. apply H3; [exact Ha|rewrite Ep; reflexivity].
    + intros a. destruct (upd_cases (l_pc s) t Idle a) as [[-> E]|[Na E]]; rewrite E; [discriminate|apply H5].
    + intros a i. destruct (upd_cases (l_pc s) t Idle a) as [[-> E]|[Na E]]; rewrite E; [discriminate|apply H6].
    + discriminate.
  - discriminate.
Qed.

Lemma linv_run ts : forall s s', linv s -> l_run s ts = Some s' -> linv s'.
Proof.
  induction ts as [|t ts IH]; intros s s' Hi H; [injection H as <-; exact Hi|]. cbn [l_run] in H. destruct (l_step s t) as [s1|] eqn:E; [|discriminate].
  apply (IH s1); [eapply linv_step; eassumption|exact H].
Qed.

(** In a fresh execution all users use the newest lock. *)
Definition newest (s : lstate) : Prop := forall t id, lock_of (l_pc s t) = Some id -> S id = l_next s.
Lemma newest_step s t s' : linv s -> newest s -> (forall id, l_entry s = Some id -> S id = l_next s) ->
  (l_pc s t = Idle -> l_entry s = None -> forall u, ~ uses (l_pc s u)) -> l_step s t = Some s' ->
  newest s' /\ (forall id, l_entry s' = Some id -> S id = l_next s').
Proof.
  intros Hi Hn He Hf Hs. unfold l_step in Hs. destruct (l_pc s t) as [|id|id|id|id| |] eqn:Ep.
  1:{ destruct (l_entry s) as [id|] eqn:Ee; injection Hs as <-; unfold newest; cbn [l_pc l_entry l_next].
      - split; [|exact He]. intros a i Ha. destruct (upd_cases (l_pc s) t (WaitRaw id) a) as [[-> E]|[Na E]]; rewrite E in Ha; [injection Ha as <-; apply He; reflexivity|]. apply (Hn _ _ Ha).
      - specialize (Hf eq_refl eq_refl). split; [|intros i [= <-]; reflexivity]. intros a i Ha.
        destruct (upd_cases (l_pc s) t (WaitCln (l_next s)) a) as [[-> E]|[Na E]]; rewrite E in Ha; [injection Ha as <-; reflexivity|].
        exfalso. apply (Hf a). destruct (l_pc s a); try discriminate; exact I. }
  1-2: destruct (l_held s id); [discriminate|].
  1-4: injection Hs as <-; unfold newest; cbn [l_pc l_entry l_next]; split; [|exact He]; intros a i Ha; unfold upd in Ha;
    destruct (a =? t); [cbn in Ha; try discriminate; injection Ha as <-; apply (Hn t); rewrite Ep; reflexivity|apply (Hn _ _ Ha)].
  - destruct (l_entry s) as [id|] eqn:Ee; injection Hs as <-; unfold newest; cbn [l_pc l_entry l_next]; (split; [|discriminate]);
      intros a i Ha; unfold upd in Ha; destruct (a =? t); (discriminate || apply (Hn _ _ Ha)).
  - discriminate.
Qed.

Lemma fresh_newest s ts s' : l_run_fresh s ts s' -> linv s -> newest s -> (forall id, l_entry s = Some id -> S id = l_next s) -> linv s' /\ newest s'.
Proof.
  induction 1 as [s|s t s1 ts s2 Hs Hf Hr IH]; intros Hi Hn He; [auto|].
  destruct (newest_step s t s1 Hi Hn He Hf Hs) as [Hn1 He1]. apply IH; [eapply linv_step; eassumption|exact Hn1|exact He1].
Qed.

(** ** caching_dict *)
Section Cache.
Variable cache_none : bool.

Definition locked (pc : cpc) : bool := match pc with CIdle | CWant _ => false | _ => true end.
Definition kept (v : option nat) : bool := cache_none || match v with None => false | Some _ => true end.

(** Once a kept value is there for a key, all later ones satisfy P. *)
Definition sticky (P : option nat -> option nat -> Prop) (l : list (nat * option nat)) : Prop :=
  forall l1 k v l2, l = l1 ++ (k, v) :: l2 -> kept v = true -> forall w, In (k, w) l2 -> P v w.

Lemma sticky_snoc P l k w : sticky P l -> (forall v, In (k, v) l -> kept v = true -> P v w) -> sticky P (l ++ [(k, w)]).
Proof.
  intros Hs Hn l1 k' v l2 E Hk x Hx. destruct l2 as [|y l2 _] using rev_ind; [destruct Hx|]. rewrite app_comm_cons, app_assoc in E. apply app_inj_tail in E as [E <-].
  apply in_app_iff in Hx as [Hx|[[= -> ->]|[]]]; [eapply Hs; eassumption|]. apply Hn; [|exact Hk]. rewrite E. apply in_app_iff. right; left; reflexivity.
Qed.

Definition cinv (s : cstate) : Prop :=
  (forall t, locked (c_pc s t) = true <-> c_lock s = Some t)
  /\ (forall k v, assoc k (c_dict s) = Some v -> In (k, v) (c_calls s) /\ kept v = true)
  /\ (forall k v, In (k, v) (c_calls s) -> kept v = true -> assoc k (c_dict s) = Some v \/ exists t, c_pc s t = CStore k v)
  /\ sticky (fun _ _ => False) (c_calls s)
  /\ (forall t, match c_pc s t with
                | CCall k => assoc k (c_dict s) = None
                | CStore k v => assoc k (c_dict s) = None /\ In (k, v) (c_calls s)
                | CRet k v => assoc k (c_dict s) = (if kept v then Some v else None) /\ In (k, v) (c_calls s)
                | _ => True
                end)
  /\ (forall k v, In (k, v) (c_results s) -> In (k, v) (c_calls s) /\ (kept v = true -> assoc k (c_dict s) = Some v))
  /\ sticky (fun v w => w = v) (c_results s).

Lemma cinv_init : cinv c_init.
Proof.
  assert (Hs : forall P, sticky P []) by (intros P l1 k v l2 E; destruct l1; discriminate).
  unfold cinv, c_init. cbn [c_pc c_lock c_dict c_calls c_results locked assoc find]. split; [intros t; split; discriminate|].
  split; [intros k v H; discriminate|]. split; [intros k v []|]. split; [apply Hs|]. split; [intros t; exact I|]. split; [intros k v []|apply Hs].
Qed.

Lemma cinv_step s l s' : cinv s -> c_step cache_none s l = Some s' -> cinv s'.
Proof.
  intros (H1 & H2 & H3 & H4 & H5 & H6 & H7) Hs.
  assert (Hone : forall t u, locked (c_pc s t) = true -> locked (c_pc s u) = true -> t = u) by (intros t u Ht Hu; apply H1 in Ht, Hu; congruence).
  destruct l as [t k|t|t v|t]; cbn [c_step] in Hs.
  - (* Ask *) destruct (c_pc s t) eqn:Ep; try discriminate. injection Hs as <-. unfold cinv. cbn [c_pc c_lock c_dict c_calls c_results].
    split; [|split; [exact H2|split; [|split; [exact H4|split; [|auto]]]]].
    + intros u. unfold upd. destruct (u =? t) eqn:E; [|apply H1]. apply Nat.eqb_eq in E. subst u. cbn [locked]. rewrite <- H1, Ep. reflexivity.
    + intros k' v Hk Hv. destruct (H3 k' v Hk Hv) as [K|[u Hu]]; [left; exact K|right]. exists u. unfold upd. destruct (u =? t) eqn:E; [|exact Hu].
      apply Nat.eqb_eq in E. congruence.
    + intros u. unfold upd. destruct (u =? t); [exact I|apply H5].
  - (* Step *) destruct (c_pc s t) as [|k|k|k|k v|k v|k] eqn:Ep; try discriminate.
    + (* CWant *) destruct (c_lock s) eqn:El; [discriminate|]. injection Hs as <-. unfold cinv. cbn [c_pc c_lock c_dict c_calls c_results].
      split; [|split; [exact H2|split; [|split; [exact H4|split; [|auto]]]]].
      * intros u. unfold upd. destruct (u =? t) eqn:E; [apply Nat.eqb_eq in E; subst; cbn; tauto|]. rewrite H1. split; [discriminate|intros [= ->]; lia].
      * intros k' v Hk Hv. destruct (H3 k' v Hk Hv) as [K|[u Hu]]; [left; exact K|right]. exists u. unfold upd. destruct (u =? t) eqn:E; [|exact Hu].
        apply Nat.eqb_eq in E. congruence.
      * intros u. unfold upd. destruct (u =? t); [exact I|apply H5].
    + (* CLook *) assert (Hl : c_lock s = Some t) by (apply H1; rewrite Ep; reflexivity).
      assert (Hlk : forall pc, locked pc = true -> forall u, locked (upd (c_pc s) t pc u) = true <-> c_lock s = Some u).
      { intros pc Hpc u. unfold upd. destruct (u =? t) eqn:E; [apply Nat.eqb_eq in E; subst; rewrite Hpc; tauto|apply H1]. }
      assert (Hst : forall pc k' v, In (k', v) (c_calls s) -> kept v = true -> assoc k' (c_dict s) = Some v \/ exists u, upd (c_pc s) t pc u = CStore k' v).
      { intros pc k' v Hk Hv. destruct (H3 k' v Hk Hv) as [K|[u Hu]]; [left; exact K|right]. exists u. unfold upd. destruct (u =? t) eqn:E; [|exact Hu].
        apply Nat.eqb_eq in E. congruence. }
      destruct (assoc k (c_dict s)) as [v|] eqn:Ea; injection Hs as <-; unfold cinv; cbn [c_pc c_lock c_dict c_calls c_results].
      * split; [apply Hlk; reflexivity|]. split; [exact H2|]. split; [apply Hst|]. split; [exact H4|]. split; [|auto].
        intros u. unfold upd. destruct (u =? t); [|apply H5]. destruct (H2 _ _ Ea) as [K1 K2]. rewrite K2. auto.
      * split; [apply Hlk; reflexivity|]. split; [exact H2|]. split; [apply Hst|]. split; [exact H4|]. split; [|auto].
        intros u. unfold upd. destruct (u =? t); [exact Ea|apply H5].
    + (* CStore *) pose proof (H5 t) as Ht. rewrite Ep in Ht. destruct Ht as [Ha Hc]. fold (kept v) in Hs. injection Hs as <-. unfold cinv. cbn [c_pc c_lock c_dict c_calls c_results].
      assert (Hl : c_lock s = Some t) by (apply H1; rewrite Ep; reflexivity).
      assert (Hd : forall k', assoc k' (if kept v then (k, v) :: c_dict s else c_dict s) = if (k =? k') && kept v then Some v else assoc k' (c_dict s)).
      { intros k'. destruct (kept v); [|rewrite andb_false_r; reflexivity]. unfold assoc. cbn [find fst]. destruct (k =? k'); reflexivity. }
      assert (Hidle : forall u, u <> t -> locked (c_pc s u) = false).
      { intros u Hu. destruct (locked (c_pc s u)) eqn:E; [|reflexivity]. exfalso. apply Hu. apply Hone; [exact E|rewrite Ep; reflexivity]. }
      split; [|split; [|split; [|split; [exact H4|split; [|split; [|exact H7]]]]]].
      * intros u. unfold upd. destruct (u =? t) eqn:E; [apply Nat.eqb_eq in E; subst; cbn; tauto|apply H1].
      * intros k' w. rewrite Hd. destruct ((k =? k') && kept v) eqn:E; [|apply H2]. intros [= <-]. apply andb_true_iff in E as [E1 E2]. apply Nat.eqb_eq in E1. subst. auto.
      * intros k' w Hk Hw. rewrite Hd. destruct (H3 k' w Hk Hw) as [K|[u Hu]].
        -- left. destruct ((k =? k') && kept v) eqn:E; [|exact K]. apply andb_true_iff in E as [E1 E2]. apply Nat.eqb_eq in E1. subst. congruence.
        -- left. assert (u = t) by (apply Hone; [rewrite Hu|rewrite Ep]; reflexivity). subst u. rewrite Ep in Hu. injection Hu as <- <-. rewrite Nat.eqb_refl, Hw. reflexivity.
      * intros u. unfold upd. destruct (u =? t) eqn:E.
        -- rewrite Hd, Nat.eqb_refl. cbn [andb]. destruct (kept v); [auto|]. split; [exact Ha|exact Hc].
        -- specialize (Hidle u ltac:(lia)). destruct (c_pc s u); try discriminate; exact I.
      * intros k' w Hk. destruct (H6 k' w Hk) as [K1 K2]. split; [exact K1|]. intros Hw. rewrite Hd. specialize (K2 Hw).
        destruct ((k =? k') && kept v) eqn:E; [|exact K2]. apply andb_true_iff in E as [E1 E2]. apply Nat.eqb_eq in E1. subst. congruence.
    + (* CRet *) pose proof (H5 t) as Ht. rewrite Ep in Ht. destruct Ht as [Ha Hc]. injection Hs as <-. unfold cinv. cbn [c_pc c_lock c_dict c_calls c_results].
      assert (Hidle : forall u, u <> t -> locked (c_pc s u) = false).
      { intros u Hu. destruct (locked (c_pc s u)) eqn:E; [|reflexivity]. exfalso. apply Hu. apply Hone; [exact E|rewrite Ep; reflexivity]. }
      split; [|split; [exact H2|split; [|split; [exact H4|split; [|split]]]]].
      * intros u. unfold upd. destruct (u =? t) eqn:E; [cbn; split; discriminate|]. rewrite Hidle by lia. split; discriminate.
      * intros k' w Hk Hw. destruct (H3 k' w Hk Hw) as [K|[u Hu]]; [left; exact K|right]. exists u. unfold upd. destruct (u =? t) eqn:E; [|exact Hu].
        apply Nat.eqb_eq in E. congruence.
      * intros u. unfold upd. destruct (u =? t) eqn:E; [exact I|apply H5].
      * intros k' w Hk. apply in_app_iff in Hk as [Hk|[[= <- <-]|[]]]; [apply H6; exact Hk|]. split; [exact Hc|]. intros Hv. rewrite Hv in Ha. exact Ha.
      * apply sticky_snoc; [exact H7|]. intros w Hw Hkw. destruct (H6 _ _ Hw) as [_ K]. specialize (K Hkw). destruct (kept v); congruence.
    + (* CFail *) injection Hs as <-. unfold cinv. cbn [c_pc c_lock c_dict c_calls c_results].
      assert (Hidle : forall u, u <> t -> locked (c_pc s u) = false).
      { intros u Hu. destruct (locked (c_pc s u)) eqn:E; [|reflexivity]. exfalso. apply Hu. apply Hone; [exact E|rewrite Ep; reflexivity]. }
      split; [|split; [exact H2|split; [|split; [exact H4|split; [|auto]]]]].
      * intros u. unfold upd. destruct (u =? t) eqn:E; [cbn; split; discriminate|]. rewrite Hidle by lia. split; discriminate.
      * intros k' w Hk Hw. destruct (H3 k' w Hk Hw) as [K|[u Hu]]; [left; exact K|right]. exists u. unfold upd. destruct (u =? t) eqn:E; [|exact Hu].
        apply Nat.eqb_eq in E. congruence.
      * intros u. unfold upd. destruct (u =? t) eqn:E; [exact I|apply H5].
  - (* Return *) destruct (c_pc s t) as [| | |k| | |] eqn:Ep; try discriminate. injection Hs as <-. unfold cinv. cbn [c_pc c_lock c_dict c_calls c_results].
    pose proof (H5 t) as Ha. rewrite Ep in Ha. assert (Hl : c_lock s = Some t) by (apply H1; rewrite Ep; reflexivity).
    split; [|split; [|split; [|split; [|split; [|split; [|exact H7]]]]]].
    + intros u. unfold upd. destruct (u =? t) eqn:E; [apply Nat.eqb_eq in E; subst; cbn; tauto|apply H1].
    + intros k' w Hk. destruct (H2 _ _ Hk) as [K1 K2]. split; [apply in_app_iff; left; exact K1|exact K2].
    + intros k' w Hk Hw. apply in_app_iff in Hk as [Hk|[[= <- <-]|[]]].
      * destruct (H3 k' w Hk Hw) as [K|[u Hu]]; [left; exact K|right]. exists u. unfold upd. destruct (u =? t) eqn:E; [|exact Hu].
        apply Nat.eqb_eq in E. congruence.
      * right. exists t. apply upd_same.
    + apply sticky_snoc; [exact H4|]. intros w Hw Hkw. destruct (H3 _ _ Hw Hkw) as [K|[u Hu]]; [congruence|].
      assert (u = t) by (apply Hone; [rewrite Hu|rewrite Ep]; reflexivity). subst u. congruence.
    + intros u. unfold upd. destruct (u =? t) eqn:E; [split; [exact Ha|apply in_app_iff; right; left; reflexivity]|].
      specialize (H5 u). destruct (c_pc s u); try exact H5; (destruct H5 as [K1 K2]; split; [exact K1|apply in_app_iff; left; exact K2]).
    + intros k' w Hk. destruct (H6 _ _ Hk) as [K1 K2]. split; [apply in_app_iff; left; exact K1|exact K2].
  - (* Raise *) destruct (c_pc s t) as [| | |k| | |] eqn:Ep; try discriminate. injection Hs as <-. unfold cinv. cbn [c_pc c_lock c_dict c_calls c_results].
    assert (Hl : c_lock s = Some t) by (apply H1; rewrite Ep; reflexivity).
    split; [|split; [exact H2|split; [|split; [exact H4|split; [|auto]]]]].
    + intros u. unfold upd. destruct (u =? t) eqn:E; [apply Nat.eqb_eq in E; subst; cbn; tauto|apply H1].
    + intros k' w Hk Hw. destruct (H3 k' w Hk Hw) as [K|[u Hu]]; [left; exact K|right]. exists u. unfold upd. destruct (u =? t) eqn:E; [|exact Hu].
      apply Nat.eqb_eq in E. congruence.
    + intros u. unfold upd. destruct (u =? t) eqn:E; [exact I|apply H5].
Qed.

Lemma cinv_run ls : forall s s', cinv s -> c_run cache_none s ls = Some s' -> cinv s'.
Proof.
  induction ls as [|l ls IH]; intros s s' Hi H; [injection H as <-; exact Hi|]. cbn [c_run] in H. destruct (c_step cache_none s l) as [s1|] eqn:E; [|discriminate].
  apply (IH s1); [eapply cinv_step; eassumption|exact H].
Qed.
End Cache.

(** ** file_cache *)

Lemma nth_error_app1_some {A} (l m : list A) i x : nth_error l i = Some x -> nth_error (l ++ m) i = Some x.
Proof. intros H. rewrite nth_error_app1; [exact H|]. apply nth_error_Some. congruence. Qed.

(** The entry was made at some moment, at which the file had the time; the content was read then or later. *)
Definition entry_ok (past : list file) (e : option (Z * nat)) : Prop :=
  match e with
  | None => True
  | Some (m, v) => (0 <= m)%Z /\ exists i j fi fj, i <= j /\ nth_error past i = Some fi /\ nth_error past j = Some fj /\ f_mtime fi = Some m /\ f_content fj = v
  end.

Lemma entry_ok_app past more e : entry_ok past e -> entry_ok (past ++ more) e.
Proof.
  destruct e as [[m v]|]; [|auto]. intros (H0 & i & j & fi & fj & H1 & H2 & H3 & H4). split; [exact H0|]. exists i, j, fi, fj. split; [exact H1|].
  split; [apply nth_error_app1_some|split; [apply nth_error_app1_some|exact H4]]; assumption.
Qed.

Lemma last_nth {A} (l : list A) (x : A) : nth_error (x :: l) (length l) = Some (last l x).
Proof.
  revert x. induction l as [|y l IH]; intros x; [reflexivity|]. cbn [length nth_error]. rewrite (IH y). f_equal.
  destruct l; reflexivity || (cbn [last]; clear; revert a; induction l as [|z l IH]; intros a; [reflexivity|cbn [last] in *; auto]).
Qed.

Lemma file_get_ok past cur mid rest entry : times_ok (past ++ cur :: mid ++ rest) -> f_mtime cur <> Some (-1)%Z -> entry_ok (past ++ [cur]) entry ->
  exists v e, file_get entry cur (last mid cur) = Some (v, e) /\ (v = f_content cur \/ v = f_content (last mid cur)) /\ entry_ok (past ++ cur :: mid) e.
Proof.
  intros Ht Hm He. unfold file_get. set (new := match f_mtime cur with Some m => m | None => (-2)%Z end).
  assert (He' : entry_ok (past ++ cur :: mid) entry) by (replace (past ++ cur :: mid) with ((past ++ [cur]) ++ mid) by (rewrite <- app_assoc; reflexivity); apply entry_ok_app; exact He).
  destruct (negb _) eqn:E.
  - eexists. eexists. split; [reflexivity|]. split; [right; reflexivity|]. destruct (0 <=? new)%Z eqn:En; [|exact He'].
    unfold entry_ok. split; [lia|]. exists (length past), (length past + length mid), cur, (last mid cur). split; [lia|].
    assert (Hn : f_mtime cur = Some new) by (unfold new in *; destruct (f_mtime cur); [reflexivity|lia]).
    split; [rewrite nth_error_app2, Nat.sub_diag by lia; reflexivity|]. split; [|auto].
    rewrite nth_error_app2 by lia. replace (length past + length mid - length past) with (length mid) by lia. apply last_nth.
  - apply negb_false_iff, Z.eqb_eq in E. destruct entry as [[m v]|].
    + eexists. eexists. split; [reflexivity|]. split; [|exact He']. left. destruct He as (H0 & i & j & fi & fj & H1 & H2 & H3 & H4 & H5).
      assert (Hj : j <= length past). { assert (j < length (past ++ [cur])) by (apply nth_error_Some; congruence). rewrite app_length in H. cbn in H. lia. }
      assert (Hr : past ++ cur :: mid ++ rest = (past ++ [cur]) ++ mid ++ rest) by (rewrite <- app_assoc; reflexivity).
      rewrite Hr in Ht.
      assert (Hc : nth_error ((past ++ [cur]) ++ mid ++ rest) (length past) = Some cur) by (rewrite <- app_assoc, nth_error_app2, Nat.sub_diag by lia; reflexivity).
      apply (nth_error_app1_some _ (mid ++ rest)) in H2, H3.
      destruct (f_mtime cur) as [mc|] eqn:Ec.
      * assert (m = mc) by (unfold new in E; congruence). subst mc. destruct (Ht i (length past) fi cur m m ltac:(lia) H2 Hc H4 Ec) as [_ K].
        specialize (K eq_refl). assert (fj = fi) by (apply (K j); [lia|exact H3]). assert (cur = fi) by (apply (K (length past)); [lia|exact Hc]). congruence.
      * exfalso. unfold new in E. lia.
    + exfalso. unfold new in E. destruct (f_mtime cur) as [mc|]; [|discriminate]. apply Hm. congruence.
Qed.

Lemma f_run_ok ops : forall past s, times_ok (past ++ files (fs_file s) ops) ->
  (forall f, In f (files (fs_file s) ops) -> f_mtime f <> Some (-1)%Z) -> entry_ok (past ++ [fs_file s]) (fs_entry s) ->
  exists s' new, f_run s ops = Some s' /\ fs_results s' = fs_results s ++ new
  /\ Forall (fun r => fst r = f_content (fst (snd r)) \/ fst r = f_content (snd (snd r))) new.
Proof.
  induction ops as [|[g|mid] ops IH]; intros past s Ht Hm He.
  - exists s, []. rewrite app_nil_r. repeat split. constructor.
  - cbn [f_run]. cbn [files] in Ht, Hm. destruct (IH (past ++ [fs_file s]) (FState g (fs_entry s) (fs_results s))) as (s' & new & H1 & H2 & H3).
    + cbn [fs_file]. rewrite <- app_assoc. exact Ht.
    + cbn [fs_file]. intros f Hf. apply Hm. right; exact Hf.
    + cbn [fs_file fs_entry]. apply entry_ok_app. exact He.
    + exists s', new. auto.
  - cbn [f_run]. cbv zeta. cbn [files] in Ht, Hm.
    destruct (file_get_ok past (fs_file s) mid (files (last mid (fs_file s)) ops) (fs_entry s) Ht ltac:(apply Hm; left; reflexivity) He) as (v & e & -> & Hv & He').
    destruct (IH (past ++ fs_file s :: mid) (FState (last mid (fs_file s)) e (fs_results s ++ [(v, (fs_file s, last mid (fs_file s)))]))) as (s' & new & H1 & H2 & H3).
    + cbn [fs_file]. rewrite <- app_assoc. exact Ht.
    + cbn [fs_file]. intros f Hf. apply Hm. right. apply in_app_iff. right; exact Hf.
    + cbn [fs_file fs_entry]. apply entry_ok_app. exact He'.
    + cbn [fs_results] in H2. exists s'. eexists. split; [exact H1|]. split; [rewrite H2, <- app_assoc; reflexivity|]. constructor; [exact Hv|exact H3].
Qed.
