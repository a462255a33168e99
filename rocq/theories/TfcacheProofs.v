(** Proofs about finding transforms. *)
From Coq Require Import List Arith Bool Lia.
From Verif Require Import TfcacheModel TfcacheSpec.
Import ListNotations.

Section Proofs.
Variable sister : nat -> option nat.

Definition own (l : nat) (v : value) : Prop := match sister l with Some c => exists id, v = Some (Made c id) | None => v = None end.

(** What the dictionary has to do with the history. *)
Definition fits (c : list (nat * value)) (h : list event) (l : nat) : Prop := lookup l c = settled l h.
Definition inv (st : state) : Prop :=
  calm (hist st) ->
  lawful sister (hist st)
  /\ busy (hist st) = match holder st with Some (_, l, _) => Some l | None => None end
  /\ match holder st with
     | None => forall l, fits (cache st) (hist st) l
     | Some (_, l, p) =>
         (forall k, k <> l -> fits (cache st) (hist st) k)
         /\ settled l (before_call (hist st)) = settled l (hist st)
         /\ match p with
            | PLook => fits (cache st) (hist st) l
            | PFind => lookup l (cache st) = None /\ settled l (hist st) = None
            | PStore v => settled l (hist st) = None /\ own l v
            | PRet v => lookup l (cache st) = Some v /\ (settled l (hist st) = Some v \/ settled l (hist st) = None /\ own l v)
            end
     end.

Lemma settled_added k l v h : settled l (Added k v :: h) = if k =? l then Some v else settled l h.
Proof. unfold settled. cbn [last_added last_returned]. destruct (k =? l); reflexivity. Qed.
Lemma settled_called t k l h : settled l (Called t k :: h) = settled l h.
Proof. reflexivity. Qed.
Lemma settled_returned_other t k l v h : k <> l -> settled l (Returned t k v :: h) = settled l h.
Proof. intros H. unfold settled. cbn [last_added last_returned]. apply Nat.eqb_neq in H. rewrite H. reflexivity. Qed.
Lemma settled_returned t l v h : settled l h = Some v \/ settled l h = None -> settled l (Returned t l v :: h) = Some v.
Proof.
  unfold settled. cbn [last_added last_returned]. rewrite Nat.eqb_refl. destruct (last_added l h); [|reflexivity]. intros [H | H]; [exact H|discriminate H].
Qed.

Lemma inv_run st s : inv st -> inv (run sister st s).
Proof.
  intros I. destruct s as [t l| |l v].
  - (* SEnter *) unfold run. destruct (holder st) as [((t0, l0), p)|] eqn:E; [exact I|]. intros C. cbn [hist calm] in C. destruct (I C) as (H1 & H2 & H3). rewrite E in H3.
    cbn [hist holder cache lawful busy before_call]. split; [exact H1|]. split; [reflexivity|]. split; [intros k _; exact (H3 k)|]. split; [reflexivity|]. exact (H3 l).
  - (* SRun *) unfold run. destruct (holder st) as [((t, l), p)|] eqn:E; [|exact I]. destruct p as [| |v|v]; intros C; cbn [hist holder cache] in *.
    + destruct (I C) as (H1 & H2 & H3). rewrite E in H2, H3. destruct H3 as (H4 & H5 & H6). split; [exact H1|]. split; [exact H2|]. split; [exact H4|]. split; [exact H5|].
      unfold fits in H6. destruct (lookup l (cache st)) as [v|] eqn:El; [split; [reflexivity|left; symmetry; exact H6]|split; [reflexivity|symmetry; exact H6]].
    + destruct (I C) as (H1 & H2 & H3). rewrite E in H2, H3. destruct H3 as (H4 & H5 & H6 & H7). split; [exact H1|]. split; [exact H2|]. split; [exact H4|]. split; [exact H5|].
      split; [exact H7|]. unfold own, find_transform. destruct (sister l); [eexists; reflexivity|reflexivity].
    + destruct (I C) as (H1 & H2 & H3). rewrite E in H2, H3. destruct H3 as (H4 & H5 & H6 & H7). split; [exact H1|]. split; [exact H2|]. split.
      * intros k Hk. unfold fits. cbn [lookup]. assert (Hk' : l =? k = false) by (apply Nat.eqb_neq; congruence). rewrite Hk'. exact (H4 k Hk).
      * split; [exact H5|]. cbn [lookup]. rewrite Nat.eqb_refl. split; [reflexivity|]. right. split; assumption.
    + cbn [calm] in C. destruct (I C) as (H1 & H2 & H3). rewrite E in H2, H3. destruct H3 as (H4 & H5 & H6 & H7). cbn [lawful busy]. split; [|split; [reflexivity|]].
      * split; [|exact H1]. rewrite H5. destruct H7 as [H7 | [H7 H8]]; rewrite H7; [reflexivity|exact H8].
      * intros k. unfold fits. destruct (Nat.eq_dec k l) as [-> | Hk].
        -- rewrite settled_returned; [exact H6|]. destruct H7 as [H7 | [H7 _]]; [left|right]; exact H7.
        -- rewrite settled_returned_other by congruence. exact (H4 k Hk).
  - (* SAdd *) assert (R : run sister st (SAdd l v) = St ((l, v) :: cache st) (holder st) (next_id st) (Added l v :: hist st)) by (unfold run; destruct (holder st); reflexivity).
    rewrite R. intros C. cbn [hist calm] in C. destruct C as [Cb C]. destruct (I C) as (H1 & H2 & H3). cbn [hist holder cache lawful busy before_call].
    split; [exact H1|]. split; [exact H2|].
    assert (F : forall k, fits (cache st) (hist st) k -> fits ((l, v) :: cache st) (Added l v :: hist st) k).
    { intros k Hk. unfold fits. rewrite settled_added. cbn [lookup]. destruct (l =? k); [reflexivity|exact Hk]. }
    destruct (holder st) as [((t0, l0), p)|] eqn:E.
    + destruct H3 as (H4 & H5 & H6). rewrite H2 in Cb. assert (Hl : l <> l0) by congruence. assert (Hl' : l =? l0 = false) by now apply Nat.eqb_neq.
      split; [intros k Hk; apply F, H4, Hk|]. rewrite settled_added, Hl'. split; [exact H5|].
      destruct p as [| |w|w].
      * apply F. exact H6.
      * cbn [lookup]. rewrite Hl'. exact H6.
      * exact H6.
      * cbn [lookup]. rewrite Hl'. exact H6.
    + intros k. apply F, H3.
Qed.

Theorem runs_lawful steps : calm (hist (runs sister steps)) -> lawful sister (hist (runs sister steps)).
Proof.
  assert (H : forall steps st, inv st -> inv (fold_left (run sister) steps st)).
  { induction steps0 as [|s steps0 IH]; intros st I; [exact I|]. cbn [fold_left]. apply IH, inv_run, I. }
  intros C. apply (H steps start); [|exact C]. intros _. cbn. repeat split.
Qed.

(** ** All get the same *)
Fixpoint wf (h : list event) : Prop :=
  match h with
  | Returned _ l _ :: h => busy h = Some l /\ wf h
  | _ :: h => wf h
  | [] => True
  end.
Definition wf_st (st : state) : Prop := wf (hist st) /\ busy (hist st) = match holder st with Some (_, l, _) => Some l | None => None end.
Lemma wf_run st s : wf_st st -> wf_st (run sister st s).
Proof.
  intros [W B]. unfold wf_st, run. destruct s as [t l| |l v]; destruct (holder st) as [((t0, l0), p)|] eqn:E; cbn [hist holder wf busy]; try (rewrite E); auto.
  destruct p as [| |v|v]; cbn [hist holder wf busy]; auto.
Qed.
Lemma runs_wf steps : wf_st (runs sister steps).
Proof.
  assert (H : forall steps st, wf_st st -> wf_st (fold_left (run sister) steps st)).
  { induction steps0 as [|s steps0 IH]; intros st I; [exact I|]. cbn [fold_left]. apply IH, wf_run, I. }
  apply (H steps start). split; [exact I|reflexivity].
Qed.
Lemma returned_before_call l k h : busy h = Some k -> last_returned l (before_call h) = last_returned l h.
Proof. induction h as [|e h IH]; [discriminate|]. destruct e as [k' v|t k'|t k' v]; cbn [busy before_call last_returned]; [exact IH|reflexivity|discriminate]. Qed.
Lemma added_before_call l h : last_added l h = None -> last_added l (before_call h) = None.
Proof.
  induction h as [|e h IH]; [reflexivity|]. destruct e as [k v|t k|t k v]; cbn [before_call last_added]; auto. destruct (k =? l); [discriminate|exact IH].
Qed.
Lemma all_same l h : wf h -> lawful sister h -> last_added l h = None -> forall t v, In (Returned t l v) h -> last_returned l h = Some v.
Proof.
  induction h as [|e h IH]; intros W L A t v Hin; [destruct Hin|]. destruct e as [k w|t' k|t' k w]; cbn [wf lawful last_added last_returned] in *.
  - destruct (k =? l); [discriminate|]. destruct Hin as [Hin | Hin]; [discriminate|]. exact (IH W L A t v Hin).
  - destruct Hin as [Hin | Hin]; [discriminate|]. exact (IH W L A t v Hin).
  - destruct W as [B W], L as [L0 L]. destruct (k =? l) eqn:E.
    + apply Nat.eqb_eq in E. subst k. destruct Hin as [Hin | Hin]; [injection Hin; intros; subst; reflexivity|].
      pose proof (IH W L A t v Hin) as P. unfold settled in L0. rewrite (added_before_call l h A), (returned_before_call l l h B), P in L0. congruence.
    + apply Nat.eqb_neq in E. destruct Hin as [Hin | Hin]; [injection Hin; intros; subst; congruence|]. exact (IH W L A t v Hin).
Qed.
Theorem runs_same steps l t t' v v' : let h := hist (runs sister steps) in
  calm h -> last_added l h = None -> In (Returned t l v) h -> In (Returned t' l v') h -> v = v'.
Proof.
  intros h C A H1 H2. pose proof (runs_lawful steps C) as L. destruct (runs_wf steps) as [W _].
  pose proof (all_same l h W L A t v H1) as E1. pose proof (all_same l h W L A t' v' H2) as E2. congruence.
Qed.
End Proofs.
