From Verif Require Import Base BaseFacts TargetModel LexerModel TreeModel TreeSpec BuildModel ChangesModel RebuildModel TransformModel TransformSpec TransformTreeProofs
  TransformUpdateModel TransformUpdateSpec TransformUpdateProofs SwapModel SwapSpec.
From Coq Require Import ZArith ZifyBool.

Section Swap.
Variables L A R Lang Name Arg : Type.
Variable lang : L -> Lang.
Variable name : L -> Name.
Variable arg : L -> Arg.
Variable lang_is : Lang -> Lang -> bool.
Hypothesis lang_is_spec : forall a b, lang_is a b = true <-> a = b.
Variable methods : nat -> Lang -> transform L A R Name Arg.
Variable l_eq : L -> L -> bool.
Hypothesis blind : forall t, position_blind lang name (methods t).
Notation inode := (node (nat * L) A).
Notation tgood t := (good L A R Lang Name Arg lang name arg (methods t)).
Notation xhist := (xhistory lang name arg lang_is methods l_eq).
Notation xrun := (x_run L A R Lang Name Arg lang name arg lang_is methods).
Notation mean t := (meaning lang name arg (methods t)).

Lemma same_spec a b : same_transformer a b = true <-> a = b.
Proof. destruct a, b; cbn; rewrite ?Nat.eqb_eq; split; congruence. Qed.
Record xinv (used missed : list nat) (s : xstate L A R) : Prop := XInv {
  xi_tree : exists l cs, x_tree s = Ctx l cs;
  xi_dist : distinct (x_tree s);
  xi_new : forall t, ~ In t used -> x_caches s t = TCache (fun _ => None) None;
  xi_good : forall t, In t used -> ~ In t missed -> tgood t (UState (x_tree s) (x_caches s t));
  xi_used : forall t, x_cur s = Some t -> In t used /\ ~ In t missed;
  xi_sub : incl missed used }.
Lemma good_new t (s : xstate L A R) : (exists l cs, x_tree s = Ctx l cs) -> distinct (x_tree s) -> tgood t (UState (x_tree s) (TCache (fun _ => None) None)).
Proof. intros H1 H2. split; [exact H1 |]. split; [exact H2 |]. split; [intros ? ? ? ? ? ? ? Hv; discriminate |]. intros ? ? ? ? ? ? Hv. exfalso. apply Hv. reflexivity. Qed.

(** Running the transformer of a state in which its results are right. *)
Lemma run_right used missed (s : xstate L A R) : xinv used missed s ->
  exists s', xrun s = Some s' /\ xinv used missed s' /\ x_tree s' = x_tree s /\ x_cur s' = x_cur s /\ x_get s' = match x_cur s with Some t => mean t (erase (x_tree s)) | None => None end.
Proof.
  intros [H1 H2 H3 H4 H5 H6]. unfold x_run. destruct (x_cur s) as [t |] eqn:Ec.
  - destruct (H5 t eq_refl) as [U1 U2]. pose proof (H4 t U1 U2) as G. assert (G' := G). destruct G' as (([id l] & cs & Ht) & Hd & Hr & Hc). cbn [u_tree u_cache] in *.
    destruct (tree_ok L A R Lang Name Arg lang name arg lang_is lang_is_spec (methods t) (x_tree s) Hd (tc_nodes (x_caches s t)) None id l cs Ht (conj Hr Hc)) as (o & ca & E1 & _ & _ & _ & E2).
    destruct o as [v |]; [| congruence]. destruct E2 as [-> _].
    assert (Eu : u_transform L A R Lang Name Arg lang name arg lang_is (methods t) (UState (x_tree s) (x_caches s t)) None false = Some (UState (x_tree s) (TCache ca (mean t (erase (x_tree s))))))
      by (unfold u_transform, t_process; cbn [u_tree u_cache]; rewrite E1; reflexivity).
    destruct (transform_good L A R Lang Name Arg lang name arg lang_is lang_is_spec (methods t) _ _ _ _ G Eu) as [G2 _].
    unfold t_process. rewrite E1. eexists. split; [reflexivity |]. split; [| split; [reflexivity | split; [reflexivity |]]].
    + split; cbn [x_tree x_cur x_caches]; try assumption.
      * intros u Hu. unfold set_cache. destruct (Nat.eqb_spec u t) as [-> | Hn]; [contradiction | now apply H3].
      * intros u Hu Hm. unfold set_cache. destruct (Nat.eqb_spec u t) as [-> | Hn]; [exact G2 | now apply H4].

    + unfold x_get, set_cache. cbn [x_cur x_caches]. now rewrite Nat.eqb_refl.
  - exists s. split; [reflexivity |]. split; [split; try assumption; rewrite Ec; discriminate |]. split; [reflexivity |]. split; [exact Ec |]. unfold x_get. now rewrite Ec.
Qed.
Lemma in_others x cur used : In x (filter (fun x => negb (same_transformer (Some x) cur)) used) <-> In x used /\ cur <> Some x.
Proof. rewrite filter_In. destruct (same_transformer (Some x) cur) eqn:E; cbn [negb]; [apply same_spec in E; split; intros [H1 H2]; [discriminate | congruence] |]. split; intros [H1 H2]; (split; [exact H1 |]); [intros ->; rewrite (proj2 (same_spec _ _) eq_refl) in E; discriminate | reflexivity]. Qed.
Lemma update_distinct (T T' : inode) (r : bresult (nat * L) A) : (exists l cs, T = Ctx l cs) -> distinct T -> wf_children (children T) -> at_tokens T r ->
  distinct (r_tree r) -> (forall id, has_id id (r_tree r) -> ~ has_id id T) -> replace_itree l_eq T r = Some T' -> (exists l cs, T' = Ctx l cs) /\ distinct T'.
Proof.
  intros (l & cs & ->) Hd Hwf Hat Hd' Hfr Er. cbn [children] in Hwf.
  assert (Ep : exists p, invalid_path l_eq (Ctx l cs) r = Some p).
  { destruct (trails_forked L A l cs r Hwf Hat) as (st & et & Es & Ee & _). unfold invalid_path. unfold replace_itree, replace_tree in Er. destruct (r_tree r) as [tk | lt t0]; [discriminate |].
    destruct (l_eq (snd lt) (snd l)); cbn [negb]; [| eauto]. rewrite Es, Ee. destruct (rt_common 0 0 [] t0 st et) as [[path t] i]. eauto. }
  destruct Ep as (p & Ep). destruct (update_tree L A l_eq l cs r T' p Hwf Hat Er Ep) as (HT & Hcnt & _). split; [exact HT |].
  apply (once_distinct L A). intros k. specialize (Hcnt k). pose proof (distinct_once L A _ Hd k) as C1. pose proof (distinct_once L A _ Hd' k) as C2.
  destruct (cnt L A k (r_tree r)) as [| z] eqn:Ez; [lia |]. destruct (cnt L A k (Ctx l cs)) as [| z'] eqn:Ez'; [lia |]. exfalso.
  apply (Hfr k); apply has_cnt; lia.
Qed.
Theorem swap_right used missed s : xhist used missed s -> xinv used missed s /\ x_get s = match x_cur s with Some t => mean t (erase (x_tree s)) | None => None end.
Proof.
  induction 1 as [l cs Hd | used missed s t s' _ IH Ht E | used missed s r s' _ IH Hwf Hat Hfr E].
  - split; [| reflexivity]. split; cbn [x_tree x_cur x_caches]; try easy; eauto.
  - destruct IH as [I G]. unfold x_set in E. destruct (same_transformer t (x_cur s)) eqn:Es.
    + injection E as <-. apply same_spec in Es. subst t. split; [| exact G]. destruct I as [H1 H2 H3 H4 H5 H6]. destruct (x_cur s) as [t |] eqn:Ec; [| split; try assumption; rewrite Ec; discriminate].
      destruct (H5 t eq_refl) as [U1 U2]. split; try assumption.
      * intros u Hu. apply H3. intros X. apply Hu. now right.
      * intros u [<- | Hu] Hm; now apply H4.
      * rewrite Ec. intros u Hu. destruct (H5 u Hu). split; [now right | assumption].
      * intros x Hx. right. now apply H6.
    + set (s1 := XState (x_tree s) t (x_caches s)) in *. assert (I1 : xinv (match t with Some x => x :: used | None => used end) missed s1).
      { destruct I as [H1 H2 H3 H4 H5 H6]. destruct t as [t |]; split; cbn [s1 x_tree x_cur x_caches]; try assumption; try discriminate.
        - intros u Hu. apply H3. intros X. apply Hu. now right.
        - intros u Hu Hm. destruct (in_dec Nat.eq_dec u used) as [Hi | Hi]; [now apply H4 |]. rewrite (H3 u Hi). now apply good_new.
        - intros u Hu. injection Hu as <-. split; [now left | now apply Ht].
        - intros x Hx. right. now apply H6. }
      destruct (run_right _ _ _ I1) as (s2 & E2 & I2 & T2 & C2 & G2). rewrite E in E2. injection E2 as <-. split; [exact I2 |]. rewrite G2, T2, C2. reflexivity.
  - destruct IH as [[H1 H2 H3 H4 H5 H6] G]. unfold x_update in E. set (missed' := filter _ used ++ missed).
    assert (Hm' : forall u, In u used -> ~ In u missed' -> x_cur s = Some u).
    { intros u Hu Hn. destruct (x_cur s) as [t |] eqn:Ec.
      - destruct (Nat.eq_dec t u) as [-> | Hne]; [reflexivity |]. exfalso. apply Hn, in_or_app. left. apply in_others. split; [exact Hu | congruence].
      - exfalso. apply Hn, in_or_app. left. apply in_others. now split. }
    assert (Hsub : incl missed' used) by (intros x Hx; apply in_app_or in Hx as [Hx | Hx]; [now apply filter_In in Hx | now apply H6]).
    destruct (x_cur s) as [t |] eqn:Ec.
    + destruct (u_update l_eq _ r) as [u |] eqn:Eu; [| discriminate]. destruct (H5 t eq_refl) as [U1 U2].
      pose proof (update_good L A R Lang Name Arg lang name arg (methods t) l_eq (blind t) _ _ _ (H4 t U1 U2) Hwf Hat (Hfr t) Eu) as Gu.
      set (s1 := XState (u_tree u) (Some t) (set_cache R (x_caches s) t (u_cache u))) in *. assert (I1 : xinv used missed' s1).
      { destruct Gu as (Gt & Gd & Gr). split; cbn [s1 x_tree x_cur x_caches]; try assumption.
        - intros v Hv. unfold set_cache. destruct (Nat.eqb_spec v t) as [-> | Hn]; [contradiction | now apply H3].
        - intros v Hv Hm. specialize (Hm' v Hv Hm). injection Hm' as <-. unfold set_cache. rewrite Nat.eqb_refl. destruct u as [ut uc]. cbn [u_tree u_cache] in *. split; [exact Gt |]. now split.
        - intros v Hv. injection Hv as <-. split; [exact U1 |]. intros X. apply in_app_or in X as [X | X]; [| contradiction]. apply in_others in X. now destruct X. }
      destruct (run_right _ _ _ I1) as (s2 & E2 & I2 & T2 & C2 & G2). rewrite E in E2. injection E2 as <-. split; [exact I2 |]. rewrite G2, T2, C2. reflexivity.
    + destruct (replace_itree l_eq (x_tree s) r) as [T' |] eqn:Er; [| discriminate]. injection E as <-.
      destruct (Hfr 0) as [Hd' Hn]. cbn [u_tree] in Hn. destruct (update_distinct (x_tree s) T' r H1 H2 Hwf Hat Hd' (fun id Hid => proj1 (Hn id Hid)) Er) as [T1 T2].
      split; [| reflexivity]. split; cbn [x_tree x_cur x_caches]; try assumption; try discriminate. intros v Hv Hm. specialize (Hm' v Hv Hm). discriminate.
Qed.
(** Setting a transformer that did not miss an update works. *)
Theorem swap_works used missed s t : xhist used missed s -> (forall x, t = Some x -> ~ In x missed) -> exists s', x_set L A R Lang Name Arg lang name arg lang_is methods s t = Some s'.
Proof.
  intros H Ht. destruct (swap_right _ _ _ H) as [[H1 H2 H3 H4 H5 H6] _]. unfold x_set. destruct (same_transformer t (x_cur s)); [eauto |].
  assert (I1 : xinv (match t with Some x => x :: used | None => used end) missed (XState (x_tree s) t (x_caches s))).
  { destruct t as [t |]; split; cbn [x_tree x_cur x_caches]; try assumption; try discriminate.
    - intros u Hu. apply H3. intros X. apply Hu. now right.
    - intros u Hu Hm. destruct (in_dec Nat.eq_dec u used) as [Hi | Hi]; [now apply H4 |]. rewrite (H3 u Hi). now apply good_new.
    - intros u Hu. injection Hu as <-. split; [now left | now apply Ht].
    - intros x Hx. right. now apply H6. }
  destruct (run_right _ _ _ I1) as (s2 & E2 & _). eauto.
Qed.
End Swap.

(** ** Step by step *)
Definition qinv (s : qst) : Prop :=
  match q_proc s with
  | None => q_state s = 0 /\ forall t, q_cur s = Some t -> q_done s t = true
  | Some QBuild | Some (QTake None) => q_state s = match q_cur s with Some _ => 1 | None => 0 end
  | Some (QTake (Some t)) => q_state s = 4 /\ q_done s t = true /\ q_cur s <> None
  | Some (QRun t 0) => (q_state s = 1 \/ q_state s = 4) /\ q_cur s <> None
  | Some (QRun t 1) => q_state s = 1 /\ q_cur s <> None
  | Some (QRun t _) => q_state s = 3 /\ q_done s t = true /\ q_cur s <> None
  | Some QFin => (q_state s = 4 \/ q_state s = 0 /\ q_cur s = None) /\ forall t, q_cur s = Some t -> q_done s t = true
  end.
Lemma qinv_step s l s' : qinv s -> keeps_one l -> q_step s l = Some s' -> qinv s'.
Proof.
  intros I K E. destruct l as [t | |]; cbn [q_step] in E.
  - destruct t as [t |]; [| now destruct K]. destruct (same_transformer (Some t) (q_cur s)) eqn:Es; [injection E as <-; exact I |].
    destruct s as [cur st proc done]. cbn [q_cur q_state q_proc q_done] in *. unfold qinv in *. cbn [q_cur q_state q_proc q_done] in I.
    destruct proc as [[| [o |] | u [| [| k]] |] |]; cbn [q_proc q_cur q_state q_done q_start] in *.
    + destruct cur as [c |]; rewrite I in E; cbn in E; [injection E as <-; reflexivity | discriminate].
    + destruct I as (-> & I). discriminate.
    + destruct cur as [c |]; rewrite I in E; cbn in E; [injection E as <-; reflexivity | discriminate].
    + destruct I as ([-> | ->] & I); [injection E as <- | discriminate]. cbn. split; [now left | discriminate].
    + destruct I as (-> & I). injection E as <-. cbn. split; [reflexivity | discriminate].
    + destruct I as (-> & D & I). injection E as <-. cbn. split; [reflexivity |]. split; [exact D | discriminate].
    + destruct I as ([-> | [-> _]] & I); discriminate.
    + destruct I as (-> & I). cbn in E. injection E as <-. reflexivity.
  - destruct s as [cur st proc done]. cbn [q_cur q_state q_proc q_done] in *. unfold qinv in I. cbn [q_cur q_state q_proc q_done] in I.
    destruct proc as [[| [o |] | u k |] |]; cbn [q_proc q_start] in E; try discriminate.
    + injection E as <-. exact I.
    + destruct I as (-> & I). injection E as <-. unfold qinv. cbn. now destruct cur.
  - destruct s as [cur st proc done]. cbn [q_cur q_state q_proc q_done] in *. unfold qinv in I. cbn [q_cur q_state q_proc q_done] in I.
    destruct proc as [[| [o |] | u [| [| k]] |] |]; try discriminate.
    + injection E as <-. exact I.
    + destruct I as (-> & D & N). destruct cur as [c |]; [| congruence]. destruct (same_transformer (Some c) (Some o)) eqn:Es; injection E as <-; unfold qinv; cbn [q_proc q_cur q_state q_done].
      * apply same_spec in Es. injection Es as ->. split; [now left |]. intros t Ht. now injection Ht as <-.
      * split; [now right | exact N].
    + destruct cur as [c |]; cbn [same_transformer] in E; injection E as <-; unfold qinv; cbn [q_proc q_cur q_state q_done].
      * split; [now left | discriminate].
      * split; [now right | discriminate].
    + injection E as <-. split; [reflexivity | apply I].
    + injection E as <-. split; [reflexivity |]. split; [cbn; now rewrite Nat.eqb_refl | apply I].
    + injection E as <-. split; [reflexivity |]. split; apply I.
    + injection E as <-. split; [reflexivity | apply I].
Qed.
Lemma qinv_run ls : forall s s', qinv s -> Forall keeps_one ls -> q_run s ls = Some s' -> qinv s'.
Proof.
  induction ls as [| l ls IH]; intros s s' I K E; cbn [q_run] in E; [injection E as <-; exact I |]. destruct (q_step s l) as [s1 |] eqn:E1; [| discriminate].
  inversion K as [| x y K1 K2]; subst. exact (IH s1 s' (qinv_step s l s1 I K1 E1) K2 E).
Qed.
(** What [get_transform] returns when no process is running, and as long as no other transformer was set in a process. *)
Theorem idle_done ls s t : Forall keeps_one ls -> q_run q_init ls = Some s -> q_proc s = None -> q_cur s = Some t -> q_waits s = false /\ q_done s t = true.
Proof.
  intros K E P C. assert (I : qinv s) by (apply (qinv_run ls q_init s); [split; [reflexivity | discriminate] | exact K | exact E]).
  unfold qinv in I. rewrite P in I. destruct I as [I1 I2]. split; [unfold q_waits; now rewrite I1 | now apply I2].
Qed.
(** A process ends if it goes on and no calls come between. *)
Lemma take_ends cur st done t : exists s', q_run (Qst cur st (Some (QTake (Some t))) done) (repeat LProc (match cur with Some c => if c =? t then 2 else 6 | None => 2 end)) = Some s' /\ q_proc s' = None /\ q_cur s' = cur.
Proof.
  destruct cur as [c |]; [| eexists; now repeat split]. destruct (c =? t) eqn:E; cbn [repeat q_run q_step q_proc q_cur same_transformer]; rewrite E; cbn [q_run q_step q_proc q_cur same_transformer]; [eexists; now repeat split |].
  rewrite Nat.eqb_refl. cbn [q_run q_step q_proc q_cur]. eexists. now repeat split.
Qed.
Lemma run_app a : forall b s s', q_run s a = Some s' -> q_run s (a ++ b) = q_run s' b.
Proof. induction a as [| l a IH]; intros b s s' H; cbn [q_run app] in *; [now injection H as -> |]. destruct (q_step s l); [now apply IH | discriminate]. Qed.
Theorem process_ends s : exists n s', q_run s (repeat LProc n) = Some s' /\ q_proc s' = None /\ q_cur s' = q_cur s.
Proof.
  assert (K : forall n s1, q_run s (repeat LProc n) = Some s1 -> (exists t, q_proc s1 = Some (QTake (Some t))) -> q_cur s1 = q_cur s -> exists m s', q_run s (repeat LProc m) = Some s' /\ q_proc s' = None /\ q_cur s' = q_cur s).
  { intros n s1 H (t & Hp) Hc. destruct s1 as [cur st proc done]. cbn [q_proc q_cur] in Hp, Hc. subst proc cur. destruct (take_ends (q_cur s) st done t) as (s2 & H2 & H3 & H4).
    eexists (n + _), s2. rewrite repeat_app, (run_app _ _ _ _ H). split; [exact H2 |]. now split. }
  destruct s as [cur st proc done]. destruct proc as [[| [o |] | u [| [| k]] |] |]; cbn [q_cur] in *.
  - destruct cur as [c |]; [apply (K 5 _ eq_refl); [now eexists | reflexivity] | exists 3; eexists; now repeat split].
  - apply (K 0 _ eq_refl); [now eexists | reflexivity].
  - destruct cur as [c |]; [apply (K 4 _ eq_refl); [now eexists | reflexivity] | exists 2; eexists; now repeat split].
  - apply (K 3 _ eq_refl); [now eexists | reflexivity].
  - apply (K 2 _ eq_refl); [now eexists | reflexivity].
  - apply (K 1 _ eq_refl); [now eexists | reflexivity].
  - exists 1. eexists. now repeat split.
  - exists 0. eexists. now repeat split.
Qed.
