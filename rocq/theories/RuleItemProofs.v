(** Evaluating rules in two steps gives what they mean. *)
From Verif Require Import Base BaseFacts RuleValues RuleItemModel RuleItemSpec.
From Coq Require Import ZArith ZifyBool.

(** ** Induction *)
Definition forall_list {A} (P : A -> Prop) (f : forall x, P x) : forall l, Forall P l :=
  fix go l := match l with [] => Forall_nil P | x :: l => Forall_cons x (f x) (go l) end.
Fixpoint obj_ind' (P : obj -> Prop)
  (HA : forall a, P (OAtom a)) (HS : forall l, Forall P l -> P (OSeq l)) (HV : forall x, P (OVar x))
  (HC : forall p l, P p -> Forall P l -> P (OCall p l)) (HSel : forall p l, P p -> Forall P l -> P (OSelect p l))
  (HT : forall p l, P p -> Forall P l -> P (OTarget p l)) (HP : forall v, P v -> P (OPattern v))
  (HB : forall l, Forall P l -> P (OSub l)) (HD : forall v, P v -> P (ODelegate v)) (HK : P OSkip) (o : obj) {struct o} : P o :=
  let rec := obj_ind' P HA HS HV HC HSel HT HP HB HD HK in
  let go := fix go (l : list obj) : Forall P l := match l with [] => Forall_nil P | x :: l => Forall_cons x (rec x) (go l) end in
  match o with
  | OAtom a => HA a | OSeq l => HS l (go l) | OVar x => HV x
  | OCall p l => HC p l (rec p) (go l) | OSelect p l => HSel p l (rec p) (go l) | OTarget p l => HT p l (rec p) (go l)
  | OPattern v => HP v (rec v) | OSub l => HB l (go l) | ODelegate v => HD v (rec v) | OSkip => HK
  end.
Fixpoint pv_ind' (P : pv -> Prop) (HA : forall a, P (PA a)) (HT : forall l, Forall P l -> P (PTup l)) (v : pv) {struct v} : P v :=
  match v with
  | PA a => HA a
  | PTup l => HT l ((fix go (l : list pv) : Forall P l := match l with [] => Forall_nil P | x :: l => Forall_cons x (pv_ind' P HA HT x) (go l) end) l)
  end.
Definition each_result (P : rv -> Prop) (f : pv -> pv -> option rv) : Prop := forall t m, match f t m return Prop with Some r => P r | None => True end.
Fixpoint rv_ind' (P : rv -> Prop) (HA : forall a, P (RAtom a)) (HT : forall l, Forall P l -> P (RTup l)) (HP : forall r, P r -> P (RPat r))
  (HU : forall r, P r -> P (RUsing r)) (HK : P RSkip)
  (HS : forall l, Forall (each_result P) l -> P (RSub l)) (r : rv) {struct r} : P r :=
  match r with
  | RAtom a => HA a
  | RTup l => HT l ((fix go (l : list rv) : Forall P l := match l with [] => Forall_nil P | x :: l => Forall_cons x (rv_ind' P HA HT HP HU HK HS x) (go l) end) l)
  | RPat r => HP r (rv_ind' P HA HT HP HU HK HS r)
  | RUsing r => HU r (rv_ind' P HA HT HP HU HK HS r)
  | RSkip => HK
  | RSub l => HS l ((fix go (l : list (pv -> pv -> option rv)) : Forall (each_result P) l :=
       match l with
       | [] => Forall_nil _
       | f :: l => @Forall_cons _ (each_result P) f l (fun t m => match f t m as x return (match x return Prop with Some r => P r | None => True end) with
                                             | Some r => rv_ind' P HA HT HP HU HK HS r
                                             | None => I
                                             end) (go l)
       end) l)
  end.

Lemma Forall2_impl {A B} (R Q : A -> B -> Prop) l l' : (forall a b, R a b -> Q a b) -> Forall2 R l l' -> Forall2 Q l l'.
Proof. intros H. induction 1; constructor; auto. Qed.
Lemma fold_and {A} (P : A -> Prop) l : fold_right (fun o Q => P o /\ Q) True l <-> Forall P l.
Proof. induction l as [|x l IH]; cbn [fold_right]; [split; [constructor|auto]|]. rewrite IH. split; [intros [H1 H2]; constructor; assumption|intros H; inversion H; auto]. Qed.
Lemma all2_Forall2 {A} (R : A -> A -> Prop) l l' : all2 R l l' <-> Forall2 R l l'.
Proof.
  revert l'. induction l as [|x l IH]; intros [|y l']; [split; [constructor|intros _; exact I]|split; [intros []|intros H; inversion H]|split; [intros []|intros H; inversion H]|].
  change (R x y /\ all2 R l l' <-> Forall2 R (x :: l) (y :: l')). rewrite IH. split; [intros [H1 H2]; constructor; assumption|intros H; inversion H; auto].
Qed.

(** ** The relation [same] *)
Lemma same_refl : forall r, same r r.
Proof.
  refine (rv_ind' _ _ _ _ _ _ _).
  - intros a. reflexivity.
  - intros l H. cbn [same]. apply all2_Forall2. induction H; constructor; assumption.
  - intros r H. exact H.
  - intros r H. exact H.
  - exact I.
  - intros l H. cbn [same]. apply all2_Forall2. induction H as [|f l Hf _ IH]; constructor; [|exact IH]. intros t m. specialize (Hf t m). destruct (f t m); [exact Hf|exact I].
Qed.
Lemma same_sym : forall r r', same r r' -> same r' r.
Proof.
  refine (rv_ind' _ _ _ _ _ _ _).
  - intros a [] H; cbn [same] in *; try contradiction. congruence.
  - intros l Hl [] H; cbn [same] in *; try contradiction. apply all2_Forall2 in H. apply all2_Forall2. revert Hl. induction H as [|x y l l' Hxy _ IH]; intros Hl; [constructor|]. inversion Hl; subst. constructor; auto.
  - intros r Hr [] H; cbn [same] in *; try contradiction. apply Hr, H.
  - intros r Hr [] H; cbn [same] in *; try contradiction. apply Hr, H.
  - intros [] H; cbn [same] in *; try contradiction. exact I.
  - intros l Hl [] H; cbn [same] in *; try contradiction. apply all2_Forall2 in H. apply all2_Forall2. revert Hl. induction H as [|f g l l' Hfg _ IH]; intros Hl; [constructor|]. inversion Hl as [|? ? Hf Hl']; subst. constructor; [|auto].
    intros t m. specialize (Hfg t m). specialize (Hf t m). destruct (f t m), (g t m); try contradiction; [apply Hf, Hfg|exact I].
Qed.
Lemma same_trans : forall a b c, same a b -> same b c -> same a c.
Proof.
  refine (rv_ind' _ _ _ _ _ _ _).
  - intros a [] [] H1 H2; cbn [same] in *; try contradiction. congruence.
  - intros l Hl [] [] H1 H2; cbn [same] in *; try contradiction. apply all2_Forall2 in H1. apply all2_Forall2 in H2. apply all2_Forall2. revert l1 H2 Hl. induction H1 as [|x y l l' Hxy _ IH]; intros l2 H2 Hl; inversion H2; subst; [constructor|]. inversion Hl; subst. constructor; eauto.
  - intros r Hr [] [] H1 H2; cbn [same] in *; try contradiction. eauto.
  - intros r Hr [] [] H1 H2; cbn [same] in *; try contradiction. eauto.
  - intros [] [] H1 H2; cbn [same] in *; try contradiction. exact I.
  - intros l Hl [] [] H1 H2; cbn [same] in *; try contradiction. apply all2_Forall2 in H1. apply all2_Forall2 in H2. apply all2_Forall2. revert l1 H2 Hl. induction H1 as [|f g l l' Hfg _ IH]; intros l2 H2 Hl; inversion H2 as [|? h ? ? Hgh]; subst; [constructor|].
    inversion Hl as [|? ? Hf Hl']; subst. constructor; [|eauto]. intros t m. specialize (Hfg t m). specialize (Hgh t m). specialize (Hf t m). destruct (f t m), (g t m), (h t m); try contradiction; [eauto|exact I].
Qed.
Lemma same_opt_refl a : same_opt a a.
Proof. destruct a; [apply same_refl|exact I]. Qed.
Lemma same_opt_sym a b : same_opt a b -> same_opt b a.
Proof. destruct a, b; cbn [same_opt]; try contradiction; [apply same_sym|auto]. Qed.
Lemma same_opt_trans a b c : same_opt a b -> same_opt b c -> same_opt a c.
Proof. destruct a, b, c; cbn [same_opt]; try contradiction; [apply same_trans|auto]. Qed.
Lemma same_atom_r r a : same r (RAtom a) -> r = RAtom a.
Proof. destruct r; cbn [same]; try contradiction. intros ->. reflexivity. Qed.
Lemma same_rint r r' : same r r' -> rint r = rint r'.
Proof. destruct r, r'; cbn [same]; try contradiction; try reflexivity. intros ->. reflexivity. Qed.
Lemma same_pv : forall r r', same r r' -> pv_of r = pv_of r'.
Proof.
  refine (rv_ind' _ _ _ _ _ _ _).
  - intros a [] H; cbn [same] in H; try contradiction. congruence.
  - intros l Hl [] H; cbn [same] in H; try contradiction. apply all2_Forall2 in H. cbn [pv_of]. enough (E : omap pv_of l = omap pv_of l0) by (rewrite E; reflexivity).
    revert Hl. induction H as [|x y l l' Hxy _ IH]; intros Hl; [reflexivity|]. inversion Hl as [|? ? Hx Hl']; subst. cbn [omap]. fold (omap pv_of). rewrite (Hx y Hxy), (IH Hl'). reflexivity.
  - intros r Hr [] H; cbn [same] in H; try contradiction. reflexivity.
  - intros r Hr [] H; cbn [same] in H; try contradiction. reflexivity.
  - intros [] H; cbn [same] in H; try contradiction. reflexivity.
  - intros l Hl [] H; cbn [same] in H; try contradiction. reflexivity.
Qed.

Lemma omap_cons {A B} (f : A -> option B) x l : omap f (x :: l) = match f x, omap f l with Some y, Some r => Some (y :: r) | _, _ => None end.
Proof. reflexivity. Qed.
Lemma omap_app {A B} (f : A -> option B) l l' : omap f (l ++ l') = oapp (omap f l) (omap f l').
Proof.
  induction l as [|x l IH]; [cbn [app omap oapp]; destruct (omap f l'); reflexivity|]. cbn [app]. rewrite !omap_cons, IH. destruct (f x); [|reflexivity]. destruct (omap f l), (omap f l'); reflexivity.
Qed.
Lemma omap_pv_same l l' : Forall2 same l l' -> omap pv_of l = omap pv_of l'.
Proof. induction 1 as [|x y l l' H _ IH]; [reflexivity|]. rewrite !omap_cons, IH, (same_pv x y H). reflexivity. Qed.

(** ** Values *)
Lemma to_of : forall v, to_pv (of_pv v) = Some v.
Proof.
  refine (pv_ind' _ _ _); [reflexivity|]. intros l H. cbn [of_pv to_pv]. enough (E : omap to_pv (map of_pv l) = Some l) by (rewrite E; reflexivity). induction H as [|x l Hx _ IH]; [reflexivity|]. cbn [map]. rewrite omap_cons, Hx, IH. reflexivity.
Qed.
Lemma to_pv_eq : forall o v, to_pv o = Some v -> o = of_pv v.
Proof.
  refine (obj_ind' _ _ _ _ _ _ _ _ _ _ _); try (intros; discriminate).
  - intros a v [= <-]. reflexivity.
  - intros l Hl v. cbn [to_pv]. destruct (omap to_pv l) as [vs|] eqn:E; [|discriminate]. intros [= <-]. cbn [of_pv]. f_equal. revert vs E. induction Hl as [|o l Ho _ IH]; intros vs E; [injection E as <-; reflexivity|].
    rewrite omap_cons in E. destruct (to_pv o) as [w|] eqn:Ew; [|discriminate]. destruct (omap to_pv l) as [ws|]; [|discriminate]. injection E as <-. cbn [map]. rewrite <- (IH ws eq_refl), <- (Ho w eq_refl). reflexivity.
Qed.
Lemma pv_rv : forall v, pv_of (rv_of v) = Some v.
Proof.
  refine (pv_ind' _ _ _); [reflexivity|]. intros l H. cbn [rv_of pv_of]. enough (E : omap pv_of (map rv_of l) = Some l) by (rewrite E; reflexivity). induction H as [|x l Hx _ IH]; [reflexivity|]. cbn [map]. rewrite omap_cons, Hx, IH. reflexivity.
Qed.

Section Proofs.
Variable peq : pv -> pv -> bool.
Variable escape_str : str -> str.
Variable other : nat -> list pv -> option pv.
Notation apply := (apply peq escape_str other).
Notation pre_evaluate := (pre_evaluate peq escape_str other).
Notation evaluate := (evaluate peq escape_str other).
Notation rcall := (rcall peq escape_str other).
Notation denote := (denote peq escape_str other).

Lemma denote_of e : forall v, denote e (of_pv v) = Some (rv_of v).
Proof.
  refine (pv_ind' _ _ _); [reflexivity|]. intros l H. cbn [of_pv RuleItemSpec.denote rv_of]. enough (E : omap (denote e) (map of_pv l) = Some (map rv_of l)) by (rewrite E; reflexivity).
  induction H as [|x l Hx _ IH]; [reflexivity|]. cbn [map]. rewrite omap_cons, Hx, IH. reflexivity.
Qed.
Lemma denote_to e o v : to_pv o = Some v -> denote e o = Some (rv_of v).
Proof. intros H. rewrite (to_pv_eq o v H). apply denote_of. Qed.
Lemma denote_args e l vs : omap to_pv l = Some vs -> omap (denote e) l = Some (map rv_of vs).
Proof.
  revert vs. induction l as [|o l IH]; intros vs E; [injection E as <-; reflexivity|]. rewrite omap_cons in E. rewrite omap_cons. destruct (to_pv o) as [v|] eqn:Ev; [|discriminate]. destruct (omap to_pv l) as [ws|]; [|discriminate]. injection E as <-.
  rewrite (denote_to e o v Ev), (IH ws eq_refl). reflexivity.
Qed.
Lemma omap_pv_rv vs : omap pv_of (map rv_of vs) = Some vs.
Proof. induction vs as [|v vs IH]; [reflexivity|]. cbn [map]. rewrite omap_cons, pv_rv, IH. reflexivity. Qed.

(** Calls of objects are calls of what they mean. *)
Lemma denote_to_conv e : forall o r, denote e o = Some r -> static o -> pv_of r = to_pv o.
Proof.
  refine (obj_ind' _ _ _ _ _ _ _ _ _ _ _); try (intros; contradiction).
  - intros a r [= <-] _. reflexivity.
  - intros l Hl r. cbn [RuleItemSpec.denote static]. destruct (omap (denote e) l) as [rs|] eqn:E; [|discriminate]. intros [= <-] Hs. apply fold_and in Hs. cbn [pv_of to_pv]. enough (Eq : omap pv_of rs = omap to_pv l) by (rewrite Eq; reflexivity).
    revert rs E Hs. induction Hl as [|o l Ho _ IH]; intros rs E Hs; [injection E as <-; reflexivity|]. inversion Hs; subst. rewrite omap_cons in E. destruct (denote e o) as [x|] eqn:Ex; [|discriminate]. destruct (omap (denote e) l) as [xs|]; [|discriminate]. injection E as <-.
    rewrite !omap_cons, (Ho x eq_refl), (IH xs eq_refl) by assumption. reflexivity.
  - intros v Hv r. cbn [RuleItemSpec.denote]. destruct (denote e v); [|discriminate]. intros [= <-] _. reflexivity.
  - intros l Hl r [= <-] _. reflexivity.
  - intros v Hv r. cbn [RuleItemSpec.denote]. destruct (denote e v); [|discriminate]. intros [= <-] _. reflexivity.
  - intros r [= <-] _. reflexivity.
Qed.
Lemma denote_args_conv e l : forall rs, omap (denote e) l = Some rs -> Forall static l -> omap pv_of rs = omap to_pv l.
Proof.
  induction l as [|o l IH]; intros rs E Hs; [injection E as <-; reflexivity|]. inversion Hs; subst. rewrite omap_cons in E. destruct (denote e o) as [x|] eqn:Ex; [|discriminate]. destruct (omap (denote e) l) as [xs|] eqn:Exs; [|discriminate]. injection E as <-.
  rewrite !omap_cons, (denote_to_conv e o x Ex), (IH xs eq_refl) by assumption. reflexivity.
Qed.
Lemma static_denote e : forall o, static o -> exists r, denote e o = Some r.
Proof.
  refine (obj_ind' _ _ _ _ _ _ _ _ _ _ _); try (intros; contradiction); cbn [RuleItemSpec.denote static].
  - intros a _. eexists. reflexivity.
  - intros l Hl Hs. apply fold_and in Hs. enough (E : exists rs, omap (denote e) l = Some rs) by (destruct E as [rs E]; rewrite E; eexists; reflexivity).
    induction Hl as [|o l Ho _ IH]; [eexists; reflexivity|]. inversion Hs; subst. destruct (Ho H1) as [r Er]. destruct (IH H2) as [rs Ers]. rewrite omap_cons, Er, Ers. eexists. reflexivity.
  - intros v Hv Hs. destruct (Hv Hs) as [r ->]. eexists. reflexivity.
  - intros l _ _. eexists. reflexivity.
  - intros v Hv Hs. destruct (Hv Hs) as [r ->]. eexists. reflexivity.
  - intros _. eexists. reflexivity.
Qed.
Lemma static_args e l : Forall static l -> exists rs, omap (denote e) l = Some rs.
Proof. intros H. induction H as [|o l Ho _ IH]; [eexists; reflexivity|]. destruct (static_denote e o Ho) as [r Er]. destruct IH as [rs Ers]. rewrite omap_cons, Er, Ers. eexists. reflexivity. Qed.
Lemma of_static : forall v, static (of_pv v).
Proof. refine (pv_ind' _ _ _); [intros; exact I|]. intros l H. cbn [of_pv static]. apply fold_and. apply Forall_map. exact H. Qed.
Lemma apply_static p args r : apply p args = Some r -> static r.
Proof. unfold RuleItemModel.apply. destruct (to_pv p); [|discriminate]. destruct (omap to_pv args); [|discriminate]. destruct (call_pv _ _ _ _ _); [|discriminate]. intros [= <-]. apply of_static. Qed.
Lemma apply_rcall e p args rp rargs : static p -> Forall static args -> denote e p = Some rp -> omap (denote e) args = Some rargs ->
  rcall rp rargs = match apply p args with Some r => denote e r | None => None end.
Proof.
  intros Hp Hargs Ep Eargs. unfold RuleItemSpec.rcall, RuleItemModel.apply. rewrite (denote_to_conv e p rp Ep Hp), (denote_args_conv e args rargs Eargs Hargs).
  destruct (to_pv p); [|reflexivity]. destruct (omap to_pv args); [|reflexivity]. destruct (call_pv _ _ _ _ _); [|reflexivity]. rewrite denote_of. reflexivity.
Qed.
Lemma rcall_same p p' l l' : same p p' -> Forall2 same l l' -> rcall p l = rcall p' l'.
Proof. intros Hp Hl. unfold RuleItemSpec.rcall. rewrite (same_pv p p' Hp), (omap_pv_same l l' Hl). reflexivity. Qed.

(** ** The meaning of items from the meanings of their parts *)
Definition dseq (l : list (option rv)) : option (list rv) := omap (fun x => x) l.
Definition dcall (p : option rv) (l : list (option rv)) : option rv := match p, dseq l with Some p, Some l => rcall p l | _, _ => None end.
Definition dselect_ (i : option rv) (l : list (option rv)) : option rv :=
  match i with Some r => match rint r with Some i => match py_get l i with Some r => r | None => None end | None => None end | None => None end.
Definition dtarget (v : option rv) (l : list (option rv)) : option rv :=
  match v with
  | Some (RTup [index; arg]) =>
      match rint index with
      | Some i => match py_get l i with Some (Some lexicon) => match arg with RAtom ANone => Some lexicon | _ => rcall lexicon [arg] end | _ => None end
      | None => None
      end
  | Some r => match rint r with Some _ => Some r | None => None end
  | None => None
  end.
Lemma omap_dseq {A} (f : A -> option rv) l : omap f l = dseq (map f l).
Proof. unfold dseq. induction l as [|x l IH]; [reflexivity|]. cbn [map]. rewrite !omap_cons, IH. reflexivity. Qed.
Lemma denote_seq e l : denote e (OSeq l) = match dseq (map (denote e) l) with Some l => Some (RTup l) | None => None end.
Proof. rewrite <- omap_dseq. reflexivity. Qed.
Lemma denote_call e p l : denote e (OCall p l) = dcall (denote e p) (map (denote e) l).
Proof. unfold dcall. rewrite <- omap_dseq. reflexivity. Qed.
Lemma denote_select e i l : denote e (OSelect i l) = dselect_ (denote e i) (map (denote e) l).
Proof. reflexivity. Qed.
Lemma denote_target e v l : denote e (OTarget v l) = dtarget (denote e v) (map (denote e) l).
Proof. reflexivity. Qed.

Lemma py_get_rel {A B} (R : A -> B -> Prop) l l' i : Forall2 R l l' ->
  match py_get l i, py_get l' i with Some x, Some y => R x y | None, None => True | _, _ => False end.
Proof.
  intros H. unfold py_get. assert (El : length l = length l') by (clear i; induction H; cbn [length]; congruence). rewrite <- El. clear El.
  assert (Hn : forall n, match nth_error l n, nth_error l' n with Some x, Some y => R x y | None, None => True | _, _ => False end).
  { intros n. revert n. induction H as [|x y l l' Hxy _ IH]; intros [|n]; cbn [nth_error]; [exact I|exact I|exact Hxy|apply IH]. }
  destruct (0 <=? i)%Z; [apply Hn|]. destruct (- i <=? Z.of_nat (length l))%Z; [apply Hn|exact I].
Qed.
Lemma dseq_same l l' : Forall2 same_opt l l' -> match dseq l, dseq l' with Some r, Some r' => Forall2 same r r' | None, None => True | _, _ => False end.
Proof.
  unfold dseq. induction 1 as [|x y l l' Hxy _ IH]; [constructor|]. rewrite !omap_cons. destruct x, y; cbn [same_opt] in Hxy; try contradiction; [|exact I].
  destruct (omap (fun x => x) l), (omap (fun x => x) l'); try contradiction; [constructor; assumption|exact I].
Qed.
Lemma dcall_same p p' l l' : same_opt p p' -> Forall2 same_opt l l' -> same_opt (dcall p l) (dcall p' l').
Proof.
  intros Hp Hl. unfold dcall. destruct p, p'; cbn [same_opt] in Hp; try contradiction; [|exact I]. pose proof (dseq_same l l' Hl) as Hs. destruct (dseq l), (dseq l'); try contradiction; [|exact I].
  rewrite (rcall_same _ _ _ _ Hp Hs). apply same_opt_refl.
Qed.
Lemma dselect_same p p' l l' : same_opt p p' -> Forall2 same_opt l l' -> same_opt (dselect_ p l) (dselect_ p' l').
Proof.
  intros Hp Hl. unfold dselect_. destruct p, p'; cbn [same_opt] in Hp; try contradiction; [|exact I]. rewrite (same_rint _ _ Hp). destruct (rint r0) as [i|]; [|exact I].
  pose proof (py_get_rel same_opt l l' i Hl) as Hg. destruct (py_get l i), (py_get l' i); try contradiction; [exact Hg|exact I].
Qed.
Lemma same_none_iff r r' : same r r' -> (r = RAtom ANone <-> r' = RAtom ANone).
Proof. intros H. split; intros ->; [apply same_sym in H|]; apply same_atom_r in H; exact H. Qed.
Lemma arg_none_dec (r : rv) : {r = RAtom ANone} + {r <> RAtom ANone}.
Proof. destruct r as [[]| | | | |]; (left; reflexivity) || (right; discriminate). Defined.
Lemma arg_cases (r : rv) (a b : option rv) : match r with RAtom ANone => a | _ => b end = if arg_none_dec r then a else b.
Proof. destruct r as [[]| | | | |]; reflexivity. Qed.
Definition dpick (index arg : rv) (l : list (option rv)) : option rv :=
  match rint index with
  | Some i => match py_get l i with Some (Some lexicon) => match arg with RAtom ANone => Some lexicon | _ => rcall lexicon [arg] end | _ => None end
  | None => None
  end.
Lemma dpick_same i i' a a' l l' : same i i' -> same a a' -> Forall2 same_opt l l' -> same_opt (dpick i a l) (dpick i' a' l').
Proof.
  intros Hi Ha Hl. unfold dpick. rewrite (same_rint _ _ Hi). destruct (rint i') as [z|]; [|exact I].
  pose proof (py_get_rel same_opt l l' z Hl) as Hg. destruct (py_get l z) as [x|], (py_get l' z) as [y|]; try contradiction; [|exact I]. destruct x, y; cbn [same_opt] in Hg; try contradiction; [|exact I].
  rewrite !arg_cases. destruct (arg_none_dec a) as [E|E], (arg_none_dec a') as [E'|E'].
  - exact Hg.
  - exfalso. apply E'. apply (same_none_iff _ _ Ha). exact E.
  - exfalso. apply E. apply (same_none_iff _ _ Ha). exact E'.
  - rewrite (rcall_same r r0 [a] [a'] Hg); [apply same_opt_refl|constructor; [exact Ha|constructor]].
Qed.
Lemma dtarget_same p p' l l' : same_opt p p' -> Forall2 same_opt l l' -> same_opt (dtarget p l) (dtarget p' l').
Proof.
  intros Hp Hl. destruct p as [r|], p' as [r'|]; cbn [same_opt] in Hp; try contradiction; [|exact I].
  destruct r as [a|rs|r|r| |fs], r' as [a'|rs'|r'|r'| |fs']; cbn [same] in Hp; try contradiction; try exact I.
  - subst a'. cbn [dtarget rint]. destruct (as_int a); [apply same_refl|exact I].
  - apply all2_Forall2 in Hp. destruct Hp as [|x y rs rs' Hxy Hp]; [exact I|]. destruct Hp as [|x2 y2 rs rs' Hxy2 Hp]; [exact I|]. destruct Hp as [|x3 y3 rs rs' Hxy3 Hp]; [|exact I].
    apply (dpick_same x y x2 y2 l l' Hxy Hxy2 Hl).
Qed.
Lemma dsub_same e e' l l' : Forall2 (fun o o' => forall t m, same_opt (denote (Env (e_arg e) (Some t) (Some m)) o) (denote (Env (e_arg e') (Some t) (Some m)) o')) l l' ->
  same_opt (denote e (OSub l)) (denote e' (OSub l')).
Proof.
  intros H. cbn [RuleItemSpec.denote same_opt same]. apply all2_Forall2. induction H as [|o o' l l' Ho _ IH]; cbn [map]; constructor; [|exact IH]. intros t m. exact (Ho t m).
Qed.

(** ** [pre_evaluate] keeps the meaning *)
Definition over (n : ns) (e : env) : env :=
  let pick x y := match n x with Some v => Some v | None => y end in Env (pick VArg (e_arg e)) (pick VText (e_text e)) (pick VMatch (e_match e)).
Lemma pre_seq_inv l l' ok n : pre_seq (map (pre_evaluate n) l) = Some (l', ok) ->
  Forall2 (fun o o' => exists okx, pre_evaluate n o = Some (o', okx) /\ (fst ok = true -> fst okx = true) /\ (snd ok = true -> snd okx = true)) l l'.
Proof.
  revert l' ok. induction l as [|o l IH]; intros l' ok; cbn [map pre_seq]; [intros [= <- <-]; constructor|].
  destruct (pre_evaluate n o) as [[o1 ok1]|] eqn:E; [|discriminate]. destruct (pre_seq (map (pre_evaluate n) l)) as [[os oks]|]; [|discriminate]. intros [= <- <-]. constructor.
  - exists ok1. split; [exact E|]. cbn [fl_and fst snd]. split; intros H; apply andb_true_iff in H; apply H.
  - eapply Forall2_impl; [|apply IH; reflexivity]. intros a b (okx & H1 & H2 & H3). exists okx. split; [exact H1|]. cbn [fl_and fst snd]. split; intros H; apply andb_true_iff in H; destruct H; auto.
Qed.
Lemma Forall2_eq {A} (l l' : list A) : Forall2 eq l l' -> l = l'.
Proof. induction 1; congruence. Qed.
Lemma Forall2_imp_in {A B} (P : A -> Prop) (R Q : A -> B -> Prop) l l' : Forall P l -> Forall2 R l l' -> (forall a b, P a -> R a b -> Q a b) -> Forall2 Q l l'.
Proof. intros HP HR H. revert HP. induction HR as [|x y l l' Hxy _ IH]; intros HP; [constructor|]. inversion HP; subst. constructor; auto. Qed.

(** The flag says that nothing changed. *)
Lemma unchanged n : forall o o' ok, pre_evaluate n o = Some (o', ok) -> snd ok = true -> o' = o.
Proof.
  refine (obj_ind' _ _ _ _ _ _ _ _ _ _ _).
  - intros a o' ok [= <- <-] _. reflexivity.
  - intros l Hl o' ok. cbn [RuleItemModel.pre_evaluate]. destruct (pre_seq (map (pre_evaluate n) l)) as [[l' ok']|] eqn:E; [|discriminate]. intros [= <- <-] Hs. f_equal. symmetry. apply Forall2_eq.
    apply pre_seq_inv in E. eapply Forall2_imp_in; [exact Hl|exact E|]. intros a b Ha (okx & E1 & _ & E2). symmetry. eapply Ha; [exact E1|]. apply E2. exact Hs.
  - intros x o' ok. cbn [RuleItemModel.pre_evaluate]. destruct (n x); intros [= <- <-] Hs; [discriminate|reflexivity].
  - intros p l _ _ o' ok. cbn [RuleItemModel.pre_evaluate]. destruct (pre_evaluate n p) as [[p' pok]|]; [|discriminate]. destruct (pre_seq _) as [[l' lok]|]; [|discriminate].
    destruct (fst (fl_and pok lok)); [destruct (apply p' l'); [|discriminate]; intros [= <- <-] Hs; discriminate|]. destruct (snd (fl_and pok lok)); intros [= <- <-] Hs; [reflexivity|discriminate].
  - intros p l _ _ o' ok. cbn [RuleItemModel.pre_evaluate]. destruct (pre_evaluate n p) as [[p' pok]|]; [|discriminate]. destruct (fst pok).
    + destruct (int_of p'); [|discriminate]. destruct (py_get _ _) as [[[it iok]|]|]; try discriminate. intros [= <- <-] Hs. discriminate.
    + destruct (pre_seq _) as [[l' lok]|]; [|discriminate]. destruct (snd (fl_and pok lok)); intros [= <- <-] Hs; [reflexivity|discriminate].
  - intros p l _ _ o' ok. cbn [RuleItemModel.pre_evaluate]. destruct (pre_evaluate n p) as [[p' pok]|]; [|discriminate]. destruct (fst pok).
    + destruct (int_of p'); [intros [= <- <-] Hs; discriminate|]. destruct p' as [|[|i [|a [|? ?]]]| | | | | | | |]; try discriminate. destruct (int_of i); [|discriminate]. destruct (py_get _ _) as [[[it iok]|]|]; try discriminate.
      destruct (fst iok); [|intros [= <- <-] Hs; discriminate].
      assert (Hb : forall (x : option (obj * flags)), x = Some (it, (true, false)) \/ x = match apply it [a] with Some r => Some (r, (true, false)) | None => None end -> x = Some (o', ok) -> snd ok = true -> o' = OTarget p l).
      { intros x [-> | ->]; [intros [= <- <-]; discriminate|]. destruct (apply it [a]); [intros [= <- <-]; discriminate|discriminate]. }
      intros H. eapply Hb; [|exact H]. destruct a as [[]| | | | | | | | |]; auto.
    + destruct (pre_seq _) as [[l' lok]|]; [|discriminate]. destruct (snd (fl_and pok lok)) eqn:Es; intros [= <- <-] Hs; [reflexivity|congruence].
  - intros v Hv o' ok. cbn [RuleItemModel.pre_evaluate]. destruct (pre_evaluate n v) as [[v' vok]|]; [|discriminate]. intros [= <- <-] Hs. rewrite Hs. reflexivity.
  - intros l Hl o' ok. cbn [RuleItemModel.pre_evaluate]. destruct (pre_seq _) as [[l' lok]|]; [|discriminate]. intros [= <- <-] Hs. rewrite Hs. reflexivity.
  - intros v Hv o' ok. cbn [RuleItemModel.pre_evaluate]. destruct (pre_evaluate n v) as [[v' vok]|]; [|discriminate]. intros [= <- <-] Hs. rewrite Hs. reflexivity.
  - intros o' ok [= <- <-] _. reflexivity.
Qed.
Lemma unchanged_seq n l l' ok : pre_seq (map (pre_evaluate n) l) = Some (l', ok) -> snd ok = true -> l' = l.
Proof.
  intros E Hs. symmetry. apply Forall2_eq. apply pre_seq_inv in E. eapply Forall2_impl; [|exact E]. intros a b (okx & E1 & _ & E2). symmetry. eapply unchanged; [exact E1|]. apply E2, Hs.
Qed.
Lemma complete_static n : forall o o' ok, pre_evaluate n o = Some (o', ok) -> fst ok = true -> static o'.
Proof.
  assert (Hseq : forall l, Forall (fun o => forall o' ok, pre_evaluate n o = Some (o', ok) -> fst ok = true -> static o') l ->
     forall l' ok, pre_seq (map (pre_evaluate n) l) = Some (l', ok) -> fst ok = true -> Forall static l').
  { intros l Hl l' ok E Hf. apply pre_seq_inv in E. revert Hl. induction E as [|a b l l' (okx & E1 & E2 & _) _ IH]; intros Hl; [constructor|]. inversion Hl as [|? ? Ha Hl']; subst. constructor; [eapply Ha; [exact E1|apply E2, Hf]|auto]. }
  refine (obj_ind' _ _ _ _ _ _ _ _ _ _ _).
  - intros a o' ok [= <- <-] _. exact I.
  - intros l Hl o' ok. cbn [RuleItemModel.pre_evaluate]. destruct (pre_seq (map (pre_evaluate n) l)) as [[l' ok']|] eqn:E; [|discriminate]. intros [= <- <-] Hf. cbn [static]. apply fold_and. eapply Hseq; eassumption.
  - intros x o' ok. cbn [RuleItemModel.pre_evaluate]. destruct (n x); intros [= <- <-] Hs; [apply of_static|discriminate].
  - intros p l _ _ o' ok. cbn [RuleItemModel.pre_evaluate]. destruct (pre_evaluate n p) as [[p' pok]|]; [|discriminate]. destruct (pre_seq _) as [[l' lok]|]; [|discriminate].
    destruct (fst (fl_and pok lok)); [destruct (apply p' l') eqn:Ea; [|discriminate]; intros [= <- <-] Hs; eapply apply_static; exact Ea|]. destruct (snd (fl_and pok lok)); intros [= <- <-] Hs; discriminate.
  - intros p l _ Hl o' ok. cbn [RuleItemModel.pre_evaluate]. destruct (pre_evaluate n p) as [[p' pok]|]; [|discriminate]. destruct (fst pok).
    + destruct (int_of p') as [i|]; [|discriminate]. destruct (py_get _ _) as [[[it iok]|]|] eqn:Eg; try discriminate. intros [= <- <-] Hs. cbn [fst] in Hs.
      assert (Hin : In (Some (it, iok)) (map (pre_evaluate n) l)) by (unfold py_get in Eg; destruct (0 <=? i)%Z; [eapply nth_error_In; exact Eg|]; destruct (- i <=? _)%Z; [eapply nth_error_In; exact Eg|discriminate]).
      apply in_map_iff in Hin. destruct Hin as (x & Ex & Hx). rewrite Forall_forall in Hl. eapply Hl; [exact Hx|exact Ex|exact Hs].
    + destruct (pre_seq _) as [[l' lok]|]; [|discriminate]. destruct (snd (fl_and pok lok)); intros [= <- <-] Hs; discriminate.
  - intros p l Hp Hl o' ok. cbn [RuleItemModel.pre_evaluate]. destruct (pre_evaluate n p) as [[p' pok]|]; [|discriminate]. destruct (fst pok) eqn:Ef.
    + specialize (Hp p' pok eq_refl Ef). destruct (int_of p'); [intros [= <- <-] Hs; exact Hp|]. destruct p' as [|[|i [|a [|? ?]]]| | | | | | | |]; try discriminate. destruct (int_of i) as [z|]; [|discriminate]. destruct (py_get _ _) as [[[it iok]|]|] eqn:Eg; try discriminate.
      assert (Hin : In (Some (it, iok)) (map (pre_evaluate n) l)) by (unfold py_get in Eg; destruct (0 <=? z)%Z; [eapply nth_error_In; exact Eg|]; destruct (- z <=? _)%Z; [eapply nth_error_In; exact Eg|discriminate]).
      apply in_map_iff in Hin. destruct Hin as (x & Ex & Hx). rewrite Forall_forall in Hl.
      destruct (fst iok) eqn:Ei; [|intros [= <- <-] Hs; discriminate]. specialize (Hl x Hx it iok Ex Ei).
      assert (Hb : forall (x : option (obj * flags)), x = Some (it, (true, false)) \/ x = match apply it [a] with Some r => Some (r, (true, false)) | None => None end -> x = Some (o', ok) -> fst ok = true -> static o').
      { intros y [-> | ->]; [intros [= <- <-] _; exact Hl|]. destruct (apply it [a]) eqn:Ea; [intros [= <- <-] _; eapply apply_static; exact Ea|discriminate]. }
      intros H. eapply Hb; [|exact H]. destruct a as [[]| | | | | | | | |]; auto.
    + destruct (pre_seq _) as [[l' lok]|]; [|discriminate]. destruct (snd (fl_and pok lok)) eqn:Es; intros [= <- <-] Hs; cbn [fl_and fst] in Hs; rewrite Ef in Hs; discriminate.
  - intros v Hv o' ok. cbn [RuleItemModel.pre_evaluate]. destruct (pre_evaluate n v) as [[v' vok]|] eqn:Ev; [|discriminate]. intros [= <- <-] Hs. specialize (Hv v' vok eq_refl Hs).
    destruct (snd vok) eqn:Eu; [|exact Hv]. rewrite <- (unchanged n v v' vok Ev Eu). exact Hv.
  - intros l Hl o' ok. cbn [RuleItemModel.pre_evaluate]. destruct (pre_seq _) as [[l' lok]|]; [|discriminate]. intros [= <- <-] Hs. destruct (snd lok); exact I.
  - intros v Hv o' ok. cbn [RuleItemModel.pre_evaluate]. destruct (pre_evaluate n v) as [[v' vok]|] eqn:Ev; [|discriminate]. intros [= <- <-] Hs. specialize (Hv v' vok eq_refl Hs).
    destruct (snd vok) eqn:Eu; [|exact Hv]. rewrite <- (unchanged n v v' vok Ev Eu). exact Hv.
  - intros o' ok [= <- <-] _. exact I.
Qed.

(** *** The meaning is kept *)
Definition scope (n : ns) (o : obj) : Prop := (n VText = None /\ n VMatch = None) \/ no_post o.
Definition scopes (n : ns) (l : list obj) : Prop := (n VText = None /\ n VMatch = None) \/ Forall no_post l.
Lemma py_get_map {A B} (f : A -> B) l i : py_get (map f l) i = option_map f (py_get l i).
Proof. unfold py_get. rewrite map_length. destruct (0 <=? i)%Z; [apply nth_error_map|]. destruct (- i <=? _)%Z; [apply nth_error_map|reflexivity]. Qed.
Lemma py_get_in {A} (l : list A) i x : py_get l i = Some x -> In x l.
Proof. unfold py_get. destruct (0 <=? i)%Z; [apply nth_error_In|]. destruct (- i <=? _)%Z; [apply nth_error_In|discriminate]. Qed.
Lemma static_int e o r : denote e o = Some r -> static o -> rint r = int_of o.
Proof.
  intros E Hs. destruct o; cbn [static] in Hs; try contradiction; cbn [RuleItemSpec.denote int_of] in *.
  - injection E as <-. reflexivity.
  - destruct (omap _ _); [|discriminate]. injection E as <-. reflexivity.
  - destruct (denote e o); [|discriminate]. injection E as <-. reflexivity.
  - injection E as <-. reflexivity.
  - destruct (denote e o); [|discriminate]. injection E as <-. reflexivity.
  - injection E as <-. reflexivity.
Qed.
Lemma static_none e o : denote e o = Some (RAtom ANone) -> static o -> o = OAtom ANone.
Proof. intros E Hs. pose proof (denote_to_conv e o _ E Hs) as H. cbn [pv_of] in H. symmetry in H. apply to_pv_eq in H. exact H. Qed.
Lemma dpick_at index arg l i x : rint index = Some i -> py_get l i = Some (Some x) ->
  dpick index arg l = if arg_none_dec arg then Some x else rcall x [arg].
Proof. intros E1 E2. unfold dpick. rewrite E1, E2. apply arg_cases. Qed.
Lemma arg_obj_cases {A} (o : obj) (x y : A) : match o with OAtom ANone => x | _ => y end = x /\ o = OAtom ANone \/ match o with OAtom ANone => x | _ => y end = y /\ o <> OAtom ANone.
Proof. destruct o as [[]| | | | | | | | |]; (left; split; reflexivity) || (right; split; [reflexivity|discriminate]). Qed.
Lemma same_opt_some_r a r : same_opt a (Some r) -> exists r', a = Some r' /\ same r' r.
Proof. destruct a as [r'|]; [|intros []]. intros H. exists r'. split; [reflexivity|exact H]. Qed.

Lemma pre_keep n : forall o o' ok e, pre_evaluate n o = Some (o', ok) -> scope n o -> same_opt (denote (over n e) o) (denote e o').
Proof.
  assert (Hseq : forall l, Forall (fun o => forall o' ok e, pre_evaluate n o = Some (o', ok) -> scope n o -> same_opt (denote (over n e) o) (denote e o')) l ->
     forall l' ok e, pre_seq (map (pre_evaluate n) l) = Some (l', ok) -> scopes n l -> Forall2 same_opt (map (denote (over n e)) l) (map (denote e) l')).
  { intros l Hl l' ok e E Hsc. apply pre_seq_inv in E. revert Hl Hsc. induction E as [|a b l l' (okx & E1 & _ & _) _ IH]; intros Hl Hsc; [constructor|]. inversion Hl as [|? ? Ha Hl']; subst. cbn [map].
    assert (Hh : scope n a /\ scopes n l) by (destruct Hsc as [Hn|Hp]; [split; left; exact Hn|inversion Hp; split; right; assumption]). destruct Hh as [Hh1 Hh2]. constructor; [eapply Ha; eassumption|apply IH; assumption]. }
  refine (obj_ind' _ _ _ _ _ _ _ _ _ _ _).
  - intros a o' ok e [= <- <-] _. reflexivity.
  - intros l Hl o' ok e. cbn [RuleItemModel.pre_evaluate]. destruct (pre_seq (map (pre_evaluate n) l)) as [[l' ok']|] eqn:E; [|discriminate]. intros [= <- <-] Hsc. rewrite !denote_seq.
    assert (Hscl : scopes n l) by (destruct Hsc as [Hn|Hp]; [left; exact Hn|right; apply fold_and; exact Hp]).
    pose proof (dseq_same _ _ (Hseq l Hl l' ok' e E Hscl)) as H. destruct (dseq (map (denote (over n e)) l)), (dseq (map (denote e) l')); try contradiction; [|exact I]. apply all2_Forall2. exact H.
  - intros x o' ok e. cbn [RuleItemModel.pre_evaluate]. destruct (n x) as [v|] eqn:En; intros [= <- <-] _.
    + rewrite denote_of. destruct x; cbn [RuleItemSpec.denote over e_get e_arg e_text e_match]; rewrite En; apply same_refl.
    + destruct x; cbn [RuleItemSpec.denote over e_get e_arg e_text e_match]; rewrite En; apply same_opt_refl.
  - intros p l Hp Hl o' ok e. cbn [RuleItemModel.pre_evaluate]. destruct (pre_evaluate n p) as [[p' pok]|] eqn:Ep; [|discriminate]. destruct (pre_seq _) as [[l' lok]|] eqn:El; [|discriminate].
    intros E Hsc. assert (Hscp : scope n p /\ scopes n l) by (destruct Hsc as [Hn|[Hx Hy]]; [split; left; exact Hn|split; right; [exact Hx|apply fold_and; exact Hy]]). destruct Hscp as [Hs1 Hs2].
    specialize (Hp p' pok e eq_refl Hs1). pose proof (Hseq l Hl l' lok e El Hs2) as Hl2. rewrite denote_call. pose proof (dcall_same _ _ _ _ Hp Hl2) as Hd.
    assert (Hcase : (fst (fl_and pok lok) = true /\ exists r, apply p' l' = Some r /\ o' = r) \/ o' = OCall p' l').
    { destruct (fst (fl_and pok lok)) eqn:Ef; [left; split; [reflexivity|]; destruct (apply p' l') as [r|]; [|discriminate]; injection E as <- <-; exists r; split; reflexivity|].
      right. destruct (snd (fl_and pok lok)) eqn:Es; injection E as <- <-; [|reflexivity]. apply andb_true_iff in Es. destruct Es as [Es1 Es2]. rewrite (unchanged n p p' pok Ep Es1), (unchanged_seq n l l' lok El Es2). reflexivity. }
    destruct Hcase as [(Ef & r & Er & ->)| ->]; [|rewrite denote_call; exact Hd].
    eapply same_opt_trans; [exact Hd|]. apply andb_true_iff in Ef. destruct Ef as [Ef1 Ef2].
    assert (Hsp : static p') by (eapply complete_static; eassumption). assert (Hsl : Forall static l') by (assert (Hq : pre_evaluate n (OSeq l) = Some (OSeq l', lok)) by (cbn [RuleItemModel.pre_evaluate]; rewrite El; reflexivity); apply complete_static in Hq; [apply fold_and; exact Hq|exact Ef2]).
    destruct (static_denote e p' Hsp) as [rp Erp]. destruct (static_args e l' Hsl) as [rl Erl].
    unfold dcall. rewrite Erp, <- omap_dseq, Erl, (apply_rcall e p' l' rp rl Hsp Hsl Erp Erl), Er. apply same_opt_refl.
  - intros p l Hp Hl o' ok e. cbn [RuleItemModel.pre_evaluate]. destruct (pre_evaluate n p) as [[p' pok]|] eqn:Ep; [|discriminate].
    intros E Hsc. assert (Hscp : scope n p /\ scopes n l) by (destruct Hsc as [Hn|[Hx Hy]]; [split; left; exact Hn|split; right; [exact Hx|apply fold_and; exact Hy]]). destruct Hscp as [Hs1 Hs2].
    specialize (Hp p' pok e eq_refl Hs1). rewrite denote_select. destruct (fst pok) eqn:Ef.
    + destruct (int_of p') as [i|] eqn:Ei; [|discriminate]. rewrite py_get_map in E. destruct (py_get l i) as [x|] eqn:Eg; [|discriminate]. cbn [option_map] in E. destruct (pre_evaluate n x) as [[it iok]|] eqn:Ex; [|discriminate]. injection E as <- <-.
      assert (Hsp : static p') by (eapply complete_static; eassumption). destruct (static_denote e p' Hsp) as [rp Erp]. rewrite Erp in Hp. destruct (same_opt_some_r _ _ Hp) as (r' & Er' & Hsame).
      rewrite Er'. unfold dselect_. rewrite (same_rint _ _ Hsame), (static_int e p' rp Erp Hsp), Ei, py_get_map, Eg. cbn [option_map].
      rewrite Forall_forall in Hl. eapply Hl; [eapply py_get_in; exact Eg|exact Ex|]. destruct Hs2 as [Hn|Hn]; [left; exact Hn|right]. rewrite Forall_forall in Hn. apply Hn. eapply py_get_in; exact Eg.
    + destruct (pre_seq _) as [[l' lok]|] eqn:El; [|discriminate]. pose proof (dselect_same _ _ _ _ Hp (Hseq l Hl l' lok e El Hs2)) as Hd.
      assert (Eo : o' = OSelect p' l').
      { destruct (snd (fl_and pok lok)) eqn:Es; injection E as <- <-; [|reflexivity]. apply andb_true_iff in Es. destruct Es as [Es1 Es2]. rewrite (unchanged n p p' pok Ep Es1), (unchanged_seq n l l' lok El Es2). reflexivity. }
      rewrite Eo, denote_select. exact Hd.
  - intros p l Hp Hl o' ok e. cbn [RuleItemModel.pre_evaluate]. destruct (pre_evaluate n p) as [[p' pok]|] eqn:Ep; [|discriminate].
    intros E Hsc. assert (Hscp : scope n p /\ scopes n l) by (destruct Hsc as [Hn|[Hx Hy]]; [split; left; exact Hn|split; right; [exact Hx|apply fold_and; exact Hy]]). destruct Hscp as [Hs1 Hs2].
    specialize (Hp p' pok e eq_refl Hs1). rewrite denote_target. destruct (fst pok) eqn:Ef.
    + assert (Hsp : static p') by (eapply complete_static; eassumption).
      destruct (int_of p') as [z|] eqn:Ei.
      * injection E as <- <-. destruct p' as [a| | | | | | | | |]; try discriminate. destruct (same_opt_some_r _ _ Hp) as (r' & Er' & Hsame). rewrite Er'. apply same_atom_r in Hsame. subst r'. cbn [dtarget rint]. cbn [int_of] in Ei. rewrite Ei. cbn [RuleItemSpec.denote]. apply same_refl.
      * destruct p' as [|[|i [|a [|? ?]]]| | | | | | | |]; try discriminate. destruct (int_of i) as [z|] eqn:Ei2; [|discriminate]. cbn [static fold_right] in Hsp. destruct Hsp as (Hsi & Hsa & _).
        destruct (static_denote e i Hsi) as [ri Eri]. destruct (static_denote e a Hsa) as [ra Era].
        rewrite denote_seq in Hp. cbn [map] in Hp. rewrite Eri, Era in Hp. unfold dseq in Hp. cbn [omap] in Hp. destruct (same_opt_some_r _ _ Hp) as (r' & Er' & Hsame). rewrite Er'.
        destruct r' as [|rs| | | |]; try contradiction. cbn [same] in Hsame. apply all2_Forall2 in Hsame. inversion Hsame as [|qi ? ? ? Hqi Hsame2 E3 E4]; subst. inversion Hsame2 as [|qa ? ? ? Hqa Hsame3 E3 E4]; subst. inversion Hsame3; subst.
        change (dtarget (Some (RTup [qi; qa])) ?l) with (dpick qi qa l).
        rewrite py_get_map in E. destruct (py_get l z) as [x|] eqn:Eg; [|discriminate]. cbn [option_map] in E. destruct (pre_evaluate n x) as [[it iok]|] eqn:Ex; [|discriminate].
        assert (Hx : same_opt (denote (over n e) x) (denote e it)).
        { rewrite Forall_forall in Hl. eapply Hl; [eapply py_get_in; exact Eg|exact Ex|]. destruct Hs2 as [Hn|Hn]; [left; exact Hn|right]. rewrite Forall_forall in Hn. apply Hn. eapply py_get_in; exact Eg. }
        assert (Hrz : rint qi = Some z) by (rewrite (same_rint _ _ Hqi), (static_int e i ri Eri Hsi); exact Ei2).
        assert (Hgo : py_get (map (denote (over n e)) l) z = Some (denote (over n e) x)) by (rewrite py_get_map, Eg; reflexivity).
        destruct (fst iok) eqn:Eik.
        -- assert (Hsit : static it) by (eapply complete_static; eassumption). destruct (static_denote e it Hsit) as [rit Erit]. rewrite Erit in Hx. destruct (same_opt_some_r _ _ Hx) as (rx & Erx & Hrx). rewrite Erx in Hgo.
           rewrite (dpick_at qi qa _ z rx Hrz Hgo).
           destruct (@arg_obj_cases (option (obj * flags)) a (Some (it, (true, false))) (match apply it [a] with Some r => Some (r, (true, false)) | None => None end)) as [[Em Ea]|[Em Ea]]; rewrite Em in E.
           ++ injection E as <- <-. subst a. injection Era as <-. apply same_atom_r in Hqa. subst qa. destruct (arg_none_dec (RAtom ANone)) as [_|Hne]; [|congruence]. rewrite Erit. exact Hrx.
           ++ destruct (apply it [a]) as [r|] eqn:Er; [|discriminate]. injection E as <- <-.
              destruct (arg_none_dec qa) as [Eq|_]; [exfalso; subst qa; apply same_sym in Hqa; apply same_atom_r in Hqa; subst ra; apply Ea; apply (static_none e); assumption|].
              rewrite (rcall_same rx rit [qa] [ra] Hrx) by (constructor; [exact Hqa|constructor]).
              rewrite (apply_rcall e it [a] rit [ra] Hsit) ; [rewrite Er; apply same_opt_refl|constructor; [exact Hsa|constructor]|exact Erit|cbn [omap]; rewrite Era; reflexivity].
        -- injection E as <- <-. rewrite denote_target, denote_seq. cbn [map]. rewrite Era. cbn [RuleItemSpec.denote dseq omap].
           change (dtarget (Some (RTup [RAtom (AInt 0); ra])) [denote e it]) with (dpick (RAtom (AInt 0)) ra [denote e it]).
           unfold dpick. rewrite Hrz, Hgo. cbn [rint as_int py_get Z.leb nth_error Z.to_nat]. change (py_get [denote e it] 0) with (Some (denote e it)). cbv iota beta.
           destruct (denote (over n e) x) as [rx|], (denote e it) as [rit|]; cbn [same_opt] in Hx; try contradiction; [|exact I]. rewrite !arg_cases.
           destruct (arg_none_dec qa) as [Eq|Eq], (arg_none_dec ra) as [Eq'|Eq'].
           ++ exact Hx.
           ++ exfalso. apply Eq'. apply (same_none_iff _ _ Hqa). exact Eq.
           ++ exfalso. apply Eq. apply (same_none_iff _ _ Hqa). exact Eq'.
           ++ rewrite (rcall_same rx rit [qa] [ra] Hx); [apply same_opt_refl|constructor; [exact Hqa|constructor]].
    + destruct (pre_seq _) as [[l' lok]|] eqn:El; [|discriminate]. pose proof (dtarget_same _ _ _ _ Hp (Hseq l Hl l' lok e El Hs2)) as Hd.
      assert (Eo : o' = OTarget p' l').
      { destruct (snd (fl_and pok lok)) eqn:Es; injection E as <- <-; [|reflexivity]. apply andb_true_iff in Es. destruct Es as [Es1 Es2]. rewrite (unchanged n p p' pok Ep Es1), (unchanged_seq n l l' lok El Es2). reflexivity. }
      rewrite Eo, denote_target. exact Hd.
  - intros v Hv o' ok e. cbn [RuleItemModel.pre_evaluate]. destruct (pre_evaluate n v) as [[v' vok]|] eqn:Ev; [|discriminate]. intros E Hsc.
    assert (Eo : o' = OPattern v') by (destruct (snd vok) eqn:Es; injection E as <- <-; [rewrite (unchanged n v v' vok Ev Es); reflexivity|reflexivity]). rewrite Eo.
    assert (Hs : scope n v) by (destruct Hsc as [Hn|[]]; left; exact Hn). specialize (Hv v' vok e eq_refl Hs). cbn [RuleItemSpec.denote]. destruct (denote (over n e) v), (denote e v'); cbn [same_opt] in Hv; try contradiction; [exact Hv|exact I].
  - intros l Hl o' ok e. cbn [RuleItemModel.pre_evaluate]. destruct (pre_seq _) as [[l' lok]|] eqn:El; [|discriminate]. intros E Hsc.
    assert (Eo : o' = OSub l') by (destruct (snd lok) eqn:Es; injection E as <- <-; [rewrite (unchanged_seq n l l' lok El Es); reflexivity|reflexivity]). rewrite Eo.
    assert (Hn : n VText = None /\ n VMatch = None) by (destruct Hsc as [Hn|[]]; exact Hn). apply dsub_same. apply pre_seq_inv in El. eapply Forall2_imp_in; [exact Hl|exact El|].
    intros a b Ha (okx & E1 & _ & _) t m. specialize (Ha b okx (Env (e_arg e) (Some t) (Some m)) E1 (or_introl Hn)). unfold over in *. destruct Hn as [Hn1 Hn2]. cbn [e_arg e_text e_match] in *. rewrite Hn1, Hn2 in Ha. exact Ha.
  - intros v Hv o' ok e. cbn [RuleItemModel.pre_evaluate]. destruct (pre_evaluate n v) as [[v' vok]|] eqn:Ev; [|discriminate]. intros E Hsc.
    assert (Eo : o' = ODelegate v') by (destruct (snd vok) eqn:Es; injection E as <- <-; [rewrite (unchanged n v v' vok Ev Es); reflexivity|reflexivity]). rewrite Eo.
    assert (Hs : scope n v) by (destruct Hsc as [Hn|[]]; left; exact Hn). specialize (Hv v' vok e eq_refl Hs). cbn [RuleItemSpec.denote]. destruct (denote (over n e) v), (denote e v'); cbn [same_opt] in Hv; try contradiction; [exact Hv|exact I].
  - intros o' ok e [= <- <-] _. exact I.
Qed.

(** ** Which objects pre-evaluation gives *)
Section Preserve.
Variables (P Q : obj -> Prop) (n : ns).
Lemma apply_of (Hof : forall v, Q (of_pv v)) p l r : apply p l = Some r -> Q r.
Proof. unfold RuleItemModel.apply. destruct (to_pv p); [|discriminate]. destruct (omap to_pv l); [|discriminate]. destruct (call_pv _ _ _ _ _); [|discriminate]. intros [= <-]. apply Hof. Qed.
Lemma preserve_seq l : Forall (fun o => forall o' ok, pre_evaluate n o = Some (o', ok) -> P o -> Q o') l ->
  forall l' ok, pre_seq (map (pre_evaluate n) l) = Some (l', ok) -> Forall P l -> Forall Q l'.
Proof.
  intros Hl l' ok E HP. apply pre_seq_inv in E. revert Hl HP. induction E as [|a b l l' (okx & E1 & _ & _) _ IH]; intros Hl HP; [constructor|]. inversion Hl as [|? ? Ha Hl']; subst. inversion HP; subst. constructor; [eapply Ha; eassumption|apply IH; assumption].
Qed.
End Preserve.
(** What [pre_evaluate] does, as a case distinction. *)
Lemma pre_call_cases n p l o' ok : pre_evaluate n (OCall p l) = Some (o', ok) ->
  exists p' pok l' lok, pre_evaluate n p = Some (p', pok) /\ pre_seq (map (pre_evaluate n) l) = Some (l', lok) /\
    ((fst pok = true /\ fst lok = true /\ apply p' l' = Some o' /\ fst ok = true) \/ (fst pok && fst lok = false /\ o' = OCall p' l' /\ fst ok = false)).
Proof.
  cbn [RuleItemModel.pre_evaluate]. destruct (pre_evaluate n p) as [[p' pok]|] eqn:Ep; [|discriminate]. destruct (pre_seq _) as [[l' lok]|] eqn:El; [|discriminate]. intros E. exists p', pok, l', lok. split; [reflexivity|]. split; [reflexivity|].
  destruct (fst (fl_and pok lok)) eqn:Ef.
  - left. apply andb_true_iff in Ef. destruct Ef as [Ef1 Ef2]. destruct (apply p' l') as [r|]; [|discriminate]. injection E as <- <-. auto.
  - right. split; [exact Ef|]. destruct (snd (fl_and pok lok)) eqn:Es; injection E as <- <-; [|auto]. apply andb_true_iff in Es. destruct Es as [Es1 Es2]. rewrite (unchanged n p p' pok Ep Es1), (unchanged_seq n l l' lok El Es2). auto.
Qed.
Lemma pre_select_cases n p l o' ok : pre_evaluate n (OSelect p l) = Some (o', ok) ->
  exists p' pok, pre_evaluate n p = Some (p', pok) /\
    ((fst pok = true /\ exists i x okx, int_of p' = Some i /\ py_get l i = Some x /\ pre_evaluate n x = Some (o', okx) /\ fst ok = fst okx) \/
     (fst pok = false /\ exists l' lok, pre_seq (map (pre_evaluate n) l) = Some (l', lok) /\ o' = OSelect p' l' /\ fst ok = false)).
Proof.
  cbn [RuleItemModel.pre_evaluate]. destruct (pre_evaluate n p) as [[p' pok]|] eqn:Ep; [|discriminate]. intros E. exists p', pok. split; [reflexivity|]. destruct (fst pok) eqn:Ef.
  - left. split; [reflexivity|]. destruct (int_of p') as [i|] eqn:Ei; [|discriminate]. rewrite py_get_map in E. destruct (py_get l i) as [x|] eqn:Eg; [|discriminate]. cbn [option_map] in E. destruct (pre_evaluate n x) as [[it iok]|] eqn:Ex; [|discriminate]. injection E as <- <-. exists i, x, iok. auto.
  - right. split; [reflexivity|]. destruct (pre_seq _) as [[l' lok]|] eqn:El; [|discriminate]. exists l', lok. split; [reflexivity|].
    destruct (snd (fl_and pok lok)) eqn:Es; injection E as <- <-; [|auto]. apply andb_true_iff in Es. destruct Es as [Es1 Es2]. rewrite (unchanged n p p' pok Ep Es1), (unchanged_seq n l l' lok El Es2). auto.
Qed.
Lemma pre_target_cases n p l o' ok : pre_evaluate n (OTarget p l) = Some (o', ok) ->
  exists p' pok, pre_evaluate n p = Some (p', pok) /\
    ((fst pok = true /\ o' = p' /\ fst ok = true) \/
     (fst pok = true /\ exists i a z x it okx, p' = OSeq [i; a] /\ int_of i = Some z /\ py_get l z = Some x /\ pre_evaluate n x = Some (it, okx) /\
        ((fst okx = true /\ (o' = it \/ apply it [a] = Some o') /\ fst ok = true) \/ (fst okx = false /\ o' = OTarget (OSeq [OAtom (AInt 0); a]) [it] /\ fst ok = false))) \/
     (fst pok = false /\ exists l' lok, pre_seq (map (pre_evaluate n) l) = Some (l', lok) /\ o' = OTarget p' l' /\ fst ok = false)).
Proof.
  cbn [RuleItemModel.pre_evaluate]. destruct (pre_evaluate n p) as [[p' pok]|] eqn:Ep; [|discriminate]. intros E. exists p', pok. split; [reflexivity|]. destruct (fst pok) eqn:Ef.
  - destruct (int_of p') as [z|] eqn:Ei; [left; injection E as <- <-; auto|]. right. left. split; [reflexivity|].
    destruct p' as [|[|i [|a [|? ?]]]| | | | | | | |]; try discriminate. destruct (int_of i) as [z|] eqn:Ei2; [|discriminate]. rewrite py_get_map in E. destruct (py_get l z) as [x|] eqn:Eg; [|discriminate]. cbn [option_map] in E. destruct (pre_evaluate n x) as [[it iok]|] eqn:Ex; [|discriminate].
    exists i, a, z, x, it, iok. split; [reflexivity|]. split; [exact Ei2|]. split; [exact Eg|]. split; [exact Ex|]. destruct (fst iok); [left|right; injection E as <- <-; auto]. split; [reflexivity|].
    destruct (@arg_obj_cases (option (obj * flags)) a (Some (it, (true, false))) (match apply it [a] with Some r => Some (r, (true, false)) | None => None end)) as [[Em Ea]|[Em Ea]]; rewrite Em in E; [injection E as <- <-; auto|]. destruct (apply it [a]); [|discriminate]. injection E as <- <-. auto.
  - right. right. split; [reflexivity|]. destruct (pre_seq _) as [[l' lok]|] eqn:El; [|discriminate]. exists l', lok. split; [reflexivity|].
    destruct (snd (fl_and pok lok)) eqn:Es; injection E as <- <-; (split; [|cbn [fl_and fst]; rewrite Ef; reflexivity]); [|reflexivity]. apply andb_true_iff in Es. destruct Es as [Es1 Es2]. rewrite (unchanged n p p' pok Ep Es1), (unchanged_seq n l l' lok El Es2). reflexivity.
Qed.
Lemma pre_pattern_cases n v o' ok : pre_evaluate n (OPattern v) = Some (o', ok) -> exists v', pre_evaluate n v = Some (v', ok) /\ o' = OPattern v'.
Proof.
  cbn [RuleItemModel.pre_evaluate]. destruct (pre_evaluate n v) as [[v' vok]|] eqn:Ev; [|discriminate]. intros E. injection E as <- <-. exists v'. split; [reflexivity|]. destruct (snd vok) eqn:Es; [rewrite (unchanged n v v' vok Ev Es)|]; reflexivity.
Qed.
Lemma pre_delegate_cases n v o' ok : pre_evaluate n (ODelegate v) = Some (o', ok) -> exists v', pre_evaluate n v = Some (v', ok) /\ o' = ODelegate v'.
Proof.
  cbn [RuleItemModel.pre_evaluate]. destruct (pre_evaluate n v) as [[v' vok]|] eqn:Ev; [|discriminate]. intros E. injection E as <- <-. exists v'. split; [reflexivity|]. destruct (snd vok) eqn:Es; [rewrite (unchanged n v v' vok Ev Es)|]; reflexivity.
Qed.
Lemma pre_sub_cases n l o' ok : pre_evaluate n (OSub l) = Some (o', ok) -> exists l', pre_seq (map (pre_evaluate n) l) = Some (l', ok) /\ o' = OSub l'.
Proof.
  cbn [RuleItemModel.pre_evaluate]. destruct (pre_seq _) as [[l' lok]|] eqn:El; [|discriminate]. intros E. injection E as <- <-. exists l'. split; [reflexivity|]. destruct (snd lok) eqn:Es; [rewrite (unchanged_seq n l l' lok El Es)|]; reflexivity.
Qed.
Lemma pre_seq_cases n l o' ok : pre_evaluate n (OSeq l) = Some (o', ok) -> exists l', pre_seq (map (pre_evaluate n) l) = Some (l', ok) /\ o' = OSeq l'.
Proof. cbn [RuleItemModel.pre_evaluate]. destruct (pre_seq _) as [[l' lok]|]; [|discriminate]. intros E. injection E as <- <-. exists l'. auto. Qed.

Lemma of_known k : forall v, known k (of_pv v).
Proof. refine (pv_ind' _ _ _); [intros; exact I|]. intros l H. cbn [of_pv known]. apply fold_and. apply Forall_map. exact H. Qed.
Lemma of_no_post : forall v, no_post (of_pv v).
Proof. refine (pv_ind' _ _ _); [intros; exact I|]. intros l H. cbn [of_pv no_post]. apply fold_and. apply Forall_map. exact H. Qed.
Lemma of_item_ok : forall v, item_ok (of_pv v).
Proof. refine (pv_ind' _ _ _); [intros; exact I|]. intros l H. cbn [of_pv item_ok]. apply fold_and. apply Forall_map. exact H. Qed.
Lemma of_using_ok : forall v, using_ok (of_pv v).
Proof. refine (pv_ind' _ _ _); [intros; exact I|]. intros l H. cbn [of_pv using_ok]. apply fold_and. apply Forall_map. exact H. Qed.

Lemma pre_known n k k' : (forall x, k x = true -> n x = None -> k' x = true) -> forall o o' ok, pre_evaluate n o = Some (o', ok) -> known k o -> known k' o'.
Proof.
  intros Hk. pose proof (preserve_seq (known k) (known k') n) as Hseq.
  refine (obj_ind' _ _ _ _ _ _ _ _ _ _ _).
  - intros a o' ok [= <- <-] _. exact I.
  - intros l Hl o' ok E H. destruct (pre_seq_cases _ _ _ _ E) as (l' & El & ->). cbn [known] in *. apply fold_and in H. apply fold_and. eapply Hseq; eassumption.
  - intros x o' ok E H. cbn [RuleItemModel.pre_evaluate] in E. destruct (n x) eqn:En; injection E as <- <-; [apply of_known|]. exact (Hk x H En).
  - intros p l Hp Hl o' ok E [H1 H2]. destruct (pre_call_cases _ _ _ _ _ E) as (p' & pok & l' & lok & Ep & El & [(_ & _ & Ea & _)|(_ & -> & _)]); [exact (apply_of (known k') (of_known k') _ _ _ Ea)|].
    split; [eapply Hp; eassumption|]. apply fold_and. apply fold_and in H2. eapply Hseq; eassumption.
  - intros p l Hp Hl o' ok E [H1 H2]. apply fold_and in H2. destruct (pre_select_cases _ _ _ _ _ E) as (p' & pok & Ep & [(_ & i & x & okx & _ & Eg & Ex & _)|(_ & l' & lok & El & -> & _)]).
    + apply py_get_in in Eg. rewrite Forall_forall in Hl, H2. eapply Hl; [exact Eg|exact Ex|apply H2, Eg].
    + split; [eapply Hp; eassumption|]. apply fold_and. eapply Hseq; eassumption.
  - intros p l Hp Hl o' ok E [H1 H2]. apply fold_and in H2. destruct (pre_target_cases _ _ _ _ _ E) as (p' & pok & Ep & [(_ & -> & _)|[(_ & i & a & z & x & it & okx & -> & _ & Eg & Ex & Hc)|(_ & l' & lok & El & -> & _)]]).
    + eapply Hp; eassumption.
    + specialize (Hp _ _ Ep H1). cbn [known fold_right] in Hp. apply py_get_in in Eg. rewrite Forall_forall in Hl, H2. pose proof (Hl x Eg it okx Ex (H2 x Eg)) as Hit. destruct Hc as [(_ & [-> |Ea] & _)|(_ & -> & _)]; [exact Hit|exact (apply_of (known k') (of_known k') _ _ _ Ea)|]. cbn [known fold_right]. tauto.
    + split; [eapply Hp; eassumption|]. apply fold_and. eapply Hseq; eassumption.
  - intros v Hv o' ok E H. destruct (pre_pattern_cases _ _ _ _ E) as (v' & Ev & ->). exact (Hv v' ok Ev H).
  - intros l Hl o' ok E H. destruct (pre_sub_cases _ _ _ _ E) as (l' & El & ->). cbn [known] in *. apply fold_and in H. apply fold_and. eapply Hseq; eassumption.
  - intros v Hv o' ok E H. destruct (pre_delegate_cases _ _ _ _ E) as (v' & Ev & ->). exact (Hv v' ok Ev H).
  - intros o' ok [= <- <-] _. exact I.
Qed.
Lemma pre_no_post n : forall o o' ok, pre_evaluate n o = Some (o', ok) -> no_post o -> no_post o'.
Proof.
  pose proof (preserve_seq no_post no_post n) as Hseq.
  refine (obj_ind' _ _ _ _ _ _ _ _ _ _ _); try (intros; contradiction).
  - intros a o' ok [= <- <-] _. exact I.
  - intros l Hl o' ok E H. destruct (pre_seq_cases _ _ _ _ E) as (l' & El & ->). cbn [no_post] in *. apply fold_and in H. apply fold_and. eapply Hseq; eassumption.
  - intros x o' ok E H. cbn [RuleItemModel.pre_evaluate] in E. destruct (n x) eqn:En; injection E as <- <-; [apply of_no_post|exact I].
  - intros p l Hp Hl o' ok E [H1 H2]. destruct (pre_call_cases _ _ _ _ _ E) as (p' & pok & l' & lok & Ep & El & [(_ & _ & Ea & _)|(_ & -> & _)]); [exact (apply_of no_post of_no_post _ _ _ Ea)|].
    split; [eapply Hp; eassumption|]. apply fold_and. apply fold_and in H2. eapply Hseq; eassumption.
  - intros p l Hp Hl o' ok E [H1 H2]. apply fold_and in H2. destruct (pre_select_cases _ _ _ _ _ E) as (p' & pok & Ep & [(_ & i & x & okx & _ & Eg & Ex & _)|(_ & l' & lok & El & -> & _)]).
    + apply py_get_in in Eg. rewrite Forall_forall in Hl, H2. eapply Hl; [exact Eg|exact Ex|apply H2, Eg].
    + split; [eapply Hp; eassumption|]. apply fold_and. eapply Hseq; eassumption.
  - intros p l Hp Hl o' ok E [H1 H2]. apply fold_and in H2. destruct (pre_target_cases _ _ _ _ _ E) as (p' & pok & Ep & [(_ & -> & _)|[(_ & i & a & z & x & it & okx & -> & _ & Eg & Ex & Hc)|(_ & l' & lok & El & -> & _)]]).
    + eapply Hp; eassumption.
    + specialize (Hp _ _ Ep H1). cbn [no_post fold_right] in Hp. apply py_get_in in Eg. rewrite Forall_forall in Hl, H2. pose proof (Hl x Eg it okx Ex (H2 x Eg)) as Hit. destruct Hc as [(_ & [-> |Ea] & _)|(_ & -> & _)]; [exact Hit|exact (apply_of no_post of_no_post _ _ _ Ea)|]. cbn [no_post fold_right]. tauto.
    + split; [eapply Hp; eassumption|]. apply fold_and. eapply Hseq; eassumption.
Qed.
Lemma pre_no_posts n l l' ok : pre_seq (map (pre_evaluate n) l) = Some (l', ok) -> Forall no_post l -> Forall no_post l'.
Proof. intros E H. eapply preserve_seq; [|exact E|exact H]. apply Forall_forall. intros o _. apply pre_no_post. Qed.
Lemma pre_item_ok n : forall o o' ok, pre_evaluate n o = Some (o', ok) -> item_ok o -> item_ok o'.
Proof.
  pose proof (preserve_seq item_ok item_ok n) as Hseq.
  refine (obj_ind' _ _ _ _ _ _ _ _ _ _ _); try (intros; contradiction).
  - intros a o' ok [= <- <-] _. exact I.
  - intros l Hl o' ok E H. destruct (pre_seq_cases _ _ _ _ E) as (l' & El & ->). cbn [item_ok] in *. apply fold_and in H. apply fold_and. eapply Hseq; eassumption.
  - intros p l Hp Hl o' ok E [H1 H2]. apply fold_and in H2. destruct (pre_select_cases _ _ _ _ _ E) as (p' & pok & Ep & [(_ & i & x & okx & _ & Eg & Ex & _)|(_ & l' & lok & El & -> & _)]).
    + apply py_get_in in Eg. rewrite Forall_forall in Hl, H2. eapply Hl; [exact Eg|exact Ex|apply H2, Eg].
    + split; [eapply pre_no_post; eassumption|]. apply fold_and. eapply Hseq; eassumption.
  - intros p l Hp Hl o' ok E [H1 H2]. apply fold_and in H2. pose proof (pre_target_cases _ _ _ _ _ E) as (p' & pok & Ep & [(Ef & -> & _)|[(_ & i & a & z & x & it & okx & -> & _ & Eg & Ex & Hc)|(_ & l' & lok & El & -> & _)]]).
    + pose proof (complete_static n _ _ _ Ep Ef) as Hs. pose proof (pre_no_post n _ _ _ Ep H1) as Hn. clear - Hs Hn. revert p' Hs Hn. refine (obj_ind' _ _ _ _ _ _ _ _ _ _ _); try (intros; contradiction); [intros; exact I|].
      intros l Hl Hs Hn. cbn [static no_post item_ok] in *. apply fold_and in Hs. apply fold_and in Hn. apply fold_and. rewrite Forall_forall in *. intros o Ho. apply Hl; auto.
    + pose proof (pre_no_post n _ _ _ Ep H1) as Hnp. cbn [no_post fold_right] in Hnp. apply py_get_in in Eg. rewrite Forall_forall in H2. pose proof (pre_no_post n x it okx Ex (H2 x Eg)) as Hit. destruct Hc as [(Efx & [-> |Ea] & _)|(_ & -> & _)]; [|exact (apply_of item_ok of_item_ok _ _ _ Ea)|cbn [item_ok no_post fold_right]; tauto].
      pose proof (complete_static n _ _ _ Ex Efx) as Hs. clear - Hs Hit. revert it Hs Hit. refine (obj_ind' _ _ _ _ _ _ _ _ _ _ _); try (intros; contradiction); [intros; exact I|].
      intros l Hl Hs Hn. cbn [static no_post item_ok] in *. apply fold_and in Hs. apply fold_and in Hn. apply fold_and. rewrite Forall_forall in *. intros o Ho. apply Hl; auto.
    + split; [eapply pre_no_post; eassumption|]. apply fold_and. eapply pre_no_posts; eassumption.
  - intros v Hv o' ok E H. destruct (pre_pattern_cases _ _ _ _ E) as (v' & Ev & ->). exact (pre_no_post n v v' ok Ev H).
  - intros l Hl o' ok E H. destruct (pre_sub_cases _ _ _ _ E) as (l' & El & ->). cbn [item_ok] in *. apply fold_and in H. apply fold_and. eapply Hseq; eassumption.
  - intros v Hv o' ok E H. destruct (pre_delegate_cases _ _ _ _ E) as (v' & Ev & ->). exact (pre_no_post n v v' ok Ev H).
  - intros o' ok [= <- <-] _. exact I.
Qed.
Lemma no_post_using : forall o, no_post o -> using_ok o.
Proof.
  refine (obj_ind' _ _ _ _ _ _ _ _ _ _ _); try (intros; exact I); try (intros; contradiction).
  - intros l Hl H. cbn [no_post using_ok] in *. apply fold_and in H. apply fold_and. rewrite Forall_forall in *. auto.
  - intros p l _ Hl [_ H]. cbn [using_ok]. apply fold_and in H. apply fold_and. rewrite Forall_forall in *. auto.
Qed.
Lemma pre_using_ok n : forall o o' ok, pre_evaluate n o = Some (o', ok) -> item_ok o -> using_ok o -> using_ok o'.
Proof.
  assert (Hseq : forall l, Forall (fun o => forall o' ok, pre_evaluate n o = Some (o', ok) -> item_ok o -> using_ok o -> using_ok o') l -> forall l' ok, pre_seq (map (pre_evaluate n) l) = Some (l', ok) -> Forall item_ok l -> Forall using_ok l -> Forall using_ok l').
  { intros l Hl l' ok E HP HQ. apply pre_seq_inv in E. revert Hl HP HQ. induction E as [|a b l l' (okx & E1 & _ & _) _ IH]; intros Hl HP HQ; [constructor|]. inversion Hl as [|? ? Ha Hl']; subst. inversion HP; subst. inversion HQ; subst. constructor; [eapply Ha; eassumption|apply IH; assumption]. }
  refine (obj_ind' _ _ _ _ _ _ _ _ _ _ _); try (intros; contradiction).
  - intros a o' ok [= <- <-] _ _. exact I.
  - intros l Hl o' ok E H1 H2. destruct (pre_seq_cases _ _ _ _ E) as (l' & El & ->). cbn [item_ok using_ok] in *. apply fold_and in H1. apply fold_and in H2. apply fold_and. eapply Hseq; eassumption.
  - intros p l Hp Hl o' ok E [H0 H1] H2. cbn [using_ok] in H2. apply fold_and in H1. apply fold_and in H2. destruct (pre_select_cases _ _ _ _ _ E) as (p' & pok & Ep & [(_ & i & x & okx & _ & Eg & Ex & _)|(_ & l' & lok & El & -> & _)]).
    + apply py_get_in in Eg. rewrite Forall_forall in Hl, H1, H2. eapply Hl; [exact Eg|exact Ex|apply H1, Eg|apply H2, Eg].
    + cbn [using_ok]. apply fold_and. eapply Hseq; eassumption.
  - intros p l _ _ o' ok E [H0 H1] _. apply no_post_using. eapply pre_no_post; [exact E|]. split; assumption.
  - intros v Hv o' ok E _ H. destruct (pre_pattern_cases _ _ _ _ E) as (v' & Ev & ->). exact (pre_item_ok n v v' ok Ev H).
  - intros l Hl o' ok E H1 H2. destruct (pre_sub_cases _ _ _ _ E) as (l' & El & ->). cbn [item_ok using_ok] in *. apply fold_and in H1. apply fold_and in H2. apply fold_and. eapply Hseq; eassumption.
  - intros v Hv o' ok E _ H. destruct (pre_delegate_cases _ _ _ _ E) as (v' & Ev & ->). exact (pre_item_ok n v v' ok Ev H).
  - intros o' ok [= <- <-] _ _. exact I.
Qed.

(** ** Evaluating when everything is known *)
Definition knows (n : ns) (x : var) : bool := match n x with Some _ => true | None => false end.
(** Patterns, and lexicons in [using], have no postponed items in them. *)
Fixpoint inner_ok (o : obj) : Prop :=
  match o with
  | OAtom _ | OVar _ | OSkip | OSub _ => True
  | OSeq l => fold_right (fun o P => inner_ok o /\ P) True l
  | OCall p l | OSelect p l | OTarget p l => inner_ok p /\ fold_right (fun o P => inner_ok o /\ P) True l
  | OPattern v | ODelegate v => no_post v
  end.
Lemma no_post_inner : forall o, no_post o -> inner_ok o.
Proof.
  assert (Hl : forall l, Forall (fun o => no_post o -> inner_ok o) l -> fold_right (fun o P => no_post o /\ P) True l -> fold_right (fun o P => inner_ok o /\ P) True l).
  { intros l H1 H2. apply fold_and in H2. apply fold_and. rewrite Forall_forall in *. auto. }
  refine (obj_ind' _ _ _ _ _ _ _ _ _ _ _); try (intros; exact I); try (intros; contradiction).
  - intros l H H2. apply Hl; assumption.
  - intros p l Hp H [H1 H2]. split; auto.
  - intros p l Hp H [H1 H2]. split; auto.
  - intros p l Hp H [H1 H2]. split; auto.
Qed.
Lemma item_inner : forall o, item_ok o -> inner_ok o.
Proof.
  assert (Hl : forall l, Forall (fun o => item_ok o -> inner_ok o) l -> fold_right (fun o P => item_ok o /\ P) True l -> fold_right (fun o P => inner_ok o /\ P) True l).
  { intros l H1 H2. apply fold_and in H2. apply fold_and. rewrite Forall_forall in *. auto. }
  refine (obj_ind' _ _ _ _ _ _ _ _ _ _ _); try (intros; exact I); try (intros; contradiction).
  - intros l H H2. apply Hl; assumption.
  - intros p l Hp H [H1 H2]. split; [apply no_post_inner; exact H1|auto].
  - intros p l Hp H [H1 H2]. split; [apply no_post_inner; exact H1|]. apply fold_and in H2. apply fold_and. rewrite Forall_forall in *. intros o Ho. apply no_post_inner. auto.
  - intros v _ H. exact H.
  - intros v _ H. exact H.
Qed.

(** Pre-evaluating is complete then, and fails only if there is no value. *)
Lemma pre_known_all n e : forall o, no_post o -> known (knows n) o ->
  match pre_evaluate n o with Some (o', ok) => fst ok = true | None => denote (over n e) o = None end.
Proof.
  assert (Hseq : forall l, Forall (fun o => no_post o -> known (knows n) o -> match pre_evaluate n o with Some (o', ok) => fst ok = true | None => denote (over n e) o = None end) l ->
     Forall no_post l -> Forall (known (knows n)) l -> match pre_seq (map (pre_evaluate n) l) with Some (l', ok) => fst ok = true | None => dseq (map (denote (over n e)) l) = None end).
  { intros l H. induction H as [|o l Ho _ IH]; intros H1 H2; [reflexivity|]. inversion H1; subst. inversion H2; subst. cbn [map pre_seq]. specialize (Ho ltac:(assumption) ltac:(assumption)). specialize (IH ltac:(assumption) ltac:(assumption)).
    destruct (pre_evaluate n o) as [[o' ok]|]; [|unfold dseq; rewrite omap_cons, Ho; reflexivity]. destruct (pre_seq _) as [[l' lok]|]; [cbn [fl_and fst]; rewrite Ho, IH; reflexivity|]. unfold dseq in *. rewrite omap_cons, IH. destruct (denote _ o); reflexivity. }
  refine (obj_ind' _ _ _ _ _ _ _ _ _ _ _); try (intros; contradiction).
  - reflexivity.
  - intros l Hl H1 H2. cbn [no_post known] in *. apply fold_and in H1. apply fold_and in H2. specialize (Hseq l Hl H1 H2). cbn [RuleItemModel.pre_evaluate]. rewrite denote_seq. destruct (pre_seq _) as [[l' lok]|]; [exact Hseq|rewrite Hseq; reflexivity].
  - intros x _ H. cbn [known] in H. unfold knows in H. cbn [RuleItemModel.pre_evaluate]. destruct (n x); [reflexivity|discriminate].
  - intros p l Hp Hl [H1 H2] [H3 H4]. apply fold_and in H2. apply fold_and in H4. specialize (Hseq l Hl H2 H4). specialize (Hp H1 H3). pose proof (pre_keep n) as Hk. rewrite denote_call.
    destruct (pre_evaluate n (OCall p l)) as [[o' ok]|] eqn:E.
    + destruct (pre_call_cases _ _ _ _ _ E) as (p' & pok & l' & lok & Ep & El & [(_ & _ & _ & Ec)|(Ec & _ & _)]); [exact Ec|]. rewrite Ep in Hp. rewrite El in Hseq. rewrite Hp, Hseq in Ec. discriminate.
    + cbn [RuleItemModel.pre_evaluate] in E. destruct (pre_evaluate n p) as [[p' pok]|] eqn:Ep; [|unfold dcall; rewrite Hp; reflexivity]. destruct (pre_seq _) as [[l' lok]|] eqn:El; [|unfold dcall; rewrite Hseq; destruct (denote (over n e) p); reflexivity].
      cbn [fl_and fst] in E. rewrite Hp, Hseq in E. cbn [andb] in E. destruct (apply p' l') as [r|] eqn:Er; [discriminate|].
      assert (Hsp : static p') by (eapply complete_static; eassumption). assert (Eq : pre_evaluate n (OSeq l) = Some (OSeq l', lok)) by (cbn [RuleItemModel.pre_evaluate]; rewrite El; reflexivity).
      assert (Hsl : Forall static l') by (apply complete_static in Eq; [apply fold_and; exact Eq|exact Hseq]).
      pose proof (Hk p p' pok e Ep (or_intror H1)) as K1. assert (K2 : same_opt (denote (over n e) (OSeq l)) (denote e (OSeq l'))) by (eapply Hk; [exact Eq|right; apply fold_and; exact H2]).
      destruct (static_denote e p' Hsp) as [rp Erp]. destruct (static_args e l' Hsl) as [rl Erl]. rewrite Erp in K1. destruct (same_opt_some_r _ _ K1) as (r1 & E1 & S1).
      rewrite !denote_seq, <- (omap_dseq (denote e)), Erl in K2. destruct (dseq (map (denote (over n e)) l)) as [r2|] eqn:E2; [|contradiction]. cbn [same_opt same] in K2. apply all2_Forall2 in K2.
      unfold dcall. rewrite E1, E2, (rcall_same r1 rp r2 rl S1 K2), (apply_rcall e p' l' rp rl Hsp Hsl Erp Erl), Er. reflexivity.
  - intros p l Hp Hl [H1 H2] [H3 H4]. apply fold_and in H2. apply fold_and in H4. specialize (Hp H1 H3). rewrite denote_select.
    destruct (pre_evaluate n (OSelect p l)) as [[o' ok]|] eqn:E.
    + destruct (pre_select_cases _ _ _ _ _ E) as (p' & pok & Ep & [(_ & i & x & okx & _ & Eg & Ex & ->)|(Ef & _)]); [|rewrite Ep in Hp; congruence].
      apply py_get_in in Eg. rewrite Forall_forall in *. specialize (Hl x Eg (H2 x Eg) (H4 x Eg)). rewrite Ex in Hl. exact Hl.
    + cbn [RuleItemModel.pre_evaluate] in E. destruct (pre_evaluate n p) as [[p' pok]|] eqn:Ep; [|unfold dselect_; rewrite Hp; reflexivity]. rewrite Hp in E.
      assert (Hsp : static p') by (eapply complete_static; eassumption). destruct (static_denote e p' Hsp) as [rp Erp]. pose proof (pre_keep n p p' pok e Ep (or_intror H1)) as K1. rewrite Erp in K1. destruct (same_opt_some_r _ _ K1) as (r1 & E1 & S1).
      unfold dselect_. rewrite E1, (same_rint _ _ S1), (static_int e p' rp Erp Hsp). destruct (int_of p') as [i|]; [|reflexivity]. rewrite py_get_map in E. rewrite py_get_map. destruct (py_get l i) as [x|] eqn:Eg; [|reflexivity]. cbn [option_map] in *.
      apply py_get_in in Eg. rewrite Forall_forall in *. specialize (Hl x Eg (H2 x Eg) (H4 x Eg)). destruct (pre_evaluate n x) as [[it iok]|]; [discriminate|exact Hl].
  - intros p l Hp Hl [H1 H2] [H3 H4]. apply fold_and in H2. apply fold_and in H4. specialize (Hp H1 H3). rewrite denote_target.
    destruct (pre_evaluate n (OTarget p l)) as [[o' ok]|] eqn:E.
    + destruct (pre_target_cases _ _ _ _ _ E) as (p' & pok & Ep & [(_ & _ & Ec)|[(_ & i & a & z & x & it & okx & -> & _ & Eg & Ex & Hc)|(Ef & _)]]); [exact Ec| |rewrite Ep in Hp; congruence].
      apply py_get_in in Eg. rewrite Forall_forall in *. specialize (Hl x Eg (H2 x Eg) (H4 x Eg)). rewrite Ex in Hl. destruct Hc as [(_ & _ & Ec)|(Ec & _)]; [exact Ec|congruence].
    + cbn [RuleItemModel.pre_evaluate] in E. destruct (pre_evaluate n p) as [[p' pok]|] eqn:Ep; [|unfold dtarget; rewrite Hp; reflexivity]. rewrite Hp in E.
      assert (Hsp : static p') by (eapply complete_static; eassumption). destruct (static_denote e p' Hsp) as [rp Erp]. pose proof (pre_keep n p p' pok e Ep (or_intror H1)) as K1. rewrite Erp in K1. destruct (same_opt_some_r _ _ K1) as (r1 & E1 & S1). rewrite E1.
      destruct (int_of p') as [z|] eqn:Ei; [discriminate|].
      assert (Hint : rint r1 = None) by (rewrite (same_rint _ _ S1), (static_int e p' rp Erp Hsp); exact Ei).
      assert (Hnot : (forall i a, p' <> OSeq [i; a]) -> dtarget (Some r1) (map (denote (over n e)) l) = None).
      { intros Hno. destruct r1 as [a|rs|r|r| |fs]; cbn [dtarget rint] in *; try reflexivity; [rewrite Hint; reflexivity|]. destruct rs as [|x1 [|x2 [|x3 rs]]]; try reflexivity. exfalso.
        destruct rp as [|rps| | | |]; try contradiction. cbn [same] in S1. apply all2_Forall2 in S1. inversion S1 as [|? y1 ? rps1 Y1 S2]; subst. inversion S2 as [|? y2 ? rps2 Y2 S3]; subst. inversion S3; subst.
        destruct p' as [|pl| | | | | | | |]; cbn [static] in Hsp; try contradiction; cbn [RuleItemSpec.denote] in Erp; try discriminate; try (destruct (denote e p'); discriminate).
        destruct pl as [|q1 [|q2 [|q3 pl]]]; rewrite ?omap_cons in Erp.
        - discriminate.
        - destruct (denote e q1); discriminate.
        - exact (Hno q1 q2 eq_refl).
        - destruct (denote e q1); [|discriminate]. destruct (denote e q2); [|discriminate]. destruct (denote e q3); [|discriminate]. destruct (omap (denote e) pl); discriminate. }
      destruct p' as [|[|i [|a [|q3 pl]]]| | | | | | | |]; try (apply Hnot; intros; discriminate). clear Hnot.
      cbn [static fold_right] in Hsp. destruct Hsp as (Hsi & Hsa & _). destruct (static_denote e i Hsi) as [ri Eri]. destruct (static_denote e a Hsa) as [ra Era]. cbn [RuleItemSpec.denote omap] in Erp. rewrite Eri, Era in Erp. injection Erp as <-.
      destruct r1 as [|rs| | | |]; try contradiction. cbn [same] in S1. apply all2_Forall2 in S1. inversion S1 as [|qi ? ? ? Hqi S2]; subst. inversion S2 as [|qa ? ? ? Hqa S3]; subst. inversion S3; subst.
      change (dpick qi qa (map (denote (over n e)) l) = None). unfold dpick. rewrite (same_rint _ _ Hqi), (static_int e i ri Eri Hsi). destruct (int_of i) as [z|]; [|reflexivity]. rewrite py_get_map in E. rewrite py_get_map. destruct (py_get l z) as [x|] eqn:Eg; [|reflexivity]. cbn [option_map] in *.
      apply py_get_in in Eg. rewrite Forall_forall in *. specialize (Hl x Eg (H2 x Eg) (H4 x Eg)). destruct (pre_evaluate n x) as [[it iok]|] eqn:Ex; [|rewrite Hl; reflexivity]. rewrite Hl in E.
      assert (Hsit : static it) by (eapply complete_static; eassumption). destruct (static_denote e it Hsit) as [rit Erit]. pose proof (pre_keep n x it iok e Ex (or_intror (H2 x Eg))) as Kx. rewrite Erit in Kx. destruct (same_opt_some_r _ _ Kx) as (rx & Erx & Hrx). rewrite Erx, arg_cases.
      destruct (@arg_obj_cases (option (obj * flags)) a (Some (it, (true, false))) (match apply it [a] with Some r => Some (r, (true, false)) | None => None end)) as [[Em Ea]|[Em Ea]]; rewrite Em in E; [discriminate|].
      destruct (apply it [a]) as [r|] eqn:Er; [discriminate|].
      destruct (arg_none_dec qa) as [Eq|_]; [exfalso; subst qa; apply same_sym in Hqa; apply same_atom_r in Hqa; subst ra; apply Ea; apply (static_none e); assumption|].
      rewrite (rcall_same rx rit [qa] [ra] Hrx) by (constructor; [exact Hqa|constructor]).
      rewrite (apply_rcall e it [a] rit [ra] Hsit) ; [rewrite Er; reflexivity|constructor; [exact Hsa|constructor]|exact Erit|cbn [omap]; rewrite Era; reflexivity].
Qed.

(** [evaluate] gives the value. *)
Lemma evaluate_ok n e : n VArg = None -> forall o, inner_ok o -> known (knows n) o ->
  match evaluate n o with Some o' => static o' /\ same_opt (denote (over n e) o) (denote e o') | None => denote (over n e) o = None end.
Proof.
  intros Hn.
  assert (Hpost : forall v, no_post v -> known (knows n) v -> match pre_evaluate n v with Some (v', ok) => static v' /\ same_opt (denote (over n e) v) (denote e v') | None => denote (over n e) v = None end).
  { intros v H1 H2. pose proof (pre_known_all n e v H1 H2) as H. destruct (pre_evaluate n v) as [[v' ok]|] eqn:E; [|exact H]. split; [eapply complete_static; eassumption|eapply pre_keep; [exact E|right; exact H1]]. }
  assert (Hseq : forall l, Forall (fun o => inner_ok o -> known (knows n) o -> match evaluate n o with Some o' => static o' /\ same_opt (denote (over n e) o) (denote e o') | None => denote (over n e) o = None end) l ->
     Forall inner_ok l -> Forall (known (knows n)) l -> match omap (evaluate n) l with Some l' => Forall static l' /\ Forall2 same_opt (map (denote (over n e)) l) (map (denote e) l') | None => dseq (map (denote (over n e)) l) = None end).
  { intros l H. induction H as [|o l Ho _ IH]; intros H1 H2; [split; constructor|]. inversion H1; subst. inversion H2; subst. specialize (Ho ltac:(assumption) ltac:(assumption)). specialize (IH ltac:(assumption) ltac:(assumption)). rewrite omap_cons. cbn [map].
    destruct (evaluate n o) as [o'|]; [|unfold dseq; rewrite omap_cons, Ho; reflexivity]. destruct Ho as [Ho1 Ho2]. destruct (omap (evaluate n) l) as [l'|]; [|unfold dseq in *; rewrite omap_cons, IH; destruct (denote _ o); reflexivity].
    destruct IH as [I1 I2]. split; constructor; assumption. }
  refine (obj_ind' _ _ _ _ _ _ _ _ _ _ _).
  - intros a _ _. split; [exact I|apply same_opt_refl].
  - intros l Hl H1 H2. cbn [inner_ok known] in *. apply fold_and in H1. apply fold_and in H2. specialize (Hseq l Hl H1 H2). cbn [RuleItemModel.evaluate]. rewrite denote_seq. destruct (omap (evaluate n) l) as [l'|]; [|rewrite Hseq; reflexivity]. destruct Hseq as [S1 S2].
    split; [apply fold_and; exact S1|]. rewrite denote_seq. pose proof (dseq_same _ _ S2) as H. destruct (dseq (map (denote (over n e)) l)), (dseq (map (denote e) l')); try contradiction; [apply all2_Forall2; exact H|exact I].
  - intros x _ H. cbn [known] in H. unfold knows in H. cbn [RuleItemModel.evaluate]. destruct (n x) as [v|] eqn:En; [|discriminate]. split; [apply of_static|]. rewrite denote_of. destruct x; cbn [RuleItemSpec.denote over e_get e_arg e_text e_match]; rewrite En; apply same_refl.
  - intros p l Hp Hl [H1 H2] [H3 H4]. apply fold_and in H2. apply fold_and in H4. specialize (Hseq l Hl H2 H4). specialize (Hp H1 H3). cbn [RuleItemModel.evaluate]. rewrite denote_call.
    destruct (evaluate n p) as [p'|]; [|unfold dcall; rewrite Hp; reflexivity]. destruct Hp as [Hsp Hp]. destruct (omap (evaluate n) l) as [l'|]; [|unfold dcall; rewrite Hseq; destruct (denote (over n e) p); reflexivity]. destruct Hseq as [Hsl Hl2].
    pose proof (dcall_same _ _ _ _ Hp Hl2) as Hd. destruct (static_denote e p' Hsp) as [rp Erp]. destruct (static_args e l' Hsl) as [rl Erl].
    unfold dcall at 2 in Hd. rewrite Erp, <- omap_dseq, Erl, (apply_rcall e p' l' rp rl Hsp Hsl Erp Erl) in Hd. destruct (apply p' l') as [r|] eqn:Er; [split; [eapply apply_static; exact Er|exact Hd]|]. destruct (dcall _ _); [contradiction|reflexivity].
  - intros p l Hp Hl [H1 H2] [H3 H4]. apply fold_and in H2. apply fold_and in H4. specialize (Hp H1 H3). cbn [RuleItemModel.evaluate]. rewrite denote_select.
    destruct (evaluate n p) as [p'|]; [|unfold dselect_; rewrite Hp; reflexivity]. destruct Hp as [Hsp Hp]. destruct (static_denote e p' Hsp) as [rp Erp]. rewrite Erp in Hp. destruct (same_opt_some_r _ _ Hp) as (r1 & E1 & S1).
    unfold dselect_. rewrite E1, (same_rint _ _ S1), (static_int e p' rp Erp Hsp). destruct (int_of p') as [i|]; [|reflexivity]. rewrite !py_get_map. destruct (py_get l i) as [x|] eqn:Eg; [|reflexivity]. cbn [option_map].
    apply py_get_in in Eg. rewrite Forall_forall in *. exact (Hl x Eg (H2 x Eg) (H4 x Eg)).
  - intros p l Hp Hl [H1 H2] [H3 H4]. apply fold_and in H2. apply fold_and in H4. specialize (Hp H1 H3). cbn [RuleItemModel.evaluate]. rewrite denote_target.
    destruct (evaluate n p) as [p'|]; [|unfold dtarget; rewrite Hp; reflexivity]. destruct Hp as [Hsp Hp]. destruct (static_denote e p' Hsp) as [rp Erp]. pose proof Hp as Hp0. rewrite Erp in Hp. destruct (same_opt_some_r _ _ Hp) as (r1 & E1 & S1). rewrite E1.
    destruct (int_of p') as [z|] eqn:Ei.
    + split; [exact Hsp|]. rewrite E1 in Hp0. destruct p' as [a| | | | | | | | |]; try discriminate. injection Erp as <-. apply same_atom_r in S1. subst r1. cbn [dtarget rint]. cbn [int_of] in Ei. rewrite Ei. exact Hp0.
    + assert (Hint : rint r1 = None) by (rewrite (same_rint _ _ S1), (static_int e p' rp Erp Hsp); exact Ei).
      assert (Hnot : (forall i a, p' <> OSeq [i; a]) -> dtarget (Some r1) (map (denote (over n e)) l) = None).
      { intros Hno. destruct r1 as [a|rs|r|r| |fs]; cbn [dtarget rint] in *; try reflexivity; [rewrite Hint; reflexivity|]. destruct rs as [|x1 [|x2 [|x3 rs]]]; try reflexivity. exfalso.
        destruct rp as [|rps| | | |]; try contradiction. cbn [same] in S1. apply all2_Forall2 in S1. inversion S1 as [|? y1 ? rps1 Y1 S2]; subst. inversion S2 as [|? y2 ? rps2 Y2 S3]; subst. inversion S3; subst.
        destruct p' as [|pl| | | | | | | |]; cbn [static] in Hsp; try contradiction; cbn [RuleItemSpec.denote] in Erp; try discriminate; try (destruct (denote e p'); discriminate).
        destruct pl as [|q1 [|q2 [|q3 pl]]]; rewrite ?omap_cons in Erp.
        - discriminate.
        - destruct (denote e q1); discriminate.
        - exact (Hno q1 q2 eq_refl).
        - destruct (denote e q1); [|discriminate]. destruct (denote e q2); [|discriminate]. destruct (denote e q3); [|discriminate]. destruct (omap (denote e) pl); discriminate. }
      destruct p' as [|[|i [|a [|q3 pl]]]| | | | | | | |]; try (apply Hnot; intros; discriminate). clear Hnot.
      cbn [static fold_right] in Hsp. destruct Hsp as (Hsi & Hsa & _). destruct (static_denote e i Hsi) as [ri Eri]. destruct (static_denote e a Hsa) as [ra Era]. cbn [RuleItemSpec.denote omap] in Erp. rewrite Eri, Era in Erp. injection Erp as <-.
      destruct r1 as [|rs| | | |]; try contradiction. cbn [same] in S1. apply all2_Forall2 in S1. inversion S1 as [|qi ? ? ? Hqi S2]; subst. inversion S2 as [|qa ? ? ? Hqa S3]; subst. inversion S3; subst.
      change (dtarget (Some (RTup [qi; qa])) ?l) with (dpick qi qa l). unfold dpick. rewrite (same_rint _ _ Hqi), (static_int e i ri Eri Hsi). destruct (int_of i) as [z|]; [|reflexivity]. rewrite !py_get_map. destruct (py_get l z) as [x|] eqn:Eg; [|reflexivity]. cbn [option_map].
      apply py_get_in in Eg. rewrite Forall_forall in *. specialize (Hl x Eg (H2 x Eg) (H4 x Eg)). destruct (evaluate n x) as [it|]; [|rewrite Hl; reflexivity]. destruct Hl as [Hsit Hx].
      destruct (static_denote e it Hsit) as [rit Erit]. rewrite Erit in Hx. destruct (same_opt_some_r _ _ Hx) as (rx & Erx & Hrx). rewrite Erx, arg_cases.
      destruct (@arg_obj_cases (option obj) a (Some it) (apply it [a])) as [[Em Ea]|[Em Ea]]; rewrite Em.
      * split; [exact Hsit|]. subst a. injection Era as <-. apply same_atom_r in Hqa. subst qa. destruct (arg_none_dec (RAtom ANone)) as [_|Hne]; [|congruence]. rewrite Erit. exact Hrx.
      * destruct (arg_none_dec qa) as [Eq|_]; [exfalso; subst qa; apply same_sym in Hqa; apply same_atom_r in Hqa; subst ra; apply Ea; apply (static_none e); assumption|].
        rewrite (rcall_same rx rit [qa] [ra] Hrx) by (constructor; [exact Hqa|constructor]).
        rewrite (apply_rcall e it [a] rit [ra] Hsit) ; [|constructor; [exact Hsa|constructor]|exact Erit|cbn [omap]; rewrite Era; reflexivity].
        destruct (apply it [a]) as [r|] eqn:Er; [split; [eapply apply_static; exact Er|apply same_opt_refl]|reflexivity].
  - intros v _ H1 H2. specialize (Hpost v H1 H2). cbn [RuleItemModel.evaluate RuleItemSpec.denote]. destruct (pre_evaluate n v) as [[v' ok]|] eqn:Ev; [|rewrite Hpost; reflexivity]. destruct Hpost as [S1 S2].
    assert (Eo : (if snd ok then OPattern v else OPattern v') = OPattern v') by (destruct (snd ok) eqn:Es; [rewrite (unchanged n v v' ok Ev Es)|]; reflexivity). rewrite Eo. split; [exact S1|]. cbn [RuleItemSpec.denote]. destruct (denote (over n e) v), (denote e v'); cbn [same_opt] in *; try contradiction; [exact S2|exact I].
  - intros l _ _ _. cbn [RuleItemModel.evaluate]. split; [exact I|]. cbn [RuleItemSpec.denote over e_arg]. rewrite Hn. apply same_refl.
  - intros v _ H1 H2. specialize (Hpost v H1 H2). cbn [RuleItemModel.evaluate RuleItemSpec.denote]. destruct (pre_evaluate n v) as [[v' ok]|] eqn:Ev; [|rewrite Hpost; reflexivity]. destruct Hpost as [S1 S2].
    assert (Eo : (if snd ok then ODelegate v else ODelegate v') = ODelegate v') by (destruct (snd ok) eqn:Es; [rewrite (unchanged n v v' ok Ev Es)|]; reflexivity). rewrite Eo. split; [exact S1|]. cbn [RuleItemSpec.denote]. destruct (denote (over n e) v), (denote e v'); cbn [same_opt] in *; try contradiction; [exact S2|exact I].
  - intros _ _. split; [exact I|exact I].
Qed.
End Proofs.
