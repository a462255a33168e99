(** Proofs about the threads of a worker. *)
From Verif Require Import Base WorkModel WorkSpec.
From Coq Require Import ZArith ZifyBool.

Lemma wset_same : forall A (f : nat -> A) t x, wset f t x t = x.
Proof. intros A f t x. unfold wset. now rewrite Nat.eqb_refl. Qed.
Lemma wset_other : forall A (f : nat -> A) t x u, u <> t -> wset f t x u = f u.
Proof. intros A f t x u H. unfold wset. apply Nat.eqb_neq in H. now rewrite H. Qed.

Definition holds (p : wproc) : bool := match p with PGet _ | PPop _ | PHas _ | PClear | PRelease => true | _ => false end.
Definition checked (p : wproc) : bool := match p with PHas _ | PClear | PRelease => true | _ => false end.
Definition early (p : wproc) : bool :=
  match p with
  | PLock | PGet _ | PPop _ | PSetBuild _ | PBuild _ _ | PTake _ _ | PSetReplace _ _ | PReplace _ _ => true
  | PHas (_ :: _) => true
  | _ => false
  end.
Definition active (p : wproc) : bool := early p || match p with PHas _ | PClear => true | _ => false end.
Definition failed (p : wproc) : bool := match p with PFail | PEnd false => true | _ => false end.
Definition starts (c : wcall) : bool := match c with CStart | CSpawn => true | _ => false end.
Definition coming (c : wcall) : bool := match c with CCheck | CSet | CStart | CSpawn => true | _ => false end.

Definition some_proc (s : wstate) (f : wproc -> bool) : Prop := exists i, f (w_proc s i) = true.
Definition some_call (s : wstate) (f : wcall -> bool) : Prop := exists t, f (w_call s t) = true.

Record inv (s : wstate) : Prop := {
  inv_lock : forall i, holds (w_proc s i) = true -> w_lock s = Some i;
  inv_empty : forall i, checked (w_proc s i) = true -> w_changes s = [];
  inv_busy : w_busy s = true -> some_call s starts \/ some_proc s active \/ some_proc s failed;
  inv_more : w_changes s <> [] -> some_call s coming \/ some_proc s early \/ some_proc s failed;
  inv_next : forall i, w_next s <= i -> w_proc s i = PNone }.

Lemma inv_init : inv w_init.
Proof.
  constructor; cbn; try discriminate; try congruence.
Qed.

(** A process that changes: what is known of some process. *)
Lemma some_proc_keep : forall s s' f i p, w_proc s' = wset (w_proc s) i p -> some_proc s f ->
  (f (w_proc s i) = true -> f p = true) -> some_proc s' f.
Proof.
  intros s s' f i p E [j Hj] H. destruct (Nat.eq_dec j i) as [-> | N].
  - exists i. rewrite E, wset_same. auto.
  - exists j. rewrite E, wset_other by exact N. exact Hj.
Qed.
Lemma some_proc_new : forall s s' f i p, w_proc s' = wset (w_proc s) i p -> f p = true -> some_proc s' f.
Proof. intros s s' f i p E H. exists i. rewrite E, wset_same. exact H. Qed.
Lemma some_proc_eq : forall s s' f, w_proc s' = w_proc s -> some_proc s f -> some_proc s' f.
Proof. intros s s' f E [j Hj]. exists j. now rewrite E. Qed.
Lemma some_call_keep : forall s s' f i p, w_call s' = wset (w_call s) i p -> some_call s f ->
  (f (w_call s i) = true -> f p = true) -> some_call s' f.
Proof.
  intros s s' f i p E [j Hj] H. destruct (Nat.eq_dec j i) as [-> | N].
  - exists i. rewrite E, wset_same. auto.
  - exists j. rewrite E, wset_other by exact N. exact Hj.
Qed.
Lemma some_call_new : forall s s' f i p, w_call s' = wset (w_call s) i p -> f p = true -> some_call s' f.
Proof. intros s s' f i p E H. exists i. rewrite E, wset_same. exact H. Qed.
Lemma some_call_eq : forall s s' f, w_call s' = w_call s -> some_call s f -> some_call s' f.
Proof. intros s s' f E [j Hj]. exists j. now rewrite E. Qed.

Lemma proc_inv : forall s s' i p, inv s -> w_proc s i <> PNone ->
  w_proc s' = wset (w_proc s) i p -> w_call s' = w_call s -> w_next s' = w_next s ->
  (w_lock s' = w_lock s \/ w_lock s = None \/ w_lock s = Some i) -> (holds p = true -> w_lock s' = Some i) ->
  (w_changes s = [] -> w_changes s' = []) -> (checked p = true -> w_changes s' = []) ->
  (w_busy s' = true -> w_busy s = true /\ (active (w_proc s i) = true -> active p = true \/ failed p = true)) ->
  (failed (w_proc s i) = true -> failed p = true) ->
  (early (w_proc s i) = true -> early p = true \/ failed p = true \/ w_changes s' = []) -> inv s'.
Proof.
  intros s s' i p [L E B M N] NN EP EC EN HL HLp HE HEp HB HF HM. constructor.
  - intros j Hj. rewrite EP in Hj. destruct (Nat.eq_dec j i) as [-> | D].
    + rewrite wset_same in Hj. auto.
    + rewrite wset_other in Hj by exact D. specialize (L j Hj). destruct HL as [HL | [HL | HL]]; congruence.
  - intros j Hj. rewrite EP in Hj. destruct (Nat.eq_dec j i) as [-> | D].
    + rewrite wset_same in Hj. auto.
    + rewrite wset_other in Hj by exact D. exact (HE (E j Hj)).
  - intros Hb. destruct (HB Hb) as [Hb0 Hact]. destruct (B Hb0) as [X | [[j X] | X]].
    + left. exact (some_call_eq _ _ _ EC X).
    + right. destruct (Nat.eq_dec j i) as [-> | D].
      * destruct (Hact X) as [Y | Y]; [left | right]; exact (some_proc_new _ _ _ _ _ EP Y).
      * left. exists j. rewrite EP, wset_other by exact D. exact X.
    + right; right. exact (some_proc_keep _ _ _ _ _ EP X HF).
  - intros Hc. assert (Hc0 : w_changes s <> []) by (intros X; apply Hc; auto).
    destruct (M Hc0) as [X | [[j X] | X]].
    + left. exact (some_call_eq _ _ _ EC X).
    + right. destruct (Nat.eq_dec j i) as [-> | D].
      * destruct (HM X) as [Y | [Y | Y]]; [left | right | contradiction]; exact (some_proc_new _ _ _ _ _ EP Y).
      * left. exists j. rewrite EP, wset_other by exact D. exact X.
    + right; right. exact (some_proc_keep _ _ _ _ _ EP X HF).
  - intros j Hj. rewrite EN in Hj. rewrite EP. destruct (Nat.eq_dec j i) as [-> | D].
    + exfalso. apply NN. auto.
    + rewrite wset_other by exact D. auto.
Qed.

Ltac proc_case I i Hp :=
  eapply (proc_inv _ _ i); [exact I | rewrite Hp; discriminate | reflexivity | reflexivity | reflexivity | ..];
  rewrite ?Hp; cbn [w_lock w_changes w_busy holds checked active early failed orb with_proc with_lock with_changes with_busy with_tree with_state].

Lemma proc_step_inv : forall s s' i, inv s -> proc_step s i = Some s' -> inv s'.
Proof.
  intros s s' i I. unfold proc_step. pose proof (inv_lock s I i) as L. pose proof (inv_empty s I i) as E0.
  destruct (w_proc s i) as [| | es | es | es | es | es base | es base | es base | es base | | | | | | | | ok] eqn:Hp;
    cbn [holds checked] in L, E0; intros E; try discriminate.
  - destruct (w_lock s) eqn:Hl; [discriminate |]. injection E as <-. proc_case I i Hp; auto; try discriminate.
  - specialize (L eq_refl). injection E as <-. destruct (w_changes s) as [| e l] eqn:Hc.
    + proc_case I i Hp; rewrite ?Hc; auto; try discriminate. intros Hb. split; [exact Hb |]. intros _. left. now destruct es.
    + proc_case I i Hp; rewrite ?Hc; auto; try discriminate.
  - specialize (L eq_refl). destruct (w_changes s) as [| e l] eqn:Hc; injection E as <-.
    + proc_case I i Hp; rewrite ?Hc; auto; try discriminate.
    + proc_case I i Hp; rewrite ?Hc; auto; try discriminate.
  - specialize (L eq_refl). specialize (E0 eq_refl). destruct es as [| e es]; injection E as <-.
    + proc_case I i Hp; auto; try discriminate.
    + proc_case I i Hp; auto; try discriminate.
  - injection E as <-. proc_case I i Hp; auto; try discriminate.
  - injection E as <-. proc_case I i Hp; auto; try discriminate.
  - destruct (w_changes s) as [| e l] eqn:Hc; injection E as <-.
    + proc_case I i Hp; rewrite ?Hc; auto; try discriminate.
    + proc_case I i Hp; rewrite ?Hc; auto; try discriminate.
  - injection E as <-. proc_case I i Hp; auto; try discriminate.
  - injection E as <-. proc_case I i Hp; auto; try discriminate.
  - injection E as <-. proc_case I i Hp; auto; try discriminate.
  - injection E as <-. specialize (L eq_refl). proc_case I i Hp; auto; try discriminate.
  - injection E as <-. proc_case I i Hp; auto; try discriminate.
  - injection E as <-. proc_case I i Hp; auto; try discriminate.
  - injection E as <-. proc_case I i Hp; auto; try discriminate.
  - injection E as <-. proc_case I i Hp; auto; try discriminate.
  - injection E as <-. proc_case I i Hp; auto; try discriminate.
Qed.

Lemma call_step_inv : forall s s' t, inv s -> call_step s t = Some s' -> inv s'.
Proof.
  intros s s' t I. unfold call_step. pose proof I as [L E B M N].
  destruct (w_call s t) as [| e | | | |] eqn:Hc; intros H; try discriminate.
  - destruct (w_lock s) eqn:Hl; [discriminate |]. injection H as <-. constructor;
      cbn [with_call with_added with_changes w_lock w_changes w_busy w_next w_proc]; auto.
    + intros i Hi. specialize (L i Hi). congruence.
    + intros i Hi. exfalso. assert (X : holds (w_proc s i) = true) by (destruct (w_proc s i); cbn in *; congruence).
      specialize (L i X). congruence.
    + intros Hb. destruct (B Hb) as [X | X]; [left | right; exact X].
      eapply (some_call_keep s); [reflexivity | exact X | rewrite Hc; discriminate].
    + intros _. left. eapply (some_call_new s); reflexivity.
  - injection H as <-. destruct (w_busy s) eqn:Hb; constructor;
      cbn [with_call w_lock w_changes w_busy w_next w_proc]; auto.
    + intros _. destruct (B eq_refl) as [X | X]; [left | right; exact X].
      eapply (some_call_keep s); [reflexivity | exact X | rewrite Hc; discriminate].
    + intros Hn. destruct (B eq_refl) as [[u X] | [[i X] | X]].
      * left. exists u. cbn. destruct (Nat.eq_dec u t) as [-> | D]; [rewrite Hc in X; discriminate |].
        rewrite wset_other by exact D. destruct (w_call s u); cbn in *; congruence.
      * right; left. exists i. cbn [with_call w_proc]. unfold active in X.
        destruct (early (w_proc s i)) eqn:Ey; [reflexivity |]. exfalso. apply Hn.
        apply (E i). destruct (w_proc s i); cbn in *; congruence.
      * right; right. exact X.
    + rewrite Hb. discriminate.
    + intros Hn. destruct (M Hn) as [X | X]; [left | right; exact X].
      eapply (some_call_keep s); [reflexivity | exact X | reflexivity].
  - injection H as <-. constructor; cbn [with_call with_busy w_lock w_changes w_busy w_next w_proc]; auto.
    + intros _. left. eapply (some_call_new s); reflexivity.
    + intros Hn. destruct (M Hn) as [X | X]; [left | right; exact X].
      eapply (some_call_keep s); [reflexivity | exact X | reflexivity].
  - injection H as <-. constructor; cbn [with_call with_state w_lock w_changes w_busy w_next w_proc]; auto.
    + intros _. left. eapply (some_call_new s); reflexivity.
    + intros Hn. left. eapply (some_call_new s); reflexivity.
  - injection H as <-. constructor; cbn [with_call with_proc with_next w_lock w_changes w_busy w_next w_proc].
    + intros i. destruct (Nat.eq_dec i (w_next s)) as [-> | D]; [rewrite wset_same; discriminate |].
      rewrite wset_other by exact D. apply L.
    + intros i. destruct (Nat.eq_dec i (w_next s)) as [-> | D]; [rewrite wset_same; discriminate |].
      rewrite wset_other by exact D. apply E.
    + intros _. right; left. exists (w_next s). cbn. now rewrite wset_same.
    + intros _. right; left. exists (w_next s). cbn. now rewrite wset_same.
    + intros i Hi. rewrite wset_other by lia. apply N. lia.
Qed.

Lemma step_inv : forall s s' l, inv s -> w_step s l = Some s' -> inv s'.
Proof.
  intros s s' l I. destruct l as [t e | t | t | i | i | i]; cbn [w_step].
  - destruct (w_call s t) eqn:Hc; try discriminate. intros H. injection H as <-. destruct I as [L E B M N].
    constructor; cbn [with_call w_lock w_changes w_busy w_next w_proc]; auto.
    + intros Hb. destruct (B Hb) as [X | X]; [left | right; exact X].
      eapply (some_call_keep s); [reflexivity | exact X | rewrite Hc; discriminate].
    + intros Hb. destruct (M Hb) as [X | X]; [left | right; exact X].
      eapply (some_call_keep s); [reflexivity | exact X | rewrite Hc; discriminate].
  - destruct (w_call s t) eqn:Hc; try discriminate. destruct (w_trans s); [discriminate |].
    intros H. injection H as <-. destruct I as [L E B M N].
    constructor; cbn [with_call with_trans w_lock w_changes w_busy w_next w_proc]; auto.
    + intros _. left. eapply (some_call_new s); reflexivity.
    + intros _. left. eapply (some_call_new s); reflexivity.
  - apply call_step_inv, I.
  - apply proc_step_inv, I.
  - destruct (w_proc s i) eqn:Hp; try discriminate. destruct (w_changes s) as [| e l] eqn:Hc; [discriminate |].
    intros H. injection H as <-. proc_case I i Hp; auto; try discriminate.
  - destruct (w_proc s i) eqn:Hp; try discriminate; intros H; injection H as <-; proc_case I i Hp; auto; try discriminate.
Qed.

Lemma run_inv : forall ls s s', inv s -> w_run s ls = Some s' -> inv s'.
Proof.
  induction ls as [| l ls IH]; intros s s' I H; cbn [w_run] in H.
  - injection H as <-. exact I.
  - destruct (w_step s l) as [s1 |] eqn:E; [| discriminate]. exact (IH s1 s' (step_inv _ _ _ I E) H).
Qed.

Theorem nothing_pending : forall ls s, w_run w_init ls = Some s -> stopped s -> no_exception s -> w_changes s = [].
Proof.
  intros ls s H [SC SP] NE. pose proof (run_inv _ _ _ inv_init H) as [L E B M N].
  destruct (w_changes s) as [| e l] eqn:Hc; [reflexivity | exfalso].
  specialize (M ltac:(discriminate)).
  destruct M as [[t Y] | [[i Y] | [i Y]]].
  - rewrite (SC t) in Y. discriminate.
  - destruct (SP i) as [Z | [ok Z]]; rewrite Z in Y; discriminate.
  - destruct (NE i) as [N1 N2]. destruct (w_proc s i) as [| | | | | | | | | | | | | | | | | [|]]; cbn in Y; congruence.
Qed.

(** * Something can always be done *)

Definition lock_owned (s : wstate) : Prop :=
  forall i, w_lock s = Some i -> holds (w_proc s i) = true \/ failed (w_proc s i) = true.

Lemma proc_owned : forall s s' i p, lock_owned s -> w_proc s' = wset (w_proc s) i p ->
  (w_lock s' = w_lock s \/ w_lock s' = None \/ w_lock s' = Some i) ->
  (w_lock s' = Some i -> holds p = true \/ failed p = true) -> lock_owned s'.
Proof.
  intros s s' i p O EP HL H j Hj. rewrite EP. destruct (Nat.eq_dec j i) as [-> | D].
  - rewrite wset_same. auto.
  - rewrite wset_other by exact D. apply O. destruct HL as [HL | [HL | HL]]; congruence.
Qed.

Lemma step_owned : forall s s' l, inv s -> lock_owned s -> w_step s l = Some s' -> lock_owned s'.
Proof.
  intros s s' l I O. destruct l as [t e | t | t | i | i | i]; cbn [w_step].
  - destruct (w_call s t); try discriminate. intros H. injection H as <-. exact O.
  - destruct (w_call s t); try discriminate. destruct (w_trans s); try discriminate. intros H. injection H as <-. exact O.
  - unfold call_step. destruct (w_call s t); try discriminate.
    + destruct (w_lock s) eqn:Hl; [discriminate |]. intros H. injection H as <-. intros i Hi. cbn in Hi. congruence.
    + intros H. injection H as <-. exact O.
    + intros H. injection H as <-. exact O.
    + intros H. injection H as <-. exact O.
    + intros H. injection H as <-. intros i Hi. cbn [with_call with_proc with_next w_lock w_proc] in *.
      destruct (Nat.eq_dec i (w_next s)) as [-> | D].
      * exfalso. destruct (O _ Hi) as [X | X]; rewrite (inv_next s I (w_next s) (le_n _)) in X; discriminate.
      * rewrite wset_other by exact D. exact (O i Hi).
  - unfold proc_step. pose proof (O i) as Oi. destruct (w_proc s i) as [| | es | es | es | es | es base | es base | es base | es base | | | | | | | | ok] eqn:Hp;
      cbn [holds failed] in Oi; intros E; try discriminate;
      try (destruct (w_lock s) eqn:Hl; [discriminate |]);
      try (destruct (w_changes s) as [| e l] eqn:Hc);
      try (destruct es as [| e0 es]);
      try (match type of E with Some ?u = Some _ => assert (E2 : s' = u) by congruence; clear E; subst s' end);
      (eapply (proc_owned s _ i); [exact O | reflexivity | cbn [with_proc with_lock with_changes with_busy with_tree with_state w_lock]; auto
        | cbn [with_proc with_lock with_changes with_busy with_tree with_state w_lock holds failed]; auto; try congruence;
          intros X; destruct (Oi X); discriminate || auto]).
  - destruct (w_proc s i) eqn:Hp; try discriminate. destruct (w_changes s); try discriminate. intros H. injection H as <-.
    eapply (proc_owned s _ i); [exact O | reflexivity | left; reflexivity |]. intros X. destruct (O _ X) as [Y | Y]; rewrite Hp in Y; discriminate.
  - destruct (w_proc s i) eqn:Hp; try discriminate; intros H; injection H as <-;
    (eapply (proc_owned s _ i); [exact O | reflexivity | left; reflexivity |]; intros X; right; reflexivity).
Qed.

Lemma run_owned : forall ls s s', inv s -> lock_owned s -> w_run s ls = Some s' -> lock_owned s'.
Proof.
  induction ls as [| l ls IH]; intros s s' I O H; cbn [w_run] in H.
  - injection H as <-. exact O.
  - destruct (w_step s l) as [s1 |] eqn:E; [| discriminate].
    exact (IH s1 s' (step_inv _ _ _ I E) (step_owned _ _ _ I O E) H).
Qed.

(** A process that has the lock can do a step, and so can any process that does not need it. *)
Lemma proc_can : forall s i, w_proc s i <> PNone -> (forall ok, w_proc s i <> PEnd ok) ->
  (w_proc s i = PLock -> w_lock s = None) -> exists s', proc_step s i = Some s'.
Proof.
  intros s i N1 N2 HL. unfold proc_step.
  destruct (w_proc s i) as [| | es | es | es | es | es base | es base | es base | es base | | | | | | | | ok];
    try (destruct (w_changes s)); try (rewrite (HL eq_refl)); try (destruct es); try contradiction; eauto.
  all: exfalso; exact (N2 ok eq_refl).
Qed.
Lemma owner_can : forall s i, lock_owned s -> no_exception s -> w_lock s = Some i -> exists s', proc_step s i = Some s'.
Proof.
  intros s i O NE Hl. assert (X : holds (w_proc s i) = true).
  { destruct (O i Hl) as [X | X]; [exact X | exfalso]. destruct (NE i) as [A B].
    destruct (w_proc s i) as [| | | | | | | | | | | | | | | | | [|]]; cbn in X; congruence. }
  apply proc_can; destruct (w_proc s i); cbn in X; congruence.
Qed.

Theorem never_stuck : forall ls s, w_run w_init ls = Some s -> no_exception s ->
  (exists t, w_call s t <> CIdle) \/ (exists i, w_proc s i <> PNone /\ forall ok, w_proc s i <> PEnd ok) ->
  exists l s', (exists t, l = Caller t \/ l = Proc t) /\ w_step s l = Some s'.
Proof.
  intros ls s H NE W.
  assert (O : lock_owned s). { eapply run_owned; [exact inv_init | | exact H]. intros i Hi. discriminate. }
  destruct (w_lock s) as [o |] eqn:Hl.
  - destruct (owner_can s o O NE Hl) as [s' E]. exists (Proc o), s'. split; [exists o; auto | exact E].
  - destruct W as [[t Ht] | [i [Hi Hj]]].
    + assert (exists s', call_step s t = Some s') as [s' E].
      { unfold call_step. rewrite Hl. destruct (w_call s t); try congruence; eauto. }
      exists (Caller t), s'. split; [exists t; auto | exact E].
    + destruct (proc_can s i Hi Hj (fun _ => Hl)) as [s' E]. exists (Proc i), s'. split; [exists i; auto | exact E].
Qed.

(** * It does not go on forever *)

Definition inside (l : wlabel) : bool := match l with Update _ _ | SetTransformer _ => false | _ => true end.

Fixpoint total (f : nat -> nat) (n : nat) : nat := match n with 0 => 0 | S n => f n + total f n end.
Lemma total_ext : forall n f g, (forall i, i < n -> f i = g i) -> total f n = total g n.
Proof. induction n as [| n IH]; intros f g H; cbn [total]; [reflexivity |]. rewrite (H n), (IH f g); auto. Qed.
Lemma total_set : forall A (w : A -> nat) (h : nat -> A) i x n, i < n ->
  total (fun j => w (wset h i x j)) n + w (h i) = total (fun j => w (h j)) n + w x.
Proof.
  induction n as [| n IH]; intros Hi; [lia |]. cbn [total]. destruct (Nat.eq_dec i n) as [-> | D].
  - rewrite wset_same. rewrite (total_ext n (fun j => w (wset h n x j)) (fun j => w (h j))); [lia |].
    intros j Hj. rewrite wset_other by lia. reflexivity.
  - rewrite wset_other by lia. specialize (IH ltac:(lia)). lia.
Qed.

Definition proc_left (p : wproc) : nat :=
  match p with
  | PNone | PEnd _ => 0
  | PFail | PFinally => 1
  | PTransform => 2 | PSetIdle => 3 | PSetDone => 4 | PRelease => 5 | PClear => 6
  | PHas [] => 7 | PPop [] => 8 | PGet [] => 9 | PLock => 10
  | PReplace _ _ => 11 | PSetReplace _ _ => 12 | PTake _ _ => 13 | PBuild _ _ => 14 | PSetBuild _ => 15
  | PHas _ => 16 | PPop _ => 17 | PGet _ => 18
  end.
Definition call_left (c : wcall) : nat :=
  match c with CIdle => 0 | CSpawn => 11 | CStart => 12 | CSet => 13 | CCheck => 14 | CAdd _ => 35 end.
Definition left_to_do (s : wstate) (n : nat) : nat :=
  total (fun i => proc_left (w_proc s i)) (w_next s) + total (fun t => call_left (w_call s t)) n + 20 * length (w_changes s).

(** Only the threads below [n] are inside a call. *)
Definition calls_below (s : wstate) (n : nat) : Prop := forall t, n <= t -> w_call s t = CIdle.

Lemma proc_less : forall s s' i p n, inv s -> w_proc s i <> PNone ->
  w_proc s' = wset (w_proc s) i p -> w_call s' = w_call s -> w_next s' = w_next s ->
  proc_left p + 20 * length (w_changes s') < proc_left (w_proc s i) + 20 * length (w_changes s) ->
  left_to_do s' n < left_to_do s n.
Proof.
  intros s s' i p n I NN EP EC EN H. unfold left_to_do. rewrite EP, EC, EN.
  assert (Hi : i < w_next s). { destruct (le_lt_dec (w_next s) i) as [X | X]; [| exact X]. now apply (inv_next s I) in X. }
  pose proof (total_set _ proc_left (w_proc s) i p _ Hi). lia.
Qed.

Lemma step_less : forall s s' l n, inv s -> calls_below s n -> inside l = true -> w_step s l = Some s' ->
  left_to_do s' n < left_to_do s n /\ calls_below s' n.
Proof.
  intros s s' l n I C Hin. destruct l as [t e | t | t | i | i | i]; try discriminate; cbn [w_step].
  - unfold call_step. intros H.
    assert (Ht : t < n). { destruct (le_lt_dec n t) as [X | X]; [| exact X]. rewrite (C t X) in H. discriminate. }
    assert (K : forall c, calls_below (with_call s t c) n).
    { intros c u Hu. cbn. rewrite wset_other by lia. apply C, Hu. }
    destruct (w_call s t) eqn:Hc; try discriminate.
    + destruct (w_lock s); [discriminate |]. injection H as <-. split; [| intros u Hu; cbn; rewrite wset_other by lia; apply C, Hu].
      unfold left_to_do. cbn [with_call with_added with_changes w_proc w_next w_call w_changes].
      pose proof (total_set _ call_left (w_call s) t CCheck _ Ht) as T. rewrite Hc in T. cbn [call_left] in T. rewrite app_length. cbn [length]. lia.
    + injection H as <-. split; [| intros u Hu; cbn; rewrite wset_other by lia; apply C, Hu].
      unfold left_to_do. cbn [with_call with_added with_changes w_proc w_next w_call w_changes].
      pose proof (total_set _ call_left (w_call s) t (if w_busy s then CIdle else CSet) _ Ht) as T. rewrite Hc in T. destruct (w_busy s); cbn [call_left] in T; lia.
    + injection H as <-. split; [| intros u Hu; cbn; rewrite wset_other by lia; apply C, Hu].
      unfold left_to_do. cbn [with_call with_busy w_proc w_next w_call w_changes].
      pose proof (total_set _ call_left (w_call s) t CStart _ Ht) as T. rewrite Hc in T. cbn [call_left] in T. lia.
    + injection H as <-. split; [| intros u Hu; cbn; rewrite wset_other by lia; apply C, Hu].
      unfold left_to_do. cbn [with_call with_state w_proc w_next w_call w_changes].
      pose proof (total_set _ call_left (w_call s) t CSpawn _ Ht) as T. rewrite Hc in T. cbn [call_left] in T. lia.
    + injection H as <-. split; [| intros u Hu; cbn; rewrite wset_other by lia; apply C, Hu].
      unfold left_to_do. cbn [with_call with_proc with_next w_proc w_next w_call w_changes total].
      pose proof (total_set _ call_left (w_call s) t CIdle _ Ht) as T. rewrite Hc in T. cbn [call_left] in T. rewrite wset_same. cbn [proc_left].
      rewrite (total_ext (w_next s) (fun i => proc_left (wset (w_proc s) (w_next s) PLock i)) (fun i => proc_left (w_proc s i))); [lia |].
      intros j Hj. rewrite wset_other by lia. reflexivity.
  - unfold proc_step. destruct (w_proc s i) as [| | es | es | es | es | es base | es base | es base | es base | | | | | | | | ok] eqn:Hp;
      intros E; try discriminate;
      try (destruct (w_lock s) eqn:Hl; [discriminate |]);
      try (destruct (w_changes s) as [| e l] eqn:Hc);
      try (destruct es as [| e0 es]);
      (match type of E with Some ?u = Some _ => assert (E2 : s' = u) by congruence; clear E; subst s' end);
      (split; [eapply (proc_less s _ i); [exact I | rewrite Hp; discriminate | reflexivity | reflexivity | reflexivity |];
        rewrite Hp; cbn [with_proc with_lock with_changes with_busy with_tree with_state w_changes app]; rewrite ?Hc; cbn [length proc_left]; lia
      | exact C]).
  - destruct (w_proc s i) as [| | es | es | es | es | es base | es base | es base | es base | | | | | | | | ok] eqn:Hp; try discriminate.
    destruct (w_changes s) eqn:Hc; [discriminate |]. intros E. injection E as <-. split; [| exact C].
    eapply (proc_less s _ i); [exact I | rewrite Hp; discriminate | reflexivity | reflexivity | reflexivity |].
    rewrite Hp. cbn [with_proc w_changes proc_left]. lia.
  - destruct (w_proc s i) as [| | es | es | es | es | es base | es base | es base | es base | | | | | | | | ok] eqn:Hp; try discriminate;
    (intros E; injection E as <-; split; [| exact C];
    eapply (proc_less s _ i); [exact I | rewrite Hp; discriminate | reflexivity | reflexivity | reflexivity |];
    rewrite Hp; cbn [with_proc w_changes proc_left]; lia).
Qed.

Lemma run_less : forall ls s s' n, inv s -> calls_below s n -> forallb inside ls = true -> w_run s ls = Some s' ->
  length ls <= left_to_do s n.
Proof.
  induction ls as [| l ls IH]; intros s s' n I C Hin H; cbn [w_run length forallb] in *; [lia |].
  apply andb_true_iff in Hin. destruct Hin as [Hl Hin].
  destruct (w_step s l) as [s1 |] eqn:E; [| discriminate].
  destruct (step_less s s1 l n I C Hl E) as [A B]. specialize (IH s1 s' n (step_inv _ _ _ I E) B Hin H). lia.
Qed.

Lemma calls_bounded : forall ls s s' n, calls_below s n -> w_run s ls = Some s' -> exists m, calls_below s' m.
Proof.
  induction ls as [| l ls IH]; intros s s' n C H; cbn [w_run] in H; [injection H as <-; eauto |].
  destruct (w_step s l) as [s1 |] eqn:E; [| discriminate].
  assert (Z : w_proc s1 = w_proc s1) by reflexivity. clear Z.
  assert (X : exists t c, w_call s1 = w_call s \/ w_call s1 = wset (w_call s) t c).
  { destruct l as [t e | t | t | i | i | i]; cbn [w_step] in E.
    - destruct (w_call s t); try discriminate. injection E as <-. cbn. eauto.
    - destruct (w_call s t); try discriminate. destruct (w_trans s); try discriminate. injection E as <-. cbn. eauto.
    - unfold call_step in E. destruct (w_call s t); try discriminate; try (destruct (w_lock s); [discriminate |]); injection E as <-; cbn; eauto.
    - exists 0, CIdle. left. unfold proc_step in E.
      destruct (w_proc s i) as [| | es | es | es | es | es base | es base | es base | es base | | | | | | | | ok]; try discriminate;
        try (destruct (w_lock s); [discriminate |]); try (destruct (w_changes s)); try (destruct es);
        (match type of E with Some ?u = Some _ => assert (E2 : s1 = u) by congruence; clear E; subst s1 end); reflexivity.
    - exists 0, CIdle. left. destruct (w_proc s i); try discriminate. destruct (w_changes s); try discriminate. injection E as <-. reflexivity.
    - exists 0, CIdle. left. destruct (w_proc s i); try discriminate; injection E as <-; reflexivity. }
  destruct X as [t [c X]]. apply (IH s1 s' (max n (S t))); [| exact H].
  intros u Hu. destruct X as [-> | ->]; [apply C; lia |]. rewrite wset_other by lia. apply C. lia.
Qed.

Theorem stops : forall ls s, w_run w_init ls = Some s ->
  exists n, forall ls' s', forallb inside ls' = true -> w_run s ls' = Some s' -> length ls' <= n.
Proof.
  intros ls s H. destruct (calls_bounded ls w_init s 0) as [m C]; [intros t _; reflexivity | exact H |].
  exists (left_to_do s m). intros ls' s' Hin H'. exact (run_less ls' s s' m (run_inv _ _ _ inv_init H) C Hin H').
Qed.

(** * Updates from one thread *)

(** The edits that a process has taken, but that are not yet in the tree. *)
Definition taken (p : wproc) : list nat :=
  match p with
  | PGet es | PPop es | PHas es | PSetBuild es | PBuild es _ | PTake es _ | PSetReplace es _ | PReplace es _ => es
  | _ => []
  end.
Definition proper (p : wproc) (tree : option (list nat)) (changes : list nat) : Prop :=
  match p with
  | PPop _ => changes <> []
  | PTake _ base => changes <> [] /\ base = tree
  | PBuild _ base | PSetReplace _ base | PReplace _ base => base = tree
  | _ => True
  end.
Definition taken_of (s : wstate) (o : option nat) : list nat := match o with Some i => taken (w_proc s i) | None => [] end.

(** [o]: the process that works on the tree, if any. *)
Record single (s : wstate) (o : option nat) : Prop := {
  sg_call : forall t, t <> 0 -> w_call s t = CIdle;
  sg_only : forall i, active (w_proc s i) = true -> o = Some i;
  sg_active : forall i, o = Some i -> active (w_proc s i) = true /\ proper (w_proc s i) (w_tree s) (w_changes s);
  sg_fail : forall i, failed (w_proc s i) = false;
  sg_busy : w_busy s = match o with Some _ => true | None => starts (w_call s 0) end;
  sg_start : o <> None -> starts (w_call s 0) = false;
  sg_set : w_call s 0 = CSet -> w_busy s = false;
  sg_tree : exists t, w_tree s = Some t /\ t ++ taken_of s o ++ w_changes s = w_added s }.

Lemma single_init : single w_init None.
Proof. constructor; try (cbn; congruence). exists []. split; reflexivity. Qed.

Lemma same_tree_refl : forall t, same_tree (Some t) (Some t) = true.
Proof. intros t. cbn. destruct (list_eq_dec Nat.eq_dec t t); congruence. Qed.

Lemma call_single : forall s s' t o, inv s -> single s o -> call_step s t = Some s' -> exists o', single s' o'.
Proof.
  intros s s' t o I G H. unfold call_step in H. pose proof G as [C On Ac Fa Bu St Se [T [T1 T2]]].
  destruct (Nat.eq_dec t 0) as [-> | D]; [| rewrite (C t D) in H; discriminate].
  destruct (w_call s 0) as [| e | | | |] eqn:Hc; try discriminate.
  - destruct (w_lock s) eqn:Hl; [discriminate |]. injection H as <-. exists o.
    constructor; cbn [with_call with_added with_changes w_call w_proc w_tree w_changes w_busy w_added starts]; try rewrite wset_same; auto.
    + intros u Hu. rewrite wset_other by exact Hu. auto.
    + intros i Hi. destruct (Ac i Hi) as [A B]. split; [exact A |]. destruct (w_proc s i); cbn in *; auto; try (destruct B; split; auto);
        intros X; apply app_eq_nil in X; destruct X; discriminate.
    + discriminate.
    + exists T. split; [exact T1 |]. rewrite <- T2. unfold taken_of. cbn [w_proc]. now rewrite <- !app_assoc.
  - injection H as <-. exists o.
    constructor; cbn [with_call w_call w_proc w_tree w_changes w_busy w_added]; try rewrite wset_same; auto.
    + intros u Hu. rewrite wset_other by exact Hu. auto.
    + destruct (w_busy s) eqn:Hb; destruct o; cbn in *; congruence.
    + intros X. now destruct (w_busy s).
    + destruct (w_busy s); [discriminate | reflexivity].
    + exists T. split; [exact T1 |]. exact T2.
  - injection H as <-. specialize (Se eq_refl). exists o.
    constructor; cbn [with_call with_busy w_call w_proc w_tree w_changes w_busy w_added]; try rewrite wset_same; auto.
    + intros u Hu. rewrite wset_other by exact Hu. auto.
    + now destruct o.
    + intros X. destruct o; [cbn in Bu; congruence | congruence].
    + discriminate.
    + exists T. split; [exact T1 |]. exact T2.
  - injection H as <-. exists o.
    constructor; cbn [with_call with_state w_call w_proc w_tree w_changes w_busy w_added]; try rewrite wset_same; auto.
    + intros u Hu. rewrite wset_other by exact Hu. auto.
    + discriminate.
    + exists T. split; [exact T1 |]. exact T2.
  - injection H as <-. assert (o = None) as -> by (destruct o; [specialize (St ltac:(discriminate)); discriminate | reflexivity]).
    exists (Some (w_next s)).
    constructor; cbn [with_call with_proc with_next w_call w_proc w_tree w_changes w_busy w_added]; try rewrite wset_same; auto.
    + intros u Hu. rewrite wset_other by exact Hu. auto.
    + intros i. destruct (Nat.eq_dec i (w_next s)) as [-> | D]; [auto |]. rewrite wset_other by exact D. intros X.
      specialize (On i X). discriminate.
    + intros i E. assert (i = w_next s) as -> by congruence. rewrite wset_same. cbn. auto.
    + intros i. destruct (Nat.eq_dec i (w_next s)) as [-> | D]; [now rewrite wset_same |]. rewrite wset_other by exact D. auto.
    + discriminate.
    + exists T. split; [exact T1 |]. unfold taken_of. cbn. now rewrite wset_same.
Qed.

(** The process that works on the tree goes on with it. *)
Lemma worker_single : forall s s' i p, single s (Some i) ->
  w_proc s' = wset (w_proc s) i p -> active p = true -> w_call s' = w_call s -> w_busy s' = w_busy s ->
  proper p (w_tree s') (w_changes s') ->
  (exists t, w_tree s' = Some t /\ t ++ taken p ++ w_changes s' = w_added s') -> single s' (Some i).
Proof.
  intros s s' i p [C On Ac Fa Bu St Se _] EP Ha EC EB Hp HT.
  constructor; rewrite ?EC, ?EB; auto.
  - intros j. rewrite EP. destruct (Nat.eq_dec j i) as [-> | D]; [auto |]. rewrite wset_other by exact D. apply On.
  - intros j E. assert (j = i) as -> by congruence. rewrite EP, wset_same. auto.
  - intros j. rewrite EP. destruct (Nat.eq_dec j i) as [-> | D]; [| rewrite wset_other by exact D; apply Fa].
    rewrite wset_same. destruct p; cbn in *; congruence.
  - unfold taken_of. rewrite EP, wset_same. exact HT.
Qed.

(** Another process does something that is not seen. *)
Lemma other_single : forall s s' i p o, single s o -> active (w_proc s i) = false ->
  w_proc s' = wset (w_proc s) i p -> active p = false -> failed p = false -> w_call s' = w_call s -> w_busy s' = w_busy s -> w_tree s' = w_tree s ->
  w_changes s' = w_changes s -> w_added s' = w_added s -> single s' o.
Proof.
  intros s s' i p o [C On Ac Fa Bu St Se HT] H1 EP H2 H3 EC EB ET ECh EA.
  constructor; rewrite ?EC, ?EB, ?ET, ?ECh, ?EA; auto.
  - intros j. rewrite EP. destruct (Nat.eq_dec j i) as [-> | D]; [rewrite wset_same; congruence |].
    rewrite wset_other by exact D. apply On.
  - intros j E. destruct (Ac j E) as [A B]. rewrite EP, wset_other; [auto |]. intros ->. congruence.
  - intros j. rewrite EP. destruct (Nat.eq_dec j i) as [-> | D]; [now rewrite wset_same |]. rewrite wset_other by exact D. apply Fa.
  - unfold taken_of in *. destruct o as [k |]; [| exact HT]. rewrite EP, wset_other; [exact HT |].
    intros ->. destruct (Ac i eq_refl). congruence.
Qed.

Ltac worker_tac G i := eapply (worker_single _ _ i);
  [exact G | reflexivity | reflexivity | reflexivity | reflexivity | ..];
  cbn [with_proc with_lock with_changes with_state with_tree w_tree w_changes w_added proper taken].

Lemma proc_single : forall s s' i o, inv s -> single s o -> proc_step s i = Some s' -> exists o', single s' o'.
Proof.
  intros s s' i o I G H. unfold proc_step in H. pose proof G as [C On Ac Fa Bu St Se [T [T1 T2]]].
  pose proof (On i) as Oi. pose proof (Fa i) as Fi. pose proof (inv_empty s I i) as E0.
  destruct (w_proc s i) as [| | es | es | es | es | es base | es base | es base | es base | | | | | | | | ok] eqn:Hp;
    cbn in Oi, Fi, E0; try discriminate.
  - assert (o = Some i) as -> by auto. destruct (w_lock s); [discriminate |]. injection H as <-. exists (Some i). worker_tac G i; auto.
    exists T. split; [exact T1 |]. cbn in T2. rewrite Hp in T2. exact T2.
  - assert (o = Some i) as -> by auto. destruct (Ac i eq_refl) as [A B]. rewrite Hp in B. cbn in T2. rewrite Hp in T2. cbn [taken] in T2.
    injection H as <-. exists (Some i). destruct (w_changes s) as [| e l] eqn:Hc.
    + eapply (worker_single _ _ i); [exact G | reflexivity | now destruct es | reflexivity | reflexivity | exact Logic.I |].
      exists T. cbn [with_proc w_tree w_changes w_added taken]. rewrite Hc. auto.
    + worker_tac G i; [rewrite Hc; discriminate |]. exists T. rewrite Hc. auto.
  - assert (o = Some i) as -> by auto. destruct (Ac i eq_refl) as [A B]. rewrite Hp in B. cbn in T2, B. rewrite Hp in T2. cbn [taken] in T2.
    destruct (w_changes s) as [| e l] eqn:Hc; [congruence |]. injection H as <-. exists (Some i). worker_tac G i; [exact Logic.I |].
    exists T. split; [exact T1 |]. rewrite <- T2, <- app_assoc. reflexivity.
  - specialize (E0 eq_refl). assert (o = Some i) as -> by (destruct es; auto). cbn in T2. rewrite Hp in T2. cbn [taken] in T2.
    destruct es as [| e es]; injection H as <-; exists (Some i).
    + worker_tac G i; [exact Logic.I |]. exists T. auto.
    + worker_tac G i; [exact Logic.I |]. exists T. auto.
  - assert (o = Some i) as -> by auto. cbn in T2. rewrite Hp in T2. cbn [taken] in T2.
    injection H as <-. exists (Some i). worker_tac G i; [reflexivity |]. exists T. auto.
  - assert (o = Some i) as -> by auto. cbn in T2. rewrite Hp in T2. cbn [taken] in T2. destruct (Ac i eq_refl) as [_ B]. rewrite Hp in B. cbn in B.
    injection H as <-. exists (Some i). worker_tac G i; [exact B |]. exists T. auto.
  - assert (o = Some i) as -> by auto. cbn in T2. rewrite Hp in T2. cbn [taken] in T2. destruct (Ac i eq_refl) as [_ B]. rewrite Hp in B. cbn in B.
    destruct B as [B1 B2]. destruct (w_changes s) as [| e l] eqn:Hc; [congruence |]. injection H as <-. exists (Some i).
    worker_tac G i; [exact B2 |]. exists T. split; [exact T1 |]. rewrite <- T2, <- app_assoc. reflexivity.
  - assert (o = Some i) as -> by auto. cbn in T2. rewrite Hp in T2. cbn [taken] in T2. destruct (Ac i eq_refl) as [_ B]. rewrite Hp in B. cbn in B.
    injection H as <-. exists (Some i). worker_tac G i; [exact B |]. exists T. auto.
  - assert (o = Some i) as -> by auto. cbn in T2. rewrite Hp in T2. cbn [taken] in T2. destruct (Ac i eq_refl) as [_ B]. rewrite Hp in B. cbn in B.
    rewrite B, T1, same_tree_refl in H. injection H as <-. exists (Some i). worker_tac G i; [exact Logic.I |].
    exists (T ++ es). split; [reflexivity |]. rewrite <- T2, <- app_assoc. reflexivity.
  - assert (o = Some i) as -> by auto. cbn in T2. rewrite Hp in T2. cbn [taken] in T2. injection H as <-. exists None.
    constructor; cbn [with_proc with_busy w_call w_proc w_tree w_changes w_busy w_added]; auto.
    + intros j. destruct (Nat.eq_dec j i) as [-> | D]; [rewrite wset_same; discriminate |]. rewrite wset_other by exact D. intros X.
      specialize (On j X). congruence.
    + discriminate.
    + intros j. destruct (Nat.eq_dec j i) as [-> | D]; [now rewrite wset_same |]. rewrite wset_other by exact D. apply Fa.
    + now rewrite St by discriminate.
    + exists T. auto.
  - injection H as <-. exists o. eapply (other_single s _ i); [exact G | now rewrite Hp | ..]; reflexivity.
  - injection H as <-. exists o. eapply (other_single s _ i); [exact G | now rewrite Hp | ..]; reflexivity.
  - injection H as <-. exists o. eapply (other_single s _ i); [exact G | now rewrite Hp | ..]; reflexivity.
  - injection H as <-. exists o. eapply (other_single s _ i); [exact G | now rewrite Hp | ..]; reflexivity.
  - injection H as <-. exists o. eapply (other_single s _ i); [exact G | now rewrite Hp | ..]; reflexivity.
Qed.

Lemma step_single : forall s s' l o, inv s -> single s o -> from_main l -> w_step s l = Some s' -> exists o', single s' o'.
Proof.
  intros s s' l o I G F. destruct l as [t e | t | t | i | i | i]; cbn [from_main w_step] in *; try contradiction.
  - subst t. destruct (w_call s 0) eqn:Hc; try discriminate. intros H. injection H as <-. exists o.
    destruct G as [C On Ac Fa Bu St Se HT].
    constructor; cbn [with_call w_call w_proc w_tree w_changes w_busy w_added]; try rewrite wset_same; auto.
    + intros u Hu. rewrite wset_other by exact Hu. auto.
    + rewrite Hc in Bu. exact Bu.
    + discriminate.
  - apply (call_single s s' t o I G).
  - apply (proc_single s s' i o I G).
  - destruct (w_proc s i) as [| | es | es | es | es | es base | es base | es base | es base | | | | | | | | ok] eqn:Hp; try discriminate.
    destruct (w_changes s) as [| e l] eqn:Hc; [discriminate |]. intros H. injection H as <-.
    assert (o = Some i) as -> by (apply (sg_only _ _ G); now rewrite Hp).
    destruct (sg_tree _ _ G) as [T [T1 T2]]. destruct (sg_active _ _ G i eq_refl) as [_ B]. cbn in T2. rewrite Hp in T2, B. cbn in T2, B.
    exists (Some i). worker_tac G i; [rewrite Hc; split; [discriminate | exact B] |]. exists T. auto.
Qed.

Lemma run_single : forall ls s s' o, inv s -> single s o -> Forall from_main ls -> w_run s ls = Some s' -> exists o', single s' o'.
Proof.
  induction ls as [| l ls IH]; intros s s' o I G F H; cbn [w_run] in H.
  - injection H as <-. eauto.
  - destruct (w_step s l) as [s1 |] eqn:E; [| discriminate]. inversion F as [| x y F1 F2]; subst.
    destruct (step_single _ _ _ _ I G F1 E) as [o' G']. exact (IH s1 s' o' (step_inv _ _ _ I E) G' F2 H).
Qed.

Theorem main_reflects : forall ls s, Forall from_main ls -> w_run w_init ls = Some s ->
  no_exception s /\ (stopped s -> w_changes s = [] /\ w_tree s = Some (w_added s)).
Proof.
  intros ls s F H. destruct (run_single _ _ _ _ inv_init single_init F H) as [o G].
  assert (NE : no_exception s).
  { intros i. pose proof (sg_fail _ _ G i) as X. destruct (w_proc s i) as [| | | | | | | | | | | | | | | | | [|]]; cbn in X; split; congruence. }
  split; [exact NE |]. intros S. pose proof (nothing_pending ls s H S NE) as Hc. split; [exact Hc |].
  destruct (sg_tree _ _ G) as [T [T1 T2]]. destruct o as [i |].
  - exfalso. destruct (sg_active _ _ G i eq_refl) as [A _]. destruct S as [_ S]. destruct (S i) as [Z | [ok Z]]; rewrite Z in A; discriminate.
  - rewrite Hc in T2. cbn in T2. rewrite app_nil_r in T2. congruence.
Qed.

(** * Processes one at a time *)

Definition ended (p : wproc) : Prop := p = PNone \/ exists ok, p = PEnd ok.

Record alone (s : wstate) : Prop := {
  al_one : forall i j, ~ ended (w_proc s i) -> ~ ended (w_proc s j) -> i = j;
  al_wait : forall i, active (w_proc s i) = true -> waits s = true;
  al_spawn : forall t, w_call s t = CSpawn -> all_ended s /\ waits s = true }.

Lemma alone_init : alone w_init.
Proof. constructor; cbn; try discriminate. intros i j H. exfalso. apply H. now left. Qed.

Lemma active_not_ended : forall p, active p = true -> ~ ended p.
Proof. intros p H [-> | [ok ->]]; discriminate. Qed.

Lemma proc_alone : forall s s' i p, alone s -> ~ ended (w_proc s i) -> w_proc s' = wset (w_proc s) i p -> w_call s' = w_call s ->
  (active p = true -> waits s' = true) -> alone s'.
Proof.
  intros s s' i p [A B D] N EP EC HW. constructor.
  - intros j k. rewrite EP. destruct (Nat.eq_dec j i) as [-> | Dj], (Nat.eq_dec k i) as [-> | Dk]; auto.
    + rewrite wset_same, wset_other by exact Dk. intros _ X. auto.
    + rewrite wset_same, wset_other by exact Dj. intros X _. auto.
    + rewrite !wset_other by assumption. auto.
  - intros j. rewrite EP. destruct (Nat.eq_dec j i) as [-> | Dj]; [rewrite wset_same; exact HW |].
    rewrite wset_other by exact Dj. intros X. exfalso. apply Dj. apply A; [now apply active_not_ended | exact N].
  - intros t Ht. rewrite EC in Ht. destruct (D t Ht) as [X _]. exfalso. exact (N (X i)).
Qed.

Lemma step_alone : forall s s' l o, inv s -> single s o -> from_main l -> alone s ->
  match l with Caller t => w_call s t = CStart -> all_ended s | _ => True end -> w_step s l = Some s' -> alone s'.
Proof.
  intros s s' l o I G F A K. destruct l as [t e | t | t | i | i | i]; cbn [from_main w_step] in *; try contradiction.
  - destruct (w_call s t) eqn:Hc; try discriminate. intros H. injection H as <-. destruct A as [A B D]. constructor; auto.
    intros u. cbn [with_call w_call]. destruct (Nat.eq_dec u t) as [-> | Du]; [rewrite wset_same; discriminate |].
    rewrite wset_other by exact Du. apply D.
  - unfold call_step. intros H.
    assert (t = 0) as ->. { destruct (Nat.eq_dec t 0) as [X | X]; [exact X |]. rewrite (sg_call _ _ G t X) in H. discriminate. }
    destruct A as [A B D].
    assert (U : forall c u, u <> 0 -> wset (w_call s) 0 c u = CIdle).
    { intros c u Hu. rewrite wset_other by exact Hu. exact (sg_call _ _ G u Hu). }
    assert (V : forall c u, c <> CSpawn -> wset (w_call s) 0 c u <> CSpawn).
    { intros c u Hcc. destruct (Nat.eq_dec u 0) as [-> | Du]; [now rewrite wset_same |]. rewrite (U c u Du). discriminate. }
    destruct (w_call s 0) as [| e | | | |] eqn:Hc; try discriminate.
    + destruct (w_lock s); [discriminate |]. injection H as <-. constructor; auto.
      intros u Hu. exfalso. revert Hu. apply V. discriminate.
    + injection H as <-. constructor; auto. intros u Hu. exfalso. revert Hu. apply V. destruct (w_busy s); discriminate.
    + injection H as <-. constructor; auto. intros u Hu. exfalso. revert Hu. apply V. discriminate.
    + injection H as <-. specialize (K eq_refl). constructor; [exact A | reflexivity |]. intros u _. split; [exact K | reflexivity].
    + injection H as <-. destruct (D 0 Hc) as [X W].
      constructor; cbn [with_call with_proc with_next w_proc w_call]; auto.
      * intros i j. destruct (Nat.eq_dec i (w_next s)) as [-> | Di], (Nat.eq_dec j (w_next s)) as [-> | Dj]; auto.
        -- rewrite (wset_other _ _ _ _ _ Dj). intros _ Y. exfalso. exact (Y (X j)).
        -- rewrite (wset_other _ _ _ _ _ Di). intros Y. exfalso. exact (Y (X i)).
        -- rewrite !wset_other by assumption. auto.
      * intros u Hu. exfalso. revert Hu. apply V. discriminate.
  - unfold proc_step. intros H.
    destruct (w_proc s i) as [| | es | es | es | es | es base | es base | es base | es base | | | | | | | | ok] eqn:Hp; try discriminate;
      try (destruct (w_lock s); [discriminate |]); pose proof (al_wait s A i) as W; rewrite Hp in W;
      try (destruct (w_changes s)); try (destruct es);
      (match type of H with Some ?u = Some _ => assert (E2 : s' = u) by congruence; clear H; subst s' end);
      (eapply (proc_alone s _ i); [exact A | intros [Z | [ok Z]]; congruence | reflexivity | reflexivity |]); cbn; intros Z;
      try discriminate; try reflexivity; try exact (W eq_refl).
  - destruct (w_proc s i) eqn:Hp; try discriminate. destruct (w_changes s); [discriminate |]. intros H. injection H as <-.
    pose proof (al_wait s A i) as W. rewrite Hp in W.
    eapply (proc_alone s _ i); [exact A | intros [Z | [ok Z]]; congruence | reflexivity | reflexivity | intros _; exact (W eq_refl)].
Qed.

Lemma run_alone : forall ls s s' o, inv s -> single s o -> alone s -> Forall from_main ls -> one_at_a_time s ls ->
  w_run s ls = Some s' -> inv s' /\ alone s' /\ exists o', single s' o'.
Proof.
  induction ls as [| l ls IH]; intros s s' o I G A F K H; cbn [w_run one_at_a_time] in *.
  - injection H as <-. eauto.
  - destruct (w_step s l) as [s1 |] eqn:E; [| discriminate]. inversion F as [| x y F1 F2]; subst. destruct K as [K1 K2].
    destruct (step_single _ _ _ _ I G F1 E) as [o' G'].
    exact (IH s1 s' o' (step_inv _ _ _ I E) G' (step_alone _ _ _ _ I G F1 A K1 E) F2 K2 H).
Qed.

Theorem waiting_gives_all : forall ls s, Forall from_main ls -> one_at_a_time w_init ls -> w_run w_init ls = Some s ->
  w_call s 0 = CIdle -> waits s = false -> w_tree s = Some (w_added s).
Proof.
  intros ls s F K H Hc Hw. destruct (run_alone _ _ _ _ inv_init single_init alone_init F K H) as [I [A [o G]]].
  assert (NA : forall i, active (w_proc s i) = false).
  { intros i. destruct (active (w_proc s i)) eqn:E; [| reflexivity]. rewrite (al_wait s A i E) in Hw. discriminate. }
  destruct (sg_tree _ _ G) as [T [T1 T2]].
  assert (o = None) as ->. { destruct o as [i |]; [| reflexivity]. destruct (sg_active _ _ G i eq_refl) as [X _]. rewrite NA in X. discriminate. }
  assert (Hch : w_changes s = []).
  { destruct (w_changes s) as [| e l] eqn:Hch; [reflexivity | exfalso].
    destruct (inv_more s I) as [[t X] | [[i X] | [i X]]]; [rewrite Hch; discriminate | | |].
    - destruct (Nat.eq_dec t 0) as [-> | D]; [rewrite Hc in X; discriminate |]. rewrite (sg_call _ _ G t D) in X. discriminate.
    - specialize (NA i). unfold active in NA. rewrite X in NA. discriminate.
    - rewrite (sg_fail _ _ G i) in X. discriminate. }
  rewrite Hch in T2. cbn in T2. rewrite app_nil_r in T2. congruence.
Qed.

(** * After an exception *)

(** The builder is busy, but no process is there and none will be started. *)
Record dead (s : wstate) : Prop := {
  dd_end : all_ended s;
  dd_busy : w_busy s = true;
  dd_call : forall t, w_call s t = CIdle \/ w_call s t = CCheck \/ exists e, w_call s t = CAdd e }.

Lemma dead_call : forall s t c, (forall u, w_call s u = CIdle \/ w_call s u = CCheck \/ exists e, w_call s u = CAdd e) ->
  c = CIdle \/ c = CCheck \/ (exists e, c = CAdd e) ->
  forall u, wset (w_call s) t c u = CIdle \/ wset (w_call s) t c u = CCheck \/ exists e, wset (w_call s) t c u = CAdd e.
Proof.
  intros s t c H Hc u. destruct (Nat.eq_dec u t) as [-> | D]; [now rewrite wset_same |]. rewrite wset_other by exact D. apply H.
Qed.

Lemma dead_step : forall s s' l, dead s -> (forall t, l <> SetTransformer t) -> w_step s l = Some s' ->
  dead s' /\ w_tree s' = w_tree s /\ exists m, w_changes s' = w_changes s ++ m /\ w_added s' = w_added s ++ m.
Proof.
  intros s s' l [DE DB DC] NT. destruct l as [t e | t | t | i | i | i]; cbn [w_step]; intros H.
  - destruct (w_call s t); try discriminate. injection H as <-. split; [| split; [reflexivity | exists []; now rewrite !app_nil_r]].
    constructor; auto. apply dead_call; eauto.
  - exfalso. exact (NT t eq_refl).
  - unfold call_step in H. destruct (DC t) as [X | [X | [e X]]]; rewrite X in H; [discriminate | |].
    + rewrite DB in H. injection H as <-. split; [| split; [reflexivity | exists []; now rewrite !app_nil_r]].
      constructor; auto. apply dead_call; eauto.
    + destruct (w_lock s); [discriminate |]. injection H as <-. split; [| split; [reflexivity | exists [e]; split; reflexivity]].
      constructor; auto. apply dead_call; eauto.
  - unfold proc_step in H. destruct (DE i) as [X | [ok X]]; rewrite X in H; discriminate.
  - destruct (DE i) as [X | [ok X]]; rewrite X in H; discriminate.
  - destruct (DE i) as [X | [ok X]]; rewrite X in H; discriminate.
Qed.

Lemma dead_run : forall ls s s', dead s -> Forall (fun l => forall t, l <> SetTransformer t) ls -> w_run s ls = Some s' ->
  dead s' /\ w_tree s' = w_tree s /\ exists m, w_changes s' = w_changes s ++ m /\ w_added s' = w_added s ++ m.
Proof.
  induction ls as [| l ls IH]; intros s s' D F H; cbn [w_run] in H.
  - injection H as <-. split; [exact D | split; [reflexivity | exists []; now rewrite !app_nil_r]].
  - destruct (w_step s l) as [s1 |] eqn:E; [| discriminate]. inversion F as [| x y F1 F2]; subst.
    destruct (dead_step _ _ _ D F1 E) as [D1 [T1 [m1 [C1 A1]]]]. destruct (IH _ _ D1 F2 H) as [D2 [T2 [m2 [C2 A2]]]].
    split; [exact D2 | split; [congruence | exists (m1 ++ m2)]]. rewrite C2, A2, C1, A1, !app_assoc. auto.
Qed.

(** * Checking [one_at_a_time] for examples *)

Definition is_end (p : wproc) : bool := match p with PNone | PEnd _ => true | _ => false end.
Fixpoint check_one (s : wstate) (ls : list wlabel) : bool :=
  match ls with
  | [] => true
  | l :: ls =>
      match l with
      | Caller t => match w_call s t with CStart => forallb (fun i => is_end (w_proc s i)) (seq 0 (w_next s)) | _ => true end
      | _ => true
      end && match w_step s l with Some s => check_one s ls | None => true end
  end.
Lemma check_one_correct : forall ls s, inv s -> check_one s ls = true -> one_at_a_time s ls.
Proof.
  induction ls as [| l ls IH]; intros s I H; cbn [check_one one_at_a_time] in *; [exact Logic.I |].
  apply andb_true_iff in H. destruct H as [H1 H2]. split.
  - destruct l as [t e | t | t | i | i | i]; auto. intros Hc. rewrite Hc in H1. intros i.
    destruct (le_lt_dec (w_next s) i) as [X | X]; [left; now apply (inv_next s I) |].
    rewrite forallb_forall in H1. specialize (H1 i ltac:(apply in_seq; lia)).
    destruct (w_proc s i) as [| | | | | | | | | | | | | | | | | ok]; try discriminate; [left | right; exists ok]; reflexivity.
  - destruct (w_step s l) as [s1 |] eqn:E; [| exact Logic.I]. exact (IH s1 (step_inv _ _ _ I E) H2).
Qed.
