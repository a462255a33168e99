(** Proofs about observers. *)
From Verif Require Import Base ObserverModel ObserverSpec.
From Coq Require Import ZArith ZifyBool.

(** ** Lists *)

Lemma set_nth_length {A} (l : list A) i x : length (set_nth l i x) = length l.
Proof. revert i. induction l as [|y l IH]; intros [|i]; cbn [set_nth length]; auto. Qed.
Lemma nth_set_same {A} (l : list A) i x d : i < length l -> nth i (set_nth l i x) d = x.
Proof. revert i. induction l as [|y l IH]; intros [|i] H; cbn [set_nth nth length] in *; try lia; auto. apply IH. lia. Qed.
Lemma nth_set_other {A} (l : list A) i j x d : i <> j -> nth j (set_nth l i x) d = nth j l d.
Proof. revert i j. induction l as [|y l IH]; intros [|i] [|j] H; cbn [set_nth nth]; try reflexivity; try lia. apply IH. lia. Qed.

Definition slots (s : ustate) (e : nat) : list observer :=
  match lookup e (u_cbs s) with Some id => slots_of s id | None => [] end.

Definition inv (s : ustate) : Prop :=
  NoDup (map fst (u_cbs s)) /\ NoDup (map snd (u_cbs s)) /\ forall x, In x (u_cbs s) -> snd x < length (u_heap s).

Lemma lookup_in e cbs id : lookup e cbs = Some id -> In (e, id) cbs.
Proof.
  unfold lookup. destruct (find _ cbs) as [[e' id']|] eqn:E; [|discriminate]. intros [= <-]. apply find_some in E as [E1 E2]. cbn [fst] in E2.
  apply Nat.eqb_eq in E2. subst. exact E1.
Qed.
Lemma lookup_none e cbs : lookup e cbs = None -> forall x, In x cbs -> fst x <> e.
Proof.
  unfold lookup. destruct (find _ cbs) as [[e' id']|] eqn:E; [discriminate|]. intros _ x Hx H. pose proof (find_none _ _ E x Hx) as Hn. cbn in Hn. lia.
Qed.
Lemma in_lookup e id cbs : NoDup (map fst cbs) -> In (e, id) cbs -> lookup e cbs = Some id.
Proof.
  intros Hn Hi. induction cbs as [|[e' id'] cbs IH]; [destruct Hi|]. inversion Hn as [|? ? H1 H2]; subst. unfold lookup. cbn [find fst].
  destruct Hi as [[= -> ->]|Hi]; [rewrite Nat.eqb_refl; reflexivity|]. destruct (e' =? e) eqn:E; [|apply (IH H2 Hi)].
  apply Nat.eqb_eq in E. subst. exfalso. apply H1. apply in_map_iff. exists (e, id). auto.
Qed.
Lemma lookup_del e e' cbs : lookup e (del_event e' cbs) = if e =? e' then None else lookup e cbs.
Proof.
  unfold lookup, del_event. induction cbs as [|[x id] cbs IH]; cbn [filter find fst]; [destruct (e =? e'); reflexivity|].
  destruct (x =? e') eqn:E1; cbn [negb find fst].
  - rewrite IH. destruct (e =? e') eqn:E2; [reflexivity|]. replace (x =? e) with false by lia. reflexivity.
  - destruct (x =? e) eqn:E2; [replace (e =? e') with false by lia; reflexivity|exact IH].
Qed.
Lemma lookup_app e cbs e' id : lookup e (cbs ++ [(e', id)]) = match lookup e cbs with Some i => Some i | None => if e' =? e then Some id else None end.
Proof.
  unfold lookup. induction cbs as [|[x i] cbs IH]; cbn [app find fst]; [destruct (e' =? e); reflexivity|]. destruct (x =? e); [reflexivity|exact IH].
Qed.

Lemma lookup_inj s e e' id : inv s -> lookup e (u_cbs s) = Some id -> lookup e' (u_cbs s) = Some id -> e = e'.
Proof.
  intros (_ & H & _) H1 H2. apply lookup_in in H1, H2. revert H1 H2. generalize H. clear. induction (u_cbs s) as [|[x i] l IH]; intros H H1 H2; [destruct H1|].
  inversion H as [|? ? K1 K2]; subst. destruct H1 as [[= -> ->]|H1], H2 as [[= ->]|H2]; auto.
  - exfalso. apply K1. cbn. apply in_map_iff. exists (e', id). auto.
  - subst. exfalso. apply K1. cbn. apply in_map_iff. exists (e, id). auto.
Qed.

(** ** One operation that does not call functions *)

Lemma filter_incl {A} (f : A -> bool) l x : In x (filter f l) -> In x l.
Proof. intros H. apply filter_In in H. apply H. Qed.
Lemma NoDup_map_filter {A B} (g : A -> B) f l : NoDup (map g l) -> NoDup (map g (filter f l)).
Proof.
  induction l as [|x l IH]; intros H; [constructor|]. inversion H as [|? ? H1 H2]; subst. cbn [filter]. destruct (f x); [|auto].
  cbn [map]. constructor; [|auto]. intros Hi. apply H1. apply in_map_iff in Hi as (y & E & Hy). apply filter_incl in Hy. apply in_map_iff. eauto.
Qed.

Lemma inv_set s id l : inv s -> inv (set_slots s id l).
Proof. intros (H1 & H2 & H3). unfold set_slots, inv. cbn [u_cbs u_heap]. rewrite set_nth_length. auto. Qed.
Lemma inv_del s e : inv s -> inv (UState (del_event e (u_cbs s)) (u_heap s) (u_log s)).
Proof.
  intros (H1 & H2 & H3). unfold inv, del_event. cbn [u_cbs u_heap]. split; [apply NoDup_map_filter; exact H1|].
  split; [apply NoDup_map_filter; exact H2|]. intros x Hx. apply H3. apply filter_incl in Hx. exact Hx.
Qed.
Lemma inv_log s log : inv s -> inv (UState (u_cbs s) (u_heap s) log).
Proof. intros H; exact H. Qed.

Lemma NoDup_snoc' {A} (l : list A) x : NoDup l -> ~ In x l -> NoDup (l ++ [x]).
Proof.
  induction l as [|y l IH]; intros H Hx; [repeat constructor; auto|]. inversion H; subst. cbn [app]. constructor.
  - intros Hin. apply in_app_iff in Hin as [Hin|[->|[]]]; [auto|]. apply Hx. left; reflexivity.
  - apply IH; [assumption|]. intros Hin. apply Hx. right; exact Hin.
Qed.

Lemma inv_new s e : inv s -> lookup e (u_cbs s) = None -> inv (UState (u_cbs s ++ [(e, length (u_heap s))]) (u_heap s ++ [[]]) (u_log s)).
Proof.
  intros (H1 & H2 & H3) Hl. unfold inv. cbn [u_cbs u_heap]. rewrite !map_app, app_length. cbn [map length fst snd]. split; [|split].
  - apply NoDup_snoc'; [exact H1|]. intros Hi. apply in_map_iff in Hi as (x & E & Hx). apply (lookup_none _ _ Hl x Hx E).
  - apply NoDup_snoc'; [exact H2|]. intros Hi. apply in_map_iff in Hi as (x & E & Hx). specialize (H3 x Hx). lia.
  - intros x Hx. apply in_app_iff in Hx as [Hx|[<-|[]]]; [specialize (H3 x Hx); lia|cbn; lia].
Qed.

Lemma connect_inv s e f once prio : inv s -> inv (connect s e f once prio).
Proof.
  intros H. unfold connect. destruct (lookup e (u_cbs s)) as [id|] eqn:E.
  - destruct (existsb _ _); [exact H|]. apply inv_set. exact H.
  - pose proof (inv_new s e H E) as Hn. destruct (existsb _ _); [exact Hn|]. apply inv_set. exact Hn.
Qed.
Lemma disconnect_inv s e f : inv s -> inv (disconnect s e f).
Proof.
  intros H. unfold disconnect. destruct (lookup e (u_cbs s)) as [id|] eqn:E; [|exact H].
  destruct (remove_func f (slots_of s id)) as [l|]; [|exact H]. pose proof (inv_set s id l H) as Hs. destruct l; [|exact Hs]. apply inv_del. exact Hs.
Qed.
Lemma disconnect_all_inv s e : inv s -> inv (disconnect_all s e).
Proof.
  intros H. destruct e as [e|]; [apply inv_del; exact H|]. unfold inv. cbn. repeat split; try constructor. intros x [].
Qed.

(** *** What other events see *)

Definition same_for (e : nat) (s s' : ustate) : Prop :=
  lookup e (u_cbs s') = lookup e (u_cbs s)
  /\ (forall id, lookup e (u_cbs s) = Some id -> slots_of s' id = slots_of s id)
  /\ filter (fun x => fst x =? e) (u_log s') = filter (fun x => fst x =? e) (u_log s).

Lemma same_refl e s : same_for e s s.
Proof. repeat split. Qed.
Lemma same_trans e s1 s2 s3 : same_for e s1 s2 -> same_for e s2 s3 -> same_for e s1 s3.
Proof.
  intros (A1 & A2 & A3) (B1 & B2 & B3). split; [congruence|]. split; [|congruence]. intros id H. rewrite B2 by congruence. auto.
Qed.
Lemma same_slots e s s' : same_for e s s' -> slots s' e = slots s e.
Proof. intros (A1 & A2 & A3). unfold slots. rewrite A1. destruct (lookup e (u_cbs s)) as [id|] eqn:E; [|reflexivity]. apply A2. reflexivity. Qed.

Lemma same_set e s id l : (forall id', lookup e (u_cbs s) = Some id' -> id' <> id) -> same_for e s (set_slots s id l).
Proof.
  intros H. split; [reflexivity|]. split; [|reflexivity]. intros id' Hi. unfold slots_of, set_slots. cbn [u_heap]. apply nth_set_other.
  specialize (H id' Hi). lia.
Qed.
Lemma same_del e e' s : e <> e' -> same_for e s (UState (del_event e' (u_cbs s)) (u_heap s) (u_log s)).
Proof. intros H. split; [cbn [u_cbs]; rewrite lookup_del; replace (e =? e') with false by lia; reflexivity|]. split; reflexivity. Qed.
Lemma same_new e e' s : inv s -> e <> e' -> same_for e s (UState (u_cbs s ++ [(e', length (u_heap s))]) (u_heap s ++ [[]]) (u_log s)).
Proof.
  intros (_ & _ & Hi) H. split; [cbn [u_cbs]; rewrite lookup_app; replace (e' =? e) with false by lia; destruct (lookup e (u_cbs s)); reflexivity|].
  split; [|reflexivity]. intros id Hl. unfold slots_of. cbn [u_heap]. apply app_nth1. apply lookup_in in Hl. apply (Hi _ Hl).
Qed.

Lemma connect_same s e e' f once prio : inv s -> e <> e' -> same_for e s (connect s e' f once prio).
Proof.
  intros Hi He. unfold connect. destruct (lookup e' (u_cbs s)) as [id|] eqn:E.
  - destruct (existsb _ _); [apply same_refl|]. apply same_set. intros id' H' ->. apply He. apply (lookup_inj s e e' id Hi H' E).
  - pose proof (same_new e e' s Hi He) as Hn. destruct (existsb _ _); [exact Hn|]. eapply same_trans; [exact Hn|]. apply same_set.
    intros id' H' ->. apply He. apply (lookup_inj _ e e' (length (u_heap s)) (inv_new s e' Hi E) H').
    cbn [u_cbs]. rewrite lookup_app, E, Nat.eqb_refl. reflexivity.
Qed.
Lemma disconnect_same s e e' f : inv s -> e <> e' -> same_for e s (disconnect s e' f).
Proof.
  intros Hi He. unfold disconnect. destruct (lookup e' (u_cbs s)) as [id|] eqn:E; [|apply same_refl].
  destruct (remove_func f (slots_of s id)) as [l|]; [|apply same_refl].
  assert (Hs : same_for e s (set_slots s id l)) by (apply same_set; intros id' H' ->; apply He; apply (lookup_inj s e e' id Hi H' E)).
  destruct l; [|exact Hs]. eapply same_trans; [exact Hs|]. apply same_del. exact He.
Qed.

(** ** Functions that do not use the event *)

Definition touches (e : nat) (o : uop) : Prop :=
  match o with
  | Connect e' _ _ _ | Disconnect e' _ | DisconnectAll (Some e') | Emit e' => e' = e
  | DisconnectAll None => True
  end.

Section Quiet.
Variable alive : nat -> bool.
Variable effect : nat -> list uop.

(** What an emission does to its list. *)
Fixpoint once_from (i : nat) (l : list observer) : list nat :=
  match l with
  | [] => []
  | o :: l => (if alive (o_func o) && negb (o_once o) then [] else [i]) ++ once_from (S i) l
  end.

Lemma del_nth_app {A} (a b : list A) x : del_nth (a ++ x :: b) (length a) = Some (a ++ b).
Proof. induction a as [|y a IH]; [reflexivity|]. cbn [app length del_nth]. rewrite IH. reflexivity. Qed.

Lemma del_all_app {A} (l : list A) is js : del_all l (is ++ js) = match del_all l is with None => None | Some l => del_all l js end.
Proof. revert l. induction is as [|i is IH]; intros l; [reflexivity|]. cbn [app del_all]. destruct (del_nth l i); auto. Qed.

Lemma del_all_once : forall l a, del_all (a ++ l) (rev (once_from (length a) l)) = Some (a ++ filter (fun o => alive (o_func o) && negb (o_once o)) l).
Proof.
  induction l as [|o l IH]; intros a; [reflexivity|]. cbn [once_from filter]. rewrite rev_app_distr, del_all_app.
  replace (a ++ o :: l) with ((a ++ [o]) ++ l) by (rewrite <- app_assoc; reflexivity).
  replace (S (length a)) with (length (a ++ [o])) by (rewrite app_length; cbn; lia). rewrite IH.
  destruct (alive (o_func o) && negb (o_once o)).
  - cbn [rev del_all]. rewrite <- app_assoc. reflexivity.
  - cbn [rev app del_all]. rewrite <- app_assoc. cbn [app]. rewrite del_nth_app. reflexivity.
Qed.

Lemma once_none : forall l i, once_from i l = [] -> filter (fun o => alive (o_func o) && negb (o_once o)) l = l.
Proof.
  induction l as [|o l IH]; intros i H; [reflexivity|]. cbn [once_from filter] in *. destruct (alive (o_func o) && negb (o_once o)); [|discriminate].
  cbn [app] in H. rewrite (IH _ H). reflexivity.
Qed.

(** The operations of functions, as [run_op] runs them. *)
Definition run_list (fuel : nat) : ustate -> list uop -> option ustate :=
  fix run (s : ustate) (ops : list uop) : option ustate :=
    match ops with
    | [] => Some s
    | o :: ops => match run_op alive effect fuel s o with None => None | Some s => run s ops end
    end.

Lemma run_op_emit fuel s e : run_op alive effect (S fuel) s (Emit e) =
  match lookup e (u_cbs s) with
  | None => Some s
  | Some id =>
      match emit_loop alive effect (run_list fuel) fuel s e id 0 [] with
      | None => None
      | Some (s, []) => Some s
      | Some (s, dis) =>
          match del_all (slots_of s id) (rev dis) with
          | None => None
          | Some l =>
              let s := set_slots s id l in
              match l with
              | [] => match lookup e (u_cbs s) with
                      | None => None
                      | Some _ => Some (UState (del_event e (u_cbs s)) (u_heap s) (u_log s))
                      end
              | _ => Some s
              end
          end
      end
  end.
Proof. reflexivity. Qed.

(** Emitting another event. *)
Lemma emit_loop_frame e e' run (He : e <> e') : (forall f, Forall (fun o => ~ touches e o) (effect f)) ->
  (forall s s' ops, inv s -> Forall (fun o => ~ touches e o) ops -> run s ops = Some s' -> inv s' /\ same_for e s s') ->
  forall fuel s id i dis s' dis', inv s -> emit_loop alive effect run fuel s e' id i dis = Some (s', dis') -> inv s' /\ same_for e s s'.
Proof.
  intros Hq Hr. induction fuel as [|fuel IH]; intros s id i dis s' dis' Hi H; [discriminate|]. cbn [emit_loop] in H.
  destruct (nth_error (slots_of s id) i) as [o|]; [|injection H as <- <-; split; [exact Hi|apply same_refl]].
  destruct (alive (o_func o)); [|apply (IH _ _ _ _ _ _ Hi H)].
  destruct (run _ (effect (o_func o))) as [s1|] eqn:E; [|discriminate].
  destruct (Hr _ _ _ (inv_log s _ Hi) (Hq (o_func o)) E) as [R1 R2]. destruct (IH _ _ _ _ _ _ R1 H) as [I1 I2]. split; [exact I1|].
  eapply same_trans; [|exact I2]. eapply same_trans; [|exact R2]. split; [reflexivity|]. split; [reflexivity|]. cbn [u_log].
  rewrite filter_app. cbn [filter fst]. replace (e' =? e) with false by lia. apply app_nil_r.
Qed.

Lemma run_op_frame e : (forall f, Forall (fun o => ~ touches e o) (effect f)) ->
  forall fuel s o s', inv s -> ~ touches e o -> run_op alive effect fuel s o = Some s' -> inv s' /\ same_for e s s'.
Proof.
  intros Hq. induction fuel as [|fuel IH]; intros s o s' Hi Ho H.
  - destruct o as [e' f once prio|e' f|e'|e']; cbn [run_op] in H; try discriminate; injection H as <-; cbn [touches] in Ho.
    + split; [apply connect_inv; exact Hi|apply connect_same; [exact Hi|lia]].
    + split; [apply disconnect_inv; exact Hi|apply disconnect_same; [exact Hi|lia]].
    + split; [apply disconnect_all_inv; exact Hi|]. destruct e' as [e'|]; [|tauto]. apply same_del. lia.
  - destruct o as [e' f once prio|e' f|e'|e'].
    1-3: cbn [run_op] in H; injection H as <-; cbn [touches] in Ho.
    + split; [apply connect_inv; exact Hi|apply connect_same; [exact Hi|lia]].
    + split; [apply disconnect_inv; exact Hi|apply disconnect_same; [exact Hi|lia]].
    + split; [apply disconnect_all_inv; exact Hi|]. destruct e' as [e'|]; [|tauto]. apply same_del. lia.
    + rewrite run_op_emit in H. destruct (lookup e' (u_cbs s)) as [id|] eqn:El; [|injection H as <-; split; [exact Hi|apply same_refl]].
      assert (Hrun : forall s s' ops, inv s -> Forall (fun o => ~ touches e o) ops -> run_list fuel s ops = Some s' -> inv s' /\ same_for e s s').
      { clear - IH. intros s s' ops. revert s. induction ops as [|o ops IHo]; intros s Hi Ho H.
        - injection H as <-. split; [exact Hi|apply same_refl].
        - inversion Ho as [|? ? O1 O2]; subst. cbn [run_list] in H. destruct (run_op alive effect fuel s o) as [s1|] eqn:E; [|discriminate].
          destruct (IH _ _ _ Hi O1 E) as [A1 A2]. destruct (IHo _ A1 O2 H) as [B1 B2]. split; [exact B1|]. eapply same_trans; eassumption. }
      destruct (emit_loop alive effect (run_list fuel) fuel s e' id 0 []) as [[s1 dis]|] eqn:E; [|discriminate].
      cbn [touches] in Ho. assert (He : e <> e') by lia. destruct (emit_loop_frame e e' (run_list fuel) He Hq Hrun _ _ _ _ _ _ _ Hi E) as [F1 F2].
      destruct dis as [|d dis]; [injection H as <-; split; assumption|].
      destruct (del_all _ _) as [l|]; [|discriminate]. cbv zeta in H.
      assert (Hs : same_for e s (set_slots s1 id l)).
      { eapply same_trans; [exact F2|]. apply same_set. intros id' H' ->. destruct F2 as (F2 & _). rewrite F2 in H'.
        apply He. apply (lookup_inj s e e' id Hi H' El). }
      pose proof (inv_set s1 id l F1) as Hv. destruct l as [|x l]; [|injection H as <-; split; assumption].
      destruct (lookup e' (u_cbs (set_slots s1 id []))) as [z|]; [|discriminate]. injection H as <-. split; [apply (inv_del (set_slots s1 id []) e' Hv)|].
      eapply same_trans; [exact Hs|]. apply (same_del e e' (set_slots s1 id []) He).
Qed.

(** Emitting the event itself. *)
Lemma emit_loop_own e run id : (forall f, Forall (fun o => ~ touches e o) (effect f)) ->
  (forall s s' ops, inv s -> Forall (fun o => ~ touches e o) ops -> run s ops = Some s' -> inv s' /\ same_for e s s') ->
  forall fuel s i dis s' dis', inv s -> lookup e (u_cbs s) = Some id -> i <= length (slots_of s id) ->
  emit_loop alive effect run fuel s e id i dis = Some (s', dis') ->
  inv s' /\ lookup e (u_cbs s') = Some id /\ slots_of s' id = slots_of s id
  /\ dis' = dis ++ once_from i (skipn i (slots_of s id))
  /\ filter (fun x => fst x =? e) (u_log s')
     = filter (fun x => fst x =? e) (u_log s) ++ map (fun o => (e, o_func o)) (filter (fun o => alive (o_func o)) (skipn i (slots_of s id))).
Proof.
  intros Hq Hr. induction fuel as [|fuel IH]; intros s i dis s' dis' Hi Hl Hle H; [discriminate|]. cbn [emit_loop] in H.
  destruct (nth_error (slots_of s id) i) as [o|] eqn:En.
  - assert (Hlt : i < length (slots_of s id)) by (apply nth_error_Some; congruence).
    assert (Es : skipn i (slots_of s id) = o :: skipn (S i) (slots_of s id)).
    { clear - En. revert i En. induction (slots_of s id) as [|x l IH]; intros [|i] En; try discriminate; [injection En as ->; reflexivity|]. apply IH. exact En. }
    rewrite Es. cbn [once_from filter]. destruct (alive (o_func o)) eqn:Ea; cbn [andb].
    + destruct (run _ (effect (o_func o))) as [s1|] eqn:E; [|discriminate].
      destruct (Hr _ _ _ (inv_log s _ Hi) (Hq (o_func o)) E) as [R1 (R2 & R3 & R4)]. cbn [u_cbs u_log] in R2, R4.
      assert (Es1 : slots_of s1 id = slots_of s id) by (rewrite (R3 id Hl); reflexivity).
      destruct (IH s1 (S i) _ _ _ R1 ltac:(congruence) ltac:(rewrite Es1; lia) H) as (I1 & I2 & I3 & I4 & I5).
      split; [exact I1|]. split; [exact I2|]. split; [congruence|]. rewrite Es1 in I4, I5. split.
      * rewrite I4. destruct (o_once o); cbn [negb app]; rewrite <- ?app_assoc; reflexivity.
      * rewrite I5, R4, filter_app. cbn [filter fst map]. rewrite Nat.eqb_refl, <- app_assoc. reflexivity.
    + destruct (IH _ _ _ _ _ Hi Hl Hlt H) as (I1 & I2 & I3 & I4 & I5).
      split; [exact I1|]. split; [exact I2|]. split; [exact I3|]. split; [rewrite I4, <- app_assoc; reflexivity|exact I5].
  - injection H as <- <-. apply nth_error_None in En. rewrite skipn_all2 by exact En. cbn. rewrite !app_nil_r. auto.
Qed.

Lemma emit_own e fuel s s' : (forall f, Forall (fun o => ~ touches e o) (effect f)) -> inv s -> run_op alive effect fuel s (Emit e) = Some s' ->
  inv s' /\ slots s' e = filter (fun o => alive (o_func o) && negb (o_once o)) (slots s e)
  /\ (lookup e (u_cbs s') = None <-> lookup e (u_cbs s) = None \/ (once_from 0 (slots s e) <> [] /\ slots s' e = []))
  /\ filter (fun x => fst x =? e) (u_log s')
     = filter (fun x => fst x =? e) (u_log s) ++ map (fun o => (e, o_func o)) (filter (fun o => alive (o_func o)) (slots s e)).
Proof.
  intros Hq Hi H. destruct fuel as [|fuel]; [discriminate|]. rewrite run_op_emit in H. unfold slots at 2 3 5. destruct (lookup e (u_cbs s)) as [id|] eqn:El.
  2:{ injection H as <-. split; [exact Hi|]. unfold slots. rewrite El. cbn [filter map]. rewrite app_nil_r. repeat split; auto. }
  assert (Hrun : forall s s' ops, inv s -> Forall (fun o => ~ touches e o) ops -> run_list fuel s ops = Some s' -> inv s' /\ same_for e s s').
  { clear - Hq. intros s s' ops. revert s. induction ops as [|o ops IHo]; intros s Hi Ho H.
    - injection H as <-. split; [exact Hi|apply same_refl].
    - inversion Ho as [|? ? O1 O2]; subst. cbn [run_list] in H. destruct (run_op alive effect fuel s o) as [s1|] eqn:E; [|discriminate].
      destruct (run_op_frame e Hq _ _ _ _ Hi O1 E) as [A1 A2]. destruct (IHo _ A1 O2 H) as [B1 B2]. split; [exact B1|]. eapply same_trans; eassumption. }
  destruct (emit_loop alive effect (run_list fuel) fuel s e id 0 []) as [[s1 dis]|] eqn:E; [|discriminate].
  destruct (emit_loop_own e (run_list fuel) id Hq Hrun _ _ _ _ _ _ Hi El (Nat.le_0_l _) E) as (F1 & F2 & F3 & F4 & F5). cbn [skipn app] in F4, F5.
  assert (Hlen : id < length (u_heap s1)) by (destruct F1 as (_ & _ & F1); apply lookup_in in F2; apply (F1 _ F2)).
  destruct dis as [|d dis].
  - injection H as <-. symmetry in F4. pose proof (once_none _ _ F4) as Hf. split; [exact F1|]. unfold slots. rewrite F2. split; [congruence|].
    split; [rewrite F4; split; [discriminate|intros [K|[K _]]; [discriminate|congruence]]|exact F5].
  - rewrite F4, F3 in H. pose proof (del_all_once (slots_of s id) []) as Kd. cbn [app length] in Kd. rewrite Kd in H. clear Kd. cbv zeta in H.
    assert (Ho : once_from 0 (slots_of s id) <> []) by (rewrite <- F4; discriminate).
    destruct (filter (fun o => alive (o_func o) && negb (o_once o)) (slots_of s id)) as [|x l].
    + pose proof (inv_set s1 id [] F1) as Hv. cbn [set_slots u_cbs] in H. rewrite F2 in H. injection H as <-. split; [apply (inv_del _ e Hv)|]. unfold slots. cbn [u_cbs u_log].
      rewrite lookup_del, Nat.eqb_refl. split; [reflexivity|]. split; [split; auto|exact F5].
    + injection H as <-. split; [apply inv_set; exact F1|]. unfold slots. cbn [set_slots u_cbs u_log]. rewrite F2.
      assert (Es : slots_of (set_slots s1 id (x :: l)) id = x :: l) by (unfold slots_of, set_slots; cbn [u_heap]; apply nth_set_same; exact Hlen).
      split; [exact Es|]. split; [rewrite Es; split; [discriminate|intros [K|[_ K]]; discriminate]|exact F5].
Qed.
End Quiet.

(** ** Order *)

Lemma insort_in x l y : In y (insort_right x l) <-> y = x \/ In y l.
Proof.
  induction l as [|z l IH]; cbn [insort_right In]; [intuition|]. destruct (o_prio x <? o_prio z)%Z; cbn [In]; [intuition|]. rewrite IH. intuition.
Qed.
Lemma insort_sorted x l : sorted l -> sorted (insort_right x l).
Proof.
  induction l as [|z l IH]; intros H; cbn [insort_right sorted]; [split; [intros y []|exact I]|]. destruct H as [H1 H2].
  destruct (o_prio x <? o_prio z)%Z eqn:E; cbn [sorted].
  - split; [|split; assumption]. intros y [<-|Hy]; [lia|]. specialize (H1 y Hy). lia.
  - split; [|auto]. intros y Hy. apply insort_in in Hy as [->|Hy]; [lia|auto].
Qed.
Lemma insort_filter x l p : sorted l -> filter (fun o => (o_prio o =? p)%Z) (insort_right x l) = filter (fun o => (o_prio o =? p)%Z) (l ++ [x]).
Proof.
  rewrite filter_app. induction l as [|z l IH]; intros H; [cbn [insort_right app filter]; reflexivity|]. destruct H as [H1 H2]. cbn [insort_right].
  destruct (o_prio x <? o_prio z)%Z eqn:E.
  - cbn [filter]. destruct (o_prio x =? p)%Z eqn:Ex; [|rewrite app_nil_r; reflexivity].
    replace (o_prio z =? p)%Z with false by lia.
    assert (Hn : filter (fun o => (o_prio o =? p)%Z) l = []).
    { clear - H1 E Ex. induction l as [|y l IH]; [reflexivity|]. cbn [filter]. specialize (H1 y (or_introl eq_refl)) as Hy.
      replace (o_prio y =? p)%Z with false by lia. apply IH. intros w Hw. apply H1. right; exact Hw. }
    rewrite Hn. reflexivity.
  - cbn [filter]. rewrite IH by exact H2. destruct (o_prio z =? p)%Z; reflexivity.
Qed.

Lemma sorted_filter f l : sorted l -> sorted (filter f l).
Proof.
  induction l as [|x l IH]; intros H; [exact I|]. destruct H as [H1 H2]. cbn [filter]. destruct (f x); [|auto]. cbn [sorted]. split; [|auto].
  intros y Hy. apply H1. apply filter_incl in Hy. exact Hy.
Qed.
Lemma filter_comm {A} (f g : A -> bool) l : filter f (filter g l) = filter g (filter f l).
Proof.
  induction l as [|x l IH]; [reflexivity|]. cbn [filter]. destruct (g x) eqn:Eg, (f x) eqn:Ef; cbn [filter]; rewrite ?Eg, ?Ef, IH; reflexivity.
Qed.
Lemma in_order_filter f r l : in_order r l -> in_order (filter f r) (filter f l).
Proof. intros [H1 H2]. split; [apply sorted_filter; exact H1|]. intros p. rewrite filter_comm, H2, filter_comm. reflexivity. Qed.
Lemma in_order_in r l x : in_order r l -> (In x l <-> In x r).
Proof.
  intros [_ H]. specialize (H (o_prio x)). split; intros Hx.
  - assert (K : In x (filter (fun o => (o_prio o =? o_prio x)%Z) l)) by (apply filter_In; split; [exact Hx|lia]). rewrite H in K. apply filter_incl in K. exact K.
  - assert (K : In x (filter (fun o => (o_prio o =? o_prio x)%Z) r)) by (apply filter_In; split; [exact Hx|lia]). rewrite <- H in K. apply filter_incl in K. exact K.
Qed.
Lemma in_order_existsb r l f : in_order r l -> existsb f l = existsb f r.
Proof.
  intros H. destruct (existsb f l) eqn:E1, (existsb f r) eqn:E2; try reflexivity.
  - apply existsb_exists in E1 as (x & Hx & Ef). apply (in_order_in _ _ x H) in Hx. assert (existsb f r = true) by (apply existsb_exists; eauto). congruence.
  - apply existsb_exists in E2 as (x & Hx & Ef). apply (in_order_in _ _ x H) in Hx. assert (existsb f l = true) by (apply existsb_exists; eauto). congruence.
Qed.
Lemma in_order_nil r l : in_order r l -> (l = [] <-> r = []).
Proof.
  intros H. split; intros ->.
  - destruct r as [|x r]; [reflexivity|]. exfalso. apply (proj2 (in_order_in _ _ x H)). left; reflexivity.
  - destruct l as [|x l]; [reflexivity|]. exfalso. apply (proj1 (in_order_in _ _ x H)). left; reflexivity.
Qed.

Lemma remove_func_some f l l' : NoDup (map o_func l) -> remove_func f l = Some l' -> l' = filter (fun o => negb (o_func o =? f)) l /\ existsb (fun o => o_func o =? f) l = true.
Proof.
  revert l'. induction l as [|x l IH]; intros l' Hn H; [discriminate|]. inversion Hn as [|? ? N1 N2]; subst. cbn [remove_func filter existsb] in *.
  destruct (o_func x =? f) eqn:E; cbn [negb orb].
  - injection H as <-. split; [|reflexivity]. symmetry. clear - N1 E. induction l as [|y l IH]; [reflexivity|]. cbn [filter].
    replace (o_func y =? f) with false.
    + cbn [negb]. f_equal. apply IH. intros Hi. apply N1. right; exact Hi.
    + symmetry. apply Nat.eqb_neq. intros Ey. apply N1. left. apply Nat.eqb_eq in E. congruence.
  - destruct (remove_func f l) as [m|]; [|discriminate]. injection H as <-. destruct (IH m N2 eq_refl) as [-> I2]. auto.
Qed.
Lemma remove_func_none f l : remove_func f l = None -> filter (fun o => negb (o_func o =? f)) l = l.
Proof.
  induction l as [|x l IH]; intros H; [reflexivity|]. cbn [remove_func filter] in *. destruct (o_func x =? f); [discriminate|]. cbn [negb].
  destruct (remove_func f l); [discriminate|]. rewrite IH; reflexivity.
Qed.

(** ** Refinement, when functions do not use the Observable *)

Definition reps (s : ustate) (r : regs) : Prop :=
  inv s /\ forall e, in_order (r e) (slots s e) /\ NoDup (map o_func (slots s e)) /\ (lookup e (u_cbs s) <> None -> slots s e <> []).

Lemma in_order_refl_nil : in_order [] [].
Proof. split; [exact I|reflexivity]. Qed.
Lemma reps_init : reps u_init (fun _ => []).
Proof.
  split; [unfold inv; cbn; repeat split; try constructor; intros x []|]. intros e. split; [apply in_order_refl_nil|]. split; [constructor|]. intros H; exfalso; apply H; reflexivity.
Qed.

Lemma slots_set_own s e id l : inv s -> lookup e (u_cbs s) = Some id -> slots (set_slots s id l) e = l.
Proof.
  intros (_ & _ & Hi) H. unfold slots. cbn [set_slots u_cbs]. rewrite H. unfold slots_of, set_slots. cbn [u_heap]. apply nth_set_same.
  apply lookup_in in H. apply (Hi _ H).
Qed.

Lemma existsb_func_in f (l : list observer) : existsb (fun o => o_func o =? f) l = false -> ~ In f (map o_func l).
Proof.
  intros H Hi. apply in_map_iff in Hi as (o & E & Ho). assert (existsb (fun o => o_func o =? f) l = true) by (apply existsb_exists; exists o; split; [exact Ho|apply Nat.eqb_eq; exact E]). congruence.
Qed.
Lemma insort_nodup x l : NoDup (map o_func l) -> ~ In (o_func x) (map o_func l) -> NoDup (map o_func (insort_right x l)).
Proof.
  induction l as [|y l IH]; intros H Hx; cbn [insort_right]; [repeat constructor; intros []|]. destruct (o_prio x <? o_prio y)%Z; cbn [map] in *; [constructor; assumption|].
  inversion H as [|? ? H1 H2]; subst. constructor; [|apply IH; [exact H2|intros K; apply Hx; right; exact K]].
  intros K. apply in_map_iff in K as (z & E & Hz). apply insort_in in Hz as [->|Hz]; [apply Hx; left; congruence|]. apply H1. apply in_map_iff. eauto.
Qed.

Lemma reps_other s s' r r' e : same_for e s s' -> r' e = r e ->
  (in_order (r e) (slots s e) /\ NoDup (map o_func (slots s e)) /\ (lookup e (u_cbs s) <> None -> slots s e <> [])) ->
  in_order (r' e) (slots s' e) /\ NoDup (map o_func (slots s' e)) /\ (lookup e (u_cbs s') <> None -> slots s' e <> []).
Proof. intros Hs ->. rewrite (same_slots _ _ _ Hs). destruct Hs as (-> & _). auto. Qed.

Lemma connect_own s e f once prio : inv s ->
  lookup e (u_cbs (connect s e f once prio)) <> None
  /\ slots (connect s e f once prio) e
     = if existsb (fun o => o_func o =? f) (slots s e) then slots s e else insort_right (Observer f once prio) (slots s e).
Proof.
  intros Hi. unfold connect, slots at 2 3 4. destruct (lookup e (u_cbs s)) as [id|] eqn:E.
  - destruct (existsb _ (slots_of s id)); [unfold slots; rewrite E; split; [discriminate|reflexivity]|].
    split; [cbn [set_slots u_cbs]; congruence|apply slots_set_own; assumption].
  - set (s1 := UState _ _ _). assert (Hl : lookup e (u_cbs s1) = Some (length (u_heap s))) by (unfold s1; cbn [u_cbs]; rewrite lookup_app, E, Nat.eqb_refl; reflexivity).
    assert (Hs : slots_of s1 (length (u_heap s)) = []) by (unfold slots_of, s1; cbn [u_heap]; rewrite app_nth2, Nat.sub_diag by lia; reflexivity).
    rewrite Hs. cbn [existsb]. split; [cbn [set_slots u_cbs]; congruence|]. apply slots_set_own; [apply inv_new; assumption|exact Hl].
Qed.

Lemma reps_connect s r e f once prio : reps s r -> reps (connect s e f once prio) (reg_connect r e f once prio).
Proof.
  intros [Hi Hr]. split; [apply connect_inv; exact Hi|]. intros x. destruct (Nat.eq_dec x e) as [->|Hx].
  - destruct (connect_own s e f once prio Hi) as [_ ->]. unfold reg_connect. rewrite Nat.eqb_refl. destruct (Hr e) as (H1 & H2 & H3).
    rewrite <- (in_order_existsb _ _ _ H1). destruct (existsb _ (slots s e)) eqn:E.
    + split; [exact H1|]. split; [exact H2|]. intros _ K. rewrite K in E. discriminate.
    + split; [|split].
      * destruct H1 as [H1 H1']. split; [apply insort_sorted; exact H1|]. intros p. rewrite insort_filter by exact H1. rewrite !filter_app, H1'. reflexivity.
      * apply insort_nodup; [exact H2|]. apply existsb_func_in. exact E.
      * intros _ K. assert (Hin : In (Observer f once prio) (insort_right (Observer f once prio) (slots s e))) by (apply insort_in; left; reflexivity). rewrite K in Hin. exact Hin.
  - apply (reps_other s _ r); [apply connect_same; assumption|unfold reg_connect; replace (x =? e) with false by lia; reflexivity|apply Hr].
Qed.

Lemma disconnect_own s e f : inv s -> NoDup (map o_func (slots s e)) -> (lookup e (u_cbs s) <> None -> slots s e <> []) ->
  slots (disconnect s e f) e = filter (fun o => negb (o_func o =? f)) (slots s e)
  /\ (lookup e (u_cbs (disconnect s e f)) <> None -> slots (disconnect s e f) e <> []).
Proof.
  intros Hi Hn Hne. unfold disconnect. unfold slots at 2. unfold slots in Hn. destruct (lookup e (u_cbs s)) as [id|] eqn:E.
  2:{ unfold slots. rewrite E. split; [reflexivity|]. intros H; contradiction. }
  assert (Hsl : slots s e = slots_of s id) by (unfold slots; rewrite E; reflexivity).
  destruct (remove_func f (slots_of s id)) as [l|] eqn:Er.
  - destruct (remove_func_some _ _ _ Hn Er) as [<- _]. destruct l as [|x l].
    + unfold slots. cbn [u_cbs set_slots]. rewrite lookup_del, Nat.eqb_refl. split; [reflexivity|congruence].
    + rewrite (slots_set_own s e id (x :: l) Hi E). split; [reflexivity|discriminate].
  - rewrite (remove_func_none _ _ Er). split; [exact Hsl|]. intros _. apply Hne. discriminate.
Qed.

Lemma NoDup_map_filter_obs f (l : list observer) : NoDup (map o_func l) -> NoDup (map o_func (filter f l)).
Proof. apply NoDup_map_filter. Qed.

Lemma reps_disconnect s r e f : reps s r -> reps (disconnect s e f) (reg_disconnect r e f).
Proof.
  intros [Hi Hr]. split; [apply disconnect_inv; exact Hi|]. intros x. destruct (Nat.eq_dec x e) as [->|Hx].
  - destruct (Hr e) as (H1 & H2 & H3). destruct (disconnect_own s e f Hi H2 H3) as [E1 E2]. split; [|split; [|exact E2]]; rewrite E1.
    + unfold reg_disconnect. rewrite Nat.eqb_refl. apply in_order_filter. exact H1.
    + apply NoDup_map_filter_obs. exact H2.
  - apply (reps_other s _ r); [apply disconnect_same; assumption|unfold reg_disconnect; replace (x =? e) with false by lia; reflexivity|apply Hr].
Qed.

Lemma reps_all s r e : reps s r -> reps (disconnect_all s (Some e)) (fun x => if x =? e then [] else r x).
Proof.
  intros [Hi Hr]. split; [apply disconnect_all_inv; exact Hi|]. intros x. destruct (Nat.eq_dec x e) as [->|Hx].
  - unfold slots. cbn [disconnect_all u_cbs]. rewrite lookup_del, !Nat.eqb_refl. split; [apply in_order_refl_nil|]. split; [constructor|congruence].
  - apply (reps_other s _ r (fun x => if x =? e then [] else r x) x); [apply (same_del x e s Hx)|replace (x =? e) with false by lia; reflexivity|apply Hr].
Qed.
Lemma reps_all_none s r : reps s r -> reps (disconnect_all s None) (fun _ => []).
Proof.
  intros [Hi Hr]. split; [apply disconnect_all_inv; exact Hi|]. intros x. unfold slots. cbn. split; [apply in_order_refl_nil|]. split; [constructor|congruence].
Qed.

(** Emitting terminates. *)
Section Pure.
Variable alive : nat -> bool.
Let eff := fun _ : nat => @nil uop.

Lemma emit_loop_total run e id : (forall s, run s [] = Some s) -> forall fuel s i dis,
  length (slots_of s id) - i < fuel -> i <= length (slots_of s id) ->
  exists s' dis', emit_loop alive eff run fuel s e id i dis = Some (s', dis')
  /\ u_cbs s' = u_cbs s /\ u_heap s' = u_heap s
  /\ u_log s' = u_log s ++ map (fun o => (e, o_func o)) (filter (fun o => alive (o_func o)) (skipn i (slots_of s id)))
  /\ dis' = dis ++ once_from alive i (skipn i (slots_of s id)).
Proof.
  intros Hrun. induction fuel as [|fuel IH]; intros s i dis Hf Hi; [lia|]. cbn [emit_loop].
  destruct (nth_error (slots_of s id) i) as [o|] eqn:En.
  - assert (Hlt : i < length (slots_of s id)) by (apply nth_error_Some; congruence).
    assert (Es : skipn i (slots_of s id) = o :: skipn (S i) (slots_of s id)).
    { clear - En. revert i En. induction (slots_of s id) as [|x l IH]; intros [|i] En; try discriminate; [injection En as ->; reflexivity|]. apply IH. exact En. }
    rewrite Es. cbn [once_from filter map]. destruct (alive (o_func o)) eqn:Ea; cbn [andb].
    + unfold eff at 1. rewrite Hrun. set (s1 := UState _ _ _).
      destruct (IH s1 (S i) (if o_once o then dis ++ [i] else dis) ltac:(change (slots_of s1 id) with (slots_of s id); lia) ltac:(change (slots_of s1 id) with (slots_of s id); lia))
        as (s' & dis' & A1 & A2 & A3 & A4 & A5). change (slots_of s1 id) with (slots_of s id) in *.
      exists s', dis'. split; [exact A1|]. split; [exact A2|]. split; [exact A3|]. split; [rewrite A4; unfold s1; cbn [u_log map]; rewrite <- app_assoc; reflexivity|].
      rewrite A5. destruct (o_once o); cbn [negb app]; rewrite <- ?app_assoc; reflexivity.
    + destruct (IH s (S i) (dis ++ [i]) ltac:(lia) ltac:(lia)) as (s' & dis' & A1 & A2 & A3 & A4 & A5).
      exists s', dis'. split; [exact A1|]. split; [exact A2|]. split; [exact A3|]. split; [exact A4|]. rewrite A5, <- app_assoc. reflexivity.
  - apply nth_error_None in En. exists s, dis. rewrite skipn_all2 by exact En. cbn. rewrite !app_nil_r. auto.
Qed.

Lemma once_from_out l i : (forall o, In o l -> alive (o_func o) && negb (o_once o) = true) -> once_from alive i l = [].
Proof.
  revert i. induction l as [|o l IH]; intros i H; [reflexivity|]. cbn [once_from]. rewrite (H o (or_introl eq_refl)). cbn [app]. apply IH. intros x Hx. apply H. right; exact Hx.
Qed.

Lemma emit_total s e r fuel : reps s r -> length (slots s e) + 1 < fuel ->
  exists s', run_op alive eff fuel s (Emit e) = Some s'
  /\ u_log s' = u_log s ++ map (fun o => (e, o_func o)) (filter (fun o => alive (o_func o)) (slots s e))
  /\ reps s' (fun x => if x =? e then filter (fun o => alive (o_func o) && negb (o_once o)) (r e) else r x).
Proof.
  intros [Hi Hr] Hf. destruct fuel as [|fuel]; [lia|].
  assert (Hq : forall e f, Forall (fun o => ~ touches e o) (eff f)) by (intros; constructor).
  assert (Hsome : exists s', run_op alive eff (S fuel) s (Emit e) = Some s'
    /\ u_log s' = u_log s ++ map (fun o => (e, o_func o)) (filter (fun o => alive (o_func o)) (slots s e))
    /\ forall x, x <> e -> same_for x s s').
  { assert (Hlog : forall x l1 l2, x <> e -> filter (fun y : nat * nat => fst y =? x) (l1 ++ map (fun o : observer => (e, o_func o)) l2) = filter (fun y => fst y =? x) l1).
    { intros x l1 l2 Hx. rewrite filter_app. replace (filter _ (map _ l2)) with (@nil (nat * nat)); [apply app_nil_r|].
      induction l2 as [|o l2 IH]; [reflexivity|]. cbn [map filter fst]. replace (e =? x) with false by lia. exact IH. }
    rewrite run_op_emit. unfold slots in Hf |- *. destruct (lookup e (u_cbs s)) as [id|] eqn:El.
    2:{ exists s. cbn. rewrite app_nil_r. split; [reflexivity|]. split; [reflexivity|]. intros; apply same_refl. }
    destruct (emit_loop_total (run_list alive eff fuel) e id (fun s => eq_refl) fuel s 0 [] ltac:(lia) ltac:(lia)) as (s1 & dis & -> & A2 & A3 & A4 & A5).
    cbn [skipn app] in A4, A5.
    assert (Hs1 : forall x, x <> e -> same_for x s s1).
    { intros x Hx. split; [congruence|]. split; [intros i _; unfold slots_of; rewrite A3; reflexivity|]. rewrite A4. apply Hlog. exact Hx. }
    assert (Hsl : slots_of s1 id = slots_of s id) by (unfold slots_of; rewrite A3; reflexivity).
    destruct dis as [|d dis]; [exists s1; auto|]. pose proof (del_all_once alive (slots_of s id) []) as Kd. cbn [app length] in Kd. rewrite A5, Hsl, Kd. clear Kd. cbv zeta.
    assert (Hs2 : forall l x, x <> e -> same_for x s (set_slots s1 id l)).
    { intros l x Hx. eapply same_trans; [apply Hs1; exact Hx|]. apply same_set. intros id' H' ->. rewrite A2 in H'. apply Hx. apply (lookup_inj s x e id Hi H' El). }
    destruct (filter (fun o => alive (o_func o) && negb (o_once o)) (slots_of s id)) as [|y l].
    - cbn [set_slots u_cbs]. rewrite A2, El. eexists. split; [reflexivity|]. split; [exact A4|]. intros x Hx.
      eapply same_trans; [apply (Hs2 [] x Hx)|]. pose proof (same_del x e (set_slots s1 id []) Hx) as K. cbn [set_slots u_cbs] in K. rewrite A2 in K. exact K.
    - eexists. split; [reflexivity|]. split; [exact A4|]. intros x Hx. apply Hs2. exact Hx. }
  destruct Hsome as (s' & E & Hl & Ho). exists s'. split; [exact E|]. split; [exact Hl|].
  destruct (emit_own alive eff e _ _ _ (Hq e) Hi E) as (F1 & F2 & F3 & _). split; [exact F1|]. intros x. destruct (Nat.eq_dec x e) as [->|Hx].
  - rewrite Nat.eqb_refl, F2. destruct (Hr e) as (H1 & H2 & H3). split; [apply in_order_filter; exact H1|]. split; [apply NoDup_map_filter_obs; exact H2|].
    intros Hne K. destruct (lookup e (u_cbs s)) as [id|] eqn:El.
    + apply Hne. apply F3. right. split; [|congruence]. intros Hon. rewrite (once_none alive _ _ Hon) in K. apply H3; [discriminate|exact K].
    + apply Hne. apply F3. left. reflexivity.
  - apply (reps_other s _ r (fun x => if x =? e then filter (fun o => alive (o_func o) && negb (o_once o)) (r e) else r x) x); [apply Ho; exact Hx|replace (x =? e) with false by lia; reflexivity|apply Hr].
Qed.

Lemma emit_fuel_mono s e r f1 f2 s' : reps s r -> length (slots s e) + 1 < f1 -> length (slots s e) + 1 < f2 ->
  run_op alive eff f1 s (Emit e) = Some s' -> run_op alive eff f2 s (Emit e) = Some s'.
Proof.
  intros [Hi Hr] H1 H2. destruct f1 as [|f1]; [lia|]. destruct f2 as [|f2]; [lia|]. rewrite !run_op_emit. unfold slots in H1, H2.
  destruct (lookup e (u_cbs s)) as [id|]; [|auto].
  destruct (emit_loop_total (run_list alive eff f1) e id (fun s => eq_refl) f1 s 0 [] ltac:(lia) ltac:(lia)) as (s1 & d1 & -> & A2 & A3 & A4 & ->).
  destruct (emit_loop_total (run_list alive eff f2) e id (fun s => eq_refl) f2 s 0 [] ltac:(lia) ltac:(lia)) as (s2 & d2 & -> & B2 & B3 & B4 & ->).
  replace s2 with s1; [auto|]. destruct s1, s2. cbn in *. congruence.
Qed.

(** *** A whole history *)
Lemma run_refines ops : forall s r, reps s r ->
  exists n s' r', (forall fuel, n <= fuel -> run_ops alive eff fuel s ops = Some s') /\ spec_run alive (r, u_log s) ops (r', u_log s') /\ reps s' r'.
Proof.
  induction ops as [|o ops IH]; intros s r Hs.
  - exists 0, s, r. split; [reflexivity|]. split; [constructor|exact Hs].
  - assert (Hone : exists n s1 r1, (forall fuel, n <= fuel -> run_op alive eff fuel s o = Some s1) /\ spec_step alive (r, u_log s) o (r1, u_log s1) /\ reps s1 r1).
    { assert (Hc : forall e f once prio, u_log (connect s e f once prio) = u_log s).
      { intros. unfold connect. destruct (lookup e (u_cbs s)); destruct (existsb _ _); reflexivity. }
      assert (Hd : forall e f, u_log (disconnect s e f) = u_log s).
      { intros. unfold disconnect. destruct (lookup e (u_cbs s)); [|reflexivity]. destruct (remove_func _ _) as [[|]|]; reflexivity. }
      destruct o as [e f once prio|e f|[e|]|e].
      - exists 0, (connect s e f once prio), (reg_connect r e f once prio). split; [intros [|fuel] _; reflexivity|].
        split; [rewrite Hc; constructor|apply reps_connect; exact Hs].
      - exists 0, (disconnect s e f), (reg_disconnect r e f). split; [intros [|fuel] _; reflexivity|].
        split; [rewrite Hd; constructor|apply reps_disconnect; exact Hs].
      - eexists 0, _, _. split; [intros [|fuel] _; reflexivity|]. split; [constructor|apply (reps_all s r e Hs)].
      - eexists 0, _, _. split; [intros [|fuel] _; reflexivity|]. split; [constructor|apply (reps_all_none s r Hs)].
      - destruct (emit_total s e r (length (slots s e) + 2) Hs ltac:(lia)) as (s' & E & Hl & Hr). exists (length (slots s e) + 2), s', (fun x => if x =? e then filter (fun o => alive (o_func o) && negb (o_once o)) (r e) else r x).
        split; [|split; [rewrite Hl; constructor; apply (proj2 Hs)|exact Hr]]. intros fuel Hf. apply (emit_fuel_mono s e r (length (slots s e) + 2) fuel s' Hs); [lia|lia|exact E]. }
    destruct Hone as (n & s1 & r1 & H1 & H2 & H3). destruct (IH s1 r1 H3) as (m & s2 & r2 & H4 & H5 & H6).
    exists (n + m), s2, r2. split; [intros fuel Hf; cbn [run_ops]; rewrite H1 by lia; apply H4; lia|]. split; [econstructor; eassumption|exact H6].
Qed.
End Pure.

(** The specification determines the result. *)
Lemma in_order_unique r l1 : forall l2, in_order r l1 -> in_order r l2 -> l1 = l2.
Proof.
  intros l2 [S1 F1] [S2 F2]. assert (F : forall p, filter (fun o => (o_prio o =? p)%Z) l1 = filter (fun o => (o_prio o =? p)%Z) l2) by (intros p; rewrite F1, F2; reflexivity).
  clear F1 F2. revert l2 S2 F. induction l1 as [|x l1 IH]; intros l2 S2 F.
  - destruct l2 as [|y l2]; [reflexivity|]. specialize (F (o_prio y)). cbn [filter] in F. rewrite Z.eqb_refl in F. discriminate.
  - destruct l2 as [|y l2]; [specialize (F (o_prio x)); cbn [filter] in F; rewrite Z.eqb_refl in F; discriminate|].
    destruct S1 as [A1 A2], S2 as [B1 B2].
    assert (Hx : In x (y :: l2)).
    { assert (K : In x (filter (fun o => (o_prio o =? o_prio x)%Z) (x :: l1))) by (apply filter_In; split; [left; reflexivity|lia]). rewrite F in K. apply filter_incl in K. exact K. }
    assert (Hy : In y (x :: l1)).
    { assert (K : In y (filter (fun o => (o_prio o =? o_prio y)%Z) (y :: l2))) by (apply filter_In; split; [left; reflexivity|lia]). rewrite <- F in K. apply filter_incl in K. exact K. }
    assert (Hp : o_prio x = o_prio y).
    { assert ((o_prio y <= o_prio x)%Z) by (destruct Hx as [->|Hx]; [lia|apply B1; exact Hx]).
      assert ((o_prio x <= o_prio y)%Z) by (destruct Hy as [->|Hy]; [lia|apply A1; exact Hy]). lia. }
    assert (x = y) by (specialize (F (o_prio x)); cbn [filter] in F; rewrite <- Hp, Z.eqb_refl in F; congruence). subst y.
    f_equal. apply IH; [exact A2|exact B2|]. intros p. specialize (F p). cbn [filter] in F. destruct (o_prio x =? p)%Z; congruence.
Qed.
