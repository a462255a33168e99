(** The invariant: the set of a document has exactly the cursors of that document, each once. *)
From Coq Require Import List Arith Bool Lia ZArith ZifyBool.
From Verif Require Import Base MutableModel CursorModel AliveModel AliveSpec.
Import ListNotations.
Local Open Scope nat_scope.

Section Proofs.
Variable ah : nat -> nat.
Hypothesis ah_inj : forall i j, ah i = ah j -> i = j.

Definition Inv (st : state) : Prop := forall d,
  NoDup (map snd (sets st d)) /\
  (forall x, In x (sets st d) -> fst x = ah (snd x)) /\
  (forall i, In i (map snd (sets st d)) <-> exists o, objs st i = Some o /\ o_doc o = d).

Lemma inv_init : Inv init.
Proof. intro d. cbn. split; [constructor|]. split; [tauto|]. intro i. split; [tauto|]. intros (o & E & _). discriminate E. Qed.

Lemma put_same hp i v : put hp i v i = v.
Proof. unfold put. now rewrite Nat.eqb_refl. Qed.
Lemma put_other hp i j v : j <> i -> put hp i v j = hp j.
Proof. intro N. unfold put. destruct (Nat.eqb_spec j i); [contradiction|reflexivity]. Qed.

Lemma update_other ch l : forall hp i, ~ In i (map snd l) -> fold_left (update_obj ch) l hp i = hp i.
Proof.
  induction l as [|x l IH]; intros hp i N; [reflexivity|]. cbn [fold_left]. cbn [map In] in N. rewrite IH; [|tauto].
  unfold update_obj. destruct (hp (snd x)); [|reflexivity]. apply put_other. intros ->. tauto.
Qed.
Lemma update_in ch l : forall hp i, NoDup (map snd l) -> In i (map snd l) ->
  fold_left (update_obj ch) l hp i = option_map (fun o => Obj (o_doc o) (fst (update_cursor ch (o_cur o)))) (hp i).
Proof.
  induction l as [|x l IH]; intros hp i D I; [destruct I|]. cbn [fold_left]. cbn [map] in D, I. inversion D as [|a b N D' E]. subst.
  destruct (Nat.eq_dec (snd x) i) as [Ei | Ni].
  - rewrite Ei in N. rewrite update_other by exact N. unfold update_obj. rewrite Ei. destruct (hp i) as [o|] eqn:E; [|now rewrite E].
    now rewrite put_same.
  - destruct I as [I | I]; [contradiction|]. rewrite IH by assumption. unfold update_obj. destruct (hp (snd x)); [|reflexivity].
    rewrite put_other; [reflexivity|]. intro; subst; now apply Ni.
Qed.
Lemma update_doc ch l : forall hp i d, (exists o, fold_left (update_obj ch) l hp i = Some o /\ o_doc o = d) <-> (exists o, hp i = Some o /\ o_doc o = d).
Proof.
  induction l as [|x l IH]; intros hp i d; [reflexivity|]. cbn [fold_left]. rewrite IH. unfold update_obj.
  destruct (hp (snd x)) as [o|] eqn:E; [|reflexivity]. destruct (Nat.eq_dec i (snd x)) as [-> | N].
  - rewrite put_same, E. split; intros (o' & E' & D); injection E' as <-; eexists; (split; [reflexivity|exact D]).
  - rewrite put_other by exact N. reflexivity.
Qed.

Lemma inv_step st o st' : Inv st -> step ah st o = Some st' -> Inv st'.
Proof.
  intros I E. destruct o as [i d pos e|i pos e|i|d ch]; cbn [step] in E.
  - destruct (objs st i) as [o|] eqn:Ei; [discriminate E|]. injection E as <-. intro d'. cbn [objs sets].
    specialize (I d'). destruct I as (D & H & M). destruct (Nat.eqb_spec d' d) as [-> | Nd].
    + assert (Ni : ~ In i (map snd (sets st d))). { rewrite M. intros (o & Eo & _). congruence. }
      unfold ws_add. destruct (existsb _ _) eqn:Ex.
      * exfalso. apply existsb_exists in Ex. destruct Ex as (x & Ix & Hx). apply andb_true_iff in Hx. destruct Hx as [Hx _].
        apply Nat.eqb_eq in Hx. unfold hash in Hx. rewrite (H x Ix) in Hx. apply ah_inj in Hx. apply Ni. rewrite <- Hx. now apply in_map.
      * rewrite map_app. cbn [map snd]. split; [|split].
        -- apply NoDup_Add with (a := i) (l := map snd (sets st d)); [|now split].
           pose proof (Add_app i (map snd (sets st d)) []) as A. now rewrite app_nil_r in A.
        -- intros x Ix. apply in_app_or in Ix. destruct Ix as [Ix | [<- | []]]; [now apply H|reflexivity].
        -- intro j. rewrite in_app_iff, M. cbn [In]. destruct (Nat.eq_dec j i) as [-> | Nj].
           ++ rewrite put_same. split; [|tauto]. intros _. eexists. split; reflexivity.
           ++ rewrite put_other by exact Nj. split; [intros [K | [K | []]]; [exact K|congruence]|tauto].
    + split; [exact D|]. split; [exact H|]. intro j. rewrite M. destruct (Nat.eq_dec j i) as [-> | Nj].
      * rewrite put_same, Ei. split; intros (o & Eo & Do); [discriminate Eo|]. injection Eo as <-. cbn in Do. congruence.
      * rewrite put_other by exact Nj. reflexivity.
  - destruct (objs st i) as [o|] eqn:Ei; [|discriminate E]. injection E as <-. intro d'. cbn [objs sets].
    destruct (I d') as (D & H & M). split; [exact D|]. split; [exact H|]. intro j. rewrite M. destruct (Nat.eq_dec j i) as [-> | Nj].
    + rewrite put_same, Ei. split; intros (o' & Eo & Do); injection Eo as <-; eexists; (split; [reflexivity|exact Do]).
    + rewrite put_other by exact Nj. reflexivity.
  - destruct (objs st i) as [o|] eqn:Ei; [|discriminate E]. injection E as <-. intro d'. cbn [objs sets].
    destruct (I d') as (D & H & M). unfold ws_discard.
    assert (F : forall j, In j (map snd (filter (fun x => negb (snd x =? i)) (sets st d'))) <-> In j (map snd (sets st d')) /\ j <> i).
    { intro j. rewrite !in_map_iff. split.
      - intros (x & <- & Ix). apply filter_In in Ix. destruct Ix as [Ix Nx]. split; [now exists x|]. destruct (Nat.eqb_spec (snd x) i); [discriminate Nx|assumption].
      - intros ((x & <- & Ix) & Nx). exists x. split; [reflexivity|]. apply filter_In. split; [exact Ix|]. destruct (Nat.eqb_spec (snd x) i); [contradiction|reflexivity]. }
    split; [|split].
    + clear -D. induction (sets st d') as [|x l IH]; [constructor|]. cbn [map] in D. inversion D as [|a b N D' Ea]. subst. cbn [filter].
      destruct (negb (snd x =? i)); [|now apply IH]. cbn [map]. constructor; [|now apply IH]. intro K. apply N.
      apply in_map_iff in K. destruct K as (y & Ey & Iy). apply filter_In in Iy. rewrite <- Ey. apply in_map. tauto.
    + intros x Ix. apply filter_In in Ix. now apply H.
    + intro j. rewrite F, M. destruct (Nat.eq_dec j i) as [-> | Nj].
      * rewrite put_same. split; [intros [_ K]; congruence|intros (o' & Eo & _); discriminate Eo].
      * rewrite put_other by exact Nj. tauto.
  - injection E as <-. intro d'. cbn [objs sets]. destruct (I d') as (D & H & M). split; [exact D|]. split; [exact H|].
    intro j. rewrite M. symmetry. apply update_doc.
Qed.

Lemma update_spec ch c : g_start ch <= g_end ch ->
  c_pos (fst (update_cursor ch c)) = pos_after ch (c_pos c) /\ c_end (fst (update_cursor ch c)) = option_map (end_after ch) (c_end c).
Proof.
  intro L. unfold update_cursor, pos_after, end_after. destruct c as [p [e|]]; cbn [c_pos c_end option_map].
  - destruct (g_start ch <=? e) eqn:E1; cbn [fst c_pos c_end].
    + split; [|f_equal]; repeat match goal with |- context[if ?b then _ else _] => destruct b eqn:? end; lia.
    + split; [|f_equal]; repeat match goal with |- context[if ?b then _ else _] => destruct b eqn:? end; lia.
  - cbn [fst c_pos c_end]. split; [|reflexivity]. repeat match goal with |- context[if ?b then _ else _] => destruct b eqn:? end; lia.
Qed.

Lemma step_life st o st' : Inv st -> op_ok o -> step ah st o = Some st' -> forall i, seen (objs st' i) = life i (seen (objs st i)) o.
Proof.
  intros I K E i. destruct o as [j d pos e|j pos e|j|d ch]; cbn [step life] in *.
  - destruct (objs st j) as [o|] eqn:Ej; [discriminate E|]. injection E as <-. cbn [objs]. destruct (Nat.eqb_spec i j) as [-> | N].
    + now rewrite put_same.
    + now rewrite put_other.
  - destruct (objs st j) as [o|] eqn:Ej; [|discriminate E]. injection E as <-. cbn [objs]. destruct (Nat.eqb_spec i j) as [-> | N].
    + now rewrite put_same, Ej.
    + now rewrite put_other.
  - destruct (objs st j) as [o|] eqn:Ej; [|discriminate E]. injection E as <-. cbn [objs]. destruct (Nat.eqb_spec i j) as [-> | N].
    + now rewrite put_same.
    + now rewrite put_other.
  - injection E as <-. cbn [objs op_ok] in *. destruct (I d) as (D & _ & M). destruct (objs st i) as [o|] eqn:Ei.
    + cbn [seen option_map]. destruct (Nat.eqb_spec (o_doc o) d) as [Ed | Nd].
      * rewrite update_in; [|exact D|apply M; now exists o]. rewrite Ei. cbn [seen option_map o_doc o_cur].
        destruct (update_spec ch (o_cur o) K) as [E1 E2]. unfold seen. cbn [option_map o_doc o_cur]. now rewrite E1, E2.
      * rewrite update_other; [now rewrite Ei|]. rewrite M. intros (o' & Eo & Do). rewrite Ei in Eo. injection Eo as <-. contradiction.
    + cbn [seen option_map]. rewrite update_other; [now rewrite Ei|]. rewrite M. intros (o' & Eo & _). congruence.
Qed.

Lemma run_life ops : forall st st', Inv st -> Forall op_ok ops -> run ah st ops = Some st' ->
  forall i, seen (objs st' i) = fold_left (life i) ops (seen (objs st i)).
Proof.
  induction ops as [|o ops IH]; intros st st' I K E i; cbn [run] in E.
  - now injection E as <-.
  - destruct (step ah st o) as [st1|] eqn:E1; [|discriminate E]. inversion K as [|a b K1 K2 Ea]. subst. cbn [fold_left].
    rewrite <- (step_life st o st1 I K1 E1 i). apply IH; [exact (inv_step _ _ _ I E1)|exact K2|exact E].
Qed.
End Proofs.
