(** Proofs about the themes of formatters. *)
From Verif Require Import Base FthemesModel FthemesSpec.
From Coq Require Import ZArith ZifyBool.

Lemma key_eqb_spec k l : key_eqb k l = true <-> k = l.
Proof. destruct k as [k|], l as [l|]; cbn; split; intros H; try discriminate; try reflexivity; [apply Nat.eqb_eq in H; congruence|injection H as ->; apply Nat.eqb_refl]. Qed.
Lemma key_eqb_dec k l : key_eqb k l = if lang_dec k l then true else false.
Proof.
  destruct (lang_dec k l) as [->|H]; [apply key_eqb_spec; reflexivity|]. destruct (key_eqb k l) eqn:E; [|reflexivity].
  apply key_eqb_spec in E. contradiction.
Qed.

Section Proofs.
Variables A T F : Type.
Variable plus : T -> T -> T.
Variable unparsed : A.
Variables window default_ : nat.
Variable factory : nat -> T -> option F.
Notation fdict := (fdict A T F).
Notation fcache := (fcache A T F).
Notation step := (f_step plus unparsed window default_ factory).
Notation addt := (add_theme plus unparsed window default_).

Lemma get_set k l (v : fcache) d : d_get k (d_set l v d) = if key_eqb l k then Some v else d_get k d.
Proof.
  induction d as [|(m, w) d IH]; cbn [d_set d_get]; [reflexivity|].
  destruct (key_eqb m l) eqn:E1; cbn [d_get].
  - apply key_eqb_spec in E1. subst m. destruct (key_eqb l k); reflexivity.
  - rewrite IH. destruct (key_eqb m k) eqn:E2; [|reflexivity]. apply key_eqb_spec in E2. subst m.
    destruct (key_eqb l k) eqn:E3; [|reflexivity]. apply key_eqb_spec in E3. subst l. assert (key_eqb k k = true) by (apply key_eqb_spec; reflexivity). congruence.
Qed.
Lemma get_none k (d : fdict) : ~ In k (map fst d) -> d_get k d = None.
Proof.
  induction d as [|(m, w) d IH]; [reflexivity|]. cbn [map fst In d_get]. intros H. destruct (key_eqb m k) eqn:E; [|apply IH; tauto].
  apply key_eqb_spec in E. tauto.
Qed.
Lemma get_del k l (d : fdict) : NoDup (map fst d) -> d_get k (d_del l d) = if key_eqb l k then None else d_get k d.
Proof.
  induction d as [|(m, w) d IH]; cbn [d_del d_get map fst]; intros N; [destruct (key_eqb l k); reflexivity|]. inversion N as [|? ? N1 N2]; subst.
  destruct (key_eqb m l) eqn:E1.
  - apply key_eqb_spec in E1. subst m. destruct (key_eqb l k) eqn:E2; [|reflexivity]. apply key_eqb_spec in E2. subst l. apply get_none, N1.
  - cbn [d_get]. rewrite (IH N2). destruct (key_eqb m k) eqn:E2; [|reflexivity]. apply key_eqb_spec in E2. subst m.
    destruct (key_eqb l k) eqn:E3; [|reflexivity]. apply key_eqb_spec in E3. subst l. assert (key_eqb k k = true) by (apply key_eqb_spec; reflexivity). congruence.
Qed.
Lemma keys_set k (v : fcache) d x : In x (map fst (d_set k v d)) -> x = k \/ In x (map fst d).
Proof.
  induction d as [|(m, w) d IH]; cbn; [intros [<-|[]]; auto|]. destruct (key_eqb m k); cbn; [tauto|]. intros [<-|H]; [auto|]. apply IH in H. tauto.
Qed.
Lemma keys_del k (d : fdict) x : In x (map fst (d_del k d)) -> In x (map fst d).
Proof. induction d as [|(m, w) d IH]; cbn; [tauto|]. destruct (key_eqb m k); cbn; tauto. Qed.
Lemma nodup_set k (v : fcache) d : NoDup (map fst d) -> NoDup (map fst (d_set k v d)).
Proof.
  induction d as [|(m, w) d IH]; cbn; intros N; [constructor; [intros []|constructor]|]. inversion N as [|? ? N1 N2]; subst.
  destruct (key_eqb m k) eqn:E; cbn; [constructor; assumption|]. constructor; [|apply IH, N2]. intros H. apply keys_set in H as [->|H]; [|contradiction].
  assert (key_eqb k k = true) by (apply key_eqb_spec; reflexivity). congruence.
Qed.
Lemma nodup_del k (d : fdict) : NoDup (map fst d) -> NoDup (map fst (d_del k d)).
Proof.
  induction d as [|(m, w) d IH]; cbn; intros N; [constructor|]. inversion N as [|? ? N1 N2]; subst. destruct (key_eqb m k); [exact N2|].
  cbn. constructor; [|apply IH, N2]. intros H. apply keys_del in H. contradiction.
Qed.

(** What a formatter has for a theme. *)
Definition made (f : nat) (th : theme A T) (b : bool) : fcache :=
  let base_ := th_base th window default_ in
  FCache th (if b then factory f base_ else None)
    (if b then (fun action => factory f (plus base_ (th_text th action))) else (fun action => factory f (th_text th action)))
    (fun role state => factory f (th_base th role state)) (factory f (th_text th unparsed)).

Definition recached (f : nat) (v : fcache) : fcache := made f (fc_theme v) (match fc_base v with Some _ => true | None => false end).

Definition copy_step (f : nat) (s : state A T F) (p : option nat * fcache) : state A T F :=
  upd s f (addt (factory f) (fc_theme (snd p)) (fst p) (match fc_base (snd p) with Some _ => true | None => false end) (s f)).

Lemma copy_loop f : forall entries (s : state A T F), (forall g, NoDup (map fst (s g))) -> NoDup (map fst entries) ->
  let s1 := fold_left (copy_step f) entries s in
  (forall g, NoDup (map fst (s1 g))) /\ (forall g, g <> f -> s1 g = s g)
  /\ forall k, d_get k (s1 f) = match d_get k entries with Some v => Some (recached f v) | None => d_get k (s f) end.
Proof.
  induction entries as [|(l, v) entries IH]; intros s N Ne s1; cbn [fold_left] in s1.
  - repeat split; auto.
  - cbn [map fst] in Ne. inversion Ne as [|? ? Ne1 Ne2]; subst.
    assert (N' : forall g, NoDup (map fst (copy_step f s (l, v) g))).
    { intros g. unfold copy_step, upd. destruct (g =? f); [|apply N]. apply nodup_set, N. }
    destruct (IH (copy_step f s (l, v)) N' Ne2) as (I1 & I2 & I3). split; [exact I1|]. split.
    + intros g Hg. unfold s1. rewrite I2 by exact Hg. unfold copy_step, upd. destruct (g =? f) eqn:E; [lia|reflexivity].
    + intros k. unfold s1. rewrite I3. cbn [d_get]. unfold copy_step, upd. rewrite Nat.eqb_refl. unfold add_theme. rewrite get_set. cbn [fst snd].
      destruct (key_eqb l k) eqn:E; [|reflexivity]. apply key_eqb_spec in E. subst l. rewrite get_none by exact Ne1. reflexivity.
Qed.

Definition ok_op (o : fop A T) : Prop := match o with Copy f g => f <> g | _ => True end.
Lemma in_use_added : forall history f k (th : theme A T) b, in_use history f k = Some (th, b) -> exists g l, In (Add g th l b) history.
Proof.
  induction history as [|o history IH]; intros f k th b; [discriminate|]. cbn [in_use].
  assert (W : forall f k, in_use history f k = Some (th, b) -> exists g l, In (Add g th l b) (o :: history)).
  { intros f' k' H. destruct (IH f' k' th b H) as (g & l & Hin). exists g, l. right. exact Hin. }
  destruct o as [g th' l b'|g l|g h].
  - destruct ((g =? f) && _); [|apply W]. intros [= <- <-]. exists g, l. left. reflexivity.
  - destruct ((g =? f) && _); [discriminate|apply W].
  - destruct (g =? f); apply W.
Qed.

(** The factories make something of the base formats that are added. *)
Lemma run_ok : forall ops, Forall ok_op ops ->
  (forall g (th : theme A T) l, In (Add g th l true) ops -> forall f, factory f (th_base th window default_) <> None) ->
  let s := f_run plus unparsed window default_ factory ops in
  (forall g, NoDup (map fst (s g)))
  /\ forall f k, d_get k (s f) = option_map (fun p => made f (fst p) (snd p)) (in_use (rev ops) f k).
Proof.
  induction ops as [|o ops IH] using rev_ind; intros Ho bases s.
  - split; [intros g; constructor|]. intros f k. reflexivity.
  - apply Forall_app in Ho as [Ho1 Ho2]. inversion Ho2 as [|? ? Ho3 _]; subst. destruct (IH Ho1) as [N E].
    { intros g th l Hin. apply (bases g th l). apply in_or_app. left. exact Hin. }
    unfold s, f_run. rewrite fold_left_app. cbn [fold_left]. fold (f_run plus unparsed window default_ factory ops).
    set (s0 := f_run plus unparsed window default_ factory ops) in *. rewrite rev_app_distr. cbn [rev app].
    destruct o as [f th l b|f l|f g]; cbn [f_step in_use].
    + split.
      * intros g. unfold upd. destruct (g =? f); [apply nodup_set, N|apply N].
      * intros f' k. unfold upd. rewrite <- key_eqb_dec. rewrite (Nat.eqb_sym f f'). destruct (f' =? f) eqn:Ef; cbn [andb]; [|apply E].
        apply Nat.eqb_eq in Ef. subst f'. unfold add_theme. rewrite get_set. destruct (key_eqb l k); [reflexivity|apply E].
    + split.
      * intros g. unfold upd. destruct (g =? f); [apply nodup_del, N|apply N].
      * intros f' k. unfold upd. rewrite <- key_eqb_dec. rewrite (Nat.eqb_sym f f'). destruct (f' =? f) eqn:Ef; cbn [andb]; [|apply E].
        apply Nat.eqb_eq in Ef. subst f'. rewrite get_del by apply N. destruct (key_eqb l k); [reflexivity|apply E].
    + cbn in Ho3. set (s1 := upd s0 f []). assert (Eg : s1 g = s0 g) by (unfold s1, upd; destruct (g =? f) eqn:X; [lia|reflexivity]).
      assert (N1 : forall h, NoDup (map fst (s1 h))) by (intros h; unfold s1, upd; destruct (h =? f); [constructor|apply N]).
      destruct (copy_loop f (s1 g) s1 N1 (N1 g)) as (C1 & C2 & C3). split; [exact C1|]. intros f' k.
      destruct (f =? f') eqn:Ef.
      * apply Nat.eqb_eq in Ef. subst f'. etransitivity; [apply C3|]. rewrite Eg, E. unfold s1, upd. rewrite Nat.eqb_refl.
        destruct (in_use (rev ops) g k) as [(th, b)|] eqn:Eu; [|reflexivity]. cbn [option_map fst snd]. unfold recached, made. cbn [fc_theme fc_base].
        destruct b; [|reflexivity]. destruct (factory g (th_base th window default_)) eqn:Eb; [reflexivity|]. exfalso.
        destruct (in_use_added _ _ _ _ _ Eu) as (h & l & Hin). refine (bases h th l _ g Eb). apply in_or_app. left. apply in_rev, Hin.
      * etransitivity; [apply (f_equal (d_get k)), C2; lia|]. unfold s1, upd. rewrite (Nat.eqb_sym f' f), Ef. apply E.
Qed.
End Proofs.
