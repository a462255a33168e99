(** C70: dispatching. *)
From Verif Require Import Base DispatchModel.

(** ** The specification *)

(** The name registered for a key by the nearest class that does so. *)
Inductive registered (class_dict : nat -> nat -> option attr) (name key : nat) : list nat -> option nat -> Prop :=
| reg_none : registered class_dict name key [] None
| reg_here c cs t def n : class_dict c name = Some (Disp t def) -> dict_get t key = Some n -> registered class_dict name key (c :: cs) (Some n)
| reg_further c cs r : (forall t def, class_dict c name = Some (Disp t def) -> dict_get t key = None) ->
    registered class_dict name key cs r -> registered class_dict name key (c :: cs) r.

(** ** Dictionaries *)

Lemma get_set {V} (d : list (nat * V)) k v k' : dict_get (dict_set d k v) k' = if k =? k' then Some v else dict_get d k'.
Proof.
  unfold dict_get. induction d as [|[x w] d IH]; cbn [dict_set find fst].
  - destruct (k =? k'); reflexivity.
  - destruct (x =? k) eqn:E; cbn [find fst].
    + apply Nat.eqb_eq in E. subst. destruct (k =? k'); reflexivity.
    + destruct (x =? k') eqn:E2; [|exact IH]. destruct (k =? k') eqn:E3; [|reflexivity]. apply Nat.eqb_eq in E2, E3. subst. rewrite Nat.eqb_refl in E. discriminate.
Qed.

Fixpoint nodup_keys {V} (d : list (nat * V)) : Prop :=
  match d with [] => True | (k, _) :: d => ~ In k (map fst d) /\ nodup_keys d end.

Lemma get_none {V} (d : list (nat * V)) k : ~ In k (map fst d) -> dict_get d k = None.
Proof.
  unfold dict_get. induction d as [|[x w] d IH]; intros H; [reflexivity|]. cbn [find fst map In] in *. destruct (x =? k) eqn:E; [apply Nat.eqb_eq in E; subst; exfalso; apply H; left; reflexivity|].
  apply IH. intros K. apply H. right; exact K.
Qed.

Lemma get_update {V} (e : list (nat * V)) : forall d k, nodup_keys e -> dict_get (dict_update d e) k = match dict_get e k with Some v => Some v | None => dict_get d k end.
Proof.
  induction e as [|[x w] e IH]; intros d k Hn; [reflexivity|]. destruct Hn as [H1 H2]. unfold dict_update. cbn [fold_left fst snd]. fold (dict_update (dict_set d x w) e). rewrite IH by exact H2. rewrite get_set.
  unfold dict_get at 3. cbn [find fst]. destruct (x =? k) eqn:E; [|reflexivity]. apply Nat.eqb_eq in E. subst. rewrite (get_none e k H1). reflexivity.
Qed.

Lemma set_keys {V} (d : list (nat * V)) k v x : In x (map fst (dict_set d k v)) <-> x = k \/ In x (map fst d).
Proof.
  induction d as [|[y w] d IH]; cbn [dict_set map fst In]; [intuition|]. destruct (y =? k) eqn:E; cbn [map fst In]; [apply Nat.eqb_eq in E; subst; intuition|rewrite IH; intuition].
Qed.
Lemma set_nodup {V} (d : list (nat * V)) k v : nodup_keys d -> nodup_keys (dict_set d k v).
Proof.
  induction d as [|[y w] d IH]; intros H; cbn [dict_set nodup_keys]; [split; [intros []|exact I]|]. destruct H as [H1 H2]. destruct (y =? k) eqn:E; cbn [nodup_keys].
  - apply Nat.eqb_eq in E. subst. auto.
  - split; [|auto]. rewrite set_keys. intros [->|K]; [rewrite Nat.eqb_refl in E; discriminate|auto].
Qed.

(** What a decorator makes is a dictionary. *)
Lemma register_nodup keys : forall t n, nodup_keys t -> nodup_keys (register t keys n).
Proof. induction keys as [|k keys IH]; intros t n H; [exact H|]. unfold register. cbn [fold_left]. apply IH. apply set_nodup. exact H. Qed.

Section Proofs.
Variable class_dict : nat -> nat -> option attr.
Variable mro : nat -> list nat.
Hypothesis tables_ok : forall c name t def, class_dict c name = Some (Disp t def) -> nodup_keys t.

Lemma update_nodup {V} (e : list (nat * V)) : forall d, nodup_keys d -> nodup_keys (dict_update d e).
Proof. induction e as [|[x w] e IH]; intros d H; [exact H|]. unfold dict_update. cbn [fold_left fst snd]. apply IH. apply set_nodup. exact H. Qed.

Lemma names_spec owner name key : registered class_dict name key (mro owner) (dict_get (names_table class_dict mro owner name) key) /\ nodup_keys (names_table class_dict mro owner name).
Proof.
  unfold names_table, dispatchers. induction (mro owner) as [|c cs IH]; [split; [constructor|exact I]|]. cbn [flat_map].
  set (f := fun c => match class_dict c name with Some (Disp t _) => [t] | _ => [] end) in *. fold (f c).
  rewrite rev_app_distr, fold_left_app. destruct IH as [IH1 IH2]. set (base := fold_left dict_update (rev (flat_map f cs)) []) in *.
  unfold f. destruct (class_dict c name) as [[t def|g]|] eqn:E; cbn [rev app fold_left].
  - rewrite get_update by (eapply tables_ok; exact E). split; [|apply update_nodup; exact IH2].
    destruct (dict_get t key) as [n|] eqn:En; [eapply reg_here; eassumption|]. apply reg_further; [|exact IH1]. intros t' def' E'. congruence.
  - split; [|exact IH2]. apply reg_further; [|exact IH1]. intros t' def' E'. congruence.
  - split; [|exact IH2]. apply reg_further; [|exact IH1]. intros t' def' E'. congruence.
Qed.

Lemma functions_get owner : forall t l key, functions class_dict mro owner t = Some l ->
  dict_get l key = match dict_get t key with Some n => getattr class_dict mro owner n | None => None end.
Proof.
  induction t as [|[a n] t IH]; intros l key H; cbn [functions] in H; [injection H as <-; reflexivity|].
  destruct (getattr class_dict mro owner n) as [f|] eqn:E; [|discriminate]. destruct (functions class_dict mro owner t) as [l'|]; [|discriminate]. injection H as <-.
  unfold dict_get. cbn [find fst]. destruct (a =? key); [congruence|]. apply (IH l' key eq_refl).
Qed.
Lemma functions_some owner : forall t, (forall n, In n (map snd t) -> getattr class_dict mro owner n <> None) -> exists l, functions class_dict mro owner t = Some l.
Proof.
  induction t as [|[a n] t IH]; intros H; [exists []; reflexivity|]. cbn [functions]. destruct (getattr class_dict mro owner n) as [f|] eqn:E.
  - destruct IH as [l ->]; [intros m Hm; apply H; right; exact Hm|]. exists ((a, f) :: l). reflexivity.
  - exfalso. apply (H n); [left; reflexivity|exact E].
Qed.

Lemma set_values {V} (d : list (nat * V)) k v w : In w (map snd (dict_set d k v)) -> w = v \/ In w (map snd d).
Proof.
  induction d as [|[y u] d IH]; cbn [dict_set map snd In]; [intuition|]. destruct (y =? k); cbn [map snd In]; intuition.
Qed.
Lemma update_values {V} (e : list (nat * V)) : forall d w, In w (map snd (dict_update d e)) -> In w (map snd e) \/ In w (map snd d).
Proof.
  induction e as [|[x u] e IH]; intros d w H; [right; exact H|]. unfold dict_update in H. cbn [fold_left fst snd] in H. destruct (IH _ _ H) as [K|K]; [left; right; exact K|].
  apply set_values in K as [-> | K]; [left; left; reflexivity|right; exact K].
Qed.
Lemma names_values owner name w : In w (map snd (names_table class_dict mro owner name)) -> exists t, In t (dispatchers class_dict mro owner name) /\ In w (map snd t).
Proof.
  unfold names_table. intros H. assert (Hg : forall ts d, In w (map snd (fold_left dict_update ts d)) -> (exists t, In t ts /\ In w (map snd t)) \/ In w (map snd d)).
  { clear H. induction ts as [|t ts IH]; intros d H; [right; exact H|]. cbn [fold_left] in H. destruct (IH _ H) as [(t' & H1 & H2)|K]; [left; exists t'; split; [right; exact H1|exact H2]|].
    apply update_values in K as [K|K]; [left; exists t; split; [left; reflexivity|exact K]|right; exact K]. }
  destruct (Hg _ _ H) as [(t & H1 & H2)|[]]. exists t. split; [apply in_rev; exact H1|exact H2].
Qed.
End Proofs.

(** C70: calling a dispatcher calls the function that the instance's class has for the name registered for the key by the
    nearest class that registers it; when no class does, the default function. It is assumed that registered functions are
    attributes of the class, or of one of its bases. *)
Theorem C70_dispatch : forall (class_dict : nat -> nat -> option attr) (mro : nat -> list nat) (owner name key : nat) (t0 : list (nat * nat)) (default : option nat),
  (forall c name t def, class_dict c name = Some (Disp t def) -> nodup_keys t) ->
  getattr class_dict mro owner name = Some (Disp t0 default) ->
  (forall c t def n, In c (mro owner) -> class_dict c name = Some (Disp t def) -> In n (map snd t) -> getattr class_dict mro owner n <> None) ->
  exists reg, registered class_dict name key (mro owner) reg
  /\ dispatch class_dict mro owner name key
     = match reg with Some n => Some (getattr class_dict mro owner n) | None => Some (option_map Func default) end.
Proof.
  intros class_dict mro owner name key t0 default Hn Hd Hf. destruct (names_spec class_dict mro Hn owner name key) as [Hr _].
  eexists. split; [exact Hr|]. unfold dispatch, get_table.
  destruct (functions_some class_dict mro owner (names_table class_dict mro owner name)) as [l El].
  { intros n Hin. apply names_values in Hin as (t & Ht & Hin). unfold dispatchers in Ht. apply in_flat_map in Ht as (c & Hc & Ht).
    destruct (class_dict c name) as [[t' def|g]|] eqn:E; try contradiction. destruct Ht as [->|[]]. eapply Hf; eassumption. }
  rewrite El, Hd. rewrite (functions_get class_dict mro owner _ _ key El).
  destruct (dict_get (names_table class_dict mro owner name) key) as [n|] eqn:En; [|reflexivity].
  destruct (getattr class_dict mro owner n) as [f|] eqn:Ef; [reflexivity|]. exfalso.
  assert (Hin : In n (map snd (names_table class_dict mro owner name))).
  { unfold dict_get in En. destruct (find _ _) as [[k v]|] eqn:E; [|discriminate]. injection En as ->. apply find_some in E as [E _]. apply in_map_iff. exists (k, n). auto. }
  apply names_values in Hin as (t & Ht & Hin). unfold dispatchers in Ht. apply in_flat_map in Ht as (c & Hc & Ht).
  destruct (class_dict c name) as [[t' def|g]|] eqn:E; try contradiction. destruct Ht as [->|[]]. apply (Hf _ _ _ _ Hc E Hin Ef).
Qed.
Print Assumptions C70_dispatch.

(** Which name is registered is determined. *)
Theorem C70_unique : forall class_dict name key cs r r', registered class_dict name key cs r -> registered class_dict name key cs r' -> r = r'.
Proof.
  intros class_dict name key cs r r' H. revert r'. induction H as [|c cs t def n E1 E2|c cs r Hn H IH]; intros r' H'; inversion H'; subst; auto; try congruence.
  - exfalso. match goal with K : forall t def, _ -> _ |- _ => rewrite (K t def E1) in E2 end. discriminate.
  - exfalso. match goal with K : class_dict c name = Some (Disp ?t ?d), L : dict_get ?t key = Some _ |- _ => rewrite (Hn t d K) in L end. discriminate.
Qed.
Print Assumptions C70_unique.

(** Class 1 inherits from class 0. Its dispatcher (name 0) adds key 12 and moves key 11 to function name 2; it
    overrides function name 1. *)
Example C70_example :
  let cd := fun c n => match c, n with
                       | 0, 0 => Some (Disp (register (register [] [10; 11] 1) [13] 2) (Some 99))
                       | 0, 1 => Some (Func 100) | 0, 2 => Some (Func 200)
                       | 1, 0 => Some (Disp (register [] [11; 12] 2) None)
                       | 1, 1 => Some (Func 101)
                       | _, _ => None end in
  let mro := fun c => if c =? 1 then [1; 0] else [c] in
  map (dispatch cd mro 1 0) [10; 11; 12; 13; 14] = [Some (Some (Func 101)); Some (Some (Func 200)); Some (Some (Func 200)); Some (Some (Func 200)); Some None]
  /\ map (dispatch cd mro 0 0) [10; 11; 12] = [Some (Some (Func 100)); Some (Some (Func 100)); Some (Some (Func 99))].
Proof. split; reflexivity. Qed.
