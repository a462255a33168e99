(** Proofs about the standard actions. *)
From Verif Require Import Base BaseFacts StandardActionModel StandardActionSpec.

Lemma parent_eqb_eq a b : parent_eqb a b = true <-> a = b.
Proof.
  destruct a as [x|], b as [y|]; cbn [parent_eqb]; split; intros H; try discriminate; try reflexivity.
  - f_equal. apply Nat.eqb_eq. exact H.
  - injection H as ->. apply Nat.eqb_refl.
Qed.

(** What holds in every state: the dictionaries hold exactly the objects, each under its own name and parent,
    and parents are older than their children. *)
Definition good (st : state) : Prop :=
  (forall parent name i, lookup parent name (interned st) = Some i <-> nth_error (heap st) i = Some (Action name parent))
  /\ (forall i n j, nth_error (heap st) i = Some (Action n (Some j)) -> j < i).

Lemma lookup_cons p n i d parent name :
  lookup parent name (((p, n), i) :: d) = if parent_eqb p parent && str_eqb n name then Some i else lookup parent name d.
Proof. unfold lookup. cbn [find fst snd]. destruct (parent_eqb p parent && str_eqb n name); reflexivity. Qed.

Lemma nth_error_snoc {A} (l : list A) x i : nth_error (l ++ [x]) i = if i =? length l then Some x else nth_error l i.
Proof.
  destruct (i =? length l) eqn:E.
  - apply Nat.eqb_eq in E. subst. rewrite nth_error_app2, Nat.sub_diag by lia. reflexivity.
  - apply Nat.eqb_neq in E. destruct (Nat.lt_ge_cases i (length l)) as [H|H].
    + apply nth_error_app1. exact H.
    + transitivity (@None A); [apply nth_error_None; rewrite app_length; cbn [length]; lia|symmetry; apply nth_error_None; lia].
Qed.

Lemma good_add st name parent : good st -> (forall j, parent = Some j -> j < length (heap st)) -> lookup parent name (interned st) = None ->
  good (State (heap st ++ [Action name parent]) (((parent, name), length (heap st)) :: interned st)).
Proof.
  intros [G1 G2] Hp Hl. split; cbn [heap interned].
  - intros q n i. rewrite lookup_cons, nth_error_snoc. destruct (parent_eqb parent q && str_eqb name n) eqn:E.
    + apply andb_true_iff in E as [E1 E2]. apply parent_eqb_eq in E1. apply str_eqb_spec in E2. subst q n. split.
      * intros [= <-]. rewrite Nat.eqb_refl. reflexivity.
      * destruct (i =? length (heap st)) eqn:Ei; [apply Nat.eqb_eq in Ei; intros _; congruence|]. intros H. apply G1 in H. congruence.
    + assert (Hne : Some (Action name parent) <> Some (Action n q)).
      { intros [= -> ->]. assert (E1 : parent_eqb q q = true) by (apply parent_eqb_eq; reflexivity).
        assert (E2 : str_eqb n n = true) by (apply str_eqb_spec; reflexivity). rewrite E1, E2 in E. discriminate. }
      rewrite G1. destruct (i =? length (heap st)) eqn:Ei; [|reflexivity]. apply Nat.eqb_eq in Ei. subst i. split; [|tauto].
      intros H. assert (length (heap st) < length (heap st)) by (apply nth_error_Some; congruence). lia.
  - intros i n j. rewrite nth_error_snoc. destruct (i =? length (heap st)) eqn:Ei; [|apply G2].
    apply Nat.eqb_eq in Ei. subst i. intros [= _ ->]. apply Hp. reflexivity.
Qed.

Lemma new_cases st name parent : usable parent name ->
  new st name parent = match lookup parent name (interned st) with
                       | Some i => (st, Some i)
                       | None => (State (heap st ++ [Action name parent]) (((parent, name), length (heap st)) :: interned st), Some (length (heap st)))
                       end.
Proof.
  intros [->|[H1 H2]]; [reflexivity|]. destruct parent as [p|]; [|reflexivity]. cbn [new].
  destruct (str_eqb name s_name) eqn:E1; [apply str_eqb_spec in E1; contradiction|].
  destruct (str_eqb name s_parent) eqn:E2; [apply str_eqb_spec in E2; contradiction|]. reflexivity.
Qed.

Lemma new_good st name parent : good st -> (forall j, parent = Some j -> j < length (heap st)) -> good (fst (new st name parent)).
Proof.
  intros G Hp. assert (D : usable parent name \/ fst (new st name parent) = st).
  { destruct parent as [p|]; [|left; left; reflexivity]. cbn [new]. destruct (str_eqb name s_name || str_eqb name s_parent) eqn:E; [right; reflexivity|].
    apply orb_false_iff in E as [E1 E2]. left. right. split; intros ->; [assert (X : str_eqb s_name s_name = true) by reflexivity|assert (X : str_eqb s_parent s_parent = true) by reflexivity]; congruence. }
  destruct D as [D| ->]; [|exact G]. rewrite new_cases by exact D. destruct (lookup parent name (interned st)) as [i|] eqn:E; [exact G|].
  apply good_add; assumption.
Qed.

Lemma reach_good st : reach st -> good st.
Proof.
  induction 1 as [|st name parent Hr IH Hp|st self name Hr IH Hs].
  - split; cbn [heap interned start].
    + intros parent name i. split; [discriminate|]. intros H. destruct i; discriminate.
    + intros i n j H. destruct i; discriminate.
  - apply new_good; assumption.
  - assert (D : fst (getattr st self name) = st \/ fst (getattr st self name) = fst (new st name (Some self))).
    { unfold getattr. destruct name as [|c r]; [right; reflexivity|].
      do 96 (destruct c as [|c]; [first [right; reflexivity | left; reflexivity]|]). right. reflexivity. }
    destruct D as [->| ->]; [exact IH|]. apply new_good; [exact IH|]. intros j [= <-]. exact Hs.
Qed.

(** Paths *)
Lemma path_exists st : good st -> forall k i, i < k -> i < length (heap st) -> exists p, is_path (heap st) i p.
Proof.
  intros [_ G]. induction k as [|k IH]; intros i Hk Hi; [lia|].
  destruct (nth_error (heap st) i) as [[n [j|]]|] eqn:E.
  - assert (Hj : j < i) by (eapply G; exact E). destruct (IH j) as (p & Hp); [lia|lia|]. exists (p ++ [n]). econstructor; eassumption.
  - exists [n]. constructor. exact E.
  - apply nth_error_None in E. lia.
Qed.

Lemma path_nonempty h i p : is_path h i p -> p <> [].
Proof. intros [ | ]; [discriminate|]. intros H'. apply app_eq_nil in H' as [_ H']. discriminate. Qed.

Lemma path_fun h i p : is_path h i p -> forall q, is_path h i q -> p = q.
Proof.
  induction 1 as [i n E|i n j p E Hp IH]; intros q Hq; inversion Hq as [i' n' E'|i' n' j' p' E' Hp']; subst; rewrite E in E'; try discriminate.
  - injection E' as ->. reflexivity.
  - injection E' as -> ->. f_equal. apply IH. exact Hp'.
Qed.

Lemma path_inj st : good st -> forall i p, is_path (heap st) i p -> forall j, is_path (heap st) j p -> i = j.
Proof.
  intros [G _]. induction 1 as [i n E|i n k p E Hp IH]; intros j Hj; inversion Hj as [j' n' E'|j' n' k' p' E' Hp' Hx Hq]; subst.
  - apply G in E. apply G in E'. congruence.
  - exfalso. apply (path_nonempty _ _ _ Hp'). destruct p'; [reflexivity|]. injection Hq as _ Hq. apply app_eq_nil in Hq as [_ Hq]. discriminate.
  - exfalso. apply (path_nonempty _ _ _ Hp). destruct p as [|x p]; [reflexivity|]. injection H0 as _ Hq. symmetry in Hq. apply app_eq_nil in Hq as [_ Hq]. discriminate.
  - apply app_inj_tail in Hq as [-> ->]. specialize (IH _ Hp'). subst k'. apply G in E. apply G in E'. congruence.
Qed.

Lemma path_valid h i p : is_path h i p -> i < length h.
Proof. intros [ ]; apply nth_error_Some; congruence. Qed.

Lemma path_grow h x i p : is_path h i p -> is_path (h ++ [x]) i p.
Proof.
  induction 1 as [i n E|i n j p E Hp IH]; [apply path_top|apply (path_child _ _ _ j); [|exact IH]]; (rewrite nth_error_app1; [exact E|apply nth_error_Some; congruence]).
Qed.

(** The chain of an action, against its path: the actions of the prefixes, the longest first. *)
Lemma chain_path st : good st -> forall i p, is_path (heap st) i p -> forall fuel, i < fuel ->
  map (name_of (heap st)) (chain fuel (heap st) i) = rev p
  /\ (forall t q, is_path (heap st) t q -> (In t (chain fuel (heap st) i) <-> prefix q p)).
Proof.
  intros G. induction 1 as [i n E|i n j p E Hp IH]; intros fuel Hf; destruct fuel as [|fuel]; try lia; cbn [chain]; rewrite E; cbn [a_parent].
  - split; [cbn [map rev app]; unfold name_of; rewrite E; reflexivity|]. intros t q Hq. split.
    + intros [<-|[]]. assert (Hx : is_path (heap st) i [n]) by (constructor; exact E). rewrite (path_fun _ _ _ Hq _ Hx). exists []. reflexivity.
    + intros [r Hr]. left. apply (path_inj st G i [n]); [constructor; exact E|].
      assert (Hqn : q <> []) by exact (path_nonempty _ _ _ Hq). destruct q as [|x q]; [contradiction|]. injection Hr as -> Hr. symmetry in Hr. apply app_eq_nil in Hr as [-> _]. exact Hq.
  - destruct G as [G1 G2]. assert (Hj : j < i) by (eapply G2; exact E). destruct (IH fuel) as [IH1 IH2]; [lia|]. split.
    + cbn [map]. rewrite IH1, rev_app_distr. cbn [rev app]. f_equal. unfold name_of. rewrite E. reflexivity.
    + intros t q Hq. assert (Hi : is_path (heap st) i (p ++ [n])) by (econstructor; eassumption). split.
      * intros [<-|Ht]; [rewrite (path_fun _ _ _ Hq _ Hi); exists []; rewrite app_nil_r; reflexivity|].
        apply (IH2 _ _ Hq) in Ht as [r ->]. exists (r ++ [n]). rewrite app_assoc. reflexivity.
      * intros [r Hr]. destruct r as [|x r] using rev_ind.
        -- left. rewrite app_nil_r in Hr. apply (path_inj st (conj G1 G2) i (p ++ [n]) Hi). rewrite Hr. exact Hq.
        -- right. apply (IH2 _ _ Hq). rewrite app_assoc in Hr. apply app_inj_tail in Hr as [-> _]. exists r. reflexivity.
Qed.

Lemma iter_path st i p : good st -> is_path (heap st) i p ->
  map (name_of (heap st)) (iter (heap st) i) = rev p
  /\ (forall t q, is_path (heap st) t q -> (In t (iter (heap st) i) <-> prefix q p)).
Proof. intros G Hp. apply chain_path; [exact G|exact Hp|]. pose proof (path_valid _ _ _ Hp). lia. Qed.

Lemma chain_ids st : good st -> forall fuel i t, In t (chain fuel (heap st) i) -> t < length (heap st).
Proof.
  intros G. induction fuel as [|fuel IH]; intros i t H; [destruct H|]. cbn [chain] in H. destruct (nth_error (heap st) i) as [a|] eqn:E; [|destruct H].
  destruct H as [<-|H]; [apply nth_error_Some; congruence|]. destruct (a_parent a) as [p|]; [|destruct H]. eapply IH. exact H.
Qed.

Lemma mem_iff (t : nat) (l : list nat) : existsb (Nat.eqb t) l = true <-> In t l.
Proof.
  rewrite existsb_exists. split.
  - intros (x & Hx & E). apply Nat.eqb_eq in E. subst. exact Hx.
  - intros H. exists t. split; [exact H|apply Nat.eqb_refl].
Qed.

(** The items after one in the chain are shorter prefixes: the first common one is the longest. *)
Lemma chain_first st : good st -> forall i p, is_path (heap st) i p -> forall fuel, i < fuel -> forall (f : nat -> bool) t q,
  find f (chain fuel (heap st) i) = Some t -> is_path (heap st) t q ->
  forall u r, is_path (heap st) u r -> prefix r p -> f u = true -> prefix r q.
Proof.
  intros G. induction 1 as [i n E|i n j p E Hp IH]; intros fuel Hf f t q Hfind Ht u r Hu Hpre Hfu; destruct fuel as [|fuel]; try lia; cbn [chain] in Hfind; rewrite E in Hfind; cbn [a_parent find] in Hfind.
  - destruct (f i) eqn:Efi; [|discriminate]. injection Hfind as <-. assert (Hx : is_path (heap st) i [n]) by (constructor; exact E).
    rewrite (path_fun _ _ _ Ht _ Hx). exact Hpre.
  - assert (Hi : is_path (heap st) i (p ++ [n])) by (econstructor; eassumption). destruct (f i) eqn:Efi.
    + injection Hfind as <-. rewrite (path_fun _ _ _ Ht _ Hi). exact Hpre.
    + assert (Hj : j < i) by (eapply (proj2 G); exact E). apply (IH fuel ltac:(lia) f t q Hfind Ht u r Hu); [|exact Hfu].
      destruct Hpre as [s Hs]. destruct s as [|x s] using rev_ind.
      * rewrite app_nil_r in Hs. subst r. pose proof (path_inj st G _ _ Hi _ Hu). subst u. congruence.
      * rewrite app_assoc in Hs. apply app_inj_tail in Hs as [-> _]. exists s. reflexivity.
Qed.

Lemma py_join_inj (sep : nat) : forall a b, Forall (fun x => ~ In sep x) a -> Forall (fun x => ~ In sep x) b -> a <> [] -> b <> [] ->
  py_join [sep] a = py_join [sep] b -> a = b.
Proof.
  assert (Hcut : forall x y r s, ~ In sep x -> ~ In sep y -> x ++ sep :: r = y ++ sep :: s -> x = y /\ r = s).
  { induction x as [|c x IH]; intros y r s Hx Hy H; destruct y as [|d y]; cbn [app] in H.
    - injection H as ->. auto.
    - injection H as -> _. exfalso. apply Hy. left. reflexivity.
    - injection H as -> _. exfalso. apply Hx. left. reflexivity.
    - injection H as -> H. apply IH in H as [-> ->]; [auto|firstorder|firstorder]. }
  induction a as [|x a IH]; intros b Ha Hb Na Nb H; [contradiction|]. destruct b as [|y b]; [contradiction|].
  inversion Ha as [|? ? Hx Ha']; subst. inversion Hb as [|? ? Hy Hb']; subst.
  destruct a as [|x' a]; destruct b as [|y' b]; cbn [py_join] in H.
  - subst. reflexivity.
  - exfalso. apply Hx. rewrite H. apply in_or_app. right. left. reflexivity.
  - exfalso. apply Hy. rewrite <- H. apply in_or_app. right. left. reflexivity.
  - cbn [app] in H. apply Hcut in H as [-> H]; [|assumption|assumption]. f_equal. apply IH; [assumption|assumption|discriminate|discriminate|]. exact H.
Qed.
