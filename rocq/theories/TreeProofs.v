(** Proofs about searching and walking through trees. *)
From Verif Require Import Base BaseFacts TargetModel LexerModel LexerSpec TreeModel TreeSpec.
From Coq Require Import ZArith ZifyBool.

Section Proofs.
Variables L A : Type.
Notation node := (node L A).
Notation tok := (tok A).
Implicit Types (n c : node) (cs : list node) (t : tok) (ts : list tok).

Lemma node_ind' (P : node -> Prop) :
  (forall t, P (Tok t)) -> (forall l cs, Forall P cs -> P (Ctx l cs)) -> forall n, P n.
Proof.
  intros HT HC. fix IH 1. intros [t|l cs]; [apply HT|]. apply HC.
  induction cs as [|c cs IHcs]; constructor; [apply IH|apply IHcs].
Qed.

Lemma flatten_ctx l cs : flatten (Ctx l cs) = flat cs.
Proof. unfold flat. simpl. induction cs as [|c cs IH]; simpl; [reflexivity|]. f_equal; apply IH. Qed.

Lemma flat_cons c cs : flat (c :: cs) = flatten c ++ flat cs.
Proof. reflexivity. Qed.

Lemma flat_app (a b : list node) : flat (a ++ b) = flat a ++ flat b.
Proof. unfold flat. rewrite map_app, concat_app. reflexivity. Qed.

Lemma flat_toks ts : flat (map (@Tok L A) ts) = ts.
Proof. unfold flat. rewrite map_map. simpl. induction ts; simpl; congruence. Qed.

Lemma size_ctx l cs : size (Ctx l cs) = S (list_sum (map size cs)).
Proof. simpl. f_equal. induction cs as [|c cs IH]; simpl; [reflexivity|]. f_equal. apply IH. Qed.

Lemma size_pos n : 1 <= size n.
Proof. destruct n; simpl; lia. Qed.

Lemma size_nth cs i c : nth_error cs i = Some c -> size c <= list_sum (map size cs).
Proof.
  revert i; induction cs as [|d cs IH]; intros [|i]; simpl; try discriminate.
  - intros [= ->]. lia.
  - intros H. apply IH in H. unfold list_sum in *. lia.
Qed.

Lemma last_token_ctx l cs :
  last_token (Ctx l cs) = match last_opt cs with Some c => last_token c | None => None end.
Proof.
  induction cs as [|c cs IH]; [reflexivity|].
  destruct cs as [|d cs]; [reflexivity|].
  transitivity (last_token (Ctx l (d :: cs))); [reflexivity|]. rewrite IH.
  destruct (last_opt (d :: cs)) as [x|] eqn:E.
  - apply last_opt_some in E as [l' ->].
    change (c :: l' ++ [x]) with ((c :: l') ++ [x]). rewrite last_opt_app. reflexivity.
  - apply last_opt_none in E. discriminate.
Qed.

Lemma full_flatten n : full n -> flatten n <> [].
Proof.
  induction n as [t|l cs IH] using node_ind'; intros H; [discriminate|].
  inversion H as [|? ? Hne Hall]; subst. rewrite flatten_ctx.
  destruct cs as [|c cs]; [congruence|]. rewrite flat_cons.
  inversion IH; inversion Hall; subst.
  intros E. apply app_eq_nil in E as [E _]. apply (H2 H6). exact E.
Qed.

Lemma full_children l cs : full (Ctx l cs) -> cs <> [] /\ Forall full cs.
Proof. inversion 1; auto. Qed.

Lemma first_token_spec n : full n -> first_token n = hd_error (flatten n).
Proof.
  induction n as [t|l cs IH] using node_ind'; intros H; [reflexivity|].
  apply full_children in H as [Hne Hall]. rewrite flatten_ctx.
  destruct cs as [|c cs]; [congruence|].
  inversion IH; inversion Hall; subst. rewrite flat_cons, hd_error_app by (apply full_flatten; assumption).
  simpl. auto.
Qed.

Lemma last_opt_app_r {T} (a b : list T) : b <> [] -> last_opt (a ++ b) = last_opt b.
Proof.
  intros H. destruct (last_opt b) as [x|] eqn:E.
  - apply last_opt_some in E as [b' ->]. rewrite app_assoc. apply last_opt_app.
  - apply last_opt_none in E. congruence.
Qed.

Lemma last_token_spec n : full n -> last_token n = last_opt (flatten n).
Proof.
  induction n as [t|l cs IH] using node_ind'; intros H; [reflexivity|].
  apply full_children in H as [Hne Hall]. rewrite flatten_ctx, last_token_ctx.
  destruct (last_opt cs) as [c|] eqn:E; [|apply last_opt_none in E; congruence].
  apply last_opt_some in E as [cs' ->]. rewrite flat_app. simpl.
  apply Forall_app in IH as [_ IH]. apply Forall_app in Hall as [_ Hall].
  inversion IH; inversion Hall; subst.
  rewrite last_opt_app_r; unfold flat; simpl; rewrite app_nil_r; [auto|].
  apply full_flatten; assumption.
Qed.

(** ** Order *)

Lemma in_order_app (a b : list tok) : in_order (a ++ b) ->
  in_order a /\ in_order b /\ forall x y, In x a -> In y b -> k_end x <= k_pos y.
Proof.
  intros [HS HF]. apply Forall_app in HF as [HFa HFb].
  induction a as [|x a IH]; simpl in *.
  - split; [split; constructor|]. split; [split; assumption|]. intros ? ? [].
  - inversion HS; subst. inversion HFa; subst. specialize (IH H1 H4) as ((Sa & Fa) & Hb & HR).
    apply Forall_app in H2 as [H2a H2b]. split; [|split; [assumption|]].
    + split; constructor; assumption.
    + intros x' y [<-|Hx] Hy; [|auto]. rewrite Forall_forall in H2b. auto.
Qed.

Lemma in_order_text ts t : in_order ts -> In t ts -> k_pos t < k_end t.
Proof.
  intros [_ H] Hin. rewrite Forall_forall in H. specialize (H _ Hin). unfold k_end.
  destruct (k_text t); [congruence|simpl; lia].
Qed.

(** A test on tokens that stops to hold somewhere. *)
Definition falling (p : tok -> bool) ts : Prop :=
  forall a x b y, ts = a ++ x :: b -> In y b -> p y = true -> p x = true.

Lemma falling_app p (a b : list tok) : falling p (a ++ b) ->
  falling p a /\ falling p b /\ (forall x y, In x a -> In y b -> p y = true -> p x = true).
Proof.
  intros H. split; [|split].
  - intros u x v y -> Hy. apply (H u x (v ++ b) y); [rewrite <- app_assoc; reflexivity|].
    apply in_or_app; auto.
  - intros u x v y -> Hy. apply (H (a ++ u) x v y); [rewrite <- app_assoc; reflexivity|assumption].
  - intros x y Hx Hy. apply in_split in Hx as (a1 & a2 & ->).
    apply (H a1 x (a2 ++ b) y); [rewrite <- app_assoc; reflexivity|].
    apply in_or_app; auto.
Qed.

Lemma falling_end ts pos : in_order ts -> falling (fun t => k_end t <=? pos) ts.
Proof.
  intros H a x b y -> Hy Hp. apply Nat.leb_le in Hp. apply Nat.leb_le.
  pose proof (in_order_text _ y H) as Ht.
  apply in_order_app in H as (_ & [HS _] & _). inversion HS as [|? ? ? HF]; subst.
  rewrite Forall_forall in HF. specialize (HF y Hy).
  assert (Hin : In y (a ++ x :: b)) by (apply in_or_app; right; right; assumption).
  specialize (Ht Hin). lia.
Qed.

Lemma falling_pos ts pos : in_order ts -> falling (fun t => k_pos t <? pos) ts.
Proof.
  intros H a x b y -> Hy Hp. apply Nat.ltb_lt in Hp. apply Nat.ltb_lt.
  apply in_order_app in H as (_ & [HS _] & _). inversion HS as [|? ? ? HF]; subst.
  rewrite Forall_forall in HF. specialize (HF y Hy). unfold k_end in HF. lia.
Qed.

Lemma find_all_false {T} (p : T -> bool) l : (forall x, In x l -> p x = false) -> find p l = None.
Proof.
  induction l as [|x l IH]; intros H; [reflexivity|]. simpl.
  rewrite (H x (or_introl eq_refl)). apply IH. intros y Hy; apply H; right; assumption.
Qed.

Lemma find_app {T} (p : T -> bool) a b :
  find p (a ++ b) = match find p a with Some x => Some x | None => find p b end.
Proof. induction a as [|x a IH]; simpl; [reflexivity|]. destruct (p x); auto. Qed.

(** ** Binary search *)

Lemma bsearch_spec (f : nat -> bool) below fuel lo hi :
  (forall i, lo <= i < hi -> below i = Some (f i)) ->
  (forall i j, lo <= i < j -> j < hi -> f j = true -> f i = true) ->
  hi - lo < fuel -> lo <= hi ->
  exists r, bsearch below fuel lo hi = Some r /\ lo <= r <= hi /\
    (forall i, lo <= i < r -> f i = true) /\ (forall i, r <= i < hi -> f i = false).
Proof.
  revert lo hi; induction fuel as [|fuel IH]; intros lo hi Hb Hm Hf Hle; [lia|].
  cbn [bsearch]. destruct (lo <? hi) eqn:E.
  - apply Nat.ltb_lt in E.
    assert (Hmid : lo <= (lo + hi) / 2 < hi).
    { split; [apply Nat.div_le_lower_bound; lia|apply Nat.div_lt_upper_bound; lia]. }
    set (mid := (lo + hi) / 2) in *. cbv zeta. rewrite (Hb mid Hmid). destruct (f mid) eqn:Fm.
    + destruct (IH (mid + 1) hi) as (r & Hr & Hrr & Ht & Hfa).
      * intros i Hi; apply Hb; lia.
      * intros i j Hi Hj; apply Hm; lia.
      * lia.
      * lia.
      * exists r. split; [assumption|]. split; [lia|]. split; [|assumption].
        intros i Hi. destruct (Nat.lt_ge_cases mid i); [apply Ht; lia|].
        destruct (Nat.eq_dec i mid) as [->|]; [assumption|].
        apply (Hm i mid); [lia|lia|assumption].
    + destruct (IH lo mid) as (r & Hr & Hrr & Ht & Hfa).
      * intros i Hi; apply Hb; lia.
      * intros i j Hi Hj; apply Hm; lia.
      * lia.
      * lia.
      * exists r. split; [assumption|]. split; [lia|]. split; [assumption|].
        intros i Hi. destruct (Nat.lt_ge_cases i mid); [apply Hfa; lia|].
        destruct (f i) eqn:Fi; [|reflexivity].
        destruct (Nat.eq_dec i mid) as [->|]; [congruence|].
        rewrite (Hm mid i) in Fm; [discriminate|lia|lia|assumption].
  - apply Nat.ltb_ge in E. exists lo. split; [reflexivity|]. split; [lia|]. split; intros; lia.
Qed.

Lemma bsearch_in_spec (f : node -> bool) below cs :
  (forall c, In c cs -> below c = Some (f c)) ->
  (forall i j c d, i < j -> nth_error cs i = Some c -> nth_error cs j = Some d -> f d = true -> f c = true) ->
  exists r, bsearch_in below cs = Some r /\ r <= length cs /\
    Forall (fun c => f c = true) (firstn r cs) /\ Forall (fun c => f c = false) (skipn r cs).
Proof.
  intros Hb Hm. unfold bsearch_in.
  destruct (bsearch_spec (fun i => match nth_error cs i with Some c => f c | None => false end)
              (fun mid => match nth_error cs mid with Some n => below n | None => None end)
              (S (length cs)) 0 (length cs)) as (r & Hr & Hrr & Ht & Hf).
  - intros i Hi. destruct (nth_error cs i) as [c|] eqn:E.
    + apply Hb. eapply nth_error_In; eassumption.
    + apply nth_error_None in E. lia.
  - intros i j Hi Hj. destruct (nth_error cs j) as [d|] eqn:Ej; [|discriminate].
    destruct (nth_error cs i) as [c|] eqn:Ei; [|apply nth_error_None in Ei; lia].
    apply (Hm i j); [lia|assumption|assumption].
  - lia.
  - lia.
  - exists r. split; [assumption|]. split; [lia|]. split; apply Forall_forall; intros c Hc.
    + apply In_nth_error in Hc as [i Hi].
      assert (i < r) by (assert (i < length (firstn r cs)) by (apply nth_error_Some; congruence);
                         rewrite firstn_length in *; lia).
      specialize (Ht i ltac:(lia)). rewrite <- (firstn_skipn r cs) in Ht.
      rewrite nth_error_app1, Hi in Ht; [assumption|]. apply nth_error_Some; congruence.
    + apply In_nth_error in Hc as [i Hi].
      assert (i < length cs - r) by (rewrite <- skipn_length; apply nth_error_Some; congruence).
      specialize (Hf (r + i) ltac:(lia)). rewrite <- (firstn_skipn r cs) in Hf.
      rewrite nth_error_app2 in Hf; rewrite firstn_length in *; [|lia].
      replace (r + i - Nat.min r (length cs)) with i in Hf by lia. rewrite Hi in Hf. assumption.
Qed.

(** ** Children *)

Lemma nth_split cs i c : nth_error cs i = Some c -> cs = firstn i cs ++ c :: skipn (S i) cs.
Proof.
  revert i; induction cs as [|d cs IH]; intros [|i]; simpl; try discriminate.
  - intros [= ->]; reflexivity.
  - intros H. f_equal. apply IH. assumption.
Qed.

Lemma nth_split2 cs i j c d : i < j -> nth_error cs i = Some c -> nth_error cs j = Some d ->
  exists u v w, cs = u ++ c :: v ++ d :: w.
Proof.
  intros Hij Hi Hj. pose proof (nth_split _ _ _ Hi) as E.
  rewrite E, nth_error_app2 in Hj; rewrite firstn_length in *.
  - assert (i < length cs) by (apply nth_error_Some; congruence).
    rewrite Nat.min_l in Hj by lia. destruct (j - i) as [|k] eqn:Ek; [lia|].
    change (nth_error (skipn (S i) cs) k = Some d) in Hj.
    apply nth_split in Hj. exists (firstn i cs), (firstn k (skipn (S i) cs)), (skipn (S k) (skipn (S i) cs)).
    rewrite <- Hj. exact E.
  - lia.
Qed.

Lemma wf_child cs i c : wf_children cs -> nth_error cs i = Some c -> full c /\ in_order (flatten c).
Proof.
  intros [HF HO] Hi. split.
  - rewrite Forall_forall in HF. apply HF. eapply nth_error_In; eassumption.
  - rewrite (nth_split _ _ _ Hi), flat_app, flat_cons in HO.
    apply in_order_app in HO as (_ & HO & _). apply in_order_app in HO as (HO & _). assumption.
Qed.

Lemma wf_ctx l cs : full (Ctx l cs) -> in_order (flatten (Ctx l cs)) -> wf_children cs.
Proof.
  intros H HO. apply full_children in H as [_ H]. rewrite flatten_ctx in HO. split; assumption.
Qed.

(** The search on the last tokens of the children. *)
Lemma search_last p below cs :
  Forall full cs -> falling p (flat cs) ->
  (forall c t, In c cs -> last_token c = Some t -> below c = Some (p t)) ->
  exists r, bsearch_in below cs = Some r /\ r <= length cs /\
    (forall t, In t (flat (firstn r cs)) -> p t = true) /\
    (forall c, nth_error cs r = Some c -> exists t, last_opt (flatten c) = Some t /\ p t = false).
Proof.
  intros HF Hp Hb. rewrite Forall_forall in HF.
  assert (Hlast : forall c, In c cs -> exists t, last_token c = Some t /\ last_opt (flatten c) = Some t).
  { intros c Hc. specialize (HF c Hc). rewrite (last_token_spec _ HF).
    destruct (last_opt (flatten c)) as [t|] eqn:E; [eauto|].
    apply last_opt_none in E. apply full_flatten in HF. congruence. }
  destruct (bsearch_in_spec (fun c => match last_token c with Some t => p t | None => false end) below cs)
    as (r & Hr & Hle & Ht & Hf).
  - intros c Hc. destruct (Hlast c Hc) as (t & E & _). rewrite (Hb c t Hc E), E. reflexivity.
  - intros i j c d Hij Hi Hj. 
    destruct (Hlast c (nth_error_In _ _ Hi)) as (tc & Ec & Ec').
    destruct (Hlast d (nth_error_In _ _ Hj)) as (td & Ed & Ed').
    rewrite Ec, Ed. destruct (nth_split2 _ _ _ _ _ Hij Hi Hj) as (u & v & w & E).
    rewrite E, flat_app, flat_cons, flat_app, flat_cons in Hp.
    apply last_opt_some in Ec' as (lc & Ec'). apply last_opt_some in Ed' as (ld & Ed').
    apply falling_app in Hp as (_ & Hp & _). apply falling_app in Hp as (_ & _ & Hp).
    apply Hp.
    + rewrite Ec'. apply in_or_app; right; left; reflexivity.
    + apply in_or_app; right. apply in_or_app; left. rewrite Ed'. apply in_or_app; right; left; reflexivity.
  - exists r. split; [assumption|]. split; [assumption|]. split.
    + intros t Hin. unfold flat in Hin. apply in_concat in Hin as (l & Hl & Hin).
      apply in_map_iff in Hl as (c & <- & Hc).
      rewrite Forall_forall in Ht. specialize (Ht c Hc). simpl in Ht.
      assert (Hc' : In c cs) by (rewrite <- (firstn_skipn r cs); apply in_or_app; auto).
      destruct (Hlast c Hc') as (tl & El & El'). rewrite El in Ht.
      apply last_opt_some in El' as (lc & El').
      rewrite El' in Hin. apply in_app_or in Hin as [Hin|[<-|[]]]; [|assumption].
      apply In_nth_error in Hc' as [i Hi]. rewrite (nth_split _ _ _ Hi), flat_app, flat_cons in Hp.
      apply falling_app in Hp as (_ & Hp & _). apply falling_app in Hp as (Hp & _ & _).
      rewrite El' in Hp. apply falling_app in Hp as (_ & _ & Hp). apply (Hp t tl); simpl; auto.
    + intros c Hc. pose proof (nth_error_In _ _ Hc) as Hin.
      destruct (Hlast c Hin) as (tl & El & El'). exists tl. split; [assumption|].
      rewrite Forall_forall in Hf. specialize (Hf c). rewrite El in Hf. apply Hf.
      rewrite (nth_split _ _ _ Hc), skipn_app.
      assert (r < length cs) by (apply nth_error_Some; congruence).
      rewrite skipn_all2 by (rewrite firstn_length; lia). rewrite firstn_length, Nat.min_l by lia.
      rewrite Nat.sub_diag. simpl. auto.
Qed.

(** The search on the first tokens of the children. *)
Lemma search_first p below cs :
  Forall full cs -> falling p (flat cs) ->
  (forall c t, In c cs -> first_token c = Some t -> below c = Some (p t)) ->
  exists r, bsearch_in below cs = Some r /\ r <= length cs /\
    (forall t, In t (flat (skipn r cs)) -> p t = false) /\
    (forall i c, r = S i -> nth_error cs i = Some c -> exists t, hd_error (flatten c) = Some t /\ p t = true).
Proof.
  intros HF Hp Hb. rewrite Forall_forall in HF.
  assert (Hfst : forall c, In c cs -> exists t, first_token c = Some t /\ hd_error (flatten c) = Some t).
  { intros c Hc. specialize (HF c Hc). rewrite (first_token_spec _ HF).
    destruct (flatten c) as [|t ts] eqn:E; [|simpl; eauto].
    apply full_flatten in HF. congruence. }
  destruct (bsearch_in_spec (fun c => match first_token c with Some t => p t | None => false end) below cs)
    as (r & Hr & Hle & Ht & Hf).
  - intros c Hc. destruct (Hfst c Hc) as (t & E & _). rewrite (Hb c t Hc E), E. reflexivity.
  - intros i j c d Hij Hi Hj. 
    destruct (Hfst c (nth_error_In _ _ Hi)) as (tc & Ec & Ec').
    destruct (Hfst d (nth_error_In _ _ Hj)) as (td & Ed & Ed').
    rewrite Ec, Ed. destruct (nth_split2 _ _ _ _ _ Hij Hi Hj) as (u & v & w & E).
    rewrite E, flat_app, flat_cons, flat_app, flat_cons in Hp.
    apply falling_app in Hp as (_ & Hp & _). apply falling_app in Hp as (_ & _ & Hp).
    apply Hp.
    + destruct (flatten c); [discriminate|]. injection Ec' as ->. left; reflexivity.
    + apply in_or_app; right. apply in_or_app; left.
      destruct (flatten d); [discriminate|]. injection Ed' as ->. left; reflexivity.
  - exists r. split; [assumption|]. split; [assumption|]. split.
    + intros t Hin. unfold flat in Hin. apply in_concat in Hin as (l & Hl & Hin).
      apply in_map_iff in Hl as (c & <- & Hc).
      rewrite Forall_forall in Hf. specialize (Hf c Hc). simpl in Hf.
      assert (Hc' : In c cs) by (rewrite <- (firstn_skipn r cs); apply in_or_app; auto).
      destruct (Hfst c Hc') as (tl & El & El'). rewrite El in Hf.
      destruct (flatten c) as [|x xs] eqn:Ex; [discriminate|]. injection El' as ->.
      destruct Hin as [<-|Hin]; [assumption|].
      apply In_nth_error in Hc' as [i Hi]. rewrite (nth_split _ _ _ Hi), flat_app, flat_cons in Hp.
      apply falling_app in Hp as (_ & Hp & _). apply falling_app in Hp as (Hp & _ & _).
      rewrite Ex in Hp. destruct (p t) eqn:Pt; [|reflexivity].
      rewrite (Hp [] tl xs t eq_refl Hin Pt) in Hf. discriminate.
    + intros i c -> Hc. pose proof (nth_error_In _ _ Hc) as Hin.
      destruct (Hfst c Hin) as (tl & El & El'). exists tl. split; [assumption|].
      rewrite Forall_forall in Ht. specialize (Ht c). rewrite El in Ht. apply Ht.
      replace (firstn (S i) cs) with (firstn i cs ++ [c]); [apply in_or_app; right; left; reflexivity|].
      rewrite (nth_split _ _ _ Hc) at 2. rewrite firstn_app, firstn_firstn, firstn_length.
      assert (i < length cs) by (apply nth_error_Some; congruence).
      rewrite !Nat.min_r by lia. rewrite Nat.min_l by lia.
      replace (S i - i) with 1 by lia. simpl. reflexivity.
Qed.

(** ** Selecting the first or the last token that passes a test, by descending *)

Definition sel_first (p : tok -> bool) ts := find (fun t => negb (p t)) ts.
Definition sel_last (p : tok -> bool) ts := find_last p ts.

Lemma pick_first p below cs :
  Forall full cs -> falling p (flat cs) ->
  (forall c t, In c cs -> last_token c = Some t -> below c = Some (p t)) ->
  exists r, bsearch_in below cs = Some r /\
    ((r = length cs /\ sel_first p (flat cs) = None) \/
     (exists c t, nth_error cs r = Some c /\ sel_first p (flat cs) = Some t /\
                  sel_first p (flatten c) = Some t)).
Proof.
  intros HF Hp Hb. destruct (search_last p below cs HF Hp Hb) as (r & Hr & Hle & Ht & Hf).
  exists r. split; [assumption|]. destruct (nth_error cs r) as [c|] eqn:E.
  - right. exists c. destruct (Hf c eq_refl) as (tl & El & Pl).
    apply last_opt_some in El as (l' & El).
    destruct (sel_first p (flatten c)) as [t|] eqn:Es.
    + exists t. split; [reflexivity|]. split; [|reflexivity].
      rewrite (nth_split _ _ _ E), flat_app, flat_cons. unfold sel_first.
      rewrite find_app, find_all_false, find_app.
      * unfold sel_first in Es. rewrite Es. reflexivity.
      * intros x Hx. rewrite (Ht x Hx). reflexivity.
    + exfalso. unfold sel_first in Es. apply find_none with (x := tl) in Es.
      * rewrite Pl in Es. discriminate.
      * rewrite El. apply in_or_app; right; left; reflexivity.
  - left. apply nth_error_None in E. assert (r = length cs) as -> by lia. split; [reflexivity|].
    rewrite firstn_all in Ht. apply find_all_false. intros x Hx. rewrite (Ht x Hx). reflexivity.
Qed.

Lemma pick_last p below cs :
  Forall full cs -> falling p (flat cs) ->
  (forall c t, In c cs -> first_token c = Some t -> below c = Some (p t)) ->
  exists r, bsearch_in below cs = Some r /\
    ((r = 0 /\ sel_last p (flat cs) = None) \/
     (exists i c t, r = S i /\ nth_error cs i = Some c /\ sel_last p (flat cs) = Some t /\
                  sel_last p (flatten c) = Some t)).
Proof.
  intros HF Hp Hb. destruct (search_first p below cs HF Hp Hb) as (r & Hr & Hle & Ht & Hf).
  exists r. split; [assumption|]. destruct r as [|i].
  - left. split; [reflexivity|]. unfold sel_last, find_last. apply find_all_false.
    intros x Hx. apply Ht. apply in_rev. assumption.
  - right. destruct (nth_error cs i) as [c|] eqn:E; [|apply nth_error_None in E; lia].
    destruct (Hf i c eq_refl E) as (th & Eh & Ph).
    destruct (sel_last p (flatten c)) as [t|] eqn:Es.
    + exists i, c, t. split; [reflexivity|]. split; [assumption|]. split; [|assumption].
      rewrite (nth_split _ _ _ E), flat_app, flat_cons. unfold sel_last, find_last.
      rewrite !rev_app_distr, find_app, find_app, find_all_false.
      * unfold sel_last, find_last in Es. rewrite Es. reflexivity.
      * intros x Hx. apply Ht. apply in_rev. assumption.
    + exfalso. unfold sel_last, find_last in Es. apply find_none with (x := th) in Es.
      * congruence.
      * rewrite <- in_rev. destruct (flatten c); [discriminate|]. injection Eh as ->. left; reflexivity.
Qed.

Definition sel_ok (sel : list tok -> option tok) : Prop := forall t t', sel [t] = Some t' -> t' = t.

Lemma sel_first_ok p : sel_ok (sel_first p).
Proof. intros t t'. unfold sel_first. simpl. destruct (negb (p t)); congruence. Qed.
Lemma sel_last_ok p : sel_ok (sel_last p).
Proof. intros t t'. unfold sel_last, find_last. simpl. destruct (p t); congruence. Qed.

Lemma py_nth_nat {T} (l : list T) i : py_nth l (Z.of_nat i) = nth_error l i.
Proof.
  unfold py_nth. destruct (0 <=? Z.of_nat i)%Z eqn:E; [|lia]. rewrite Nat2Z.id. reflexivity.
Qed.

Lemma nat_trail_app a b : nat_trail (a ++ b) = nat_trail a ++ nat_trail b.
Proof. apply map_app. Qed.

Lemma descend_spec sel pick :
  sel_ok sel ->
  (forall cs t, wf_children cs -> sel (flat cs) = Some t ->
     exists i c, pick cs = Some (Z.of_nat i) /\ nth_error cs i = Some c /\ sel (flatten c) = Some t) ->
  forall fuel n trail t, size n <= fuel -> full n -> in_order (flatten n) -> sel (flatten n) = Some t ->
  exists more, descend pick fuel n trail = Some (t, trail ++ map Z.of_nat more) /\
    node_at n more = Some (Tok t).
Proof.
  intros Hok Hpick. induction fuel as [|fuel IH]; intros n trail t Hsz Hfull Hord Hsel.
  - pose proof (size_pos n). lia.
  - destruct n as [t'|l cs].
    + apply Hok in Hsel as ->. exists []. simpl. rewrite app_nil_r. auto.
    + pose proof (wf_ctx _ _ Hfull Hord) as Hwf. rewrite flatten_ctx in Hsel.
      destruct (Hpick cs t Hwf Hsel) as (i & c & Hp & Hi & Hs).
      cbn [descend]. rewrite Hp, py_nth_nat, Hi.
      destruct (wf_child _ _ _ Hwf Hi) as [Hfc Hoc].
      destruct (IH c (trail ++ [Z.of_nat i]) t) as (more & Hd & Hat); try assumption.
      * rewrite size_ctx in Hsz. apply size_nth in Hi. lia.
      * exists (i :: more). rewrite Hd. simpl. rewrite <- app_assoc. simpl. rewrite Hi. auto.
Qed.

Lemma find_with_trail_spec sel pick cs :
  sel_ok sel ->
  (forall cs, wf_children cs ->
     match sel (flat cs) with
     | None => pick cs = Some (-1)%Z
     | Some t => exists i c, pick cs = Some (Z.of_nat i) /\ nth_error cs i = Some c /\ sel (flatten c) = Some t
     end) ->
  wf_children cs ->
  match sel (flat cs) with
  | None => find_with_trail pick cs = Some None
  | Some t => exists trail, find_with_trail pick cs = Some (Some (t, map Z.of_nat trail)) /\
                            trail <> [] /\ forall l, node_at (Ctx l cs) trail = Some (Tok t)
  end.
Proof.
  intros Hok Hpick Hwf. pose proof (Hpick cs Hwf) as Hp. unfold find_with_trail.
  destruct (sel (flat cs)) as [t|] eqn:Es.
  - destruct Hp as (i & c & Hp & Hi & Hs). rewrite Hp.
    replace (Z.of_nat i =? -1)%Z with false by lia. rewrite py_nth_nat, Hi.
    destruct (wf_child _ _ _ Hwf Hi) as [Hfc Hoc].
    destruct (descend_spec sel pick Hok) with (fuel := size c) (n := c) (trail := [Z.of_nat i]) (t := t)
      as (more & Hd & Hat); try assumption; try lia.
    + intros cs' t' Hwf' Hs'. specialize (Hpick cs' Hwf'). rewrite Hs' in Hpick. assumption.
    + exists (i :: more). rewrite Hd. split; [reflexivity|]. split; [discriminate|].
      intros l. simpl. rewrite Hi. assumption.
  - rewrite Hp. reflexivity.
Qed.

Lemma c_find_pick pos cs : wf_children cs ->
  match sel_first (fun t => k_end t <=? pos) (flat cs) with
  | None => c_find pos cs = Some (-1)%Z
  | Some t => exists i c, c_find pos cs = Some (Z.of_nat i) /\ nth_error cs i = Some c /\
                          sel_first (fun t => k_end t <=? pos) (flatten c) = Some t
  end.
Proof.
  intros [HF HO]. unfold c_find.
  destruct (pick_first (fun t => k_end t <=? pos) (fun n => Some (n_end n <=? pos)) cs HF (falling_end _ pos HO))
    as (r & Hr & Hcase).
  - intros c t _ Et. unfold n_end. rewrite Et. reflexivity.
  - rewrite Hr. destruct Hcase as [[-> ->]|(c & t & Hi & -> & Hs)].
    + rewrite Nat.eqb_refl. reflexivity.
    + exists r, c. assert (r < length cs) by (apply nth_error_Some; congruence).
      destruct (r =? length cs) eqn:E; [apply Nat.eqb_eq in E; lia|]. auto.
Qed.

Lemma c_find_left_pick pos cs : wf_children cs ->
  match sel_last (fun t => k_pos t <? pos) (flat cs) with
  | None => c_find_left pos cs = Some (-1)%Z
  | Some t => exists i c, c_find_left pos cs = Some (Z.of_nat i) /\ nth_error cs i = Some c /\
                          sel_last (fun t => k_pos t <? pos) (flatten c) = Some t
  end.
Proof.
  intros [HF HO]. unfold c_find_left.
  destruct (pick_last (fun t => k_pos t <? pos) (fun n => Some (n_pos n <? pos)) cs HF (falling_pos _ pos HO))
    as (r & Hr & Hcase).
  - intros c t _ Et. unfold n_pos. rewrite Et. reflexivity.
  - rewrite Hr. destruct Hcase as [[-> ->]|(i & c & t & -> & Hi & -> & Hs)].
    + reflexivity.
    + exists i, c. split; [f_equal; lia|auto].
Qed.

Lemma find_token_after_spec pos : forall fuel l cs, size (Ctx l cs) <= fuel -> wf_children cs ->
  find_token_after_loop fuel cs pos = Some (find (fun t => pos <=? k_pos t) (flat cs)).
Proof.
  assert (Hq : forall ts, find (fun t => pos <=? k_pos t) ts = sel_first (fun t => k_pos t <? pos) ts).
  { intros ts. unfold sel_first. induction ts as [|t ts IH]; [reflexivity|]. simpl.
    rewrite Nat.leb_antisym. destruct (negb (k_pos t <? pos)); auto. }
  induction fuel as [|fuel IH]; intros l cs Hsz Hwf; [rewrite size_ctx in Hsz; lia|].
  cbn [find_token_after_loop]. pose proof Hwf as [HF HO].
  destruct (pick_first (fun t => k_pos t <? pos) (after_below pos) cs HF (falling_pos _ pos HO))
    as (r & Hr & Hcase).
  - intros c t _ Et. unfold after_below. rewrite Et. reflexivity.
  - rewrite Hr. destruct Hcase as [[-> Hn]|(c & t & Hi & Hs & Hc)].
    + rewrite Nat.leb_refl, Hq, Hn. reflexivity.
    + assert (r < length cs) by (apply nth_error_Some; congruence).
      destruct (length cs <=? r) eqn:E; [apply Nat.leb_le in E; lia|]. rewrite Hi, Hq, Hs.
      destruct c as [t'|l' cs'].
      * apply sel_first_ok in Hc as ->. reflexivity.
      * destruct (wf_child _ _ _ Hwf Hi) as [Hfc Hoc].
        rewrite (IH l' cs').
        -- rewrite Hq. rewrite flatten_ctx in Hc. rewrite Hc. reflexivity.
        -- apply size_nth in Hi. rewrite size_ctx in Hsz. lia.
        -- apply (wf_ctx l'); assumption.
Qed.

Lemma find_token_before_spec pos : forall fuel l cs, size (Ctx l cs) <= fuel -> wf_children cs ->
  find_token_before_loop before_below fuel cs pos = Some (find_last (fun t => k_end t <=? pos) (flat cs)).
Proof.
  induction fuel as [|fuel IH]; intros l cs Hsz Hwf; [rewrite size_ctx in Hsz; lia|].
  cbn [find_token_before_loop]. pose proof Hwf as [HF HO].
  destruct (pick_last (fun t => k_end t <=? pos) (before_below pos) cs HF (falling_end _ pos HO))
    as (r & Hr & Hcase).
  - intros c t _ Et. unfold before_below. rewrite Et. rewrite Nat.leb_antisym. reflexivity.
  - rewrite Hr. destruct Hcase as [[-> Hn]|(i & c & t & -> & Hi & Hs & Hc)].
    + unfold sel_last in Hn. rewrite Hn. reflexivity.
    + unfold sel_last in Hs. rewrite Hi, Hs.
      destruct c as [t'|l' cs'].
      * apply sel_last_ok in Hc as ->. reflexivity.
      * destruct (wf_child _ _ _ Hwf Hi) as [Hfc Hoc].
        rewrite (IH l' cs').
        -- unfold sel_last in Hc. rewrite flatten_ctx in Hc. rewrite Hc. reflexivity.
        -- apply size_nth in Hi. rewrite size_ctx in Hsz. lia.
        -- apply (wf_ctx l'); assumption.
Qed.

End Proofs.
