(** Proofs about blocks. *)
From Verif Require Import Base BaseFacts BlockModel BlockSpec.
From Coq Require Import ZArith ZifyBool.

(** ** Searching *)

Lemma find_seq f : forall n p, match find f (seq p n) with
  | Some i => p <= i < p + n /\ f i = true /\ (forall j, p <= j < i -> f j = false)
  | None => forall j, p <= j < p + n -> f j = false
  end.
Proof.
  induction n as [|n IH]; intros p; cbn [seq find]; [intros; lia|].
  destruct (f p) eqn:E; [split; [lia|split; [exact E|intros; lia]]|].
  specialize (IH (S p)). destruct (find f (seq (S p) n)) as [i|].
  - destruct IH as (H1 & H2 & H3). split; [lia|]. split; [exact H2|]. intros j Hj.
    destruct (Nat.eq_dec j p) as [->|]; [exact E|]. apply H3. lia.
  - intros j Hj. destruct (Nat.eq_dec j p) as [->|]; [exact E|]. apply IH. lia.
Qed.

Lemma find_rev_seq f : forall n p, match find f (rev (seq p n)) with
  | Some i => p <= i < p + n /\ f i = true /\ (forall j, i < j < p + n -> f j = false)
  | None => forall j, p <= j < p + n -> f j = false
  end.
Proof.
  induction n as [|n IH]; intros p; [cbn; intros; lia|]. rewrite seq_S, rev_app_distr. cbn [rev app find].
  destruct (f (p + n)) eqn:E; [split; [lia|split; [exact E|intros; lia]]|].
  specialize (IH p). destruct (find f (rev (seq p n))) as [i|].
  - destruct IH as (H1 & H2 & H3). split; [lia|]. split; [exact H2|]. intros j Hj.
    destruct (Nat.eq_dec j (p + n)) as [->|]; [exact E|]. apply H3. lia.
  - intros j Hj. destruct (Nat.eq_dec j (p + n)) as [->|]; [exact E|]. apply IH. lia.
Qed.

Section Blocks.
Variable text sep : str.
Hypothesis Hsep : sep <> [].

Let l := length sep.

Lemma l_pos : 0 < l.
Proof. unfold l. destruct sep; [congruence|cbn; lia]. Qed.

Notation occ := (found_at sep text).

Lemma occ_bound i : occ i = true -> i + l <= length text.
Proof. unfold found_at. fold l. lia. Qed.
Lemma occ_slice i : occ i = true -> slice text i (i + l) = sep.
Proof. unfold found_at. intros H. apply str_eqb_spec. unfold l. lia. Qed.
Lemma occ_intro i : i + l <= length text -> slice text i (i + l) = sep -> occ i = true.
Proof. intros H1 H2. unfold found_at. fold l. rewrite H2, str_eqb_refl. lia. Qed.

Lemma find_spec p : match py_find sep text p with
  | Some i => p <= i /\ occ i = true /\ (forall j, p <= j < i -> occ j = false)
  | None => forall j, p <= j -> occ j = false
  end.
Proof.
  unfold py_find. pose proof (find_seq occ (S (length text) - p) p) as H. destruct (find _ _) as [i|].
  - destruct H as (H1 & H2 & H3). repeat split; auto; lia.
  - intros j Hj. destruct (occ j) eqn:E; [|reflexivity]. pose proof (occ_bound _ E). rewrite <- E. apply H.
    pose proof l_pos. lia.
Qed.

Lemma rfind_spec e : match py_rfind sep text e with
  | Some i => occ i = true /\ i + l <= e /\ (forall j, occ j = true -> j + l <= e -> j <= i)
  | None => forall j, occ j = true -> e < j + l
  end.
Proof.
  unfold py_rfind. pose proof (find_rev_seq (fun i => occ i && (i + length sep <=? e)) (S (length text)) 0) as H.
  destruct (find _ _) as [i|].
  - destruct H as (H1 & H2 & H3). fold l in H2. split; [lia|]. split; [lia|]. intros j E1 E2.
    pose proof (occ_bound _ E1). destruct (Nat.le_gt_cases j i) as [|Hj]; [assumption|].
    specialize (H3 j ltac:(lia)). cbn beta in H3. fold l in H3. rewrite E1 in H3. lia.
  - intros j E1. pose proof (occ_bound _ E1). specialize (H j ltac:(lia)). cbn beta in H. fold l in H. rewrite E1 in H. lia.
Qed.

(** ** Chains of blocks *)

Inductive chain : nat -> list (nat * nat) -> Prop :=
| chain_last p : p <= length text -> (forall j, p <= j -> occ j = false) -> chain p [(p, length text)]
| chain_more p e bs : p <= e -> occ e = true -> (forall j, p <= j < e -> occ j = false) -> chain (e + l) bs ->
    chain p ((p, e) :: bs).

Lemma chain_exists : forall n p, length text - p <= n -> p <= length text -> exists bs, chain p bs /\ length bs <= S n.
Proof.
  induction n as [|n IH]; intros p Hn Hp; pose proof (find_spec p) as H; destruct (py_find sep text p) as [i|].
  - destruct H as (H1 & H2 & _). pose proof (occ_bound _ H2). pose proof l_pos. lia.
  - exists [(p, length text)]. split; [constructor; assumption|cbn; lia].
  - destruct H as (H1 & H2 & H3). pose proof (occ_bound _ H2). pose proof l_pos.
    destruct (IH (i + l)) as (bs & Hb & Hl); [lia|lia|]. exists ((p, i) :: bs). split; [constructor; assumption|cbn; lia].
  - exists [(p, length text)]. split; [constructor; assumption|cbn; lia].
Qed.

Lemma chain_end p bs : chain p bs -> exists e bs', bs = (p, e) :: bs' /\ find_end_of_block text sep p = e /\ p <= e.
Proof.
  intros H. unfold find_end_of_block. pose proof (find_spec p) as F. inversion H as [q H1 H2|q e bs' H1 H2 H3 H4]; subst.
  - do 2 eexists. split; [reflexivity|]. destruct (py_find sep text p) as [i|]; [|auto].
    destruct F as (F1 & F2 & _). rewrite (H2 i F1) in F2. discriminate.
  - do 2 eexists. split; [reflexivity|]. split; [|exact H1]. destruct (py_find sep text p) as [i|].
    + destruct F as (F1 & F2 & F3). destruct (Nat.lt_trichotomy i e) as [Hi|[Hi|Hi]]; [|exact Hi|].
      * rewrite (H3 i ltac:(lia)) in F2. discriminate.
      * rewrite (F3 e ltac:(lia)) in H2. discriminate.
    + rewrite (F e H1) in H2. discriminate.
Qed.

Lemma chain_bound p bs : chain p bs -> p <= length text.
Proof. intros H. inversion H as [|q e bs' H1 H2]; subst; [assumption|]. pose proof (occ_bound _ H2). lia. Qed.

(** The blocks after the first. *)
Definition span (b : block) : nat * nat := (b_pos b, b_end b).

Fixpoint below (e : nat) (bs : list (nat * nat)) : list (nat * nat) :=
  match bs with [] => [] | b :: bs => if e <=? fst b then [] else b :: below e bs end.

Lemma following_chain end_ : forall fuel p e bs b, chain p ((p, e) :: bs) -> span b = (p, e) -> length bs < fuel ->
  map span (following text sep fuel end_ b) = match end_ with Some x => below x bs | None => bs end
  /\ forall n, b_num b = Some n ->
       map b_num (following text sep fuel end_ b)
       = map (fun k => Some (n + 1 + Z.of_nat k)%Z) (seq 0 (length (following text sep fuel end_ b))).
Proof.
  induction fuel as [|fuel IH]; intros p e bs b Hc Hb Hf; [lia|]. unfold span in Hb. injection Hb as Hb1 Hb2. cbn [following].
  unfold next_block, is_last. rewrite Hb2. inversion Hc as [q H1 H2|q e' bs' H1 H2 H3 H4]; subst.
  - replace (length text <=? length text) with true by lia. destruct end_; split; reflexivity.
  - pose proof (occ_bound _ H2). pose proof l_pos. replace (length text <=? b_end b) with false by lia.
    destruct (chain_end _ _ H4) as (e2 & bs2 & -> & E2 & Hle). fold l. rewrite E2.
    set (n := match b_num b with Some k => _ | None => _ end).
    assert (Hn : span n = (b_end b + l, e2)) by (unfold n; destruct (b_num b); reflexivity).
    assert (Hnum : forall k, b_num b = Some k -> b_num n = Some (k + 1)%Z) by (intros k Hk; unfold n; rewrite Hk; reflexivity).
    destruct (IH _ _ _ n H4 Hn ltac:(cbn [length] in Hf; lia)) as [I1 I2].
    assert (Hp : b_pos n = b_end b + l) by (injection Hn; auto).
    assert (HN : forall k, b_num b = Some k -> map b_num (n :: following text sep fuel end_ n)
       = map (fun j => Some (k + 1 + Z.of_nat j)%Z) (seq 0 (length (n :: following text sep fuel end_ n)))).
    { intros k Hk. cbn [map length seq]. rewrite (Hnum k Hk), (I2 _ (Hnum k Hk)). f_equal; [f_equal; lia|].
      rewrite <- seq_shift, map_map. apply map_ext. intros j. f_equal. lia. }
    destruct end_ as [x|].
    + rewrite Hp. cbn [below fst]. destruct (x <=? b_end b + l).
      * split; reflexivity.
      * split; [cbn [map]; rewrite Hn, I1; reflexivity|exact HN].
    + split; [cbn [map]; rewrite Hn, I1; reflexivity|exact HN].
Qed.

(** ** The lines *)

Definition piece (b : nat * nat) : str := slice text (fst b) (snd b).

Lemma occ_contains a b : a <= b -> b <= length text -> contains sep (slice text a b) -> exists i, a <= i /\ i + l <= b /\ occ i = true.
Proof.
  intros Hab Hb (x & y & E). exists (a + length x).
  assert (El : length (slice text a b) = b - a) by (rewrite slice_length; lia).
  pose proof El as El2. rewrite E, !app_length in El2. fold l in El2. split; [lia|]. split; [lia|].
  apply occ_intro; [lia|]. replace sep with (slice (slice text a b) (length x) (length x + l)) at 1.
  - rewrite slice_slice by lia. f_equal; lia.
  - rewrite E. unfold slice. rewrite skipn_app, skipn_all, Nat.sub_diag. cbn [skipn app].
    replace (length x + l - length x) with l by lia. unfold l. rewrite firstn_app, firstn_all, Nat.sub_diag. cbn [firstn]. apply app_nil_r.
Qed.

Lemma chain_lines p bs : chain p bs -> join sep (map piece bs) = skipn p text /\ spans sep p (map piece bs) = bs
  /\ Forall (fun x => ~ contains sep x) (map piece bs) /\ bs <> [].
Proof.
  intros H. induction H as [p H1 H2|p e bs H1 H2 H3 H4 (I1 & I2 & I3 & I4)].
  - unfold piece. cbn [map join spans fst snd]. rewrite slice_length. split; [unfold slice; rewrite firstn_all2 by (rewrite skipn_length; lia); reflexivity|].
    split; [do 2 f_equal; lia|]. split; [|discriminate]. constructor; [|constructor]. intros Hx.
    apply occ_contains in Hx as (i & Hi1 & Hi2 & Hi3); [|lia|lia]. rewrite (H2 i Hi1) in Hi3. discriminate.
  - pose proof (occ_bound _ H2) as Hb. pose proof l_pos. cbn [map]. split; [|split; [|split; [|discriminate]]].
    + destruct (map piece bs) as [|x xs] eqn:Em; [destruct bs; [congruence|discriminate]|].
      change (join sep (piece (p, e) :: x :: xs)) with (piece (p, e) ++ sep ++ join sep (x :: xs)).
      rewrite I1, <- (occ_slice e H2) at 1. unfold piece. cbn [fst snd].
      rewrite (slice_app_from _ e (e + l)) by lia. rewrite slice_app_from by lia. reflexivity.
    + cbn [spans]. replace (p + length (piece (p, e))) with e by (unfold piece; cbn [fst snd]; rewrite slice_length; lia).
      fold l. rewrite I2. reflexivity.
    + constructor; [|exact I3]. intros Hx. apply occ_contains in Hx as (i & Hi1 & Hi2 & Hi3); cbn [fst snd] in *; [|lia|lia].
      rewrite (H3 i ltac:(lia)) in Hi3. discriminate.
Qed.


(** ** Separators that do not overlap *)

Hypothesis Hno : no_overlap sep.

Lemma occ_apart i j : occ i = true -> occ j = true -> i < j -> i + l <= j.
Proof.
  intros Hi Hj Hij. destruct (Nat.le_gt_cases (i + l) j) as [|H]; [assumption|]. exfalso.
  destruct Hno as [_ H2]. apply (H2 (i + l - j)); [fold l; lia|]. fold l.
  pose proof (occ_slice i Hi) as Ei. pose proof (occ_slice j Hj) as Ej. pose proof (occ_bound _ Hj).
  transitivity (slice text j (i + l)).
  - rewrite <- Ej. unfold slice. rewrite firstn_firstn. f_equal. lia.
  - transitivity (skipn (l - (i + l - j)) (slice text i (i + l))); [|rewrite Ei; reflexivity]. replace (skipn _ _) with (slice (slice text i (i + l)) (j - i) l).
    + rewrite slice_slice by lia. f_equal; lia.
    + unfold slice at 1. rewrite firstn_all2; [f_equal; lia|]. rewrite skipn_length, slice_length. lia.
Qed.

Lemma lines_chain : forall lines p, p <= length text -> lines <> [] -> Forall (fun x => ~ contains sep x) lines ->
  join sep lines = skipn p text -> chain p (spans sep p lines).
Proof.
  induction lines as [|x lines IH]; intros p Hp Hn Hc Hj; [congruence|]. inversion Hc as [|? ? Hx Hc']; subst.
  pose proof (skipn_length p text) as Hlen. destruct lines as [|y lines].
  - cbn [join spans] in *. subst x. rewrite skipn_length. replace (p + (length text - p)) with (length text) by lia.
    constructor; [exact Hp|]. intros j Hj. destruct (occ j) eqn:E; [|reflexivity]. exfalso. apply Hx.
    pose proof (occ_bound _ E). exists (slice text p j), (skipn (j + l) text). rewrite <- (occ_slice j E) at 1.
    rewrite slice_app_from by lia. rewrite slice_app_from by lia. reflexivity.
  - change (join sep (x :: y :: lines)) with (x ++ sep ++ join sep (y :: lines)) in Hj.
    rewrite <- Hj, !app_length in Hlen. fold l in Hlen.
    assert (Ho : occ (p + length x) = true).
    { apply occ_intro; [lia|]. unfold slice. rewrite <- skipn_skipn, <- Hj, skipn_app, skipn_all, Nat.sub_diag. cbn [skipn app].
      replace (p + length x + l - (p + length x)) with (length sep) by (fold l; lia).
      rewrite firstn_app, firstn_all, Nat.sub_diag. cbn [firstn]. apply app_nil_r. }
    change (spans sep p (x :: y :: lines)) with ((p, p + length x) :: spans sep (p + length x + l) (y :: lines)).
    constructor; [lia|exact Ho| |].
    + intros j Hj2. destruct (occ j) eqn:E; [|reflexivity]. exfalso. apply Hx. pose proof (occ_apart _ _ E Ho ltac:(lia)) as Ha.
      assert (Ex : x = slice text p (p + length x)).
      { unfold slice. rewrite <- Hj. replace (p + length x - p) with (length x) by lia. rewrite firstn_app, firstn_all, Nat.sub_diag.
        cbn [firstn]. rewrite app_nil_r. reflexivity. }
      exists (slice text p j), (slice text (j + l) (p + length x)). rewrite <- (occ_slice j E) at 1.
      rewrite slice_app_slice by lia. rewrite slice_app_slice by lia. exact Ex.
    + apply IH; [lia|discriminate|exact Hc'|]. rewrite <- !skipn_skipn, <- Hj.
      rewrite skipn_app, skipn_all, Nat.sub_diag. cbn [skipn app]. unfold l. rewrite skipn_app, skipn_all, Nat.sub_diag. reflexivity.
Qed.

Lemma chain_nth : forall bs q k p e, chain q bs -> nth_error bs k = Some (p, e) ->
  find_end_of_block text sep p = e /\ p <= e <= length text /\ q <= p
  /\ match nth_error bs (S k) with
     | Some (p', _) => p' = e + l /\ e < length text
     | None => e = length text
     end
  /\ match k with
     | 0 => p = q
     | S k' => exists p', nth_error bs k' = Some (p', p - l) /\ occ (p - l) = true /\ p' + l <= p
     end.
Proof.
  induction bs as [|[q' e'] bs IH]; intros q k p e Hc Hk; [destruct k; discriminate|].
  pose proof l_pos as Hl. destruct k as [|k].
  - injection Hk as -> ->. destruct (chain_end _ _ Hc) as (e2 & bs2 & E & H1 & H2). injection E as -> -> ->. split; [exact H1|].
    inversion Hc as [x H3 H4|x e3 bs3 H3 H4 H5 H6]; subst.
    + split; [lia|]. split; [lia|]. split; reflexivity.
    + pose proof (occ_bound _ H4). split; [lia|]. split; [lia|]. split; [|reflexivity]. cbn [nth_error].
      destruct (chain_end _ _ H6) as (e4 & bs4 & -> & _). split; lia.
  - cbn [nth_error] in Hk. inversion Hc as [x H3 H4|x e3 bs3 H3 H4 H5 H6]; subst; [destruct k; discriminate|].
    destruct (IH _ _ _ _ H6 Hk) as (I1 & I2 & I3 & I4 & I5). split; [exact I1|]. split; [exact I2|]. split; [lia|].
    split; [exact I4|]. destruct k as [|k].
    + subst p. exists q'. replace (e' + l - l) with e' by lia. repeat split; auto; lia.
    + destruct I5 as (p' & I5 & I6 & I7). exists p'. repeat split; auto.
Qed.

Lemma chain_located : forall bs q pos, chain q bs -> q <= pos <= length text ->
  exists k p e, nth_error bs k = Some (p, e) /\ p <= pos < e + l
    /\ forall j, occ j = true -> q <= j -> j + l <= pos -> j + l <= p.
Proof.
  induction bs as [|[q' e'] bs IH]; intros q pos Hc Hp; [inversion Hc|]. pose proof l_pos as Hl.
  inversion Hc as [x H3 H4|x e3 bs3 H3 H4 H5 H6]; subst.
  - exists 0, q', (length text). split; [reflexivity|]. split; [lia|]. intros j E Hj. rewrite (H4 j Hj) in E. discriminate.
  - destruct (Nat.lt_ge_cases pos (e' + l)) as [Hlt|Hge].
    + exists 0, q', e'. split; [reflexivity|]. split; [lia|]. intros j E Hj Hj2. exfalso. rewrite (H5 j ltac:(lia)) in E. discriminate.
    + destruct (IH _ _ H6 (conj Hge (proj2 Hp))) as (k & p & e & K1 & K2 & K3). exists (S k), p, e. split; [exact K1|]. split; [exact K2|].
      intros j E Hj Hj2. destruct (Nat.lt_trichotomy j e') as [Hx|[->|Hx]].
      * rewrite (H5 j ltac:(lia)) in E. discriminate.
      * destruct (chain_nth _ _ _ _ _ H6 K1) as (_ & _ & K4 & _). exact K4.
      * apply K3; [exact E|apply occ_apart; assumption|exact Hj2].
Qed.

Variable bs : list (nat * nat).
Hypothesis Hbs : chain 0 bs.

Lemma start_located pos : pos <= length text -> exists k e, nth_error bs k = Some (find_start_of_block text sep pos, e)
   /\ find_start_of_block text sep pos <= pos < e + l.
Proof.
  intros Hp. destruct (chain_located bs 0 pos Hbs ltac:(lia)) as (k & p & e & H1 & H2 & H3).
  assert (E : find_start_of_block text sep pos = p).
  { unfold find_start_of_block. pose proof (rfind_spec pos) as R. pose proof l_pos.
    destruct (chain_nth _ _ _ _ _ Hbs H1) as (_ & _ & _ & _ & H4). fold l.
    destruct k as [|k].
    - subst p. destruct (py_rfind sep text pos) as [i|]; [|reflexivity]. destruct R as (R1 & R2 & R3). specialize (H3 i R1 ltac:(lia) R2). lia.
    - destruct H4 as (p' & _ & H4 & H5). destruct (py_rfind sep text pos) as [i|].
      + destruct R as (R1 & R2 & R3). specialize (R3 _ H4 ltac:(lia)). specialize (H3 i R1 ltac:(lia) R2). lia.
      + specialize (R _ H4). lia. }
  exists k, e. rewrite E. split; assumption.
Qed.

Lemma nth_unique k k' p e p' e' pos : nth_error bs k = Some (p, e) -> nth_error bs k' = Some (p', e') ->
  p <= pos < e + l -> p' <= pos < e' + l -> k = k'.
Proof.
  assert (W : forall k k' p e p' e', nth_error bs k = Some (p, e) -> nth_error bs k' = Some (p', e') -> k < k' -> e + l <= p').
  { clear k k' p e p' e' pos. intros k k'. induction k' as [|k' IH]; intros p e p' e' H1 H2 Hlt; [lia|].
    destruct (chain_nth _ _ _ _ _ Hbs H2) as (_ & _ & _ & _ & p2 & H3 & H4 & H5). pose proof l_pos.
    destruct (Nat.eq_dec k k') as [->|]; [rewrite H1 in H3; injection H3 as -> ->; lia|].
    specialize (IH p e _ _ H1 H3 ltac:(lia)). destruct (chain_nth _ _ _ _ _ Hbs H3) as (_ & H6 & _). lia. }
  intros H1 H2 H3 H4. destruct (Nat.lt_trichotomy k k') as [H|[H|H]]; [|exact H|].
  - specialize (W _ _ _ _ _ _ H1 H2 H). lia.
  - specialize (W _ _ _ _ _ _ H2 H1 H). lia.
Qed.

Lemma start_of k p e pos : nth_error bs k = Some (p, e) -> p <= pos < e + l -> pos <= length text -> find_start_of_block text sep pos = p.
Proof.
  intros H1 H2 H3. destruct (start_located pos H3) as (k' & e' & H4 & H5). pose proof (nth_unique _ _ _ _ _ _ _ H1 H4 H2 H5) as ->.
  rewrite H1 in H4. injection H4 as -> _. reflexivity.
Qed.

Definition right_number (k : nat) (b : block) : Prop := b_num b = None \/ b_num b = Some (Z.of_nat k).

Lemma make_block_number k p e : nth_error bs k = Some (p, e) -> right_number k (make_block p e).
Proof.
  intros H. unfold right_number, make_block. cbn [b_num]. destruct (p =? 0) eqn:E; [|left; reflexivity]. right. do 2 f_equal.
  destruct k as [|k]; [reflexivity|]. destruct (chain_nth _ _ _ _ _ Hbs H) as (_ & _ & _ & _ & p2 & H3 & H4 & H5). pose proof l_pos. lia.
Qed.

Lemma find_block_ok pos : pos <= length text -> exists k, nth_error bs k = Some (span (find_block text sep pos))
  /\ b_pos (find_block text sep pos) <= pos < b_end (find_block text sep pos) + l /\ right_number k (find_block text sep pos).
Proof.
  intros Hp. destruct (start_located pos Hp) as (k & e & H1 & H2). exists k. unfold find_block.
  destruct (chain_nth _ _ _ _ _ Hbs H1) as (-> & _). split; [exact H1|]. split; [exact H2|]. apply (make_block_number k _ _ H1).
Qed.

Lemma next_block_ok k b : nth_error bs k = Some (span b) -> right_number k b ->
  match next_block text sep b with
  | Some n => nth_error bs (S k) = Some (span n) /\ right_number (S k) n
  | None => S k = length bs
  end.
Proof.
  intros H1 H2. destruct b as [p e num]. unfold span in H1. cbn [b_pos b_end] in H1. unfold next_block, is_last. cbn [b_end b_num].
  destruct (chain_nth _ _ _ _ _ Hbs H1) as (H3 & H4 & _ & H5 & _). pose proof l_pos as Hl. fold l.
  destruct (nth_error bs (S k)) as [[p' e']|] eqn:E.
  - destruct H5 as [-> H5]. replace (length text <=? e) with false by lia.
    destruct (chain_nth _ _ _ _ _ Hbs E) as (-> & _). unfold right_number in *. cbn [b_num] in H2.
    destruct num as [z|]; (split; [reflexivity|]).
    + destruct H2 as [|H2]; [discriminate|]. injection H2 as ->. right. cbn [b_num]. f_equal. lia.
    + apply (make_block_number (S k) _ _ E).
  - replace (length text <=? e) with true by lia. apply nth_error_None in E.
    assert (k < length bs) by (apply nth_error_Some; congruence). lia.
Qed.

Lemma previous_block_ok k b : nth_error bs k = Some (span b) -> right_number k b ->
  match previous_block text sep b with
  | Some n => exists k', k = S k' /\ nth_error bs k' = Some (span n) /\ right_number k' n
  | None => k = 0
  end.
Proof.
  intros H1 H2. destruct b as [p e num]. unfold span in H1. cbn [b_pos b_end] in H1. unfold previous_block. cbn [b_pos b_num].
  destruct (chain_nth _ _ _ _ _ Hbs H1) as (H3 & H4 & _ & _ & H5). pose proof l_pos as Hl. fold l.
  destruct k as [|k].
  - subst p. reflexivity.
  - destruct H5 as (p' & H5 & H6 & H7). replace (0 <? p) with true by lia.
    rewrite (start_of k p' (p - l) (p - l)) by (try assumption; lia). unfold right_number in *. cbn [b_num] in H2.
    exists k. split; [reflexivity|]. destruct num as [z|]; (split; [exact H5|]).
    + destruct H2 as [|H2]; [discriminate|]. injection H2 as ->. right. cbn [b_num]. f_equal. lia.
    + apply (make_block_number k _ _ H5).
Qed.

Lemma number_forward_ok : forall n k p e, nth_error bs k = Some (p, e) -> number_forward text sep n p = nth_error bs (k + n).
Proof.
  induction n as [|n IH]; intros k p e H; cbn [number_forward]; destruct (chain_nth _ _ _ _ _ Hbs H) as (-> & _ & _ & H5 & _).
  - rewrite Nat.add_0_r. symmetry. exact H.
  - replace (k + S n) with (S k + n) by lia. destruct (nth_error bs (S k)) as [[p' e']|] eqn:E.
    + destruct H5 as [-> H5]. replace (e =? length text) with false by lia. fold l. apply (IH (S k) _ _ E).
    + subst e. rewrite Nat.eqb_refl. symmetry. apply nth_error_None. apply nth_error_None in E. lia.
Qed.

Lemma number_backward_ok : forall n k p e, nth_error bs k = Some (p, e) ->
  number_backward text sep n e = if n <=? k then nth_error bs (k - n) else None.
Proof.
  induction n as [|n IH]; intros k p e H; cbn [number_backward]; destruct (chain_nth _ _ _ _ _ Hbs H) as (_ & H4 & _ & _ & H5);
    pose proof l_pos as Hl; rewrite (start_of k p e e) by (try assumption; lia).
  - cbn [Nat.leb]. rewrite Nat.sub_0_r. symmetry. exact H.
  - destruct k as [|k].
    + subst p. reflexivity.
    + destruct H5 as (p' & H5 & H6 & H7). replace (p =? 0) with false by lia. fold l. rewrite (IH k _ _ H5). reflexivity.
Qed.

Lemma count_chain : forall cs q fuel, chain q cs -> length cs <= fuel -> S (count_from sep fuel text q) = length cs.
Proof.
  induction cs as [|[q' e'] cs IH]; intros q fuel Hc Hf; [inversion Hc|]. destruct fuel as [|fuel]; [cbn in Hf; lia|].
  cbn [count_from]. pose proof (find_spec q) as F. inversion Hc as [x H3 H4|x e3 bs3 H3 H4 H5 H6]; subst.
  - destruct (py_find sep text q') as [i|]; [|reflexivity]. destruct F as (F1 & F2 & _). rewrite (H4 i F1) in F2. discriminate.
  - destruct (chain_end _ _ Hc) as (e2 & bs2 & E & H1 & H2). injection E as <- <-. unfold find_end_of_block in H1.
    destruct (py_find sep text q') as [i|].
    + subst i. fold l. rewrite (IH (e' + l) fuel H6); [reflexivity|cbn in Hf; lia].
    + rewrite (F e' H3) in H4. discriminate.
Qed.

Lemma chain_length : forall cs q, chain q cs -> length cs <= S (length text - q).
Proof.
  induction cs as [|[q' e'] cs IH]; intros q Hc; [inversion Hc|]. inversion Hc as [x H3 H4|x e3 bs3 H3 H4 H5 H6]; subst; [cbn; lia|].
  specialize (IH _ H6). pose proof (occ_bound _ H4). pose proof l_pos. cbn [length]. lia.
Qed.

Lemma count_ok : S (py_count sep text) = length bs.
Proof. unfold py_count. apply count_chain; [exact Hbs|]. pose proof (chain_length _ _ Hbs). lia. Qed.

Lemma below_filter x : forall cs q, chain q cs -> below x cs = filter (fun b => fst b <? x) cs.
Proof.
  assert (W : forall cs q, chain q cs -> x <= q -> filter (fun b : nat * nat => fst b <? x) cs = []).
  { induction cs as [|[q' e'] cs IH]; intros q Hc Hq; [inversion Hc|]. cbn [filter fst].
    inversion Hc as [y H3 H4|y e3 bs3 H3 H4 H5 H6]; subst; replace (q' <? x) with false by lia; [reflexivity|].
    apply (IH _ H6). pose proof l_pos. lia. }
  induction cs as [|[q' e'] cs IH]; intros q Hc; [reflexivity|]. cbn [below filter fst].
  inversion Hc as [y H3 H4|y e3 bs3 H3 H4 H5 H6]; subst.
  - destruct (x <=? q') eqn:E; [replace (q' <? x) with false by lia|replace (q' <? x) with true by lia]; reflexivity.
  - destruct (x <=? q') eqn:E; [replace (q' <? x) with false by lia|replace (q' <? x) with true by lia].
    + symmetry. apply (W _ _ H6). pose proof l_pos. lia.
    + rewrite (IH _ H6). reflexivity.
Qed.

Lemma chain_skip : forall k cs q p e, chain q cs -> nth_error cs k = Some (p, e) -> chain p ((p, e) :: skipn (S k) cs).
Proof.
  induction k as [|k IH]; intros cs q p e Hc Hk.
  - destruct cs as [|c cs]; [discriminate|]. injection Hk as ->. pose proof Hc as Hc2.
    destruct (chain_end _ _ Hc2) as (e2 & bs2 & E & _). injection E as -> -> ->. exact Hc.
  - inversion Hc as [y H3 H4|y e3 bs3 H3 H4 H5 H6]; subst; [destruct k; discriminate|]. apply (IH _ _ _ _ H6 Hk).
Qed.

Lemma blocks_ok start end_ : start <= length text -> exists k,
  nth_error bs k = Some (span (find_block text sep start))
  /\ map span (blocks text sep start end_)
     = span (find_block text sep start) :: match end_ with Some x => filter (fun b => fst b <? x) (skipn (S k) bs) | None => skipn (S k) bs end
  /\ forall i b, nth_error (blocks text sep start end_) i = Some b -> right_number (k + i) b.
Proof.
  intros Hs. destruct (find_block_ok start Hs) as (k & H1 & H2 & H3). exists k. split; [exact H1|].
  set (b := find_block text sep start) in *. pose proof (chain_skip _ _ _ _ _ Hbs H1) as Hc.
  destruct (following_chain end_ (S (length text)) _ _ _ b Hc eq_refl) as [F1 F2].
  { pose proof (chain_length _ _ Hc). cbn [length] in *. lia. }
  split.
  - unfold blocks. fold b. cbn [map]. rewrite F1. destruct end_ as [x|]; [|reflexivity]. f_equal.
    destruct (skipn (S k) bs) as [|[p' e'] cs] eqn:E; [reflexivity|]. rewrite <- E.
    inversion Hc as [y H4 H5|y e3 bs3 H4 H5 H6 H7]; subst. rewrite E. apply (below_filter x _ _ H7).
  - assert (W : forall fuel k b, nth_error bs k = Some (span b) -> right_number k b -> forall i n,
       nth_error (following text sep fuel end_ b) i = Some n -> right_number (k + S i) n).
    { clear - Hsep Hno Hbs. induction fuel as [|fuel IH]; intros k b H1 H2 i n Hn; [destruct i; discriminate|]. cbn [following] in Hn.
      pose proof (next_block_ok k b H1 H2) as N. destruct (next_block text sep b) as [m|]; [|destruct i; discriminate].
      destruct N as [N1 N2].
      assert (Hn2 : nth_error (m :: following text sep fuel end_ m) i = Some n).
      { destruct end_ as [x|]; [destruct (x <=? b_pos m); [destruct i; discriminate|]|]; exact Hn. }
      destruct i as [|i]; [injection Hn2 as <-; rewrite Nat.add_1_r; exact N2|].
      replace (k + S (S i)) with (S k + S i) by lia. apply (IH (S k) m N1 N2 i n Hn2). }
    intros i n Hn. unfold blocks in Hn. fold b in Hn. destruct i as [|i].
    + injection Hn as <-. rewrite Nat.add_0_r. exact H3.
    + apply (W _ k b H1 H3 i n Hn).
Qed.

End Blocks.
