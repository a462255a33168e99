(** Proofs about replacing. *)
From Verif Require Import Base BaseFacts MutableModel MutableSpec MutableProofs BlockModel BlockSpec BlockProofs ReplaceModel ReplaceSpec.
From Coq Require Import ZArith ZifyBool.

(** ** A batch of edits in order *)

Lemma generate_from text t t' cs : t <= t' -> (forall c, In c cs -> t' <= g_start c) -> t' <= length text ->
  ordered t' cs -> generate_text text t cs = slice text t t' ++ generate_text text t' cs.
Proof.
  intros H1 H2 H3 Ho. destruct cs as [|c cs].
  - cbn [generate_text]. unfold from. symmetry. apply slice_app_from; lia.
  - cbn [generate_text]. specialize (H2 c (or_introl eq_refl)).
    assert (E : slice text t t' ++ (if t' <? g_start c then slice text t' (g_start c) else []) = if t <? g_start c then slice text t (g_start c) else []).
    { destruct (t' <? g_start c) eqn:E1.
      - replace (t <? g_start c) with true by lia. apply slice_app_slice; lia.
      - rewrite app_nil_r. destruct (t <? g_start c) eqn:E2; [f_equal; lia|apply slice_nil; lia]. }
    rewrite <- E, <- app_assoc. reflexivity.
Qed.

Lemma generate_drop text : forall cs t, ordered t cs -> t <= length text -> (forall c, In c cs -> g_end c <= length text) ->
  generate_text text t (filter (does_something text) cs) = generate_text text t cs.
Proof.
  induction cs as [|c cs IH]; intros t Ho Ht Hl; [reflexivity|]. destruct Ho as (O1 & O2 & O3).
  pose proof (Hl c (or_introl eq_refl)) as Hc.
  assert (IH' : generate_text text (g_end c) (filter (does_something text) cs) = generate_text text (g_end c) cs).
  { apply IH; [exact O3|lia|]. intros d Hd. apply Hl. right; exact Hd. }
  cbn [filter]. destruct (does_something text c) eqn:E.
  - cbn [generate_text]. rewrite IH'. reflexivity.
  - assert (Es : slice text (g_start c) (g_end c) = g_text c) by (apply str_eqb_spec; unfold does_something in E; lia).
    assert (Of : forall cs t, ordered t cs -> ordered t (filter (does_something text) cs)).
    { clear. induction cs as [|c cs IH]; intros t H; [exact I|]. destruct H as (H1 & H2 & H3). cbn [filter].
      destruct (does_something text c); [repeat split; auto|]. specialize (IH _ H3). destruct (filter _ cs) as [|d ds]; [exact I|].
      destruct IH as (I1 & I2 & I3). repeat split; auto; lia. }
    rewrite (generate_from text t (g_end c)); [|lia| |lia|apply Of; exact O3].
    + rewrite IH'. cbn [generate_text]. rewrite <- Es, app_assoc. f_equal.
      destruct (t <? g_start c) eqn:E2.
      * symmetry. apply slice_app_slice; lia.
      * cbn [app]. f_equal. lia.
    + intros d Hd. apply filter_In in Hd as [Hd _]. apply (ordered_in _ _ O3 d Hd).
Qed.

Lemma ordered_no_cuts : forall cs t, ordered t cs -> forall a b, In a cs -> In b cs -> ~ cuts a b.
Proof.
  induction cs as [|c cs IH]; intros t Ho a b Ha Hb; [destruct Ha|]. destruct Ho as (O1 & O2 & O3). unfold cuts.
  pose proof (ordered_in _ _ O3) as Hin. destruct Ha as [<-|Ha], Hb as [<-|Hb].
  - lia.
  - destruct (Hin b Hb). lia.
  - destruct (Hin a Ha). lia.
  - apply (IH _ O3 a b Ha Hb).
Qed.

Lemma ordered_weaken cs t t' : ordered t cs -> t' <= t -> ordered t' cs.
Proof. destruct cs as [|c cs]; [auto|]. intros (H1 & H2 & H3) H. repeat split; auto; lia. Qed.

Lemma batch_ordered text ops cs : inside 1 ops 1 -> flat_map (edit_of text) ops = cs -> ordered 0 cs ->
  (forall c, In c cs -> g_end c <= length text) ->
  exists outs out, m_run (MState text 0 []) (Enter :: ops ++ [Exit_ false]) = (MState (generate_text text 0 cs) 0 [], outs ++ [out])
    /\ Forall (fun o => o = Quiet \/ o = Raised) outs
    /\ match out with
       | Quiet => generate_text text 0 cs = text
       | TextChanged p r a => splice_of text (generate_text text 0 cs) p r a
       | Raised => False
       end.
Proof.
  intros Hi Hf Ho Hl. pose proof (batch_ok text ops Hi) as B. unfold batch in B. rewrite Hf in B.
  assert (Of : ordered 0 (filter (does_something text) cs)).
  { clear - Ho. revert Ho. generalize 0 as t. induction cs as [|c cs IH]; intros t H; [exact I|]. destruct H as (H1 & H2 & H3). cbn [filter].
    destruct (does_something text c); [repeat split; auto|]. apply (ordered_weaken _ _ _ (IH _ H3)). lia. }
  assert (Hlf : forall c, In c (filter (does_something text) cs) -> g_end c <= length text).
  { intros c Hc. apply filter_In in Hc as [Hc _]. auto. }
  rewrite <- (update_text_edited text _ Of Hlf) in B. unfold update_text in B. rewrite generate_drop in B by (auto; lia).
  destruct B as (outs & out & E & H1 & H2).
  - intros a b Ha Hb. apply (ordered_no_cuts _ _ Of a b Ha Hb).
  - exists outs, out. split; [exact E|]. split; [exact H1|]. destruct out; [|apply H2|exact H2].
    rewrite <- (generate_drop text cs 0 Ho ltac:(lia) Hl), H2. reflexivity.
Qed.

(** ** Edits in a region *)

Definition shift (a : nat) (c : change) : change := Change (a + g_start c) (a + g_end c) (g_text c).

Lemma substituted_generate text a b : a <= b -> b <= length text -> forall ms q, ordered q ms -> (forall m, In m ms -> g_end m <= b - a) -> q <= b - a ->
  generate_text text (a + q) (map (shift a) ms) = substituted (slice text a b) q ms ++ skipn b text.
Proof.
  intros Hab Hb. induction ms as [|m ms IH]; intros q Ho Hm Hq; cbn [map generate_text substituted].
  - unfold from. replace (skipn q (slice text a b)) with (slice text (a + q) b).
    + rewrite slice_app_from by lia. reflexivity.
    + rewrite <- (slice_from (slice text a b)), slice_slice; rewrite slice_length; [f_equal; lia|lia].
  - destruct Ho as (O1 & O2 & O3). pose proof (Hm m (or_introl eq_refl)) as Hm1. cbn [shift g_start g_end g_text].
    rewrite IH; [|exact O3|intros x Hx; apply Hm; right; exact Hx|lia]. rewrite <- !app_assoc. f_equal.
    rewrite slice_slice by lia. destruct (a + q <? a + g_start m) eqn:E; [reflexivity|]. symmetry. apply slice_nil. lia.
Qed.

Lemma shift_ordered a : forall ms q, ordered q ms -> ordered (a + q) (map (shift a) ms).
Proof.
  induction ms as [|m ms IH]; intros q H; [exact I|]. destruct H as (H1 & H2 & H3). cbn [map ordered shift g_start g_end].
  split; [lia|]. split; [lia|]. apply IH. exact H3.
Qed.

Lemma region_generate text a b ms : a <= b -> b <= length text -> ordered 0 ms -> (forall m, In m ms -> g_end m <= b - a) ->
  generate_text text 0 (map (shift a) ms) = put text a b (substituted (slice text a b) 0 ms).
Proof.
  intros Hab Hb Ho Hm. pose proof (shift_ordered a ms 0 Ho) as Hs. rewrite (generate_from text 0 a); [|lia| |lia|].
  - unfold put. rewrite slice_0. f_equal. rewrite <- (Nat.add_0_r a) at 1. apply substituted_generate; auto; lia.
  - intros c Hc. destruct (ordered_in _ _ Hs c Hc). lia.
  - rewrite Nat.add_0_r in Hs. exact Hs.
Qed.

Lemma key_piece_in (text : str) k a b : key_piece (length text) k = Some (a, b) -> a <= b <= length text.
Proof. intros H. rewrite key_piece_parse in H. pose proof (parse_key_ok text k a b [] H) as [H1 H2]. cbn in *. lia. Qed.

Lemma set_piece_edit (text : str) start end_ a b m : (0 <= start)%Z -> key_piece (length text) (KSlice (Some start) end_) = Some (a, b) ->
  g_start m <= g_end m <= b - a ->
  edit_of text (set_piece start (g_start m) (g_end m) (g_text m)) = [shift a m].
Proof.
  intros Hs Hk Hm. pose proof (key_piece_in _ _ _ _ Hk) as Hin. unfold set_piece, edit_of. cbn [key_piece] in *. unfold key_span in *.
  injection Hk as Ha Hb. clear Hb. replace (start <? 0)%Z with false in Ha by lia.
  replace (start + Z.of_nat (g_start m) <? 0)%Z with false by lia. replace (start + Z.of_nat (g_end m) <? 0)%Z with false by lia.
  unfold shift. f_equal. assert (Ha' : Z.of_nat a = Z.min start (Z.of_nat (length text))) by lia. clear Ha.
  assert (E1 : Z.to_nat (Z.min (Z.max 0 (start + Z.of_nat (g_start m))) (Z.of_nat (length text))) = a + g_start m) by lia.
  assert (E2 : Z.to_nat (Z.min (Z.max 0 (start + Z.of_nat (g_end m))) (Z.of_nat (length text))) = a + g_end m) by lia.
  rewrite E1, E2. f_equal. lia.
Qed.

Lemma set_pieces (text : str) start end_ a b : (0 <= start)%Z -> key_piece (length text) (KSlice (Some start) end_) = Some (a, b) ->
  forall ms q, ordered q ms -> (forall m, In m ms -> g_end m <= b - a) ->
  let ops := map (fun m => set_piece start (g_start m) (g_end m) (g_text m)) ms in
  flat_map (edit_of text) ops = map (shift a) ms /\ inside 1 ops 1.
Proof.
  intros Hs Hk. induction ms as [|m ms IH]; intros q Ho Hm; [split; reflexivity|]. destruct Ho as (O1 & O2 & O3).
  destruct (IH _ O3 (fun x Hx => Hm x (or_intror Hx))) as [I1 I2]. cbn [map flat_map]. split.
  - rewrite (set_piece_edit text start end_ a b m Hs Hk) by (specialize (Hm m (or_introl eq_refl)); lia). rewrite I1. reflexivity.
  - cbn [inside set_piece]. exact I2.
Qed.

Lemma region_batch (text : str) start end_ a b ms : (0 <= start)%Z -> key_piece (length text) (KSlice (Some start) end_) = Some (a, b) ->
  ordered 0 ms -> (forall m, In m ms -> g_end m <= b - a) ->
  let new := put text a b (substituted (slice text a b) 0 ms) in
  exists outs out, m_run (MState text 0 []) (Enter :: map (fun m => set_piece start (g_start m) (g_end m) (g_text m)) ms ++ [Exit_ false])
      = (MState new 0 [], outs ++ [out])
    /\ Forall (fun o => o = Quiet \/ o = Raised) outs
    /\ match out with
       | Quiet => new = text
       | TextChanged p r a => splice_of text new p r a
       | Raised => False
       end.
Proof.
  intros Hs Hk Ho Hm new. pose proof (key_piece_in _ _ _ _ Hk) as Hab. destruct (set_pieces text start end_ a b Hs Hk ms 0 Ho Hm) as [H1 H2].
  unfold new. rewrite <- (region_generate text a b ms); try assumption; try lia. apply batch_ordered; auto.
  - apply (ordered_weaken _ _ _ (shift_ordered a ms 0 Ho)). lia.
  - intros c Hc. apply in_map_iff in Hc as (m & <- & Hin). cbn [shift g_end]. specialize (Hm m Hin). lia.
Qed.

(** ** re_sub *)

Lemma limited_ordered count : forall ms q, ordered q ms -> ordered q (limited count ms).
Proof.
  unfold limited. destruct (limit count) as [n|]; [|auto]. revert n. intros n ms. revert n.
  induction ms as [|m ms IH]; intros [|n] q H; try exact I. destruct H as (H1 & H2 & H3). cbn [firstn ordered]. auto.
Qed.

Lemma re_sub_loop_ok start : forall ms i count, (1 <= i)%Z -> 
  re_sub_loop start ms i count
  = map (fun m => set_piece start (g_start m) (g_end m) (g_text m)) (if (count <? i)%Z then ms else firstn (Z.to_nat (count - i + 1)) ms).
Proof.
  induction ms as [|m ms IH]; intros i count Hi; cbn [re_sub_loop].
  - destruct (count <? i)%Z; [reflexivity|]. rewrite firstn_nil. reflexivity.
  - destruct (i =? count)%Z eqn:E.
    + replace (count <? i)%Z with false by lia. replace (Z.to_nat (count - i + 1)) with 1 by lia. reflexivity.
    + rewrite IH by lia. destruct (count <? i)%Z eqn:E2.
      * replace (count <? i + 1)%Z with true by lia. reflexivity.
      * replace (count <? i + 1)%Z with false by lia. replace (Z.to_nat (count - i + 1)) with (S (Z.to_nat (count - (i + 1) + 1))) by lia. reflexivity.
Qed.

Lemma re_sub_limited start ms count :
  re_sub_loop start ms 1 count = map (fun m => set_piece start (g_start m) (g_end m) (g_text m)) (limited count ms).
Proof.
  rewrite re_sub_loop_ok by lia. unfold limited, limit. f_equal. destruct (count <? 1)%Z eqn:E.
  - replace (count <=? 0)%Z with true by lia. reflexivity.
  - replace (count <=? 0)%Z with false by lia. f_equal. lia.
Qed.

(** ** replace *)

Section Replace.
Variable old new : str.
Hypothesis Hold : old <> [].

(** The occurrences, as matches. *)
Fixpoint occs (fuel : nat) (s : str) (pos : option nat) : list change :=
  match fuel, pos with
  | S fuel, Some p => Change p (p + length old) new :: occs fuel s (py_find old s (p + length old))
  | _, _ => []
  end.

Lemma replace_loop_ok start s : forall fuel pos count, (forall p, pos = Some p -> p + length old <= length s /\ length s - p < fuel) ->
  replace_loop fuel s old new start pos count
  = Some (map (fun m => set_piece start (g_start m) (g_end m) (g_text m)) (limited count (occs fuel s pos))).
Proof.
  induction fuel as [|fuel IH]; intros [p|] count Hp; try (cbn [replace_loop occs]; unfold limited; destruct (limit count) as [[|n]|]; reflexivity).
  - destruct (Hp p eq_refl). lia.
  - destruct (Hp p eq_refl) as [P1 P2]. cbn [replace_loop occs]. assert (Hl : 0 < length old) by (destruct old; [congruence|cbn; lia]).
    assert (Hn : forall q, py_find old s (p + length old) = Some q -> q + length old <= length s /\ length s - q < fuel).
    { intros q Hq. pose proof (find_spec s old Hold (p + length old)) as F. rewrite Hq in F. destruct F as (F1 & F2 & _).
      pose proof (occ_bound s old q F2). lia. }
    destruct (count - 1 =? 0)%Z eqn:E.
    + cbn [option_map]. unfold limited, limit. replace (count <=? 0)%Z with false by lia. replace (Z.to_nat count) with 1 by lia. reflexivity.
    + rewrite (IH _ _ Hn). cbn [option_map]. unfold limited, limit. destruct (count <=? 0)%Z eqn:E2.
      * replace (count - 1 <=? 0)%Z with true by lia. reflexivity.
      * replace (count - 1 <=? 0)%Z with false by lia. replace (Z.to_nat count) with (S (Z.to_nat (count - 1))) by lia. reflexivity.
Qed.

Lemma str_replace_skip c : forall s k, str_replace old new c k s = str_replace old new c 0 (skipn k s).
Proof.
  induction s as [|x s IH]; intros [|k]; try reflexivity. cbn [str_replace skipn]. apply IH.
Qed.

Lemma str_replace_zero : forall s, str_replace old new (Some 0) 0 s = s.
Proof. induction s as [|x s IH]; [reflexivity|]. cbn [str_replace]. rewrite IH. reflexivity. Qed.

Lemma found_starts s i : found_at old s i = true -> starts_with old (skipn i s) = true.
Proof. intros H. unfold found_at in H. unfold starts_with. unfold slice in H. replace (i + length old - i) with (length old) in H by lia. lia. Qed.
Lemma starts_found s i : starts_with old (skipn i s) = true -> found_at old s i = true.
Proof.
  intros H. unfold starts_with in H. apply str_eqb_spec in H. apply (occ_intro s old i).
  - pose proof (f_equal (@length nat) H) as Hl. rewrite firstn_length, skipn_length in Hl. assert (0 < length old) by (destruct old; [congruence|cbn; lia]). lia.
  - unfold slice. replace (i + length old - i) with (length old) by lia. exact H.
Qed.

Lemma skipn_cons (s : str) i : i < length s -> exists x, skipn i s = x :: skipn (S i) s.
Proof.
  revert i. induction s as [|y s IH]; intros i H; [cbn in H; lia|]. destruct i as [|i]; [exists y; reflexivity|]. cbn [length] in H.
  destruct (IH i ltac:(lia)) as (x & E). exists x. exact E.
Qed.

Lemma slice_cons (s : str) p i x : p < i -> i <= length s -> skipn p s = x :: skipn (S p) s -> slice s p i = x :: slice s (S p) i.
Proof. intros H1 H2 E. unfold slice. rewrite E. replace (i - p) with (S (i - S p)) by lia. reflexivity. Qed.

Lemma str_replace_none c : forall n s p, length s - p = n -> (forall j, p <= j -> found_at old s j = false) -> str_replace old new c 0 (skipn p s) = skipn p s.
Proof.
  induction n as [|n IH]; intros s p Hn H.
  - rewrite skipn_all2 by lia. reflexivity.
  - destruct (skipn_cons s p ltac:(lia)) as (x & E). rewrite E. cbn [str_replace]. rewrite (IH s (S p)); [|lia|intros j Hj; apply H; lia].
    destruct c as [[|c]|]; [reflexivity| |]; rewrite <- E;
      (destruct (starts_with old (skipn p s)) eqn:Es; [apply starts_found in Es; rewrite H in Es by lia; discriminate|reflexivity]).
Qed.

Lemma str_replace_step c s i : forall n p, i - p = n -> p <= i -> found_at old s i = true -> (forall j, p <= j < i -> found_at old s j = false) ->
  c <> Some 0 ->
  str_replace old new c 0 (skipn p s) = slice s p i ++ new ++ str_replace old new (option_map pred c) 0 (skipn (i + length old) s).
Proof.
  pose proof (occ_bound s old i) as Hb. assert (Hl : 0 < length old) by (destruct old; [congruence|cbn; lia]).
  induction n as [|n IH]; intros p Hn Hp Hi Hj Hc; specialize (Hb Hi).
  - assert (p = i) as -> by lia. rewrite slice_nil by lia. cbn [app]. pose proof (found_starts _ _ Hi) as Hs.
    destruct (skipn_cons s i ltac:(lia)) as (x & E). rewrite E in Hs |- *. cbn [str_replace]. rewrite Hs.
    assert (K : forall d, str_replace old new d (length old - 1) (skipn (S i) s) = str_replace old new d 0 (skipn (i + length old) s)).
    { intros d. rewrite str_replace_skip, skipn_skipn. do 2 f_equal. lia. }
    rewrite <- K. destruct c as [[|c]|]; [congruence|reflexivity|reflexivity].
  - destruct (skipn_cons s p ltac:(lia)) as (x & E). rewrite (slice_cons s p i x) by (auto; lia). cbn [app]. rewrite <- (IH (S p)); [|lia|lia|exact Hi|intros; apply Hj; lia|exact Hc].
    rewrite E. cbn [str_replace]. rewrite <- E.
    assert (Es : starts_with old (skipn p s) = false).
    { destruct (starts_with old (skipn p s)) eqn:Es; [|reflexivity]. apply starts_found in Es. rewrite Hj in Es by lia. discriminate. }
    rewrite Es. destruct c as [[|c]|]; reflexivity.
Qed.

Lemma occs_ok : forall fuel s p c, p <= length s -> length s - p < fuel ->
  let ms := match c with None => occs fuel s (py_find old s p) | Some n => firstn n (occs fuel s (py_find old s p)) end in
  substituted s p ms = str_replace old new c 0 (skipn p s) /\ ordered p ms /\ forall m, In m ms -> g_end m <= length s.
Proof.
  induction fuel as [|fuel IH]; intros s p c Hp Hf; [lia|]. pose proof (find_spec s old Hold p) as F. destruct (py_find old s p) as [i|].
  2:{ cbn [occs]. rewrite (str_replace_none c (length s - p)); auto. destruct c as [[|n]|]; cbn [firstn substituted ordered]; repeat split; intros m []. }
  destruct F as (F1 & F2 & F3). pose proof (occ_bound s old i F2) as Hb.
  assert (Hl : 0 < length old) by (destruct old; [congruence|cbn; lia]).
  destruct c as [[|n]|].
  - cbn [firstn substituted ordered]. rewrite str_replace_zero. repeat split; intros m [].
  - cbn [occs firstn substituted ordered g_start g_end g_text].
    destruct (IH s (i + length old) (Some n) Hb ltac:(lia)) as (I1 & I2 & I3). rewrite I1.
    rewrite (str_replace_step (Some (S n)) s i (i - p) p) by (auto; discriminate). cbn [option_map pred].
    split; [reflexivity|]. split; [split; [lia|split; [lia|exact I2]]|]. intros m [<-|Hm]; [cbn; lia|auto].
  - cbn [occs substituted ordered g_start g_end g_text].
    destruct (IH s (i + length old) None Hb ltac:(lia)) as (I1 & I2 & I3). rewrite I1.
    rewrite (str_replace_step None s i (i - p) p) by (auto; discriminate). cbn [option_map].
    split; [reflexivity|]. split; [split; [lia|split; [lia|exact I2]]|]. intros m [<-|Hm]; [cbn; lia|auto].
Qed.
End Replace.
