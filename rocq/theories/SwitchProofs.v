(** Switches, and looking for an encoding. *)
From Verif Require Import Base BaseFacts SwitchModel SwitchSpec.
From Coq Require Import ZArith ZifyBool.

Section Switch.
Variable I : Type.
Variable ieq : I -> I -> bool.
Hypothesis irefl : forall a, ieq a a = true.
Hypothesis isym : forall a b, ieq a b = true -> ieq b a = true.
Hypothesis itrans : forall a b c, ieq a b = true -> ieq b c = true -> ieq a c = true.
Notation sws := (sws I). Notation w_find := (w_find I ieq). Notation w_get := (w_get I ieq).

Lemma act_ind (P : act I -> Prop) : (forall x, match x with With _ body | Try body => Forall P body | _ => True end -> P x) -> forall x, P x.
Proof.
  intros H. fix F 1. intros x. apply H. destruct x as [i body | i | | body |]; try exact Logic.I; induction body as [| y body IH]; constructor; try (apply F); exact IH.
Qed.
Definition times (i : I) (on : list I) : nat := length (filter (ieq i) on).
Record good (s : sws) (on : list I) : Prop := Good {
  g_val : forall i k, w_find s i = Some k -> nth_error (w_vals s) k = Some (Z.of_nat (times i on));
  g_none : forall i, w_find s i = None -> times i on = 0;
  g_eq : forall i j k, w_find s i = Some k -> w_find s j = Some k -> ieq i j = true }.
Definition more (s s' : sws) : Prop := forall i k, w_find s i = Some k -> w_find s' i = Some k.
Lemma ieq_cong i j x : ieq i j = true -> ieq i x = ieq j x.
Proof. intros H. destruct (ieq j x) eqn:E; [eapply itrans; eassumption |]. destruct (ieq i x) eqn:E2; [| reflexivity]. rewrite (itrans _ _ _ (isym _ _ H) E2) in E. discriminate. Qed.
Lemma ieq_cong2 i j x : ieq i j = true -> ieq x i = ieq x j.
Proof. intros H. destruct (ieq x j) eqn:E; [eapply itrans; [exact E | now apply isym] |]. destruct (ieq x i) eqn:E2; [| reflexivity]. rewrite (itrans _ _ _ E2 H) in E. discriminate. Qed.
Lemma times_cong i j on : ieq i j = true -> times i on = times j on.
Proof. intros H. unfold times. f_equal. apply filter_ext. intros x. now apply ieq_cong. Qed.
Lemma find_cong s i j : ieq i j = true -> w_find s i = w_find s j.
Proof.
  intros H. unfold SwitchModel.w_find. f_equal. induction (w_dict s) as [| p l IH]; [reflexivity |]. cbn [find]. rewrite (ieq_cong2 i j _ H). destruct (ieq (fst p) j); [reflexivity | exact IH].
Qed.
Lemma get_good s i on : good s on -> let (s1, k) := w_get s i in good s1 on /\ more s s1 /\ w_find s1 i = Some k.
Proof.
  intros [G1 G2 G3]. unfold SwitchModel.w_get. destruct (w_find s i) as [k |] eqn:E; [split; [now split |]; split; [now intros j k' H | exact E] |].
  set (s1 := Sws _ _). assert (F : forall j, w_find s1 j = if ieq i j then Some (length (w_vals s)) else w_find s j).
  { intros j. unfold SwitchModel.w_find, s1. cbn [w_dict find fst]. destruct (ieq i j); reflexivity. }
  assert (Old : forall j, ieq i j = true -> w_find s j = None) by (intros j H; now rewrite <- (find_cong s i j H)).
  assert (Lt : forall j k, w_find s j = Some k -> k < length (w_vals s)) by (intros j k H; apply G1 in H; apply nth_error_Some; congruence).
  split; [split | split].
  - intros j k. rewrite F. destruct (ieq i j) eqn:Ej.
    + intros H. injection H as <-. unfold s1. cbn [w_vals]. rewrite nth_error_app2, Nat.sub_diag by lia. cbn. now rewrite (G2 j (Old j Ej)).
    + intros H. unfold s1. cbn [w_vals]. rewrite nth_error_app1 by (now apply (Lt j)). now apply G1.
  - intros j. rewrite F. destruct (ieq i j); [discriminate | apply G2].
  - intros j j' k. rewrite !F. destruct (ieq i j) eqn:Ej, (ieq i j') eqn:Ej'; intros H1 H2.
    + eapply itrans; [apply isym, Ej | exact Ej'].
    + injection H1 as <-. apply Lt in H2. lia.
    + injection H2 as <-. apply Lt in H1. lia.
    + eapply G3; eassumption.
  - intros j k H. rewrite F. destruct (ieq i j) eqn:Ej; [rewrite (Old j Ej) in H; discriminate | exact H].
  - rewrite F, irefl. reflexivity.
Qed.
Lemma z_add_nth l : forall k d j, nth_error (z_add l k d) j = if j =? k then option_map (fun z => (z + d)%Z) (nth_error l j) else nth_error l j.
Proof. induction l as [| z l IH]; intros [| k] d [| j]; cbn [z_add nth_error]; try reflexivity; try (destruct (_ =? _); reflexivity). exact (IH k d j). Qed.
Lemma find_add s k d i : w_find (w_add I s k d) i = w_find s i. Proof. reflexivity. Qed.
Lemma add_good s i k on : good s on -> w_find s i = Some k -> good (w_add I s k 1) (i :: on).
Proof.
  intros [G1 G2 G3] Hk. split.
  - intros j k'. rewrite find_add. intros H. cbn [w_add w_vals]. rewrite z_add_nth, (G1 _ _ H). unfold times. cbn [filter]. destruct (Nat.eqb_spec k' k) as [-> | Hn].
    + rewrite (G3 _ _ _ H Hk). cbn [length option_map]. f_equal. unfold times. lia.
    + destruct (ieq j i) eqn:E; [| reflexivity]. rewrite (find_cong s j i E) in H. congruence.
  - intros j. rewrite find_add. intros H. unfold times. cbn [filter]. destruct (ieq j i) eqn:E; [rewrite (find_cong s j i E) in H; congruence | exact (G2 j H)].
  - intros j j' k'. rewrite !find_add. apply G3.
Qed.
Lemma sub_good s i k on : good s (i :: on) -> w_find s i = Some k -> good (w_add I s k (-1)) on.
Proof.
  intros [G1 G2 G3] Hk. split.
  - intros j k'. rewrite find_add. intros H. cbn [w_add w_vals]. rewrite z_add_nth, (G1 _ _ H). unfold times. cbn [filter]. destruct (Nat.eqb_spec k' k) as [-> | Hn].
    + rewrite (G3 _ _ _ H Hk). cbn [length option_map]. f_equal. lia.
    + destruct (ieq j i) eqn:E; [| reflexivity]. rewrite (find_cong s j i E) in H. congruence.
  - intros j. rewrite find_add. intros H. specialize (G2 j H). unfold times in *. cbn [filter] in G2. destruct (ieq j i); cbn in G2; [lia | exact G2].
  - intros j j' k'. rewrite !find_add. apply G3.
Qed.
Definition right (x : act I) : Prop := by_instance x -> forall s on, good s on -> exists s', w_exec I ieq x s = (s', fst (sees ieq x on), snd (sees ieq x on)) /\ good s' on /\ more s s'.
Lemma more_trans a b c : more a b -> more b c -> more a c.
Proof. intros H1 H2 i k H. apply H2, H1, H. Qed.
Lemma all_right l : Forall right l -> fold_right (fun y P => by_instance y /\ P) True l -> forall s on, good s on ->
  exists s', w_all I ieq l s = (s', fst (sees_all ieq l on), snd (sees_all ieq l on)) /\ good s' on /\ more s s'.
Proof.
  induction 1 as [| x l Hx Hl IH]; intros Hb s on Hg; cbn [fold_right w_all sees_all] in *.
  - exists s. split; [reflexivity |]. split; [exact Hg | now intros i k H].
  - destruct Hb as [Hb1 Hb2]. destruct (Hx Hb1 s on Hg) as (s1 & E1 & G1 & M1). rewrite E1. destruct (sees ieq x on) as [o1 r1]. cbn [fst snd]. destruct r1; [exists s1; now split |].
    destruct (IH Hb2 s1 on G1) as (s2 & E2 & G2 & M2). rewrite E2. destruct (sees_all ieq l on) as [o2 r2]. exists s2. split; [reflexivity |]. split; [exact G2 | eapply more_trans; eassumption].
Qed.
Lemma inner_all l s : (fix all (l : list (act I)) (s : sws) : sws * list bool * bool :=
    match l with
    | [] => (s, [], false)
    | x :: l => let '(s1, o1, r1) := w_exec I ieq x s in if r1 then (s1, o1, true) else let '(s2, o2, r2) := all l s1 in (s2, o1 ++ o2, r2)
    end) l s = w_all I ieq l s.
Proof. reflexivity. Qed.
Theorem runs_right : forall x, right x.
Proof.
  apply act_ind. intros x IH Hb s on Hg. destruct x as [i body | i | | body |]; cbn [by_instance] in Hb.
  - pose proof (get_good s i on Hg) as G. change (w_exec I ieq (With i body) s) with (let (s1, k) := w_get s i in let '(s2, o, r) := w_all I ieq body (w_add I s1 k 1) in (w_add I s2 k (-1), o, r)).
    change (sees ieq (With i body) on) with (sees_all ieq body (i :: on)). destruct (w_get s i) as [s1 k]. destruct G as (G1 & G2 & G3).
    destruct (all_right body IH Hb _ _ (add_good s1 i k on G1 G3)) as (s2 & E2 & G4 & M2). rewrite E2. exists (w_add I s2 k (-1)). split; [reflexivity |]. split.
    + apply (sub_good s2 i k on G4). apply M2. exact G3.
    + intros j k' H. apply M2. rewrite find_add. now apply G2.
  - pose proof (get_good s i on Hg) as G. cbn [w_exec sees fst snd]. destruct (w_get s i) as [s1 k]. destruct G as (G1 & G2 & G3). exists s1. split; [| now split]. f_equal. f_equal. f_equal.
    unfold w_on. rewrite (g_val s1 on G1 _ _ G3). unfold times. clear. induction on as [| j on IH]; [reflexivity |]. cbn [filter existsb]. destruct (ieq i j); [reflexivity | exact IH].
  - exists s. split; [reflexivity |]. split; [exact Hg | now intros j k H].
  - change (w_exec I ieq (Try body) s) with (let '(s1, o, _) := w_all I ieq body s in (s1, o, false)). change (sees ieq (Try body) on) with (fst (sees_all ieq body on), false).
    destruct (all_right body IH Hb s on Hg) as (s1 & E1 & G1 & M1). rewrite E1. exists s1. now split.
  - contradiction.
Qed.
Lemma good_empty : good w_empty [].
Proof. split; [discriminate | reflexivity | discriminate]. Qed.
Theorem switch_right l : Forall by_instance l ->
  exists s, w_all I ieq l w_empty = (s, fst (sees_all ieq l []), snd (sees_all ieq l [])) /\ forall i, w_on I (fst (w_get s i)) (snd (w_get s i)) = false.
Proof.
  intros Hl. assert (Hb : fold_right (fun y P => by_instance y /\ P) True l) by (induction Hl; [exact Logic.I | now split]).
  destruct (all_right l ltac:(rewrite Forall_forall; intros x _; apply runs_right) Hb w_empty [] good_empty) as (s & E & G & _). exists s. split; [exact E |].
  intros i. pose proof (get_good s i [] G) as H. destruct (w_get s i) as [s1 k]. destruct H as (H1 & _ & H3). cbn [fst snd]. unfold w_on. now rewrite (g_val s1 [] H1 _ _ H3).
Qed.
End Switch.

(** ** Looking for an encoding *)
Definition written_b (uword : nat -> bool) (text a v : str) : Prop :=
  exists w1 w2 sep b, text = a ++ w_encoding ++ w1 ++ sep ++ v ++ b /\ blanks w1 /\ blanks w2 /\ (sep = [58] ++ w2 \/ sep = [61] ++ w2 ++ [34]) /\
    v <> [] /\ Forall (fun c => e_name uword c = true) v /\ match b with c :: _ => e_name uword c = false | [] => True end /\
    match rev a with c :: _ => e_word uword c = false | [] => True end.

Lemma word_char_ok uword c : e_word uword c = true <-> word_char uword c.
Proof.
  unfold e_word, word_char. destruct (c <? 128) eqn:E; [| split; [intros H; right; right; right; right; split; [lia | exact H] | intros [H | [H | [H | [H | [_ H]]]]]; try lia; exact H]].
  split; [intros H; lia | intros [H | [H | [H | [H | [H _]]]]]; lia].
Qed.
Lemma name_char_ok uword c : e_name uword c = true <-> name_char uword c.
Proof. unfold e_name, name_char. rewrite Bool.orb_true_iff, word_char_ok. split; (intros [H | H]; [now left | right; lia]). Qed.
Lemma written_ok uword text a v : written_b uword text a v <-> written uword text a v.
Proof.
  assert (W : forall c, e_word uword c = false <-> ~ word_char uword c) by (intros c; rewrite <- word_char_ok; now rewrite Bool.not_true_iff_false).
  assert (N : forall c, e_name uword c = false <-> ~ name_char uword c) by (intros c; rewrite <- name_char_ok; now rewrite Bool.not_true_iff_false).
  assert (F : forall l, Forall (fun c => e_name uword c = true) l <-> Forall (name_char uword) l) by (intros l; split; apply Forall_impl; intros c; apply name_char_ok).
  split; intros (w1 & w2 & sep & b & E & H1 & H2 & H3 & H4 & H5 & H6 & H7); exists w1, w2, sep, b;
    (split; [exact E |]); (split; [exact H1 |]); (split; [exact H2 |]); (split; [exact H3 |]); (split; [exact H4 |]); (split; [now apply F |]);
    (split; [destruct b; [exact H6 | now apply N] | destruct (rev a); [exact H7 | now apply W]]).
Qed.

Section Search.
Variable uword : nat -> bool.
Notation e_name := (e_name uword). Notation e_word := (e_word uword).
Definition stops (f : nat -> bool) (s : str) : Prop := match s with c :: _ => f c = false | [] => True end.
Lemma span_split f s : exists a b, s = a ++ b /\ length a = e_span f s /\ Forall (fun c => f c = true) a /\ stops f b.
Proof.
  induction s as [| c s IH]; [exists [], []; repeat split; constructor |]. cbn [e_span]. destruct (f c) eqn:E; [| exists [], (c :: s); repeat split; [constructor | exact E]].
  destruct IH as (a & b & -> & H2 & H3 & H4). exists (c :: a), b. repeat split; [cbn; lia | now constructor | exact H4].
Qed.
Lemma span_all f a b : Forall (fun c => f c = true) a -> stops f b -> e_span f (a ++ b) = length a.
Proof. intros Ha Hb. induction Ha as [| c a Hc Ha IH]; cbn [app e_span length]; [destruct b as [| c b]; [reflexivity |]; cbn in *; now rewrite Hb | now rewrite Hc, IH]. Qed.
Lemma blank_spec s : Forall (fun c => e_blank c = true) s <-> blanks s.
Proof. unfold blanks. rewrite !Forall_forall. unfold e_blank. split; intros H c Hc; specialize (H c Hc); rewrite orb_true_iff, !Nat.eqb_eq in *; exact H. Qed.
Lemma skip_app w b : blanks w -> stops e_blank b -> e_skip (w ++ b) = b.
Proof. intros Hw Hb. unfold e_skip. rewrite span_all by (exact Hb || now apply blank_spec). rewrite skipn_app, skipn_all, Nat.sub_diag. reflexivity. Qed.
Lemma skip_split s : exists w, blanks w /\ s = w ++ e_skip s /\ stops e_blank (e_skip s).
Proof.
  destruct (span_split e_blank s) as (a & b & -> & H2 & H3 & H4). exists a. apply blank_spec in H3. rewrite (skip_app a b H3 H4). now repeat split.
Qed.
Lemma value_spec s v : e_value uword s = Some v <-> exists b, s = v ++ b /\ v <> [] /\ Forall (fun c => e_name c = true) v /\ stops e_name b.
Proof.
  unfold e_value. split.
  - intros H. destruct (span_split e_name s) as (a & b & -> & H2 & H3 & H4). rewrite <- H2 in H. destruct a as [| c a]; [discriminate |]. cbn [length] in H. injection H as <-.
    exists b. change (c :: firstn (length a) (a ++ b)) with (firstn (length (c :: a)) ((c :: a) ++ b)). rewrite firstn_app, firstn_all, Nat.sub_diag. cbn [firstn]. rewrite app_nil_r. repeat split; [discriminate | exact H3 | exact H4].
  - intros (b & -> & H1 & H2 & H3). rewrite (span_all _ v b H2 H3). destruct v as [| c v]; [congruence |]. cbn [length]. change (S (length v)) with (length (c :: v)). rewrite firstn_app, firstn_all, Nat.sub_diag. cbn [firstn]. now rewrite app_nil_r.
Qed.
Lemma name_no_blank c : e_name c = true -> e_blank c = false.
Proof.
  intros H. unfold e_blank. apply orb_false_iff. split; apply Nat.eqb_neq; intros ->; vm_compute in H; discriminate.
Qed.
Lemma rest_spec s v : e_rest uword s = Some v <->
  exists w1 w2 sep b, s = w1 ++ sep ++ v ++ b /\ blanks w1 /\ blanks w2 /\ (sep = [58] ++ w2 \/ sep = [61] ++ w2 ++ [34]) /\ v <> [] /\ Forall (fun c => e_name c = true) v /\ stops e_name b.
Proof.
  unfold e_rest. split.
  - intros H. destruct (skip_split s) as (w1 & W1 & E1 & _). destruct (e_skip s) as [| c r]; [discriminate |]. destruct (Nat.eqb_spec c 58) as [-> | N1].
    + destruct (skip_split r) as (w2 & W2 & E2 & _). apply value_spec in H. destruct H as (b & E3 & H1 & H2 & H3). exists w1, w2, ([58] ++ w2), b. rewrite E1, E2, E3. repeat split; try assumption; try now left.
    + destruct (Nat.eqb_spec c 61) as [-> | N2]; [| discriminate]. destruct (skip_split r) as (w2 & W2 & E2 & _). destruct (e_skip r) as [| q r2]; [discriminate |]. destruct (Nat.eqb_spec q 34) as [-> | N3]; [| discriminate].
      apply value_spec in H. destruct H as (b & E3 & H1 & H2 & H3). exists w1, w2, ([61] ++ w2 ++ [34]), b. rewrite E1, E2, E3. repeat split; try assumption; try now right. f_equal. cbn [app]. f_equal. now rewrite <- app_assoc.
  - intros (w1 & w2 & sep & b & -> & W1 & W2 & Hs & H1 & H2 & H3).
    assert (Hv : stops e_blank (v ++ b)) by (destruct H2 as [| c v Hc _]; [congruence | now apply name_no_blank]).
    assert (Hval : e_value uword (v ++ b) = Some v) by (apply value_spec; exists b; now repeat split).
    destruct Hs as [-> | ->].
    + rewrite skip_app by (exact W1 || reflexivity). cbn [app Nat.eqb]. rewrite <- ?app_assoc. rewrite (skip_app w2 (v ++ b) W2 Hv). exact Hval.
    + rewrite skip_app by (exact W1 || reflexivity). cbn [app Nat.eqb]. rewrite <- !app_assoc. rewrite (skip_app w2 _ W2) by reflexivity. exact Hval.
Qed.
Lemma here_spec prev s v : e_here uword prev s = Some v <-> match prev with Some c => e_word c = false | None => True end /\ exists r, s = w_encoding ++ r /\ e_rest uword r = Some v.
Proof.
  unfold e_here. split.
  - intros H. destruct (match prev with Some c => e_word c | None => false end) eqn:Ep; [discriminate |]. split; [destruct prev; [exact Ep | exact Logic.I] |].
    destruct (str_eqb (firstn 8 s) _) eqn:Es; [| discriminate]. apply str_eqb_spec in Es. exists (skipn 8 s). split; [| exact H]. rewrite <- (firstn_skipn 8 s) at 1. now rewrite Es.
  - intros (Hp & r & -> & H). assert (Ep : match prev with Some c => e_word c | None => false end = false) by (destruct prev; [exact Hp | reflexivity]). rewrite Ep.
    change (firstn 8 (w_encoding ++ r)) with w_encoding. rewrite str_eqb_refl. exact H.
Qed.
Lemma at_spec text a s v : text = a ++ s -> (e_here uword (match rev a with c :: _ => Some c | [] => None end) s = Some v <-> written_b uword text a v).
Proof.
  intros E. rewrite here_spec. unfold written_b. split.
  - intros (Hp & r & Es & H). apply rest_spec in H. destruct H as (w1 & w2 & sep & b & -> & W1 & W2 & H1 & H2 & H3 & H4). exists w1, w2, sep, b. rewrite E, Es. repeat split; try assumption. destruct (rev a); [exact Logic.I | exact Hp].
  - intros (w1 & w2 & sep & b & Et & W1 & W2 & H1 & H2 & H3 & H4 & H5). split; [destruct (rev a); [exact Logic.I | exact H5] |]. exists (w1 ++ sep ++ v ++ b). split; [rewrite E in Et; exact (app_inv_head _ _ _ Et) |].
    apply rest_spec. exists w1, w2, sep, b. now repeat split.
Qed.
Lemma search_spec text : forall s a, text = a ++ s ->
  match e_search uword (match rev a with c :: _ => Some c | [] => None end) s with
  | Some v => exists a', written_b uword text a' v /\ length a <= length a' /\ forall a2 v2, written_b uword text a2 v2 -> length a <= length a2 -> length a' <= length a2
  | None => forall a2 v2, written_b uword text a2 v2 -> length a2 < length a
  end.
Proof.
  induction s as [| c s IH]; intros a E.
  - cbn [e_search]. destruct (e_here uword _ []) as [v |] eqn:Eh; [apply here_spec in Eh; destruct Eh as (_ & r & H & _); discriminate |].
    intros a2 v2 H. destruct (lt_dec (length a2) (length a)) as [Hl | Hl]; [exact Hl |]. exfalso. destruct H as (w1 & w2 & sep & b & Et & _). rewrite app_nil_r in E. apply (f_equal (@length nat)) in Et. rewrite E, !app_length in Et. cbn [w_encoding length] in Et. lia.
  - cbn [e_search]. destruct (e_here uword _ (c :: s)) as [v |] eqn:Eh.
    + exists a. split; [now apply (at_spec text a (c :: s)) |]. split; [lia |]. intros a2 v2 _ H. exact H.
    + assert (E2 : text = (a ++ [c]) ++ s) by (rewrite <- app_assoc; exact E). specialize (IH (a ++ [c]) E2). rewrite rev_app_distr in IH. cbn [rev app] in IH.
      assert (Hno : forall a2 v2, written_b uword text a2 v2 -> length a2 <> length a).
      { intros a2 v2 H Hl. assert (a2 = a).
        { destruct H as (w1 & w2 & sep & b & Et & _). transitivity (firstn (length a2) text).
          - rewrite Et, firstn_app, firstn_all, Nat.sub_diag. cbn [firstn]. now rewrite app_nil_r.
          - rewrite Hl, E, firstn_app, firstn_all, Nat.sub_diag. cbn [firstn]. now rewrite app_nil_r. }
        subst a2. apply (at_spec text a (c :: s) v2 E) in H. congruence. }
      destruct (e_search uword (Some c) s) as [v |].
      * destruct IH as (a' & H1 & H2 & H3). rewrite app_length in H2. cbn in H2. exists a'. split; [exact H1 |]. split; [lia |]. intros a2 v2 H Hl. apply (H3 a2 v2 H). rewrite app_length. cbn. specialize (Hno a2 v2 H). lia.
      * intros a2 v2 H. specialize (IH a2 v2 H). rewrite app_length in IH. cbn in IH. specialize (Hno a2 v2 H). lia.
Qed.
Theorem find_written text : match io_find_encoding uword text with
  | Some v => exists a, written_b uword text a v /\ forall a2 v2, written_b uword text a2 v2 -> length a <= length a2
  | None => forall a v, ~ written_b uword text a v
  end.
Proof.
  pose proof (search_spec text text [] eq_refl) as H. cbn [rev length] in H. unfold io_find_encoding. destruct (e_search uword None text) as [v |].
  - destruct H as (a & H1 & _ & H3). exists a. split; [exact H1 |]. intros a2 v2 H2. apply (H3 a2 v2 H2). lia.
  - intros a v Hw. specialize (H a v Hw). lia.
Qed.
End Search.
