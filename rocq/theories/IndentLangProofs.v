(** Proofs about the indenters of languages. *)
From Verif Require Import Base BaseFacts TargetModel LexerModel TreeModel TreeSpec TreeProofs BlockModel BlockSpec BlockProofs DocTokenModel DocTokenProofs Prop_DocToken
  CursorModel IndentModel IndentSpec IndentProofs Prop_Indent IndentLangModel IndentLangSpec.
From Coq Require Import ZArith ZifyBool Sorted.

Section Runs.
Variables T Lang Ind : Type.
Variable lang : T -> Lang.
Variable same : Lang -> Lang -> bool.
Hypothesis same_ok : forall a b, same a b = true <-> a = b.
Variable get : Lang -> option Ind.
Variable events_of : Ind -> list T -> list event.
Notation yf := (yield_from T Lang Ind get events_of).
Notation rl := (runs_loop T Lang Ind lang same get events_of).

Lemma same_refl l : same l l = true.
Proof. now apply same_ok. Qed.

(** Going on in a piece of tokens of the current language. *)
Lemma loop_same us : forall pre cur rest i l n, Forall (fun t => lang t = l) us ->
  rl (pre ++ cur ++ us ++ rest) (seq (length (pre ++ cur)) (length us + n)) i l
  = rl (pre ++ cur ++ us ++ rest) (seq (length (pre ++ cur ++ us)) n) i l.
Proof.
  induction us as [| u us IH]; intros pre cur rest i l n H; [now rewrite app_nil_r |]. inversion H as [| ? ? H1 H2]; subst. cbn [length Nat.add seq runs_loop].
  replace (nth_error (pre ++ cur ++ (u :: us) ++ rest) (length (pre ++ cur))) with (Some u) by (rewrite app_assoc, nth_error_app2, Nat.sub_diag by lia; reflexivity).
  rewrite same_refl. cbn [negb]. specialize (IH pre (cur ++ [u]) rest i (lang u) n H2).
  replace (pre ++ (cur ++ [u]) ++ us ++ rest) with (pre ++ cur ++ (u :: us) ++ rest) in IH by now rewrite <- !app_assoc.
  replace (length (pre ++ cur ++ [u])) with (S (length (pre ++ cur))) in IH by (rewrite !app_length; cbn; lia). rewrite IH.
  f_equal. f_equal. rewrite !app_length. cbn [length]. lia.
Qed.

Lemma runs_right ts gs : is_runs lang ts gs -> forall pre t ts1, ts = t :: ts1 ->
  rl (pre ++ ts) (seq (S (length pre)) (length ts1)) (length pre) (lang t) = flat_map (fun g => yf (fst g) (snd g)) gs.
Proof.
  intros H. induction H as [| ts l H1 H2 | ts l ts' l' us gs H1 H2 H3 H4 IH]; intros pre t ts1 E; [discriminate | |].
  - subst ts. inversion H2 as [| ? ? H3 H4]; subst. pose proof (loop_same ts1 pre [t] [] (length pre) (lang t) 0 H4) as G. rewrite !app_nil_r in G. rewrite Nat.add_0_r in G.
    cbn [app] in G. replace (length (pre ++ [t])) with (S (length pre)) in G by (rewrite app_length; cbn; lia). rewrite G. cbn [seq runs_loop flat_map fst snd].
    rewrite app_nil_r, skipn_app, Nat.sub_diag, skipn_all. reflexivity.
  - destruct ts as [| x ts0]; [congruence |]. injection E as -> <-. inversion H2 as [| ? ? H5 H6]; subst.
    assert (Hts' : exists u ts2, ts' = u :: ts2 /\ lang u = l').
    { inversion H4 as [| ? ? G1 G2 | ? ? ? ? ? ? G1 G2]; subst.
      - destruct us as [| u us]; [congruence |]. exists u, us. split; [reflexivity |]. now inversion G2.
      - destruct us as [| u us]; [congruence |]. cbn [app]. do 2 eexists. split; [reflexivity |]. now inversion G2. }
    destruct Hts' as (u & ts2 & -> & Hu). rewrite app_length. cbn [length].
    pose proof (loop_same ts0 pre [t] (u :: ts2) (length pre) (lang t) (S (length ts2)) H6) as G. cbn [app] in G |- *.
    replace (length (pre ++ [t])) with (S (length pre)) in G by (rewrite app_length; cbn; lia). rewrite G. cbn [seq runs_loop].
    replace (length (pre ++ t :: ts0)) with (length (pre ++ t :: ts0) + 0) by lia.
    replace (nth_error (pre ++ t :: ts0 ++ u :: ts2) (length (pre ++ t :: ts0) + 0)) with (Some u)
      by (replace (pre ++ t :: ts0 ++ u :: ts2) with ((pre ++ t :: ts0) ++ u :: ts2) by (now rewrite <- app_assoc); rewrite nth_error_app2 by lia; now replace (_ + 0 - _) with 0 by lia).
    assert (Es : same (lang u) (lang t) = false) by (apply Bool.not_true_is_false; intros X; apply same_ok in X; congruence). rewrite Es. cbn [negb].
    cbn [flat_map fst snd]. f_equal.
    + f_equal. rewrite skipn_app, Nat.sub_diag, skipn_all. cbn [skipn app]. rewrite Nat.add_0_r, app_length. replace (length pre + length (t :: ts0) - length pre) with (length (t :: ts0)) by lia.
      change (t :: ts0 ++ u :: ts2) with ((t :: ts0) ++ u :: ts2). rewrite firstn_app, Nat.sub_diag, firstn_all. cbn [firstn]. now rewrite app_nil_r.
    + specialize (IH (pre ++ t :: ts0) u ts2 eq_refl). rewrite Nat.add_0_r. rewrite <- app_assoc in IH. cbn [app] in IH. rewrite Hu in *. exact IH.
Qed.
Theorem events_runs ts gs : is_runs lang ts gs -> indent_events T Lang Ind lang same get events_of ts = flat_map (fun g => yf (fst g) (snd g)) gs.
Proof.
  intros H. destruct ts as [| t ts]; [inversion H as [| ? ? G | ? ? ? ? ? ? G]; subst; [reflexivity | congruence |] |].
  - destruct ts; [congruence | discriminate].
  - unfold indent_events. cbn [length]. rewrite Nat.sub_succ, Nat.sub_0_r. exact (runs_right _ _ H [] t ts eq_refl).
Qed.

Lemma runs_exist ts : exists gs, is_runs lang ts gs.
Proof.
  induction ts as [| t ts (gs & H)]; [exists []; constructor |]. destruct gs as [| [l us] gs].
  - inversion H; subst. exists [(lang t, [t])]. apply runs_one; [discriminate | now repeat constructor].
  - destruct (same (lang t) l) eqn:E.
    + apply same_ok in E. exists ((l, t :: us) :: gs). inversion H as [| ? ? G1 G2 | ? ? ts' l' us' gs' G1 G2 G3 G4]; subst.
      * apply runs_one; [discriminate | now constructor].
      * change (t :: us ++ ts') with ((t :: us) ++ ts'). apply runs_cons; [discriminate | now constructor | exact G3 | exact G4].
    + exists ((lang t, [t]) :: (l, us) :: gs). change (t :: ts) with ([t] ++ ts). apply runs_cons; [discriminate | now repeat constructor | | exact H].
      intros X. apply same_ok in X. congruence.
Qed.
Lemma runs_concat ts gs : is_runs lang ts gs -> concat (map snd gs) = ts.
Proof. intros H. induction H as [| ts l H1 H2 | ts l ts' l' us gs H1 H2 H3 H4 IH]; [reflexivity | cbn; now rewrite app_nil_r |]. cbn [map snd concat] in *. now rewrite IH. Qed.
End Runs.

Section Find.
Variables Lang Cls : Type.
Variable same : Lang -> Lang -> bool.
Hypothesis same_ok : forall a b, same a b = true <-> a = b.
Variable mro : Lang -> list Lang.
Variable sister : Lang -> option Cls.
Lemma first_nearest ls : nearest sister ls (first_some sister ls).
Proof.
  induction ls as [| l ls IH]; [constructor |]. cbn [first_some]. destruct (sister l) eqn:E; [exists [], l, ls; now repeat split |].
  destruct (first_some sister ls); cbn [nearest] in *; [| now constructor]. destruct IH as (a & m & b & -> & H1 & H2). exists (l :: a), m, b. repeat split; [exact H1 | now constructor].
Qed.
Notation fi := (find_indent Lang Cls mro sister).
Definition kept (d : indents Lang Cls) (l : Lang) : option (indenter Cls) := match lookup Lang Cls same d l with Some i => i | None => fi l end.
Lemma get_kept d l : snd (get_indent Lang Cls same mro sister d l) = kept d l.
Proof. unfold get_indent, kept. now destruct (lookup Lang Cls same d l). Qed.
Lemma kept_get d l x : kept (fst (get_indent Lang Cls same mro sister d l)) x = kept d x.
Proof.
  unfold get_indent. destruct (lookup Lang Cls same d l) eqn:E; [reflexivity |]. unfold kept, lookup in *. cbn [fst find]. destruct (same l x) eqn:S1; [| reflexivity].
  apply same_ok in S1. subst x. cbn [option_map snd]. now rewrite E.
Qed.
Lemma kept_add d l i x : kept (add_indent Lang Cls d l i) x = if same l x then Some (Added i) else kept d x.
Proof. unfold kept, lookup, add_indent. cbn [find fst]. now destruct (same l x). Qed.
Theorem run_kept ops : forall d x, kept (i_run Lang Cls same mro sister d ops) x = match last_added same x ops with Some i => Some (Added i) | None => kept d x end.
Proof.
  induction ops as [| [l i | l] ops IH]; intros d x; [reflexivity | |]; cbn [i_run last_added]; rewrite IH.
  - rewrite kept_add. destruct (last_added same x ops); [reflexivity |]. now destruct (same l x).
  - now rewrite kept_get.
Qed.
End Find.

Lemma one_language {A L} f l (cs : list (node L A)) b p : doc_events (flat_map f) l cs b p = match range_of_tokens l cs (fst b) (Some (snd b)) with Some ts => flat_map f ts | None => [] end.
Proof.
  unfold doc_events. destruct (range_of_tokens l cs (fst b) (Some (snd b))) as [ts |]; [| reflexivity]. destruct ts as [| t ts]; [reflexivity |].
  rewrite (events_runs (tok A) unit unit (fun _ => tt) (fun _ _ => true) ltac:(intros [] []; tauto) (fun _ => Some tt) (fun _ => flat_map f) (t :: ts) [(tt, t :: ts)]).
  - cbn [flat_map fst snd]. unfold yield_from. now rewrite app_nil_r.
  - apply runs_one; [discriminate |]. apply Forall_forall. reflexivity.
Qed.
(** ** Brackets *)
Section Brackets.
Variables A L : Type.
Variable strict : bool.
Variable br : tok A -> bracket.
Definition ev (t : tok A) : list event := match br t with Open => [INDENT] | Close => [DEDENT] | Other => if strict then [NO_DEDENT] else [] end.

Lemma nesting_events ts d : fold_left deeper (flat_map ev ts) d = nesting (map br ts) d.
Proof.
  revert d. induction ts as [| t ts IH]; intros d; [reflexivity |]. cbn [flat_map map]. rewrite fold_left_app, IH. unfold nesting. cbn [fold_left]. f_equal. unfold ev.
  destruct (br t); [reflexivity | reflexivity |]. now destruct strict.
Qed.
Lemma nesting_app a b d : nesting (a ++ b) d = nesting b (nesting a d).
Proof. apply fold_left_app. Qed.
Lemma own_closes ts : forall d, own_level d (flat_map ev ts) = nesting (first_closes strict (map br ts)) d.
Proof.
  induction ts as [| t ts IH]; intros d; [reflexivity |]. cbn [flat_map map]. unfold ev at 1. destruct (br t) eqn:E; [reflexivity | |].
  - cbn [app own_level first_closes deeper]. rewrite IH. reflexivity.
  - cbn [first_closes]. destruct strict eqn:Es; [reflexivity |]. cbn [app]. apply IH.
Qed.
Definition is_br (t : tok A) : bool := match br t with Other => false | _ => true end.
Lemma nesting_br ts d : nesting (map br ts) d = nesting (map br (filter is_br ts)) d.
Proof.
  revert d. induction ts as [| t ts IH]; intros d; [reflexivity |]. cbn [map filter]. unfold is_br. destruct (br t) eqn:E; cbn [map]; unfold nesting in *; cbn [fold_left]; rewrite ?E; cbn [fold_left]; apply IH.
Qed.
Lemma no_closes ts : filter is_br ts = [] -> first_closes strict (map br ts) = [].
Proof.
  induction ts as [| t ts IH]; [reflexivity |]. cbn [filter map]. unfold is_br at 1. destruct (br t); try discriminate. intros H. cbn [first_closes]. destruct strict; [reflexivity | now apply IH].
Qed.

Lemma filter_split (p q : tok A -> bool) (ts : list (tok A)) : StronglySorted (fun a b => k_pos a <= k_pos b) ts ->
  (forall a b, In a ts -> In b ts -> q a = true -> p b = true -> k_pos b < k_pos a) -> (forall a, In a ts -> p a = true -> q a = false) ->
  filter (fun t => p t || q t) ts = filter p ts ++ filter q ts.
Proof.
  intros H. induction H as [| t ts H IH Ht]; intros H1 H2; [reflexivity |]. cbn [filter].
  assert (IH' : filter (fun t => p t || q t) ts = filter p ts ++ filter q ts) by (apply IH; [intros a b Ha Hb; apply H1; now right | intros a Ha; apply H2; now right]).
  destruct (p t) eqn:Ep.
  - rewrite (H2 t (or_introl eq_refl) Ep). cbn [orb app]. now rewrite IH'.
  - cbn [orb]. destruct (q t) eqn:Eq; [| exact IH']. rewrite IH'.
    assert (E : filter p ts = []); [| now rewrite E].
    destruct (filter p ts) as [| u us] eqn:Ef; [reflexivity |]. exfalso. assert (Hu : In u (filter p ts)) by (rewrite Ef; now left). apply filter_In in Hu as [Hu Hpu].
    specialize (H1 t u (or_introl eq_refl) (or_intror Hu) Eq Hpu). rewrite Forall_forall in Ht. specialize (Ht u Hu). cbn in Ht. lia.
Qed.
Lemma order_pos (ts : list (tok A)) : in_order ts -> StronglySorted (fun a b => k_pos a <= k_pos b) ts.
Proof.
  intros [H _]. induction H as [| t ts H IH Ht]; constructor; [exact IH |]. apply (Forall_impl _ (P := fun b => k_end t <= k_pos b)); [| exact Ht].
  intros b Hb. unfold k_end in Hb. lia.
Qed.
End Brackets.

(** Places of lines. *)
Lemma spans_next sep : forall lines q k, S k < length lines ->
  fst (nth (S k) (spans sep q lines) (0, 0)) = snd (nth k (spans sep q lines) (0, 0)) + length sep.
Proof.
  induction lines as [| l lines IH]; intros q k H; [cbn in H; lia |]. cbn [length] in H. destruct k as [| k].
  - destruct lines as [| l2 lines]; [cbn in H; lia |]. reflexivity.
  - cbn [spans]. change (nth (S (S k)) (?x :: ?y) (0, 0)) with (nth (S k) y (0, 0)). change (nth (S k) (?x :: ?y) (0, 0)) with (nth k y (0, 0)). apply IH. lia.
Qed.
Lemma spans_width sep : forall lines q k, fst (nth k (spans sep q lines) (0, 0)) <= snd (nth k (spans sep q lines) (0, 0)).
Proof. induction lines as [| l lines IH]; intros q k; [destruct k; cbn; lia |]. destruct k as [| k]; cbn [spans nth fst snd]; [lia | apply IH]. Qed.
Lemma place_order sep lines j k : j < k -> k < length lines -> snd (place sep lines j) + length sep <= fst (place sep lines k).
Proof.
  intros H. induction H as [| k H IH]; intros Hk; unfold place in *.
  - rewrite spans_next by exact Hk. lia.
  - rewrite (spans_next sep lines 0 k) by exact Hk. specialize (IH ltac:(lia)). pose proof (spans_width sep lines 0 k). lia.
Qed.

Section Lines.
Variables A L : Type.
Variable strict : bool.
Variable br : tok A -> bracket.
Variables (l : L) (cs : list (node L A)) (text sep : str) (lines : list str).
Hypothesis Hwf : wf_children cs.
(** Brackets are in one line. *)
Hypothesis Hbr : forall t, In t (flat cs) -> br t <> Other -> exists k, k < length lines /\ fst (place sep lines k) <= k_pos t /\ k_end t <= snd (place sep lines k).
(** A line that is not empty has a token, unless it is after all tokens. *)
Hypothesis Hline : forall k, k < length lines -> fst (place sep lines k) < snd (place sep lines k) ->
  (exists t, In t (flat cs) /\ overlaps (place sep lines k) t = true) \/ (forall t, In t (flat cs) -> k_end t <= fst (place sep lines k)).

Lemma width t : In t (flat cs) -> k_pos t < k_end t.
Proof. intros H. destruct Hwf as [_ [_ HF]]. rewrite Forall_forall in HF. specialize (HF t H). unfold k_end. destruct (k_text t); [congruence | cbn; lia]. Qed.

Lemma line_brackets k : k < length lines -> forall t, In t (flat cs) -> is_br A br t = true ->
  overlaps (place sep lines k) t = true <-> fst (place sep lines k) <= k_pos t /\ forall j, k < j -> j < length lines -> k_pos t < fst (place sep lines j).
Proof.
  intros Hk t Ht Hb. assert (Hb' : br t <> Other) by (unfold is_br in Hb; destruct (br t); congruence). destruct (Hbr t Ht Hb') as (i & Hi & H1 & H2). pose proof (width t Ht) as Hw.
  unfold overlaps. split.
  - intros H. assert (i = k).
    { destruct (Nat.lt_trichotomy i k) as [X | [X | X]]; [| exact X |].
      - pose proof (place_order sep lines i k X Hk). lia.
      - pose proof (place_order sep lines k i X Hi). lia. }
    subst i. split; [exact H1 |]. intros j Hj Hjl. pose proof (place_order sep lines k j Hj Hjl). lia.
  - intros [H3 H4]. assert (i = k).
    { destruct (Nat.lt_trichotomy i k) as [X | [X | X]]; [| exact X |].
      - pose proof (place_order sep lines i k X Hk). lia.
      - specialize (H4 i X Hi). lia. }
    subst i. lia.
Qed.

(** The brackets of the lines before line [k] are those before its start. *)
Lemma brackets_before k : k < length lines ->
  filter (is_br A br) (concat (map (fun j => filter (overlaps (place sep lines j)) (flat cs)) (seq 0 k))) = filter (is_br A br) (filter (fun t => k_pos t <? fst (place sep lines k)) (flat cs)).
Proof.
  induction k as [| k IH]; intros Hk.
  - cbn [seq map concat filter]. assert (E : fst (place sep lines 0) = 0) by (unfold place; destruct lines; reflexivity). rewrite E. clear. generalize (flat cs). intros ts. induction ts as [| t ts IHt]; [reflexivity | exact IHt].
  - rewrite seq_S, map_app, concat_app, filter_app, IH by lia. cbn [Nat.add map concat]. rewrite app_nil_r.
    assert (F : forall p (ts : list (tok A)), filter (is_br A br) (filter p ts) = filter (fun t => is_br A br t && p t) ts).
    { intros p ts. induction ts as [| t ts IHt]; [reflexivity |]. cbn [filter]. destruct (p t); cbn [filter]; destruct (is_br A br t); cbn [andb]; now rewrite IHt. }
    rewrite !F. rewrite <- filter_split.
    + apply filter_ext_in. intros t Ht. destruct (is_br A br t) eqn:Eb; [| reflexivity]. cbn [andb].
      pose proof (line_brackets k ltac:(lia) t Ht Eb) as HB. pose proof (place_order sep lines k (S k) ltac:(lia) Hk) as HO. pose proof (spans_width sep lines 0 k) as HW. fold (place sep lines k) in HW.
      assert (Hb' : br t <> Other) by (unfold is_br in Eb; destruct (br t); congruence). destruct (Hbr t Ht Hb') as (i & Hi & H1 & H2). pose proof (width t Ht) as Hw.
      apply Bool.eq_iff_eq_true. rewrite Bool.orb_true_iff, !Nat.ltb_lt. split.
      * intros [X | X]; [lia |]. apply HB in X as [X1 X2]. apply X2; lia.
      * intros X. destruct (Nat.lt_ge_cases (k_pos t) (fst (place sep lines k))) as [Y | Y]; [now left | right]. apply HB. split; [exact Y |].
        intros j Hj Hjl. destruct (Nat.eq_dec j (S k)) as [-> | N]; [exact X |]. pose proof (place_order sep lines (S k) j ltac:(lia) Hjl). pose proof (spans_width sep lines 0 (S k)) as W. fold (place sep lines (S k)) in W. lia.
    + apply order_pos. exact (proj2 Hwf).
    + intros a b Ha Hb Qa Pb. apply Bool.andb_true_iff in Qa as [Q1 Q2]. apply Bool.andb_true_iff in Pb as [_ P2]. apply (line_brackets k ltac:(lia) a Ha Q1) in Q2 as [Q3 _]. lia.
    + intros a Ha Pa. apply Bool.andb_true_iff in Pa as [P1 P2]. rewrite P1. cbn [andb]. apply Bool.not_true_is_false. intros Q. apply (line_brackets k ltac:(lia) a Ha P1) in Q as [Q3 _]. lia.
Qed.

Notation de := (doc_events (flat_map (ev A strict br)) l cs).
(** The tokens one gets for a line. *)
Lemma line_tokens k : k < length lines -> exists ts, range_of_tokens l cs (fst (place sep lines k)) (Some (snd (place sep lines k))) = Some ts
  /\ (ts = filter (overlaps (place sep lines k)) (flat cs) \/ ts = [] /\ filter (is_br A br) (filter (overlaps (place sep lines k)) (flat cs)) = []).
Proof.
  intros Hk. destruct (C121_tokens_of_range_partial L A l cs (fst (place sep lines k)) (Some (snd (place sep lines k))) Hwf) as [H1 H2].
  pose proof (spans_width sep lines 0 k) as HW. fold (place sep lines k) in HW.
  destruct (Nat.eq_dec (fst (place sep lines k)) (snd (place sep lines k))) as [E | N].
  - exists []. split; [apply H2; left; lia |]. right. split; [reflexivity |]. destruct (filter (is_br A br) _) as [| u us] eqn:Ef; [reflexivity |]. exfalso.
    assert (Hu : In u (filter (is_br A br) (filter (overlaps (place sep lines k)) (flat cs)))) by (rewrite Ef; now left). apply filter_In in Hu as [Hu Hb]. apply filter_In in Hu as [Hu Ho].
    pose proof Ho as Ho'. apply (line_brackets k Hk u Hu Hb) in Ho' as [X _]. unfold overlaps in Ho. lia.
  - destruct (Hline k Hk ltac:(lia)) as [Hex | Hno].
    + exists (filter (overlaps (place sep lines k)) (flat cs)). split; [apply H1; [lia | exact Hex] | now left].
    + exists []. split; [apply H2; now right |]. right. split; [reflexivity |]. replace (filter (overlaps (place sep lines k)) (flat cs)) with (@nil (tok A)); [reflexivity |].
      symmetry. destruct (filter (overlaps (place sep lines k)) (flat cs)) as [| u us] eqn:Ef; [reflexivity |]. exfalso.
      assert (Hu : In u (filter (overlaps (place sep lines k)) (flat cs))) by (rewrite Ef; now left). apply filter_In in Hu as [Hu Ho]. specialize (Hno u Hu). unfold overlaps in Ho. lia.
Qed.
Lemma level_depth k : k < length lines ->
  level (map (fun j => de (place sep lines j) []) (seq 0 (length lines))) k = line_depth strict br (flat cs) sep lines k.
Proof.
  intros Hk. unfold level, line_depth. rewrite nesting_app.
  assert (EF : firstn k (map (fun j => de (place sep lines j) []) (seq 0 (length lines))) = map (fun j => de (place sep lines j) []) (seq 0 k)).
  { rewrite firstn_map. f_equal. replace (length lines) with (k + (length lines - k)) by lia. rewrite seq_app, firstn_app, seq_length, Nat.sub_diag. cbn [firstn]. rewrite app_nil_r.
    apply firstn_all2. rewrite seq_length. lia. }
  rewrite EF. replace (nth k (map (fun j => de (place sep lines j) []) (seq 0 (length lines))) []) with (de (place sep lines k) []).
  2:{ symmetry. rewrite (nth_indep _ _ (de (place sep lines 0) [])) by now rewrite map_length, seq_length. rewrite (map_nth (fun j => de (place sep lines j) [])). now rewrite seq_nth. }
  assert (E1 : forall n, n <= length lines -> n <= k -> forall d, fold_left deeper (concat (map (fun j => de (place sep lines j) []) (seq 0 n))) d
               = nesting (map br (filter (is_br A br) (concat (map (fun j => filter (overlaps (place sep lines j)) (flat cs)) (seq 0 n))))) d).
  { induction n as [| n IHn]; intros Hn Hnk d; [reflexivity |]. rewrite !seq_S, !map_app, !concat_app, filter_app, map_app, nesting_app, fold_left_app, IHn by lia. cbn [map concat Nat.add]. rewrite !app_nil_r.
    rewrite one_language. destruct (line_tokens n ltac:(lia)) as (ts & E & H). rewrite E, nesting_events, (nesting_br A br ts).
    destruct H as [-> | [-> H]]; [reflexivity |]. rewrite H. reflexivity. }
  rewrite (E1 k) by lia. rewrite brackets_before by exact Hk. rewrite <- nesting_br.
  rewrite one_language. destruct (line_tokens k Hk) as (ts & E & H). rewrite E, own_closes. destruct H as [-> | [-> H]]; [reflexivity |]. now rewrite (no_closes A strict br _ H).
Qed.
Lemma ev_plain b p : Forall plain (de b p) /\ may_indent (de b p) = true /\ existsb is_blank (de b p) = false.
Proof.
  rewrite one_language. destruct (range_of_tokens l cs (fst b) (Some (snd b))) as [ts |]; [| split; [constructor | now split]]. unfold may_indent.
  induction ts as [| t ts (IH1 & IH2 & IH3)]; [split; [constructor | now split] |]. cbn [flat_map]. unfold ev at 1 3 5. rewrite Forall_app, !existsb_app.
  destruct (br t); [| | destruct strict]; cbn [existsb is_no_indent is_blank orb]; (split; [split; [repeat constructor | exact IH1] |]); split; assumption.
Qed.
Theorem indent_brackets space ind ibl : no_overlap sep -> is_lines text sep lines ->
  indent text sep space ind ibl de (Cursor 0 None) = join sep (each_line 0 (fun k l => times (line_depth strict br (flat cs) sep lines k) ind ++ body space l) lines).
Proof.
  intros Hno Hl. rewrite (C82_indent_levels text sep space ind ibl de (fun b => de b []) lines Hno Hl).
  - f_equal. assert (G : forall ls n, n + length ls = length lines ->
      each_line n (fun k l0 => if may_indent (de (place sep lines k) []) && (ibl || negb (existsb is_blank (de (place sep lines k) [])))
         then times (level (map (fun j => de (place sep lines j) []) (seq 0 (length lines))) k) ind ++ body space l0 else l0) ls
      = each_line n (fun k l0 => times (line_depth strict br (flat cs) sep lines k) ind ++ body space l0) ls); [| exact (G lines 0 eq_refl)].
    induction ls as [| x ls IH]; intros n Hn; [reflexivity |]. cbn [each_line length] in *. f_equal; [| apply IH; lia].
    destruct (ev_plain (place sep lines n) []) as (_ & -> & ->). rewrite Bool.orb_true_r. cbn [andb]. rewrite level_depth by lia. reflexivity.
  - intros b p. now rewrite !one_language.
  - intros b. apply ev_plain.
Qed.
End Lines.
