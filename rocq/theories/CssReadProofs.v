(** Proofs about preludes and quoting. *)
From Verif Require Import Base CssModel CssSpec CssProofs CssMatchProofs CssReadModel CssReadSpec.

(** ** The prelude *)
Lemma loop_app : forall a b pre res,
  prelude_loop (a ++ b) pre res = let '(p, r) := prelude_loop a pre res in prelude_loop b p r.
Proof.
  induction a as [| i a IH]; intros b pre res; [reflexivity |]. destruct i; cbn [app prelude_loop]; apply IH.
Qed.
Lemma loop_matters : forall l pre res, prelude_loop (filter matters l) pre res = prelude_loop l pre res.
Proof.
  induction l as [| i l IH]; intros pre res; [reflexivity |].
  destruct i; cbn [filter matters prelude_loop]; apply IH.
Qed.
Lemma ends_snoc_sel : forall l s, ends_in_sel (l ++ [Sel s]) = true.
Proof. intros l s. unfold ends_in_sel, last_opt. rewrite rev_app_distr. reflexivity. Qed.
Lemma ends_snoc_op : forall l o, ends_in_sel (l ++ [Op o]) = false.
Proof. intros l o. unfold ends_in_sel, last_opt. rewrite rev_app_distr. reflexivity. Qed.
Lemma loop_ops_idle : forall ops pre res, ends_in_sel res = false ->
  prelude_loop (map POp ops) pre res = (pre, res).
Proof.
  induction ops as [| o ops IH]; intros pre res E; [reflexivity |]. cbn [map prelude_loop]. rewrite E. apply IH. exact E.
Qed.
Lemma loop_ops : forall ops pre res, ends_in_sel res = true ->
  prelude_loop (map POp ops) pre res = (pre, res ++ match ops with [] => [] | o :: _ => [Op o] end).
Proof.
  intros [| o ops] pre res E; cbn [map prelude_loop]; [rewrite app_nil_r; reflexivity |].
  rewrite E. apply loop_ops_idle, ends_snoc_op.
Qed.
Lemma loop_more : forall more pre res, ends_in_sel res = true ->
  exists r, prelude_loop (flat_map (fun x => map POp (fst x) ++ [PSel (snd x)]) more) pre res = (pre, r) /\
    r = res ++ flat_map (fun x => [Op (hd op_desc (fst x)); Sel (snd x)]) more /\ ends_in_sel r = true.
Proof.
  induction more as [| [ops s] more IH]; intros pre res E; cbn [flat_map fst snd].
  - exists res. rewrite app_nil_r. auto.
  - rewrite loop_app, loop_app, (loop_ops ops pre res E). cbn [prelude_loop].
    assert ((if ends_in_sel (res ++ match ops with [] => [] | o :: _ => [Op o] end)
             then (res ++ match ops with [] => [] | o :: _ => [Op o] end) ++ [Op op_desc]
             else res ++ match ops with [] => [] | o :: _ => [Op o] end) ++ [Sel s]
            = res ++ [Op (hd op_desc ops); Sel s]) as ->.
    { destruct ops as [| o ops].
      - rewrite app_nil_r, E, <- app_assoc. reflexivity.
      - rewrite ends_snoc_op, <- app_assoc. reflexivity. }
    change [Op (hd op_desc ops); Sel s] with ([Op (hd op_desc ops)] ++ [Sel s]). rewrite app_assoc.
    destruct (IH pre ((res ++ [Op (hd op_desc ops)]) ++ [Sel s]) (ends_snoc_sel _ _)) as (r & -> & -> & Er).
    eexists. split; [reflexivity |]. split; [| exact Er]. rewrite <- !app_assoc. reflexivity.
Qed.
Lemma part_ends : forall p, ends_in_sel (part_meaning p) = true.
Proof.
  intros p. unfold part_meaning.
  destruct (loop_more (pt_more p) [] [Sel (pt_first p)] eq_refl) as (r & _ & -> & E). exact E.
Qed.
Lemma loop_part : forall p pre, exists t, prelude_loop (part_items p) pre [] = (pre, part_meaning p ++ t) /\
  (t = [] \/ exists o, t = [Op o]).
Proof.
  intros p pre. unfold part_items. rewrite loop_app, (loop_ops_idle (pt_lead p) pre [] eq_refl).
  cbn [prelude_loop ends_in_sel last_opt rev app].
  destruct (loop_more (pt_more p) pre [Sel (pt_first p)] eq_refl) as (r & E & Er & Hr).
  rewrite loop_app, E, (loop_ops (pt_trail p) pre r Hr). rewrite Er.
  eexists. split; [reflexivity |]. destruct (pt_trail p) as [| o l]; [left; reflexivity | right; exists o; reflexivity].
Qed.
Lemma loop_anypart : forall a pre, exists r, prelude_loop (anypart_items a) pre [] = (pre, r) /\
  match a with
  | Hollow _ => r = []
  | Full p => exists t, r = part_meaning p ++ t /\ (t = [] \/ exists o, t = [Op o])
  end.
Proof.
  intros [p | ops] pre.
  - destruct (loop_part p pre) as (t & E & Ht). eexists. split; [exact E |]. exists t. auto.
  - exists []. split; [apply loop_ops_idle; reflexivity | reflexivity].
Qed.

Definition tidy (sels : list item) : list item :=
  match sels with [] => [] | _ => if ends_in_sel sels then sels else removelast sels end.
Definition nonempty (sels : list item) : bool := match sels with [] => false | _ => true end.
Lemma tidy_part : forall p t, (t = [] \/ exists o, t = [Op o]) -> tidy (part_meaning p ++ t) = part_meaning p.
Proof.
  intros p t [-> | [o ->]].
  - rewrite app_nil_r. unfold tidy. rewrite part_ends. reflexivity.
  - unfold tidy. rewrite ends_snoc_op, removelast_last. reflexivity.
Qed.
Lemma loop_parts : forall parts pre, parts <> [] ->
  exists a r, prelude_loop (with_commas (map anypart_items parts)) pre [] = (pre ++ a, r) /\
    filter nonempty (map tidy (a ++ match r with [] => [] | _ => [r] end)) = meaning parts.
Proof.
  induction parts as [| x parts IH]; intros pre N; [congruence |].
  assert (forall r, match x with Hollow _ => r = []
            | Full p => exists t, r = part_meaning p ++ t /\ (t = [] \/ exists o, t = [Op o]) end ->
            filter nonempty (map tidy [r]) = match x with Full p => [part_meaning p] | Hollow _ => [] end) as Hx.
  { intros r H. destruct x as [p | ops].
    - destruct H as (t & -> & Ht). cbn [map]. rewrite (tidy_part p t Ht). reflexivity.
    - subst r. reflexivity. }
  destruct (loop_anypart x pre) as (r & E & Hr). specialize (Hx r Hr).
  destruct parts as [| y parts].
  - cbn [map with_commas]. exists [], r. rewrite app_nil_r. split; [exact E |]. cbn [app].
    assert (filter nonempty (map tidy match r with [] => [] | _ :: _ => [r] end) = filter nonempty (map tidy [r])) as ->.
    { destruct r; reflexivity. }
    rewrite Hx. destruct x; reflexivity.
  - change (with_commas (map anypart_items (x :: y :: parts)))
      with (anypart_items x ++ PComma :: with_commas (map anypart_items (y :: parts))).
    rewrite loop_app, E. cbn [prelude_loop].
    destruct (IH (pre ++ [r])) as (a & r' & E' & H'); [discriminate |].
    exists (r :: a), r'. rewrite E', <- app_assoc. split; [reflexivity |].
    change (r :: a) with ([r] ++ a). rewrite <- app_assoc, map_app, filter_app, Hx, H'. destruct x; reflexivity.
Qed.
Lemma read_prelude_meaning : forall items parts, parts <> [] ->
  filter matters items = with_commas (map anypart_items parts) -> read_prelude items = meaning parts.
Proof.
  intros items parts N E. unfold read_prelude. rewrite <- loop_matters, E.
  destruct (loop_parts parts [] N) as (a & r & -> & H). cbn [app]. rewrite <- H. unfold nonempty, tidy.
  destruct r; [rewrite app_nil_r |]; reflexivity.
Qed.
Lemma parts_exist : forall items, exists parts, parts <> [] /\
  filter matters items = with_commas (map anypart_items parts).
Proof.
  induction items as [| i items (parts & N & E)].
  - exists [Hollow []]. split; [discriminate | reflexivity].
  - destruct parts as [| x parts]; [congruence |].
    assert (forall i x', (anypart_items x' = i :: anypart_items x) ->
      with_commas (map anypart_items (x' :: parts)) = i :: with_commas (map anypart_items (x :: parts))) as Hc.
    { intros j x' H. cbn [map with_commas]. rewrite H. destruct (map anypart_items parts); reflexivity. }
    destruct i as [| o | s |]; cbn [filter matters]; rewrite E.
    + exists (Hollow [] :: x :: parts). split; [discriminate | reflexivity].
    + destruct x as [p | ops].
      * exists (Full (mkpart (o :: pt_lead p) (pt_first p) (pt_more p) (pt_trail p)) :: parts).
        split; [discriminate |]. symmetry. apply Hc. reflexivity.
      * exists (Hollow (o :: ops) :: parts). split; [discriminate |]. symmetry. apply Hc. reflexivity.
    + destruct x as [p | ops].
      * exists (Full (mkpart [] s ((pt_lead p, pt_first p) :: pt_more p) (pt_trail p)) :: parts).
        split; [discriminate |]. symmetry. apply Hc. cbn [anypart_items]. unfold part_items.
        cbn [pt_lead pt_first pt_more pt_trail map app flat_map fst snd]. rewrite <- !app_assoc. reflexivity.
      * exists (Full (mkpart [] s [] ops) :: parts). split; [discriminate |]. symmetry. apply Hc. reflexivity.
    + exists (x :: parts). split; [discriminate | reflexivity].
Qed.
Lemma part_alternating : forall p, alternating (part_meaning p).
Proof.
  intros p. unfold part_meaning. destruct p as [lead s more trail]. cbn [pt_first pt_more].
  induction more as [| [ops s'] more IH] using rev_ind; [constructor |].
  rewrite flat_map_app. cbn [flat_map app fst snd].
  match goal with |- alternating (?a :: ?b ++ ?c) => change (alternating ((a :: b) ++ c)) end. apply alt_more. exact IH.
Qed.
Lemma meaning_alternating : forall parts l, In l (meaning parts) -> alternating l.
Proof.
  induction parts as [| x parts IH]; intros l H; [destruct H |].
  destruct x as [p | ops]; cbn [meaning] in H; [| auto]. destruct H as [<- | H]; [apply part_alternating | auto].
Qed.
Lemma read_prelude_alternating : forall items l, In l (read_prelude items) -> alternating l.
Proof.
  intros items l H. destruct (parts_exist items) as (parts & N & E).
  rewrite (read_prelude_meaning items parts N E) in H. eapply meaning_alternating. exact H.
Qed.

(** Matching such a prelude never fails. *)
Lemma alternating_no_raise : forall space lower root l, alternating l -> forall p,
  match_selectors space lower root p l <> None.
Proof.
  intros space lower root l A.
  assert (forall k l, length l < k -> alternating l -> forall s rest p, rev l = Sel s :: rest ->
            match_loop space lower root p rest <> None) as H.
  { clear. induction k as [| k IH]; intros l Lk A s rest p E; [lia |].
    destruct A as [s0 | l o s0 A].
    - cbn [rev app] in E. injection E as _ <-. discriminate.
    - rewrite rev_app_distr in E. cbn [rev app] in E. injection E as _ <-.
      destruct (alternating_last l A) as (s' & rest' & E'). rewrite E'. cbn [match_loop].
      destruct (item_true (Op o) && item_true (Sel s')); [| discriminate].
      rewrite first_match_find. destruct (find _ _) as [q |]; [| discriminate].
      apply (IH l) with (s := s'); [rewrite app_length in Lk; cbn [length] in Lk; lia | exact A | exact E']. }
  intros p. unfold match_selectors. destruct (alternating_last l A) as (s & rest & E). rewrite E. cbn [item_true match_item].
  destruct (negb (sel_true s)); [discriminate |].
  destruct (match_selector space lower root p s); [| discriminate].
  apply (H (S (length l)) l) with (s := s); [lia | exact A | exact E].
Qed.
Lemma prelude_no_raise : forall space lower root pre p, (forall l, In l pre -> alternating l) ->
  match_prelude space lower root p pre <> None.
Proof.
  intros space lower root pre p. induction pre as [| l pre IH]; intros H; cbn [match_prelude]; [discriminate |].
  pose proof (alternating_no_raise space lower root l (H l (or_introl eq_refl)) p) as N.
  destruct (match_selectors space lower root p l) as [[|] |]; [discriminate | | congruence].
  apply IH. intros x Hx. apply H. right. exact Hx.
Qed.

(** ** Quoting *)
Definition esc (c : nat) : str := if (c =? 92) || (c =? 34) then escape c else [c].
Lemma css_string_quoted : forall s fuel rest, length s < fuel ->
  (forall c, In c s -> c <> 10 /\ c <> 12 /\ c <> 13) ->
  css_string fuel (flat_map esc s ++ 34 :: rest) = Some (s, rest).
Proof.
  induction s as [| c s IH]; intros fuel rest L N; (destruct fuel as [| fuel]; [cbn [length] in L; lia |]).
  - reflexivity.
  - assert (forall r, css_string fuel (flat_map esc s ++ 34 :: rest) = r -> r = Some (s, rest)) as IH'.
    { intros r <-. apply IH; [cbn [length] in L; lia | intros x Hx; apply N; right; exact Hx]. }
    specialize (IH' _ eq_refl). destruct (N c (or_introl eq_refl)) as (N1 & N2 & N3).
    cbn [flat_map]. rewrite <- app_assoc. unfold esc at 1.
    destruct (Nat.eqb_spec c 92) as [-> | E1]; [| destruct (Nat.eqb_spec c 34) as [-> | E2]].
    + change (if (92 =? 92) || (92 =? 34) then escape 92 else [92]) with [92; 53; 99; 32].
      generalize dependent (flat_map esc s ++ 34 :: rest). intros tail Ht.
      cbn [app css_string]. cbn -[css_string]. rewrite Ht. reflexivity.
    + change (if (34 =? 92) || (34 =? 34) then escape 34 else [34]) with [92; 50; 50; 32].
      generalize dependent (flat_map esc s ++ 34 :: rest). intros tail Ht.
      cbn [app css_string]. cbn -[css_string]. rewrite Ht. reflexivity.
    + cbn [orb app css_string].
      destruct (Nat.eqb_spec c 34); [congruence |]. destruct (Nat.eqb_spec c 10); [congruence |].
      destruct (Nat.eqb_spec c 12); [congruence |]. destruct (Nat.eqb_spec c 13); [congruence |].
      destruct (Nat.eqb_spec c 92); [congruence |]. cbn [orb]. rewrite IH'. reflexivity.
Qed.
Lemma quote_stands : forall word s, (forall c, In c s -> c <> 10 /\ c <> 12 /\ c <> 13) ->
  (s <> [] -> (forall c, In c s -> word c = true \/ c = 45) -> ident word s) ->
  stands_for word (quote_if_needed word s) s.
Proof.
  intros word s N H. unfold quote_if_needed. destruct s as [| c s].
  - right. exists [34], 1. split; reflexivity.
  - destruct (forallb (fun c => word c || (c =? 45)) (c :: s)) eqn:E.
    + left. split; [| reflexivity]. apply H; [discriminate |]. intros x Hx. rewrite forallb_forall in E.
      apply E in Hx. apply orb_true_iff in Hx as [Hx | Hx]; [left; exact Hx | right; apply Nat.eqb_eq; exact Hx].
    + right. eexists _, (S (length (c :: s))). split; [reflexivity |].
      apply (css_string_quoted (c :: s)); [lia | exact N].
Qed.
