(** The helpers that build rule items choose as documented (C75). *)
From Verif Require Import Base BaseFacts RuleValues RuleItemModel RuleItemSpec RuleItemProofs RuleHelperProofs.
From Coq Require Import ZArith ZifyBool.

Section Helpers.
Variable peq : pv -> pv -> bool.
Variable escape_str : str -> str.
Variable other : nat -> list pv -> option pv.
Notation denote := (denote peq escape_str other).
Notation rcall := (rcall peq escape_str other).

(** C75: [ifeq(a, b, result, else_result)] and [ifneq]. *)
Theorem C75_ifeq : forall e a b x y result else_result, denote e a = Some (rv_of x) -> denote e b = Some (rv_of y) ->
  denote e (ifeq a b result else_result) = (if peq x y then denote e result else denote e else_result)
  /\ denote e (ifneq a b result else_result) = (if peq x y then denote e else_result else denote e result).
Proof.
  intros e a b x y r r' Ea Eb. unfold ifeq, ifneq. split.
  - rewrite (select_bool _ _ _ e _ (peq x y)); [reflexivity|]. rewrite (call2 _ _ _ e _ _ _ x y Ea Eb). reflexivity.
  - rewrite (select_bool _ _ _ e _ (negb (peq x y))); [destruct (peq x y); reflexivity|]. rewrite (call2 _ _ _ e _ _ _ x y Ea Eb). reflexivity.
Qed.

(** [select(index, items)]: the item at the index, counted from the end if negative; there is no other result. *)
Theorem C75_select : forall e index items z, denote e index = Some (RAtom (AInt z)) ->
  (forall before item after, items = before ++ item :: after -> (z = Z.of_nat (length before) \/ z = - Z.of_nat (S (length after)))%Z ->
     denote e (OSelect index items) = denote e item)
  /\ ((z >= Z.of_nat (length items) \/ z < - Z.of_nat (length items))%Z -> denote e (OSelect index items) = None).
Proof.
  intros e index items z E. rewrite denote_select. unfold dselect_. rewrite E. cbn [rint as_int]. rewrite py_get_map. unfold py_get. split.
  - intros before item after -> Hz. rewrite app_length. cbn [length].
    assert (En : forall k, k = length before -> nth_error (before ++ item :: after) k = Some item) by (intros k ->; rewrite nth_error_app2, Nat.sub_diag by lia; reflexivity).
    destruct (0 <=? z)%Z eqn:H0; [rewrite En by lia; reflexivity|]. destruct (- z <=? Z.of_nat (length before + S (length after)))%Z eqn:H1; [rewrite En by lia; reflexivity|lia].
  - intros Hz. destruct (0 <=? z)%Z eqn:H0.
    + assert (En : nth_error items (Z.to_nat z) = None) by (apply nth_error_None; lia). rewrite En. reflexivity.
    + destruct (- z <=? Z.of_nat (length items))%Z eqn:H1; [lia|reflexivity].
Qed.

(** [ifmember(item, sequence, result, else_result)] *)
Theorem C75_ifmember : forall e item x sequence result else_result, denote e item = Some (rv_of x) ->
  denote e (ifmember item sequence result else_result) = if existsb (peq x) sequence then denote e result else denote e else_result.
Proof.
  intros e item x s r r' E. unfold ifmember. rewrite (select_bool _ _ _ e _ (existsb (peq x) s)); [reflexivity|]. rewrite (call2 _ _ _ e _ _ _ (PA (ASet s)) x); [reflexivity|reflexivity|exact E].
Qed.

(** [ifgroup(n, result, else_result)], for a comparison with None that tells strings from None. *)
Theorem C75_ifgroup : forall e gs n g result else_result, (forall s, peq (PA (AStr s)) (PA ANone) = false) -> peq (PA ANone) (PA ANone) = true ->
  e_match e = Some (PA (AMatch gs)) -> group gs n = Some g ->
  denote e (ifgroup n result else_result) = match g with Some _ => denote e result | None => denote e else_result end.
Proof.
  intros e gs n g r r' H1 H2 Em Eg. unfold ifgroup.
  assert (E1 : denote e (match_group n) = Some (rv_of (PA (match g with Some s => AStr s | None => ANone end)))).
  { unfold match_group. rewrite (call2 _ _ _ e _ _ _ (PA (AMatch gs)) (PA (AInt (Z.of_nat n)))); [|cbn [RuleItemSpec.denote tMATCH e_get]; rewrite Em; reflexivity|reflexivity]. cbn [call_fn]. rewrite Nat2Z.id, Eg. destruct g; reflexivity. }
  rewrite (select_bool _ _ _ e _ (match g with Some _ => true | None => false end)); [destruct g; reflexivity|]. rewrite (call2 _ _ _ e _ _ _ _ (PA ANone) E1); [|reflexivity]. cbn [call_fn]. destruct g; [rewrite H1|rewrite H2]; reflexivity.
Qed.

(** [gselect(results, default)] is the nested [ifgroup]: for the first group that contributes its result, otherwise the default. *)
Fixpoint gsel_spec (e : env) (gs : list (option str)) (i : nat) (results : list (option obj)) (default : obj) : option rv :=
  match results with
  | [] => denote e default
  | None :: results => gsel_spec e gs (S i) results default
  | Some r :: results => match group gs i with Some (Some _) => denote e r | _ => gsel_spec e gs (S i) results default end
  end.
Theorem C75_gselect : forall e gs results default o, e_match e = Some (PA (AMatch gs)) -> length results <= length gs ->
  gselect results default = Some o -> denote e o = gsel_spec e gs 1 results default.
Proof.
  intros e gs results default o Em Hlen Eo.
  assert (Hspec : forall results i, i + length results <= S (length gs) -> 0 < i -> forall j, exists k, first_group gs j (map fst (gsel_items i results)) = Some (j + k)
     /\ match nth_error (map snd (gsel_items i results) ++ [default]) k with Some x => denote e x | None => None end = gsel_spec e gs i results default).
  { clear. induction results as [|[r|] results IH]; intros i Hi H0 j; cbn [gsel_items map fst snd first_group gsel_spec length] in *.
    - exists 0. rewrite Nat.add_0_r. split; reflexivity.
    - assert (Hg : exists g, group gs i = Some g) by (destruct i as [|i]; [lia|]; cbn [group]; destruct (nth_error gs i) as [g|] eqn:Eg; [eauto|]; apply nth_error_None in Eg; lia). destruct Hg as [g Eg]. rewrite Eg. destruct g as [s|].
      + exists 0. rewrite Nat.add_0_r. split; reflexivity.
      + destruct (IH (S i) ltac:(lia) ltac:(lia) (S j)) as (k & Ek & Hk). exists (S k). split; [rewrite Ek; f_equal; lia|exact Hk].
    - apply IH; lia. }
  destruct (Hspec results 1 ltac:(lia) ltac:(lia) 0) as (k & Ek & Hk). rewrite <- Hk. unfold gselect in Eo. destruct (gsel_items 1 results) as [|[i0 r0] l] eqn:El; [discriminate|]. injection Eo as <-.
  rewrite (select_nat _ _ _ e _ k); [reflexivity|]. rewrite (call1 _ _ _ e _ _ (PA (AMatch gs))); [|cbn [RuleItemSpec.denote tMATCH e_get]; rewrite Em; reflexivity]. cbn [call_fn map fst] in *. rewrite Ek. reflexivity.
Qed.

(** [dselect(item, mapping, default)]: the value of the key that is equal, otherwise the default. *)
Theorem C75_dselect : forall e item x mapping default, denote e item = Some (rv_of x) ->
  denote e (dselect item mapping default) = match find (fun kv => peq x (fst kv)) mapping with Some kv => denote e (snd kv) | None => denote e default end.
Proof.
  intros e item x mapping default E. unfold dselect. pose proof (lookup_combine peq mapping 1 x) as H.
  set (d := combine (map fst mapping) (seq 1 (length mapping))) in *. rewrite (select_nat _ _ _ e _ (match lookup peq d x with Some i => i | None => 0 end)).
  - destruct (lookup peq d x) as [i|]; [|rewrite H; reflexivity]. destruct H as (k & v & H1 & H2 & ->). destruct i as [|i]; [lia|]. cbn [nth_error]. replace (S i - 1) with i in H2 by lia. rewrite nth_error_map, H2. reflexivity.
  - rewrite (call1 _ _ _ e _ _ x E). reflexivity.
Qed.

(** [findmember(item, pairs, default)]: the result of the first pair whose sequence contains the item, otherwise the default. *)
Theorem C75_findmember : forall e item x pairs default, (forall a b c, peq a b = true -> peq b c = true -> peq a c = true) ->
  denote e item = Some (rv_of x) ->
  denote e (findmember peq item pairs default) = match find (fun p => existsb (peq x) (fst p)) pairs with Some p => denote e (snd p) | None => denote e default end.
Proof.
  intros e item x pairs default Htr E. unfold findmember. pose proof (fm_fold peq Htr x default pairs [] _ (fm_inv_start peq x default)) as H. destruct (fold_left (fm_step peq) pairs ([], [default])) as [d items]. destruct H as (_ & H0 & H1 & H2). cbn [fst snd app] in *.
  change (fun p => existsb (peq x) (fst p)) with (fun p : list pv * obj => member peq x (fst p)). rewrite (select_nat _ _ _ e _ (match lookup peq d x with Some i => i | None => 0 end)).
  - destruct (lookup peq d x) as [i|]; [|rewrite (H2 eq_refl), H0; reflexivity]. destruct (H1 i eq_refl) as (p & Ep & Hp). rewrite Ep, Hp. reflexivity.
  - rewrite (call1 _ _ _ e _ _ x E). reflexivity.
Qed.

(** [derive(lexicon, argument)]: the lexicon called with the argument, or the lexicon itself if the argument is None. *)
Theorem C75_derive : forall e l x lexicon argument v, denote e lexicon = Some (RAtom (ALex l x)) -> denote e argument = Some (rv_of v) ->
  denote e (derive lexicon argument) = Some (RAtom (ALex l (match v with PA ANone => x | _ => Some v end))).
Proof.
  intros e l x lexicon argument v E1 E2. unfold derive. rewrite denote_target. unfold dtarget. cbn [RuleItemSpec.denote omap]. rewrite E2. cbn [rint as_int map]. change (py_get [denote e lexicon] 0) with (Some (denote e lexicon)). rewrite E1. cbv iota beta.
  rewrite arg_cases. destruct (arg_none_dec (rv_of v)) as [En|En].
  - destruct v as [[]|]; try discriminate. reflexivity.
  - unfold RuleItemSpec.rcall. cbn [pv_of]. rewrite omap_cons, pv_rv. cbn [omap call_pv]. destruct v as [[]|]; reflexivity || congruence.
Qed.

(** [target((n, None), lexicons)] is [select(n, lexicons)]. *)
Theorem C75_target_select : forall e n lexicons, denote e (OTarget (OSeq [n; OAtom ANone]) lexicons) = denote e (OSelect n lexicons).
Proof.
  intros e n lexicons. rewrite denote_target, denote_select. unfold dselect_. cbn [RuleItemSpec.denote omap]. destruct (denote e n) as [r|]; [|reflexivity]. cbn [dtarget]. destruct (rint r); [|reflexivity]. destruct (py_get _ _) as [[]|]; reflexivity.
Qed.

(** [arg(...)]: a pattern for the argument if that is a string, otherwise the default. *)
Theorem C75_arg : forall e v escape prefix suffix default, e_arg e = Some v ->
  denote e (arg escape prefix suffix default) = Some (RPat (RAtom
    match v with
    | PA (AStr s) => AStr (prefix ++ (if escape then escape_str s else s) ++ suffix)
    | _ => match default with Some d => AStr d | None => ANone end
    end)).
Proof.
  intros e v escape prefix suffix default E. unfold arg. assert (E1 : denote e tARG = Some (rv_of v)) by (cbn [tARG RuleItemSpec.denote e_get]; rewrite E; reflexivity).
  change (denote e (OPattern ?x)) with (match denote e x with Some r => Some (RPat r) | None => None end). rewrite (call1 _ _ _ e _ _ v E1). cbn [call_fn]. destruct v as [[]|]; reflexivity.
Qed.

(** [ifarg(pat, else_pat)], partial: for arguments that are not empty, zero or false. *)
Theorem C75_ifarg_partial : forall e v pat else_pat, e_arg e = Some v -> (v <> PA ANone -> truth v = true) ->
  denote e (ifarg pat else_pat) = Some (RPat (RAtom (match v with PA ANone => match else_pat with Some s => AStr s | None => ANone end | _ => AStr pat end))).
Proof.
  intros e v pat else_pat E Ht. unfold ifarg. assert (E1 : denote e tARG = Some (rv_of v)) by (cbn [tARG RuleItemSpec.denote e_get]; rewrite E; reflexivity).
  change (denote e (OPattern ?x)) with (match denote e x with Some r => Some (RPat r) | None => None end). rewrite (select_bool _ _ _ e _ (truth v)); [|rewrite (call1 _ _ _ e _ _ v E1); reflexivity].
  assert (Hcase : v = PA ANone \/ v <> PA ANone) by (destruct v as [[]|]; (left; reflexivity) || (right; discriminate)). destruct Hcase as [->|Hne]; [destruct else_pat; reflexivity|]. rewrite (Ht Hne). destruct v as [[]|]; try reflexivity. congruence.
Qed.
(** A lexicon that was called with the empty string has an argument, but [ifarg] takes the other pattern. *)
Theorem C75_ifarg_refuted : forall e pat, e_arg e = Some (PA (AStr [])) -> denote e (ifarg pat None) = Some (RPat (RAtom ANone)).
Proof. intros e pat E. unfold ifarg. cbn. rewrite E. reflexivity. Qed.
End Helpers.

(** Cases. *)
Definition peq1 (a b : pv) : bool :=
  match a, b with PA (AStr s), PA (AStr t) => if list_eq_dec Nat.eq_dec s t then true else false | PA ANone, PA ANone => true | _, _ => false end.
Lemma peq1_trans a b c : peq1 a b = true -> peq1 b c = true -> peq1 a c = true.
Proof.
  destruct a as [[]|], b as [[]|], c as [[]|]; cbn [peq1]; intros H1 H2; try discriminate; try reflexivity.
  destruct (list_eq_dec Nat.eq_dec s s0) as [->|]; [|discriminate]. exact H2.
Qed.
Definition c75_env : env := Env (Some (PA (AStr []))) (Some (PA (AStr [98]))) (Some (PA (AMatch [None; None; Some [97]]))).
Notation d75 := (denote peq1 (fun s => s) (fun _ _ => None) c75_env).
Definition act n := OAtom (AAct n).
Example C75_case_1 : d75 (ifeq tTEXT (OAtom (AStr [98])) (act 1) (act 2)) = Some (RAtom (AAct 1)).
Proof. reflexivity. Qed.
Example C75_case_2 : exists o, gselect [Some (act 1); None; Some (act 3)] (act 4) = Some o /\ d75 o = Some (RAtom (AAct 3)).
Proof. eexists. split; reflexivity. Qed.
Example C75_case_3 : (forall s, peq1 (PA (AStr s)) (PA ANone) = false) /\ peq1 (PA ANone) (PA ANone) = true /\ (forall a b c, peq1 a b = true -> peq1 b c = true -> peq1 a c = true)
  /\ d75 (findmember peq1 tTEXT [([PA (AStr [97])], act 1); ([PA (AStr [97]); PA (AStr [98])], act 2); ([PA (AStr [98])], act 3)] (act 4)) = Some (RAtom (AAct 2)).
Proof. split; [reflexivity|]. split; [reflexivity|]. split; [exact peq1_trans|reflexivity]. Qed.
Example C75_case_4 : d75 (derive (OAtom (ALex 5 None)) tTEXT) = Some (RAtom (ALex 5 (Some (PA (AStr [98]))))) /\ d75 (dselect tTEXT [(PA (AStr [97]), act 1); (PA (AStr [98]), act 2)] (act 0)) = Some (RAtom (AAct 2)).
Proof. split; reflexivity. Qed.

Example C75_case_5 : d75 (OSelect (OAtom (AInt (-1))) [act 1; act 2; act 3]) = Some (RAtom (AAct 3)).
Proof. reflexivity. Qed.

Print Assumptions C75_ifeq.
Print Assumptions C75_select.
Print Assumptions C75_ifmember.
Print Assumptions C75_ifgroup.
Print Assumptions C75_gselect.
Print Assumptions C75_dselect.
Print Assumptions C75_findmember.
Print Assumptions C75_derive.
Print Assumptions C75_target_select.
Print Assumptions C75_arg.
Print Assumptions C75_ifarg_partial.
Print Assumptions C75_ifarg_refuted.
