(** The variations of a rule list its results. *)
From Verif Require Import Base BaseFacts RuleValues RuleItemModel RuleItemSpec RuleVariationSpec RuleItemProofs RuleItemRuleProofs.
From Coq Require Import ZArith ZifyBool.

Lemma outcome_inv_tup l out : outcome (RTup l) out -> outcomes l out.
Proof. inversion 1; assumption. Qed.
Lemma outcomes_app l l' out : outcomes (l ++ l') out -> exists o o', out = o ++ o' /\ outcomes l o /\ outcomes l' o'.
Proof.
  revert out. induction l as [|r l IH]; intros out H; [exists [], out; repeat split; [constructor|exact H]|]. inversion H; subst. destruct (IH _ H4) as (o & o' & -> & H5 & H6). exists (out0 ++ o), o'. rewrite app_assoc. split; [reflexivity|]. split; [constructor; assumption|assumption].
Qed.
Lemma outcome_flat : forall r out, outcomes (flat r) out -> outcome r out.
Proof.
  assert (H1 : forall r out, outcomes [r] out -> outcome r out) by (intros r out H; inversion H as [|? ? o os Ho Hos]; subst; inversion Hos; subst; rewrite app_nil_r; exact Ho).
  refine (rv_ind' _ _ _ _ _ _ _); try (intros; apply H1; assumption).
  intros l Hl out H. constructor. cbn [flat] in H. revert out H. induction Hl as [|r l Hr _ IH]; intros out H; [exact H|]. cbn [flat_map] in H. apply outcomes_app in H. destruct H as (o & o' & -> & A & B). constructor; auto.
Qed.
Lemma outcomes_flat l out : outcomes (flat_map flat l) out -> outcomes l out.
Proof. intros H. apply outcome_inv_tup. apply outcome_flat. exact H. Qed.

Lemma vsum_some l : (forall x, In x l -> exists vs, x = Some vs) -> exists vs, vsum l = Some vs /\ forall w v, In (Some w) l -> In v w -> In v vs.
Proof.
  induction l as [|x l IH]; intros H; [exists []; split; [reflexivity|intros w v []]|]. destruct (H x (or_introl eq_refl)) as [vx ->]. destruct IH as (vs & E & Hin); [intros y Hy; apply H; right; exact Hy|].
  exists (vx ++ vs). change (vsum (Some vx :: l)) with (oapp (Some vx) (vsum l)). rewrite E. split; [reflexivity|]. intros w v [[= <-]|Hw] Hv; apply in_app_iff; [left; exact Hv|right; eapply Hin; eassumption].
Qed.
Lemma vseq_some l : (forall x, In x l -> exists vs, x = Some vs) -> exists vs, vseq l = Some vs.
Proof.
  induction l as [|x l IH]; intros H; [eexists; reflexivity|]. destruct (H x (or_introl eq_refl)) as [vx ->]. destruct IH as (vs & E); [intros y Hy; apply H; right; exact Hy|]. change (vseq (Some vx :: l)) with (vprod (Some vx) (vseq l)). rewrite E. eexists. reflexivity.
Qed.
Lemma lex_var_ok : forall o, lex_only o -> var_ok o.
Proof.
  refine (obj_ind' _ _ _ _ _ _ _ _ _ _ _); try (intros; contradiction); [intros; exact I|]. intros p l _ Hl H. cbn [lex_only var_ok] in *. apply fold_and in H. apply fold_and. rewrite Forall_forall in *. auto.
Qed.
Lemma vars_some : forall o, var_ok o -> exists vs, vars o = Some vs.
Proof.
  assert (Hmap : forall l, Forall (fun o => var_ok o -> exists vs, vars o = Some vs) l -> Forall var_ok l -> forall x, In x (map vars l) -> exists vs, x = Some vs).
  { intros l H1 H2 x Hx. apply in_map_iff in Hx. destruct Hx as (o & <- & Ho). rewrite Forall_forall in *. auto. }
  refine (obj_ind' _ _ _ _ _ _ _ _ _ _ _); try (intros; contradiction).
  - intros a _. eexists. reflexivity.
  - intros l Hl H. cbn [var_ok vars] in *. apply fold_and in H. apply vseq_some. apply Hmap; assumption.
  - intros p l _ Hl H. cbn [var_ok vars] in *. apply fold_and in H. destruct (vsum_some (map vars l) (Hmap l Hl H)) as (vs & E & _). eauto.
  - intros value l _ Hl H. cbn [var_ok] in H. destruct H as [H Hv]. apply fold_and in H. assert (H' : Forall var_ok l) by (rewrite Forall_forall in *; intros o Ho; apply lex_var_ok; auto).
    destruct (vsum_some (map vars l) (Hmap l Hl H')) as (vs & E & _). cbn [vars].
    destruct value as [a|vl| | | | | | | |]; try (rewrite E; eexists; reflexivity); [destruct (as_int a); [eexists; reflexivity|congruence]|].
    destruct vl as [|[a| | | | | | | | |] [|arg [|? ?]]]; try contradiction. destruct Hv as (i & x & -> & Eg). rewrite py_get_map, Eg. cbn [option_map]. rewrite Forall_forall in *. apply py_get_in in Eg. auto.
  - intros v _ H. cbn [vars var_ok] in *. destruct v; try contradiction; cbn [is_item vars]; eexists; reflexivity.
  - intros l Hl H. cbn [var_ok vars] in *. destruct H as [_ H]. apply fold_and in H. destruct (vsum_some (map vars l) (Hmap l Hl H)) as (vs & E & _). eauto.
  - intros v Hv H. exact (Hv H).
Qed.
Lemma vsum_in l o vs : Forall var_ok l -> In o l -> vars o = Some vs -> forall v, In v vs -> exists ws, vsum (map vars l) = Some ws /\ In v ws.
Proof.
  intros Hl Ho E v Hv. destruct (vsum_some (map vars l)) as (ws & Es & Hin).
  - intros x Hx. apply in_map_iff in Hx. destruct Hx as (y & <- & Hy). rewrite Forall_forall in Hl. apply vars_some. auto.
  - exists ws. split; [exact Es|]. eapply Hin; [|exact Hv]. rewrite <- E. apply in_map. exact Ho.
Qed.

Section Listed.
Variable peq : pv -> pv -> bool.
Variable escape_str : str -> str.
Variable other : nat -> list pv -> option pv.
Notation denote := (denote peq escape_str other).
Notation rcall := (rcall peq escape_str other).

(** What a choice of lexicons gives. *)
Lemma lex_denote e : forall o r, lex_only o -> denote e o = Some r -> exists l x vs, r = RAtom (ALex l x) /\ vars o = Some vs /\ exists y, In [VObj (OAtom (ALex l y))] vs.
Proof.
  refine (obj_ind' _ _ _ _ _ _ _ _ _ _ _); try (intros; contradiction).
  - intros a r H [= <-]. destruct a as [| | | | |l x| | | |]; try contradiction. exists l, x. eexists. split; [reflexivity|]. split; [reflexivity|]. exists x. left. reflexivity.
  - intros p l _ Hl r H. cbn [lex_only] in H. apply fold_and in H. rewrite denote_select. unfold dselect_. destruct (denote e p) as [rp|]; [|discriminate]. destruct (rint rp) as [i|]; [|discriminate]. rewrite py_get_map. destruct (py_get l i) as [x|] eqn:Eg; [|discriminate]. cbn [option_map]. intros E.
    apply py_get_in in Eg. rewrite Forall_forall in Hl, H. destruct (Hl x Eg r (H x Eg) E) as (n & y & vs & -> & Ev & z & Hz).
    assert (Hok : Forall var_ok l) by (apply Forall_forall; intros o Ho; apply lex_var_ok; auto). destruct (vsum_in l x vs Hok Eg Ev _ Hz) as (ws & Ew & Hw). exists n, y, ws. split; [reflexivity|]. split; [exact Ew|]. exists z. exact Hw.
Qed.
Lemma lex_call l x (arg : rv) r : rcall (RAtom (ALex l x)) [arg] = Some r -> exists y, r = RAtom (ALex l y).
Proof.
  unfold RuleItemSpec.rcall. cbn [pv_of omap]. destruct (pv_of arg) as [v|]; [|discriminate]. cbn [call_pv]. destruct v as [[]|]; intros [= <-]; eexists; reflexivity.
Qed.

Lemma vars_listed : forall o e r out, var_ok o -> denote e o = Some r -> outcome r out -> exists vs v, vars o = Some vs /\ In v vs /\ Forall2 listed out v.
Proof.
  refine (obj_ind' _ _ _ _ _ _ _ _ _ _ _); try (intros; contradiction).
  - intros a e r out _ [= <-] H. inversion H; subst. exists [[VObj (OAtom a)]], [VObj (OAtom a)]. split; [reflexivity|]. split; [left; reflexivity|]. constructor; [left; reflexivity|constructor].
  - intros l Hl e r out Hok. cbn [RuleItemSpec.denote var_ok] in *. apply fold_and in Hok. destruct (omap (denote e) l) as [rs|] eqn:E; [|discriminate]. intros [= <-] H. apply outcome_inv_tup in H. cbn [vars].
    revert rs out E H. induction Hl as [|o l Ho _ IH]; intros rs out E H.
    + injection E as <-. inversion H; subst. exists [[]], []. split; [reflexivity|]. split; [left; reflexivity|constructor].
    + inversion Hok as [|? ? Hok1 Hok2]; subst. rewrite omap_cons in E. destruct (denote e o) as [r|] eqn:Er; [|discriminate]. destruct (omap (denote e) l) as [rs'|]; [|discriminate]. injection E as <-. inversion H as [|? ? o1 o2 Ho1 Ho2]; subst.
      destruct (Ho e r o1 Hok1 Er Ho1) as (vs & v & Ev & Hv & F1). destruct (IH Hok2 rs' o2 eq_refl Ho2) as (ws & w & Ew & Hw & F2). cbn [map]. change (vseq (vars o :: map vars l)) with (vprod (vars o) (vseq (map vars l))). rewrite Ev, Ew.
      eexists. exists (v ++ w). split; [reflexivity|]. split; [|apply Forall2_app; assumption]. apply in_flat_map. exists w. split; [exact Hw|]. apply in_map_iff. exists v. auto.
  - intros p l _ Hl e r out Hok. cbn [var_ok] in Hok. apply fold_and in Hok. rewrite denote_select. unfold dselect_. destruct (denote e p) as [rp|]; [|discriminate]. destruct (rint rp) as [i|]; [|discriminate]. rewrite py_get_map. destruct (py_get l i) as [x|] eqn:Eg; [|discriminate]. cbn [option_map]. intros E H.
    apply py_get_in in Eg. pose proof Hok as Hok0. rewrite Forall_forall in Hl, Hok. destruct (Hl x Eg e r out (Hok x Eg) E H) as (vs & v & Ev & Hv & F). destruct (vsum_in l x vs Hok0 Eg Ev v Hv) as (ws & Ew & Hw). exists ws, v. auto.
  - intros value l _ _ e r out Hok. cbn [var_ok] in Hok. destruct Hok as [Hl Hv]. apply fold_and in Hl. assert (Hok : Forall var_ok l) by (rewrite Forall_forall in *; intros o Ho; apply lex_var_ok; auto).
    rewrite denote_target. intros E H.
    assert (Hlex : forall i qa x, py_get l i = Some x -> match denote e x with Some lexicon => match qa with RAtom ANone => Some lexicon | _ => rcall lexicon [qa] end | None => None end = Some r ->
      In x l /\ exists n y z vs, r = RAtom (ALex n y) /\ vars x = Some vs /\ In [VObj (OAtom (ALex n z))] vs).
    { intros i qa x Eg Er. apply py_get_in in Eg. split; [exact Eg|]. rewrite Forall_forall in Hl. destruct (denote e x) as [rx|] eqn:Ex; [|discriminate]. destruct (lex_denote e x rx (Hl x Eg) Ex) as (n & y & vs & -> & Evs & z & Hz).
      rewrite arg_cases in Er. destruct (arg_none_dec qa); [injection Er as <-; exists n, y, z, vs; auto|]. apply lex_call in Er. destruct Er as [y' ->]. exists n, y', z, vs. auto. }
    assert (Hpair : forall ri ra, denote e value = Some (RTup [ri; ra]) -> exists i x, rint ri = Some i /\ py_get l i = Some x /\ In x l /\ exists n y z vs, r = RAtom (ALex n y) /\ vars x = Some vs /\ In [VObj (OAtom (ALex n z))] vs).
    { intros ri ra Ev. rewrite Ev in E. change (dtarget _ _ _ (Some (RTup [ri; ra])) ?l) with (dpick peq escape_str other ri ra l) in E. unfold dpick in E. destruct (rint ri) as [i|]; [|discriminate]. rewrite py_get_map in E. destruct (py_get l i) as [x|] eqn:Eg; [|discriminate]. cbn [option_map] in E.
      exists i, x. split; [first [reflexivity|assumption]|]. split; [exact Eg|]. eapply Hlex; [exact Eg|]. destruct (denote e x); [exact E|discriminate]. }
    assert (Hcase : (exists ri ra, denote e value = Some (RTup [ri; ra])) \/ (denote e value = Some r /\ exists z, rint r = Some z)).
    { destruct (denote e value) as [rv0|]; [|discriminate]. unfold dtarget in E. destruct rv0 as [a|rs|r0|r0| |fs]; cbn [rint] in E; try discriminate.
      - right. destruct (as_int a) as [z|] eqn:Ez; [|discriminate]. injection E as <-. split; [reflexivity|]. exists z. exact Ez.
      - destruct rs as [|ri [|ra [|? ?]]]; try discriminate. left. eauto. }
    assert (Hgen : exists vs v, oapp (Some [[ANumber]]) (vsum (map vars l)) = Some vs /\ In v vs /\ Forall2 listed out v).
    { destruct Hcase as [(ri & ra & Ev)|(Ev & z & Ez)].
      - destruct (Hpair ri ra Ev) as (i & x & _ & _ & Hx & n & y & zz & vs & -> & Evs & Hin). inversion H; subst. destruct (vsum_in l x vs Hok Hx Evs _ Hin) as (ws & Ew & Hw). rewrite Ew. cbn [oapp]. eexists. exists [VObj (OAtom (ALex n zz))]. split; [reflexivity|]. split; [right; exact Hw|]. constructor; [right; eauto|constructor].
      - destruct r as [a| | | | |]; try discriminate. inversion H; subst. destruct (vsum_some (map vars l)) as (ws & Ew & _); [intros y Hy; apply in_map_iff in Hy; destruct Hy as (q & <- & Hq); rewrite Forall_forall in Hok; apply vars_some; auto|]. rewrite Ew. cbn [oapp]. eexists. exists [ANumber]. split; [reflexivity|]. split; [left; reflexivity|]. constructor; [exists z; exact Ez|constructor]. }
    cbn [vars]. destruct value as [a|vl| | | | | | | |]; try exact Hgen.
    + cbn [RuleItemSpec.denote] in *. destruct Hcase as [(ri & ra & Ev)|([= <-] & z & Ez)]; [discriminate|]. cbn [rint] in Ez. rewrite Ez. inversion H; subst. exists [[VObj (OAtom a)]], [VObj (OAtom a)]. split; [reflexivity|]. split; [left; reflexivity|]. constructor; [left; reflexivity|constructor].
    + destruct vl as [|[a| | | | | | | | |] [|arg [|? ?]]]; try contradiction. destruct Hv as (i & x & Ei & Eg). rewrite Ei, py_get_map, Eg. cbn [option_map].
      destruct Hcase as [(ri & ra & Ev)|(Ev & z & Ez)].
      * destruct (Hpair ri ra Ev) as (i' & x' & Ei' & Eg' & Hx & n & y & zz & vs & -> & Evs & Hin). cbn [RuleItemSpec.denote omap] in Ev. destruct (denote e arg); [|discriminate]. injection Ev as <- <-. cbn [rint] in Ei'. rewrite Ei in Ei'. injection Ei' as <-. rewrite Eg in Eg'. injection Eg' as <-.
        inversion H; subst. exists vs, [VObj (OAtom (ALex n zz))]. split; [exact Evs|]. split; [exact Hin|]. constructor; [right; eauto|constructor].
      * cbn [RuleItemSpec.denote omap] in Ev. destruct (denote e arg); [|discriminate]. injection Ev as <-. discriminate.
  - intros v _ e r out Hok. cbn [RuleItemSpec.denote var_ok vars] in *. destruct (denote e v) as [rv0|] eqn:Ev; [|discriminate]. intros [= <-] H. inversion H as [| |a Ha| | |]; subst.
    assert (Hgen : exists vs w, Some [[VObj (OAtom ANone)]; [AString]] = Some vs /\ In w vs /\ Forall2 listed [a] w).
    { destruct Ha as [->|[s ->]]; eexists; [exists [VObj (OAtom ANone)]|exists [AString]]; (split; [reflexivity|]); (split; [cbn; auto|]); constructor; [left; reflexivity|constructor|exists s; reflexivity|constructor]. }
    destruct v; try contradiction; try exact Hgen. cbn [is_item vars]. injection Ev as ->. exists [[VObj (OAtom a)]], [VObj (OAtom a)]. split; [reflexivity|]. split; [left; reflexivity|]. constructor; [left; reflexivity|constructor].
  - intros l Hl e r out Hok. cbn [var_ok] in Hok. destruct Hok as [_ Hok]. apply fold_and in Hok. cbn [RuleItemSpec.denote]. intros [= <-] H. inversion H as [| | | | |fs f text m rf o Hf Ef Hout]; subst. apply in_map_iff in Hf. destruct Hf as (x & <- & Hx).
    pose proof Hok as Hok0. rewrite Forall_forall in Hl, Hok. destruct (Hl x Hx _ rf out (Hok x Hx) Ef Hout) as (vs & v & Ev & Hv & F). destruct (vsum_in l x vs Hok0 Hx Ev v Hv) as (ws & Ew & Hw). exists ws, v. auto.
  - intros v Hv e r out Hok. cbn [RuleItemSpec.denote var_ok vars] in *. destruct (denote e v) as [rv0|] eqn:Ev; [|discriminate]. intros [= <-] H. inversion H; subst. eapply Hv; eassumption.
Qed.
Lemma variations_flat rule : flat_rule rule -> variations rule = vseq (map vars rule).
Proof. intros H. unfold variations. f_equal. apply map_ext_in. intros o Ho. unfold flat_rule in H. rewrite Forall_forall in H. specialize (H o Ho). destruct o; try reflexivity. contradiction. Qed.
Lemma variations_listed rule e rs out : flat_rule rule -> Forall var_ok rule -> denote_rule peq escape_str other e rule = Some rs -> outcomes rs out ->
  exists vs v, variations rule = Some vs /\ In v vs /\ Forall2 listed out v.
Proof.
  intros Hf Hok E H. rewrite (variations_flat rule Hf). unfold denote_rule in E. destruct (omap (denote e) rule) as [l|] eqn:El; [|discriminate]. injection E as <-. apply outcomes_flat in H.
  apply (vars_listed (OSeq rule) e (RTup l) out); [apply fold_and; exact Hok|cbn [RuleItemSpec.denote]; rewrite El; reflexivity|constructor; exact H].
Qed.
End Listed.
