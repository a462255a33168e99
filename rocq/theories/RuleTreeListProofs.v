(** The decision tree of a rule lists its results, and so do the items found in the rules of a language. *)
From Verif Require Import Base BaseFacts RuleValues RuleItemModel RuleItemSpec RuleVariationSpec RuleItemProofs RuleItemRuleProofs RuleVariationProofs RuleTreeModel RuleTreeSpec RuleTreeProofs.
From Coq Require Import ZArith ZifyBool.

Lemma lex_tree_ok : forall o, lex_only o -> tree_ok o.
Proof.
  refine (obj_ind' _ _ _ _ _ _ _ _ _ _ _); try (intros; contradiction); [intros; exact I|]. intros p l _ Hl H. cbn [lex_only tree_ok] in *. apply fold_and in H. apply fold_and. rewrite Forall_forall in *. auto.
Qed.
Lemma tbranch_some o l : (forall x, In x l -> exists ts, titems x = Some ts) -> exists ts, tbranch o (map titems l) = Some ts.
Proof.
  intros H. destruct l as [|x l]; [eexists; reflexivity|]. pose proof (tbranch_cases o (map titems (x :: l)) ltac:(discriminate)) as Hc. destruct (tbranch o (map titems (x :: l))) as [ts|]; [eauto|].
  apply in_map_iff in Hc. destruct Hc as (y & E & Hy). destruct (H y Hy) as [ts Ets]. congruence.
Qed.
Lemma tnum_some o l : (forall x, In x l -> exists ts, titems x = Some ts) -> exists ts, tbranch o (Some [TEntry ANumber] :: map titems l) = Some ts
  /\ forall p, walk ts p <-> p = [ANumber] \/ exists x b, In x l /\ titems x = Some b /\ walk b p.
Proof.
  intros H. pose proof (tbranch_cases o (Some [TEntry ANumber] :: map titems l) ltac:(discriminate)) as Hc. destruct (tbranch o (Some [TEntry ANumber] :: map titems l)) as [ts|].
  - exists ts. split; [reflexivity|]. destruct Hc as [_ Hc]. intros p. rewrite Hc. cbn [In]. split.
    + intros (b & [Eb|Hb] & Hp); [injection Eb as <-; left; apply walk_entry; exact Hp|]. apply in_map_iff in Hb. destruct Hb as (x & E & Hx). right. eauto.
    + intros [->|(x & b & Hx & E & Hp)]; [exists [TEntry ANumber]; split; [left; reflexivity|apply walk_entry; reflexivity]|]. exists b. split; [right; rewrite <- E; apply in_map; exact Hx|exact Hp].
  - exfalso. destruct Hc as [Hc|Hc]; [discriminate|]. apply in_map_iff in Hc. destruct Hc as (y & E & Hy). destruct (H y Hy) as [ts Ets]. congruence.
Qed.
Lemma titems_some : forall o, tree_ok o -> exists ts, titems o = Some ts.
Proof.
  assert (Hmap : forall l, Forall (fun o => tree_ok o -> exists ts, titems o = Some ts) l -> fold_right (fun o P => tree_ok o /\ P) True l -> forall x, In x l -> exists ts, titems x = Some ts).
  { intros l H1 H2 x Hx. apply fold_and in H2. rewrite Forall_forall in *. auto. }
  refine (obj_ind' _ _ _ _ _ _ _ _ _ _ _); try (intros; contradiction).
  - intros a _. eexists. reflexivity.
  - intros l Hl H. cbn [tree_ok titems] in *. pose proof (oapp_cases (map titems l)) as Hc. destruct (fold_right oapp (Some []) (map titems l)) as [ts|]; [eauto|]. apply in_map_iff in Hc. destruct Hc as (y & E & Hy). destruct (Hmap l Hl H y Hy) as [ts Ets]. congruence.
  - intros p l _ Hl H. cbn [tree_ok titems] in *. apply tbranch_some. eauto.
  - intros value l _ Hl H. cbn [tree_ok] in H. destruct H as [H Hv]. apply fold_and in H. assert (H' : forall x, In x l -> exists ts, titems x = Some ts) by (rewrite Forall_forall in *; intros o Ho; apply Hl; [exact Ho|apply lex_tree_ok; auto]).
    destruct (tnum_some (OTarget value l) l H') as (ts & E & _). cbn [titems].
    destruct value as [a|vl| | | | | | | |]; try (rewrite E; eexists; reflexivity); [destruct (as_int a); [eexists; reflexivity|congruence]|].
    destruct vl as [|[a| | | | | | | | |] [|arg [|? ?]]]; try contradiction. destruct Hv as (i & x & -> & Eg). rewrite py_get_map, Eg. cbn [option_map]. apply py_get_in in Eg. destruct (H' x Eg) as [tx ->]. eexists. reflexivity.
  - intros v _ H. cbn [titems tree_ok] in *. destruct v; try contradiction; cbn [is_item titems]; eexists; reflexivity.
  - intros l Hl H. cbn [tree_ok titems] in *. apply tbranch_some. eauto.
  - intros v Hv H. cbn [titems tree_ok] in *. destruct (Hv H) as [ts ->]. eexists. reflexivity.
  - intros _. eexists. reflexivity.
Qed.
Lemma tbranch_in o l x ts p : Forall tree_ok l -> In x l -> titems x = Some ts -> walk ts p -> exists us, tbranch o (map titems l) = Some us /\ walk us p.
Proof.
  intros Hl Hx E Hp. rewrite Forall_forall in Hl. destruct (tbranch_some o l) as [us Eu]; [intros y Hy; apply titems_some; auto|]. exists us. split; [exact Eu|].
  assert (Hn : map titems l <> []) by (destruct l; [destruct Hx|discriminate]). pose proof (tbranch_cases o (map titems l) Hn) as Hc. rewrite Eu in Hc. apply Hc. exists ts. split; [rewrite <- E; apply in_map; exact Hx|exact Hp].
Qed.

Section Listed.
Variable peq : pv -> pv -> bool.
Variable escape_str : str -> str.
Variable other : nat -> list pv -> option pv.
Notation denote := (denote peq escape_str other).
Notation rcall := (rcall peq escape_str other).

Lemma lex_denote_tree e : forall o r, lex_only o -> denote e o = Some r -> exists l x ts, r = RAtom (ALex l x) /\ titems o = Some ts /\ exists y, walk ts [VObj (OAtom (ALex l y))].
Proof.
  refine (obj_ind' _ _ _ _ _ _ _ _ _ _ _); try (intros; contradiction).
  - intros a r H [= <-]. destruct a as [| | | | |l x| | | |]; try contradiction. exists l, x. eexists. split; [reflexivity|]. split; [reflexivity|]. exists x. apply walk_entry. reflexivity.
  - intros p l _ Hl r H. cbn [lex_only] in H. apply fold_and in H. rewrite denote_select. unfold dselect_. destruct (denote e p) as [rp|]; [|discriminate]. destruct (rint rp) as [i|]; [|discriminate]. rewrite py_get_map. destruct (py_get l i) as [x|] eqn:Eg; [|discriminate]. cbn [option_map]. intros E.
    apply py_get_in in Eg. rewrite Forall_forall in Hl, H. destruct (Hl x Eg r (H x Eg) E) as (n & y & vs & -> & Ev & z & Hz).
    assert (Hok : Forall tree_ok l) by (apply Forall_forall; intros o Ho; apply lex_tree_ok; auto). destruct (tbranch_in (OSelect p l) l x vs _ Hok Eg Ev Hz) as (ws & Ew & Hw). exists n, y, ws. split; [reflexivity|]. split; [exact Ew|]. exists z. exact Hw.
Qed.
Definition tlisted (o : obj) (out : list atom) : Prop := exists ts p, titems o = Some ts /\ walk ts p /\ Forall2 listed out (spoken p).
Lemma tlisted_in o l x out : Forall tree_ok l -> In x l -> tlisted x out -> exists us p, tbranch o (map titems l) = Some us /\ walk us p /\ Forall2 listed out (spoken p).
Proof. intros Hl Hx (ts & p & E & Hp & F). destruct (tbranch_in o l x ts p Hl Hx E Hp) as (us & Eu & Hu). exists us, p. auto. Qed.

Lemma tree_listed : forall o e r out, tree_ok o -> denote e o = Some r -> outcome r out -> tlisted o out.
Proof.
  refine (obj_ind' _ _ _ _ _ _ _ _ _ _ _); try (intros; contradiction).
  - intros a e r out _ [= <-] H. inversion H; subst. exists [TEntry (VObj (OAtom a))], [VObj (OAtom a)]. split; [reflexivity|]. split; [apply walk_entry; reflexivity|]. constructor; [left; reflexivity|constructor].
  - intros l Hl e r out Hok. cbn [RuleItemSpec.denote tree_ok] in *. apply fold_and in Hok. destruct (omap (denote e) l) as [rs|] eqn:E; [|discriminate]. intros [= <-] H. apply outcome_inv_tup in H.
    enough (exists ts p, fold_right oapp (Some []) (map titems l) = Some ts /\ walk ts p /\ Forall2 listed out (spoken p)) by assumption.
    revert rs out E H. induction Hl as [|o l Ho _ IH]; intros rs out E H.
    + injection E as <-. inversion H; subst. exists [], []. split; [reflexivity|]. split; constructor.
    + rewrite omap_cons in E. destruct (denote e o) as [ro|] eqn:Eo; [|discriminate]. destruct (omap (denote e) l) as [rs'|]; [|discriminate]. injection E as <-. inversion H as [|? ? o1 o2 H1 H2]; subst. inversion Hok as [|? ? Hok1 Hok2]; subst.
      destruct (Ho e ro o1 Hok1 Eo H1) as (ts & p & Et & Hp & F). destruct (IH Hok2 rs' o2 eq_refl H2) as (ts' & p' & Et' & Hp' & F'). exists (ts ++ ts'), (p ++ p'). cbn [map fold_right]. rewrite Et, Et'. split; [reflexivity|]. split; [apply walk_app; eauto|]. unfold spoken. rewrite filter_app. apply Forall2_app; assumption.
  - intros p l _ Hl e r out Hok. cbn [tree_ok] in Hok. apply fold_and in Hok. rewrite denote_select. unfold dselect_. destruct (denote e p) as [rp|]; [|discriminate]. destruct (rint rp) as [i|]; [|discriminate]. rewrite py_get_map. destruct (py_get l i) as [x|] eqn:Eg; [|discriminate]. cbn [option_map]. intros E H.
    apply py_get_in in Eg. pose proof Hok as Hok0. rewrite Forall_forall in Hl, Hok. apply (tlisted_in (OSelect p l) l x out Hok0 Eg). eapply Hl; eauto.
  - intros value l _ _ e r out Hok. cbn [tree_ok] in Hok. destruct Hok as [Hl Hv]. apply fold_and in Hl. assert (Hok : Forall tree_ok l) by (rewrite Forall_forall in *; intros o Ho; apply lex_tree_ok; auto).
    assert (Hsome : forall x, In x l -> exists ts, titems x = Some ts) by (rewrite Forall_forall in Hok; intros x Hx; apply titems_some; auto).
    rewrite denote_target. intros E H.
    assert (Hlex : forall i qa x, py_get l i = Some x -> match denote e x with Some lexicon => match qa with RAtom ANone => Some lexicon | _ => rcall lexicon [qa] end | None => None end = Some r ->
      In x l /\ exists n y z vs, r = RAtom (ALex n y) /\ titems x = Some vs /\ walk vs [VObj (OAtom (ALex n z))]).
    { intros i qa x Eg Er. apply py_get_in in Eg. split; [exact Eg|]. rewrite Forall_forall in Hl. destruct (denote e x) as [rx|] eqn:Ex; [|discriminate]. destruct (lex_denote_tree e x rx (Hl x Eg) Ex) as (n & y & vs & -> & Evs & z & Hz).
      rewrite arg_cases in Er. destruct (arg_none_dec qa); [injection Er as <-; exists n, y, z, vs; auto|]. apply lex_call in Er. destruct Er as [y' ->]. exists n, y', z, vs. auto. }
    assert (Hpair : forall ri ra, denote e value = Some (RTup [ri; ra]) -> exists i x, rint ri = Some i /\ py_get l i = Some x /\ In x l /\ exists n y z vs, r = RAtom (ALex n y) /\ titems x = Some vs /\ walk vs [VObj (OAtom (ALex n z))]).
    { intros ri ra Ev. rewrite Ev in E. change (dtarget _ _ _ (Some (RTup [ri; ra])) ?l) with (dpick peq escape_str other ri ra l) in E. unfold dpick in E. destruct (rint ri) as [i|]; [|discriminate]. rewrite py_get_map in E. destruct (py_get l i) as [x|] eqn:Eg; [|discriminate]. cbn [option_map] in E.
      exists i, x. split; [first [reflexivity|assumption]|]. split; [exact Eg|]. eapply Hlex; [exact Eg|]. destruct (denote e x); [exact E|discriminate]. }
    assert (Hcase : (exists ri ra, denote e value = Some (RTup [ri; ra])) \/ (denote e value = Some r /\ exists z, rint r = Some z)).
    { destruct (denote e value) as [rv0|]; [|discriminate]. unfold dtarget in E. destruct rv0 as [a|rs|r0|r0| |fs]; cbn [rint] in E; try discriminate.
      - right. destruct (as_int a) as [z|] eqn:Ez; [|discriminate]. injection E as <-. split; [reflexivity|]. exists z. exact Ez.
      - destruct rs as [|ri [|ra [|? ?]]]; try discriminate. left. eauto. }
    assert (Hgen : exists vs v, tbranch (OTarget value l) (Some [TEntry ANumber] :: map titems l) = Some vs /\ walk vs v /\ Forall2 listed out (spoken v)).
    { destruct (tnum_some (OTarget value l) l Hsome) as (us & Eu & Hu). rewrite Eu. exists us. destruct Hcase as [(ri & ra & Ev)|(Ev & z & Ez)].
      - destruct (Hpair ri ra Ev) as (i & x & _ & _ & Hx & n & y & zz & vs & -> & Evs & Hin). inversion H; subst. exists [VObj (OAtom (ALex n zz))]. split; [reflexivity|]. split; [apply Hu; right; eauto|]. constructor; [right; eauto|constructor].
      - destruct r as [a| | | | |]; try discriminate. inversion H; subst. exists [ANumber]. split; [reflexivity|]. split; [apply Hu; left; reflexivity|]. constructor; [exists z; exact Ez|constructor]. }
    unfold tlisted. cbn [titems]. destruct value as [a|vl| | | | | | | |]; try exact Hgen.
    + cbn [RuleItemSpec.denote] in *. destruct Hcase as [(ri & ra & Ev)|([= <-] & z & Ez)]; [discriminate|]. cbn [rint] in Ez. rewrite Ez. inversion H; subst. exists [TTup [TEntry (VObj (OAtom a))]], [VObj (OAtom a)]. split; [reflexivity|]. split; [apply walk_tup, walk_entry; reflexivity|]. constructor; [left; reflexivity|constructor].
    + destruct vl as [|[a| | | | | | | | |] [|arg [|? ?]]]; try contradiction. destruct Hv as (i & x & Ei & Eg). rewrite Ei, py_get_map, Eg. cbn [option_map].
      destruct Hcase as [(ri & ra & Ev)|(Ev & z & Ez)].
      * destruct (Hpair ri ra Ev) as (i' & x' & Ei' & Eg' & Hx & n & y & zz & vs & -> & Evs & Hin). cbn [RuleItemSpec.denote omap] in Ev. destruct (denote e arg); [|discriminate]. injection Ev as <- <-. cbn [rint] in Ei'. rewrite Ei in Ei'. injection Ei' as <-. rewrite Eg in Eg'. injection Eg' as <-.
        inversion H; subst. rewrite Evs. exists [TTup vs], [VObj (OAtom (ALex n zz))]. split; [reflexivity|]. split; [apply walk_tup; exact Hin|]. constructor; [right; eauto|constructor].
      * cbn [RuleItemSpec.denote omap] in Ev. destruct (denote e arg); [|discriminate]. injection Ev as <-. discriminate.
  - intros v _ e r out Hok. unfold tlisted. cbn [RuleItemSpec.denote tree_ok titems] in *. destruct (denote e v) as [rv0|] eqn:Ev; [|discriminate]. intros [= <-] H. inversion H as [| |a Ha| | |]; subst.
    assert (Hgen : exists vs w, tbranch (OPattern v) [Some [TEntry (VObj (OAtom ANone))]; Some [TEntry AString]] = Some vs /\ walk vs w /\ Forall2 listed [a] (spoken w)).
    { eexists. destruct Ha as [->|[s ->]]; [exists [VObj (OAtom ANone)]|exists [AString]]; (split; [reflexivity|]); (split; [apply (walk_set [[TEntry (VObj (OAtom ANone))]; [TEntry AString]]); eexists; (split; [|apply walk_entry; reflexivity]); cbn; auto|]); constructor; [left; reflexivity|constructor|exists s; reflexivity|constructor]. }
    destruct v; try contradiction; try exact Hgen. cbn [is_item titems]. injection Ev as ->. exists [TTup [TEntry (VObj (OAtom a))]], [VObj (OAtom a)]. split; [reflexivity|]. split; [apply walk_tup, walk_entry; reflexivity|]. constructor; [left; reflexivity|constructor].
  - intros l Hl e r out Hok. cbn [tree_ok] in Hok. apply fold_and in Hok. cbn [RuleItemSpec.denote]. intros [= <-] H. inversion H as [| | | | |fs f text m rf o Hf Ef Hout]; subst. apply in_map_iff in Hf. destruct Hf as (x & <- & Hx).
    pose proof Hok as Hok0. rewrite Forall_forall in Hl, Hok. apply (tlisted_in (OSub l) l x out Hok0 Hx). eapply Hl; eauto.
  - intros v Hv e r out Hok. cbn [RuleItemSpec.denote tree_ok] in *. destruct (denote e v) as [rv0|] eqn:Ev; [|discriminate]. intros [= <-] H. inversion H; subst. destruct (Hv e rv0 out Hok Ev ltac:(assumption)) as (ts & p & Et & Hp & F). unfold tlisted. cbn [titems]. rewrite Et. exists [TTup ts], p. split; [reflexivity|]. split; [apply walk_tup; exact Hp|exact F].
  - intros e r out _ [= <-] H. inversion H; subst. exists [TEntry (VObj OSkip)], [VObj OSkip]. split; [reflexivity|]. split; [apply walk_entry; reflexivity|constructor].
Qed.
End Listed.
