(** Proofs about style sheets and their files. *)
From Verif Require Import Base CssModel CssSpec CssProofs CssSheetModel CssSheetSpec.

Section Sheets.
Variable R : Type.

(** ** Filtering *)
Lemma behind_total : forall es : list (sentry R), exists l, behind es l.
Proof.
  assert (forall e : sentry R, forall es l, behind es l -> exists l', behind (e :: es) (l' ++ l)) as One.
  { fix IH 1. intros e es l H. destruct e as [r | k | k c f im ins].
    - exists [([], r)]. constructor. exact H.
    - exists []. constructor. exact H.
    - assert (exists l1, behind ins l1) as [l1 H1].
      { clear - IH. induction ins as [| e ins [l1 H1]]; [exists []; constructor |].
        destruct (IH e ins l1 H1) as [l' H']. eexists. exact H'. }
      eexists. constructor; eassumption. }
  induction es as [| e es [l H]]; [exists []; constructor |]. destruct (One e es l H) as [l' H']. eexists. exact H'.
Qed.
Definition keeps (keyword : str) (pred : list cval -> bool) (k : str) (c : list cval) : bool :=
  if str_eqb k keyword then pred c else true.
Lemma filter_map_const : forall A B (f : B -> bool) (g : A -> B) b l, (forall x, f (g x) = b) ->
  filter f (map g l) = if b then map g l else [].
Proof.
  intros A B f g b l H. induction l as [| x l IH]; cbn [map filter]; [destruct b; reflexivity |].
  rewrite H, IH. destruct b; reflexivity.
Qed.
Lemma behind_filter : forall keyword pred (s : sheet R) l, behind (sh_rules s) l ->
  behind (sh_rules (sheet_filter R keyword pred s))
    (filter (fun x => match fst x with [] => true | (k, c) :: _ => keeps keyword pred k c end) l).
Proof.
  intros keyword pred [f im es] l. cbn [sh_rules sheet_filter]. intros H.
  induction H as [| r es l H IH | k es l H IH | k c f' im' ins es l1 l2 H1 IH1 H2 IH2]; cbn [filter fst].
  - constructor.
  - constructor. exact IH.
  - constructor. exact IH.
  - rewrite filter_app, (filter_map_const _ _ _ _ (keeps keyword pred k c)) by reflexivity.
    change (if str_eqb k keyword then pred c else true) with (keeps keyword pred k c).
    destruct (keeps keyword pred k c); [constructor; assumption | exact IH2].
Qed.

(** ** File names *)
Lemma filenames_iff : forall (s : sheet R) g, In g (filenames R s) <-> depends s g.
Proof.
  assert (forall (e : sentry R) g, In g (names_of_entry R e) <->
            exists c f im rules, e = SCond kw_import c f im rules /\ depends (mksheet f im rules) g) as One.
  { fix IH 1. intros e g. destruct e as [r | k | k c f im ins].
    - split; [intros [] | intros (c & f & im & rules & E & _); discriminate].
    - split; [intros [] | intros (c & f & im & rules & E & _); discriminate].
    - cbn [names_of_entry]. destruct (str_eqb k kw_import) eqn:Ek.
      2: { split; [intros [] |]. intros (c' & f' & im' & rules & E & _). injection E as -> _ _ _ _.
           rewrite str_eqb_refl in Ek. discriminate. }
      apply str_eqb_eq in Ek. subst k.
      assert (In g (flat_map (names_of_entry R) ins) <->
              exists e, In e ins /\ exists c f im rules, e = SCond kw_import c f im rules /\ depends (mksheet f im rules) g) as Hins.
      { clear - IH. induction ins as [| e ins IHins]; cbn [flat_map].
        - split; [intros [] | intros (e & [] & _)].
        - rewrite in_app_iff, (IH e g), IHins. split.
          + intros [H | (e' & He & H)]; [exists e; split; [left; reflexivity | exact H] | exists e'; split; [right; exact He | exact H]].
          + intros (e' & [<- | He] & H); [left; exact H | right; exists e'; auto]. }
      rewrite !in_app_iff, Hins. split.
      + intros H. exists c, f, im, ins. split; [reflexivity |].
        destruct H as [H | [H | (e & He & c' & f' & im' & rules' & -> & H)]].
        * destruct f as [| x f]; [destruct H |]. destruct H as [<- | []].
          apply (d_own R (mksheet (x :: f) im ins)). discriminate.
        * apply (d_imported R (mksheet f im ins)). exact H.
        * eapply (d_cond R (mksheet f im ins)); [exact He | exact H].
      + intros (c' & f' & im' & rules & E & H). injection E as <- <- <- <-.
        inversion H as [s N E1 E2 | s x I E1 E2 | s c2 f2 im2 rules2 x I H2 E1 E2]; subst; cbn [sh_filename sh_imported sh_rules] in *.
        * left. destruct f; [congruence | left; reflexivity].
        * right. left. exact I.
        * right. right. eexists. split; [exact I |]. exists c2, f2, im2, rules2. auto. }
  intros s g. unfold filenames. rewrite !in_app_iff, in_flat_map. split.
  - intros [H | [H | (e & He & H)]].
    + destruct s as [f im rules]. cbn [sh_filename] in H. destruct f as [| x f]; [destruct H |]. destruct H as [<- | []].
      apply (d_own R (mksheet (x :: f) im rules)). discriminate.
    + apply d_imported. exact H.
    + apply One in H as (c & f & im & rules & -> & H). eapply d_cond; eassumption.
  - intros H. inversion H as [s' N E1 E2 | s' x I E1 E2 | s' c2 f2 im2 rules2 x I H2 E1 E2]; subst.
    + left. destruct (sh_filename s); [congruence | left; reflexivity].
    + right. left. exact I.
    + right. right. eexists. split; [exact I |]. apply One. exists c2, f2, im2, rules2. auto.
Qed.

(** ** Imports *)
Section Files.
Variable join : str -> str -> str.
Variable load : str -> option (list (parsed R)).
Notation reads := (reads join load).
Notation from_css := (from_css R join load).
Notation get_sheet_rules := (get_sheet_rules R join load).

Lemma import_target_some : forall c name rest,
  import_target c = Done (Some (name, rest)) <-> names_file c name rest.
Proof.
  intros c name rest. split.
  - induction c as [| v c IH]; intros H; [discriminate |].
    assert (forall w, nameless_value w -> import_target (w :: c) = import_target c -> w = v -> names_file (v :: c) name rest) as Skip.
    { intros w Hw E <-. rewrite E in H. destruct (IH H) as (skip & x & -> & F & N & Hx). exists (w :: skip), x.
      split; [reflexivity |]. split; [constructor; assumption | auto]. }
    destruct v as [[| a t] | [| a u] | | s]; cbn [import_target] in H.
    + apply (Skip (CText [])); [left; reflexivity | reflexivity | reflexivity].
    + injection H as <- <-. exists [], (CText (a :: t)). repeat split; auto. discriminate.
    + apply (Skip (CUrl [])); [right; left; reflexivity | reflexivity | reflexivity].
    + injection H as <- <-. exists [], (CUrl (a :: u)). repeat split; auto. discriminate.
    + apply (Skip CNone); [right; right; reflexivity | reflexivity | reflexivity].
    + discriminate.
  - intros (skip & v & -> & F & N & Hv). induction F as [| w skip Hw F IH]; cbn [app].
    + destruct name as [| a name]; [congruence |]. destruct Hv as [-> | ->]; reflexivity.
    + destruct Hw as [-> | [-> | ->]]; exact IH.
Qed.
Lemma import_target_none : forall c, import_target c = Done None <-> Forall nameless_value c.
Proof.
  intros c. split.
  - induction c as [| v c IH]; intros H; [constructor |].
    destruct v as [[| a t] | [| a u] | | s]; cbn [import_target] in H; try discriminate; constructor; auto;
      unfold nameless_value; auto.
  - intros F. induction F as [| w c Hw F IH]; [reflexivity |]. destruct Hw as [-> | [-> | ->]]; exact IH.
Qed.

(** More fuel does not change a result. *)
Definition le_rec (r1 r2 : str -> bool -> list (parsed R) -> res (sheet R)) :=
  forall f a c s, r1 f a c = Done s -> r2 f a c = Done s.
Lemma get_mono : forall r1 r2 fn allow, le_rec r1 r2 -> forall css names l,
  get_sheet_rules r1 fn allow css names = Done l -> get_sheet_rules r2 fn allow css names = Done l.
Proof.
  intros r1 r2 fn allow H css. induction css as [| x css IH]; intros names l E; [exact E |].
  assert (forall e names l, then_cons R e (get_sheet_rules r1 fn allow css names) = Done l ->
            then_cons R e (get_sheet_rules r2 fn allow css names) = Done l) as Hc.
  { intros e n l' E'. destruct (get_sheet_rules r1 fn allow css n) as [y | |] eqn:G; [| discriminate | discriminate].
    rewrite (IH _ _ G). exact E'. }
  destruct x as [r | k c b]; cbn [CssSheetModel.get_sheet_rules] in *; [apply Hc; exact E |].
  destruct (str_eqb k kw_import).
  - destruct allow; [| apply IH; exact E].
    destruct (import_target c) as [[[name rest] |] | |]; [| apply IH; exact E | discriminate | discriminate].
    destruct (smem (join fn name) names); [apply IH; exact E |].
    destruct (load (join fn name)) as [icss |]; [| discriminate]. destruct rest as [| v rest]; [discriminate |].
    destruct (r1 (join fn name) true icss) as [s | |] eqn:G; [| discriminate | discriminate].
    rewrite (H _ _ _ _ G). apply Hc. exact E.
  - destruct b as [b |]; [| apply Hc; exact E].
    destruct (r1 [] true b) as [s | |] eqn:G; [| discriminate | discriminate].
    rewrite (H _ _ _ _ G). apply Hc. exact E.
Qed.
Lemma fuel_mono : forall n m, n <= m -> le_rec (from_css n) (from_css m).
Proof.
  induction n as [| n IH]; intros m L f a c s E; [discriminate |].
  destruct m as [| m]; [lia |]. cbn [CssSheetModel.from_css] in *.
  destruct (get_sheet_rules (from_css n) f a c [f]) as [l | |] eqn:G; [| discriminate | discriminate].
  rewrite (get_mono (from_css n) (from_css m) f a (IH m ltac:(lia)) c [f] l G). exact E.
Qed.

(** What is read is what should be. *)
Lemma get_reads : forall rec fn,
  (forall f c s, rec f true c = Done s -> sh_filename s = f /\ sh_imported s = [] /\ reads f [f] c (sh_rules s)) ->
  forall css names l, get_sheet_rules rec fn true css names = Done l -> reads fn names css l.
Proof.
  intros rec fn H css. induction css as [| x css IH]; intros names l E.
  - cbn in E. injection E as <-. constructor.
  - assert (forall e names l, then_cons R e (get_sheet_rules rec fn true css names) = Done l ->
              exists l', l = e :: l' /\ reads fn names css l') as Hc.
    { intros e n l' E'. destruct (get_sheet_rules rec fn true css n) as [y | |] eqn:G; [| discriminate | discriminate].
      cbn [then_cons] in E'. injection E' as <-. exists y. auto. }
    destruct x as [r | k c b]; cbn [CssSheetModel.get_sheet_rules] in E.
    + apply Hc in E as (l' & -> & E). constructor. exact E.
    + destruct (str_eqb k kw_import) eqn:Ek.
      * apply str_eqb_eq in Ek. subst k.
        destruct (import_target c) as [[[name rest] |] | |] eqn:Et; [| | discriminate | discriminate].
        { apply import_target_some in Et. destruct (smem (join fn name) names) eqn:Es.
          - apply smem_In in Es. eapply r_again; [exact Et | exact Es | apply IH; exact E].
          - assert (~ In (join fn name) names) as Ns by (intros C; apply smem_In in C; congruence).
            destruct (load (join fn name)) as [icss |] eqn:El; [| discriminate].
            destruct rest as [| v rest]; [discriminate |].
            destruct (rec (join fn name) true icss) as [s | |] eqn:G; [| discriminate | discriminate].
            apply H in G as (Ef & Ei & G). apply Hc in E as (l' & -> & E). rewrite Ef, Ei.
            eapply r_import; try eassumption. discriminate. }
        { apply import_target_none in Et. apply r_no_name; [exact Et | apply IH; exact E]. }
      * apply str_eqb_neq in Ek. destruct b as [b |].
        { destruct (rec [] true b) as [s | |] eqn:G; [| discriminate | discriminate].
          apply H in G as (Ef & Ei & G). apply Hc in E as (l' & -> & E). rewrite Ef, Ei. constructor; assumption. }
        { apply Hc in E as (l' & -> & E). constructor; assumption. }
Qed.
Lemma from_css_reads : forall n f c s, from_css n f true c = Done s ->
  sh_filename s = f /\ sh_imported s = [] /\ reads f [f] c (sh_rules s).
Proof.
  induction n as [| n IH]; intros f c s E; [discriminate |]. cbn [CssSheetModel.from_css] in E.
  destruct (get_sheet_rules (from_css n) f true c [f]) as [l | |] eqn:G; [| discriminate | discriminate].
  injection E as <-. cbn [sh_filename sh_imported sh_rules]. split; [reflexivity |]. split; [reflexivity |].
  apply (get_reads (from_css n) f IH c [f] l G).
Qed.
Lemma get_from : forall n f c l, get_sheet_rules (from_css n) f true c [f] = Done l ->
  from_css (S n) f true c = Done (mksheet f [] l).
Proof. intros n f c l E. cbn [CssSheetModel.from_css]. rewrite E. reflexivity. Qed.
Lemma reads_get : forall fn names css l, reads fn names css l ->
  exists n, get_sheet_rules (from_css n) fn true css names = Done l.
Proof.
  assert (forall n e fn css names l, get_sheet_rules (from_css n) fn true css names = Done l ->
            then_cons R e (get_sheet_rules (from_css n) fn true css names) = Done (e :: l)) as Hc.
  { intros n e fn css names l ->. reflexivity. }
  intros fn names css l H.
  induction H as [fn seen | fn seen r css l H IH | fn seen k c css l Nk H IH
                 | fn seen k c b css l lb Nk Hb IHb H IH
                 | fn seen c block css l name rest icss li Hn Hr Hs Hl Hi IHi H IH
                 | fn seen c block css l name rest Hn Hs H IH
                 | fn seen c block css l Hn H IH].
  - exists 0. reflexivity.
  - destruct IH as [n E]. exists n. apply Hc. exact E.
  - destruct IH as [n E]. exists n. cbn [CssSheetModel.get_sheet_rules]. apply str_eqb_neq in Nk. rewrite Nk.
    apply Hc. exact E.
  - destruct IHb as [nb Eb], IH as [n E]. exists (S nb + n). cbn [CssSheetModel.get_sheet_rules].
    apply str_eqb_neq in Nk. rewrite Nk.
    assert (from_css (S nb + n) [] true b = Done (mksheet [] [] lb)) as ->.
    { apply (fuel_mono (S nb) (S nb + n)); [lia |]. apply get_from. exact Eb. }
    cbn [sh_filename sh_imported sh_rules]. apply Hc.
    apply (get_mono (from_css n)); [apply fuel_mono; lia | exact E].
  - destruct IHi as [ni Ei], IH as [n E]. exists (S ni + n). cbn [CssSheetModel.get_sheet_rules].
    rewrite str_eqb_refl. apply import_target_some in Hn. rewrite Hn.
    assert (smem (join fn name) seen = false) as ->.
    { destruct (smem (join fn name) seen) eqn:C; [apply smem_In in C; contradiction | reflexivity]. }
    rewrite Hl. destruct rest as [| v rest]; [congruence |].
    assert (from_css (S ni + n) (join fn name) true icss = Done (mksheet (join fn name) [] li)) as ->.
    { apply (fuel_mono (S ni) (S ni + n)); [lia |]. apply get_from. exact Ei. }
    cbn [sh_filename sh_imported sh_rules]. apply Hc.
    apply (get_mono (from_css n)); [apply fuel_mono; lia | exact E].
  - destruct IH as [n E]. exists n. cbn [CssSheetModel.get_sheet_rules]. rewrite str_eqb_refl.
    apply import_target_some in Hn. rewrite Hn. apply smem_In in Hs. rewrite Hs. exact E.
  - destruct IH as [n E]. exists n. cbn [CssSheetModel.get_sheet_rules]. rewrite str_eqb_refl.
    apply import_target_none in Hn. rewrite Hn. exact E.
Qed.
Lemma from_css_iff : forall f c l,
  (exists n, from_css n f true c = Done (mksheet f [] l)) <-> reads f [f] c l.
Proof.
  intros f c l. split.
  - intros [n E]. apply from_css_reads in E as (_ & _ & E). exact E.
  - intros H. apply reads_get in H as [n E]. exists (S n). cbn [CssSheetModel.from_css]. rewrite E. reflexivity.
Qed.
End Files.
End Sheets.
