(** Proofs about text formats. *)
From Coq Require Import ZArith ZifyBool.
From Verif Require Import Base CssModel CssProofs CssReadModel CssColorModel TextFormatModel TextFormatSpec.
Import Strings.String.StringSyntax.

Lemma prop_beq_iff : forall p q, prop_beq p q = true <-> p = q.
Proof. intros p q. split; [apply internal_prop_dec_bl | apply internal_prop_dec_lb]. Qed.
Lemma prop_beq_refl : forall p, prop_beq p p = true.
Proof. intros p. apply prop_beq_iff. reflexivity. Qed.
Lemma prop_beq_neq : forall p q, p <> q -> prop_beq p q = false.
Proof. intros p q H. destruct (prop_beq p q) eqn:E; [apply prop_beq_iff in E; contradiction | reflexivity]. Qed.

Section Format.
Variable num : Type.
Variable num_dec : forall a b : num, {a = b} + {a <> b}.
Variable num_zero : num -> bool.
Variable wordchar : nat -> bool.
Notation fmt := (fmt num).
Notation attr := (attr num).
Notation set := (set num).

Lemma set_same : forall (f : fmt) p v, set f p v p = Some v.
Proof. intros f p v. unfold TextFormatModel.set. rewrite prop_beq_refl. reflexivity. Qed.
Lemma set_other : forall (f : fmt) p q v, p <> q -> set f p v q = f q.
Proof. intros f p q v H. unfold TextFormatModel.set. rewrite prop_beq_neq by exact H. reflexivity. Qed.

(** ** Subtracting *)
Lemma copy_get : forall (self : fmt) props new p,
  copy num self new props p = if existsb (prop_beq p) props then match self p with Some v => Some v | None => new p end else new p.
Proof.
  intros self props. unfold copy. induction props as [| q props IH]; intros new p; [reflexivity |].
  cbn [fold_left existsb]. rewrite IH. destruct (prop_beq p q) eqn:E.
  - apply prop_beq_iff in E. subst q. cbn [orb]. destruct (self p) as [v |] eqn:Es.
    + rewrite set_same. destruct (existsb _ _); reflexivity.
    + destruct (existsb _ _); reflexivity.
  - cbn [orb]. assert (q <> p) as N by (intros ->; rewrite prop_beq_refl in E; discriminate).
    destruct (self q); [rewrite set_other by exact N |]; reflexivity.
Qed.
Definition differs (self other : fmt) (props : list prop) : bool :=
  existsb (fun p => if fval_dec num num_dec (get num self p) (get num other p) then false else true) props.
Lemma sub_fold : forall self other gs new p,
  fold_left (fun new props => if existsb (has num self) props && differs self other props
    then copy num self new props else new) gs new p =
  if existsb (fun g => existsb (prop_beq p) g && differs self other g) gs
  then match self p with Some v => Some v | None => new p end else new p.
Proof.
  intros self other. induction gs as [| g gs IH]; intros new p; [reflexivity |]. cbn [fold_left existsb].
  rewrite IH. destruct (existsb (has num self) g && differs self other g) eqn:E.
  - apply andb_prop in E as [_ E]. rewrite E, copy_get. destruct (existsb (prop_beq p) g); cbn [andb orb];
      destruct (existsb _ gs); destruct (self p); reflexivity.
  - destruct (existsb (prop_beq p) g && differs self other g) eqn:E2; [| reflexivity].
    apply andb_prop in E2 as [E2 D]. rewrite D, Bool.andb_true_r in E. cbn [orb].
    apply existsb_exists in E2 as (q & Hq & Eq). apply prop_beq_iff in Eq. subst q.
    assert (self p = None) as ->.
    { destruct (self p) eqn:Es; [| reflexivity]. exfalso.
      assert (existsb (has num self) g = true) as C; [| congruence].
      apply existsb_exists. exists p. split; [exact Hq |]. unfold has. rewrite Es. reflexivity. }
    destruct (existsb _ gs); reflexivity.
Qed.
Lemma differs_iff : forall self other props, differs self other props = true <->
  exists q, In q props /\ get num self q <> get num other q.
Proof.
  intros self other props. unfold differs. rewrite existsb_exists. split; intros (q & Hq & H); exists q; (split; [exact Hq |]).
  - destruct (fval_dec _ _ _ _); [discriminate | assumption].
  - destruct (fval_dec _ _ _ _); [contradiction | reflexivity].
Qed.
Lemma groups_topic : forall p q, (exists g, In g groups /\ In p g /\ In q g) <-> topic p = topic q.
Proof.
  intros p q. split.
  - intros (g & Hg & Hp & Hq). unfold groups in Hg. cbn [In] in Hg.
    repeat (destruct Hg as [<- | Hg]; [cbn [In] in Hp, Hq;
      repeat (destruct Hp as [<- | Hp]; [| try contradiction]); repeat (destruct Hq as [<- | Hq]; [| try contradiction]); reflexivity |]).
    contradiction.
  - intros E. exists (match nth_error groups (topic p) with Some g => g | None => [] end).
    destruct p, q; try discriminate E; cbn; auto 30.
Qed.
Lemma sub_iff : forall (g f : fmt) p v, sub num num_dec g f p = Some v <->
  g p = Some v /\ exists q, topic q = topic p /\ get num g q <> get num f q.
Proof.
  intros g f p v. change (sub num num_dec g f p) with (fold_left (fun new props => if existsb (has num g) props && differs g f props
    then copy num g new props else new) groups (nothing num) p).
  rewrite (sub_fold g f groups (nothing num) p).
  destruct (existsb (fun gr => existsb (prop_beq p) gr && differs g f gr) groups) eqn:E.
  - apply existsb_exists in E as (gr & Hg & E). apply andb_prop in E as [Ep D].
    apply existsb_exists in Ep as (p' & Hp & Ep). apply prop_beq_iff in Ep. subst p'.
    apply differs_iff in D as (q & Hq & D). destruct (g p) as [w |].
    + split; [| intros [E _]; exact E]. intros E. split; [exact E |]. exists q. split; [| exact D].
      apply groups_topic. exists gr. auto.
    + split; [discriminate | intros [C _]; discriminate].
  - split; [discriminate |]. intros (_ & q & T & D). exfalso. apply groups_topic in T as (gr & Hg & Hq & Hp).
    assert (existsb (fun gr => existsb (prop_beq p) gr && differs g f gr) groups = true) as C; [| congruence].
    apply existsb_exists. exists gr. split; [exact Hg |]. apply andb_true_intro. split.
    + apply existsb_exists. exists p. split; [exact Hp | apply prop_beq_refl].
    + apply differs_iff. exists q. auto.
Qed.
Lemma topic_dec : forall g f p, (exists q, topic q = topic p /\ get num g q <> get num f q) \/
  (forall q, topic q = topic p -> get num g q = get num f q).
Proof.
  intros g f p.
  assert (forall l : list prop, (exists q, In q l /\ topic q = topic p /\ get num g q <> get num f q) \/
    (forall q, In q l -> topic q = topic p -> get num g q = get num f q)) as H.
  { induction l as [| q l IH]; [right; intros q [] |].
    destruct IH as [(q' & Hq & H) | IH]; [left; exists q'; split; [right |]; assumption |].
    destruct (Nat.eq_dec (topic q) (topic p)) as [T | T].
    - destruct (fval_dec num num_dec (get num g q) (get num f q)) as [E | E].
      + right. intros q' [<- | Hq]; auto.
      + left. exists q. split; [left; reflexivity | auto].
    - right. intros q' [<- | Hq] T'; [contradiction | auto]. }
  destruct (H (concat groups)) as [(q & _ & T & D) | A]; [left; eauto | right].
  intros q T. apply A; [| exact T]. destruct q; cbn; auto 30.
Qed.
Lemma overlay : forall f g : fmt, units_only num g -> looks_same num (add num f (sub num num_dec g f)) (add num f g).
Proof.
  intros f g U p. unfold TextFormatModel.attr, add.
  destruct (topic_dec g f p) as [D | A].
  - destruct (g p) as [v |] eqn:Eg.
    + assert (sub num num_dec g f p = Some v) as -> by (apply sub_iff; auto). reflexivity.
    + destruct (sub num num_dec g f p) as [w |] eqn:Es; [| reflexivity].
      apply sub_iff in Es as [Es _]. congruence.
  - destruct (sub num num_dec g f p) as [w |] eqn:Es.
    + apply sub_iff in Es as (_ & q & T & D). destruct (D (A q T)).
    + destruct (g p) as [v |] eqn:Eg; [| reflexivity].
      specialize (A p eq_refl). unfold get in A. rewrite Eg in A. destruct (f p) as [w |]; [congruence |].
      subst v. destruct (U p Eg) as [-> | ->]; reflexivity.
Qed.

(** ** Only units are set to None *)
Notation units_only := (units_only num).
Lemma units_set : forall (f : fmt) p v, units_only f ->
  (v = FNone num -> p = Font_size_unit \/ p = Font_style_angle_unit) -> units_only (set f p v).
Proof.
  intros f p v U H q E. unfold TextFormatModel.set in E. destruct (prop_beq p q) eqn:Eq; [| apply U; exact E].
  apply prop_beq_iff in Eq. subst q. apply H. congruence.
Qed.
Lemma text_some : forall v words, text_in num v words = true -> opt_text num (v_text num v) <> FNone num.
Proof. intros v words H. unfold text_in in H. destruct (v_text num v); [discriminate | discriminate]. Qed.
Ltac units := repeat first
  [ assumption
  | apply units_set; [| intros C; exfalso; discriminate C]
  | apply units_set; [| intros C; exfalso; eapply text_some in C; [exact C | eassumption]]
  | apply units_set; [| intros _; left; reflexivity]
  | apply units_set; [| intros _; right; reflexivity] ].
Lemma units_color : forall vs p f f', units_only f -> read_color_as num p f vs = Some f' -> units_only f'.
Proof.
  induction vs as [| [v | s] vs IH]; intros p f f' U E; cbn [read_color_as] in E; [injection E as <-; exact U | | discriminate].
  destruct (v_color num v); [injection E as <-; units | eapply IH; eassumption].
Qed.
Lemma units_keyword : forall vs p w f f', units_only f -> read_keyword num p w f vs = Some f' -> units_only f'.
Proof.
  induction vs as [| [v | s] vs IH]; intros p w f f' U E; cbn [read_keyword] in E; [injection E as <-; exact U | | discriminate].
  destruct (text_in num v w) eqn:T; [| eapply IH; eassumption]. injection E as <-.
  apply units_set; [exact U |]. intros C. destruct (text_some _ _ T C).
Qed.
Lemma units_line : forall vs f f', units_only f -> read_line num f vs = Some f' -> units_only f'.
Proof. intros vs f f' U E. unfold read_line in E. destruct (lines_of num [] vs); [| discriminate]. injection E as <-. units. Qed.
Lemma units_family : forall vs f f', units_only f -> read_family num f vs = Some f' -> units_only f'.
Proof. intros vs f f' U E. unfold read_family in E. destruct (families_of num vs); [| discriminate]. injection E as <-. units. Qed.
Lemma units_size : forall vs f f', units_only f -> read_size num f vs = Some f' -> units_only f'.
Proof.
  induction vs as [| [v | s] vs IH]; intros f f' U E; cbn [read_size] in E; [injection E as <-; exact U | | discriminate].
  destruct (text_in num v size_words) eqn:T.
  - injection E as <-. apply units_set; [exact U |]. intros C. destruct (text_some _ _ T C).
  - destruct (v_number num v); [injection E as <-; units | eapply IH; eassumption].
Qed.
Lemma units_stretch : forall vs f f', units_only f -> read_stretch num f vs = Some f' -> units_only f'.
Proof.
  induction vs as [| [v | s] vs IH]; intros f f' U E; cbn [read_stretch] in E; [injection E as <-; exact U | | discriminate].
  eapply IH; [| exact E]. destruct (text_in num v stretch_words) eqn:T.
  - apply units_set; [exact U |]. intros C. destruct (text_some _ _ T C).
  - destruct (v_number num v); [destruct (is_percent _) |]; units.
Qed.
Lemma units_style_loop : forall vs f f', units_only f -> read_style_loop num f vs = Some f' -> units_only f'.
Proof.
  induction vs as [| [v | s] vs IH]; intros f f' U E; [injection E as <-; exact U | | discriminate].
  cbn [read_style_loop] in E. destruct (text_in num v [k "normal"; k "italic"]) eqn:T.
  - injection E as <-. apply units_set; [exact U |]. intros C. destruct (text_some _ _ T C).
  - destruct (text_in num v [k "oblique"]) eqn:T'; [| eapply IH; eassumption]. cbv zeta in E.
    assert (units_only (set f Font_style (opt_text num (v_text num v)))) as U'.
    { apply units_set; [exact U |]. intros C. destruct (text_some _ _ T' C). }
    destruct vs as [| [n | s] vs]; [injection E as <-; exact U' | |].
    + destruct (v_number num n); [injection E as <-; units | eapply IH; eassumption].
    + destruct s; [eapply IH; eassumption | discriminate].
Qed.
Lemma units_style : forall vs f f', units_only f -> read_style num f vs = Some f' -> units_only f'.
Proof. intros [| v vs] f f' U E; [discriminate |]. eapply units_style_loop; eassumption. Qed.
Lemma units_weight : forall vs f f', units_only f -> read_weight num f vs = Some f' -> units_only f'.
Proof.
  induction vs as [| [v | s] vs IH]; intros f f' U E; cbn [read_weight] in E; [injection E as <-; exact U | | discriminate].
  destruct (text_in num v weight_words) eqn:T.
  - injection E as <-. apply units_set; [exact U |]. intros C. destruct (text_some _ _ T C).
  - destruct (v_number num v); [injection E as <-; units | eapply IH; eassumption].
Qed.
Lemma units_font_loop : forall vs f nums r, units_only f -> read_font_loop num f nums vs = Some r ->
  match r with inl f' => units_only f' | inr (f', _) => units_only f' end.
Proof.
  induction vs as [| [v | s] vs IH]; intros f nums r U E; cbn [read_font_loop] in E; [injection E as <-; exact U | | discriminate].
  destruct (text_in num v system_words) eqn:T1; [injection E as <-; units |].
  destruct (text_in num v [k "normal"; k "small-caps"]) eqn:T2.
  { eapply IH; [| exact E]. apply units_set; [exact U |]. intros C. destruct (text_some _ _ T2 C). }
  destruct (text_in num v stretch_words) eqn:T3.
  { eapply IH; [| exact E]. apply units_set; [exact U |]. intros C. destruct (text_some _ _ T3 C). }
  destruct (text_in num v [k "bold"; k "lighter"; k "bolder"]) eqn:T4.
  { eapply IH; [| exact E]. apply units_set; [exact U |]. intros C. destruct (text_some _ _ T4 C). }
  destruct (v_number num v); eapply IH; eassumption.
Qed.
Lemma units_font : forall vs f f', units_only f -> read_font num f vs = Some f' -> units_only f'.
Proof.
  intros vs f f' U E. unfold read_font in E. destruct (read_style num f vs) as [f1 |] eqn:E1; [| discriminate].
  cbn [obind] in E. apply (units_style _ _ _ U) in E1.
  destruct (read_font_loop num f1 [] vs) as [r |] eqn:E2; [| discriminate]. cbn [obind] in E.
  apply (units_font_loop _ _ _ _ E1) in E2. destruct r as [f2 | [f2 nums]]; [injection E as <-; exact E2 |].
  destruct (read_family num f2 vs) as [f3 |] eqn:E3; [| discriminate]. cbn [option_map] in E.
  apply (units_family _ _ _ E2) in E3. injection E as <-.
  destruct nums as [| [n u] [| [n' u'] nums]]; units.
  destruct (attr f3 Font_weight); units.
Qed.
Lemma units_read : forall props f f', units_only f -> read_from num f props = Some f' -> units_only f'.
Proof.
  induction props as [| [p vs] props IH]; intros f f' U E; cbn [read_from] in E; [injection E as <-; exact U |].
  destruct (dispatch num f p vs) as [f1 |] eqn:E1; [| discriminate]. cbn [obind] in E. eapply IH; [| exact E].
  clear -U E1. unfold dispatch in E1.
  repeat match type of E1 with (if ?b then _ else _) = _ => destruct b end;
    eauto using units_color, units_keyword, units_line, units_family, units_size, units_stretch, units_style, units_weight, units_font.
  - unfold read_text_decoration in E1. destruct (read_color_as _ _ _ _) as [f2 |] eqn:E2; [| discriminate].
    cbn [obind] in E1. destruct (read_line _ _ _) as [f3 |] eqn:E3; [| discriminate]. cbn [obind] in E1.
    eauto using units_color, units_keyword, units_line.
  - injection E1 as <-. exact U.
Qed.
Lemma units_add : forall f g : fmt, units_only f -> units_only g -> units_only (add num f g).
Proof. intros f g Uf Ug p E. unfold add in E. destruct (g p) eqn:Eg; [apply Ug; congruence | apply Uf; exact E]. Qed.
Lemma units_sub : forall f g : fmt, units_only f -> units_only (sub num num_dec f g).
Proof. intros f g U p E. apply sub_iff in E as [E _]. apply U. exact E. Qed.
Lemma units_nothing : units_only (nothing num).
Proof. intros p E. discriminate. Qed.
End Format.
