(** What reading css properties gives. *)
From Coq Require Import ZArith ZifyBool.
From Verif Require Import Base CssModel CssProofs CssReadModel CssColorModel TextFormatModel TextFormatSpec TextFormatProofs.
Import Strings.String.StringSyntax.

Section Format.
Variable num : Type.
Notation fmt := (fmt num).
Notation attr := (attr num).
Notation set := (set num).
Notation V := (V num).

Lemma read_color_first : forall p f l,
  (forall a v b c, l = a ++ v :: b -> (forall x, In x a -> v_color num x = None) -> v_color num v = Some c ->
    read_color_as num p f (map V l) = Some (set f p (FColor num c))) /\
  ((forall x, In x l -> v_color num x = None) -> read_color_as num p f (map V l) = Some f).
Proof.
  intros p f l. split.
  - intros a v b c -> H E. induction a as [| x a IH]; cbn [app map read_color_as].
    + rewrite E. reflexivity.
    + rewrite (H x (or_introl eq_refl)). apply IH. intros y Hy. apply H. right. exact Hy.
  - intros H. induction l as [| x l IH]; [reflexivity |]. cbn [map read_color_as]. rewrite (H x (or_introl eq_refl)).
    apply IH. intros y Hy. apply H. right. exact Hy.
Qed.
Lemma text_in_iff : forall v words, text_in num v words = true <-> is_one_of num words v.
Proof.
  intros v words. unfold text_in, is_one_of. destruct (v_text num v) as [t |].
  - rewrite smem_In. split; [intros H; exists t; auto | intros (t' & E & H); injection E as <-; exact H].
  - split; [discriminate | intros (t' & E & _); discriminate].
Qed.
Lemma text_in_false : forall v words, text_in num v words = false <-> ~ is_one_of num words v.
Proof. intros v words. rewrite <- text_in_iff. destruct (text_in num v words); split; congruence. Qed.
Lemma read_keyword_first : forall p words f l,
  (forall a v b t, l = a ++ v :: b -> (forall x, In x a -> ~ is_one_of num words x) -> v_text num v = Some t -> In t words ->
    read_keyword num p words f (map V l) = Some (set f p (FText num t))) /\
  ((forall x, In x l -> ~ is_one_of num words x) -> read_keyword num p words f (map V l) = Some f).
Proof.
  intros p words f l. split.
  - intros a v b t -> H E Ht. induction a as [| x a IH]; cbn [app map read_keyword].
    + assert (text_in num v words = true) as -> by (apply text_in_iff; exists t; auto). rewrite E. reflexivity.
    + assert (text_in num x words = false) as -> by (apply text_in_false; apply H; left; reflexivity).
      apply IH. intros y Hy. apply H. right. exact Hy.
  - intros H. induction l as [| x l IH]; [reflexivity |]. cbn [map read_keyword].
    assert (text_in num x words = false) as -> by (apply text_in_false; apply H; left; reflexivity).
    apply IH. intros y Hy. apply H. right. exact Hy.
Qed.
Lemma lines_texts : forall l decos, (forall x, In x l -> v_text num x <> Some (k "none")) ->
  lines_of num decos (map V l) = Some (decos ++ chosen num line_words l).
Proof.
  induction l as [| x l IH]; intros decos H; cbn [map lines_of chosen].
  - rewrite app_nil_r. reflexivity.
  - assert (forall y, In y l -> v_text num y <> Some (k "none")) as H' by (intros y Hy; apply H; right; exact Hy).
    specialize (H x (or_introl eq_refl)). destruct (v_text num x) as [t |].
    + rewrite IH by exact H'. f_equal. destruct (in_dec (list_eq_dec Nat.eq_dec) t line_words) as [I | I].
      * assert (smem t line_words = true) as -> by (apply smem_In; exact I). rewrite <- app_assoc. reflexivity.
      * destruct (smem t line_words) eqn:E; [apply smem_In in E; contradiction |].
        destruct (str_eqb t (k "none")) eqn:En; [apply str_eqb_eq in En; congruence | reflexivity].
    + apply IH. exact H'.
Qed.
Lemma lines_cut : forall a n b decos, v_text num n = Some (k "none") ->
  (forall x, In x b -> v_text num x <> Some (k "none")) ->
  lines_of num decos (map V (a ++ n :: b)) = Some (chosen num line_words b).
Proof.
  induction a as [| x a IH]; intros n b decos En H; cbn [app map lines_of].
  - rewrite En. change (smem (k "none") line_words) with false. rewrite str_eqb_refl. rewrite lines_texts by exact H. reflexivity.
  - destruct (v_text num x); apply IH; assumption.
Qed.
Lemma families_texts : forall l, families_of num (map V l) =
  Some (flat_map (fun v => match v_text num v with
    | Some t => if negb (empty_list t) && (v_quoted num v || smem t family_words) then [t] else []
    | None => [] end) l).
Proof.
  induction l as [| x l IH]; [reflexivity |]. cbn [map families_of flat_map]. rewrite IH. cbn [option_map].
  destruct (v_text num x) as [t |]; [| reflexivity]. destruct (_ && _); reflexivity.
Qed.
Definition no_size (x : value num) : Prop := ~ is_one_of num size_words x /\ v_number num x = None.
Lemma read_size_first : forall f l,
  (forall a v b, l = a ++ v :: b -> (forall x, In x a -> no_size x) ->
    (forall t, v_text num v = Some t -> In t size_words -> read_size num f (map V l) = Some (set f Font_size (FText num t))) /\
    (forall n, ~ is_one_of num size_words v -> v_number num v = Some n ->
      read_size num f (map V l) = Some (set (set f Font_size (FNum num n)) Font_size_unit (opt_text num (v_unit num v))))) /\
  ((forall x, In x l -> no_size x) -> read_size num f (map V l) = Some f).
Proof.
  intros f l. split.
  - intros a v b -> H.
    assert (read_size num f (map V (a ++ v :: b)) = read_size num f (map V (v :: b))) as ->.
    { induction a as [| x a IH]; [reflexivity |]. cbn [app map read_size]. destruct (H x (or_introl eq_refl)) as [H1 H2].
      apply text_in_false in H1. rewrite H1, H2. apply IH. intros y Hy. apply H. right. exact Hy. }
    cbn [map read_size]. split.
    + intros t E Ht. assert (text_in num v size_words = true) as -> by (apply text_in_iff; exists t; auto). rewrite E. reflexivity.
    + intros n N E. apply text_in_false in N. rewrite N, E. reflexivity.
  - intros H. induction l as [| x l IH]; [reflexivity |]. cbn [map read_size]. destruct (H x (or_introl eq_refl)) as [H1 H2].
    apply text_in_false in H1. rewrite H1, H2. apply IH. intros y Hy. apply H. right. exact Hy.
Qed.
Lemma families_spec : forall l, families_of num (map V l) = Some (families num l).
Proof.
  intros l. rewrite families_texts. f_equal. unfold families. induction l as [| x l IH]; [reflexivity |].
  cbn [flat_map]. rewrite IH. f_equal. cbn [chosen]. destruct (v_text num x) as [[| c t] |] eqn:E; try reflexivity.
  cbn [empty_list negb andb]. destruct (v_quoted num x); [reflexivity |]. cbn [orb].
  destruct (in_dec (list_eq_dec Nat.eq_dec) (c :: t) family_words) as [I | I].
  - apply smem_In in I. rewrite I. reflexivity.
  - destruct (smem (c :: t) family_words) eqn:M; [apply smem_In in M; contradiction | reflexivity].
Qed.
Definition no_weight (x : value num) : Prop := ~ is_one_of num weight_words x /\ v_number num x = None.
Lemma read_weight_first : forall f l,
  forall a v b, l = a ++ v :: b -> (forall x, In x a -> no_weight x) ->
    (forall t, v_text num v = Some t -> In t weight_words -> read_weight num f (map V l) = Some (set f Font_weight (FText num t))) /\
    (forall n, ~ is_one_of num weight_words v -> v_number num v = Some n ->
      read_weight num f (map V l) = Some (set f Font_weight (FNum num n))).
Proof.
  intros f l a v b -> H.
  assert (read_weight num f (map V (a ++ v :: b)) = read_weight num f (map V (v :: b))) as ->.
  { induction a as [| x a IH]; [reflexivity |]. cbn [app map read_weight]. destruct (H x (or_introl eq_refl)) as [H1 H2].
    apply text_in_false in H1. rewrite H1, H2. apply IH. intros y Hy. apply H. right. exact Hy. }
  cbn [map read_weight]. split.
  - intros t E Ht. assert (text_in num v weight_words = true) as -> by (apply text_in_iff; exists t; auto). rewrite E. reflexivity.
  - intros n N E. apply text_in_false in N. rewrite N, E. reflexivity.
Qed.
Definition slants : list str := [k "normal"; k "italic"; k "oblique"].
Lemma slants_split : forall v, ~ is_one_of num slants v ->
  text_in num v [k "normal"; k "italic"] = false /\ text_in num v [k "oblique"] = false.
Proof.
  intros v H. split; apply text_in_false; intros (t & E & I); apply H; exists t; (split; [exact E |]); cbn [In slants] in *; tauto.
Qed.
Lemma style_skip : forall b f, (forall x, In x b -> ~ is_one_of num slants x) -> read_style_loop num f (map V b) = Some f.
Proof.
  induction b as [| x b IH]; intros f H; [reflexivity |]. cbn [map read_style_loop].
  destruct (slants_split x (H x (or_introl eq_refl))) as [E1 E2]. rewrite E1, E2. apply IH. intros y Hy. apply H. right. exact Hy.
Qed.
Lemma read_style_first : forall f a v b t, (forall x, In x a -> ~ is_one_of num slants x) -> v_text num v = Some t ->
  (In t [k "normal"; k "italic"] -> read_style num f (map V (a ++ v :: b)) = Some (set f Font_style (FText num t))) /\
  (t = k "oblique" ->
    (forall n b' x, b = n :: b' -> v_number num n = Some x ->
      read_style num f (map V (a ++ v :: b)) =
        Some (set (set (set f Font_style (FText num t)) Font_style_angle (FNum num x)) Font_style_angle_unit (opt_text num (v_unit num n)))) /\
    ((forall n b', b = n :: b' -> v_number num n = None) -> (forall x, In x b -> ~ is_one_of num slants x) ->
      read_style num f (map V (a ++ v :: b)) = Some (set f Font_style (FText num t)))).
Proof.
  intros f a v b t H E.
  assert (read_style num f (map V (a ++ v :: b)) = read_style_loop num f (map V (v :: b))) as ->.
  { unfold read_style. assert (read_style_loop num f (map V (a ++ v :: b)) = read_style_loop num f (map V (v :: b))) as <-.
    { induction a as [| x a IH]; [reflexivity |]. cbn [app map]. change (map V (v :: b)) with (V v :: map V b) in IH.
      cbn [read_style_loop]. destruct (slants_split x (H x (or_introl eq_refl))) as [E1 E2]. rewrite E1, E2.
      apply IH. intros y Hy. apply H. right. exact Hy. }
    destruct a; reflexivity. }
  cbn [map read_style_loop]. rewrite E. split; [| intros ->; split].
  - intros I. assert (text_in num v [k "normal"; k "italic"] = true) as -> by (apply text_in_iff; exists t; auto). reflexivity.
  - intros n b' x -> En. unfold text_in. rewrite E. change (smem (k "oblique") [k "normal"; k "italic"]) with false.
    change (smem (k "oblique") [k "oblique"]) with true. cbv iota zeta. cbn [map]. rewrite En. reflexivity.
  - intros En Hb. unfold text_in. rewrite E. change (smem (k "oblique") [k "normal"; k "italic"]) with false.
    change (smem (k "oblique") [k "oblique"]) with true. cbv iota zeta. cbn [opt_text].
    destruct b as [| n b]; [reflexivity |]. cbn [map]. rewrite (En n b eq_refl). apply (style_skip (n :: b)). exact Hb.
Qed.
(** The shorthand. *)
Definition caps2 : list str := [k "normal"; k "small-caps"].
Definition weights3 : list str := [k "bold"; k "lighter"; k "bolder"].
Definition later (o : option str) (old : option (fval num)) : option (fval num) :=
  match o with Some t => Some (FText num t) | None => old end.
Lemma last_one_cons : forall words v l, last_one num words (v :: l) =
  match last_one num words l with Some t => Some t | None => if text_in num v words then v_text num v else None end.
Proof.
  intros words v l. unfold last_one, text_in. cbn [chosen]. destruct (v_text num v) as [t |].
  - destruct (in_dec (list_eq_dec Nat.eq_dec) t words) as [I | I].
    + apply smem_In in I. rewrite I. cbn [map]. destruct (chosen num words l) as [| a r]; [reflexivity |].
      cbn [map]. change (last (Some t :: Some a :: map Some r) None) with (last (Some a :: map Some r) None).
      assert (exists u, last (Some a :: map Some r) None = Some u) as [u ->]; [| reflexivity].
      clear. revert a. induction r as [| b r IH]; intros a; [exists a; reflexivity |]. apply (IH b).
    + destruct (smem t words) eqn:M; [apply smem_In in M; contradiction |]. destruct (last _ _); reflexivity.
  - destruct (last _ _); reflexivity.
Qed.
Lemma font_loop : forall l f nums,
  (forall x, In x l -> ~ is_one_of num system_words x) ->
  (forall x, In x l -> v_number num x <> None -> ~ is_one_of num (caps2 ++ stretch_words ++ weights3) x) ->
  exists f', read_font_loop num f nums (map V l) = Some (inr (f', nums ++ numbers num l)) /\
  f' Font_variant_caps = later (last_one num caps2 l) (f Font_variant_caps) /\
  f' Font_stretch = later (last_one num stretch_words l) (f Font_stretch) /\
  f' Font_weight = later (last_one num weights3 l) (f Font_weight) /\
  forall p, p <> Font_variant_caps -> p <> Font_stretch -> p <> Font_weight -> f' p = f p.
Proof.
  induction l as [| v l IH]; intros f nums Hs Hn.
  - exists f. cbn [map read_font_loop]. unfold numbers. cbn [flat_map]. rewrite app_nil_r. auto.
  - cbn [map read_font_loop].
    assert (forall x, In x l -> ~ is_one_of num system_words x) as Hs' by (intros x Hx; apply Hs; right; exact Hx).
    assert (forall x, In x l -> v_number num x <> None -> ~ is_one_of num (caps2 ++ stretch_words ++ weights3) x) as Hn'
      by (intros x Hx; apply Hn; right; exact Hx).
    pose proof (proj2 (text_in_false v _) (Hs v (or_introl eq_refl))) as ->.
    specialize (Hn v (or_introl eq_refl)).
    assert (forall words, incl words (caps2 ++ stretch_words ++ weights3) -> text_in num v words = true -> v_number num v = None) as Nn.
    { intros words I T. destruct (v_number num v) eqn:E; [| reflexivity]. exfalso. apply Hn; [congruence |].
      apply text_in_iff in T as (t & Et & It). exists t. split; [exact Et | apply I; exact It]. }
    assert (forall w1 w2, (forall t, In t w1 -> In t w2 -> False) -> text_in num v w1 = true -> text_in num v w2 = false) as D.
    { intros w1 w2 Hd T. apply text_in_false. apply text_in_iff in T as (t & E & I). intros (t' & E' & I').
      rewrite E in E'. injection E' as <-. exact (Hd t I I'). }
    assert (forall w1 w2, existsb (fun t => smem t w2) w1 = false -> forall t, In t w1 -> In t w2 -> False) as Dd.
    { intros w1 w2 B t I1 I2. apply smem_In in I2. assert (existsb (fun t => smem t w2) w1 = true); [| congruence].
      apply existsb_exists. exists t. auto. }
    rewrite !last_one_cons.
    change [k "normal"; k "small-caps"] with caps2. change [k "bold"; k "lighter"; k "bolder"] with weights3.
    unfold numbers. cbn [flat_map]. fold (numbers num l).
    destruct (text_in num v caps2) eqn:T1.
    { rewrite (D _ stretch_words (Dd caps2 stretch_words eq_refl) T1), (D _ weights3 (Dd caps2 weights3 eq_refl) T1).
      rewrite (Nn caps2) by (try exact T1; intros t I; apply in_or_app; auto).
      destruct (IH (set f Font_variant_caps (opt_text num (v_text num v))) nums Hs' Hn') as (f' & E & A & B & C & O).
      exists f'. split; [exact E |]. rewrite A, B, C. apply text_in_iff in T1 as (t & Et & _). rewrite Et in *.
      split; [destruct (last_one num caps2 l); reflexivity |]. split; [destruct (last_one num stretch_words l); reflexivity |].
      split; [destruct (last_one num weights3 l); reflexivity |].
      intros p N1 N2 N3. rewrite O by assumption. apply set_other. congruence. }
    destruct (text_in num v stretch_words) eqn:T2.
    { rewrite (D _ weights3 (Dd stretch_words weights3 eq_refl) T2).
      rewrite (Nn stretch_words) by (try exact T2; intros t I; apply in_or_app; right; apply in_or_app; auto).
      destruct (IH (set f Font_stretch (opt_text num (v_text num v))) nums Hs' Hn') as (f' & E & A & B & C & O).
      exists f'. split; [exact E |]. rewrite A, B, C. apply text_in_iff in T2 as (t & Et & _). rewrite Et in *.
      split; [destruct (last_one num caps2 l); reflexivity |]. split; [destruct (last_one num stretch_words l); reflexivity |].
      split; [destruct (last_one num weights3 l); reflexivity |].
      intros p N1 N2 N3. rewrite O by assumption. apply set_other. congruence. }
    destruct (text_in num v weights3) eqn:T3.
    { rewrite (Nn weights3) by (try exact T3; intros t I; apply in_or_app; right; apply in_or_app; auto).
      destruct (IH (set f Font_weight (opt_text num (v_text num v))) nums Hs' Hn') as (f' & E & A & B & C & O).
      exists f'. split; [exact E |]. rewrite A, B, C. apply text_in_iff in T3 as (t & Et & _). rewrite Et in *.
      split; [destruct (last_one num caps2 l); reflexivity |]. split; [destruct (last_one num stretch_words l); reflexivity |].
      split; [destruct (last_one num weights3 l); reflexivity |].
      intros p N1 N2 N3. rewrite O by assumption. apply set_other. congruence. }
    destruct (v_number num v) as [n |].
    + destruct (IH f (nums ++ [(n, v_unit num v)]) Hs' Hn') as (f' & E & A & B & C & O).
      exists f'. rewrite E, A, B, C. split; [rewrite <- app_assoc; reflexivity |].
      split; [destruct (last_one num caps2 l); reflexivity |]. split; [destruct (last_one num stretch_words l); reflexivity |].
      split; [destruct (last_one num weights3 l); reflexivity | exact O].
    + destruct (IH f nums Hs' Hn') as (f' & E & A & B & C & O). exists f'. rewrite E, A, B, C. split; [reflexivity |].
      split; [destruct (last_one num caps2 l); reflexivity |]. split; [destruct (last_one num stretch_words l); reflexivity |].
      split; [destruct (last_one num weights3 l); reflexivity | exact O].
Qed.
Lemma read_font_plain : forall f l f1, read_style num f (map V l) = Some f1 ->
  (forall x, In x l -> ~ is_one_of num system_words x) ->
  (forall x, In x l -> v_number num x <> None -> ~ is_one_of num (caps2 ++ stretch_words ++ weights3) x) ->
  exists f', read_font num f (map V l) = Some f' /\
  f' Font_family = Some (FTexts num (families num l)) /\
  f' Font_variant_caps = later (last_one num caps2 l) (f1 Font_variant_caps) /\
  f' Font_stretch = later (last_one num stretch_words l) (f1 Font_stretch) /\
  (forall p, In p [Font_style; Font_style_angle; Font_style_angle_unit] -> f' p = f1 p) /\
  match numbers num l with
  | [] => f' Font_size = f1 Font_size /\ f' Font_size_unit = f1 Font_size_unit /\
      f' Font_weight = later (last_one num weights3 l) (f1 Font_weight)
  | [(n, u)] => f' Font_size = Some (FNum num n) /\ f' Font_size_unit = Some (opt_text num u) /\
      f' Font_weight = later (last_one num weights3 l) (f1 Font_weight)
  | (w, _) :: (n, u) :: _ => f' Font_size = Some (FNum num n) /\ f' Font_size_unit = Some (opt_text num u) /\
      f' Font_weight = (match later (last_one num weights3 l) (f1 Font_weight) with
                        | None | Some (FNone _) => Some (FNum num w)
                        | Some x => Some x
                        end)
  end.
Proof.
  intros f l f1 E Hs Hn. unfold read_font. rewrite E. cbn [obind].
  destruct (font_loop l f1 [] Hs Hn) as (f2 & -> & A & B & C & O). cbn [obind app].
  unfold read_family. rewrite families_spec. cbn [option_map].
  assert (forall v, attr (set f2 Font_family v) Font_weight = match f2 Font_weight with Some x => x | None => FNone num end) as Ew by reflexivity.
  destruct (numbers num l) as [| [n u] [| [n2 u2] r]].
  - eexists. split; [reflexivity |]. split; [reflexivity |]. split; [exact A |]. split; [exact B |].
    split; [intros p Hp; cbn [In] in Hp; repeat (destruct Hp as [<- | Hp]; [apply O; discriminate |]); contradiction |].
    split; [apply O; discriminate |]. split; [apply O; discriminate | exact C].
  - eexists. split; [reflexivity |]. split; [reflexivity |]. split; [exact A |]. split; [exact B |].
    split; [intros p Hp; cbn [In] in Hp; repeat (destruct Hp as [<- | Hp]; [apply O; discriminate |]); contradiction |].
    split; [reflexivity |]. split; [reflexivity | exact C].
  - rewrite Ew. cbv zeta. rewrite <- C.
    destruct (f2 Font_weight) as [[] |] eqn:F2; eexists; (split; [reflexivity |]); (split; [reflexivity |]); (split; [exact A |]);
      (split; [exact B |]);
      (split; [intros p Hp; cbn [In] in Hp; repeat (destruct Hp as [<- | Hp]; [apply O; discriminate |]); contradiction |]);
      (split; [reflexivity |]); (split; [reflexivity |]); first [exact F2 | reflexivity].
Qed.

(** ** Reading does not fail *)
Lemma style_some : forall l f, exists f', read_style_loop num f (map V l) = Some f'.
Proof.
  induction l as [| x l IH]; intros f; [eexists; reflexivity |]. cbn [map read_style_loop].
  destruct (text_in num x _); [eexists; reflexivity |]. destruct (text_in num x _); [| apply IH]. cbv zeta.
  destruct l as [| y l]; [eexists; reflexivity |]. cbn [map] in *. destruct (v_number num y); [eexists; reflexivity | apply IH].
Qed.
Lemma font_loop_some : forall l f nums, exists r, read_font_loop num f nums (map V l) = Some r.
Proof.
  induction l as [| x l IH]; intros f nums; [eexists; reflexivity |]. cbn [map read_font_loop].
  destruct (text_in num x _); [eexists; reflexivity |]. destruct (text_in num x _); [apply IH |].
  destruct (text_in num x _); [apply IH |]. destruct (text_in num x _); [apply IH |]. destruct (v_number num x); apply IH.
Qed.
Lemma color_some : forall l p f, exists f', read_color_as num p f (map V l) = Some f'.
Proof. induction l as [| x l IH]; intros p f; [eexists; reflexivity |]. cbn [map read_color_as]. destruct (v_color num x); [eexists; reflexivity | apply IH]. Qed.
Lemma keyword_some : forall l p w f, exists f', read_keyword num p w f (map V l) = Some f'.
Proof. induction l as [| x l IH]; intros p w f; [eexists; reflexivity |]. cbn [map read_keyword]. destruct (text_in num x w); [eexists; reflexivity | apply IH]. Qed.
Lemma lines_some : forall l d, exists d', lines_of num d (map V l) = Some d'.
Proof. induction l as [| x l IH]; intros d; [eexists; reflexivity |]. cbn [map lines_of]. destruct (v_text num x); apply IH. Qed.
Lemma size_some : forall l f, exists f', read_size num f (map V l) = Some f'.
Proof.
  induction l as [| x l IH]; intros f; [eexists; reflexivity |]. cbn [map read_size].
  destruct (text_in num x _); [eexists; reflexivity |]. destruct (v_number num x); [eexists; reflexivity | apply IH].
Qed.
Lemma weight_some : forall l f, exists f', read_weight num f (map V l) = Some f'.
Proof.
  induction l as [| x l IH]; intros f; [eexists; reflexivity |]. cbn [map read_weight].
  destruct (text_in num x _); [eexists; reflexivity |]. destruct (v_number num x); [eexists; reflexivity | apply IH].
Qed.
Lemma stretch_some : forall l f, exists f', read_stretch num f (map V l) = Some f'.
Proof. induction l as [| x l IH]; intros f; [eexists; reflexivity |]. cbn [map read_stretch]. apply IH. Qed.
Lemma line_some : forall l f, exists f', read_line num f (map V l) = Some f'.
Proof. intros l f. unfold read_line. destruct (lines_some l []) as [d ->]. eexists. reflexivity. Qed.
Lemma family_some : forall l f, exists f', read_family num f (map V l) = Some f'.
Proof. intros l f. unfold read_family. rewrite families_texts. eexists. reflexivity. Qed.
Lemma dispatch_some : forall p l f, l <> [] -> exists f', dispatch num f p (map V l) = Some f'.
Proof.
  intros p l f N. unfold dispatch.
  assert (forall f, exists f', read_style num f (map V l) = Some f') as Hs.
  { intros g. unfold read_style. destruct l; [congruence |]. apply style_some. }
  repeat match goal with |- exists _, (if ?b then _ else _) = _ => destruct b end;
    auto using color_some, keyword_some, size_some, weight_some, stretch_some, line_some, family_some.
  - unfold read_text_decoration. destruct (color_some l Text_decoration_color f) as [f1 ->]. cbn [obind].
    destruct (line_some l f1) as [f2 ->]. cbn [obind]. apply keyword_some.
  - unfold read_font. destruct (Hs f) as [f1 ->]. cbn [obind]. destruct (font_loop_some l f1 []) as [r ->]. cbn [obind].
    destruct r as [f2 | [f2 nums]]; [eexists; reflexivity |]. destruct (family_some l f2) as [f3 ->]. eexists. reflexivity.
  - eexists. reflexivity.
Qed.
Lemma read_some : forall props f, (forall p vs, In (p, vs) props -> exists l, vs = map V l /\ l <> []) ->
  exists f', read_from num f props = Some f'.
Proof.
  induction props as [| [p vs] props IH]; intros f H; [eexists; reflexivity |]. cbn [read_from].
  destruct (H p vs (or_introl eq_refl)) as (l & -> & N). destruct (dispatch_some p l f N) as [f1 ->]. cbn [obind].
  apply IH. intros q ws Hq. apply (H q ws). right. exact Hq.
Qed.

(** ** Which attributes a property sets *)
Definition touches (t : nat) (f f' : fmt) : Prop := forall p, topic p <> t -> f' p = f p.
Lemma touch_set : forall p v f f' t, topic p = t -> touches t f f' -> touches t f (set f' p v).
Proof.
  intros p v f f' t T H q N. unfold TextFormatModel.set. destruct (prop_beq p q) eqn:E; [| apply H; exact N].
  apply prop_beq_iff in E. subst q. contradiction.
Qed.
Lemma touch_color : forall vs p f0 f f', touches (topic p) f0 f -> read_color_as num p f vs = Some f' -> touches (topic p) f0 f'.
Proof.
  induction vs as [| [v | s] vs IH]; intros p f0 f f' H E; cbn [read_color_as] in E; [injection E as <-; exact H | | discriminate].
  destruct (v_color num v); [injection E as <-; apply touch_set; auto | eapply IH; eassumption].
Qed.
Lemma touch_keyword : forall vs p w f0 f f', touches (topic p) f0 f -> read_keyword num p w f vs = Some f' -> touches (topic p) f0 f'.
Proof.
  induction vs as [| [v | s] vs IH]; intros p w f0 f f' H E; cbn [read_keyword] in E; [injection E as <-; exact H | | discriminate].
  destruct (text_in num v w); [injection E as <-; apply touch_set; auto | eapply IH; eassumption].
Qed.
Lemma touch_line : forall vs f0 f f', touches 3 f0 f -> read_line num f vs = Some f' -> touches 3 f0 f'.
Proof. intros vs f0 f f' H E. unfold read_line in E. destruct (lines_of num [] vs); [| discriminate]. injection E as <-. apply touch_set; auto. Qed.
Lemma touch_family : forall vs f0 f f', touches 4 f0 f -> read_family num f vs = Some f' -> touches 4 f0 f'.
Proof. intros vs f0 f f' H E. unfold read_family in E. destruct (families_of num vs); [| discriminate]. injection E as <-. apply touch_set; auto. Qed.
Lemma touch_size : forall vs f0 f f', touches 6 f0 f -> read_size num f vs = Some f' -> touches 6 f0 f'.
Proof.
  induction vs as [| [v | s] vs IH]; intros f0 f f' H E; cbn [read_size] in E; [injection E as <-; exact H | | discriminate].
  destruct (text_in num v size_words); [injection E as <-; apply touch_set; auto |].
  destruct (v_number num v); [injection E as <-; repeat (apply touch_set; [reflexivity |]); exact H | eapply IH; eassumption].
Qed.
Lemma touch_stretch : forall vs f0 f f', touches 7 f0 f -> read_stretch num f vs = Some f' -> touches 7 f0 f'.
Proof.
  induction vs as [| [v | s] vs IH]; intros f0 f f' H E; cbn [read_stretch] in E; [injection E as <-; exact H | | discriminate].
  eapply IH; [| exact E]. destruct (text_in num v stretch_words); [apply touch_set; auto |].
  destruct (v_number num v); [destruct (is_percent _); [apply touch_set; auto |] |]; exact H.
Qed.
Lemma touch_style : forall vs f0 f f', touches 8 f0 f -> read_style num f vs = Some f' -> touches 8 f0 f'.
Proof.
  intros vs f0 f f' H E. unfold read_style in E. assert (read_style_loop num f vs = Some f') as E' by (destruct vs; [discriminate | exact E]).
  clear E. revert f H E'. induction vs as [| [v | s] vs IH]; intros f H E; [injection E as <-; exact H | | discriminate].
  cbn [read_style_loop] in E. destruct (text_in num v [k "normal"; k "italic"]); [injection E as <-; apply touch_set; auto |].
  destruct (text_in num v [k "oblique"]); [| eapply IH; eassumption]. cbv zeta in E.
  assert (touches 8 f0 (set f Font_style (opt_text num (v_text num v)))) as H' by (apply touch_set; auto).
  destruct vs as [| [n | s] vs]; [injection E as <-; exact H' | |].
  - destruct (v_number num n); [injection E as <-; repeat (apply touch_set; [reflexivity |]); exact H | eapply IH; eassumption].
  - destruct s; [eapply IH; eassumption | discriminate].
Qed.
Lemma touch_weight : forall vs f0 f f', touches 11 f0 f -> read_weight num f vs = Some f' -> touches 11 f0 f'.
Proof.
  induction vs as [| [v | s] vs IH]; intros f0 f f' H E; cbn [read_weight] in E; [injection E as <-; exact H | | discriminate].
  destruct (text_in num v weight_words); [injection E as <-; apply touch_set; auto |].
  destruct (v_number num v); [injection E as <-; apply touch_set; auto | eapply IH; eassumption].
Qed.
Lemma dispatch_touches : forall name t f f' vs, In (name, t) css_topics -> dispatch num f name vs = Some f' -> touches t f f'.
Proof.
  intros name t f f' vs H E.
  assert (touches t f f) as R by (intros p _; reflexivity).
  unfold css_topics in H. cbn [In] in H.
  repeat (destruct H as [H | H]; [injection H as <- <- |]); [.. | contradiction].
  - exact (touch_color vs Color f f f' R E).
  - exact (touch_color vs Background_color f f f' R E).
  - exact (touch_color vs Background_color f f f' R E).
  - exact (touch_color vs Caret_color f f f' R E).
  - exact (touch_color vs Text_decoration_color f f f' R E).
  - exact (touch_line vs f f f' R E).
  - exact (touch_keyword vs Text_decoration_style style_words f f f' R E).
  - change (read_text_decoration num f vs = Some f') in E. unfold read_text_decoration in E.
    destruct (read_color_as _ _ _ _) as [f1 |] eqn:E1; [| discriminate]. cbn [obind] in E.
    destruct (read_line _ _ _) as [f2 |] eqn:E2; [| discriminate]. cbn [obind] in E.
    pose proof (touch_color vs Text_decoration_color f f f1 R E1) as R1.
    pose proof (touch_line vs f f1 f2 R1 E2) as R2.
    exact (touch_keyword vs Text_decoration_style style_words f f2 f' R2 E).
  - exact (touch_family vs f f f' R E).
  - exact (touch_keyword vs Font_kerning kerning_words f f f' R E).
  - exact (touch_size vs f f f' R E).
  - exact (touch_stretch vs f f f' R E).
  - exact (touch_style vs f f f' R E).
  - exact (touch_keyword vs Font_variant_caps caps_words f f f' R E).
  - exact (touch_keyword vs Font_variant_position position_words f f f' R E).
  - exact (touch_weight vs f f f' R E).
Qed.
End Format.
