(** A tidy format that is written and read is the same. *)
From Coq Require Import ZArith ZifyBool.
From Verif Require Import Base CssModel CssProofs CssReadModel CssColorModel TextFormatModel TextFormatSpec TextFormatProofs.
Import Strings.String.StringSyntax.

Section Format.
Variable num : Type.
Variable num_dec : forall a b : num, {a = b} + {a <> b}.
Variable num_zero : num -> bool.
Variable wordchar : nat -> bool.
Notation fmt := (fmt num).
Notation attr := (attr num).
Notation set := (set num).
Notation stands := (stands num wordchar).
Notation reads_as := (reads_as num wordchar).
Notation truthy := (truthy num num_zero).

(** ** Pieces of what is written: each sets some attributes and leaves the others *)
Definition piece (f : fmt) (L : list (str * list (word num))) (P : list prop) : Prop :=
  forall vs g, reads_as L vs -> (forall p, In p P -> g p = None) ->
    exists g', read_from num g vs = Some g' /\ (forall p, In p P -> attr g' p = attr f p) /\
      (forall p, ~ In p P -> g' p = g p).
Lemma read_app : forall a b g, read_from num g (a ++ b) = obind (read_from num g a) (fun g => read_from num g b).
Proof.
  induction a as [| [p vs] a IH]; intros b g; [reflexivity |]. cbn [app read_from].
  destruct (dispatch num g p vs) as [g' |]; [apply IH | reflexivity].
Qed.
Lemma piece_app : forall f L1 P1 L2 P2, piece f L1 P1 -> piece f L2 P2 -> (forall p, In p P1 -> ~ In p P2) ->
  piece f (L1 ++ L2) (P1 ++ P2).
Proof.
  intros f L1 P1 L2 P2 H1 H2 D vs g R N.
  apply Forall2_app_inv_l in R as (v1 & v2 & R1 & R2 & ->).
  destruct (H1 v1 g R1) as (g1 & E1 & S1 & O1); [intros p Hp; apply N, in_or_app; auto |].
  destruct (H2 v2 g1 R2) as (g2 & E2 & S2 & O2).
  { intros p Hp. rewrite O1; [apply N, in_or_app; auto |]. intros C. apply (D p C Hp). }
  exists g2. rewrite read_app, E1. split; [exact E2 |]. split.
  - intros p Hp. apply in_app_or in Hp as [Hp | Hp]; [| apply S2; exact Hp].
    rewrite <- S1 by exact Hp. unfold TextFormatModel.attr. rewrite O2 by (apply D; exact Hp). reflexivity.
  - intros p Hp. rewrite O2, O1; [reflexivity | |]; intros C; apply Hp, in_or_app; auto.
Qed.
Definition default (p : prop) : fval num :=
  match p with Text_decoration_line | Font_family => FTexts num [] | _ => FNone num end.
Lemma piece_nil : forall f P, (forall p, In p P -> attr f p = default p) -> piece f [] P.
Proof.
  intros f P H vs g R N. inversion R. subst vs. exists g. split; [reflexivity |]. split; [| reflexivity].
  intros p Hp. rewrite (H p Hp). unfold TextFormatModel.attr. rewrite (N p Hp). reflexivity.
Qed.
(** A piece that is one property. *)
Lemma piece_one : forall f name ws P,
  (forall vs g, Forall2 stands ws vs -> (forall p, In p P -> g p = None) ->
    exists g', dispatch num g name vs = Some g' /\ (forall p, In p P -> attr g' p = attr f p) /\
      (forall p, ~ In p P -> g' p = g p)) ->
  piece f [(name, ws)] P.
Proof.
  intros f name ws P H vs g R N. inversion R as [| a [n v] l' m' [E W] R' E1 E2]; subst. inversion R'; subst.
  cbn [fst snd] in *. subst n. destruct (H v g W N) as (g' & E & S1 & O). exists g'. cbn [read_from]. rewrite E. auto.
Qed.

(** ** Words *)
Lemma no_word_in : forall t l, no_word t -> (forall w, In w l -> exists c r, w = c :: r /\ 65 <= c) ->
  match t with Some x => smem x l | None => false end = false.
Proof.
  intros t l (c & r & -> & L) H. destruct (smem (c :: r) l) eqn:E; [| reflexivity].
  apply smem_In in E. destruct (H _ E) as (c' & r' & E' & L'). injection E' as -> _. lia.
Qed.
Definition lettered (l : list str) : Prop := forall w, In w l -> exists c r, w = c :: r /\ 65 <= c.
Ltac letters := let H := fresh in intros ? H; cbn [In] in H;
  repeat (destruct H as [<- | H]; [eexists _, _; split; [reflexivity | cbn; lia] |]); contradiction.
Lemma l_line : lettered line_words. Proof. letters. Qed.
Lemma l_style : lettered style_words. Proof. letters. Qed.
Lemma l_family : lettered family_words. Proof. letters. Qed.
Lemma l_size : lettered size_words. Proof. letters. Qed.
Lemma l_weight : lettered weight_words. Proof. letters. Qed.
Lemma l_none : lettered [k "none"]. Proof. letters. Qed.
Lemma l_normal : lettered [k "normal"; k "italic"]. Proof. letters. Qed.
Lemma l_oblique : lettered [k "oblique"]. Proof. letters. Qed.

Lemma smem_true : forall t l, In t l -> smem t l = true.
Proof. intros t l H. apply smem_In. exact H. Qed.

(** ** Colors *)
Lemma color_piece : forall f name p, a_color num (attr f p) -> default p = FNone num ->
  (forall g vs, dispatch num g name vs = read_color_as num p g vs) ->
  piece f (if truthy (attr f p) then [(name, color_word num (attr f p))] else []) [p].
Proof.
  intros f name p [E | [c E]] Dp D; rewrite E; cbn [TextFormatModel.truthy color_word].
  - apply piece_nil. intros q [<- | []]. rewrite E, Dp. reflexivity.
  - apply piece_one. intros vs g W _. inversion W as [| a v l' m' Sv W' E1 E2]; subst. inversion W'; subst.
    inversion Sv; subst. eexists. rewrite D. cbn [read_color_as v_color]. split; [reflexivity |]. split.
    + intros q [<- | []]. unfold TextFormatModel.attr. rewrite set_same. symmetry. exact E.
    + intros q N. apply set_other. intros <-. apply N. left. reflexivity.
Qed.
(** ** Keywords *)
Lemma keyword_piece : forall f name p words, keyword num words (attr f p) -> default p = FNone num ->
  (forall t, In t words -> t <> []) ->
  (forall g vs, dispatch num g name vs = read_keyword num p words g vs) ->
  piece f (plain num num_zero name f p) [p].
Proof.
  intros f name p words [E | (t & E & Ht)] Dp Ne D; unfold plain; rewrite E; cbn [TextFormatModel.truthy].
  - apply piece_nil. intros q [<- | []]. rewrite E, Dp. reflexivity.
  - destruct t as [| c t]; [destruct (Ne _ Ht eq_refl) |]. cbn [empty_list negb]. apply piece_one. intros vs g W _.
    inversion W as [| a v l' m' Sv W' E1 E2]; subst. inversion W'; subst. inversion Sv; subst.
    rewrite app_nil_r in *. eexists. rewrite D. cbn [read_keyword]. unfold text_in. cbn [v_text].
    rewrite (smem_true _ _ Ht). split; [reflexivity |]. split.
    + intros q [<- | []]. unfold TextFormatModel.attr. rewrite set_same. symmetry. exact E.
    + intros q N. apply set_other. intros <-. apply N. left. reflexivity.
Qed.
(** ** Families *)
Lemma family_piece : forall f, (attr f Font_family = FTexts num [] \/
    exists t, attr f Font_family = FTexts num [t] /\ In t family_words) ->
  piece f (if truthy (attr f Font_family)
    then [(k "font-family", match attr f Font_family with FTexts _ l => with_comma num l | _ => [] end)] else []) [Font_family].
Proof.
  intros f [E | (t & E & Ht)]; rewrite E; cbn [TextFormatModel.truthy empty_list negb].
  - apply piece_nil. intros q [<- | []]. exact E.
  - apply piece_one. cbn [with_comma]. intros vs g W _.
    inversion W as [| a v l' m' Sv W' E1 E2]; subst. inversion W'; subst.
    assert (exists q, v = V num (mkval num (Some t) None None None q)) as [q ->] by (inversion Sv; eauto).
    assert (exists c r, t = c :: r) as (c & r & Et) by (destruct (l_family t Ht) as (c & r & -> & _); eauto).
    change (dispatch num g (k "font-family")) with (read_family num g). unfold read_family. cbn [families_of option_map v_text v_quoted].
    assert (empty_list t = false) as -> by (rewrite Et; reflexivity).
    rewrite (smem_true _ _ Ht), Bool.orb_true_r. cbn [option_map negb andb].
    eexists. split; [reflexivity |]. split.
    + intros p [<- | []]. unfold TextFormatModel.attr. rewrite set_same. symmetry. exact E.
    + intros p N. apply set_other. intros <-. apply N. left. reflexivity.
Qed.
(** ** Numbers with units *)
Lemma measure_word : forall v u x, measure num num_zero v u -> stands (WUnit num v (or_empty num u)) x ->
  truthy v = true /\ exists t n w, x = V num (mkval num t (Some n) w None false) /\ no_word t /\ v = FNum num n /\ opt_text num w = u.
Proof.
  intros v u x (n & -> & Z & H) Sx. split; [cbn; rewrite Z; reflexivity |].
  destruct H as [-> | (c & t & ->)]; cbn [or_empty] in Sx; inversion Sx; subst; eexists _, _, _;
    (split; [reflexivity |]); split; try assumption; split; reflexivity.
Qed.
Lemma size_piece : forall f, (keyword num size_words (attr f Font_size) /\ attr f Font_size_unit = FNone num) \/
    measure num num_zero (attr f Font_size) (attr f Font_size_unit) ->
  piece f (if truthy (attr f Font_size)
   then [(k "font-size", [WUnit num (attr f Font_size) (or_empty num (attr f Font_size_unit))])] else []) [Font_size; Font_size_unit].
Proof.
  intros f [[[E | (t & E & Ht)] Eu] | M].
  - rewrite E. cbn [TextFormatModel.truthy]. apply piece_nil. intros q [<- | [<- | []]]; assumption.
  - destruct (l_size t Ht) as (c & r & Et & _). rewrite E, Eu. cbn [TextFormatModel.truthy or_empty].
    rewrite Et at 1. cbn [empty_list negb]. apply piece_one. intros vs g W N.
    inversion W as [| a v l' m' Sv W' E1 E2]; subst vs. inversion W'; subst. inversion Sv; subst. rewrite app_nil_r in *.
    change (dispatch num g (k "font-size")) with (read_size num g). cbn [read_size]. unfold text_in. cbn [v_text].
    rewrite (smem_true _ _ Ht). eexists. split; [reflexivity |]. split.
    + intros p [<- | [<- | []]].
      * unfold TextFormatModel.attr. rewrite set_same. symmetry. exact E.
      * unfold TextFormatModel.attr at 1. rewrite set_other by discriminate. rewrite N by (right; left; reflexivity).
        symmetry. exact Eu.
    + intros p Hp. apply set_other. intros <-. apply Hp. left. reflexivity.
  - assert (truthy (attr f Font_size) = true) as ->.
    { destruct M as (n & -> & Z & _). cbn. rewrite Z. reflexivity. }
    apply piece_one. intros vs g W N.
    inversion W as [| a v l' m' Sv W' E1 E2]; subst vs. inversion W'; subst.
    destruct (measure_word _ _ _ M Sv) as (_ & t & n & w & -> & Nt & En & Ew).
    change (dispatch num g (k "font-size")) with (read_size num g). cbn [read_size]. unfold text_in. cbn [v_text v_number v_unit].
    rewrite (no_word_in t _ Nt l_size). eexists. split; [reflexivity |]. split.
    + intros p [<- | [<- | []]].
      * unfold TextFormatModel.attr at 1. rewrite set_other by discriminate. rewrite set_same. symmetry. exact En.
      * unfold TextFormatModel.attr at 1. rewrite set_same. exact Ew.
    + intros p Hp. rewrite !set_other; [reflexivity | |]; intros <-; apply Hp; cbn; auto.
Qed.
Lemma slant_piece : forall f,
  (keyword num [k "normal"; k "italic"; k "oblique"] (attr f Font_style) /\
     attr f Font_style_angle = FNone num /\ attr f Font_style_angle_unit = FNone num) \/
  (attr f Font_style = FText num (k "oblique") /\
     measure num num_zero (attr f Font_style_angle) (attr f Font_style_angle_unit)) ->
  piece f
   (if (if fval_dec num num_dec (attr f Font_style) (FText num (k "oblique")) then true else false) && truthy (attr f Font_style_angle)
    then [(k "font-style", [WText num (k "oblique"); WUnit num (attr f Font_style_angle) (or_empty num (attr f Font_style_angle_unit))])]
    else plain num num_zero (k "font-style") f Font_style) [Font_style; Font_style_angle; Font_style_angle_unit].
Proof.
  intros f [(K & Ea & Eu) | [E M]].
  - rewrite Ea. cbn [TextFormatModel.truthy]. rewrite Bool.andb_false_r. unfold plain.
    destruct K as [E | (t & E & Ht)]; rewrite E; cbn [TextFormatModel.truthy].
    + apply piece_nil. intros q [<- | [<- | [<- | []]]]; assumption.
    + assert (empty_list t = false) as -> by (destruct Ht as [<- | [<- | [<- | []]]]; reflexivity). cbn [negb].
      apply piece_one. intros vs g W N.
      inversion W as [| a v l' m' Sv W' E1 E2]; subst vs. inversion W'; subst. inversion Sv; subst. rewrite app_nil_r in *.
      change (dispatch num g (k "font-style")) with (read_style num g). cbn [read_style read_style_loop]. unfold text_in. cbn [v_text].
      exists (set g Font_style (FText num t)). split; [| split].
      * destruct Ht as [<- | [<- | [<- | []]]]; reflexivity.
      * intros p [<- | [<- | [<- | []]]]; unfold TextFormatModel.attr at 1.
        -- rewrite set_same. symmetry. exact E.
        -- rewrite set_other by discriminate. rewrite N by (cbn; auto). symmetry. exact Ea.
        -- rewrite set_other by discriminate. rewrite N by (cbn; auto). symmetry. exact Eu.
      * intros p Hp. apply set_other. intros <-. apply Hp. left. reflexivity.
  - rewrite E. destruct (fval_dec num num_dec (FText num (k "oblique")) (FText num (k "oblique"))); [| congruence].
    assert (truthy (attr f Font_style_angle) = true) as ->.
    { destruct M as (n & -> & Z & _). cbn. rewrite Z. reflexivity. }
    cbn [andb]. apply piece_one. intros vs g W N.
    inversion W as [| a v l' m' Sv W' E1 E2]; subst vs. inversion W' as [| a2 v2 l2 m2 Sv2 W2 E3 E4]; subst. inversion W2; subst.
    inversion Sv; subst. destruct (measure_word _ _ _ M Sv2) as (_ & t & n & w & -> & Nt & En & Ew).
    change (dispatch num g (k "font-style")) with (read_style num g). cbn [read_style read_style_loop]. unfold text_in. cbn [v_text v_number v_unit].
    change (smem (k "oblique") [k "normal"; k "italic"]) with false. change (smem (k "oblique") [k "oblique"]) with true.
    cbv iota zeta. eexists. split; [reflexivity |]. split.
    + intros p [<- | [<- | [<- | []]]]; unfold TextFormatModel.attr at 1.
      * rewrite !set_other by discriminate. rewrite set_same. symmetry. exact E.
      * rewrite set_other by discriminate. rewrite set_same. symmetry. exact En.
      * rewrite set_same. exact Ew.
    + intros p Hp. rewrite !set_other; [reflexivity | | |]; intros <-; apply Hp; cbn; auto.
Qed.
Lemma stretch_piece : forall f, keyword num stretch_words (attr f Font_stretch) ->
  piece f (plain num num_zero (k "font-stretch") f Font_stretch) [Font_stretch].
Proof.
  intros f [E | (t & E & Ht)]; unfold plain; rewrite E; cbn [TextFormatModel.truthy].
  - apply piece_nil. intros q [<- | []]. exact E.
  - assert (empty_list t = false) as ->.
    { unfold stretch_words in Ht. cbn [In] in Ht. repeat (destruct Ht as [<- | Ht]; [reflexivity |]). contradiction. }
    cbn [negb]. apply piece_one. intros vs g W _.
    inversion W as [| a v l' m' Sv W' E1 E2]; subst vs. inversion W'; subst. inversion Sv; subst. rewrite app_nil_r in *.
    change (dispatch num g (k "font-stretch")) with (read_stretch num g). cbn [read_stretch]. unfold text_in. cbn [v_text].
    rewrite (smem_true _ _ Ht). eexists. split; [reflexivity |]. split.
    + intros p [<- | []]. unfold TextFormatModel.attr. rewrite set_same. symmetry. exact E.
    + intros p Hp. apply set_other. intros <-. apply Hp. left. reflexivity.
Qed.
Lemma weight_piece : forall f, keyword num weight_words (attr f Font_weight) \/
    (exists n, attr f Font_weight = FNum num n /\ num_zero n = false) ->
  piece f (plain num num_zero (k "font-weight") f Font_weight) [Font_weight].
Proof.
  intros f [[E | (t & E & Ht)] | (n & E & Z)]; unfold plain; rewrite E; cbn [TextFormatModel.truthy].
  - apply piece_nil. intros q [<- | []]. exact E.
  - assert (empty_list t = false) as -> by (destruct (l_weight t Ht) as (c & r & -> & _); reflexivity).
    cbn [negb]. apply piece_one. intros vs g W _.
    inversion W as [| a v l' m' Sv W' E1 E2]; subst vs. inversion W'; subst. inversion Sv; subst. rewrite app_nil_r in *.
    change (dispatch num g (k "font-weight")) with (read_weight num g). cbn [read_weight]. unfold text_in. cbn [v_text].
    rewrite (smem_true _ _ Ht). eexists. split; [reflexivity |]. split.
    + intros p [<- | []]. unfold TextFormatModel.attr. rewrite set_same. symmetry. exact E.
    + intros p Hp. apply set_other. intros <-. apply Hp. left. reflexivity.
  - rewrite Z. cbn [negb]. apply piece_one. intros vs g W _.
    inversion W as [| a v l' m' Sv W' E1 E2]; subst vs. inversion W'; subst. inversion Sv; subst.
    change (dispatch num g (k "font-weight")) with (read_weight num g). cbn [read_weight]. unfold text_in. cbn [v_text v_number].
    rewrite (no_word_in _ _ H0 l_weight). eexists. split; [reflexivity |]. split.
    + intros p [<- | []]. unfold TextFormatModel.attr. rewrite set_same. symmetry. exact E.
    + intros p Hp. apply set_other. intros <-. apply Hp. left. reflexivity.
Qed.

(** ** Decoration *)
Lemma lines_read : forall l decos vs rest, Forall2 stands (map (WText num) l) vs -> (forall t, In t l -> In t line_words) ->
  lines_of num decos (vs ++ rest) = lines_of num (decos ++ l) rest.
Proof.
  induction l as [| t l IH]; intros decos vs rest W H; inversion W as [| a v l' m' Sv W' E1 E2]; subst; cbn [app].
  - rewrite app_nil_r. reflexivity.
  - inversion Sv; subst. cbn [lines_of v_text]. rewrite (smem_true _ _ (H t (or_introl eq_refl))).
    rewrite IH with (1 := W') by (intros x Hx; apply H; right; exact Hx). rewrite <- app_assoc. reflexivity.
Qed.
Lemma lines_colorless : forall l vs rest p g, Forall2 stands (map (WText num) l) vs ->
  read_color_as num p g (vs ++ rest) = read_color_as num p g rest.
Proof.
  induction l as [| t l IH]; intros vs rest p g W; inversion W as [| a v l' m' Sv W' E1 E2]; subst; [reflexivity |].
  inversion Sv; subst. cbn [app read_color_as v_color]. apply IH. exact W'.
Qed.
Lemma lines_styleless : forall l vs rest g, Forall2 stands (map (WText num) l) vs -> (forall t, In t l -> In t line_words) ->
  read_keyword num Text_decoration_style style_words g (vs ++ rest) = read_keyword num Text_decoration_style style_words g rest.
Proof.
  induction l as [| t l IH]; intros vs rest g W H; inversion W as [| a v l' m' Sv W' E1 E2]; subst; [reflexivity |].
  inversion Sv; subst. cbn [app read_keyword]. unfold text_in. cbn [v_text].
  assert (smem t style_words = false) as ->.
  { destruct (H t (or_introl eq_refl)) as [<- | [<- | [<- | []]]]; reflexivity. }
  apply IH; [exact W' | intros x Hx; apply H; right; exact Hx].
Qed.
Lemma decoration_piece : forall f,
  a_color num (attr f Text_decoration_color) ->
  (exists l, attr f Text_decoration_line = FTexts num l /\ forall t, In t l -> In t line_words) ->
  keyword num style_words (attr f Text_decoration_style) ->
  piece f (write_text_decoration num num_zero f) [Text_decoration_color; Text_decoration_line; Text_decoration_style].
Proof.
  intros f C (l & El & Hl) K. unfold write_text_decoration. cbv zeta. rewrite El. cbn [text_words].
  set (ws := if truthy (attr f Text_decoration_style) then _ else []).
  set (wc := if truthy (attr f Text_decoration_color) then _ else []).
  destruct (empty_list (map (WText num) l ++ ws ++ wc)) eqn:Em.
  - destruct l as [| t l]; [| discriminate]. destruct ws as [| w ws'] eqn:Ews; [| discriminate].
    destruct wc as [| w wc'] eqn:Ewc; [| discriminate]. subst ws wc. apply piece_nil. intros p [<- | [<- | [<- | []]]].
    + destruct C as [-> | [c E]]; [reflexivity |]. rewrite E in Ewc. discriminate.
    + exact El.
    + destruct K as [-> | (t & E & Ht)]; [reflexivity |]. rewrite E in Ews. cbn [TextFormatModel.truthy] in Ews.
      destruct (l_style t Ht) as (c & r & -> & _). discriminate.
  - apply piece_one. intros vs g W N. clear Em.
    apply Forall2_app_inv_l in W as (vl & vr & Wl & W & ->). apply Forall2_app_inv_l in W as (v2 & v3 & W2 & W3 & ->).
    change (dispatch num g (k "text-decoration")) with (read_text_decoration num g). unfold read_text_decoration.
    (* what the values for the style and the color are *)
    assert ((v2 = [] /\ attr f Text_decoration_style = FNone num) \/
      exists t, v2 = [V num (mkval num (Some t) None None None false)] /\ attr f Text_decoration_style = FText num t /\ In t style_words) as S2.
    { destruct K as [E | (t & E & Ht)]; unfold ws in W2; rewrite E in W2; cbn [TextFormatModel.truthy] in W2.
      - inversion W2. left. auto.
      - destruct (l_style t Ht) as (c & r & Et & _). rewrite Et in W2. cbn [empty_list negb] in W2. rewrite <- Et in W2.
        inversion W2 as [| a v l' m' Sv W' E1 E2]; subst. inversion W'; subst. inversion Sv; subst. rewrite app_nil_r in *.
        right. exists (c :: r). auto. }
    assert ((v3 = [] /\ attr f Text_decoration_color = FNone num) \/
      exists t c, v3 = [V num (mkval num t None None (Some c) false)] /\ attr f Text_decoration_color = FColor num c /\ no_word t) as S3.
    { destruct C as [E | (c & E)]; unfold wc in W3; rewrite E in W3; cbn [TextFormatModel.truthy color_word] in W3.
      - inversion W3. left. auto.
      - inversion W3 as [| a v l' m' Sv W' E1 E2]; subst. inversion W'; subst. inversion Sv; subst.
        right. eexists _, c. auto. }
    clear W2 W3 ws wc. rewrite (lines_colorless _ _ _ _ _ Wl).
    assert (exists g1, read_color_as num Text_decoration_color g (v2 ++ v3) = Some g1 /\
      attr g1 Text_decoration_color = attr f Text_decoration_color /\ (forall p, p <> Text_decoration_color -> g1 p = g p)) as (g1 & R1 & A1 & O1).
    { assert (read_color_as num Text_decoration_color g (v2 ++ v3) = read_color_as num Text_decoration_color g v3) as ->.
      { destruct S2 as [[-> _] | (t & -> & _)]; reflexivity. }
      destruct S3 as [[-> E] | (t & c & -> & E & _)]; cbn [read_color_as v_color]; eexists; (split; [reflexivity |]).
      - split; [| reflexivity]. rewrite E. unfold TextFormatModel.attr. rewrite N by (cbn; auto). reflexivity.
      - split; [unfold TextFormatModel.attr; rewrite set_same; symmetry; exact E |]. intros p Hp. apply set_other. congruence. }
    rewrite R1. cbn [obind]. unfold read_line. rewrite (lines_read l [] vl _ Wl Hl). cbn [app].
    assert (lines_of num l (v2 ++ v3) = Some l) as ->.
    { assert (lines_of num l (v2 ++ v3) = lines_of num l v3) as ->.
      { destruct S2 as [[-> _] | (t & -> & _ & Ht)]; [reflexivity |]. cbn [app lines_of v_text].
        unfold style_words in Ht. cbn [In] in Ht. repeat (destruct Ht as [<- | Ht]; [reflexivity |]). contradiction. }
      destruct S3 as [[-> _] | (t & c & -> & _ & Nw)]; [reflexivity |]. destruct Nw as (x & r & -> & L). cbn [lines_of v_text].
      pose proof (no_word_in (Some (x :: r)) line_words (ex_intro _ x (ex_intro _ r (conj eq_refl L))) l_line) as Q.
      cbv iota in Q. rewrite Q. destruct (str_eqb (x :: r) (k "none")) eqn:En; [| reflexivity].
      apply str_eqb_eq in En. assert (x = 110) as -> by (injection En; auto). lia. }
    cbn [option_map obind]. rewrite (lines_styleless _ _ _ _ Wl Hl).
    set (g2 := set g1 Text_decoration_line (FTexts num l)).
    assert (exists g3, read_keyword num Text_decoration_style style_words g2 (v2 ++ v3) = Some g3 /\
      attr g3 Text_decoration_style = attr f Text_decoration_style /\ (forall p, p <> Text_decoration_style -> g3 p = g2 p)) as (g3 & R3 & A3 & O3).
    { destruct S2 as [[-> E] | (t & -> & E & Ht)].
      - exists g2. split; [| split; [| reflexivity]].
        + cbn [app]. destruct S3 as [[-> _] | (t & c & -> & _ & Nw)]; [reflexivity |]. cbn [read_keyword]. unfold text_in. cbn [v_text].
          rewrite (no_word_in t _ Nw l_style). reflexivity.
        + rewrite E. unfold g2, TextFormatModel.attr. rewrite set_other by discriminate. rewrite O1 by discriminate.
          rewrite N by (cbn; auto). reflexivity.
      - cbn [app read_keyword]. unfold text_in. cbn [v_text]. rewrite (smem_true _ _ Ht). eexists. split; [reflexivity |].
        split; [unfold TextFormatModel.attr; rewrite set_same; symmetry; exact E |]. intros p Hp. apply set_other. congruence. }
    exists g3. split; [exact R3 |]. split.
    + intros p [<- | [<- | [<- | []]]]; [| | exact A3].
      * rewrite <- A1. unfold TextFormatModel.attr. rewrite O3 by discriminate. unfold g2. rewrite set_other by discriminate. reflexivity.
      * rewrite El. unfold TextFormatModel.attr. rewrite O3 by discriminate. unfold g2. rewrite set_same. reflexivity.
    + intros p Hp. rewrite O3 by (intros ->; apply Hp; cbn; auto). unfold g2.
      rewrite set_other by (intros <-; apply Hp; cbn; auto). apply O1. intros ->. apply Hp. cbn. auto.
Qed.

Ltac apart := let p := fresh in let H := fresh in let C := fresh in intros p H C; cbn [In app] in H, C;
  repeat (destruct H as [<- | H]); try contradiction; repeat (destruct C as [C | C]; [discriminate |]); contradiction.
Ltac nonempty := let H := fresh in intros ? H; cbn [In] in H; repeat (destruct H as [<- | H]; [discriminate |]); contradiction.
Theorem written_same : forall f props, tidy num num_zero f -> reads_as (css_properties num num_dec num_zero f) props ->
  exists f', text_format num props = Some f' /\ looks_same num f' f.
Proof.
  intros f props T R.
  assert (exists P, piece f (css_properties num num_dec num_zero f) P /\ forall p, In p P) as (P & H & A).
  { eexists. split.
    - unfold css_properties, write_color, write_font.
      repeat (apply piece_app; [| | ]).
      all: first [ apply color_piece; [apply (t_colors num num_zero f T); cbn; tauto | reflexivity | reflexivity]
                 | apply decoration_piece; [apply (t_colors num num_zero f T); cbn; tauto | apply T | apply T]
                 | apply family_piece; apply T | apply size_piece; apply T | apply slant_piece; apply T
                 | apply stretch_piece; apply T | apply weight_piece; apply T | idtac ].
      all: try (eapply keyword_piece; [apply (t_kerning num num_zero f T) | reflexivity | nonempty | reflexivity]).
      all: try (eapply keyword_piece; [apply (t_caps num num_zero f T) | reflexivity | nonempty | reflexivity]).
      all: try (eapply keyword_piece; [apply (t_position num num_zero f T) | reflexivity | nonempty | reflexivity]).
      all: apart.
    - intros p. destruct p; cbn; tauto. }
  destruct (H props (nothing num) R ltac:(intros; reflexivity)) as (f' & E & S1 & _).
  exists f'. split; [exact E |]. intros p. apply S1, A.
Qed.
End Format.
