(** C96, C97, C98: text formats. *)
From Coq Require Import ZArith ZifyBool.
From Verif Require Import Base CssModel CssReadModel CssColorModel TextFormatModel TextFormatSpec TextFormatProofs TextFormatWriteProofs TextFormatReadProofs.
Import Strings.String.StringSyntax.

(** ** C96: adding and subtracting formats
    Subtracting keeps precisely the attributes of css properties that say something else in the other format. *)
Theorem C96_subtract : forall num num_dec (g f : fmt num) p v,
  sub num num_dec g f p = Some v <-> g p = Some v /\ exists q, topic q = topic p /\ get num g q <> get num f q.
Proof. exact sub_iff. Qed.
Print Assumptions C96_subtract.
Theorem C96_add : forall num (f g h : fmt num),
  (forall p v, g p = Some v -> add num f g p = Some v) /\
  (forall p, g p = None -> add num f g p = f p) /\
  same num (add num f (add num g h)) (add num (add num f g) h) /\
  same num (add num f (nothing num)) f /\ same num (add num (nothing num) f) f /\ same num (add num f f) f.
Proof.
  intros num f g h. unfold same, add, nothing.
  split; [intros p v E; rewrite E; reflexivity |]. split; [intros p E; rewrite E; reflexivity |].
  split; [intros p; destruct (h p), (g p); reflexivity |]. split; [reflexivity |].
  split; [intros p | intros p]; destruct (f p); reflexivity.
Qed.
Print Assumptions C96_add.
(** What is left after subtracting the format of the window, put over that of the window, looks like the format itself
    put over that of the window. *)
Theorem C96_overlay : forall num num_dec (f g : fmt num), units_only num g ->
  looks_same num (add num f (sub num num_dec g f)) (add num f g).
Proof. exact overlay. Qed.
Print Assumptions C96_overlay.
(** The hypothesis holds for all formats there are: those read from css properties, and those made from others. *)
Theorem C96_reachable : forall num num_dec,
  (forall props f, text_format num props = Some f -> units_only num f) /\
  (forall f g : fmt num, units_only num f -> units_only num g -> units_only num (add num f g)) /\
  (forall f g : fmt num, units_only num f -> units_only num (sub num num_dec f g)).
Proof.
  intros num num_dec. split; [intros props f E; exact (units_read num props _ _ (units_nothing num) E) |].
  split; [apply units_add | apply units_sub].
Qed.
Print Assumptions C96_reachable.
(** Nothing is left of a format subtracted from itself, and nothing more by subtracting twice. *)
Theorem C96_again : forall num num_dec (f g : fmt num),
  is_empty num (sub num num_dec f f) /\ same num (sub num num_dec (sub num num_dec g f) f) (sub num num_dec g f).
Proof.
  intros num num_dec f g. split.
  - intros p. destruct (sub num num_dec f f p) as [v |] eqn:E; [| reflexivity].
    apply sub_iff in E as (_ & q & _ & N). congruence.
  - intros p. destruct (sub num num_dec g f p) as [v |] eqn:E.
    + apply sub_iff. split; [exact E |]. apply sub_iff in E as (E & q & T & N). exists q. split; [exact T |].
      assert (get num (sub num num_dec g f) q = get num g q) as ->; [| exact N].
      unfold get. destruct (g q) as [w |] eqn:Eg.
      * assert (sub num num_dec g f q = Some w) as ->; [| reflexivity]. apply sub_iff. split; [exact Eg |].
        exists q. split; [reflexivity | exact N].
      * destruct (sub num num_dec g f q) as [w |] eqn:Es; [| reflexivity]. apply sub_iff in Es as [Es _]. congruence.
    + destruct (sub num num_dec (sub num num_dec g f) f p) as [v |] eqn:E2; [| reflexivity].
      apply sub_iff in E2 as [E2 _]. congruence.
Qed.
Print Assumptions C96_again.
(** They need not be equal: a size without unit stores None for the unit, and a size by keyword does not store any. *)
Definition n_val (n : nat) (u : option str) : value nat := mkval nat (Some [49]) (Some n) u None false.
Definition t_val (t : str) : value nat := mkval nat (Some t) None None None false.
Definition q_val (t : str) : value nat := mkval nat (Some t) None None None true.
Definition N_format := text_format nat.
Theorem C96_equal_refuted : exists f g : fmt nat,
  N_format [(k "font-size", [V nat (t_val (k "large"))])] = Some f /\
  (exists g', N_format [(k "font-size", [V nat (n_val 12 None)])] = Some g' /\ g = add nat g' f) /\
  is_empty nat (sub nat Nat.eq_dec g f) /\ ~ same nat (add nat f (sub nat Nat.eq_dec g f)) (add nat f g).
Proof.
  do 2 eexists. split; [reflexivity |]. split; [eexists; split; reflexivity |]. split.
  - intros p. destruct p; vm_compute; reflexivity.
  - intros H. specialize (H Font_size_unit). vm_compute in H. discriminate.
Qed.
Print Assumptions C96_equal_refuted.
(** A window of 12pt serif, and a comment of 12pt in italics. *)
Example C96_ex : exists f g,
  N_format [(k "font-size", [V nat (n_val 12 (Some (k "pt")))]); (k "font-family", [V nat (t_val (k "serif"))])] = Some f /\
  N_format [(k "font-style", [V nat (t_val (k "italic"))]); (k "font-size", [V nat (n_val 12 (Some (k "pt")))])] = Some g /\
  sub nat Nat.eq_dec g f Font_style = Some (FText nat (k "italic")) /\ sub nat Nat.eq_dec g f Font_size = None /\
  add nat f (sub nat Nat.eq_dec g f) Font_size = Some (FNum nat 12).
Proof. do 2 eexists. split; [reflexivity |]. split; [reflexivity |]. vm_compute. auto. Qed.

(** ** C97: writing a format as css properties and reading it
    Full statement: a format read from css properties, written as css properties, and these read, is the same format.
    Proved for formats where every attribute has one of its own keywords or a color, or (size, slant and weight) a
    number that is not zero, and with no more than one family, which has a generic name. *)
Theorem C97_written_read_partial : forall num num_dec num_zero wordchar f props, tidy num num_zero f ->
  reads_as num wordchar (css_properties num num_dec num_zero f) props ->
  exists f', text_format num props = Some f' /\ looks_same num f' f.
Proof. exact written_same. Qed.
Print Assumptions C97_written_read_partial.
(** Otherwise: what is written, and what is read back. *)
Definition is_zero (n : nat) : bool := Nat.eqb n 0.
Definition letter (c : nat) : bool := (97 <=? c) && (c <=? 122) || (65 <=? c) && (c <=? 90).
Definition back (props : list (str * list (cv nat))) (r : option (fmt nat)) : Prop :=
  exists f, N_format props = Some f /\
  exists props', reads_as nat letter (css_properties nat Nat.eq_dec is_zero f) props' /\ N_format props' = r.
(** A size of zero is lost. *)
Theorem C97_zero_refuted : exists f, N_format [(k "font-size", [V nat (n_val 0 (Some (k "pt")))])] = Some f /\
  attr nat f Font_size = FNum nat 0 /\ css_properties nat Nat.eq_dec is_zero f = [].
Proof. eexists. split; [reflexivity |]. split; reflexivity. Qed.
Print Assumptions C97_zero_refuted.
(** A percentage for the stretch is written without its sign, and then not read. *)
Theorem C97_stretch_refuted : exists f', back [(k "font-stretch", [V nat (n_val 75 (Some (k "%")))])] (Some f') /\
  attr nat f' Font_stretch = FNone nat.
Proof.
  eexists. split.
  - eexists. split; [reflexivity |]. exists [(k "font-stretch", [V nat (n_val 75 None)])]. split; [| reflexivity].
    apply Forall2_cons; [| constructor]. split; [reflexivity |]. apply Forall2_cons; [| constructor].
    apply st_num. exists 49, []. split; [reflexivity | lia].
  - reflexivity.
Qed.
Print Assumptions C97_stretch_refuted.
(** Two families are written with a comma, and reading these fails. *)
Theorem C97_families_refuted : back [(k "font-family", [V nat (t_val (k "serif")); V nat (t_val (k "monospace"))])] None.
Proof.
  eexists. split; [reflexivity |].
  exists [(k "font-family", [V nat (t_val (k "serif")); Delim nat (k ","); V nat (t_val (k "monospace"))])]. split; [| reflexivity].
  apply Forall2_cons; [| constructor]. split; [reflexivity |].
  apply Forall2_cons; [apply st_plain; reflexivity |]. apply Forall2_cons; [apply st_comma |].
  apply Forall2_cons; [apply st_plain; reflexivity | constructor].
Qed.
Print Assumptions C97_families_refuted.
(** The name of a font is written without its quotes, and then not read. *)
Theorem C97_quotes_refuted : exists f', back [(k "font-family", [V nat (q_val (k "Arial"))])] (Some f') /\
  attr nat f' Font_family = FTexts nat [].
Proof.
  eexists. split.
  - eexists. split; [reflexivity |]. exists [(k "font-family", [V nat (t_val (k "Arial"))])]. split; [| reflexivity].
    apply Forall2_cons; [| constructor]. split; [reflexivity |]. apply Forall2_cons; [| constructor].
    apply st_plain. reflexivity.
  - reflexivity.
Qed.
Print Assumptions C97_quotes_refuted.
(** A size by keyword is written with the unit of a size before it, and then not read. *)
Theorem C97_unit_refuted : exists f',
  back [(k "font", [V nat (n_val 12 (Some (k "pt"))); V nat (t_val (k "serif"))]); (k "font-size", [V nat (t_val (k "large"))])] (Some f') /\
  attr nat f' Font_size = FNone nat.
Proof.
  eexists. split.
  - eexists. split; [reflexivity |].
    exists [(k "font-family", [V nat (t_val (k "serif"))]); (k "font-size", [V nat (t_val (k "largept"))])]. split; [| reflexivity].
    apply Forall2_cons; [split; [reflexivity |]; apply Forall2_cons; [apply st_plain; reflexivity | constructor] |].
    apply Forall2_cons; [| constructor]. split; [reflexivity |]. apply Forall2_cons; [| constructor].
    exact (st_ident nat letter (k "large") (k "pt")).
  - reflexivity.
Qed.
Print Assumptions C97_unit_refuted.
(* oblique by 10 degrees, and underlined *)
Example C97_ex : exists f,
  N_format [(k "font-style", [V nat (t_val (k "oblique")); V nat (n_val 10 (Some (k "deg")))]);
            (k "text-decoration", [V nat (t_val (k "underline"))]); (k "font-size", [V nat (t_val (k "large"))])] = Some f /\
  tidy nat is_zero f /\
  css_properties nat Nat.eq_dec is_zero f =
    [(k "text-decoration", [WText nat (k "underline")]); (k "font-size", [WUnit nat (FText nat (k "large")) []]);
     (k "font-style", [WText nat (k "oblique"); WUnit nat (FNum nat 10) (k "deg")])].
Proof.
  eexists. split; [reflexivity |]. split; [| reflexivity].
  constructor.
  - intros p Hp. left. cbn [In] in Hp. repeat (destruct Hp as [<- | Hp]; [reflexivity |]). contradiction.
  - exists [k "underline"]. split; [reflexivity |]. intros t [<- | []]. left. reflexivity.
  - left. reflexivity.
  - left. reflexivity.
  - left. reflexivity.
  - left. split; [right; exists (k "large"); split; [reflexivity |]; do 4 right; left; reflexivity | reflexivity].
  - left. reflexivity.
  - right. split; [reflexivity |]. exists 10. split; [reflexivity |]. split; [reflexivity |].
    right. exists 100, (k "eg"). reflexivity.
  - left. reflexivity.
  - left. reflexivity.
  - left. left. reflexivity.
Qed.

(** ** C98: what is read from css properties
    Full statement: reading never fails, and every property sets only the attributes it is about, to the first of its
    values that is acceptable. It never fails for properties with at least one value, and values without delimiters. *)
Theorem C98_read_partial : forall num props,
  (forall p vs, In (p, vs) props -> exists l, vs = map (V num) l /\ l <> []) -> exists f, text_format num props = Some f.
Proof. intros num props H. exact (read_some num props _ H). Qed.
Print Assumptions C98_read_partial.
(** Everything but [font] leaves the attributes alone that it is not about; other properties do nothing. *)
Theorem C98_topic : forall num name t f f' vs, In (name, t) css_topics -> dispatch num f name vs = Some f' ->
  forall p, topic p <> t -> f' p = f p.
Proof. exact dispatch_touches. Qed.
Print Assumptions C98_topic.
Theorem C98_other : forall num name f vs, ~ In name (k "font" :: map fst css_topics) -> dispatch num f name vs = Some f.
Proof.
  intros num name f vs H. unfold dispatch.
  repeat match goal with |- (if str_eqb name ?w then _ else _) = _ =>
    let E := fresh in destruct (str_eqb name w) eqn:E;
    [apply CssProofs.str_eqb_eq in E; exfalso; apply H; rewrite E; vm_compute; tauto | clear E] end.
  reflexivity.
Qed.
Print Assumptions C98_other.
Definition color_property (name : str) (p : prop) : Prop :=
  In (name, p) [(k "color", Color); (k "background-color", Background_color); (k "background", Background_color);
                (k "caret-color", Caret_color); (k "text-decoration-color", Text_decoration_color)].
(** The first color counts. *)
Theorem C98_color : forall num name p f l, color_property name p ->
  (forall a v b c, l = a ++ v :: b -> (forall x, In x a -> v_color num x = None) -> v_color num v = Some c ->
    dispatch num f name (map (V num) l) = Some (set num f p (FColor num c))) /\
  ((forall x, In x l -> v_color num x = None) -> dispatch num f name (map (V num) l) = Some f).
Proof.
  intros num name p f l H. unfold color_property in H. cbn [In] in H.
  repeat (destruct H as [H | H]; [injection H as <- <-; exact (read_color_first num _ f l) |]). contradiction.
Qed.
Print Assumptions C98_color.
Definition keyword_property (name : str) (p : prop) (words : list str) : Prop :=
  In (name, (p, words)) [(k "text-decoration-style", (Text_decoration_style, style_words));
    (k "font-kerning", (Font_kerning, kerning_words)); (k "font-variant-caps", (Font_variant_caps, caps_words));
    (k "font-variant-position", (Font_variant_position, position_words))].
(** The first keyword counts. *)
Theorem C98_keyword : forall num name p words f l, keyword_property name p words ->
  (forall a v b t, l = a ++ v :: b -> (forall x, In x a -> ~ is_one_of num words x) -> v_text num v = Some t -> In t words ->
    dispatch num f name (map (V num) l) = Some (set num f p (FText num t))) /\
  ((forall x, In x l -> ~ is_one_of num words x) -> dispatch num f name (map (V num) l) = Some f).
Proof.
  intros num name p words f l H. unfold keyword_property in H. cbn [In] in H.
  repeat (destruct H as [H | H]; [injection H as <- <- <-; exact (read_keyword_first num _ _ f l) |]). contradiction.
Qed.
Print Assumptions C98_keyword.
(** The first size counts, a keyword or a number with its unit. *)
Theorem C98_size : forall num f l,
  (forall a v b, l = a ++ v :: b -> (forall x, In x a -> ~ is_one_of num size_words x /\ v_number num x = None) ->
    (forall t, v_text num v = Some t -> In t size_words ->
      dispatch num f (k "font-size") (map (V num) l) = Some (set num f Font_size (FText num t))) /\
    (forall n, ~ is_one_of num size_words v -> v_number num v = Some n ->
      dispatch num f (k "font-size") (map (V num) l) =
        Some (set num (set num f Font_size (FNum num n)) Font_size_unit (opt_text num (v_unit num v))))).
Proof. intros num f l. exact (proj1 (read_size_first num f l)). Qed.
Print Assumptions C98_size.
(** So it is for the weight. *)
Theorem C98_weight : forall num f l,
  (forall a v b, l = a ++ v :: b -> (forall x, In x a -> ~ is_one_of num weight_words x /\ v_number num x = None) ->
    (forall t, v_text num v = Some t -> In t weight_words ->
      dispatch num f (k "font-weight") (map (V num) l) = Some (set num f Font_weight (FText num t))) /\
    (forall n, ~ is_one_of num weight_words v -> v_number num v = Some n ->
      dispatch num f (k "font-weight") (map (V num) l) = Some (set num f Font_weight (FNum num n)))).
Proof. intros num f l a v b E H. exact (read_weight_first num f l a v b E H). Qed.
Print Assumptions C98_weight.
(** A style is [normal] or [italic], or [oblique], in which case a number right after it is the angle. *)
Theorem C98_style : forall num f a v b t,
  (forall x, In x a -> ~ is_one_of num [k "normal"; k "italic"; k "oblique"] x) -> v_text num v = Some t ->
  (In t [k "normal"; k "italic"] ->
    dispatch num f (k "font-style") (map (V num) (a ++ v :: b)) = Some (set num f Font_style (FText num t))) /\
  (t = k "oblique" ->
    (forall n b' x, b = n :: b' -> v_number num n = Some x ->
      dispatch num f (k "font-style") (map (V num) (a ++ v :: b)) =
        Some (set num (set num (set num f Font_style (FText num t)) Font_style_angle (FNum num x)) Font_style_angle_unit (opt_text num (v_unit num n)))) /\
    ((forall n b', b = n :: b' -> v_number num n = None) -> (forall x, In x b -> ~ is_one_of num [k "normal"; k "italic"; k "oblique"] x) ->
      dispatch num f (k "font-style") (map (V num) (a ++ v :: b)) = Some (set num f Font_style (FText num t)))).
Proof. exact read_style_first. Qed.
Print Assumptions C98_style.
(** The families are those in quotes and the generic ones, in their order. *)
Theorem C98_family : forall num f l,
  dispatch num f (k "font-family") (map (V num) l) = Some (set num f Font_family (FTexts num (families num l))).
Proof.
  intros num f l. change (dispatch num f (k "font-family")) with (read_family num f). unfold read_family.
  rewrite families_spec. reflexivity.
Qed.
Print Assumptions C98_family.
(** The shorthand [font], when none of the fonts of the system is named: the style is read as above, the last keyword
    counts for small caps, stretch and weight; of the numbers the first is the weight and the second the size, or the
    only one is the size. *)
Theorem C98_font : forall num f l f1, dispatch num f (k "font-style") (map (V num) l) = Some f1 ->
  (forall x, In x l -> ~ is_one_of num system_words x) ->
  (forall x, In x l -> v_number num x <> None ->
    ~ is_one_of num ([k "normal"; k "small-caps"] ++ stretch_words ++ [k "bold"; k "lighter"; k "bolder"]) x) ->
  exists f', dispatch num f (k "font") (map (V num) l) = Some f' /\
  attr num f' Font_family = FTexts num (families num l) /\
  (forall p words, In (p, words) [(Font_variant_caps, [k "normal"; k "small-caps"]); (Font_stretch, stretch_words)] ->
    f' p = match last_one num words l with Some t => Some (FText num t) | None => f1 p end) /\
  (forall p, In p [Font_style; Font_style_angle; Font_style_angle_unit] -> f' p = f1 p) /\
  let weight := match last_one num [k "bold"; k "lighter"; k "bolder"] l with
                | Some t => FText num t | None => attr num f1 Font_weight end in
  match numbers num l with
  | [] => f' Font_size = f1 Font_size /\ f' Font_size_unit = f1 Font_size_unit /\ attr num f' Font_weight = weight
  | [(n, u)] => attr num f' Font_size = FNum num n /\ attr num f' Font_size_unit = opt_text num u /\
      attr num f' Font_weight = weight
  | (w, _) :: (n, u) :: _ => attr num f' Font_size = FNum num n /\ attr num f' Font_size_unit = opt_text num u /\
      attr num f' Font_weight = match weight with FNone _ => FNum num w | x => x end
  end.
Proof.
  intros num f l f1 E Hs Hn. destruct (read_font_plain num f l f1 E Hs Hn) as (f' & Ef & F & A & B & Hst & W).
  exists f'. split; [exact Ef |]. unfold attr. rewrite F. split; [reflexivity |].
  split; [intros p words Hp; cbn [In] in Hp; destruct Hp as [Hp | [Hp | []]]; injection Hp as <- <-; [exact A | exact B] |].
  split; [exact Hst |]. cbv zeta. change weights3 with [k "bold"; k "lighter"; k "bolder"] in W.
  destruct (numbers num l) as [| [w u] [| [n u2] r]]; destruct W as (W1 & W2 & W3).
  - split; [exact W1 |]. split; [exact W2 |]. rewrite W3. unfold later. destruct (last_one num [k "bold"; k "lighter"; k "bolder"] l); reflexivity.
  - rewrite W1, W2, W3. split; [reflexivity |]. split; [reflexivity |]. unfold later. destruct (last_one num [k "bold"; k "lighter"; k "bolder"] l); reflexivity.
  - rewrite W1, W2, W3. split; [reflexivity |]. split; [reflexivity |]. unfold later.
    destruct (last_one num [k "bold"; k "lighter"; k "bolder"] l); [reflexivity |]. destruct (f1 Font_weight) as [[] |]; reflexivity.
Qed.
Print Assumptions C98_font.
(** The lines after the last [none] count, in their order. *)
Theorem C98_lines : forall num f a n b, v_text num n = Some (k "none") ->
  (forall x, In x b -> v_text num x <> Some (k "none")) ->
  dispatch num f (k "text-decoration-line") (map (V num) (a ++ n :: b)) =
    Some (set num f Text_decoration_line (FTexts num (chosen num line_words b))) /\
  dispatch num f (k "text-decoration-line") (map (V num) b) =
    Some (set num f Text_decoration_line (FTexts num (chosen num line_words b))).
Proof.
  intros num f a n b En H. change (dispatch num f (k "text-decoration-line")) with (read_line num f). unfold read_line.
  rewrite (lines_cut num a n b [] En H), (lines_texts num b [] H). split; reflexivity.
Qed.
Print Assumptions C98_lines.
(** Every property about fonts fails when there is a comma that comes before an acceptable value. *)
Theorem C98_comma_refuted : forall num f s vs,
  dispatch num f (k "font-family") (Delim num s :: vs) = None /\ dispatch num f (k "color") (Delim num s :: vs) = None /\
  forall v, dispatch num f (k "font-family") (V num v :: Delim num s :: vs) = None.
Proof. intros num f s vs. split; [reflexivity |]. split; reflexivity. Qed.
Print Assumptions C98_comma_refuted.
(** So does a style without values. *)
Theorem C98_empty_refuted : forall num f, dispatch num f (k "font-style") [] = None /\ dispatch num f (k "font") [] = None.
Proof. intros num f. split; reflexivity. Qed.
Print Assumptions C98_empty_refuted.
(** A stretch is not the first one that is acceptable, but the last one. *)
Theorem C98_stretch_refuted : exists f, N_format [(k "font-stretch", [V nat (t_val (k "condensed")); V nat (t_val (k "expanded"))])] = Some f /\
  attr nat f Font_stretch = FText nat (k "expanded").
Proof. eexists. split; reflexivity. Qed.
Print Assumptions C98_stretch_refuted.
(** The shorthand [font] does not know the keywords for a size: such a size is lost. *)
Theorem C98_font_refuted : exists f, N_format [(k "font", [V nat (t_val (k "italic")); V nat (t_val (k "large")); V nat (t_val (k "serif"))])] = Some f /\
  attr nat f Font_size = FNone nat /\ attr nat f Font_style = FText nat (k "italic") /\
  attr nat f Font_family = FTexts nat [k "serif"].
Proof. eexists. split; [reflexivity |]. split; [reflexivity |]. split; reflexivity. Qed.
Print Assumptions C98_font_refuted.
(* font: oblique bold 12pt "Arial" serif *)
Example C98_font_ex : exists f, N_format [(k "font", map (V nat) [t_val (k "oblique"); t_val (k "bold"); n_val 12 (Some (k "pt")); q_val (k "Arial"); t_val (k "serif")])] = Some f /\
  attr nat f Font_weight = FText nat (k "bold") /\ attr nat f Font_size_unit = FText nat (k "pt") /\
  attr nat f Font_family = FTexts nat [k "Arial"; k "serif"].
Proof. eexists. split; [reflexivity |]. split; [reflexivity |]. split; reflexivity. Qed.
Example C98_ex : exists f, N_format
  [(k "text-decoration-line", map (V nat) [t_val (k "overline"); t_val (k "none"); t_val (k "underline"); t_val (k "blue"); t_val (k "line-through")]);
   (k "font-size", map (V nat) [t_val (k "big"); n_val 12 (Some (k "pt"))])] = Some f /\
  attr nat f Text_decoration_line = FTexts nat [k "underline"; k "line-through"] /\ attr nat f Font_size = FNum nat 12.
Proof. eexists. split; [reflexivity |]. split; reflexivity. Qed.
