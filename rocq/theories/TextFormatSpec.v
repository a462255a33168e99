(** Specification for text formats. *)
From Coq Require Import ZArith.
From Verif Require Import Base CssModel CssReadModel CssColorModel TextFormatModel.
Import Strings.String.StringSyntax.

(** The css property an attribute belongs to: attributes with the same number say one thing together. *)
Definition topic (p : prop) : nat :=
  match p with
  | Color => 0
  | Background_color => 1
  | Caret_color => 2
  | Text_decoration_color | Text_decoration_line | Text_decoration_style => 3
  | Font_family => 4
  | Font_kerning => 5
  | Font_size | Font_size_unit => 6
  | Font_stretch => 7
  | Font_style | Font_style_angle | Font_style_angle_unit => 8
  | Font_variant_caps => 9
  | Font_variant_position => 10
  | Font_weight => 11
  end.

(** The css properties and the numbers of the attributes they set; [font] sets several. *)
Definition css_topics : list (str * nat) :=
  [(k "color", 0); (k "background-color", 1); (k "background", 1); (k "caret-color", 2); (k "text-decoration-color", 3);
   (k "text-decoration-line", 3); (k "text-decoration-style", 3); (k "text-decoration", 3); (k "font-family", 4);
   (k "font-kerning", 5); (k "font-size", 6); (k "font-stretch", 7); (k "font-style", 8); (k "font-variant-caps", 9);
   (k "font-variant-position", 10); (k "font-weight", 11)].

Section Format.
Variable num : Type.
Variable num_zero : num -> bool.
(** Whether a character is matched by [\w]. *)
Variable wordchar : nat -> bool.
Notation fmt := (fmt num).

(** Only a unit is ever set to None. *)
Definition units_only (f : fmt) : Prop :=
  forall p, f p = Some (FNone num) -> p = Font_size_unit \/ p = Font_style_angle_unit.
(** No attribute can be told apart. *)
Definition looks_same (f g : fmt) : Prop := forall p, attr num f p = attr num g p.

(** A value that is one of some keywords, and the keywords among some values. *)
Definition is_one_of (words : list str) (v : value num) : Prop := exists t, v_text num v = Some t /\ In t words.
Fixpoint chosen (words : list str) (l : list (value num)) : list str :=
  match l with
  | [] => []
  | v :: l =>
      match v_text num v with
      | Some t => if in_dec (list_eq_dec Nat.eq_dec) t words then t :: chosen words l else chosen words l
      | None => chosen words l
      end
  end.
(** The last one of them, and the families and numbers (with unit) among some values. *)
Definition last_one (words : list str) (l : list (value num)) : option str := last (map Some (chosen words l)) None.
Definition families (l : list (value num)) : list str :=
  flat_map (fun v => match v_text num v with
    | Some (c :: t) => if v_quoted num v then [c :: t] else chosen family_words [v]
    | _ => []
    end) l.
Definition numbers (l : list (value num)) : list (num * option str) :=
  flat_map (fun v => match v_number num v with Some n => [(n, v_unit num v)] | None => [] end) l.

(** ** What is written, as the css reader gives it back
    A color has its hexadecimal notation as text, a number the text it was written with; neither begins with a letter.
    A text that needs no quotes is an identifier, otherwise it is a quoted string. *)
Definition no_word (t : option str) : Prop := exists c r, t = Some (c :: r) /\ c < 65.
Inductive stands : word num -> cv num -> Prop :=
  | st_color c t : no_word t -> stands (WColor num c) (V num (mkval num t None None (Some c) false))
  | st_text t : stands (WText num t) (V num (mkval num (Some t) None None None false))
  | st_plain t : quote_if_needed wordchar t = t -> stands (WQuote num t) (V num (mkval num (Some t) None None None false))
  | st_quoted t : quote_if_needed wordchar t <> t -> stands (WQuote num t) (V num (mkval num (Some t) None None None true))
  | st_num n t : no_word t -> stands (WUnit num (FNum num n) []) (V num (mkval num t (Some n) None None false))
  | st_unit n t c u : no_word t ->
      stands (WUnit num (FNum num n) (c :: u)) (V num (mkval num t (Some n) (Some (c :: u)) None false))
  | st_ident t u : stands (WUnit num (FText num t) u) (V num (mkval num (Some (t ++ u)) None None None false))
  | st_comma : stands (WComma num) (Delim num (k ",")).
Definition reads_as (l : list (str * list (word num))) (m : list (str * list (cv num))) : Prop :=
  Forall2 (fun a b => fst a = fst b /\ Forall2 stands (snd a) (snd b)) l m.

(** ** Formats that survive writing and reading *)
Definition keyword (words : list str) (v : fval num) : Prop := v = FNone num \/ exists t, v = FText num t /\ In t words.
Definition a_color (v : fval num) : Prop := v = FNone num \/ exists c, v = FColor num c.
(** A number with its unit: not zero. *)
Definition measure (v u : fval num) : Prop :=
  exists n, v = FNum num n /\ num_zero n = false /\ (u = FNone num \/ exists c t, u = FText num (c :: t)).
Record tidy (f : fmt) : Prop := {
  t_colors : forall p, In p [Color; Background_color; Caret_color; Text_decoration_color] -> a_color (attr num f p);
  t_line : exists l, attr num f Text_decoration_line = FTexts num l /\ forall t, In t l -> In t line_words;
  t_style : keyword style_words (attr num f Text_decoration_style);
  t_family : attr num f Font_family = FTexts num [] \/
    exists t, attr num f Font_family = FTexts num [t] /\ In t family_words;
  t_kerning : keyword kerning_words (attr num f Font_kerning);
  t_size : (keyword size_words (attr num f Font_size) /\ attr num f Font_size_unit = FNone num) \/
    measure (attr num f Font_size) (attr num f Font_size_unit);
  t_stretch : keyword stretch_words (attr num f Font_stretch);
  t_slant : (keyword [k "normal"; k "italic"; k "oblique"] (attr num f Font_style) /\
       attr num f Font_style_angle = FNone num /\ attr num f Font_style_angle_unit = FNone num) \/
    (attr num f Font_style = FText num (k "oblique") /\
       measure (attr num f Font_style_angle) (attr num f Font_style_angle_unit));
  t_caps : keyword caps_words (attr num f Font_variant_caps);
  t_position : keyword position_words (attr num f Font_variant_position);
  t_weight : keyword weight_words (attr num f Font_weight) \/
    exists n, attr num f Font_weight = FNum num n /\ num_zero n = false }.
End Format.
