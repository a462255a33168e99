(** Model of [TextFormat] in /repo/parce/theme.py (191-528): adding and subtracting formats, reading them from css
    properties and writing them as such. *)
From Coq Require Strings.String Strings.Ascii.
From Coq Require Import ZArith Floats.SpecFloat.
From Verif Require Import Base CssModel CssColorModel.
Import Strings.String.StringSyntax.

(** Texts for the keywords. *)
Definition k (s : Strings.String.string) : str := map Strings.Ascii.nat_of_ascii (Strings.String.list_ascii_of_string s).
Arguments k s%string_scope.

(** theme.py:233-249: the attributes. *)
Inductive prop :=
  | Color | Background_color | Caret_color
  | Text_decoration_color | Text_decoration_line | Text_decoration_style
  | Font_family | Font_kerning | Font_size | Font_size_unit | Font_stretch
  | Font_style | Font_style_angle | Font_style_angle_unit
  | Font_variant_caps | Font_variant_position | Font_weight.
Scheme Equality for prop.
Definition color_dec : forall a b : color, {a = b} + {a <> b}.
Proof.
  assert (forall a b : spec_float, {a = b} + {a <> b}) as F.
  { decide equality; try apply Bool.bool_dec; try apply Z.eq_dec; apply Pos.eq_dec. }
  decide equality; apply Z.eq_dec.
Defined.

Section Format.
(** Numbers ([int] or [float]), and whether one is zero. *)
Variable num : Type.
Variable num_dec : forall a b : num, {a = b} + {a <> b}.
Variable num_zero : num -> bool.

(** The value of an attribute. *)
Inductive fval :=
  | FNone
  | FColor (c : color)
  | FText (t : str)
  | FNum (n : num)
  | FTexts (l : list str).
Definition fval_dec : forall a b : fval, {a = b} + {a <> b}.
Proof. decide equality; [apply color_dec | apply (list_eq_dec Nat.eq_dec) | apply (list_eq_dec (list_eq_dec Nat.eq_dec))]. Defined.
(** The [__dict__] of a format. *)
Definition fmt := prop -> option fval.
Definition nothing : fmt := fun _ => None.
Definition set (f : fmt) (p : prop) (v : fval) : fmt := fun q => if prop_beq p q then Some v else f q.
(** [self.__dict__.get(prop)] *)
Definition get (f : fmt) (p : prop) : fval := match f p with Some v => v | None => FNone end.
(** [self.prop], where the class has the value for a missing one; [()] and [[]] are not told apart. *)
Definition attr (f : fmt) (p : prop) : fval :=
  match f p with
  | Some v => v
  | None => match p with Text_decoration_line | Font_family => FTexts [] | _ => FNone end
  end.
Definition has (f : fmt) (p : prop) : bool := match f p with Some _ => true | None => false end.

(** theme.py:269-282: the attributes that go together. *)
Definition groups : list (list prop) :=
  [[Color]; [Background_color]; [Caret_color];
   [Text_decoration_color; Text_decoration_line; Text_decoration_style];
   [Font_family]; [Font_kerning]; [Font_size; Font_size_unit]; [Font_stretch];
   [Font_style; Font_style_angle; Font_style_angle_unit];
   [Font_variant_caps]; [Font_variant_position]; [Font_weight]].
(** theme.py:266-290 [__sub__] *)
Definition copy (self new : fmt) (props : list prop) : fmt :=
  fold_left (fun new p => match self p with Some v => set new p v | None => new end) props new.
Definition sub (self other : fmt) : fmt :=
  fold_left (fun new props =>
    if existsb (has self) props &&
       existsb (fun p => if fval_dec (get self p) (get other p) then false else true) props
    then copy self new props else new) groups nothing.
(** theme.py:292-297 [__add__] *)
Definition add (self other : fmt) : fmt := fun p => match other p with Some v => Some v | None => self p end.
(** theme.py:299-305 [__eq__]; 262-264 [__bool__], as statements. *)
Definition same (f g : fmt) : Prop := forall p, f p = g p.
Definition is_empty (f : fmt) : Prop := forall p, f p = None.

(** ** Reading
    The value of a property is a list of [Value] objects and plain strings (delimiters); a string has no attribute
    [text], so that looking at it raises an [AttributeError]. *)
Record value := mkval { v_text : option str; v_number : option num; v_unit : option str; v_color : option color; v_quoted : bool }.
Inductive cv := V (v : value) | Delim (s : str).

Definition text_in (v : value) (l : list str) : bool := match v_text v with Some t => smem t l | None => false end.
Definition opt_text (u : option str) : fval := match u with Some t => FText t | None => FNone end.

(** theme.py:359-364, 366-371, 377-382, 384-389: the first color. *)
Fixpoint read_color_as (p : prop) (f : fmt) (values : list cv) : option fmt :=
  match values with
  | [] => Some f
  | Delim _ :: _ => None
  | V v :: values => match v_color v with Some c => Some (set f p (FColor c)) | None => read_color_as p f values end
  end.
(** The first value that is one of the keywords: theme.py:401-406, 432-437, 477-483, 485-490. *)
Fixpoint read_keyword (p : prop) (words : list str) (f : fmt) (values : list cv) : option fmt :=
  match values with
  | [] => Some f
  | Delim _ :: _ => None
  | V v :: values => if text_in v words then Some (set f p (opt_text (v_text v))) else read_keyword p words f values
  end.
Definition line_words : list str := [k "underline"; k "overline"; k "line-through"].
Definition style_words : list str := [k "solid"; k "double"; k "dotted"; k "dashed"; k "wavy"].
Definition family_words : list str := [k "serif"; k "sans-serif"; k "monospace"; k "cursive"; k "fantasy"; k "system-ui";
  k "math"; k "emoji"; k "fangsong"].
Definition kerning_words : list str := [k "auto"; k "normal"; k "none"].
Definition size_words : list str := [k "xx-small"; k "x-small"; k "small"; k "medium"; k "large"; k "x-large"; k "xx-large";
  k "xxx-large"; k "larger"; k "smaller"].
Definition stretch_words : list str := [k "ultra-condensed"; k "extra-condensed"; k "condensed"; k "semi-condensed";
  k "semi-expanded"; k "expanded"; k "extra-expanded"; k "ultra-expanded"].
Definition caps_words : list str := [k "normal"; k "small-caps"; k "all-small-caps"; k "petite-caps"; k "all-petite-caps";
  k "unicase"; k "titling-caps"].
Definition position_words : list str := [k "normal"; k "sub"; k "super"].
Definition weight_words : list str := [k "normal"; k "bold"; k "lighter"; k "bolder"].
Definition system_words : list str := [k "caption"; k "icon"; k "menu"; k "message-box"; k "small-caption"; k "status-bar"].

(** theme.py:391-399 [read_text_decoration_line] *)
Fixpoint lines_of (decos : list str) (values : list cv) : option (list str) :=
  match values with
  | [] => Some decos
  | Delim _ :: _ => None
  | V v :: values =>
      match v_text v with
      | Some t => lines_of (if smem t line_words then decos ++ [t] else if str_eqb t (k "none") then [] else decos) values
      | None => lines_of decos values
      end
  end.
Definition read_line (f : fmt) (values : list cv) : option fmt :=
  option_map (fun l => set f Text_decoration_line (FTexts l)) (lines_of [] values).
(** theme.py:408-412 [read_text_decoration] *)
Definition obind {A B} (x : option A) (g : A -> option B) : option B := match x with Some a => g a | None => None end.
Definition read_text_decoration (f : fmt) (values : list cv) : option fmt :=
  obind (read_color_as Text_decoration_color f values) (fun f =>
  obind (read_line f values) (fun f =>
  read_keyword Text_decoration_style style_words f values)).
(** theme.py:414-430 [read_font_family] *)
Fixpoint families_of (values : list cv) : option (list str) :=
  match values with
  | [] => Some []
  | Delim _ :: _ => None
  | V v :: values =>
      option_map (fun l =>
        match v_text v with
        | Some t => if negb (empty_list t) && (v_quoted v || smem t family_words) then t :: l else l
        | None => l
        end) (families_of values)
  end.
Definition read_family (f : fmt) (values : list cv) : option fmt :=
  option_map (fun l => set f Font_family (FTexts l)) (families_of values).
(** theme.py:439-450 [read_font_size] *)
Fixpoint read_size (f : fmt) (values : list cv) : option fmt :=
  match values with
  | [] => Some f
  | Delim _ :: _ => None
  | V v :: values =>
      if text_in v size_words then Some (set f Font_size (opt_text (v_text v)))
      else match v_number v with
           | Some n => Some (set (set f Font_size (FNum n)) Font_size_unit (opt_text (v_unit v)))
           | None => read_size f values
           end
  end.
(** theme.py:452-460 [read_font_stretch]: no [return]. *)
Definition is_percent (u : option str) : bool := match u with Some t => str_eqb t (k "%") | None => false end.
Fixpoint read_stretch (f : fmt) (values : list cv) : option fmt :=
  match values with
  | [] => Some f
  | Delim _ :: _ => None
  | V v :: values =>
      read_stretch
        (if text_in v stretch_words then set f Font_stretch (opt_text (v_text v))
         else match v_number v with
              | Some n => if is_percent (v_unit v) then set f Font_stretch (FNum n) else f
              | None => f
              end) values
  end.
(** theme.py:462-475 [read_font_style]; the first value is looked at with the next one at hand. *)
Fixpoint read_style_loop (f : fmt) (values : list cv) : option fmt :=
  match values with
  | [] => Some f
  | Delim _ :: _ => None
  | V v :: rest =>
      if text_in v [k "normal"; k "italic"] then Some (set f Font_style (opt_text (v_text v)))
      else if text_in v [k "oblique"] then
        let f := set f Font_style (opt_text (v_text v)) in
        match rest with
        | [] => Some f
        | Delim [] :: _ => read_style_loop f rest
        | Delim _ :: _ => None
        | V n :: _ =>
            match v_number n with
            | Some x => Some (set (set f Font_style_angle (FNum x)) Font_style_angle_unit (opt_text (v_unit n)))
            | None => read_style_loop f rest
            end
        end
      else read_style_loop f rest
  end.
Definition read_style (f : fmt) (values : list cv) : option fmt :=
  match values with [] => None | _ => read_style_loop f values end.
(** theme.py:492-500 [read_font_weight] *)
Fixpoint read_weight (f : fmt) (values : list cv) : option fmt :=
  match values with
  | [] => Some f
  | Delim _ :: _ => None
  | V v :: values =>
      if text_in v weight_words then Some (set f Font_weight (opt_text (v_text v)))
      else match v_number v with
           | Some n => Some (set f Font_weight (FNum n))
           | None => read_weight f values
           end
  end.
(** theme.py:502-528 [read_font]: the loop (with [inl] for the [return] within it), and what comes after. *)
Fixpoint read_font_loop (f : fmt) (nums : list (num * option str)) (values : list cv)
  : option (fmt + fmt * list (num * option str)) :=
  match values with
  | [] => Some (inr (f, nums))
  | Delim _ :: _ => None
  | V v :: values =>
      if text_in v system_words then
        Some (inl (set f Font_family (FTexts (match v_text v with Some t => [t] | None => [] end))))
      else if text_in v [k "normal"; k "small-caps"] then
        read_font_loop (set f Font_variant_caps (opt_text (v_text v))) nums values
      else if text_in v stretch_words then
        read_font_loop (set f Font_stretch (opt_text (v_text v))) nums values
      else if text_in v [k "bold"; k "lighter"; k "bolder"] then
        read_font_loop (set f Font_weight (opt_text (v_text v))) nums values
      else match v_number v with
           | Some n => read_font_loop f (nums ++ [(n, v_unit v)]) values
           | None => read_font_loop f nums values
           end
  end.
Definition read_font (f : fmt) (values : list cv) : option fmt :=
  obind (read_style f values) (fun f =>
  obind (read_font_loop f [] values) (fun r =>
    match r with
    | inl f => Some f
    | inr (f, nums) =>
        option_map (fun f =>
          match nums with
          | [] => f
          | [(n, u)] => set (set f Font_size (FNum n)) Font_size_unit (opt_text u)
          | (w, _) :: (n, u) :: _ =>
              let f := match attr f Font_weight with FNone => set f Font_weight (FNum w) | _ => f end in
              set (set f Font_size (FNum n)) Font_size_unit (opt_text u)
          end) (read_family f values)
    end)).

(** theme.py:258-260 [__init__], with the dispatcher in place; other properties are ignored. *)
Definition dispatch (f : fmt) (p : str) (values : list cv) : option fmt :=
  if str_eqb p (k "color") then read_color_as Color f values
  else if str_eqb p (k "background-color") then read_color_as Background_color f values
  else if str_eqb p (k "background") then read_color_as Background_color f values
  else if str_eqb p (k "caret-color") then read_color_as Caret_color f values
  else if str_eqb p (k "text-decoration-color") then read_color_as Text_decoration_color f values
  else if str_eqb p (k "text-decoration-line") then read_line f values
  else if str_eqb p (k "text-decoration-style") then read_keyword Text_decoration_style style_words f values
  else if str_eqb p (k "text-decoration") then read_text_decoration f values
  else if str_eqb p (k "font-family") then read_family f values
  else if str_eqb p (k "font-kerning") then read_keyword Font_kerning kerning_words f values
  else if str_eqb p (k "font-size") then read_size f values
  else if str_eqb p (k "font-stretch") then read_stretch f values
  else if str_eqb p (k "font-style") then read_style f values
  else if str_eqb p (k "font-variant-caps") then read_keyword Font_variant_caps caps_words f values
  else if str_eqb p (k "font-variant-position") then read_keyword Font_variant_position position_words f values
  else if str_eqb p (k "font-weight") then read_weight f values
  else if str_eqb p (k "font") then read_font f values
  else Some f.
Fixpoint read_from (f : fmt) (properties : list (str * list cv)) : option fmt :=
  match properties with
  | [] => Some f
  | (p, values) :: properties => obind (dispatch f p values) (fun f => read_from f properties)
  end.
Definition text_format (properties : list (str * list cv)) : option fmt := read_from nothing properties.

(** ** Writing
    The text of a property is kept in words, before they are formatted and put together: a color ([color2hex]), plain
    text, text that is quoted if needed ([quote_if_needed]), a number or text with a unit right after it, and a comma. *)
Inductive word := WColor (c : color) | WText (t : str) | WQuote (t : str) | WUnit (v : fval) (unit : str) | WComma.
(** [if self.prop:] *)
Definition truthy (v : fval) : bool :=
  match v with
  | FNone => false
  | FColor _ => true
  | FText t => negb (empty_list t)
  | FNum n => negb (num_zero n)
  | FTexts l => negb (empty_list l)
  end.
Definition color_word (v : fval) : list word := match v with FColor c => [WColor c] | _ => [] end.
Definition text_words (v : fval) : list word := match v with FTexts l => map WText l | _ => [] end.
(** [self.unit or ""] *)
Definition or_empty (v : fval) : str := match v with FText t => t | _ => [] end.
(** theme.py:315-322 [write_color] *)
Definition write_color (f : fmt) : list (str * list word) :=
  (if truthy (attr f Color) then [(k "color", color_word (attr f Color))] else []) ++
  (if truthy (attr f Background_color) then [(k "background-color", color_word (attr f Background_color))] else []) ++
  (if truthy (attr f Caret_color) then [(k "caret-color", color_word (attr f Caret_color))] else []).
(** theme.py:324-333 [write_text_decoration] *)
Definition write_text_decoration (f : fmt) : list (str * list word) :=
  let props := text_words (attr f Text_decoration_line) ++
    (if truthy (attr f Text_decoration_style) then [WUnit (attr f Text_decoration_style) []] else []) ++
    (if truthy (attr f Text_decoration_color) then color_word (attr f Text_decoration_color) else []) in
  if empty_list props then [] else [(k "text-decoration", props)].
(** [", ".join(map(css.quote_if_needed, self.font_family))] *)
Fixpoint with_comma (l : list str) : list word :=
  match l with
  | [] => []
  | [t] => [WQuote t]
  | t :: l => WQuote t :: WComma :: with_comma l
  end.
Definition plain (name : str) (f : fmt) (p : prop) : list (str * list word) :=
  if truthy (attr f p) then [(name, [WUnit (attr f p) []])] else [].
(** theme.py:335-357 [write_font] *)
Definition write_font (f : fmt) : list (str * list word) :=
  (if truthy (attr f Font_family)
   then [(k "font-family", match attr f Font_family with FTexts l => with_comma l | _ => [] end)] else []) ++
  (if truthy (attr f Font_size)
   then [(k "font-size", [WUnit (attr f Font_size) (or_empty (attr f Font_size_unit))])] else []) ++
  (if (if fval_dec (attr f Font_style) (FText (k "oblique")) then true else false) && truthy (attr f Font_style_angle)
   then [(k "font-style", [WText (k "oblique"); WUnit (attr f Font_style_angle) (or_empty (attr f Font_style_angle_unit))])]
   else plain (k "font-style") f Font_style) ++
  plain (k "font-stretch") f Font_stretch ++
  plain (k "font-kerning") f Font_kerning ++
  plain (k "font-variant-caps") f Font_variant_caps ++
  plain (k "font-variant-position") f Font_variant_position ++
  plain (k "font-weight") f Font_weight.
(** theme.py:307-313 [css_properties]; all names are different. *)
Definition css_properties (f : fmt) : list (str * list word) := write_color f ++ write_text_decoration f ++ write_font f.
End Format.
