(** Model of the class [Theme] of /repo/parce/theme.py (103-188) and [css_class] (531-544); the results are cached there,
    and reading the style sheet is left out. *)
From Verif Require Import Base CssModel CssColorModel TextFormatModel StandardActionModel.
Import Strings.String.StringSyntax.

Section Theme.
Variable space : nat -> bool.
Variable lower : str -> str.

(** ** Elements: css.py:677-688 [Element.__init__]
    A new element is added to the children of its parent ([if parent:] is always true for an element, css.py:454-456). The
    keyword [class_] becomes the attribute [class]. *)
Definition with_class (c : str) (pclasses pelements : list str) : elem := Elem [] [(n_class, c)] pclasses pelements [].
Definition append_child (parent child : elem) : elem :=
  let '(Elem n a pc pe l) := parent in Elem n a pc pe (l ++ [child]).

(** ** Themes *)
Variable num : Type.
(** The values in a style sheet; a mark that is not the last is a plain string. *)
Definition to_cv (v : pval (cv num)) : cv num := match v with Val v => v | Important => Delim num (k "!important") end.
(** theme.py:184-188 and 181-182: [self.TextFormat(self.style.select_element(e).properties())]. *)
Definition format_of (es : list (entry (cv num))) (root : elem) (p : epath) : option (fmt num) :=
  obind (style (cv num) es) (fun st =>
  obind (select_element space lower (cv num) root p st) (fun rules =>
  obind (properties (cv num) rules) (fun props =>
  text_format num (map (fun kv => (fst kv, map to_cv (snd kv))) props)))).

(** theme.py:531-544 [css_class], of the names from the topmost ancestor on (standardaction.py:122-123). *)
Definition dot_to_space (c : nat) : nat := if c =? 46 then 32 else c.
Definition css_class (names : list str) : str := map dot_to_space (lower (py_join [46] names)).
(** theme.py:184-188 [textformat] *)
Definition window : elem := with_class (k "parce") [] [].
Definition textformat (es : list (entry (cv num))) (names : list str) : option (fmt num) :=
  format_of es (append_child window (with_class (css_class names) [] [])) [0].
(** theme.py:146-182 [baseformat] *)
Definition base_element (role state : str) : elem :=
  let pc := if smem state [k "focus"; k "disabled"] then [state] else [] in
  if str_eqb role (k "window") then with_class (k "parce") pc []
  else if str_eqb role (k "selection") then with_class (k "parce") pc [k "selection"]
  else with_class (k "parce " ++ role) pc [].
Definition baseformat (es : list (entry (cv num))) (role state : str) : option (fmt num) :=
  format_of es (base_element role state) [].
End Theme.
