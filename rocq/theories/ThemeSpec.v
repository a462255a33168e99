(** Specification for themes. *)
From Verif Require Import Base CssModel CssSpec CssColorModel TextFormatModel.
Import Strings.String.StringSyntax.

(** No selector looks at attributes but for class and id. *)
Definition no_attributes {V} (r : rule V) : Prop :=
  forall l s, In l (r_prelude r) -> In s (sels_of l) -> s_attr s = [].
(** A text piece with some classes in the window. *)
Definition text_in_window (classes : str) : elem :=
  Elem [] [(n_class, k "parce")] [] [] [Elem [] [(n_class, classes)] [] [] []].
