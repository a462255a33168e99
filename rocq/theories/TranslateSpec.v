(** What translating words in a document should do. *)
From Verif Require Import Base RegexSpec.

Section Spec.
Variable word : nat -> bool.       (* letters, digits and the underscore *)

(** A word boundary between [x] and [y]: of the characters at both sides exactly one belongs to a word. *)
Definition ends_word (x : str) : bool := match rev x with c :: _ => word c | [] => false end.
Definition starts_word (y : str) : bool := match y with c :: _ => word c | [] => false end.
Definition boundary (x y : str) : Prop := ends_word x <> starts_word y.
(** [t] stands between [x] and [y], with word boundaries at both sides if [whole]. *)
Definition stands (whole : bool) (x t y : str) : Prop := whole = true -> boundary x (t ++ y) /\ boundary (x ++ t) y.

(** What is known of Python's [re]: a match is one of the texts that match; if there is no match at a position there is none of those.
    It is not said which one is found if there are several. *)
Definition searches (whole : bool) (e : rx) (m : str -> str -> option nat) : Prop :=
  forall x y, match m x y with
              | Some k => k <= length y /\ matches e (firstn k y) /\ stands whole x (firstn k y) (skipn k y)
              | None => forall t z, y = t ++ z -> matches e t -> ~ stands whole x t z
              end.

(** [result] is a translation of [rest], which is a part of the text [before ++ rest ++ right], with at most [n] replacements ([None]:
    no limit): from left to right, at each position where keys stand, one of them is replaced by its value; other characters are kept. *)
Inductive translated (mapping : list (str * str)) (whole : bool) (right : str) : option nat -> str -> str -> str -> Prop :=
| T_end n before : translated mapping whole right n before [] []
| T_stop before rest : translated mapping whole right (Some 0) before rest rest
| T_key n before key value rest result :
    n <> Some 0 -> In (key, value) mapping -> stands whole before key (rest ++ right) ->
    translated mapping whole right (option_map pred n) (before ++ key) rest result ->
    translated mapping whole right n before (key ++ rest) (value ++ result)
| T_char n before c rest result :
    n <> Some 0 -> (forall key value rest1, In (key, value) mapping -> c :: rest = key ++ rest1 -> ~ stands whole before key (rest1 ++ right)) ->
    translated mapping whole right n (before ++ [c]) rest result ->
    translated mapping whole right n before (c :: rest) (c :: result).

(** No key is the beginning of another one, and each has one value. *)
Definition prefix_free (mapping : list (str * str)) : Prop :=
  forall k v k' v', In (k, v) mapping -> In (k', v') mapping -> (exists z, k' = k ++ z) -> k = k' /\ v = v'.
End Spec.
