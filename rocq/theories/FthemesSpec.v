(** What a history of adding, removing and copying themes should give. *)
From Verif Require Import Base FthemesModel.

Definition lang_dec (k l : option nat) : {k = l} + {k <> l}.
Proof. decide equality. apply Nat.eq_dec. Defined.

Section Spec.
Variables A T : Type.

(** The theme of a formatter for a language, and whether the base format is added to its text formats: [history] has the
    last operation first. *)
Fixpoint in_use (history : list (fop A T)) (f : nat) (language : option nat) : option (theme A T * bool) :=
  match history with
  | [] => None
  | Add g th l b :: before => if (g =? f) && (if lang_dec l language then true else false) then Some (th, b) else in_use before f language
  | Remove g l :: before => if (g =? f) && (if lang_dec l language then true else false) then None else in_use before f language
  | Copy g h :: before => if g =? f then in_use before h language else in_use before f language
  end.
End Spec.
Arguments in_use {A T}.
