(** What a region of change says about two texts. *)
From Verif Require Import Base.

(** Replacing [removed] characters from [start] by [ins]. *)
Record edit := Edit { d_start : nat; d_removed : nat; d_ins : str }.
Definition apply_edit (text : str) (d : edit) : str :=
  firstn (d_start d) text ++ d_ins d ++ skipn (d_start d + d_removed d) text.
Definition edit_fits (text : str) (d : edit) : Prop := d_start d + d_removed d <= length text.

(** Edits made one after the other, each inside the text as it is then. *)
Fixpoint apply_edits (text : str) (ds : list edit) : str :=
  match ds with [] => text | d :: ds => apply_edits (apply_edit text d) ds end.
Fixpoint edits_fit (text : str) (ds : list edit) : Prop :=
  match ds with [] => True | d :: ds => edit_fits text d /\ edits_fit (apply_edit text d) ds end.

(** The two texts agree outside the region: before [start], and after [removed] characters in the old text, [added]
    characters in the new text. *)
Definition covers_change (old new : str) (start removed added : nat) : Prop :=
  start + removed <= length old /\ start + added <= length new
  /\ firstn start old = firstn start new
  /\ skipn (start + removed) old = skipn (start + added) new.
