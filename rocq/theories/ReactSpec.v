(** The edits of an observer, as edits that are done afterwards. *)
From Verif Require Import Base MutableModel DocumentModel.

Section Spec.
Variable react : str -> devent -> option (key * str).

(** The events of a text change in a list. *)
Definition text_change (evs : list devent) : option devent := find (fun e => match e with ETextChange _ _ _ => true | _ => false end) evs.

(** What the observer does after an edit: as a series of edits. *)
Definition reaction (s : dstate) (evs : list devent) : list dop :=
  match text_change evs with
  | Some ev => match react (m_text (d_m s)) ev with Some (k, t) => [DEdit (Set_ k t)] | None => [] end
  | None => []
  end.
End Spec.
