(** Where a document is to be saved, and what. *)
From Coq Require Import List.
Import ListNotations.
From Verif Require Import SaveModel.

Definition first_of {A} (a b : option A) : option A := match a with Some x => Some x | None => b end.

Section Spec.
Variables Text Url Enc Path Byte : Type.
Variable encode : Text -> option Enc -> option (list Byte).
Variable localfile : Url -> option Path.
Notation state := (state Text Url Enc Path Byte).

(** The bytes for the text in the encoding that is given, or else that of the document; None if there are none. *)
Definition to_save (s : state) (enc : option Enc) : option (list Byte) := encode (d_text s) (first_of enc (d_enc s)).
(** The file that is given, or else that of the document. *)
Definition target (s : state) (url : option Url) : option Path :=
  match first_of url (d_url s) with Some u => localfile u | None => None end.
End Spec.
Arguments to_save {Text Url Enc Path Byte}. Arguments target {Text Url Enc Path Byte}.
