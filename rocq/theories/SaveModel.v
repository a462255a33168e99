(** Model of [DocumentIOMixin.save] in parce/docio.py, step by step: at every step the program may be stopped, and some steps can raise an exception. *)
From Coq Require Import List Arith Bool.
Import ListNotations.

Section Save.
Variables Text Url Enc Path Byte : Type.
Variable path_eqb : Path -> Path -> bool.
Variable encode : Text -> option Enc -> option (list Byte).   (* [encode_text], for a newline argument; None: an exception is raised *)
Variable localfile : Url -> option Path.                      (* docio.py:207-223; None: ValueError *)

(** The attributes of the document, and the files. [url] and [encoding] are None if they are not set (or empty). *)
Record state := St { d_text : Text; d_url : option Url; d_enc : option Enc; d_modified : bool; files : Path -> option (list Byte) }.
Definition set_file (fs : Path -> option (list Byte)) (p : Path) (v : list Byte) : Path -> option (list Byte) :=
  fun q => if path_eqb q p then Some v else fs q.

(** What the system does: whether a file can be opened for writing; and how many bytes each write takes, until all is written or the list ends (then a write raises an
    exception, e.g. because the disk is full). *)
Record system := Sys { can_open : Path -> bool; pieces : list nat }.

(** [f.write(data)], and the end of the with block: all states on the way, and whether all was written. *)
Fixpoint write (s : state) (p : Path) (done rest : list Byte) (ks : list nat) : list state * bool :=
  match rest, ks with
  | [], _ => ([], true)
  | _, [] => ([], false)
  | _, k :: ks =>
      let done := done ++ firstn k rest in
      let s := St (d_text s) (d_url s) (d_enc s) (d_modified s) (set_file (files s) p done) in
      let (l, ok) := write s p done (skipn k rest) ks in
      (s :: l, ok)
  end.

(** docio.py:125-132. All states, the first one included; and whether [save] returned (and did not raise an exception). *)
Definition save (sys : system) (s0 : state) (url : option Url) (enc : option Enc) : list state * bool :=
  let s1 := match url with Some u => St (d_text s0) (Some u) (d_enc s0) (d_modified s0) (files s0) | None => s0 end in
  let s2 := match enc with Some e => St (d_text s1) (d_url s1) (Some e) (d_modified s1) (files s1) | None => s1 end in
  let start := [s0; s1; s2] in
  (* docio.py:169 [encoding or self.encoding] *)
  match encode (d_text s2) (match enc with Some e => Some e | None => d_enc s2 end) with
  | None => (start, false)
  | Some data =>
      match match d_url s2 with Some u => localfile u | None => None end with
      | None => (start, false)
      | Some p =>
          if can_open sys p then
            (* [open(.., "wb")] makes the file empty *)
            let s3 := St (d_text s2) (d_url s2) (d_enc s2) (d_modified s2) (set_file (files s2) p []) in
            let (l, ok) := write s3 p [] data (pieces sys) in
            if ok then let z := last l s3 in (start ++ s3 :: l ++ [St (d_text z) (d_url z) (d_enc z) false (files z)], true)
            else (start ++ s3 :: l, false)
          else (start, false)
      end
  end.
End Save.
Arguments St {Text Url Enc Path Byte}. Arguments d_text {Text Url Enc Path Byte}. Arguments d_url {Text Url Enc Path Byte}. Arguments d_enc {Text Url Enc Path Byte}.
Arguments d_modified {Text Url Enc Path Byte}. Arguments files {Text Url Enc Path Byte}. Arguments Sys {Path}. Arguments can_open {Path}. Arguments pieces {Path}.
Arguments save {Text Url Enc Path Byte}. Arguments write {Text Url Enc Path Byte}. Arguments set_file {Path Byte}.
