(** Model of parce/docio.py: from bytes to text and back. The codecs of Python, the languages' ways to find an encoding in a text and the
    registry are parameters. Encodings are names; a name that is the empty string counts as no name. [errors] is not modelled
    (strict): None is a UnicodeError. *)
From Verif Require Import Base UtilModel.

Section Docio.
Variable E : Type.                                   (* names of encodings *)
Variable Lex : Type.                                 (* root lexicons *)

(** Python's codecs: codecs.lookup succeeds; encoding and decoding; decoding with 'ignore'. *)
Record codecs := Codecs {
  known : E -> bool;
  enc : E -> str -> option (list nat);
  dec : E -> list nat -> option str;
  dec_ignore : E -> list nat -> str }.
Variable cs : codecs.
Variable latin1 : E.
Variable bom_name : encoding -> E.                   (* the names in util.get_bom_encoding *)

(** docio.py:160-194 the methods of an [IO]; [IO.get] gives the one of a root lexicon (or of None). *)
Record handler := Handler { find_encoding : str -> option E; default_encoding : option E }.
Variable io_get : option Lex -> handler.

(** docio.py:52-53 *)
Definition DEFAULT_ENCODING : E := bom_name UTF8.
Definition TEMP_TEXT_MAXSIZE : nat := 10 * 10 * 50.

(** docio.py:330-342 [_validate_encoding] *)
Definition validate (e : option E) : option E :=
  match e with Some n => if known cs n then Some n else None | None => None end.

Definition or {T} (a b : option T) : option T := match a with Some _ => a | None => b end.

(** io.TextIOWrapper: what is done to line endings. *)
Inductive newline := NLNone | NLEmpty | NLLf | NLCr | NLCrLf.
Variable linesep : str.                              (* os.linesep *)
Fixpoint universal (s : str) : str :=
  match s with
  | [] => []
  | c :: s' => if c =? 13 then 10 :: match s' with
                                     | d :: s'' => if d =? 10 then universal s'' else universal s'
                                     | [] => []
                                     end
               else c :: universal s'
  end.
Definition read_newlines (nl : newline) (s : str) : str := match nl with NLNone => universal s | _ => s end.
Definition replace_lf (by_ s : str) : str := flat_map (fun c => if c =? 10 then by_ else [c]) s.
Definition write_newlines (nl : newline) (s : str) : str :=
  match nl with
  | NLNone => replace_lf linesep s
  | NLEmpty | NLLf => s
  | NLCr => replace_lf [13] s
  | NLCrLf => replace_lf [13; 10] s
  end.

(** The argument [root_lexicon]: a Lexicon or None; or (True or a name) what the registry finds, given the temporary text. *)
Inductive root_arg := Given (l : option Lex) | Find (registry : str -> option Lex).

(** docio.py:217-307 [decode_data] *)
Definition decode_data (data : list nat) (root : root_arg) (encoding : option E) (nl : newline) : option (option Lex * str * option E) :=
  let '(bom_enc, data) := get_bom_encoding data in
  let read_enc := option_map bom_name bom_enc in
  let temp_enc := match read_enc with None => latin1 | Some e => e end in
  let temp_text := dec_ignore cs temp_enc (firstn TEMP_TEXT_MAXSIZE data) in
  let lexicon := match root with Given l => l | Find registry => registry temp_text end in
  let h := io_get lexicon in
  let doc_enc := validate (find_encoding h temp_text) in
  let actual := match or read_enc (or doc_enc (or encoding (validate (default_encoding h)))) with
                | Some e => e
                | None => DEFAULT_ENCODING
                end in
  let result := match encoding with Some _ => encoding | None => or doc_enc read_enc end in
  match dec cs actual data with
  | None => None
  | Some text => Some (lexicon, read_newlines nl text, result)
  end.

(** docio.py:310-327 [encode_text] *)
Definition encode_text (text : str) (lexicon : option Lex) (encoding : option E) (nl : newline) : option (list nat) :=
  let e := match encoding with
           | Some e => e
           | None => let h := io_get lexicon in
                     match validate (or (find_encoding h (firstn TEMP_TEXT_MAXSIZE text)) (default_encoding h)) with
                     | Some e => e
                     | None => DEFAULT_ENCODING
                     end
           end in
  enc cs e (write_newlines nl text).

End Docio.
Arguments known {E}. Arguments enc {E}. Arguments dec {E}. Arguments dec_ignore {E}. Arguments Codecs {E}. Arguments find_encoding {E}. Arguments default_encoding {E}.
Arguments Handler {E}. Arguments validate {E}. Arguments Given {Lex}. Arguments Find {Lex}. Arguments decode_data {E Lex}. Arguments encode_text {E Lex}.
