(** Properties C103 and C104: reading and writing documents. [cs] are the codecs of Python, [io_get] the handlers of the languages,
    [bom_name] and [latin1] names of encodings, and [linesep] is that of the platform. *)
From Verif Require Import Base UtilModel DocioModel DocioProofs.

(** * C103: a document that was written is read again with the same text *)

(** Under these conditions: what is encoded can be decoded; the data does not happen to start with a byte order mark; the
    encoding that is declared in the text is found in the first bytes just as in the first characters, is one that exists (or the
    language has no default encoding), and does not contradict an encoding that is given; and the line endings are treated
    alike. *)
Theorem C103_roundtrip_partial : forall (E Lex : Type) (cs : codecs E) latin1 bom_name (io_get : option Lex -> handler E) linesep
    text lexicon encoding nl nl' data,
  let seen_when_reading := validate cs (find_encoding (io_get lexicon) (dec_ignore cs latin1 (firstn TEMP_TEXT_MAXSIZE data))) in
  let in_text := find_encoding (io_get lexicon) (firstn TEMP_TEXT_MAXSIZE text) in
  encode_text cs bom_name io_get linesep text lexicon encoding nl = Some data ->
  (forall e s b, enc cs e s = Some b -> dec cs e b = Some s) ->
  (forall m rest, data <> bom m ++ rest) ->
  match encoding with
  | Some e => seen_when_reading = None \/ seen_when_reading = Some e
  | None => seen_when_reading = validate cs in_text /\ (in_text = None \/ validate cs in_text = in_text \/ default_encoding (io_get lexicon) = None)
  end ->
  In linesep [[10]; [13]; [13; 10]] ->
  (nl' = NLNone /\ ~ In 13 text) \/ (nl' <> NLNone /\ (nl = NLEmpty \/ nl = NLLf)) ->
  exists e, decode_data cs latin1 bom_name io_get data (Given lexicon) encoding nl' = Some (lexicon, text, e).
Proof.
  intros E Lex cs latin1 bom_name io_get linesep text lexicon encoding nl nl' data seen in_text HE HC HB HD HL HN.
  assert (B : get_bom_encoding data = (None, data)).
  { unfold get_bom_encoding. destruct (find _ _) as [m |] eqn:F; [exfalso | reflexivity]. apply find_some in F. destruct F as [_ F].
    apply (HB m (skipn (length (bom m)) data)). clear -F. revert data F. induction (bom m) as [| x b IH]; intros data F; [reflexivity |].
    destruct data as [| y data]; [discriminate |]. cbn [startswith] in F. apply andb_true_iff in F. destruct F as [F1 F2].
    apply Nat.eqb_eq in F1. subst y. cbn [length skipn app]. f_equal. now apply IH. }
  assert (R : read_newlines nl' (write_newlines linesep nl text) = text).
  { destruct HN as [[-> H] | [H H']].
    - cbn [read_newlines]. destruct nl; cbn [write_newlines]; try (apply universal_replace; [cbn; auto | exact H]); try (now apply universal_lf). 
    - destruct nl'; [congruence | | | |]; destruct H' as [-> | ->]; reflexivity. }
  unfold decode_data. rewrite B. cbn [option_map or]. fold seen. unfold encode_text in HE. fold in_text in HE.
  destruct encoding as [e |].
  - apply HC in HE.
    assert (X : match or seen (or (Some e) (validate cs (default_encoding (io_get lexicon)))) with Some e0 => e0 | None => DEFAULT_ENCODING E bom_name end = e)
      by (destruct HD as [-> | ->]; reflexivity).
    rewrite X, HE, R. eexists. reflexivity.
  - destruct HD as [HD1 HD2]. apply HC in HE. rewrite HD1. clear HD1 seen.
    set (d := default_encoding (io_get lexicon)) in *.
    replace (match or (validate cs in_text) (or None (validate cs d)) with Some e0 => e0 | None => DEFAULT_ENCODING E bom_name end)
      with (match validate cs (or in_text d) with Some e => e | None => DEFAULT_ENCODING E bom_name end).
    + rewrite HE, R. eexists. reflexivity.
    + destruct in_text as [n |]; [| reflexivity]. cbn [or validate] in *. destruct (known cs n); [reflexivity |].
      destruct HD2 as [HD2 | [HD2 | HD2]]; [discriminate | discriminate |]. now rewrite HD2.
Qed.
Print Assumptions C103_roundtrip_partial.

(** * Codecs for the examples *)

(** Names: 0 "utf-8", 1 "utf_16_le", 2 "latin1", 3 "hex" (a codec, but not one for texts); 9 is not a codec. As in Python, for characters below 128 (UTF-8)
    or 256. *)
Definition low (n : nat) (s : list nat) : option (list nat) := if forallb (fun c => c <? n) s then Some s else None.
Definition x_enc (e : nat) (s : str) : option (list nat) :=
  match e with
  | 0 => low 128 s
  | 1 => option_map (flat_map (fun c => [c; 0])) (low 256 s)
  | 2 => low 256 s
  | _ => None
  end.
Fixpoint pairs (b : list nat) : option str :=
  match b with
  | [] => Some []
  | c :: 0 :: b => option_map (cons c) (pairs b)
  | _ => None
  end.
Definition x_dec (e : nat) (b : list nat) : option str :=
  match e with 0 => low 128 b | 1 => pairs b | 2 => low 256 b | _ => None end.
Definition x_ignore (e : nat) (b : list nat) : str :=
  match e with 0 => filter (fun c => c <? 128) b | 1 => match pairs b with Some s => s | None => [] end | _ => b end.
Definition x_cs : codecs nat := Codecs (fun e => e <=? 3) x_enc x_dec x_ignore.
Definition x_bom (m : encoding) : nat := match m with UTF8 => 0 | UTF16LE => 1 | _ => 8 end.
(** A language where a "#" followed by a number declares the encoding, and where the default encoding is [d]. *)
Fixpoint x_find (s : str) : option nat :=
  match s with [] => None | c :: s => if c =? 35 then hd_error s else x_find s end.
Definition x_io (d : option nat) : option unit -> handler nat := fun _ => Handler x_find d.

Example C103_example : let text := [233; 10; 35; 2] in
  let data := [233; 13; 10; 35; 2] in
  encode_text x_cs x_bom (x_io None) [13; 10] text None None NLNone = Some data /\
  (forall m rest, data <> bom m ++ rest) /\ ~ In 13 text /\
  decode_data x_cs 2 x_bom (x_io None) data (Given None) None NLNone = Some (None, text, Some 2).
Proof. cbv zeta. split; [reflexivity |]. split; [intros []; discriminate |]. split; [cbn; intuition discriminate | reflexivity]. Qed.

(** * The conditions are needed *)

(** A file in UTF-16 with a byte order mark is read, but writing it leaves out the mark, and it is then read as UTF-8: "a" becomes "a" and a
    NUL character. (For texts with other characters the reading fails.) *)
Theorem C103_utf16_refuted : exists text encoding saved,
  let bytes := [255; 254; 97; 0] in     (* the mark and "a" *)
  decode_data x_cs 2 x_bom (x_io None) bytes (Given None) None NLNone = Some (None, text, encoding) /\ text = [97] /\
  encode_text x_cs x_bom (x_io None) [10] text None encoding NLNone = Some saved /\
  decode_data x_cs 2 x_bom (x_io None) saved (Given None) None NLNone = Some (None, [97; 0], None).
Proof. exists [97], (Some 1), [97; 0]. repeat split. Qed.
Print Assumptions C103_utf16_refuted.

(** Generally: whatever the codecs are, if the data has no mark, nothing is declared in it, and it does not mean the same in the
    default encoding. *)
Theorem C103_mark_lost_refuted : forall (E Lex : Type) (cs : codecs E) latin1 bom_name (io_get : option Lex -> handler E) m body text saved,
  let seen l := find_encoding (io_get None) (dec_ignore cs l (firstn TEMP_TEXT_MAXSIZE body)) in
  m <> UTF32LE -> dec cs (bom_name m) body = Some text -> enc cs (bom_name m) text = Some body -> ~ In 13 text ->
  seen (bom_name m) = None -> seen latin1 = None -> default_encoding (io_get None) = None -> (forall k rest, body <> bom k ++ rest) ->
  dec cs (bom_name UTF8) body <> Some text ->
  decode_data cs latin1 bom_name io_get (bom m ++ body) (Given None) None NLEmpty = Some (None, text, Some (bom_name m)) /\
  (encode_text cs bom_name io_get [10] text None (Some (bom_name m)) NLEmpty = Some saved ->
   forall l e, decode_data cs latin1 bom_name io_get saved (Given None) None NLEmpty <> Some (l, text, e)).
Proof.
  intros E Lex cs latin1 bom_name io_get m body text saved seen Hm HD HE HT S1 S2 HF HB HU. split.
  - unfold decode_data. assert (B : get_bom_encoding (bom m ++ body) = (Some m, body)) by (destruct m; try reflexivity; congruence). rewrite B.
    cbn [option_map or]. unfold seen in S1. rewrite S1. cbn [validate or]. rewrite HD. reflexivity.
  - unfold encode_text. cbn [write_newlines]. rewrite HE. intros X. injection X as <-. intros l e. unfold decode_data.
    assert (B : get_bom_encoding body = (None, body)).
    { unfold get_bom_encoding. destruct (find _ _) as [k |] eqn:F; [exfalso | reflexivity]. apply find_some in F. destruct F as [_ F].
      apply (HB k (skipn (length (bom k)) body)). clear -F. revert body F. induction (bom k) as [| x b IH]; intros data F; [reflexivity |].
      destruct data as [| y data]; [discriminate |]. cbn [startswith] in F. apply andb_true_iff in F. destruct F as [F1 F2].
      apply Nat.eqb_eq in F1. subst y. cbn [length skipn app]. f_equal. now apply IH. }
    rewrite B. cbn [option_map or]. unfold seen in S2. rewrite S2. cbn [validate or]. rewrite HF. cbn [validate].
    change (DEFAULT_ENCODING E bom_name) with (bom_name UTF8). destruct (dec cs (bom_name UTF8) body) as [t |]; [| discriminate].
    cbn [read_newlines]. intros Y. injection Y as _ <- _. now apply HU.
Qed.
Print Assumptions C103_mark_lost_refuted.
Example C103_mark_lost_example : exists body text, dec x_cs (x_bom UTF16LE) body = Some text /\ enc x_cs (x_bom UTF16LE) text = Some body /\ ~ In 13 text /\
  (forall k rest, body <> bom k ++ rest) /\ dec x_cs (x_bom UTF8) body <> Some text.
Proof. exists [97; 0], [97]. repeat split; [cbn; intuition discriminate | intros []; discriminate | discriminate]. Qed.

(** A declaration after the first 5000 bytes, but in the first 5000 characters, is used when writing, and not seen when reading. Here
    UTF-16 is declared, so that the 5000 bytes that are looked at are 2500 characters. *)
Theorem C103_late_declaration_refuted : exists text saved,
  encode_text x_cs x_bom (x_io None) [10] text None None NLNone = Some saved /\
  (forall l e, decode_data x_cs 2 x_bom (x_io None) saved (Given None) None NLNone <> Some (l, text, e)) /\
  x_find (firstn TEMP_TEXT_MAXSIZE text) = Some 1.
Proof.
  exists (repeat 97 2600 ++ [35; 1]), (flat_map (fun c => [c; 0]) (repeat 97 2600 ++ [35; 1])).
  split; [vm_compute; reflexivity |]. split; [| vm_compute; reflexivity].
  intros l e. vm_compute. discriminate.
Qed.
Print Assumptions C103_late_declaration_refuted.

(** An encoding that does not exist is declared: writing then uses UTF-8, reading the default encoding of the language (here
    UTF-16). *)
Theorem C103_unknown_refuted : exists text saved,
  encode_text x_cs x_bom (x_io (Some 1)) [10] text None None NLNone = Some saved /\
  decode_data x_cs 2 x_bom (x_io (Some 1)) saved (Given None) None NLNone = None.
Proof. exists [35; 9; 97], [35; 9; 97]. split; reflexivity. Qed.
Print Assumptions C103_unknown_refuted.

(** * C104: the encoding that was used, is reported *)

(** The encoding that is given is reported. Otherwise that in the byte order mark, or that in the text, if there is only one of these (or if they are the same). In
    these cases the text is the data decoded with that encoding, if no encoding is given. *)
Theorem C104_reported_partial : forall (E Lex : Type) (cs : codecs E) latin1 bom_name (io_get : option Lex -> handler E) data root encoding nl lexicon text e,
  decode_data cs latin1 bom_name io_get data root encoding nl = Some (lexicon, text, e) ->
  let '(mark, body) := get_bom_encoding data in
  let seen := find_encoding (io_get lexicon) (dec_ignore cs (match mark with Some m => bom_name m | None => latin1 end) (firstn TEMP_TEXT_MAXSIZE body)) in
  (forall g, encoding = Some g -> e = Some g) /\
  (encoding = None -> mark = None \/ seen = None \/ seen = option_map bom_name mark -> forall u, e = Some u ->
     exists t, dec cs u body = Some t /\ text = read_newlines nl t).
Proof.
  intros E Lex cs latin1 bom_name io_get data root encoding nl lexicon text e. unfold decode_data.
  destruct (get_bom_encoding data) as [mark body].
  set (te := match option_map bom_name mark with None => latin1 | Some e => e end).
  assert (Hte : te = match mark with Some m => bom_name m | None => latin1 end) by (unfold te; now destruct mark). rewrite <- Hte. clear Hte.
  set (lx := match root with Given l => l | Find registry => registry (dec_ignore cs te (firstn TEMP_TEXT_MAXSIZE body)) end).
  set (tmp := dec_ignore cs te (firstn TEMP_TEXT_MAXSIZE body)) in *. clearbody lx tmp. destruct (dec cs _ body) as [t |] eqn:D; [| discriminate]. intros H. injection H as <- <- <-. split.
  - intros g ->. reflexivity.
  - intros -> C u U. exists t. split; [| reflexivity]. cbn [or] in *. destruct mark as [m |]; cbn [option_map or] in *.
    + destruct C as [C | [C | C]]; [discriminate | |]; rewrite C in U; cbn [validate or] in U.
      * injection U as <-. exact D.
      * destruct (known cs (bom_name m)); cbn [or] in U; injection U as <-; exact D.
    + destruct (validate cs (find_encoding (io_get lx) _)) as [d |] eqn:V; cbn [or] in U; [| discriminate].
      injection U as <-. cbn [or] in D. exact D.
Qed.
Print Assumptions C104_reported_partial.
Example C104_example : decode_data x_cs 2 x_bom (x_io None) [35; 2; 233] (Find (fun _ => None)) None NLNone = Some (None, [35; 2; 233], Some 2).
Proof. reflexivity. Qed.

(** Nothing is reported when the default encoding was used; and with a byte order mark and a declaration, the declared encoding is reported,
    which was not used (and can not even decode the data). *)
Theorem C104_refuted :
  (exists text, decode_data x_cs 2 x_bom (x_io None) [97] (Given None) None NLNone = Some (None, text, None)) /\
  (exists data text e, decode_data x_cs 2 x_bom (x_io None) data (Given None) None NLNone = Some (None, text, Some e) /\
     dec x_cs e (snd (get_bom_encoding data)) = None).
Proof.
  split; [exists [97]; reflexivity |]. exists [255; 254; 35; 0; 0; 0; 233; 0], [35; 0; 233], 0. split; reflexivity.
Qed.
Print Assumptions C104_refuted.

(** "Usable" only means that there is a codec of that name: if it is not one for texts, reading fails, though another encoding would do. *)
Theorem C104_not_text_refuted : exists data,
  decode_data x_cs 2 x_bom (x_io None) data (Given None) (Some 0) NLNone = None /\ dec x_cs 0 data <> None /\ x_find data = Some 3.
Proof. exists [35; 3]. split; [reflexivity |]. split; [discriminate | reflexivity]. Qed.
Print Assumptions C104_not_text_refuted.
