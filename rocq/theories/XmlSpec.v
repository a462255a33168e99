(** XML documents as they are written, and what the tree of a document shows. *)
From Verif Require Import Base LexerModel TreeModel XmlModel.

(** ** Documents *)
(** The value of an attribute: text, and references like &amp; (without the ampersand and the semicolon). *)
Inductive piece := PText (s : str) | PRef (s : str).
(** An attribute: the white space before it, its name, the white space before and after the equal sign, whether it is in single quotes, and its value. *)
Record attr := Attr { a_before : str; a_name : str; a_eq1 : str; a_eq2 : str; a_single : bool; a_value : list piece }.
(** What can be in a document: text, references, comments, CDATA sections, processing instructions with text or with attributes, empty elements, and elements
    with their contents.  White space in the tags is written down as well. *)
Inductive xitem :=
| XText (s : str)
| XRef (s : str)
| XCom (s : str)
| XCData (s : str)
| XProc (name s : str)
| XDecl (name : str) (ats : list attr) (w : str)
| XEmpty (name : str) (ats : list attr) (w : str)
| XElem (name : str) (ats : list attr) (w : str) (content : list xitem) (w' : str).

(** ** The text of a document *)
Definition piece_text (p : piece) : str := match p with PText s => s | PRef s => [38] ++ s ++ [59] end.
Definition quote (single : bool) : nat := if single then 39 else 34.
Definition attr_text (a : attr) : str :=
  a_before a ++ a_name a ++ a_eq1 a ++ [61] ++ a_eq2 a ++ [quote (a_single a)] ++ concat (map piece_text (a_value a)) ++ [quote (a_single a)].
Definition attrs_text (l : list attr) : str := concat (map attr_text l).
Fixpoint item_text (x : xitem) : str :=
  match x with
  | XText s => s
  | XRef s => [38] ++ s ++ [59]
  | XCom s => [60; 33; 45; 45] ++ s ++ [45; 45; 62]
  | XCData s => [60; 33; 91; 67; 68; 65; 84; 65; 91] ++ s ++ [93; 93; 62]
  | XProc n s => [60; 63] ++ n ++ s ++ [63; 62]
  | XDecl n ats w => [60; 63] ++ n ++ attrs_text ats ++ w ++ [63; 62]
  | XEmpty n ats w => [60] ++ n ++ attrs_text ats ++ w ++ [47; 62]
  | XElem n ats w c w' => [60] ++ n ++ attrs_text ats ++ w ++ [62] ++ concat (map item_text c) ++ [60; 47] ++ n ++ w' ++ [62]
  end.
Definition xml_text (d : list xitem) : str := concat (map item_text d).

(** ** Which documents *)
Section Ok.
Variable e : xenv.
(** White space in XML. *)
Definition blank (c : nat) : Prop := In c [9; 10; 13; 32].
Definition blanks (s : str) : Prop := Forall blank s.
(** A name is one in each of the two modes, and no white space is in it. *)
Definition xname (n : str) : Prop :=
  match n with c :: s => forall ic, nstart e ic c = true /\ Forall (fun d => nchar e ic d = true) s | [] => False end /\ Forall (fun c => space e c = false) n.
(** [&\S*?;] finds all of it. *)
Definition ref_ok (s : str) : Prop := Forall (fun c => space e c = false /\ c <> 59) s.
(** [t] is somewhere in [s]. *)
Definition has (t s : str) : Prop := exists a b, s = a ++ t ++ b.
(** No two texts are next to each other, and no text is empty. *)
Fixpoint apart {X} (is_text : X -> bool) (l : list X) : Prop :=
  match l with
  | x :: ((y :: _) as r) => (is_text x = true -> is_text y = false) /\ apart is_text r
  | _ => True
  end.
Definition piece_ok (q : nat) (p : piece) : Prop := match p with PText s => s <> [] /\ ~ In q s /\ ~ In 38 s | PRef s => ref_ok s end.
Definition is_ptext (p : piece) : bool := match p with PText _ => true | PRef _ => false end.
Record attr_ok (a : attr) : Prop := AttrOk {
  ao_before : a_before a <> [] /\ blanks (a_before a);
  ao_name : xname (a_name a);
  ao_eq1 : blanks (a_eq1 a);
  ao_eq2 : blanks (a_eq2 a);
  ao_value : Forall (piece_ok (quote (a_single a))) (a_value a) /\ apart is_ptext (a_value a) }.
(** The characters that can be in the marks in comments: URLs and e-mail addresses. *)
Definition markable (c : nat) : Prop := wordc e c = true \/ In c [126; 58; 47; 35; 45; 46; 63; 61; 40; 41; 37; 43; 64].
(** A comment has no two hyphens in it (XML), and does not end with something that can be the end of a URL. *)
Definition comment_ok (s : str) : Prop := ~ has [45; 45] s /\ match rev s with [] => True | c :: _ => ~ markable c end.
Definition is_text (x : xitem) : bool := match x with XText _ => true | _ => false end.
Fixpoint item_ok (x : xitem) : Prop :=
  match x with
  | XText s => s <> [] /\ ~ In 60 s /\ ~ In 38 s
  | XRef s => ref_ok s
  | XCom s => comment_ok s
  | XCData s => ~ has [93; 93; 62] s
  | XProc n s => xname n /\ match s with [] => True | c :: _ => blank c end /\ Forall (fun c => ~ In c [34; 39; 38; 63; 61]) s
  | XDecl n ats w | XEmpty n ats w => xname n /\ Forall attr_ok ats /\ blanks w
  | XElem n ats w c w' => xname n /\ Forall attr_ok ats /\ blanks w /\ blanks w' /\ fold_right (fun x P => item_ok x /\ P) True c /\ apart is_text c
  end.
Definition xml_ok (d : list xitem) : Prop := Forall item_ok d /\ apart is_text d.

(** ** The tree *)
(** The nodes of a tree without the positions and the group numbers. *)
Inductive sn := T (a : xact) (t : str) | C (l : xlex) (cs : list sn).
Fixpoint strip (n : node xlex xact) : sn := match n with Tok t => T (k_act t) (k_text t) | Ctx l cs => C l (map strip cs) end.

Definition piece_node (single : bool) (p : piece) : sn :=
  match p with PText s => T (if single then ASq else ADq) s | PRef s => T AStrEsc ([38] ++ s ++ [59]) end.
(** A string: the token of the first quote, and a context that has the pieces and the last quote. *)
Definition string_nodes (single : bool) (v : list piece) : list sn :=
  [T (if single then ASqStart else ADqStart) [quote single];
   C (if single then XSq else XDq) (map (piece_node single) v ++ [T (if single then ASqEnd else ADqEnd) [quote single]])].
(** An attribute in a tag: the name, the equal sign, and the value.  White space gives no tokens. *)
Definition attr_nodes (a : attr) : list sn := [T AAttr (a_name a); T AOp [61]] ++ string_nodes (a_single a) (a_value a).
(** In a processing instruction white space is text, but for that before the equal sign. *)
Definition opt_text (a : xact) (s : str) : list sn := match s with [] => [] | _ => [T a s] end.
Definition pi_attr_nodes (a : attr) : list sn :=
  [T APiText (a_before a); T AAttr (a_name a); T AOp [61]] ++ opt_text APiText (a_eq2 a) ++ string_nodes (a_single a) (a_value a).
(** The attributes of a tag: a context, if there are any, that ends with the end of the tag; otherwise just the token. *)
Definition tag_nodes (n : str) (ats : list attr) (close : str) : list sn :=
  [T ADelim [60]; T ATag n] ++ match ats with [] => [T ADelim close] | _ => [C XAttrs (flat_map attr_nodes ats ++ [T ADelim close])] end.
(** The tokens of a comment: their texts make up the comment, and none of them is its end. *)
Definition comment_nodes (s : str) (cs : list sn) : Prop :=
  exists l, cs = map (fun x => T (fst x) (snd x)) l /\ concat (map snd l) = s /\ Forall (fun x => In (fst x) [ACom; AMark 0; AMark 1; AMark 2] /\ snd x <> []) l.

(** The nodes that show a list of items.  The contents of an element are in the context of the element, which ends with the end tag. *)
Inductive shows : list sn -> list xitem -> Prop :=
| ShNil : shows [] []
| ShText s ns d : shows ns d -> shows (T (if forallb (space e) s then ASpace else AText) s :: ns) (XText s :: d)
| ShRef s ns d : shows ns d -> shows (T AEsc ([38] ++ s ++ [59]) :: ns) (XRef s :: d)
| ShCom s cs ns d : comment_nodes s cs -> shows ns d -> shows (T AComStart [60; 33; 45; 45] :: C XComment (cs ++ [T AComEnd [45; 45; 62]]) :: ns) (XCom s :: d)
| ShCData s ns d : shows ns d ->
    shows (T ADelim [60; 33; 91] :: T ADataDef [67; 68; 65; 84; 65] :: T ADelim [91] :: C XCdata (opt_text AData s ++ [T ADelim [93; 93; 62]]) :: ns) (XCData s :: d)
| ShProc n s ns d : shows ns d -> shows (T APiStart [60; 63] :: T APiName n :: C XPi (opt_text APiText s ++ [T APiEnd [63; 62]]) :: ns) (XProc n s :: d)
| ShDecl n ats w ns d : shows ns d ->
    shows (T APiStart [60; 63] :: T APiName n :: C XPi (flat_map pi_attr_nodes ats ++ opt_text APiText w ++ [T APiEnd [63; 62]]) :: ns) (XDecl n ats w :: d)
| ShEmpty n ats w ns d : shows ns d -> shows (tag_nodes n ats [47; 62] ++ ns) (XEmpty n ats w :: d)
| ShElem n ats w c w' cs ns d : shows cs c -> shows ns d ->
    shows (tag_nodes n ats [62] ++ C XTag (cs ++ [T ADelim [60; 47]; T ATag n; T ADelim [62]]) :: ns) (XElem n ats w c w' :: d).
End Ok.

(** ** The encoding of a document *)
Definition w_encoding : str := [101; 110; 99; 111; 100; 105; 110; 103].
(** The values of the attributes with the name encoding of the processing instructions at the top of the document, in order; the first is the encoding. *)
Definition enc_of (a : attr) : list str := if str_eqb (a_name a) w_encoding then [concat (map piece_text (a_value a))] else [].
Definition item_encs (x : xitem) : list str := match x with XDecl _ ats _ => flat_map enc_of ats | _ => [] end.
Definition declared (d : list xitem) : option str := hd_error (flat_map item_encs d).
(** The encoding is in double quotes, it is not empty, and has no references in it. *)
Definition plain_enc (a : attr) : Prop := a_name a = w_encoding -> a_single a = false /\ exists v, a_value a = [PText v].
Definition plain_item (x : xitem) : Prop := match x with XDecl _ ats _ => Forall plain_enc ats | _ => True end.
