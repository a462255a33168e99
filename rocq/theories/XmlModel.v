(** Model of the language [Xml] in parce/lang/xml.py (38-154, 231-239), with the patterns for comments in parce/language.py (46-58). *)
From Verif Require Import Base TargetModel LexerModel LexiconModel TreeModel.
From Coq Require Import ZArith.

(** The lexicons of [Xml]; [XDtd]: those of [Dtd], which are entered from [internal_dtd] only. *)
Inductive xlex := XRoot | XTag | XCdata | XPi | XDoctype | XInternal | XAttrs | XDq | XSq | XComment | XDtd (k : nat).
(** The actions in the rules: of [Delimiter] and [Bracket], of data, of processing instructions, of names, of text, of strings, and of comments. *)
Inductive xact := ADelim | ABracket | ADataDef | AData | APiStart | APiName | APiText | APiEnd | AKeyword | ATagDef | ATag | AAttr | AName | AEntity
  | AOp | AEsc | AText | ASpace | AInvalid | ADqStart | ADq | ADqEnd | ASqStart | ASq | ASqEnd | AStrEsc | AComStart | ACom | AComInvalid | AComEnd | AMark (k : nat).
Definition xlex_eqb (a b : xlex) : bool :=
  match a, b with
  | XRoot, XRoot | XTag, XTag | XCdata, XCdata | XPi, XPi | XDoctype, XDoctype | XInternal, XInternal | XAttrs, XAttrs | XDq, XDq | XSq, XSq | XComment, XComment => true
  | XDtd i, XDtd j => i =? j
  | _, _ => false
  end.

(** What is not in the code of parce: which characters beyond ASCII the classes \s and \w match, and which are matched by the character classes in
    [RE_XML_NAME] (38-46), without and with the flag IGNORECASE. *)
Record xenv := Env { h_space : nat -> bool; h_word : nat -> bool; h_start : bool -> nat -> bool; h_char : bool -> nat -> bool }.

Definition between (a b c : nat) : bool := (a <=? c) && (c <=? b).
Definition letter (c : nat) : bool := between 65 90 c || between 97 122 c.
Definition digit (c : nat) : bool := between 48 57 c.
Definition mem (l : list nat) (c : nat) : bool := existsb (Nat.eqb c) l.

Section Xml.
Variable e : xenv.
Definition space (c : nat) : bool := if c <? 128 then between 9 13 c || between 28 32 c else h_space e c.
Definition wordc (c : nat) : bool := if c <? 128 then letter c || digit c || (c =? 95) else h_word e c.
(** xml.py:38-45 *)
Definition nstart (ic : bool) (c : nat) : bool := if c <? 128 then letter c || mem [95; 58] c else h_start e ic c.
Definition nchar (ic : bool) (c : nat) : bool := if c <? 128 then letter c || digit c || mem [95; 58; 45; 46] c else h_char e ic c.

(** The length of the run of characters at the start of a text. *)
Fixpoint span (f : nat -> bool) (s : str) : nat := match s with [] => 0 | c :: s => if f c then S (span f s) else 0 end.
Definition starts (t s : str) : bool := str_eqb t (firstn (length t) s).
(** xml.py:46 [RE_XML_NAME], the length; 0 if it does not match. *)
Definition name_len (ic : bool) (s : str) : nat := match s with c :: r => if nstart ic c then S (span (nchar ic) r) else 0 | [] => 0 end.
(** A name after [\s*]: how many white space characters are before it, and its length.  The engine gives back white space that is also in names. *)
Fixpoint name_from (ic : bool) (k : nat) (s : str) : option (nat * nat) :=
  match name_len ic (skipn k s) with
  | S n => Some (k, S n)
  | 0 => match k with 0 => None | S k => name_from ic k s end
  end.
Definition spaced_name (ic : bool) (s : str) : option (nat * nat) := name_from ic (span space s) s.

(** A pattern gets the character before the position and the text from the position on, and gives the length of the match and the spans of the groups,
    counted from the position. *)
Notation grp := (list (option (nat * nat))).
Notation pat := (option nat -> str -> option (nat * grp)).
Definition plain (f : str -> option nat) : pat := fun _ s => option_map (fun n => (n, [])) (f s).
Definition lit (t s : str) : option nat := if starts t s then Some (length t) else None.
(** A literal; with IGNORECASE small letters may be there for the capitals. *)
Fixpoint starts_ic (ic : bool) (t s : str) : bool :=
  match t, s with
  | [], _ => true
  | a :: t, c :: s => ((c =? a) || ic && letter a && (c =? a + 32)) && starts_ic ic t s
  | _, [] => false
  end.
(** [&\S*?;] *)
Definition re_ref (s : str) : option nat :=
  match s with
  | c :: r =>
      if c =? 38 then let n := span (fun d => negb (space d) && negb (d =? 59)) r in match nth_error r n with Some d => if d =? 59 then Some (n + 2) else None | None => None end
      else None
  | [] => None
  end.
Definition re_name (s : str) : option nat := match name_len false s with 0 => None | n => Some n end.
Definition re_spaces (s : str) : option nat := match span space s with 0 => None | n => Some n end.

(** xml.py:90, the start of a CDATA section *)
Definition re_cdata (ic : bool) : pat := fun _ s => if starts_ic ic [60; 33; 91; 67; 68; 65; 84; 65; 91] s then Some (9, [Some (0, 3); Some (3, 8); Some (8, 9)]) else None.
(** xml.py:91 *)
Definition re_doctype (ic : bool) : pat := fun _ s =>
  if starts_ic ic [60; 33; 68; 79; 67; 84; 89; 80; 69] s && match nth_error s 9 with Some c => negb (wordc c) | None => true end
  then match spaced_name ic (skipn 9 s) with
       | Some (k, n) => Some (9 + k + n, [Some (0, 2); Some (2, 9); Some (9 + k, 9 + k + n)])
       | None => Some (9, [Some (0, 2); Some (2, 9); None])
       end
  else None.
(** xml.py:93 *)
Definition re_pi (ic : bool) : pat := fun _ s =>
  if starts [60; 63] s then match name_len ic (skipn 2 s) with 0 => Some (2, [Some (0, 2); None]) | n => Some (2 + n, [Some (0, 2); Some (2, 2 + n)]) end else None.
(** xml.py:96, an end tag *)
Definition re_end (ic : bool) : pat := fun _ s =>
  match s with
  | c :: r =>
      if c =? 60 then
        let i := span space r in
        match skipn i r with
        | d :: r1 =>
            if d =? 47 then
              match spaced_name ic r1 with
              | Some (k, n) =>
                  let r2 := skipn (k + n) r1 in let m := span space r2 in let a := 2 + i in let b := a + k in
                  match nth_error r2 m with
                  | Some g => if g =? 62 then Some (b + n + m + 1, [Some (0, a); Some (b, b + n); Some (b + n + m, b + n + m + 1)]) else None
                  | None => None
                  end
              | None => None
              end
            else None
        | [] => None
        end
      else None
  | [] => None
  end.
(** The end of a tag, with a slash or without: the length *)
Definition re_close (s : str) : option nat :=
  match s with
  | c :: r =>
      if c =? 62 then Some 1
      else if c =? 47 then let m := span space r in match nth_error r m with Some g => if g =? 62 then Some (m + 2) else None | None => None end
      else None
  | [] => None
  end.
(** xml.py:97, a start tag *)
Definition re_start (ic : bool) : pat := fun _ s =>
  match s with
  | c :: r =>
      if c =? 60 then
        match spaced_name ic r with
        | Some (k, n) =>
            let a := 1 + k + n in let r2 := skipn (k + n) r in let m := span space r2 in
            match re_close (skipn m r2) with
            | Some x => Some (a + m + x, [Some (0, 1); Some (1 + k, a); Some (a + m, a + m + x)])
            | None => Some (a, [Some (0, 1); Some (1 + k, a); None])
            end
        | None => None
        end
      else None
  | [] => None
  end.
(** xml.py:116 *)
Definition re_pi_attr : pat := fun _ s =>
  match name_len false s with
  | 0 => None
  | n =>
      let m := span space (skipn n s) in
      match skipn (n + m) s with
      | c :: r => if (c =? 61) && match nth_error r (span space r) with Some q => mem [34; 39] q | None => false end
                  then Some (n + m + 1, [Some (0, n); Some (n + m, n + m + 1)]) else None
      | [] => None
      end
  end.
(** xml.py:73 [%name;] *)
Definition re_entity (s : str) : option nat :=
  match s with
  | c :: r => if c =? 37 then match name_len false r with 0 => None | n => match nth_error r n with Some d => if d =? 59 then Some (n + 2) else None | None => None end end else None
  | [] => None
  end.
(** xml.py:140: a slash before the end of a tag *)
Definition re_slash (s : str) : option nat := match s with c :: _ => if c =? 47 then re_close s else None | [] => None end.
Definition re_sources (s : str) : option nat :=
  if starts [83; 89; 83; 84; 69; 77] s || starts [80; 85; 66; 76; 73; 67] s then Some 6 else if starts [78; 68; 65; 84; 65] s then Some 5 else None.

(** ** Marks in comments *)
(** The length of [(?:[seps]chars+)*]. *)
Fixpoint runs (f : nat -> bool) (seps : list nat) (fuel : nat) (s : str) : nat :=
  match fuel, s with
  | S fuel, c :: r => if mem seps c then match span f r with 0 => 0 | n => S n + runs f seps fuel (skipn n r) end else 0
  | _, _ => 0
  end.
(** [chars+(?:[seps]chars+)*] *)
Definition run_len (f : nat -> bool) (seps : list nat) (s : str) : nat := match span f s with 0 => 0 | n => n + runs f seps (length s) (skipn n s) end.
Definition word_before (p : option nat) : bool := match p with Some c => wordc c | None => false end.
(** language.py:55, an e-mail address *)
Definition re_email : pat := fun p s =>
  if word_before p then None
  else match run_len wordc [46; 95; 37; 43; 45] s with
       | 0 => None
       | n => match skipn n s with
              | c :: r => if c =? 64 then match run_len wordc [46; 95; 45] r with 0 => None | m => Some (n + 1 + m, []) end else None
              | [] => None
              end
       end.
(** language.py:56, a URL *)
Definition urlc (c : nat) : bool := wordc c || mem [126; 58; 47; 35; 45] c.
Definition url_start (p : option nat) (s : str) : nat :=
  if starts [104; 116; 116; 112; 115; 58; 47] s then 7 else if starts [104; 116; 116; 112; 58; 47] s then 6 else if starts [102; 116; 112; 58; 47] s then 5
  else if starts [119; 119; 119; 46] s && negb (word_before p) then 4 else 0.
Definition url_part (s : str) : nat :=
  match run_len urlc [46; 63; 61] s with
  | 0 => match s with
         | c :: r => if c =? 40 then let n := span (fun d => urlc d || mem [46; 63] d) r in match nth_error r n with Some d => if d =? 41 then n + 2 else 0 | None => 0 end else 0
         | [] => 0
         end
  | n => n
  end.
Fixpoint url_parts (fuel : nat) (s : str) : nat :=
  match fuel with
  | 0 => 0
  | S fuel => match url_part s with 0 => 0 | n => n + url_parts fuel (skipn n s) end
  end.
Definition re_url : pat := fun p s =>
  match url_start p s with
  | 0 => None
  | n => match url_parts (length s) (skipn n s) with 0 => None | m => Some (n + m, []) end
  end.
(** language.py:57 *)
Definition ends_word (n : nat) (s : str) : bool := match nth_error s n with Some c => negb (wordc c) | None => true end.
Definition alert_words : list str :=
  [[65; 76; 69; 82; 84]; [66; 85; 71]; [70; 73; 88; 77; 69]; [84; 69; 77; 80]; [84; 79; 68; 79]].
Definition re_alert : pat := fun p s =>
  if word_before p then None
  else match find (fun t => starts t s && ends_word (length t) s) alert_words with
       | Some t => Some (length t, [])
       | None => let n := span (Nat.eqb 88) s in if (3 <=? n) && ends_word n s then Some (n, []) else None
       end.

(** ** The lexicons *)
(** The patterns of a lexicon, in order; xml.py, of the methods: *)
Definition p_strings : list pat := [plain (lit [34]); plain (lit [39])].                                                            (* 76-78 *)
Definition p_content (ic : bool) : list pat :=                                                                                      (* 87-103 *)
  [plain (lit [60; 33; 45; 45]); re_cdata ic; re_doctype ic; re_pi ic; re_end ic; re_start ic; plain re_ref].
Definition x_patterns (l : xlex) : list pat :=
  match l with
  | XRoot => p_content true
  | XTag => p_content false                                                                                                         (* 105-107 *)
  | XCdata => [plain (lit [93; 93; 62])]                                                                                            (* 109-112 *)
  | XPi => re_pi_attr :: p_strings ++ [plain re_ref; plain (lit [63; 62])]                                                          (* 114-120 *)
  | XDoctype => [plain re_sources; plain re_name] ++ p_strings ++ [plain re_entity; plain (lit [91]); plain (lit [62])]             (* 122-128 *)
  | XAttrs => [plain re_name; plain (lit [61])] ++ p_strings ++ [plain re_slash; plain (lit [62]); plain re_spaces]                 (* 135-143 *)
  | XDq => [plain re_ref; plain (lit [34])]                                                                                         (* 51-55 *)
  | XSq => [plain re_ref; plain (lit [39])]                                                                                         (* 57-61 *)
  | XComment => [plain (lit [45; 45; 62]); plain (lit [45; 45]); re_email; re_url; re_alert]                                        (* 63-67 *)
  | XInternal | XDtd _ => []
  end.
Notation rl := (rule xlex xact).
Definition std (a : xact) (t : list (ritem xlex)) : rl := SRule (AStd a) t.
Definition r_strings : list rl := [std ADqStart [RLex XDq]; std ASqStart [RLex XSq]].
(** xml.py:97-101: the text of the third group tells where to go. *)
Definition tag_rule (m : mtch) (txt : str) : action xlex xact * list (ritem xlex) :=
  (AGroups [AStd ADelim; AStd ATag; AStd ADelim],
   match nth_error (m_groups m) 2 with
   | Some (Some (i, j)) => if str_eqb (slice txt (i - m_start m) (j - m_start m)) [62] then [RLex XTag] else []
   | _ => [RLex XAttrs]
   end).
Definition r_content : list rl :=
  [std AComStart [RLex XComment]; SRule (AGroups [AStd ADelim; AStd ADataDef; AStd ADelim]) [RLex XCdata];
   SRule (AGroups [AStd ADelim; AStd AKeyword; AStd ATagDef]) [RLex XDoctype]; SRule (AGroups [AStd APiStart; AStd APiName]) [RLex XPi];
   SRule (AGroups [AStd ADelim; AStd ATag; AStd ADelim]) [RInt (-1)]; DRule tag_rule; std AEsc []].
Definition x_rules (l : xlex) : list rl :=
  match l with
  | XRoot | XTag => r_content
  | XCdata => [std ADelim [RInt (-1)]]
  | XPi => SRule (AGroups [AStd AAttr; AStd AOp]) [] :: r_strings ++ [std AEsc []; std APiEnd [RInt (-1)]]
  | XDoctype => [std AKeyword []; std AName []] ++ r_strings ++ [std AEntity []; std ABracket [RLex XInternal]; std ADelim [RInt (-1)]]
  | XAttrs => [std AAttr []; std AOp []] ++ r_strings ++ [std ADelim [RInt (-1)]; std ADelim [RInt (-1); RLex XTag]; SRule ASkip []]
  | XDq => [std AStrEsc []; std ADqEnd [RInt (-1)]]
  | XSq => [std AStrEsc []; std ASqEnd [RInt (-1)]]
  | XComment => [std AComEnd [RInt (-1)]; std AComInvalid []; std (AMark 0) []; std (AMark 1) []; std (AMark 2) []]
  | XInternal | XDtd _ => []
  end.
Definition x_da (l : xlex) : dact xlex xact :=
  match l with
  | XRoot | XTag => DynDA (fun t => AStd (if forallb space t then ASpace else AText))
  | XCdata => StaticDA (AStd AData)
  | XPi => StaticDA (AStd APiText)
  | XAttrs => StaticDA (AStd AInvalid)
  | XDq => StaticDA (AStd ADq)
  | XSq => StaticDA (AStd ASq)
  | XComment => StaticDA (AStd ACom)
  | _ => NoDA
  end.
(** The first pattern that matches: its number, counted from [i]. *)
Fixpoint first_match (i : nat) (ps : list pat) (p : option nat) (s : str) : option (nat * (nat * grp)) :=
  match ps with
  | [] => None
  | q :: ps => match q p s with Some x => Some (i, x) | None => first_match (S i) ps p s end
  end.
Definition before (text : str) (pos : nat) : option nat := match pos with 0 => None | S p => nth_error text p end.
Definition g_shift (pos : nat) (gs : grp) : grp := map (option_map (fun x => (pos + fst x, pos + snd x))) gs.
Definition x_match (l : xlex) (adv : bool) (text : str) (pos : nat) : option mtch :=
  match first_match 0 (x_patterns l) (before text pos) (skipn pos text) with
  | Some (i, (n, gs)) => Some (Mtch pos (pos + n) i (g_shift pos gs))
  | None => None
  end.
(** The lexicons of [Dtd], and [internal_dtd] (130-133) that has their rules too, are not modelled. *)
Variable dtd : xlex -> compiled xlex xact.
Definition x_compiled (l : xlex) : compiled xlex xact :=
  match l with
  | XInternal | XDtd _ => dtd l
  | _ => Compiled (x_rules l) (x_da l) None (match l with XCdata => Some [93; 93; 62] | _ => None end) (x_match l)
  end.
Definition x_parse (l : xlex) : str -> nat -> gen (item xlex xact) := lexicon_parse (fun _ _ => []) l (x_compiled l).
Definition x_consume (l : xlex) : bool := false.
End Xml.

(** ** xml.py:231-239 [XmlIO.find_encoding], on the children of the root of the tree. *)
Notation xnode := (node xlex xact).
Definition t_encoding : str := [101; 110; 99; 111; 100; 105; 110; 103].
(** [.right_siblings(Xml.dqstring)[0]]: the first child of each; [Token.text], and of a context there would be no text. *)
Fixpoint first_children (l : list xnode) : list str :=
  match l with
  | [] => []
  | Ctx XDq (Tok t :: _) :: l => k_text t :: first_children l
  | _ :: l => first_children l
  end.
(** [.children.action(Name.Attribute)('encoding')] and what follows it *)
Fixpoint encodings (l : list xnode) : list str :=
  match l with
  | [] => []
  | Tok t :: l => (match k_act t with AAttr => if str_eqb (k_text t) t_encoding then first_children l else [] | _ => [] end) ++ encodings l
  | _ :: l => encodings l
  end.
Definition find_encoding (cs : list xnode) : option str :=
  hd_error (flat_map (fun n => match n with Ctx XPi ns => encodings ns | _ => [] end) cs).
