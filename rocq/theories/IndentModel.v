(** Model of parce/indent.py: what [AbstractIndenter] does with the lines of a document. *)
From Verif Require Import Base MutableModel CursorModel BlockModel StripModel.
From Coq Require Import ZArith.

(** indent.py:87-100, the events; those with a string are tuples in Python. *)
Inductive event :=
  | INDENT | DEDENT | NO_DEDENT
  | PREFER_INDENT (arg : str) | CURRENT_INDENT (arg : str) | ALIGN (arg : str)
  | BLANK | NO_STRIP | NO_INDENT.

(** indent.py:104-121 [IndentInfo], without the block. The bits of [_state] are three booleans. *)
Record info := Info {
  i_indents : list (option str); i_dedents_start : nat; i_dedents_end : nat;
  i_indent : option str; i_prefer : option str;
  i_blank : bool; i_no_strip : bool; i_no_indent : bool }.
Definition empty_info : info := Info [] 0 0 None None false false false.

(** indent.py:123-135 *)
Definition allow_indent (i : info) : bool := negb (i_no_indent i).
Definition allow_strip (i : info) : bool := negb (i_no_strip i).

(** [info.indents[-1] = arg] if there is an item and it is None, indent.py:281-283. *)
Definition align_last (arg : str) (l : list (option str)) : list (option str) :=
  match last_opt l with Some None => removelast l ++ [Some arg] | _ => l end.

(** indent.py:276-299, the body of the loop over the events: the information so far and [find_dedents]. *)
Definition handle_event (s : info * bool) (e : event) : info * bool :=
  let '(Info ind ds de cur pre bl ns ni, find_dedents) := s in
  match e with
  | CURRENT_INDENT a => (Info ind ds de (Some a) pre bl ns ni, find_dedents)
  | ALIGN a => (Info (align_last a ind) ds de cur pre bl ns ni, find_dedents)
  | PREFER_INDENT a => (Info ind ds de cur (Some a) bl ns ni, find_dedents)
  | INDENT => (Info (ind ++ [None]) ds de cur pre bl ns ni, false)
  | DEDENT => if find_dedents then (Info ind (S ds) de cur pre bl ns ni, find_dedents)
              else match ind with
                   | [] => (Info ind ds (S de) cur pre bl ns ni, find_dedents)
                   | _ => (Info (removelast ind) ds de cur pre bl ns ni, find_dedents)
                   end
  | NO_DEDENT => (fst s, false)
  | BLANK => (Info ind ds de cur pre true ns ni, find_dedents)
  | NO_STRIP => (Info ind ds de cur pre bl true ni, find_dedents)
  | NO_INDENT => (Info ind ds de cur pre bl ns true, find_dedents)
  end.

(** Python's [s.startswith(p)] *)
Definition py_startswith (p s : str) : bool := str_eqb (firstn (length p) s) p.

Section Indenter.
(** The text of the document and its [block_separator], the characters that are white space for Python,
    the attributes [indent_string] and [indent_blank_lines], and what [indent_events] yields for a block
    (given by its [pos] and [end]) and [prev_indents]: that method is meant to be reimplemented. *)
Variables (text sep : str) (space : nat -> bool) (indent_string : str) (indent_blank_lines : bool).
Variable events : nat * nat -> list str -> list event.

(** document.py:470-472 [block.text()] *)
Definition block_text (b : nat * nat) : str := slice text (fst b) (snd b).

(** indent.py:304-305: [text[:-len(text.lstrip())]]; [text[:-0]] is the empty string. *)
Definition first_space (t : str) : str :=
  match length (py_lstrip space t) with
  | 0 => []
  | n => firstn (length t - n) t
  end.

(** indent.py:269-308 [indent_info]. Line 307 only compares and changes nothing. *)
Definition indent_info (b : nat * nat) (prev_indents : list str) : info :=
  let i := fst (fold_left handle_event (events b prev_indents) (empty_info, true)) in
  match i_indent i with
  | None => if allow_indent i
            then Info (i_indents i) (i_dedents_start i) (i_dedents_end i) (Some (first_space (block_text b)))
                      (i_prefer i) (i_blank i) (i_no_strip i) (i_no_indent i)
            else i
  | Some _ => i
  end.

(** [d[pos:end] = t]; [d.insert(pos, t)] and [del d[pos:end]] are cases of it, mutablestring.py:129-131, 208-210. *)
Definition set_piece (pos end_ : nat) (t : str) : mop := Set_ (KSlice (Some (Z.of_nat pos)) (Some (Z.of_nat end_))) t.

(** document.py:584-586 [cursor.blocks()], places only. *)
Definition cursor_blocks (c : cursor) : list (nat * nat) :=
  map (fun b => (b_pos b, b_end b)) (blocks text sep (c_pos c) (c_end c)).

(** indent.py:236-239 *)
Definition increase_ops (c : cursor) : list mop :=
  flat_map (fun b => if allow_indent (indent_info b []) then [set_piece (fst b) (fst b) indent_string] else [])
           (cursor_blocks c).

(** indent.py:245-252; [info.indent] can only be None if [allow_indent] is False. *)
Definition decrease_ops (c : cursor) : list mop :=
  flat_map (fun b =>
              let i := indent_info b [] in
              match allow_indent i, i_indent i with
              | true, Some (x :: ind) =>
                  let remove := if py_startswith indent_string (x :: ind) then indent_string else x :: ind in
                  [set_piece (fst b) (fst b + length remove) []]
              | _, _ => []
              end)
           (cursor_blocks c).

(** indent.py:262-267; [strippable] are the characters of [chars], or white space. *)
Definition strip_ops (strippable : nat -> bool) (c : cursor) : list mop :=
  flat_map (fun b =>
              if allow_strip (indent_info b []) then
                let new_text := py_rstrip strippable (block_text b) in
                if length new_text =? snd b - fst b then []
                else [set_piece (fst b + length new_text) (snd b) []]
              else [])
           (cursor_blocks c).

(** [del indents[max(1, len(indents) - n):]], indent.py:175, 194. *)
Definition pop_indents (n : nat) (indents : list str) : list str :=
  firstn (Nat.max 1 (length indents - n)) indents.
(** indent.py:169-172 *)
Fixpoint push_indents (current : str) (l : list (option str)) : list str :=
  match l with
  | [] => []
  | i :: l =>
      (* [indent or self.indent_string]: an empty string counts as none *)
      let current := current ++ match i with Some (x :: a) => x :: a | _ => indent_string end in
      current :: push_indents current l
  end.

(** indent.py:164-200, the loop of [indent] over the blocks; [prev] is [prev_info.indents], or nothing. *)
Fixpoint indent_loop (c : cursor) (prev : list (option str)) (indents : list str) (bs : list (nat * nat)) : list mop :=
  match bs with
  | [] => []
  | b :: bs =>
      let i := indent_info b indents in
      let indents := indents ++ push_indents (last indents []) prev in
      let indents := pop_indents (i_dedents_start i) indents in
      let '(ops, indents) :=
        if allow_indent i && (indent_blank_lines || negb (i_blank i)) then
          let current := match i_indent i with Some s => s | None => [] end in
          if fst b <? c_pos c then
            ([], match i_prefer i with None => removelast indents ++ [current] | Some _ => indents end)
          else
            let new_indent := match i_prefer i with Some s => s | None => last indents [] end in
            ((if str_eqb new_indent current then [] else [set_piece (fst b) (fst b + length current) new_indent]), indents)
        else ([], indents) in
      let indents := pop_indents (i_dedents_end i) indents in
      ops ++ (if match c_end c with Some e => e <=? snd b | None => false end then []
              else indent_loop c (i_indents i) indents bs)
  end.
(** indent.py:151-200 *)
Definition indent_ops (c : cursor) : list mop :=
  indent_loop c [] [[]] (map (fun b => (b_pos b, b_end b)) (blocks text sep 0 None)).

(** indent.py:212-228, the search backwards: None if nothing is found. [depth] can become negative. *)
Fixpoint search_back (fuel : nat) (depth : Z) (b : block) : option str :=
  match fuel with
  | 0 => None
  | S fuel =>
      if b_pos b =? 0 then None
      else match previous_block text sep b with
           | None => None
           | Some b =>
               let i := indent_info (b_pos b, b_end b) [] in
               let current := match i_indent i with Some s => s | None => [] end in
               if allow_indent i then
                 let n := Z.of_nat (length (i_indents i)) in
                 if ((0 <=? depth) && (depth <? n))%Z then
                   match nth_error (i_indents i) (Z.to_nat (n - depth - 1)) with
                   | Some (Some (x :: a)) => Some (current ++ x :: a)
                   | _ => Some (current ++ indent_string)
                   end
                 else
                   let depth := (depth - n + Z.of_nat (i_dedents_end i))%Z in
                   if (depth =? 0)%Z then Some current
                   else search_back fuel (depth + Z.of_nat (i_dedents_start i))%Z b
               else search_back fuel depth b
           end
  end.
(** indent.py:202-231 *)
Definition auto_indent_ops (c : cursor) : list mop :=
  let block := find_block text sep (c_pos c) in
  let i := indent_info (b_pos block, b_end block) [] in
  if allow_indent i then
    let current := match i_indent i with Some s => s | None => [] end in
    let new_indent := match i_prefer i with
                      | Some s => s
                      | None => match search_back (S (length text)) (Z.of_nat (i_dedents_start i)) block with
                                | Some s => s
                                | None => current
                                end
                      end in
    if str_eqb new_indent current then [] else [set_piece (b_pos block) (b_pos block + length current) new_indent]
  else [].

(** [with cursor.document() as d: ...]: the text afterwards, and the changes that are applied to the cursors
    (document.py:102-106). *)
Definition edited_text (ops : list mop) : str := m_text (fst (m_run (MState text 0 []) (Enter :: ops ++ [Exit_ false]))).
Definition pending_changes (ops : list mop) : list change :=
  match get_changes (m_pend (fst (m_run (MState text 0 []) (Enter :: ops)))) with Some cs => cs | None => [] end.

Definition increase_indent (c : cursor) : str := edited_text (increase_ops c).
Definition decrease_indent (c : cursor) : str := edited_text (decrease_ops c).
Definition strip_trailing_blanks (strippable : nat -> bool) (c : cursor) : str := edited_text (strip_ops strippable c).
Definition indent (c : cursor) : str := edited_text (indent_ops c).
Definition auto_indent (c : cursor) : str := edited_text (auto_indent_ops c).
(** The cursor itself after [increase_indent(cursor)], if it is the only one. *)
Definition cursor_after (ops : list mop) (c : cursor) : cursor :=
  match update_cursors (pending_changes ops) [c] with x :: _ => x | [] => c end.
End Indenter.
