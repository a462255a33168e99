(** What a CSV text is (RFC 4180, with LF between the lines), independent of the code. *)
From Verif Require Import Base.

(** The text between the quotes: quotes are doubled. *)
Inductive quoted : str -> str -> Prop :=
| qu_nil : quoted [] []
| qu_char c t s : c <> 34 -> quoted t s -> quoted (c :: t) (c :: s)
| qu_quote t s : quoted t s -> quoted (34 :: 34 :: t) (34 :: s).
Definition blanks (s : str) : Prop := Forall (fun c => c = 32 \/ c = 9) s.

(** A field: nothing, text without comma, quote and [eol] characters, or a quoted string, that may have blanks around it. *)
Inductive field_text (eol : str) : option str -> str -> Prop :=
| ft_none : field_text eol None []
| ft_plain s : s <> [] -> Forall (fun c => c <> 44 /\ c <> 34 /\ ~ In c eol) s -> field_text eol (Some s) s
| ft_quoted a t b s : blanks a -> quoted t s -> blanks b -> field_text eol (Some s) (a ++ 34 :: t ++ 34 :: b).
Inductive row_text (eol : str) : list (option str) -> str -> Prop :=
| rt_one f t : field_text eol f t -> row_text eol [f] t
| rt_more f t r u : field_text eol f t -> row_text eol r u -> row_text eol (f :: r) (t ++ 44 :: u).
(** The rows, with [eol] between them, and possibly at the end.  Empty lines do not count. *)
Inductive table_text (eol : str) : list (list (option str)) -> str -> Prop :=
| tt_nil : table_text eol [] []
| tt_last r t : row_text eol r t -> t <> [] -> table_text eol [r] t
| tt_row r t rs u : row_text eol r t -> t <> [] -> table_text eol rs u -> table_text eol (r :: rs) (t ++ eol ++ u)
| tt_blank rs u : table_text eol rs u -> table_text eol rs (eol ++ u).

(** A text for a table: all strings quoted, a newline after every row. *)
Fixpoint double_quotes (s : str) : str := match s with [] => [] | c :: s => if c =? 34 then 34 :: 34 :: double_quotes s else c :: double_quotes s end.
Definition write_field (f : option str) : str := match f with None => [] | Some s => 34 :: double_quotes s ++ [34] end.
Fixpoint write_row (r : list (option str)) : str := match r with [] => [] | [f] => write_field f | f :: r => write_field f ++ 44 :: write_row r end.
Definition write_table (rs : list (list (option str))) : str := concat (map (fun r => write_row r ++ [10]) rs).
