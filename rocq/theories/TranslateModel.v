(** Model of [AbstractDocument.translate] in parce/document.py: the operations it performs on the document (see
    MutableModel.v and ReplaceModel.v).

    Python's [re] is a parameter: [re_match pattern whole before rest] is the length of the match at the position between [before]
    and [rest], which together are the searched text, of the pattern, or with [whole] of [\b(pattern)\b]. *)
From Verif Require Import Base MutableModel ReplaceModel RegexModel.
From Coq Require Import ZArith.

Section Translate.
Variable order : list tuple -> list tuple.            (* the order in which Python goes through its sets, see RegexModel.v *)
Variable re_match : str -> bool -> str -> str -> option nat.

(** [mapping[m.group()]]; [None]: KeyError *)
Fixpoint lookup (k : str) (mapping : list (str * str)) : option str :=
  match mapping with [] => None | (l, v) :: mapping => if str_eqb l k then Some v else lookup k mapping end.

(** [finditer] on the selected text, each match with its replacement; [None]: KeyError. Simplified: after an empty match the
    search goes on at the next character (Python also looks for a match at the same position that is not empty). *)
Fixpoint find_iter (m : str -> str -> option nat) (mapping : list (str * str)) (fuel : nat) (before s : str) : option (list change) :=
  let next fuel := match s with [] => Some [] | c :: s' => find_iter m mapping fuel (before ++ [c]) s' end in
  match fuel with
  | 0 => Some []
  | S fuel =>
      match m before s with
      | None => next fuel
      | Some k =>
          match lookup (firstn k s) mapping with
          | None => None
          | Some v => option_map (cons (Change (length before) (length before + k) v))
                        (if k =? 0 then next fuel else find_iter m mapping fuel (before ++ firstn k s) (skipn k s))
          end
      end
  end.

(** document.py:261-272 [translate], with document.py:230-255 [re_sub]. [None]: an exception. *)
Definition translate_ops (doc : str) (mapping : list (str * str)) (start : Z) (end_ : option Z) (count : Z) (whole_words : bool) : option (list mop) :=
  match words2regexp order (map fst mapping) with
  | None => None
  | Some expr =>
      match getitem doc (KSlice (Some start) end_) with
      | None => None
      | Some text => option_map (fun ms => re_sub_ops start ms count) (find_iter (re_match expr whole_words) mapping (S (length text)) [] text)
      end
  end.
End Translate.
