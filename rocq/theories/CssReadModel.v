(** Model of parts of [CssTransform] in /repo/parce/css.py: the prelude of a rule (857-898), strings (1109-1119,
    1184-1205), and of [quote_if_needed] and [escape] (1395-1405). *)
From Verif Require Import Base CssModel.

(** ** The prelude *)
(** What [prelude] gets: commas, operators, selectors (with their dictionaries) and other tokens and items, that are
    ignored. *)
Inductive pitem := PComma | POp (s : str) | PSel (s : selector) | POther.
(** [result and isinstance(result[-1], dict)] *)
Definition ends_in_sel (result : list item) : bool :=
  match last_opt result with Some (Sel _) => true | _ => false end.
(** css.py:873-888: the loop. *)
Fixpoint prelude_loop (items : list pitem) (prelude : list (list item)) (result : list item)
  : list (list item) * list item :=
  match items with
  | [] => (prelude, result)
  | PComma :: items => prelude_loop items (prelude ++ [result]) []
  | POp o :: items => prelude_loop items prelude (if ends_in_sel result then result ++ [Op o] else result)
  | PSel s :: items =>
      prelude_loop items prelude ((if ends_in_sel result then result ++ [Op op_desc] else result) ++ [Sel s])
  | POther :: items => prelude_loop items prelude result
  end.
(** css.py:857-898 [prelude]. *)
Definition read_prelude (items : list pitem) : list (list item) :=
  let '(prelude, result) := prelude_loop items [] [] in
  let prelude := match result with [] => prelude | _ => prelude ++ [result] end in
  let prelude := map (fun sels => match sels with
                                  | [] => []
                                  | _ => if ends_in_sel sels then sels else removelast sels
                                  end) prelude in
  filter (fun sels => match sels with [] => false | _ => true end) prelude.

(** ** Strings *)
(** A token of a string context: its text and whether its action is [String], [String.Escape] or another. *)
Inductive saction := AString | AEscape | AOther.
Inductive sitem := STok (text : str) (a : saction) | SItem.
Definition is_tok (i : sitem) : bool := match i with STok _ _ => true | SItem => false end.
(** [items[-1] == quote] *)
Definition closed_by (quote : nat) (items : list sitem) : bool :=
  match last_opt items with Some (STok t _) => str_eqb t [quote] | _ => false end.
(** css.py:1195-1205 [get_string], of an [ItemList]: the name [String] is not defined in the module, so the first token
    raises a [NameError]. *)
Definition get_string (items : list sitem) : option str :=
  match filter is_tok items with [] => Some [] | _ => None end.
(** css.py:1109-1119 [dqstring], [sqstring]: when the string is closed, the slice is a plain list, that has no method
    [tokens]: an [AttributeError]. *)
Definition read_string (quote : nat) (items : list sitem) : option str :=
  if closed_by quote items then None else get_string items.

(** ** Quoting *)
(** [format(n, 'x')]. *)
Definition hex_digit (n : nat) : nat := if n <? 10 then 48 + n else 87 + n.
Fixpoint hex_loop (fuel n : nat) (acc : str) : str :=
  match fuel with
  | 0 => acc
  | S fuel =>
      let acc := hex_digit (n mod 16) :: acc in
      if n / 16 =? 0 then acc else hex_loop fuel (n / 16) acc
  end.
Definition hex (n : nat) : str := hex_loop (S n) n [].

Section Quote.
(** Whether a character is matched by the regular expression [\w]. *)
Variable word : nat -> bool.
(** css.py:1403-1405 [escape], for one character. *)
Definition escape (c : nat) : str := 92 :: hex c ++ [32].
(** css.py:1395-1400 [quote_if_needed]. *)
Definition quote_if_needed (s : str) : str :=
  match s with
  | [] => [34; 34]
  | _ =>
      if forallb (fun c => word c || (c =? 45)) s then s
      else 34 :: flat_map (fun c => if (c =? 92) || (c =? 34) then escape c else [c]) s ++ [34]
  end.
End Quote.
