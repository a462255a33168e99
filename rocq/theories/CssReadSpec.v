(** What reading a prelude should give, and what a quoted string means in CSS. *)
From Verif Require Import Base CssModel CssSpec CssReadModel.

(** ** The prelude *)
(** A part between commas: operators, the first selector, then each selector with the operators before it, and the
    operators at the end. *)
Record part := mkpart { pt_lead : list str; pt_first : selector; pt_more : list (list str * selector);
  pt_trail : list str }.
Definition part_items (p : part) : list pitem :=
  map POp (pt_lead p) ++ PSel (pt_first p) ::
  flat_map (fun x => map POp (fst x) ++ [PSel (snd x)]) (pt_more p) ++ map POp (pt_trail p).
(** A part without selectors: only operators. *)
Inductive anypart := Full (p : part) | Hollow (ops : list str).
Definition anypart_items (a : anypart) : list pitem :=
  match a with Full p => part_items p | Hollow ops => map POp ops end.
(** The first operator between two selectors counts; without one they are descendants. *)
Definition part_meaning (p : part) : list item :=
  Sel (pt_first p) :: flat_map (fun x => [Op (hd op_desc (fst x)); Sel (snd x)]) (pt_more p).
Fixpoint meaning (l : list anypart) : list (list item) :=
  match l with [] => [] | Full p :: l => part_meaning p :: meaning l | Hollow _ :: l => meaning l end.
Fixpoint with_commas (l : list (list pitem)) : list pitem :=
  match l with [] => [] | [x] => x | x :: l => x ++ PComma :: with_commas l end.
Definition matters (i : pitem) : bool := match i with POther => false | _ => true end.

(** ** Strings, after https://www.w3.org/TR/css-syntax-3/#consume-string-token
    An escape is up to six hexadecimal digits and one white space, or any other character; a newline ends a string too
    early. *)
Definition digit_value (c : nat) : option nat :=
  if (48 <=? c) && (c <=? 57) then Some (c - 48)
  else if (65 <=? c) && (c <=? 70) then Some (c - 55)
  else if (97 <=? c) && (c <=? 102) then Some (c - 87)
  else None.
(** Reading at most [n] digits. *)
Fixpoint read_digits (n : nat) (v : nat) (s : str) : nat * str :=
  match n, s with
  | S n, c :: s' => match digit_value c with Some d => read_digits n (16 * v + d) s' | None => (v, s) end
  | _, _ => (v, s)
  end.
Definition eat_space (s : str) : str := match s with 32 :: s' => s' | 10 :: s' => s' | 9 :: s' => s' | _ => s end.
(** The rest of a string after the opening quote: the text and what comes after the closing quote. *)
Fixpoint css_string (fuel : nat) (s : str) : option (str * str) :=
  match fuel with
  | 0 => None
  | S fuel =>
      match s with
      | [] => None
      | c :: s =>
          if c =? 34 then Some ([], s)
          else if (c =? 10) || (c =? 12) || (c =? 13) then None
          else if c =? 92 then
            match s with
            | [] => None
            | d :: s' =>
                if d =? 10 then css_string fuel s'
                else
                  match digit_value d with
                  | Some _ =>
                      let '(v, r) := read_digits 6 0 s in
                      option_map (fun x => (v :: fst x, snd x)) (css_string fuel (eat_space r))
                  | None => option_map (fun x => (d :: fst x, snd x)) (css_string fuel s')
                  end
            end
          else option_map (fun x => (c :: fst x, snd x)) (css_string fuel s)
      end
  end.
(** An identifier: it does not begin with a digit, nor with a hyphen and a digit, and is no single hyphen. *)
Definition digit (c : nat) : bool := (48 <=? c) && (c <=? 57).
Definition ident (word : nat -> bool) (s : str) : Prop :=
  s <> [] /\ (forall c, In c s -> word c = true \/ c = 45) /\
  (forall c r, s = c :: r -> digit c = false) /\ (forall c r, s = 45 :: c :: r -> digit c = false) /\ s <> [45].
(** The text that is read: an identifier stands for itself, a string for its contents. *)
Definition stands_for (word : nat -> bool) (t s : str) : Prop :=
  (ident word t /\ t = s) \/ (exists r fuel, t = 34 :: r /\ css_string fuel r = Some (s, [])).
