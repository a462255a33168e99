(** What a regular expression means: reading the text of a pattern, and the texts that it matches in full.

    Only the syntax that the generated patterns use is read: literal characters, escaped characters, character classes, [|],
    [(?:...)], [?] and counts in braces.  Everything else makes the reader fail.  This is independent of parce; it describes
    Python's [re] (sre_parse) for these patterns. *)
From Verif Require Import Base.

(** ** Patterns *)
Inductive rx :=
| RChar (c : nat)
| RClass (neg : bool) (ranges : list (nat * nat))
| RGroup (alts : list (list rx))             (* alternatives, each a sequence *)
| RRepeat (r : rx) (lo hi : nat).

(** [k] times something *)
Fixpoint times (P : str -> Prop) (k : nat) (t : str) : Prop :=
  match k with 0 => t = [] | S k => exists a b, t = a ++ b /\ P a /\ times P k b end.

Definition in_ranges (c : nat) (ranges : list (nat * nat)) : Prop := exists a b, In (a, b) ranges /\ a <= c <= b.

(** The texts that match in full. *)
Fixpoint matches (r : rx) (t : str) : Prop :=
  match r with
  | RChar c => t = [c]
  | RClass neg ranges => exists c, t = [c] /\ (if neg then ~ in_ranges c ranges else in_ranges c ranges)
  | RGroup alts =>
      (fix alt (alts : list (list rx)) : Prop :=
         match alts with
         | [] => False
         | s :: alts =>
             (fix seq (s : list rx) (t : str) : Prop :=
                match s with [] => t = [] | r :: s => exists a b, t = a ++ b /\ matches r a /\ seq s b end) s t
             \/ alt alts
         end) alts
  | RRepeat r lo hi => exists k, lo <= k <= hi /\ times (matches r) k t
  end.

(** ** Reading a pattern

    One character at a time.  The innermost group comes first: its alternatives before the current one, and the current one. *)
Definition frame := (list (list rx) * list rx)%type.
Inductive mode :=
| MNormal
| MEscape                                                  (* after a backslash *)
| MOpen1 | MOpen2                                          (* after [(] and after [(?] *)
| MClass (neg first : bool) (ranges : list (nat * nat))    (* in a class *)
| MClassEsc (neg : bool) (ranges : list (nat * nat))
| MClassItem (neg : bool) (ranges : list (nat * nat)) (c : nat)      (* after a character in a class *)
| MClassDash (neg : bool) (ranges : list (nat * nat)) (c : nat)      (* after a character and [-] in a class *)
| MClassDashEsc (neg : bool) (ranges : list (nat * nat)) (c : nat)
| MCount1 (lo : option nat)                                (* after the brace *)
| MCount2 (lo : option nat) (hi : option nat).             (* after the comma *)
Definition state := (mode * frame * list frame)%type.

(** Characters that have a meaning outside classes. *)
Definition meta (c : nat) : bool := existsb (Nat.eqb c) [40; 41; 91; 93; 123; 125; 63; 42; 43; 124; 94; 36; 92; 46].
(** A backslash before ASCII letters and digits has a special meaning. *)
Definition ascii_alnum (c : nat) : bool := ((48 <=? c) && (c <=? 57)) || ((65 <=? c) && (c <=? 90)) || ((97 <=? c) && (c <=? 122)).
Definition digit (c : nat) : bool := (48 <=? c) && (c <=? 57).

Definition put (r : rx) (f : frame) : frame := (fst f, snd f ++ [r]).
(** A count applies to the last thing, which may not be a repetition itself. *)
Definition put_repeat (lo hi : nat) (f : frame) : option frame :=
  match last_opt (snd f) with
  | None | Some (RRepeat _ _ _) => None
  | Some r => if lo <=? hi then Some (fst f, removelast (snd f) ++ [RRepeat r lo hi]) else None
  end.
Definition alts_of (f : frame) : list (list rx) := fst f ++ [snd f].
Definition more (n : option nat) (c : nat) : option nat := Some (match n with Some n => 10 * n | None => 0 end + (c - 48)).

Definition step (s : state) (c : nat) : option state :=
  let '(m, f, fs) := s in
  let repeat lo hi := match put_repeat lo hi f with Some f => Some (MNormal, f, fs) | None => None end in
  match m with
  | MNormal =>
      if c =? 92 then Some (MEscape, f, fs)                                       (* \ *)
      else if c =? 40 then Some (MOpen1, f, fs)                                   (* ( *)
      else if c =? 41 then match fs with                                          (* ) *)
                           | g :: fs => Some (MNormal, put (RGroup (alts_of f)) g, fs)
                           | [] => None
                           end
      else if c =? 124 then Some (MNormal, (alts_of f, []), fs)                   (* | *)
      else if c =? 91 then Some (MClass false true [], f, fs)                     (* [ *)
      else if c =? 63 then repeat 0 1                                             (* ? *)
      else if c =? 123 then Some (MCount1 None, f, fs)                            (* { *)
      else if meta c then None
      else Some (MNormal, put (RChar c) f, fs)
  | MEscape => if ascii_alnum c then None else Some (MNormal, put (RChar c) f, fs)
  | MOpen1 => if c =? 63 then Some (MOpen2, f, fs) else None
  | MOpen2 => if c =? 58 then Some (MNormal, ([], []), f :: fs) else None
  | MClass neg first ranges =>
      if first && negb neg && (c =? 94) then Some (MClass true true ranges, f, fs)
      else if c =? 93 then if first then None else Some (MNormal, put (RClass neg ranges) f, fs)
      else if c =? 92 then Some (MClassEsc neg ranges, f, fs)
      else if (c =? 91) || (c =? 45) then None                                    (* [ and -, not needed *)
      else Some (MClassItem neg ranges c, f, fs)
  | MClassEsc neg ranges => if ascii_alnum c then None else Some (MClassItem neg ranges c, f, fs)
  | MClassItem neg ranges a =>
      if c =? 45 then Some (MClassDash neg ranges a, f, fs)
      else if c =? 93 then Some (MNormal, put (RClass neg (ranges ++ [(a, a)])) f, fs)
      else if c =? 92 then Some (MClassEsc neg (ranges ++ [(a, a)]), f, fs)
      else if c =? 91 then None
      else Some (MClassItem neg (ranges ++ [(a, a)]) c, f, fs)
  | MClassDash neg ranges a =>
      if c =? 92 then Some (MClassDashEsc neg ranges a, f, fs)
      else if (c =? 93) || (c =? 91) || (c =? 45) then None
      else if a <=? c then Some (MClass neg false (ranges ++ [(a, c)]), f, fs) else None
  | MClassDashEsc neg ranges a =>
      if ascii_alnum c then None else if a <=? c then Some (MClass neg false (ranges ++ [(a, c)]), f, fs) else None
  | MCount1 lo =>
      if digit c then Some (MCount1 (more lo c), f, fs)
      else if c =? 44 then Some (MCount2 lo None, f, fs)
      else if c =? 125 then match lo with Some n => repeat n n | None => None end
      else None
  | MCount2 lo hi =>
      if digit c then Some (MCount2 lo (more hi c), f, fs)
      else if c =? 125 then match hi with
                            | Some n => repeat (match lo with Some n => n | None => 0 end) n
                            | None => None
                            end
      else None
  end.

Fixpoint run (s : state) (t : str) : option state :=
  match t with
  | [] => Some s
  | c :: t => match step s c with Some s => run s t | None => None end
  end.
Definition read_regexp (t : str) : option rx :=
  match run (MNormal, ([], []), []) t with
  | Some (MNormal, f, []) => Some (RGroup (alts_of f))
  | _ => None
  end.
