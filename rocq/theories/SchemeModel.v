(** Model of the numbers in parce/lang/scheme.py: how the text of a number is lexed, and [scheme_number].

    Only for ASCII digits and letters (Python's regular expressions also accept other digits for [\d], and with [re.I] a
    few other letters). Floats are not computed: the model says which float Python is asked to compute. *)
From Verif Require Import Base.
From Coq Require Import ZArith.

(** ** Lexing *)

(** Actions; the digits with their radix (Number.Binary, Octal, Decimal, Hexadecimal). [t_group]: the token is part of a group. *)
Inductive nact := APrefix | ADigits (radix : nat) | ASign | AInf | ANan | AImag | AExp | ADot | APolar | AFrac | AUnknown | AInvalid.
Record tok := Tok { t_act : nact; t_text : str; t_group : bool }.

Definition is_one_of (cs : list nat) (c : nat) : bool := existsb (Nat.eqb c) cs.
(** [\s]; the ones above 255 are left out. *)
Definition is_space (c : nat) : bool := ((9 <=? c) && (c <=? 13)) || ((28 <=? c) && (c <=? 32)) || is_one_of [133; 160] c.
(** The value of a digit, in any case. *)
Definition digit_val (c : nat) : option nat :=
  if (48 <=? c) && (c <=? 57) then Some (c - 48)
  else if (97 <=? c) && (c <=? 102) then Some (c - 87)
  else if (65 <=? c) && (c <=? 70) then Some (c - 55)
  else None.
Definition is_digit (radix c : nat) : bool := match digit_val c with Some v => v <? radix | None => false end.
Fixpoint span (p : nat -> bool) (s : str) : nat := match s with [] => 0 | c :: s => if p c then S (span p s) else 0 end.
(** [t.lower()] for one of these letters *)
Definition lower (c : nat) : nat := if (65 <=? c) && (c <=? 90) then c + 32 else c.

(** scheme.py:53 [RE_SCHEME_RIGHT_BOUND]: [(?=$|[()\s;]|#\()] *)
Definition right_bound (s : str) : bool :=
  match s with
  | [] => true
  | c :: s => is_one_of [40; 41; 59] c || is_space c || ((c =? 35) && match s with 40 :: _ => true | _ => false end)
  end.

(** The patterns [[-+]inf.0] and [[-+]nan.0]; [any c]: the dot stands for any character but newline. *)
Definition special (word : list nat) (fold : bool) (s : str) : bool :=
  match s with
  | c :: a :: b :: d :: x :: z :: _ =>
      is_one_of [43; 45] c && str_eqb (if fold then map lower [a; b; d] else [a; b; d]) word && negb (x =? 10) && (z =? 48)
  | _ => false
  end.
Definition inf_word : list nat := [105; 110; 102].
Definition nan_word : list nat := [110; 97; 110].

(** scheme.py:117-133, the rules of [number] after the first, at one position: the tokens and the length; [None]: no rule matches. *)
Definition num_step (radix : nat) (s : str) : option (list tok * nat) :=
  match s with
  | [] => None
  | c :: s' =>
      let n := span (is_digit radix) s in
      if 0 <? n then Some ([Tok (ADigits radix) (firstn n s) false], n)
      else if special inf_word true s then Some ([Tok AInf (firstn 6 s) false], 6)
      else if special nan_word true s then Some ([Tok ANan (firstn 6 s) false], 6)
      else if is_one_of [43; 45] c then Some ([Tok ASign [c] false], 1)
      else if lower c =? 105 then Some ([Tok AImag [c] false], 1)
      else if (radix =? 10) && is_one_of [101; 115; 102; 100; 108] (lower c) then
             match s' with
             | d :: _ => if is_one_of [43; 45] d then Some ([Tok AExp [c] true; Tok ASign [d] true], 2) else Some ([Tok AExp [c] false], 1)
             | [] => Some ([Tok AExp [c] false], 1)
             end
      else if (radix =? 10) && (c =? 46) then Some ([Tok ADot [c] false], 1)
      else if c =? 64 then Some ([Tok APolar [c] false], 1)
      else if c =? 47 then Some ([Tok AFrac [c] false], 1)
      else let h := span (Nat.eqb 35) s in if 0 <? h then Some ([Tok AUnknown (firstn h s) false], h) else None
  end.
(** scheme.py:133 [default_action]: the text between two matches is one token. *)
Definition add_invalid (c : nat) (l : list tok) : list tok :=
  match l with
  | Tok AInvalid t g :: l => Tok AInvalid (c :: t) g :: l
  | _ => Tok AInvalid [c] false :: l
  end.
(** The tokens that the lexicon [number] gives, until its first rule matches (scheme.py:120), or to the end of the text. *)
Fixpoint num_lex (fuel radix : nat) (s : str) : list tok :=
  match fuel, s with
  | S fuel, c :: s' =>
      if right_bound s then []
      else match num_step radix s with
           | Some (ts, k) => ts ++ num_lex fuel radix (skipn k s)
           | None => add_invalid c (num_lex fuel radix s')
           end
  | _, _ => []
  end.

(** A prefix for exactness at the start of a text: [#[eEiI]]. *)
Definition exact_prefix (s : str) : option (str * str) :=
  match s with 35 :: c :: s => if is_one_of [101; 105] (lower c) then Some ([35; c], s) else None | _ => None end.
Definition radix_of (c : nat) : option nat :=
  match lower c with 98 => Some 2 | 111 => Some 8 | 120 => Some 16 | 100 => Some 10 | _ => None end.
Definition radix_prefix (s : str) : option (str * nat * str) :=
  match s with 35 :: c :: s => match radix_of c with Some r => Some ([35; c], r, s) | None => None end | _ => None end.

(** scheme.py:85-98: the rules of [root] for a number that starts a text, with the tokens of the context that is created for it.
    [None]: it is not a number. Of the rules before these only scheme.py:83 can match a text that starts with such a character: a sign
    that is not followed by something else is a name. *)
Definition lex_number (s : str) : option (list tok) :=
  let rest r s := num_lex (length s) r s in
  let '(pre, s1) := match exact_prefix s with Some (t, s1) => ([t], s1) | None => ([], s) end in
  match radix_prefix s1 with
  | Some (t, r, s2) =>
      let '(post, s3) := match exact_prefix s2 with Some (t, s3) => ([t], s3) | None => ([], s2) end in
      let texts := pre ++ [t] ++ post in
      Some (map (fun t => Tok APrefix t (1 <? length texts)) texts ++ rest r s3)
  | None =>
      match pre with
      | t :: _ => Some (Tok APrefix t false :: rest 10 s1)
      | [] =>
          if special inf_word false s then Some (Tok AInf (firstn 6 s) false :: rest 10 (skipn 6 s))
          else if special nan_word false s then Some (Tok ANan (firstn 6 s) false :: rest 10 (skipn 6 s))
          else match s with
               | c :: s' =>
                   if is_one_of [43; 45] c then (if right_bound s' then None else Some (Tok ASign [c] false :: rest 10 s'))
                   else let dot := c =? 46 in
                        let s'' := if dot then s' else s in
                        let n := span (is_digit 10) s'' in
                        if 0 <? n then Some ((if dot then [Tok ADot [c] true] else []) ++ Tok (ADigits 10) (firstn n s'') dot :: rest 10 (skipn n s''))
                        else None
               | [] => None
               end
      end
  end.

(** ** The value *)

(** Values: [NInt] and [NFrac n d] ([Fraction(n, d)]) are exact; the others are floats: [NText s]: [float(s)]; [NFloat z]: [float(z)];
    [NDiv a b]: [a / b] that is a float; [NMul s v]: [s * v] with a float. And complex numbers. *)
Inductive sval :=
| NInt (z : Z) | NFrac (n d : Z)
| NText (s : str) | NFloat (z : Z) | NDiv (a b : sval) | NMul (s : Z) (v : sval) | NInf (negative : bool) | NNan
| NComplex (re im : sval) | NRect (r phi : sval).

(** Python's [int(s, radix)] for ASCII text *)
Fixpoint digits_val (radix : nat) (acc : Z) (s : str) : option Z :=
  match s with
  | [] => Some acc
  | c :: s => match digit_val c with
              | Some v => if v <? radix then digits_val radix (acc * Z.of_nat radix + Z.of_nat v)%Z s else None
              | None => None
              end
  end.
Definition py_int (radix : nat) (s : str) : option Z := match s with [] => None | _ => digits_val radix 0 s end.

(** The texts that Python's [float(s)] and [Fraction(s)] accept, of those made below: digits with a dot, then an exponent.
    The value is [m * 10 ^ e]. *)
Definition py_decimal (s : str) : option (Z * Z) :=
  let n := span (is_digit 10) s in
  let a := firstn n s in
  let s := skipn n s in
  let '(b, s) := match s with 46 :: s => let n := span (is_digit 10) s in (firstn n s, skipn n s) | _ => ([], s) end in
  match py_int 10 (a ++ b) with
  | None => None
  | Some m =>
      let e := (- Z.of_nat (length b))%Z in
      match s with
      | [] => Some (m, e)
      | 101 :: s =>
          let '(sign, s) := match s with 43 :: s => (1%Z, s) | 45 :: s => ((-1)%Z, s) | _ => (1%Z, s) end in
          match py_int 10 s with Some x => Some (m, (sign * x + e)%Z) | None => None end
      | _ => None
      end
  end.
Definition py_float (s : str) : option sval := match py_decimal s with Some _ => Some (NText s) | None => None end.
Definition py_fraction (s : str) : option sval :=
  match py_decimal s with
  | Some (m, e) => Some (if (0 <=? e)%Z then NFrac (m * 10 ^ e) 1 else NFrac m (10 ^ (- e)))
  | None => None
  end.

Section Number.
Variable radix : nat.                 (* with it goes the action of the digits: [ADigits radix] *)
Variable exact : option bool.

(** scheme.py:213-231 [get_uint] *)
Fixpoint get_uint_loop (v : Z) (tokens : list tok) : option sval :=
  match tokens with
  | [] => Some (NInt v)
  | t :: tokens =>
      match t_act t with
      | ADigits r => if r =? radix then match py_int radix (t_text t) with Some v => get_uint_loop v tokens | None => None end else None
      | AUnknown => let v := (v * (Z.of_nat radix * Z.of_nat (length (t_text t))))%Z in
                    Some (match exact with Some true => NInt v | _ => NFloat v end)
      | _ => None
      end
  end.
Definition get_uint (tokens : list tok) : option sval := match tokens with [] => None | _ => get_uint_loop 0 tokens end.

(** scheme.py:249-263, the inner loop of [get_decimal10], after an exponent: what it adds to the text *)
Fixpoint get_exponent (tokens : list tok) : option str :=
  match tokens with
  | [] => None
  | t :: tokens => match t_act t with
                   | ASign => option_map (app (t_text t)) (get_exponent tokens)
                   | ADigits 10 => Some (t_text t)
                   | _ => None
                   end
  end.
(** scheme.py:233-266, the outer loop: the text and [e] *)
Fixpoint get_decimal10_loop (e : bool) (tokens : list tok) : option (str * bool) :=
  match tokens with
  | [] => Some ([], e)
  | t :: tokens =>
      match t_act t with
      | ADigits 10 => option_map (fun '(s, e) => (t_text t ++ s, e)) (get_decimal10_loop e tokens)
      | AUnknown => option_map (fun '(s, e) => (repeat 48 (length (t_text t)) ++ s, e)) (get_decimal10_loop e tokens)
      | ADot => if e then option_map (fun '(s, e) => (46 :: s, e)) (get_decimal10_loop false tokens) else None
      | AExp => option_map (fun s => (101 :: s, false)) (get_exponent tokens)
      | _ => None
      end
  end.
(** scheme.py:233-272 [get_decimal10] *)
Definition get_decimal10 (tokens : list tok) : option sval :=
  match get_decimal10_loop true tokens with
  | None => None
  | Some ([], _) => None
  | Some (s, true) => match exact with Some false => py_float s | _ => option_map NInt (py_int 10 s) end
  | Some (s, false) => match exact with Some true => py_fraction s | _ => py_float s end
  end.

(** [tokens, *fract = split_list(tokens, sep)]: the first piece, and the second if there is one. util.py:737-750 *)
Fixpoint split_first (sep : nat) (l : list tok) : list tok * option (list tok) :=
  match l with
  | [] => ([], None)
  | t :: l => if str_eqb (t_text t) [sep] then ([], Some l)
              else let '(a, b) := split_first sep l in (t :: a, b)
  end.
Definition split_two (sep : nat) (l : list tok) : list tok * option (list tok) :=
  let '(a, b) := split_first sep l in (a, option_map (fun b => fst (split_first sep b)) b).

(** [numerator / denominator] and [Fraction(numerator, denominator)]; [None]: ZeroDivisionError *)
Definition is_zero (v : sval) : bool := match v with NInt z | NFloat z => (z =? 0)%Z | _ => false end.
Definition ratio (a b : sval) : option sval :=
  if is_zero b then None
  else match a, b, exact with
       | NInt n, NInt d, Some true | NInt n, NInt d, None => Some (NFrac n d)
       | _, _, _ => Some (NDiv a b)
       end.
(** [sign * v] *)
Definition times_sign (sign : Z) (v : sval) : sval :=
  match v with NInt z => NInt (sign * z) | NFrac n d => NFrac (sign * n) d | _ => NMul sign v end.

(** scheme.py:274-304 [get_real] *)
Fixpoint get_real (sign : Z) (tokens : list tok) : option sval :=
  let rest :=
    let '(a, fract) := split_two 47 tokens in
    option_map (times_sign sign)
      match fract with
      | Some b => match get_uint a, get_uint b with Some n, Some d => ratio n d | _, _ => None end
      | None => if radix =? 10 then get_decimal10 a else get_uint a
      end in
  match tokens with
  | t :: tokens' =>
      match t_act t with
      | ASign => get_real (if str_eqb (t_text t) [45] then (- sign)%Z else sign) tokens'
      | AInf => Some (NInf (negb (match t_text t with c :: _ => c =? 43 | [] => false end)))
      | ANan => Some NNan
      | _ => rest
      end
  | [] => rest
  end.

(** scheme.py:306-326 [get_complex]: the loop goes from the last but one token to the left; [before] is reversed. *)
Fixpoint find_imag (before part : list tok) (last_one : bool) : option (list tok * sval) :=
  match before with
  | [] => None
  | t :: before =>
      match t_act t, t_group t with
      | AInf, _ | ANan, _ => option_map (fun v => (rev before, v)) (get_real 1 (t :: part))
      | ASign, false => if last_one then Some (rev before, NInt (if str_eqb (t_text t) [43] then 1 else -1))
                        else option_map (fun v => (rev before, v)) (get_real 1 (t :: part))
      | _, _ => find_imag before (t :: part) false
      end
  end.
Definition get_complex (tokens : list tok) : option sval :=
  match find_imag (rev (removelast tokens)) [] true with
  | None => None
  | Some (re, im) => match re with
                     | [] => Some (NComplex (NInt 0) im)
                     | _ => option_map (fun r => NComplex r im) (get_real 1 re)
                     end
  end.
End Number.

(** scheme.py:328-353, the body of [scheme_number]: first the prefixes. *)
Fixpoint scheme_number (radix : nat) (exact : option bool) (tokens : list tok) : option sval :=
  let rest :=
    let '(a, polar) := split_two 64 tokens in
    match polar with
    | Some b => match get_real radix exact 1 a, get_real radix exact 1 b with Some r, Some p => Some (NRect r p) | _, _ => None end
    | None => match rev a with
              | t :: _ => if str_eqb (map lower (t_text t)) [105] then get_complex radix exact a else get_real radix exact 1 a
              | [] => get_real radix exact 1 a
              end
    end in
  match tokens with
  | t :: tokens' =>
      match t_act t with
      | APrefix => match t_text t with
                   | _ :: c :: _ => if lower c =? 105 then scheme_number radix (Some false) tokens'
                                    else if lower c =? 101 then scheme_number radix (Some true) tokens'
                                    else match radix_of c with Some r => scheme_number r exact tokens' | None => None end
                   | _ => None
                   end
      | _ => rest
      end
  | [] => rest
  end.

(** scheme.py:356-384 [scheme_number_from_text], for a text that starts with a number. *)
Definition scheme_number_from_text (s : str) : option sval :=
  match lex_number s with Some tokens => scheme_number 10 None tokens | None => None end.
