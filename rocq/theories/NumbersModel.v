(** Model of parce/lang/numbers.py: the languages [English], [Nederlands], [Deutsch] and [Français], and their transforms. *)
From Verif Require Import Base TargetModel LexerModel LexiconModel TreeModel TransformModel.
From Coq Require Import ZArith String Ascii.

Definition wd (x : string) : str := map nat_of_ascii (list_ascii_of_string x).
Definition wds : list string -> list str := map wd.

(** The lexicons; the only action is Number. *)
Inductive nlex := NRoot | NNumber | NP6 | NP3 | NP2 | N99 | NP1.
Notation nact := unit.

(** numbers.py:100-152, the words from 0 to 19 and the tens; 252 is u umlaut, 246 o umlaut, 223 sharp s, 233 e acute *)
Open Scope string_scope. Open Scope list_scope. Open Scope nat_scope.
Definition EN_TO19 : list str := wds
  ["zero"; "one"; "two"; "three"; "four"; "five"; "six"; "seven"; "eight"; "nine"; "ten"; "eleven"; "twelve"; "thirteen"; "fourteen"; "fifteen";
   "sixteen"; "seventeen"; "eighteen"; "nineteen"].
Definition EN_TENS : list str := wds ["twenty"; "thirty"; "forty"; "fifty"; "sixty"; "seventy"; "eighty"; "ninety"].
Definition NL_TO19 : list str := wds
  ["nul"; "een"; "twee"; "drie"; "vier"; "vijf"; "zes"; "zeven"; "acht"; "negen"; "tien"; "elf"; "twaalf"; "dertien"; "veertien"; "vijftien";
   "zestien"; "zeventien"; "achttien"; "negentien"].
Definition NL_TENS : list str := wds ["twintig"; "dertig"; "veertig"; "vijftig"; "zestig"; "zeventig"; "tachtig"; "negentig"].
Definition DE_TO19 : list str := wds ["null"; "ein"; "zwei"; "drei"; "vier"] ++ [102 :: 252 :: wd "nf"] ++ wds ["sechs"; "sieben"; "acht"; "neun"; "zehn"; "elf"]
  ++ [wd "zw" ++ 246 :: wd "lf"] ++ wds ["dreizehn"; "vierzehn"] ++ [102 :: 252 :: wd "nfzehn"] ++ wds ["sechzehn"; "siebzehn"; "achtzehn"; "neunzehn"].
Definition DE_30 : str := wd "drei" ++ 223 :: wd "ig".
Definition DE_TENS : list str := wds ["zwanzig"] ++ [DE_30] ++ wds ["vierzig"] ++ [102 :: 252 :: wd "nfzig"] ++ wds ["sechzig"; "siebzig"; "achtzig"; "neunzig"].
Definition FR_TO19 : list str := [122 :: 233 :: wd "ro"] ++ wds
  ["un"; "deux"; "trois"; "quatre"; "cinq"; "six"; "sept"; "huit"; "neuf"; "dix"; "onze"; "douze"; "treize"; "quatorze"; "quinze"; "seize";
   "dix-sept"; "dix-huit"; "dix-neuf"].
Definition FR_TENS : list str := wds ["vingt"; "trente"; "quarante"; "cinquante"; "soixante"; "soixante-dix"; "quatre-vingt"; "quatre-vingt-dix"].

Section Numbers.
(** White space outside ASCII; which characters outside ASCII match a character of a pattern under re.IGNORECASE; and what [str.lower] makes of them. *)
Variable uspace : nat -> bool.
Variable umatch : nat -> nat -> bool.
Variable ulower : nat -> str.

Definition n_space (c : nat) : bool := if c <? 128 then ((9 <=? c) && (c <=? 13)) || ((28 <=? c) && (c <=? 32)) else uspace c.
(** numbers.py:154, the characters of [_SKIP] *)
Definition n_sep (c : nat) : bool := n_space c || (c =? 45).
Definition a_low (c : nat) : nat := if (65 <=? c) && (c <=? 90) then c + 32 else c.
Definition ieq (p c : nat) : bool := if c <? 128 then p =? a_low c else umatch p c.
(** [str.lower], character by character (the capital sigma at the end of a word is not treated as Python does; it is not in a word that matches) *)
Definition n_lower (s : str) : str := flat_map (fun c => if c <? 128 then [a_low c] else ulower c) s.

Fixpoint n_span (f : nat -> bool) (s : str) : nat := match s with [] => 0 | c :: s => if f c then S (n_span f s) else 0 end.
Fixpoint starts (w s : str) : bool :=
  match w, s with [], _ => true | p :: w, c :: s => ieq p c && starts w s | _ :: _, [] => false end.
(** The pattern that [words] makes of a list, at the start of a text: the length of the longest of the words that is there.  (The pattern is made from
    a trie: alternatives start with different characters, and what is optional is matched if it is there.) *)
Definition longest (ws : list str) (s : str) : option nat :=
  fold_left (fun b w => if starts w s then match b with Some n => Some (Nat.max n (List.length w)) | None => Some (List.length w) end else b) ws None.

(** numbers.py:312-314, 364-366, 422-427, a pattern of two groups of words, the second with the text before it: the length of the first group, and where the
    second group is.  The words have no first part that is a word of the same list, so there is one way to match. *)
Definition two (firsts seconds : list str) (glue : str -> option nat) (s : str) : option (nat * option (nat * nat)) :=
  match longest firsts s with
  | None => None
  | Some a =>
      Some (a, match glue (skipn a s) with
               | None => None
               | Some g => match longest seconds (skipn (a + g) s) with Some b => Some (a + g, b) | None => None end
               end)
  end.
(** [\s*[eë]n\s*] and [\s*und\s*] *)
Definition glue_word (ws : list str) (s : str) : option nat :=
  let a := n_span n_space s in
  match longest ws (skipn a s) with
  | None => None
  | Some b => Some (a + b + n_span n_space (skipn (a + b) s))
  end.
(** [[\s-]*(?:et)?[\s-]*] and [[\s-]*] *)
Definition glue_et (s : str) : option nat :=
  let a := n_span n_sep s in
  let b := match longest [wd "et"] (skipn a s) with Some b => b | None => 0 end in
  Some (a + b + n_span n_sep (skipn (a + b) s)).
Definition glue_sep (s : str) : option nat := Some (n_span n_sep s).

(** A match: the number of the rule, the length, and the groups. *)
Definition hit := (nat * nat * list (option (nat * nat)))%type.
Definition one_hit (i : nat) (o : option nat) : option hit := option_map (fun n => (i, n, [])) o.
Definition two_hit (i : nat) (o : option (nat * option (nat * nat))) : option hit :=
  match o with
  | None => None
  | Some (a, None) => Some (i, a, [Some (0, a); None])
  | Some (a, Some (g, b)) => Some (i, g + b, [Some (0, a); Some (g, g + b)])
  end.
(** A pattern whose second group is not optional. *)
Definition two_must (o : option (nat * option (nat * nat))) : option (nat * option (nat * nat)) := match o with Some (a, Some x) => o | _ => None end.
Definition orelse {X} (a : option X) (b : option X) : option X := match a with Some _ => a | None => b end.
Fixpoint first_of {X} (l : list (option X)) : option X := match l with [] => None | o :: l => orelse o (first_of l) end.
Definition sep_hit (s : str) : option hit := match n_span n_sep s with 0 => None | n => Some (0, n, []) end.

(** What the four classes give: the patterns of [n99] and the actions of its rules, the words for 100, 1000 and 1000000, and the values of words. *)
Record nlang := NLang {
  g_99 : str -> option hit; g_99rules : list (action nlex nact * list (ritem nlex));
  g_100 : list str; g_1000 : list str; g_1000000 : list str; g_values : list (str * Z) }.

Definition NUMBER : action nlex nact := AStd tt.
Definition PAIR : action nlex nact := AGroups [AStd tt; AStd tt].
Definition OUT : list (ritem nlex) := [RInt (-1)].
Definition slc (a b : nat) (l : list str) : list str := firstn (b - a) (skipn a l).

(** numbers.py:157-162 [_values]; keys that are there already do not occur *)
Fixpoint enum {X} (n : Z) (step : Z) (l : list X) : list (X * Z) := match l with [] => [] | x :: l => (x, n) :: enum (n + step) step l end.
Definition n_values (tens to19 : list str) : list (str * Z) := enum 0 1 to19 ++ enum 20 10 tens.

(** numbers.py:248-268, 296 [English] *)
Definition english : nlang := NLang
  (fun s => first_of [sep_hit s; one_hit 1 (longest EN_TENS s); one_hit 2 (longest EN_TO19 s)])
  [(ASkip, []); (NUMBER, OUT ++ [RLex NP1]); (NUMBER, OUT)]
  [wd "hundred"] [wd "thousand"] [wd "million"] (n_values EN_TENS EN_TO19).
(** numbers.py:300-317, 344 [Nederlands] *)
Definition nederlands : nlang := NLang
  (fun s => first_of [sep_hit s; one_hit 1 (longest (slc 10 20 NL_TO19) s);
                      two_hit 2 (two (slc 1 10 NL_TO19) NL_TENS (glue_word [wd "en"; [235; 110]]) s);
                      one_hit 3 (longest NL_TENS s); one_hit 4 (longest (slc 0 1 NL_TO19) s)])
  [(ASkip, []); (NUMBER, OUT); (PAIR, OUT); (NUMBER, OUT); (NUMBER, OUT)]
  [wd "honderd"] [wd "duizend"] [wd "miljoen"] (n_values NL_TENS NL_TO19).
(** numbers.py:347-369, 401-403 [Deutsch] *)
Definition deutsch : nlang := NLang
  (fun s => first_of [sep_hit s; one_hit 1 (longest (slc 10 20 DE_TO19) s);
                      two_hit 2 (two (slc 1 10 DE_TO19) (DE_TENS ++ [wd "dreissig"]) (glue_word [wd "und"]) s);
                      one_hit 3 (longest (DE_TENS ++ [wd "dreissig"] ++ slc 0 1 DE_TO19 ++ [wd "eins"]) s)])
  [(ASkip, []); (NUMBER, OUT); (PAIR, OUT); (NUMBER, OUT)]
  [wd "hundert"] [wd "tausend"] [wd "million"] (n_values DE_TENS DE_TO19 ++ [(wd "eins", 1%Z); (wd "dreissig", 30%Z)]).
(** numbers.py:406-431, 461-463 [Français] *)
Definition francais : nlang := NLang
  (fun s => first_of [sep_hit s;
                      two_hit 1 (two_must (two (slc 4 5 FR_TENS ++ slc 6 7 FR_TENS) (slc 1 10 FR_TO19) glue_sep s));
                      two_hit 2 (two (slc 0 5 FR_TENS ++ slc 6 7 FR_TENS) (slc 1 10 FR_TO19) glue_et s);
                      one_hit 3 (longest FR_TO19 s); one_hit 4 (longest (wds ["quatre-vingts"; "zero"]) s)])
  [(ASkip, []); (PAIR, OUT); (PAIR, OUT); (NUMBER, OUT); (NUMBER, OUT)]
  [wd "cent"; wd "cents"] [wd "mille"] [wd "million"; wd "millions"]
  (n_values FR_TENS FR_TO19 ++ [(wd "zero", 0%Z); (wd "quatre-vingts", 80%Z)]).

Section Language.
Variable g : nlang.

(** The match of the patterns of a lexicon at the start of a text. numbers.py:165-205, 262-267 *)
Definition n_pick (l : nlex) (s : str) : option hit :=
  match l with
  | NRoot | NNumber => None
  | NP6 => first_of [sep_hit s; one_hit 1 (longest (g_1000000 g) s)]
  | NP3 => first_of [sep_hit s; one_hit 1 (longest (g_1000 g) s)]
  | NP2 => first_of [sep_hit s; one_hit 1 (longest (g_100 g) s)]
  | N99 => g_99 g s
  | NP1 => first_of [sep_hit s; one_hit 1 (longest (slc 1 10 EN_TO19) s)]
  end.
Definition n_rules (l : nlex) : list (action nlex nact * list (ritem nlex)) :=
  match l with
  | NRoot | NNumber => []
  | NP6 => [(ASkip, []); (NUMBER, OUT ++ [RLex NP3; RLex NP2; RLex N99])]
  | NP3 => [(ASkip, []); (NUMBER, OUT ++ [RLex NP2; RLex N99])]
  | NP2 => [(ASkip, []); (NUMBER, OUT ++ [RLex N99])]
  | N99 => g_99rules g
  | NP1 => [(ASkip, []); (NUMBER, OUT)]
  end.
Definition n_default (l : nlex) : list (ritem nlex) :=
  match l with NRoot => [RLex NNumber; RLex NP6; RLex NP3; RLex NP2; RLex N99] | _ => OUT end.
Definition n_compiled (l : nlex) : compiled nlex nact :=
  Compiled (map (fun r => SRule (fst r) (snd r)) (n_rules l)) NoDA (t_make l (n_default l)) None
    (fun _ text pos =>
       match n_pick l (skipn pos text) with
       | Some (i, n, gs) => Some (Mtch pos (pos + n) i (map (option_map (fun x => (pos + fst x, pos + snd x))) gs))
       | None => None
       end).
Definition n_parse (l : nlex) : str -> nat -> gen (item nlex nact) := lexicon_parse (fun _ _ => []) l (n_compiled l).
Definition n_consume (l : nlex) : bool := false.

(** ** The transforms *)

(** A number, or the list of numbers; the result of a method is None if it raises. *)
Inductive nv := VNum (z : Z) | VNums (l : list Z).
Notation NR := (option nv).
Notation nitem := (titem nlex nact NR nlex).

Fixpoint lookup (k : str) (d : list (str * Z)) : option Z :=
  match d with [] => None | (k', v) :: d => if str_eqb k k' then Some v else lookup k d end.
Fixpoint sum_opt {X} (f : X -> option Z) (l : list X) : option Z :=
  match l with [] => Some 0%Z | x :: l => match f x, sum_opt f l with Some a, Some b => Some (a + b)%Z | _, _ => None end end.
(** [i.obj] of a number; tokens have no attribute [obj] *)
Definition obj_of (i : nitem) : option Z := match i with IObj _ (Some (VNum z)) => Some z | _ => None end.
Fixpoint objs (l : list nitem) : option (list Z) :=
  match l with [] => Some [] | i :: l => match obj_of i, objs l with Some z, Some zs => Some (z :: zs) | _, _ => None end end.
(** numbers.py:216-218 [root] *)
Definition n_root (l : list nitem) : NR := option_map VNums (objs l).
(** numbers.py:220-222 [number] *)
Definition n_number (l : list nitem) : NR := option_map VNum (sum_opt obj_of l).
(** numbers.py:224-226 [n99]; contexts have no attribute [text], and a word that is not in the dictionary raises *)
Definition n_99 (l : list nitem) : NR :=
  option_map VNum (sum_opt (fun i => match i with IToken t => lookup (n_lower (k_text t)) (g_values g) | _ => None end) l).
(** numbers.py:228-239 [_factor_func]; [vs] is the list [values] *)
Fixpoint factor_loop (factor : Z) (vs : list Z) (l : list nitem) : option Z :=
  match l with
  | [] => Some (fold_left Z.add vs 0%Z)
  | IToken _ :: _ => Some (match vs with [] => factor | _ => factor * fold_left Z.add vs 0 end)%Z
  | i :: l => match obj_of i with Some z => factor_loop factor (vs ++ [z]) l | None => None end
  end.
Definition n_factor (factor : Z) (l : list nitem) : NR := option_map VNum (factor_loop factor [] l).

Definition n_raised (i : nitem) : bool := match i with IObj _ None => true | _ => false end.
Definition n_call (f : list nitem -> NR) (il : itemlist nlex nact NR nlex unit) : NR := if existsb n_raised (il_items il) then None else f (il_items il).
(** numbers.py:208-245, 297 [NumbersTransform], [EnglishTransform.p1] *)
Definition n_methods : transform nlex nact NR nlex unit := fun nm =>
  Some (Method (n_call (match nm with
                        | NRoot => n_root
                        | NNumber => n_number
                        | NP6 => n_factor 1000000
                        | NP3 => n_factor 1000
                        | NP2 => n_factor 100
                        | N99 | NP1 => n_99
                        end)) false).

(** [transform_text(English.root, text)], given the events of the lexer: the outer option is None where the machinery raises, the second where there is
    no method, the third where a method raises. *)
Definition n_read (evs : list (event nlex nact)) : option (option NR) :=
  transform_text nlex nact NR unit nlex unit (fun _ => tt) (fun l => l) (fun _ => tt) (fun _ _ => true) (fun _ => n_methods) NRoot evs.
End Language.
End Numbers.
Notation NR := (option nv).
Notation nitem := (titem nlex nact NR nlex).
