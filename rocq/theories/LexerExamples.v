(** Small concrete languages used as instances of the theorems and as counterexamples. *)
From Verif Require Import Base TargetModel LexerModel LexiconModel LexiconSpec.
From Coq Require Import ZArith.

(** The literal matcher for a list of strings: the first that occurs at the position. *)
Fixpoint lit_match (words : list str) (i : nat) (adv : bool) (text : str) (p : nat) : option mtch :=
  match words with
  | [] => None
  | w :: ws =>
      if (p + length w <=? length text) && str_eqb w (slice text p (p + length w))
         && negb (adv && (length w =? 0))
      then Some (Mtch p (p + length w) i [])
      else lit_match ws (S i) adv text p
  end.

Definition no_sublex (l : nat) (t : str) : list (lexeme nat) := [].

(** Language 1: lexicon 0 has "(" (40) that enters lexicon 1 and "ab"; lexicon 1 has ")" (41) that
    leaves; both have a default action. *)
Definition lang1 (l : nat) : compiled nat nat :=
  match l with
  | 0 => Compiled [SRule (AStd 1) [RLex 1]; SRule (AStd 2) []] (StaticDA (AStd 9)) None None
                  (lit_match [[40]; [97; 98]] 0)
  | _ => Compiled [SRule (AStd 3) [RInt (-1)%Z]] (DynDA (fun t => AStd (length t))) None (Some [41])
                  (lit_match [[41]] 0)
  end.
Definition parse1 (l : nat) := lexicon_parse no_sublex l (lang1 l).
Definition text1 : str := [99; 97; 98; 40; 40; 120; 41; 41; 121].   (* cab((x))y *)

(** Language 2: a root lexicon whose default target leaves the lexicon. *)
Definition lang2 (l : nat) : compiled nat nat :=
  Compiled [] NoDA (Some (Target 1 [])) None (lit_match [] 0).
Definition parse2 (l : nat) := lexicon_parse no_sublex l (lang2 l).

(** Language 3: five lexicons, only default targets, none of which leaves the root. *)
Definition lang3 (l : nat) : compiled nat nat :=
  Compiled [] NoDA (Some (match l with
                          | 0 => Target 0 [1; 2]
                          | 1 => Target 1 [3; 4; 5]
                          | 2 => Target 1 []
                          | 3 => Target 1 []
                          | _ => Target 2 []
                          end)) None (lit_match [] 0).
Definition parse3 (l : nat) := lexicon_parse no_sublex l (lang3 l).

(** Language 4: default targets only: 0 enters 1, 1 leaves; and "a" is matched in 0. *)
Definition lang4 (l : nat) : compiled nat nat :=
  match l with
  | 0 => Compiled [SRule (AStd 1) []] NoDA (Some (Target 0 [1])) (Some [97]) (lit_match [[97]] 0)
  | _ => Compiled [] NoDA (Some (Target 1 [])) None (lit_match [] 0)
  end.
Definition parse4 (l : nat) := lexicon_parse no_sublex l (lang4 l).

Definition no_consume (l : nat) : bool := false.
Definition cons1 (l : nat) : bool := l =? 1.
