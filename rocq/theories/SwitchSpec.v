(** When a switch is on, and how an encoding is written in a text. *)
From Verif Require Import Base SwitchModel.
Section Spec.
Variable I : Type.
Variable ieq : I -> I -> bool.
(** What a program sees, if a switch is on just in the [with] blocks of its instance: [on] has the instances of the blocks that are open. *)
Fixpoint sees (x : act I) (on : list I) : list bool * bool :=
  let all := fix all (l : list (act I)) (on : list I) : list bool * bool :=
    match l with
    | [] => ([], false)
    | x :: l => let (o1, r1) := sees x on in if r1 then (o1, true) else let (o2, r2) := all l on in (o1 ++ o2, r2)
    end in
  match x with
  | With i body => all body (i :: on)
  | Test i => ([existsb (ieq i) on], false)
  | Raise => ([], true)
  | Try body => (fst (all body on), false)
  | OfClass => ([], true)
  end.
Fixpoint sees_all (l : list (act I)) (on : list I) : list bool * bool :=
  match l with
  | [] => ([], false)
  | x :: l => let (o1, r1) := sees x on in if r1 then (o1, true) else let (o2, r2) := sees_all l on in (o1 ++ o2, r2)
  end.
(** The class is not asked for the switch. *)
Fixpoint by_instance (x : act I) : Prop :=
  match x with
  | With _ body | Try body => fold_right (fun y P => by_instance y /\ P) True body
  | OfClass => False
  | _ => True
  end.
End Spec.
Arguments by_instance {I}. Arguments sees {I}. Arguments sees_all {I}.

(** An encoding [v] is written in a text after [a]: the word encoding, not at the end of a longer word, a colon or an equal sign and a quote with blanks
    around them, and the value, that has all letters, digits, hyphens and underscores that follow. *)
Definition w_encoding : str := [101; 110; 99; 111; 100; 105; 110; 103].
Definition blanks (s : str) : Prop := Forall (fun c => c = 9 \/ c = 32) s.
(** Letters, digits and the underscore: those of ASCII, and others that are letters or digits. *)
Definition word_char (uword : nat -> bool) (c : nat) : Prop :=
  48 <= c <= 57 \/ 65 <= c <= 90 \/ 97 <= c <= 122 \/ c = 95 \/ 128 <= c /\ uword c = true.
Definition name_char (uword : nat -> bool) (c : nat) : Prop := word_char uword c \/ c = 45.
Definition written (uword : nat -> bool) (text a v : str) : Prop :=
  exists w1 w2 sep b, text = a ++ w_encoding ++ w1 ++ sep ++ v ++ b /\ blanks w1 /\ blanks w2 /\ (sep = [58] ++ w2 \/ sep = [61] ++ w2 ++ [34]) /\
    v <> [] /\ Forall (name_char uword) v /\ match b with c :: _ => ~ name_char uword c | [] => True end /\
    match rev a with c :: _ => ~ word_char uword c | [] => True end.
