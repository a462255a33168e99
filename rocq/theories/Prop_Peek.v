(** C142: the preview of a tree that is being built. *)
From Coq Require Import List Arith Bool.
From Verif Require Import PeekModel PeekSpec PeekProofs.
Import ListNotations.

(** While a tree is built, in whatever lexicons the build starts ([lexs], the innermost first), with whatever events the lexer yields: [peek] is called
    once, after the first event that goes more than the threshold beyond the start, or never if there is none. It gets the position where
    the build started and a tree that has exactly the tokens that were found so far, in order, every one in the right contexts, and no
    empty contexts. Removing empty contexts never fails. *)
Theorem C142_peek : forall threshold start lexs es,
  lexs <> [] -> 0 < threshold -> Forall (fun e => e_toks e <> []) es ->
  (Forall (fun e => ~ beyond (threshold + start) e) es /\ build_peek threshold start lexs es = [])
  \/ exists es1 e es2 m, es = es1 ++ e :: es2 /\ Forall (fun e => ~ beyond (threshold + start) e) es1 /\ beyond (threshold + start) e
       /\ build_peek threshold start lexs es = [(start, Some m)] /\ solid m /\ paths [] m = tokens_of lexs (es1 ++ [e]).
Proof. intros threshold start lexs es H1 H2 H3. exact (peek_shown threshold start lexs es H1 H2 H3). Qed.
Print Assumptions C142_peek.

(** Without threshold nothing is shown. *)
Theorem C142_never : forall start lexs es, build_peek 0 start lexs es = [].
Proof. intros start lexs es. exact (build_zero start es (new_tree lexs)). Qed.
Print Assumptions C142_never.

(** The build starts inside three contexts; the first event leaves two of them, so that these are empty; then a context is entered. *)
Example C142_example :
  build_peek 5 10 [3; 2; 1] [Ev 2 [] [10]; Ev 0 [4; 5] [12; 13]; Ev 1 [] [18]; Ev 0 [] [20]]
  = [(10, Some (Cx 1 [Tk 10; Cx 4 [Cx 5 [Tk 12; Tk 13]; Tk 18]]))].
Proof. reflexivity. Qed.
Example C142_example2 :
  build_peek 5 10 [3; 2; 1] [Ev 1 [] [10]; Ev 0 [4] [16]] = [(10, Some (Cx 1 [Cx 2 [Tk 10; Cx 4 [Tk 16]]]))].
Proof. reflexivity. Qed.
