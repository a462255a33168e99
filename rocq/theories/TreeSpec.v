(** What the properties about trees say, independently of the way trees are searched. *)
From Verif Require Import Base TargetModel LexerModel LexerSpec TreeModel.
From Coq Require Export Sorted.
From Coq Require Import ZArith.

Section Spec.
Variables L A : Type.

(** All tokens below a node, from left to right. *)
Fixpoint flatten (n : node L A) : list (tok A) :=
  match n with
  | Tok t => [t]
  | Ctx _ cs => (fix go cs := match cs with [] => [] | c :: cs' => flatten c ++ go cs' end) cs
  end.
Definition flat (cs : list (node L A)) : list (tok A) := concat (map flatten cs).

(** All tokens below a node, each with the lexicons of its ancestors, outermost first; [up] are the
    lexicons above the node. *)
Fixpoint leaves (up : list L) (n : node L A) : list (list L * tok A) :=
  match n with
  | Tok t => [(up, t)]
  | Ctx l cs => (fix go cs := match cs with [] => [] | c :: cs' => leaves (up ++ [l]) c ++ go cs' end) cs
  end.

(** The lexeme that a token carries. *)
Definition lexeme_of (t : tok A) : lexeme A := Lexeme (k_pos t) (k_text t) (k_act t).

(** No context at or below the node is empty. *)
Inductive full : node L A -> Prop :=
| full_tok t : full (Tok t)
| full_ctx l cs : cs <> [] -> Forall full cs -> full (Ctx l cs).

(** Tokens that do not overlap, in the order of the text, none of them empty. *)
Definition in_order (ts : list (tok A)) : Prop :=
  StronglySorted (fun a b => k_end a <= k_pos b) ts /\ Forall (fun t => k_text t <> []) ts.

(** The children of a context, as they come from tokenizing a text. *)
Definition wf_children (cs : list (node L A)) : Prop := Forall full cs /\ in_order (flat cs).

(** The last element that satisfies a test. *)
Definition find_last {T} (p : T -> bool) (l : list T) : option T := find p (rev l).

(** A node covers a position: its first token starts at or before it, its last token ends after it. *)
Definition covers (pos : nat) (n : node L A) : Prop :=
  exists t u, hd_error (flatten n) = Some t /\ last_opt (flatten n) = Some u
              /\ k_pos t <= pos < k_pos u + length (k_text u).

(** Height of a tree: the longest distance to a descendant. *)
Fixpoint height (n : node L A) : nat :=
  match n with
  | Tok _ => 0
  | Ctx _ cs => (fix go cs := match cs with [] => 0 | c :: cs' => Nat.max (S (height c)) (go cs') end) cs
  end.

(** The children of a context consist of sub-contexts, single tokens without [group], and groups
    of at least two tokens numbered 0, 1, 2, ..., the last number being negative. *)
Definition is_group (ts : list (tok A)) : Prop :=
  2 <= length ts /\
  forall i t, nth_error ts i = Some t ->
    k_group t = Some (if i =? length ts - 1 then (- Z.of_nat i)%Z else Z.of_nat i).
Inductive chunk : list (node L A) -> Prop :=
| chunk_ctx l cs : chunk [Ctx l cs]
| chunk_single t : k_group t = None -> chunk [Tok t]
| chunk_group ts : is_group ts -> chunk (map Tok ts).
Definition grouped (cs : list (node L A)) : Prop := exists chunks, cs = concat chunks /\ Forall chunk chunks.

(** The same at all levels. *)
Inductive all_grouped : node L A -> Prop :=
| ag_tok t : all_grouped (Tok t)
| ag_ctx l cs : grouped cs -> Forall all_grouped cs -> all_grouped (Ctx l cs).

(** A tree written down with brackets: entering a context, leaving it, a token. *)
Inductive sym := Enter (l : L) | Exit | Leaf (t : tok A).
Fixpoint word (n : node L A) : list sym :=
  match n with
  | Tok t => [Leaf t]
  | Ctx l cs => Enter l ::
      (fix go cs := match cs with [] => [] | c :: cs' => word c ++ go cs' end) cs ++ [Exit]
  end.
Definition words (cs : list (node L A)) : list sym := concat (map word cs).

(** What one event adds to the tree: leave [pop] contexts, enter those of [push], add the tokens. *)
Definition target_word (t : option (target L)) : list sym :=
  match t with None => [] | Some t => repeat Exit (t_pop t) ++ map Enter (t_push t) end.
Definition event_word (e : event L A) : list sym :=
  target_word (e_target e) ++ map Leaf (make_tokens (e_lexemes e)).

End Spec.
Arguments flatten {L A}. Arguments flat {L A}. Arguments leaves {L A}. Arguments full {L A}.
Arguments in_order {A}. Arguments lexeme_of {A}. Arguments wf_children {L A}. Arguments covers {L A}. Arguments height {L A}.
Arguments Enter {L A}. Arguments Exit {L A}. Arguments Leaf {L A}. Arguments word {L A}. Arguments words {L A}.
Arguments target_word {L A}. Arguments event_word {L A}.
Arguments is_group {A}. Arguments chunk {L A}. Arguments grouped {L A}. Arguments all_grouped {L A}.
