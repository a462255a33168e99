(** What formatted text should be. *)
From Verif Require Import Base TreeModel TreeSpec FormatModel.

(** Every character with its format. *)
Definition per_char {F} (pieces : list (str * option F)) : list (nat * option F) :=
  flat_map (fun '(s, f) => map (fun c => (c, f)) s) pieces.

Section Spec.
Variables A F : Type.

(** The format a theme gives to a token. If the theme has a format for unparsed text, the base format is used for tokens
    that have no format. *)
Definition token_format (unparsed : option F) (fc : fcache A F) (t : tok A) : option F :=
  match fc_text fc (k_act t), unparsed with
  | None, Some _ => fc_base fc
  | f, _ => f
  end.
(** The format at a position, given the tokens in the region, each with its theme. Between tokens, it is the format for
    unparsed text, or else the base format of the theme of the token that follows, if that token has a format. After the last
    token there is a format only if the end of the region was given. *)
Definition tok_at (p : nat) (x : fcache A F * tok A) : bool := (k_pos (snd x) <=? p) && (p <? k_end (snd x)).
Definition tok_after (p : nat) (x : fcache A F * tok A) : bool := p <? k_pos (snd x).
Definition format_at (unparsed : option F) (last : fcache A F) (end_ : option nat) (ts : list (fcache A F * tok A)) (p : nat) : option F :=
  match find (tok_at p) ts with
  | Some (fc, t) => token_format unparsed fc t
  | None =>
      match find (tok_after p) ts, unparsed with
      | Some _, Some u => Some u
      | Some (fc, t), None => match fc_text fc (k_act t) with Some _ => fc_base fc | None => None end
      | None, _ => match end_ with
                   | Some _ => match unparsed with Some u => Some u | None => fc_base last end
                   | None => None
                   end
      end
  end.
End Spec.
Arguments token_format {A F}. Arguments format_at {A F}. Arguments tok_at {A F}. Arguments tok_after {A F}.

(** The tokens in a tree, each with the lexicon of the context it is in. *)
Section Leaves.
Variables L A : Type.
Fixpoint ctx_leaves (l : L) (n : node L A) : list (L * tok A) :=
  match n with
  | Tok t => [(l, t)]
  | Ctx l' cs => (fix go cs := match cs with [] => [] | c :: cs' => ctx_leaves l' c ++ go cs' end) cs
  end.
End Leaves.
Arguments ctx_leaves {L A}.

(** Reading HTML: tags, with the name and what comes before the value of the attribute, and the value; characters. [entity]
    is what a named character stands for. *)
Inductive html_item := Tag (name : str) (value : option str) | Char (c : nat).
Section Html.
Variable entity : str -> option str.
Inductive html_state :=
| InText | InEntity (name : str)
| InTag (name : str) (value : option str) | InValue (name : str) (value : str) | InValueEntity (name : str) (value : str) (entity : str).
(** None: no correct HTML. *)
Fixpoint read_html (st : html_state) (s : str) : option (list html_item) :=
  match s with
  | [] => match st with InText => Some [] | _ => None end
  | c :: s =>
      match st with
      | InText => if c =? 60 then read_html (InTag [] None) s
                  else if c =? 62 then None
                  else if c =? 38 then read_html (InEntity []) s
                  else option_map (cons (Char c)) (read_html InText s)
      | InEntity e => if c =? 59
                      then match entity e with
                           | Some t => option_map (app (map Char t)) (read_html InText s)
                           | None => None
                           end
                      else read_html (InEntity (e ++ [c])) s
      | InTag n v => if c =? 62 then option_map (cons (Tag n v)) (read_html InText s)
                     else if c =? 34 then read_html (InValue n []) s
                     else read_html (InTag (n ++ [c]) v) s
      | InValue n v => if c =? 34 then read_html (InTag n (Some v)) s
                       else if c =? 38 then read_html (InValueEntity n v []) s
                       else if (c =? 60) || (c =? 62) then None
                       else read_html (InValue n (v ++ [c])) s
      | InValueEntity n v e => if c =? 59
                               then match entity e with
                                    | Some t => read_html (InValue n (v ++ t)) s
                                    | None => None
                                    end
                               else read_html (InValueEntity n v (e ++ [c])) s
      end
  end.
(** The names that any reader of HTML knows: amp, lt, gt and quot. *)
Definition knows_entities : Prop :=
  entity [97; 109; 112] = Some [38] /\ entity [108; 116] = Some [60] /\ entity [103; 116] = Some [62] /\ entity [113; 117; 111; 116] = Some [34].
End Html.
