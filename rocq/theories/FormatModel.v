(** Model of parce/formatter.py: which format each piece of a text gets, and of parce/out/html.py.

    Not modelled: the [FormatContext] that is told about the themes that are switched to; caching the formats of a theme. *)
From Verif Require Import Base TreeModel UtilModel.

Section Format.
Variables L A F Lang : Type.          (* lexicons, actions, text formats, languages *)
Variable lang_of : L -> Lang.         (* [lexicon.language] *)
Variable lang_eqb : Lang -> Lang -> bool.
Variable fmt_eqb : F -> F -> bool.    (* comparing formats with [==] *)
Notation node := (node L A).
Notation tok := (tok A).

(** formatter.py:55-86 [FormatCache]: the members that [format_ranges] uses. *)
Record fcache := FCache { fc_text : A -> option F; fc_base : option F; fc_unparsed : option F }.
(** formatter.py:147-156 [format_caches]: the one with key None, and those of languages. *)
Record caches := Caches { fc_default : option fcache; fc_langs : list (Lang * fcache) }.

(** [cache(lang, default_fcache)] *)
Definition cache_get (others : list (Lang * fcache)) (default : fcache) (lang : Lang) : fcache :=
  match find (fun p => lang_eqb (fst p) lang) others with Some p => snd p | None => default end.

(** tree.py:1019-1060 [slices]: the context with each slice: its lexicon, all its children, and those in the slice.
    Like [range_slices] of TreeModel, which has the children in the slice only. *)
Fixpoint trail_contexts (n : node) (trail : list nat) : option (list (node * nat)) :=
  match trail with
  | [] => Some []
  | i :: trail => match nth_error (children n) i with
                  | None => None
                  | Some m => option_map (cons (n, i)) (trail_contexts m trail)
                  end
  end.
Definition ctx_slice := (node * list node)%type.
Definition start_ctx_slices (anc : node) (trail : list nat) : option (list ctx_slice * nat) :=
  match trail with
  | [] => Some ([], 0)
  | [i] => Some ([], i)
  | i :: trail =>
      match nth_error (children anc) i with
      | None => None
      | Some n => match trail_contexts n trail with
                  | None => None
                  | Some l => match rev l with
                              | [] => None
                              | (c, j) :: up => Some ((c, skipn j (children c)) :: map (fun '(c, j) => (c, skipn (j + 1) (children c))) up, i + 1)
                              end
                  end
      end
  end.
Fixpoint end_ctx_slices (n : node) (trail : list nat) : option (list ctx_slice) :=
  match trail with
  | [] => None
  | [i] => Some [(n, firstn (i + 1) (children n))]
  | i :: trail => match nth_error (children n) i with
                  | None => None
                  | Some m => option_map (cons (n, firstn i (children n))) (end_ctx_slices m trail)
                  end
  end.
Definition range_ctx_slices (tree : node) (r : range) : option (list ctx_slice) :=
  match node_at tree (r_path r) with
  | None => None
  | Some anc =>
      match start_ctx_slices anc (r_start r) with
      | None => None
      | Some (s, start) =>
          match r_end r with
          | [] => Some (s ++ [(anc, skipn start (children anc))])
          | [e] => Some (s ++ [(anc, slice (children anc) start (e + 1))])
          | e :: et => match nth_error (children anc) e with
                       | None => None
                       | Some n => match end_ctx_slices n et with
                                   | None => None
                                   | Some l => Some (s ++ [(anc, slice (children anc) start e)] ++ l)
                                   end
                       end
          end
      end
  end.

(** formatter.py:206-224, the loop for one slice when there are several themes. [n] is the list that is iterated: the slice,
    or all children of a context; [parent] is the context that the nodes in [n] have as [parent]. The stack has the indices,
    each with the context that [n.parent] is. Every token comes with the format cache [fc] at that moment, and the last
    value of [fc] is returned too. As [fc] is always the one for [curlang], [check_lang] is [cache_get]. *)
Fixpoint lang_loop (get : L -> fcache) (fuel : nat) (fc : fcache) (stack : list (nat * node)) (parent : node) (n : list node) (i : nat)
  : option (list (fcache * tok) * fcache) :=
  match fuel with
  | 0 => None
  | S fuel =>
      match nth_error n i with
      | Some (Ctx l cs) => lang_loop get fuel (get l) ((i, parent) :: stack) (Ctx l cs) cs 0
      | Some (Tok t) => option_map (fun p => ((fc, t) :: fst p, snd p)) (lang_loop get fuel fc stack parent n (i + 1))
      | None =>
          match stack with
          | [] => Some ([], fc)
          | (j, p) :: stack =>
              lang_loop get fuel (match p with Ctx l _ => get l | Tok _ => fc end) stack p (children p) (j + 1)
          end
      end
  end.
(** formatter.py:204-224 *)
Fixpoint lang_tokens (get : L -> fcache) (fc : fcache) (ss : list ctx_slice) : option (list (fcache * tok) * fcache) :=
  match ss with
  | [] => Some ([], fc)
  | (c, n) :: ss =>
      let fc := match c with Ctx l _ => get l | Tok _ => fc end in
      match lang_loop get (4 * size c + 2 * list_sum (map size n)) fc [] c n 0 with
      | None => None
      | Some (ts, fc) => option_map (fun p => (ts ++ fst p, snd p)) (lang_tokens get fc ss)
      end
  end.

(** formatter.py:169-224: the tokens, each with the format cache to use for it, and [fc] at the end. *)
Definition format_tokens (cs : caches) (tree : node) (r : range) : option (list (fcache * tok) * fcache) :=
  match fc_default cs with
  | None => Some ([], FCache (fun _ => None) None None)
  | Some fc =>
      match fc_langs cs with
      | [] => option_map (fun ts => (map (pair fc) ts, fc)) (range_tokens tree r)
      | others => match range_ctx_slices tree r with
                  | None => None
                  | Some ss => lang_tokens (fun l => cache_get others fc (lang_of l)) fc ss
                  end
      end
  end.

(** formatter.py:228-242 [stream] if there is a format for unparsed text; the item of the list is the format. *)
Fixpoint unparsed_stream (unparsed : F) (prev_end : nat) (end_ : option nat) (ts : list (fcache * tok)) : list (item F) :=
  match ts with
  | (fc, t) :: ts =>
      (if prev_end <? k_pos t then [Item prev_end (k_pos t) unparsed] else [])
      ++ match (match fc_text fc (k_act t) with None => fc_base fc | f => f end) with
         | Some f => [Item (k_pos t) (k_end t) f]
         | None => []
         end
      ++ unparsed_stream unparsed (k_end t) end_ ts
  | [] => match end_ with
          | Some e => if prev_end <? e then [Item prev_end e unparsed] else []
          | None => []
          end
  end.
(** formatter.py:245-255 [stream] otherwise; [last] is [fc] after the last token. *)
Fixpoint base_stream (last : fcache) (prev_end : nat) (end_ : option nat) (ts : list (fcache * tok)) : list (item F) :=
  match ts with
  | (fc, t) :: ts =>
      match fc_text fc (k_act t) with
      | Some f => match fc_base fc with
                  | Some b => if prev_end <? k_pos t then [Item prev_end (k_pos t) b] else []
                  | None => []
                  end ++ [Item (k_pos t) (k_end t) f]
      | None => []
      end ++ base_stream last (k_end t) end_ ts
  | [] => match fc_base last, end_ with
          | Some b, Some e => if prev_end <? e then [Item prev_end e b] else []
          | _, _ => []
          end
  end.

(** formatter.py:158-261 [format_ranges]; None where the code would raise. *)
Definition format_ranges (cs : caches) (tree : node) (start : nat) (end_ : option nat) : option (list (item F)) :=
  match range_from_tree tree start end_ with
  | None => None
  | Some None => Some []
  | Some (Some r) =>
      match format_tokens cs tree r with
      | None => None
      | Some (ts, last) =>
          let unparsed := match fc_default cs with Some fc => fc_unparsed fc | None => None end in
          let stream := match unparsed with
                        | Some u => unparsed_stream u start end_ ts
                        | None => base_stream last start end_ ts
                        end in
          Some (merge_adjacent fmt_eqb (fix_boundaries stream start end_))
      end
  end.

(** formatter.py:263-280 [format_text]. [rest] are the lines after the loop. *)
Fixpoint text_pieces (text : str) (prev_end : nat) (end_ : option nat) (rs : list (item F)) : list (str * option F) :=
  match rs with
  | r :: rs =>
      (if prev_end <? i_pos r then [(slice text prev_end (i_pos r), None)] else [])
      ++ (slice text (i_pos r) (i_end r), Some (i_rest r)) :: text_pieces text (i_end r) end_ rs
  | [] => let e := match end_ with Some e => e | None => length text end in
          if prev_end <? e then [(slice text prev_end e, None)] else []
  end.
Definition format_text (cs : caches) (text : str) (tree : node) (start : nat) (end_ : option nat) : option (list (str * option F)) :=
  option_map (text_pieces text start end_) (format_ranges cs tree start end_).

End Format.
Arguments FCache {A F}. Arguments fc_text {A F}. Arguments fc_base {A F}. Arguments fc_unparsed {A F}.
Arguments Caches {A F Lang}. Arguments fc_default {A F Lang}. Arguments fc_langs {A F Lang}.
Arguments cache_get {A F Lang}. Arguments lang_loop {L A F}. Arguments lang_tokens {L A F}. Arguments format_tokens {L A F Lang}.
Arguments unparsed_stream {A F}. Arguments base_stream {A F}. Arguments format_ranges {L A F Lang}. Arguments text_pieces {F}.
Arguments format_text {L A F Lang}. Arguments range_ctx_slices {L A}.

(** [text.replace(c, by)] for a single character [c]. *)
Definition replace_char (c : nat) (by_ : str) (text : str) : str := flat_map (fun x => if x =? c then by_ else [x]) text.

(** out/html.py:158-160 [escape], 163-165 [attrescape]. The characters are & (38), < (60), > (62) and the double quote (34). *)
Definition escape (text : str) : str :=
  replace_char 62 [38; 103; 116; 59] (replace_char 60 [38; 108; 116; 59] (replace_char 38 [38; 97; 109; 112; 59] text)).
Definition attrescape (text : str) : str := replace_char 34 [38; 113; 117; 111; 116; 59] (escape text).

(** out/html.py:116-119 and 152-155 [html], for the pieces that [format_document] yields; [attr] is "style" or "class". The
    literal is a span tag with the attribute in double quotes, the text, and the closing tag. *)
Definition html (attr : str) (pieces : list (str * option str)) : str :=
  flat_map (fun '(text, fmt) =>
    match fmt with
    | Some (c :: fmt) => [60; 115; 112; 97; 110; 32] ++ attr ++ [61; 34] ++ attrescape (c :: fmt) ++ [34; 62] ++ escape text ++ [60; 47; 115; 112; 97; 110; 62]
    | _ => escape text
    end) pieces.
