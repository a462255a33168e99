(** Model of the style sheets of /repo/parce/css.py with their files: [from_css] (217-275), [filter_conditions]
    (283-310), [__add__] (277-281) and [filenames] (312-327). *)
From Verif Require Import Base CssModel.

Definition kw_import : str := [105; 109; 112; 111; 114; 116].          (* import *)

(** A value after an at-rule's keyword: a [Value] with a text, with a url or with neither, or a plain [str] (a
    delimiter). *)
Inductive cval := CText (t : str) | CUrl (u : str) | CNone | CStr (s : str).

(** The result of a function that may raise; the fuel bounds the depth of the recursion. *)
Inductive res (T : Type) := Done (x : T) | Raised | OutOfFuel.
Arguments Done {T}.
Arguments Raised {T}.
Arguments OutOfFuel {T}.

Section Sheet.
Variable R : Type.
(** What [CssTransform] makes of a text: rules, and at-rules with a nested block or without (a block of properties is
    left out). *)
Inductive parsed := PRule (r : R) | PAt (keyword : str) (contents : list cval) (block : option (list parsed)).
(** The rules of a sheet. A condition has a sheet of its own: its filename, the names of the files it imported, and its
    rules. *)
Inductive sentry :=
  | SRule (r : R)
  | SAt (keyword : str)
  | SCond (keyword : str) (contents : list cval) (filename : str) (imported : list str) (rules : list sentry).
Record sheet := mksheet { sh_filename : str; sh_imported : list str; sh_rules : list sentry }.

(** css.py:238-240: the value with the name of the file and the values after it. [v.url] of a plain [str] is an
    [AttributeError]. *)
Fixpoint import_target (values : list cval) : res (option (str * list cval)) :=
  match values with
  | [] => Done None
  | CText (c :: t) :: rest => Done (Some (c :: t, rest))
  | CUrl (c :: u) :: rest => Done (Some (c :: u, rest))
  | CText [] :: rest | CUrl [] :: rest | CNone :: rest => import_target rest
  | CStr _ :: _ => Raised
  end.

Section Files.
(** [os.path.join(os.path.dirname(filename), fname)], and what [load_from_file] gives ([None]: it raises). *)
Variable join : str -> str -> str.
Variable load : str -> option (list parsed).

Definition then_cons (x : sentry) (r : res (list sentry)) : res (list sentry) :=
  match r with Done l => Done (x :: l) | Raised => Raised | OutOfFuel => OutOfFuel end.
(** css.py:253-273 [get_rules], with [get_import_rules] (228-251) in place. [names] is the set [filenames], [rec] is
    [cls.from_css]. After an [@import] without a media query the code uses [self], a name that is not defined in a class
    method: a [NameError]. *)
Fixpoint get_sheet_rules (rec : str -> bool -> list parsed -> res sheet) (filename : str) (allow_import : bool)
    (css : list parsed) (names : list str) : res (list sentry) :=
  match css with
  | [] => Done []
  | PRule r :: css => then_cons (SRule r) (get_sheet_rules rec filename allow_import css names)
  | PAt keyword contents block :: css =>
      if str_eqb keyword kw_import then
        if allow_import then
          match import_target contents with
          | Raised => Raised
          | OutOfFuel => OutOfFuel
          | Done None => get_sheet_rules rec filename allow_import css names
          | Done (Some (name, rest)) =>
              let fname := join filename name in
              if smem fname names then get_sheet_rules rec filename allow_import css names
              else
                match load fname with
                | None => Raised
                | Some icss =>
                    match rest with
                    | [] => Raised
                    | _ =>
                        match rec fname allow_import icss with
                        | Done s =>
                            then_cons (SCond kw_import rest (sh_filename s) (sh_imported s) (sh_rules s))
                              (get_sheet_rules rec filename allow_import css (fname :: names))
                        | Raised => Raised
                        | OutOfFuel => OutOfFuel
                        end
                    end
                end
          end
        else get_sheet_rules rec filename allow_import css names
      else
        match block with
        | Some b =>
            match rec [] true b with
            | Done s =>
                then_cons (SCond keyword contents (sh_filename s) (sh_imported s) (sh_rules s))
                  (get_sheet_rules rec filename allow_import css names)
            | Raised => Raised
            | OutOfFuel => OutOfFuel
            end
        | None => then_cons (SAt keyword) (get_sheet_rules rec filename allow_import css names)
        end
  end.
(** css.py:217-275 [from_css]. *)
Fixpoint from_css (fuel : nat) (filename : str) (allow_import : bool) (css : list parsed) : res sheet :=
  match fuel with
  | 0 => OutOfFuel
  | S fuel =>
      match get_sheet_rules (from_css fuel) filename allow_import css [filename] with
      | Done rules => Done (mksheet filename [] rules)
      | Raised => Raised
      | OutOfFuel => OutOfFuel
      end
  end.
End Files.

(** css.py:283-310 [filter_conditions], with [style_query] (109-114): a new sheet of the rules alone. *)
Definition sheet_filter (keyword : str) (pred : list cval -> bool) (s : sheet) : sheet :=
  mksheet [] []
    (filter (fun r => match r with
                      | SCond k c _ _ _ => if str_eqb k keyword then pred c else true
                      | _ => true
                      end) (sh_rules s)).

(** css.py:312-327 [filenames]. *)
Fixpoint names_of_entry (r : sentry) : list str :=
  match r with
  | SCond k _ f im rules =>
      if str_eqb k kw_import then
        match f with [] => [] | _ => [f] end ++ im ++ flat_map names_of_entry rules
      else []
  | _ => []
  end.
Definition filenames (s : sheet) : list str :=
  match sh_filename s with [] => [] | f => [f] end ++ sh_imported s ++ flat_map names_of_entry (sh_rules s).

(** css.py:277-281 [__add__]; the order of a set is left as it comes. *)
Definition sheet_add (a b : sheet) : sheet :=
  mksheet [] (nodup (list_eq_dec Nat.eq_dec) (filenames a ++ filenames b)) (sh_rules a ++ sh_rules b).
End Sheet.
Arguments PRule {R}.
Arguments PAt {R}.
Arguments SRule {R}.
Arguments SAt {R}.
Arguments SCond {R}.
Arguments mksheet {R}.
Arguments sh_filename {R}.
Arguments sh_imported {R}.
Arguments sh_rules {R}.
