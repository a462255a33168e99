(** Rules behind conditions, and files that depend on files. *)
From Verif Require Import Base CssModel CssSheetModel.

Section Spec.
Variable R : Type.
(** The rules of a sheet in order, each with the conditions it is behind, the outermost first. *)
Inductive behind : list (sentry R) -> list (list (str * list cval) * R) -> Prop :=
  | b_nil : behind [] []
  | b_rule r es l : behind es l -> behind (SRule r :: es) (([], r) :: l)
  | b_at k es l : behind es l -> behind (SAt k :: es) l
  | b_cond k c f im ins es l1 l2 : behind ins l1 -> behind es l2 ->
      behind (SCond k c f im ins :: es) (map (fun x => ((k, c) :: fst x, snd x)) l1 ++ l2).
(** A condition that filtering takes away. *)
Definition rejected (keyword : str) (pred : list cval -> bool) (x : str * list cval) : Prop :=
  fst x = keyword /\ pred (snd x) = false.

(** The files a sheet depends on: its own, those imported, and those of imports with a media query. *)
Inductive depends : sheet R -> str -> Prop :=
  | d_own s : sh_filename s <> [] -> depends s (sh_filename s)
  | d_imported s f : In f (sh_imported s) -> depends s f
  | d_cond s c f im rules g : In (SCond kw_import c f im rules) (sh_rules s) -> depends (mksheet f im rules) g ->
      depends s g.

(** ** Imports *)
Variable join : str -> str -> str.
Variable load : str -> option (list (parsed R)).
(** The name of the file after [@import] and what comes after it; values that are no name are passed over. *)
Definition nameless_value (v : cval) : Prop := v = CText [] \/ v = CUrl [] \/ v = CNone.
Definition names_file (c : list cval) (name : str) (rest : list cval) : Prop :=
  exists skip v, c = skip ++ v :: rest /\ Forall nameless_value skip /\ name <> [] /\ (v = CText name \/ v = CUrl name).
(** What a sheet holds: its rules, a condition for every nested block, and a condition with the rules of the file for
    every [@import] with a media query of a file that was not yet seen. *)
Inductive reads : str -> list str -> list (parsed R) -> list (sentry R) -> Prop :=
  | r_nil fn seen : reads fn seen [] []
  | r_rule fn seen r css l : reads fn seen css l -> reads fn seen (PRule r :: css) (SRule r :: l)
  | r_at fn seen k c css l : k <> kw_import -> reads fn seen css l ->
      reads fn seen (PAt k c None :: css) (SAt k :: l)
  | r_block fn seen k c b css l lb : k <> kw_import -> reads [] [[]] b lb -> reads fn seen css l ->
      reads fn seen (PAt k c (Some b) :: css) (SCond k c [] [] lb :: l)
  | r_import fn seen c block css l name rest icss li :
      names_file c name rest -> rest <> [] -> ~ In (join fn name) seen -> load (join fn name) = Some icss ->
      reads (join fn name) [join fn name] icss li -> reads fn (join fn name :: seen) css l ->
      reads fn seen (PAt kw_import c block :: css) (SCond kw_import rest (join fn name) [] li :: l)
  | r_again fn seen c block css l name rest : names_file c name rest -> In (join fn name) seen -> reads fn seen css l ->
      reads fn seen (PAt kw_import c block :: css) l
  | r_no_name fn seen c block css l : Forall nameless_value c -> reads fn seen css l ->
      reads fn seen (PAt kw_import c block :: css) l.
End Spec.
Arguments behind {R}.
Arguments depends {R}.
Arguments reads {R}.

