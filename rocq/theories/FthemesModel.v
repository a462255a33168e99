(** Model of the themes of a [Formatter] in parce/formatter.py.

    Not modelled: that the formats are cached ([util.cached_func]; a theme and a factory give the same each time), and a
    [KeyError] raised by a theme or by a factory, which [baseformat] and [textformat] would take for a missing theme. *)
From Verif Require Import Base.

Section Fthemes.
Variables A T F : Type.                   (* actions, text formats of themes, what the factories make of them *)
Variable plus : T -> T -> T.              (* [TextFormat.__add__] *)
Variable unparsed : A.                    (* [_Unparsed] *)
Variables window default_ : nat.          (* the role and state that are used when they are not specified *)

(** A theme, with an [th_id] to tell the objects apart: theme.py [textformat(action)] and [baseformat(role, state)]. *)
Record theme := Theme { th_id : nat; th_text : A -> T; th_base : nat -> nat -> T }.

(** formatter.py:55-86 [FormatCache] *)
Record fcache := FCache {
  fc_theme : theme; fc_base : option F; fc_text : A -> option F; fc_baseformat : nat -> nat -> option F; fc_unparsed : option F }.

(** [_format_caches]: a dictionary with a language or None as key. *)
Definition fdict := list (option nat * fcache).
Definition key_eqb (k l : option nat) : bool :=
  match k, l with Some k, Some l => k =? l | None, None => true | _, _ => false end.
Fixpoint d_get (k : option nat) (d : fdict) : option fcache :=
  match d with [] => None | (l, v) :: d => if key_eqb l k then Some v else d_get k d end.
Fixpoint d_set (k : option nat) (v : fcache) (d : fdict) : fdict :=
  match d with [] => [(k, v)] | (l, w) :: d => if key_eqb l k then (l, v) :: d else (l, w) :: d_set k v d end.
Fixpoint d_del (k : option nat) (d : fdict) : fdict :=
  match d with [] => [] | (l, w) :: d => if key_eqb l k then d else (l, w) :: d_del k d end.

(** formatter.py:369-398 [add_theme] of a formatter with this factory. *)
Definition add_theme (factory : T -> option F) (th : theme) (language : option nat) (add_baseformat : bool) (d : fdict) : fdict :=
  let base_ := th_base th window default_ in
  let base := if add_baseformat then factory base_ else None in
  let text := if add_baseformat then (fun action => factory (plus base_ (th_text th action))) else (fun action => factory (th_text th action)) in
  let baseformat := fun role state => factory (th_base th role state) in
  let unp := factory (th_text th unparsed) in
  d_set language (FCache th base text baseformat unp) d.

(** formatter.py:400-410 [get_theme] *)
Definition get_theme (language : option nat) (d : fdict) : option theme := option_map fc_theme (d_get language d).
(** formatter.py:109-126 [baseformat] *)
Definition baseformat (role state : nat) (language : option nat) (d : fdict) : option F :=
  match d_get language d with Some fc => fc_baseformat fc role state | None => None end.
(** formatter.py:128-144 [textformat] *)
Definition textformat (action : A) (language : option nat) (d : fdict) : option F :=
  match d_get language d with Some fc => fc_text fc action | None => None end.

(** Formatters that exist: their factories, and their format caches. *)
Variable factory : nat -> T -> option F.
Definition state := nat -> fdict.
Definition upd (s : state) (f : nat) (d : fdict) : state := fun g => if g =? f then d else s g.

Inductive fop :=
  | Add (f : nat) (th : theme) (language : option nat) (add_baseformat : bool)
  | Remove (f : nat) (language : option nat)
  | Copy (f g : nat).           (* [f.copy_themes(g)] *)

(** formatter.py:416-420 [copy_themes]: the own dictionary is cleared, then that of the other is read, which may be the
    same. formatter.py:412-414 [remove_theme]: [del] raises KeyError when there is no such key, and changes nothing. *)
Definition f_step (s : state) (o : fop) : state :=
  match o with
  | Add f th l b => upd s f (add_theme (factory f) th l b (s f))
  | Remove f l => upd s f (d_del l (s f))
  | Copy f g =>
      let s := upd s f [] in
      fold_left (fun s p => upd s f (add_theme (factory f) (fc_theme (snd p)) (fst p) (match fc_base (snd p) with Some _ => true | None => false end) (s f)))
                (s g) s
  end.
(** formatter.py:352-358 [__init__]: no themes, or [add_theme]. *)
Definition f_run (ops : list fop) : state := fold_left f_step ops (fun _ => []).
End Fthemes.
Arguments Theme {A T}. Arguments th_id {A T}. Arguments th_text {A T}. Arguments th_base {A T}.
Arguments fc_theme {A T F}. Arguments fc_base {A T F}. Arguments fc_text {A T F}. Arguments fc_baseformat {A T F}. Arguments FCache {A T F}.
Arguments d_get {A T F}. Arguments d_set {A T F}. Arguments d_del {A T F}. Arguments upd {A T F}.
Arguments Add {A T}. Arguments Remove {A T}. Arguments Copy {A T}.
Arguments get_theme {A T F}. Arguments baseformat {A T F}. Arguments textformat {A T F}. Arguments add_theme {A T F}. Arguments f_step {A T F}. Arguments f_run {A T F}.
