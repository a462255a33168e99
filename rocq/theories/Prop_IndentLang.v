(** C134, C135: the indenters of languages, and indenting CSS and LilyPond. *)
From Verif Require Import Base BaseFacts TargetModel LexerModel TreeModel TreeSpec BuildModel BlockModel BlockSpec CursorModel DocTokenModel CssLangModel Prop_CssText
  IndentModel IndentSpec IndentProofs Prop_Indent IndentLangModel IndentLangSpec IndentLangProofs.
From Coq Require Import ZArith.

(** C134. The tokens of a block are cut into pieces of the same language, as long as possible; each piece is given to the indenter of its language, if there is
    one, and the events are those of the pieces, in order. *)
Theorem C134_languages_in_a_line :
  forall (T Lang Ind : Type) (lang : T -> Lang) (same : Lang -> Lang -> bool) (get : Lang -> option Ind) (events_of : Ind -> list T -> list event) (ts : list T),
    (forall a b, same a b = true <-> a = b) ->
    (exists gs, is_runs lang ts gs) /\
    forall gs, is_runs lang ts gs ->
      concat (map snd gs) = ts /\
      indent_events T Lang Ind lang same get events_of ts = concat (map (fun g => match get (fst g) with Some i => events_of i (snd g) | None => [] end) gs).
Proof.
  intros T Lang Ind lang same get events_of ts Hs. split; [exact (runs_exist T Lang lang same Hs ts) |]. intros gs H. split; [exact (runs_concat T Lang lang ts gs H) |].
  rewrite (events_runs T Lang Ind lang same Hs get events_of ts gs H). now rewrite flat_map_concat_map.
Qed.
Print Assumptions C134_languages_in_a_line.

(** And the indenter of a language is the one that was added last, or else an instance of the class that belongs to the nearest of its classes, not counting the
    last two of [mro()], that has one; whatever was asked before. *)
Theorem C134_indenter_of_language :
  forall (Lang Cls : Type) (same : Lang -> Lang -> bool) (mro : Lang -> list Lang) (sister : Lang -> option Cls) (ops : list (iop Lang)) (l : Lang) (classes last2 : list Lang),
    (forall a b, same a b = true <-> a = b) -> mro l = classes ++ last2 -> length last2 = 2 ->
    let r := snd (get_indent Lang Cls same mro sister (i_run Lang Cls same mro sister [] ops) l) in
    match last_added same l ops with
    | Some i => r = Some (Added i)
    | None => exists c, nearest sister classes c /\ r = option_map Instance c
    end.
Proof.
  intros Lang Cls same mro sister ops l classes last2 Hs Hm H2 r. unfold r. rewrite get_kept, (run_kept Lang Cls same Hs). destruct (last_added same l ops); [reflexivity |].
  exists (first_some sister classes). split; [apply first_nearest |]. unfold kept, lookup. cbn [find option_map]. unfold find_indent, sister_class, butlast_two. rewrite Hm, app_length, H2.
  replace (length classes + 2 - 2) with (length classes) by lia. now rewrite firstn_app, Nat.sub_diag, firstn_all, app_nil_r.
Qed.
Print Assumptions C134_indenter_of_language.

(** Languages 1 (with an indenter that was added), 2 (without) and 3, derived from 4, that has one. *)
Example C134_case :
  let mro := fun l => if l =? 3 then [3; 4; 8; 9] else [l; 8; 9] in
  let sister := fun l => if l =? 4 then Some 40 else None in
  let d := i_run nat nat Nat.eqb mro sister [] [Get 1; Add 1 7; Get 3] in
  let get := fun l => snd (get_indent nat nat Nat.eqb mro sister d l) in
  let events_of := fun (i : indenter nat) (ts : list (nat * nat)) => match i with Added n => [ALIGN (n :: map snd ts)] | Instance c => [ALIGN (c :: map snd ts)] end in
  is_runs fst [(1, 11); (1, 12); (2, 13); (3, 14); (1, 15)] [(1, [(1, 11); (1, 12)]); (2, [(2, 13)]); (3, [(3, 14)]); (1, [(1, 15)])] /\
  indent_events (nat * nat) nat (indenter nat) fst Nat.eqb get events_of [(1, 11); (1, 12); (2, 13); (3, 14); (1, 15)] = [ALIGN [7; 11; 12]; ALIGN [40; 14]; ALIGN [7; 15]].
Proof.
  cbv zeta. split; [| vm_compute; reflexivity].
  apply (runs_cons _ _ fst [(1, 11); (1, 12)] 1 [(2, 13); (3, 14); (1, 15)]); [discriminate | repeat constructor | discriminate |].
  apply (runs_cons _ _ fst [(2, 13)] 2 [(3, 14); (1, 15)]); [discriminate | repeat constructor | discriminate |].
  apply (runs_cons _ _ fst [(3, 14)] 3 [(1, 15)]); [discriminate | repeat constructor | discriminate |].
  apply runs_one; [discriminate | repeat constructor].
Qed.

Lemma indent_same text sep space ind ibl e1 e2 c : (forall b p, e1 b p = e2 b p) -> indent text sep space ind ibl e1 c = indent text sep space ind ibl e2 c.
Proof.
  intros H. unfold indent, indent_ops. f_equal. assert (HI : forall b p, indent_info text space e1 b p = indent_info text space e2 b p) by (intros b p; unfold indent_info; now rewrite H).
  generalize (map (fun b => (b_pos b, b_end b)) (blocks text sep 0 None)), (@nil (option str)), [@nil nat]. intros bs. induction bs as [| b bs IH]; intros prev inds; [reflexivity |].
  cbn [indent_loop]. rewrite HI. destruct (if allow_indent _ && _ then _ else _) as [ops inds1]. f_equal. destruct (match c_end c with Some _ => _ | None => _ end); [reflexivity | apply IH].
Qed.

Lemma empty_line sep : forall lines q k, k < length lines -> fst (nth k (spans sep q lines) (0, 0)) < snd (nth k (spans sep q lines) (0, 0)) -> nth k lines [] = [] -> False.
Proof.
  induction lines as [| x ls IH]; intros q k Hk Hlt E; [cbn in Hk; lia |]. destruct k as [| k]; [cbn in E; subst x; cbn in Hlt; lia |].
  cbn [spans nth] in *. cbn [length] in Hk. exact (IH _ k ltac:(lia) Hlt E).
Qed.
(** C135. Indenting a whole document in CSS, or LilyPond, gives every line the indent string once for every bracket that is open where the line starts, less the
    brackets that are closed at its start: in CSS those before an opening bracket, in LilyPond those before any other token.
    Missing: lines of only white space that are followed by tokens, see below. *)
Theorem C135_brackets_partial :
  forall (A L : Type) (l : L) (cs : list (node L A)) (text sep : str) (space : nat -> bool) (ind : str) (ibl : bool) (lines : list str) (is_bracket in_delimiter : A -> bool),
    wf_children cs -> no_overlap sep -> is_lines text sep lines ->
    (forall k, k < length lines -> nth k lines [] <> [] ->
       (exists t, In t (flat cs) /\ overlaps (place sep lines k) t = true) \/ (forall t, In t (flat cs) -> k_end t <= fst (place sep lines k))) ->
    let one_line br := forall t : tok A, In t (flat cs) -> br t <> Other -> exists k, k < length lines /\ fst (place sep lines k) <= k_pos t /\ k_end t <= snd (place sep lines k) in
    (one_line (css_bracket is_bracket) ->
       indent text sep space ind ibl (doc_events (css_events is_bracket) l cs) (Cursor 0 None)
       = join sep (each_line 0 (fun k x => times (line_depth false (css_bracket is_bracket) (flat cs) sep lines k) ind ++ body space x) lines))
    /\ (one_line (lily_bracket in_delimiter) ->
       indent text sep space ind ibl (doc_events (lily_events in_delimiter) l cs) (Cursor 0 None)
       = join sep (each_line 0 (fun k x => times (line_depth true (lily_bracket in_delimiter) (flat cs) sep lines k) ind ++ body space x) lines)).
Proof.
  intros A L l cs text sep space ind ibl lines isb ind_ Hwf Hno Hl Hline one_line.
  assert (HL : forall k, k < length lines -> fst (place sep lines k) < snd (place sep lines k) ->
    (exists t, In t (flat cs) /\ overlaps (place sep lines k) t = true) \/ (forall t, In t (flat cs) -> k_end t <= fst (place sep lines k))).
  { intros k Hk Hlt. apply Hline; [exact Hk |]. intros E. exact (empty_line sep lines 0 k Hk Hlt E). }
  split; intros H1.
  - rewrite <- (indent_brackets A L false (css_bracket isb) l cs text sep lines Hwf H1 HL space ind ibl Hno Hl).
    assert (E : forall t, css_event isb t = ev A false (css_bracket isb) t) by (intros t; unfold css_event, ev, css_bracket; destruct (isb (k_act t)); [destruct (str_eqb _ [123]); [| destruct (str_eqb _ [125])] |]; reflexivity).
    apply indent_same. intros b p. unfold css_events. rewrite !one_language. destruct (range_of_tokens _ _ _ _); [| reflexivity]. now apply flat_map_ext.
  - rewrite <- (indent_brackets A L true (lily_bracket ind_) l cs text sep lines Hwf H1 HL space ind ibl Hno Hl).
    assert (E : forall t, lily_event ind_ t = ev A true (lily_bracket ind_) t) by (intros t; unfold lily_event, ev, lily_bracket; destruct (ind_ (k_act t)); [destruct (_ || _); [| destruct (_ || _)] |]; reflexivity).
    apply indent_same. intros b p. unfold lily_events. rewrite !one_language. destruct (range_of_tokens _ _ _ _); [| reflexivity]. now apply flat_map_ext.
Qed.
Print Assumptions C135_brackets_partial.

(** The tree of a text in CSS, and its lines; an action is [Bracket]. *)
Definition css_tree (text : str) : option (node klex kact) :=
  match l_run k_consume (k_parse ex_env) text 100 (l_init [KRoot] 0) with (evs, None) => build_tree KRoot (map fst evs) | _ => None end.
Definition a_bracket (a : kact) : bool := match a with ABracket => true | _ => false end.
Definition css_indent (text : str) : option str :=
  match css_tree text with
  | Some (Ctx l cs) => Some (indent text nl is_sp [32; 32] true (doc_events (css_events a_bracket) l cs) (Cursor 0 None))
  | _ => None
  end.
Definition css_toks (text : str) : list (tok kact) := match css_tree text with Some (Ctx _ cs) => flat cs | _ => [] end.
(** What C135 asks for. *)
Definition css_wanted (text : str) (lines : list str) : str :=
  join nl (each_line 0 (fun k x => times (line_depth false (css_bracket a_bracket) (css_toks text) nl lines k) [32; 32] ++ body is_sp x) lines).
Lemma css_one_line text lines : (forallb (fun t => match css_bracket a_bracket t with Other => true | _ =>
    existsb (fun k => (fst (place nl lines k) <=? k_pos t) && (k_end t <=? snd (place nl lines k))) (seq 0 (length lines)) end) (css_toks text)) = true ->
  forall t, In t (css_toks text) -> css_bracket a_bracket t <> Other -> exists k, k < length lines /\ fst (place nl lines k) <= k_pos t /\ k_end t <= snd (place nl lines k).
Proof.
  intros H t Ht Hb. rewrite forallb_forall in H. specialize (H t Ht). destruct (css_bracket a_bracket t); [| | congruence];
    (apply existsb_exists in H as (k & Hk & Hc); apply in_seq in Hk; apply Bool.andb_true_iff in Hc as [H1 H2]; apply Nat.leb_le in H1, H2; exists k; repeat split; lia).
Qed.
(** A rule and a comment in an at-rule, with an empty line between them. *)
Definition ex_text : str := [64; 109; 123; 10; 97; 123; 10; 125; 10; 10; 47; 42; 42; 47; 10; 125].
Definition ex_lines : list str := [[64; 109; 123]; [97; 123]; [125]; []; [47; 42; 42; 47]; [125]].
Ltac wf_tree := split; [repeat constructor; discriminate |]; split; repeat constructor; cbn; try lia; discriminate.
Example C135_case : exists l cs, css_tree ex_text = Some (Ctx l cs) /\ wf_children cs /\ no_overlap nl /\ is_lines ex_text nl ex_lines /\
  (forall k, k < length ex_lines -> nth k ex_lines [] <> [] -> (exists t, In t (flat cs) /\ overlaps (place nl ex_lines k) t = true) \/ (forall t, In t (flat cs) -> k_end t <= fst (place nl ex_lines k))) /\
  (forall t, In t (flat cs) -> css_bracket a_bracket t <> Other -> exists k, k < length ex_lines /\ fst (place nl ex_lines k) <= k_pos t /\ k_end t <= snd (place nl ex_lines k)) /\
  css_indent ex_text = Some (css_wanted ex_text ex_lines) /\
  css_indent ex_text = Some [64; 109; 123; 10; 32; 32; 97; 123; 10; 32; 32; 125; 10; 32; 32; 10; 32; 32; 47; 42; 42; 47; 10; 125].
Proof.
  do 2 eexists. split; [vm_compute; reflexivity |]. split; [wf_tree |]. split; [exact nl_ok |].
  split; [apply single_lines; [reflexivity | discriminate | repeat constructor; cbn; lia] |]. split; [| split; [exact (css_one_line ex_text ex_lines eq_refl) | split; vm_compute; reflexivity]].
  intros k Hk Hn. left. do 6 (destruct k as [| k]; [first [exfalso; now apply Hn | eexists; split; [now left | reflexivity] | eexists; split; [now (right; left) | reflexivity]
    | eexists; split; [now (do 3 right; left) | reflexivity] | eexists; split; [now (do 5 right; left) | reflexivity] | eexists; split; [now (do 6 right; left) | reflexivity]
    | eexists; split; [now (do 8 right; left) | reflexivity]] |]). cbn in Hk. lia.
Qed.
(** C135 does not hold when that line has white space: it is taken to have the tokens of the rule before it, so the rule is closed again, and the comment
    is not indented. *)
Definition ex_text2 : str := [64; 109; 123; 10; 97; 123; 10; 125; 10; 32; 10; 47; 42; 42; 47; 10; 125].
Definition ex_lines2 : list str := [[64; 109; 123]; [97; 123]; [125]; [32]; [47; 42; 42; 47]; [125]].
Theorem C135_white_line_refuted : exists text lines l cs, css_tree text = Some (Ctx l cs) /\ wf_children cs /\ no_overlap nl /\ is_lines text nl lines /\
  (forall t, In t (flat cs) -> css_bracket a_bracket t <> Other -> exists k, k < length lines /\ fst (place nl lines k) <= k_pos t /\ k_end t <= snd (place nl lines k)) /\
  line_depth false (css_bracket a_bracket) (flat cs) nl lines 4 = 1 /\ nth 4 lines [] = [47; 42; 42; 47] /\
  indent text nl is_sp [32; 32] true (doc_events (css_events a_bracket) l cs) (Cursor 0 None)
  = join nl [[64; 109; 123]; [32; 32; 97; 123]; [32; 32; 125]; [32]; [47; 42; 42; 47]; [125]].
Proof.
  exists ex_text2, ex_lines2. do 2 eexists. split; [vm_compute; reflexivity |]. split; [wf_tree |]. split; [exact nl_ok |].
  split; [apply single_lines; [reflexivity | discriminate | repeat constructor; cbn; lia] |]. split; [exact (css_one_line ex_text2 ex_lines2 eq_refl) |]. repeat split; vm_compute; reflexivity.
Qed.
Print Assumptions C135_white_line_refuted.
