(** Rules with items: evaluating in two steps (C39), and variations (C40). *)
From Verif Require Import Base BaseFacts RuleValues RuleItemModel RuleItemSpec RuleVariationSpec RuleItemProofs RuleItemRuleProofs RuleVariationProofs.
From Coq Require Import ZArith.

Definition no_env : env := Env None None None.

(** C39.  For every rule: a pattern, which is a value or an item [pattern(...)], and after it the action and the targets, made from the
    building blocks.  When the items that depend on the argument are evaluated first ([pre_evaluate_rule]) then:
    - the pattern that results means what the pattern means with that argument, and nothing is left to evaluate in it if it uses only the
      argument;
    - what is used for a match (the rule as it is if it is found not to need evaluating, otherwise the rule evaluated with the match)
      has nothing left to evaluate, and is what the rule means with the argument and match together; and there is an exception exactly
      when the rule has no meaning. *)
Theorem C39 : forall peq escape_str other (p : obj) (rest : list obj) (arg : pv) (rule' : list obj),
  (match p with OAtom _ => True | OPattern v => no_post v | _ => False end) -> Forall item_ok rest -> Forall using_ok rest ->
  pre_evaluate_rule peq escape_str other (p :: rest) arg = Some rule' ->
  exists p' rest', rule' = p' :: rest'
    /\ (forall text m, same_opt (denote peq escape_str other (Env (Some arg) text m) (match p with OPattern v => v | _ => p end))
                               (denote peq escape_str other (Env None text m) p'))
    /\ (known (fun x => match x with VArg => true | _ => false end) p -> static p')
    /\ forall text m, match use_rule peq escape_str other rest' text m with
                      | Some objs => Forall static objs
                          /\ same_list (denote_rule peq escape_str other (Env (Some arg) (Some text) (Some m)) rest)
                                       (denote_rule peq escape_str other no_env objs)
                      | None => denote_rule peq escape_str other (Env (Some arg) (Some text) (Some m)) rest = None
                      end.
Proof.
  intros peq escape_str other p rest a r Hp Hi Hu E. destruct (pre_rule_split peq escape_str other p rest a r Hp E) as (p' & rest' & -> & Ep & Er). exists p', rest'. split; [reflexivity|].
  unfold pre_f in Ep. destruct (pre_evaluate peq escape_str other (arg_ns a) (pat_value p)) as [[q ok]|] eqn:Eq; [|discriminate]. injection Ep as ->.
  assert (Hnp : no_post (pat_value p)) by (destruct p; try contradiction; [exact I|exact Hp]).
  split; [|split].
  - intros text m. change (match p with OPattern v => v | _ => p end) with (pat_value p). pose proof (pre_keep peq escape_str other (arg_ns a) (pat_value p) p' ok (Env None text m) Eq (or_intror Hnp)) as H. exact H.
  - intros Hk. assert (Hk' : known (knows (arg_ns a)) (pat_value p)).
    { apply (known_ext (fun x => match x with VArg => true | _ => false end)); [intros []; reflexivity|]. destruct p; try contradiction; [exact I|exact Hk]. }
    pose proof (pre_known_all peq escape_str other (arg_ns a) no_env (pat_value p) Hnp Hk') as H. rewrite Eq in H. eapply complete_static; eassumption.
  - intros text m. destruct (rules_pre peq escape_str other a (Env None (Some text) (Some m)) rest rest' Hi Er) as (A1 & _ & A3 & A4 & A5).
    pose proof (use_rule_ok peq escape_str other text m no_env rest' A1 (A4 Hu) A3) as H. unfold arg_fold in A5. cbn [e_text e_match e_arg no_env] in *.
    destruct (use_rule peq escape_str other rest' text m) as [objs|].
    + destruct H as [H1 H2]. split; [exact H1|]. eapply same_list_trans; eassumption.
    + rewrite H in A5. destruct (denote_rule peq escape_str other (Env (Some a) (Some text) (Some m)) rest); [contradiction|reflexivity].
Qed.

(** The actions for the subgroups in [bygroup(...)]: pre-evaluated with the argument, and evaluated for every subgroup with the text of
    the subgroup (parce/lexer.py:174-183), they give what they mean. *)
Theorem C39_subgroup : forall peq escape_str other (o o' : obj) (arg : pv) (ok : flags),
  item_ok o -> pre_evaluate peq escape_str other (arg_ns arg) o = Some (o', ok) ->
  forall text m, match evaluate peq escape_str other (match_ns text m) o' with
                 | Some r => static r /\ same_opt (denote peq escape_str other (Env (Some arg) (Some text) (Some m)) o) (denote peq escape_str other no_env r)
                 | None => denote peq escape_str other (Env (Some arg) (Some text) (Some m)) o = None
                 end.
Proof.
  intros peq escape_str other o o' a ok Hi E text m.
  pose proof (pre_keep peq escape_str other (arg_ns a) o o' ok (Env None (Some text) (Some m)) E (or_introl (conj eq_refl eq_refl))) as K. rewrite over_arg in K. unfold arg_fold in K. cbn [e_text e_match] in K.
  assert (Hk : known (knows (match_ns text m)) o').
  { apply (known_ext not_arg); [intros []; reflexivity|]. eapply (pre_known _ _ _ (arg_ns a) (fun _ => true) not_arg); [|exact E|apply known_all]. intros [] _ Hx; try reflexivity; discriminate. }
  pose proof (evaluate_ok peq escape_str other (match_ns text m) no_env eq_refl o' (item_inner o' (pre_item_ok _ _ _ _ _ _ _ E Hi)) Hk) as H. rewrite over_match in H. cbn [e_arg no_env] in H.
  destruct (evaluate peq escape_str other (match_ns text m) o') as [r|].
  - destruct H as [H1 H2]. split; [exact H1|]. eapply same_opt_trans; eassumption.
  - rewrite H in K. destruct (denote peq escape_str other (Env (Some a) (Some text) (Some m)) o); [contradiction|reflexivity].
Qed.

(** Evaluating the argument first can raise an exception where the rule has a meaning: the items that are not chosen are evaluated too, if
    the choice depends on the match. *)
Definition num (z : Z) := OAtom (AInt z).
Definition never (n : nat) (args : list pv) : option pv := None.
Definition peq0 (a b : pv) : bool := match a, b with PA (AStr s), PA (AStr t) => if list_eq_dec Nat.eq_dec s t then true else false | PA ANone, PA ANone => true | _, _ => false end.
Definition esc0 (s : str) : str := s.
Definition eager_rule : list obj := [OAtom (AStr [97]); OSelect (OCall (OFun FEq) [tTEXT; OAtom (AStr [97])]) [OSelect (OCall (OFun (FOther 0)) [tARG]) [num 1]; num 2]].
Theorem C39_eager_refuted :
  exists rest, eager_rule = OAtom (AStr [97]) :: rest /\ Forall item_ok rest /\ Forall using_ok rest
    /\ denote_rule peq0 esc0 never (Env (Some (PA (AInt 5))) (Some (PA (AStr [97]))) (Some (PA (AMatch [])))) rest = Some [RAtom (AInt 2)]
    /\ pre_evaluate_rule peq0 esc0 never eager_rule (PA (AInt 5)) = None.
Proof. eexists. split; [reflexivity|]. split; [repeat constructor|]. split; [repeat constructor|]. split; reflexivity. Qed.

(** A lexicon in [using(...)] that is a [call(...)] with the text is not evaluated: the rule is found not to need evaluating. *)
Definition lookup_lex (n : nat) (args : list pv) : option pv := match args with [PA (AStr [c])] => Some (PA (ALex c None)) | _ => None end.
Theorem C39_using_call_refuted :
  exists rest, Forall item_ok rest
    /\ denote_rule peq0 esc0 lookup_lex (Env (Some (PA ANone)) (Some (PA (AStr [97]))) (Some (PA (AMatch [])))) rest = Some [RUsing (RAtom (ALex 97 None))]
    /\ pre_evaluate_rule peq0 esc0 lookup_lex (OAtom (AStr [97]) :: rest) (PA ANone) = Some (OAtom (AStr [97]) :: rest)
    /\ use_rule peq0 esc0 lookup_lex rest (PA (AStr [97])) (PA (AMatch [])) = Some rest /\ ~ Forall static rest.
Proof.
  exists [ODelegate (OCall (OFun (FOther 0)) [tTEXT])]. split; [repeat constructor|]. split; [reflexivity|]. split; [reflexivity|]. split; [reflexivity|]. intros H. inversion H as [|? ? Hs]. exact Hs.
Qed.

(** A case: the rule [arg(), select(ARG == "x", A, B), derive(lexicon, TEXT), bygroup(ifeq(TEXT, ARG, 1, 2))]. *)
Definition c39_pat : obj := arg true [] [] None.
Definition c39_rest : list obj :=
  [OSelect (OCall (OFun FEq) [tARG; OAtom (AStr [120])]) [OAtom (AAct 1); OAtom (AAct 2)]; derive (OAtom (ALex 3 None)) tTEXT; OSub [ifeq tTEXT tARG (num 1) (num 2)]].
Example C39_case : (match c39_pat with OAtom _ => True | OPattern v => no_post v | _ => False end) /\ Forall item_ok c39_rest /\ Forall using_ok c39_rest
  /\ known (fun x => match x with VArg => true | _ => false end) c39_pat
  /\ pre_evaluate_rule peq0 esc0 never (c39_pat :: c39_rest) (PA (AStr [120])) =
       Some [OAtom (AStr [120]); OAtom (AAct 2); derive (OAtom (ALex 3 None)) tTEXT; OSub [ifeq tTEXT (OAtom (AStr [120])) (num 1) (num 2)]]
  /\ use_rule peq0 esc0 never [OAtom (AAct 2); derive (OAtom (ALex 3 None)) tTEXT; OSub [ifeq tTEXT (OAtom (AStr [120])) (num 1) (num 2)]] (PA (AStr [121])) (PA (AMatch []))
       = Some [OAtom (AAct 2); OAtom (ALex 3 (Some (PA (AStr [121])))); OSub [ifeq tTEXT (OAtom (AStr [120])) (num 1) (num 2)]].
Proof. repeat split; repeat constructor. Qed.

(** C40, partial: for rules in which no list or tuple stands directly (as in the rules of a lexicon, which are unrolled), without [skip],
    without empty [bygroup()], and with literal indices in [target((index, argument), ...)], the variations can be listed, and every action or target that the rule gives, for any argument and match, is listed by one of them at its
    place.  Missing: rules with a list in them, with [skip], and with a computed
    index; for those it is false, see below. *)
Theorem C40_partial : forall peq escape_str other (rule : list obj) (e : env) (rs : list rv) (out : list atom),
  flat_rule rule -> Forall var_ok rule -> denote_rule peq escape_str other e rule = Some rs -> outcomes rs out ->
  exists vs v, variations rule = Some vs /\ In v vs /\ Forall2 listed out v.
Proof. intros peq escape_str other rule e rs out. apply variations_listed. Qed.

(** [skip] has no variations, so neither has the rule, although it has a target. *)
Theorem C40_skip_refuted : exists (target : obj) (z : Z),
  denote_rule peq0 esc0 never no_env [OSkip; target] = Some [RSkip; RAtom (AInt z)] /\ outcomes [RSkip; RAtom (AInt z)] [AInt z]
  /\ variations [OSkip; target] = Some [].
Proof.
  exists (num (-1)), (-1)%Z. split; [reflexivity|]. split; [|reflexivity]. change [AInt (-1)] with ([] ++ ([AInt (-1)] ++ [])). constructor; [constructor|]. constructor; constructor.
Qed.
(** With a computed index, as in the documentation ("where n can be any expression"), listing the variations fails. *)
Theorem C40_index_refuted : exists rule : list obj,
  (forall s, denote_rule peq0 esc0 never (Env None (Some (PA (AStr s))) None) rule = Some [RAtom (ALex (if list_eq_dec Nat.eq_dec s [97] then 8 else 7) None)])
  /\ variations rule = None.
Proof.
  exists [OTarget (OSeq [OCall (OFun FEq) [tTEXT; OAtom (AStr [97])]; OAtom ANone]) [OAtom (ALex 7 None); OAtom (ALex 8 None)]]. split; [|reflexivity].
  intros s. cbv -[list_eq_dec Nat.eq_dec]. destruct (list_eq_dec Nat.eq_dec s [97]); reflexivity.
Qed.

(** A list that stands in the rule is unrolled when the rule is used, but the choices in it are not listed. *)
Theorem C40_nested_refuted : exists rule : list obj,
  Forall var_ok rule
  /\ denote_rule peq0 esc0 never (Env None (Some (PA (AStr [97]))) None) rule = Some [RAtom (AAct 1)] /\ outcomes [RAtom (AAct 1)] [AAct 1]
  /\ forall vs v x, variations rule = Some vs -> In v vs -> In x v -> ~ listed (AAct 1) x.
Proof.
  exists [OSeq [OSelect (OCall (OFun FEq) [tTEXT; OAtom (AStr [97])]) [OAtom (AAct 2); OAtom (AAct 1)]]]. split; [repeat constructor|]. split; [reflexivity|]. split; [apply (outs_cons (RAtom (AAct 1)) [] [AAct 1] []); constructor|].
  intros vs v x [= <-] [<-|[]] [<-|[]]. intros [].
Qed.

(** A case: [select(TEXT == "a", A, (B, target(call(...), lexicon 3))), bygroup(C, derive(lexicon 4, TEXT))]. *)
Definition c40_rule : list obj :=
  [OSelect (OCall (OFun FEq) [tTEXT; OAtom (AStr [97])]) [OAtom (AAct 1); OSeq [OAtom (AAct 2); OTarget (OCall (OFun (FOther 0)) [tTEXT]) [OAtom (ALex 3 None)]]];
   OSub [OAtom (AAct 5); derive (OAtom (ALex 4 None)) tTEXT]].
Definition c40_other (n : nat) (args : list pv) : option pv := Some (PTup [PA (AInt 0); PA (AStr [98])]).
Example C40_case : flat_rule c40_rule /\ Forall var_ok c40_rule
  /\ variations c40_rule = Some [[VObj (OAtom (AAct 1)); VObj (OAtom (AAct 5))]; [VObj (OAtom (AAct 2)); ANumber; VObj (OAtom (AAct 5))]; [VObj (OAtom (AAct 2)); VObj (OAtom (ALex 3 None)); VObj (OAtom (AAct 5))];
       [VObj (OAtom (AAct 1)); VObj (OAtom (ALex 4 None))]; [VObj (OAtom (AAct 2)); ANumber; VObj (OAtom (ALex 4 None))]; [VObj (OAtom (AAct 2)); VObj (OAtom (ALex 3 None)); VObj (OAtom (ALex 4 None))]]
  /\ exists f g, denote_rule peq0 esc0 c40_other (Env None (Some (PA (AStr [97]))) (Some (PA (AMatch [])))) c40_rule = Some [RAtom (AAct 2); RAtom (ALex 3 (Some (PA (AStr [98])))); RSub [f; g]]
     /\ outcomes [RAtom (AAct 2); RAtom (ALex 3 (Some (PA (AStr [98])))); RSub [f; g]] [AAct 2; ALex 3 (Some (PA (AStr [98]))); ALex 4 (Some (PA (AStr [99])))].
Proof.
  split. { repeat constructor. }
  split. { repeat constructor; try discriminate. exists 0%Z. eexists. split; reflexivity. }
  split; [reflexivity|]. eexists. eexists. split; [reflexivity|].
  change [AAct 2; ALex 3 (Some (PA (AStr [98]))); ALex 4 (Some (PA (AStr [99])))] with ([AAct 2] ++ [ALex 3 (Some (PA (AStr [98])))] ++ [ALex 4 (Some (PA (AStr [99])))] ++ []).
  constructor; [constructor|]. constructor; [constructor|]. constructor; [|constructor]. eapply (out_sub _ _ (PA (AStr [99])) (PA (AMatch []))); [right; left; reflexivity|reflexivity|constructor].
Qed.

Print Assumptions C39.
Print Assumptions C39_subgroup.
Print Assumptions C39_eager_refuted.
Print Assumptions C39_using_call_refuted.
Print Assumptions C40_partial.
Print Assumptions C40_skip_refuted.
Print Assumptions C40_index_refuted.
Print Assumptions C40_nested_refuted.
