(** Validating lexicons: default targets (C111) and rules (C112). *)
From Verif Require Import Base BaseFacts TargetModel TargetSpec LexerModel LexerSpec LexiconModel LexiconSpec LexerExamples LexerTheorems
  RuleValues RuleItemModel RuleItemSpec RuleVariationSpec RuleVariationProofs ValidateModel ValidateSpec ValidateProofs ValidateRuleProofs.
From Coq Require Import ZArith.

(** C111.  Checking the default target of a lexicon ends always, however the lexicons refer to each other. *)
Theorem C111_check_ends : forall (L : Type) (default_of : L -> option (list (titem L))) (l : L) items,
  default_of l = Some items -> exists v, gives default_of l v.
Proof. intros L default_of l items. exact (check_ends L default_of l items). Qed.
Print Assumptions C111_check_ends.

(** What the verdict says about following the default targets from that lexicon as root.  If nothing is reported, it comes to an end, or it
    leaves the root.  "Invalid default target" and the warning "handled circular default target" are only given if it goes on forever.  If it
    goes on forever, that is reported. *)
Theorem C111_verdict : forall (L : Type) (default_of : L -> option (list (titem L))) (l : L) (v : verdict L),
  gives default_of l v ->
  match v with
  | VEnd => comes_to_end default_of [l]
  | VLeft => leaves_root default_of [l]
  | VOther _ => meets_other default_of [l]
  | VSelf _ | VHandled _ => endless default_of [l]
  | VRunaway _ => exists n stack, 100 < n /\ chain default_of [l] n stack
  end /\ (endless default_of [l] -> reported v).
Proof. intros L default_of l v G. split; [exact (verdict_says L default_of l v G)|exact (endless_reported L default_of l v G)]. Qed.
Print Assumptions C111_verdict.

(** If nothing is reported for any lexicon, and no default target both leaves and enters lexicons, then from any open lexicons the default
    targets come to an end, or leave the root. *)
Theorem C111_unreported_partial : forall (L : Type) (default_of : L -> option (list (titem L))),
  (forall l items, default_of l = Some items -> one_way items) -> (forall l v, gives default_of l v -> ~ reported v) ->
  forall stack, stack <> [] -> comes_to_end default_of stack \/ leaves_root default_of stack.
Proof. intros L default_of. exact (unreported_ends L default_of). Qed.
Print Assumptions C111_unreported_partial.

(** The error "circular default target" is also given for default targets that come to an end: lexicon 0 enters lexicon 3 and ten times
    lexicon 1, which is replaced with ten times lexicon 2, which is left; lexicon 3 has no default target. *)
Definition many (l : nat) : option (list (titem nat)) :=
  match l with
  | 0 => Some (map TItem (RLex 3 :: repeat (RLex 1) 10))
  | 1 => Some (map TItem (RInt (-1)%Z :: repeat (RLex 2) 10))
  | 2 => Some [TItem (RInt (-1)%Z)]
  | _ => None
  end.
Fixpoint chain_fun {L} (default_of : L -> option (list (titem L))) (n : nat) (stack : list L) : option (list L) :=
  match n with
  | 0 => Some stack
  | S n => match chain_fun default_of n stack with
           | Some s => match last_opt s with
                       | Some l => match default_of l with Some items => walk l items s | None => None end
                       | None => None
                       end
           | None => None
           end
  end.
Lemma chain_fun_ok {L} (default_of : L -> option (list (titem L))) n start s : chain_fun default_of n start = Some s -> chain default_of start n s.
Proof.
  revert s. induction n as [|n IH]; intros s E; cbn [chain_fun] in E; [injection E as <-; constructor|].
  destruct (chain_fun default_of n start) as [s0|]; [|discriminate]. destruct (last_opt s0) as [l|] eqn:El; [|discriminate].
  destruct (default_of l) as [items|] eqn:Ed; [|discriminate]. eapply chain_next; [apply IH; reflexivity|exact El|exact Ed|exact E].
Qed.
Theorem C111_runaway_refuted : exists (default_of : nat -> option (list (titem nat))) (l x : nat),
  gives default_of l (VRunaway x) /\ comes_to_end default_of [l].
Proof.
  exists many, 0, 2. split.
  - eexists. exists 200. split; [reflexivity|]. vm_compute. reflexivity.
  - exists 111, [0; 3], 3. split; [|split; reflexivity]. apply chain_fun_ok. vm_compute. reflexivity.
Qed.
Print Assumptions C111_runaway_refuted.

(** Two lexicons that replace each other go on forever when they are entered from a root lexicon, but nothing is reported for any lexicon. *)
Definition swap (l : nat) : option (list (titem nat)) :=
  match l with
  | 0 => None
  | 1 => Some [TItem (RInt (-1)%Z); TItem (RLex 2)]
  | _ => Some [TItem (RInt (-1)%Z); TItem (RLex 1)]
  end.
Theorem C111_replace_refuted : exists (default_of : nat -> option (list (titem nat))) (stack : list nat),
  (forall l v, gives default_of l v -> ~ reported v) /\ endless default_of stack.
Proof.
  exists swap, [0; 1]. split.
  - intros l v (items & fuel & Ed & E). destruct l as [|[|l]]; [discriminate| |]; injection Ed as <-;
      (destruct fuel as [|fuel]; [discriminate|]; cbv in E; injection E as <-; intros [H|H]; discriminate).
  - apply (repeats nat swap [0; 1] 0 2 [0; 1]); [lia|constructor|apply chain_fun_ok; reflexivity].
Qed.
Print Assumptions C111_replace_refuted.

(** Nothing is reported, but a lexer that comes to a text with an unknown character never ends: the target leaves the root. *)
Theorem C111_silent_hang_refuted : exists (items : nat -> list (ritem nat)) (defs : nat -> compiled nat nat) (text : str),
  (forall l, c_dt (defs l) = t_make l (items l)) /\ (forall l v, gives (fun l => Some (map TItem (items l))) l v -> ~ reported v) /\
  forall n, exists s, l_run (fun _ => false) (fun l => lexicon_parse (fun _ _ => []) l (defs l)) text n (l_init [0] 0) = ([], Some s) /\ s_pos s < length text.
Proof.
  exists (fun _ => [RInt (-1)%Z]), lang2, [120]. split; [reflexivity|]. split.
  - intros l v (i & fuel & Ed & E). injection Ed as <-. destruct fuel as [|fuel]; [discriminate|]. cbv in E. injection E as <-. intros [H|H]; discriminate.
  - intros n. destruct (lang2_hangs n) as (s & E & H). exists s. split; [exact E|]. apply andb_prop in H as [_ H]. apply Nat.eqb_eq in H. cbn. lia.
Qed.
Print Assumptions C111_silent_hang_refuted.

(** The warning says that a circle is handled, but the lexer never ends. *)
Definition items3 (l : nat) : list (ritem nat) :=
  match l with
  | 0 => [RLex 1; RLex 2]
  | 1 => [RInt (-1)%Z; RLex 3; RLex 4; RLex 5]
  | 2 | 3 => [RInt (-1)%Z]
  | _ => [RInt (-2)%Z]
  end.
Theorem C111_handled_refuted : exists (items : nat -> list (ritem nat)) (defs : nat -> compiled nat nat) (text : str) (x : nat),
  (forall l, c_dt (defs l) = t_make l (items l)) /\ gives (fun l => Some (map TItem (items l))) 0 (VHandled x) /\
  forall n, exists s, l_run (fun _ => false) (fun l => lexicon_parse (fun _ _ => []) l (defs l)) text n (l_init [0] 0) = ([], Some s) /\ s_pos s < length text.
Proof.
  eexists items3, lang3, [120], _. split; [|split].
  - intros l. do 4 (destruct l as [|l]; [reflexivity|]). reflexivity.
  - eexists. exists 300. split; [reflexivity|]. vm_compute. reflexivity.
  - intros n. destruct (lang3_hangs n) as (s & E & H). exists s. split; [exact E|]. apply andb_prop in H as [H _]. apply andb_prop in H as [_ H]. apply Nat.eqb_eq in H. cbn. lia.
Qed.
Print Assumptions C111_handled_refuted.

(** Every verdict occurs; and a language in which nothing is reported: lexicon 0 enters 1 and 2, 2 enters 3, 3 leaves itself and 2, 1 has no
    default target. *)
Definition calm (l : nat) : option (list (titem nat)) :=
  match l with
  | 0 => Some [TItem (RLex 1); TItem (RLex 2)]
  | 2 => Some [TItem (RLex 3)]
  | 3 => Some [TItem (RInt (-2)%Z)]
  | _ => None
  end.
Example C111_ex_calm : (forall l items, calm l = Some items -> one_way items) /\ (forall l v, gives calm l v -> ~ reported v)
  /\ gives calm 0 VEnd /\ gives calm 3 VLeft /\ comes_to_end calm [0; 2; 3].
Proof.
  split; [|split; [|split; [|split]]].
  - intros l items E. destruct l as [|[|[|[|l]]]]; try discriminate; injection E as <-; [right|right|left]; repeat constructor.
  - intros l v (items & fuel & Ed & E). destruct l as [|[|[|[|l]]]]; try discriminate; injection Ed as <-;
      destruct fuel as [|[|[|[|fuel]]]]; try discriminate; cbv in E; injection E as <-; intros [H|H]; discriminate.
  - eexists. exists 5. split; reflexivity.
  - eexists. exists 5. split; reflexivity.
  - exists 4, [0; 1], 1. split; [|split; reflexivity]. apply chain_fun_ok. reflexivity.
Qed.
Example C111_ex_verdicts :
  gives (fun l => Some [TItem (RInt 0%Z)]) 7 (VSelf 7) /\ gives (fun l => Some [TItem (RInt 1%Z)]) 7 (VRunaway 7) /\ endless (fun l => Some [TItem (RInt 1%Z)]) [7]
  /\ gives (fun l => if l =? 7 then Some [TItem (RLex 8)] else Some [TItem (RInt (-1)%Z)]) 7 (VHandled 7) /\ gives (fun l => Some [TItem (RInt 1%Z); TOther]) 7 (VOther 7).
Proof.
  split; [eexists; exists 1; split; reflexivity|]. split; [eexists; exists 150; split; [reflexivity|vm_compute; reflexivity]|]. split.
  - intros n. exists ([7] ++ repeat 7 n). induction n as [|n IH]; [constructor|]. apply (chain_next _ _ _ n ([7] ++ repeat 7 n) 7 [TItem (RInt 1%Z)]); [exact IH| |reflexivity|].
    + replace ([7] ++ repeat 7 n) with (repeat 7 n ++ [7]); [apply last_opt_app|]. clear IH. induction n as [|n IH]; [reflexivity|]. cbn in *. rewrite IH. reflexivity.
    + cbn. f_equal. f_equal. clear IH. induction n as [|n IH]; [reflexivity|]. cbn. rewrite IH. reflexivity.
  - split; [eexists; exists 300; split; [reflexivity|vm_compute; reflexivity]|eexists; exists 1; split; reflexivity].
Qed.

(** C112.  Validating a lexicon gives no errors exactly if its rules are in order, if default actions are true values (and the variations of
    all rules can be listed, otherwise there is an exception). *)
Theorem C112_validate_partial : forall (P : Type) (compiles : P -> bool) (rules_of : nat * option pv -> list (vrule P)) fuel l errs,
  true_actions rules_of l -> validate compiles rules_of fuel l = Some errs -> (errs = [] <-> in_order compiles rules_of l).
Proof. intros P compiles rules_of fuel l errs. exact (validated P compiles rules_of fuel l errs). Qed.
Print Assumptions C112_validate_partial.

(** All targets that a rule of a lexicon without errors gives, for any argument, text and match, are numbers or lexicons; for rules as in
    C40 (the rules of a lexicon are unrolled, so no list stands in them). *)
Theorem C112_targets_partial : forall (P : Type) (compiles : P -> bool) (rules_of : nat * option pv -> list (vrule P)) fuel l peq escape_str other
    (p : vpat P) (rule : list obj) (e : env) (rs : list rv) (out : list atom),
  true_actions rules_of l -> validate compiles rules_of fuel l = Some [] -> In (RSeq p rule) (rules_of l) -> p <> PAction -> p <> PTarget ->
  flat_rule rule -> Forall var_ok rule -> denote_rule peq escape_str other e rule = Some rs -> outcomes rs out -> Forall is_target (tl out).
Proof.
  intros P compiles rules_of fuel l peq escape_str other p rule e rs out Ht Ev Hi H1 H2 Hf Hok Ed Ho.
  apply (validated P compiles rules_of fuel l [] Ht) in Ev as [Hv _]. destruct (Hv eq_refl) as (_ & _ & _ & Hx & _).
  destruct (variations_listed peq escape_str other rule e rs out Hf Hok Ed Ho) as (vs & v & Evs & Iv & Hl).
  assert (Hn : is_default (RSeq p rule) = false) by (destruct p; [contradiction|contradiction|reflexivity|reflexivity]).
  specialize (fun x => Hx _ p rule vs v x Hi eq_refl Hn Evs Iv). inversion Hl as [|a b out' v' Hab Hl']; subst; [constructor|]. cbn [tl] in *.
  clear - Hl' Hx. induction Hl' as [|a b out v Hab Hl IH]; constructor.
  - apply (listed_target a b Hab). apply Hx. left. reflexivity.
  - apply IH. intros x H. apply Hx. right. exact H.
Qed.
Print Assumptions C112_targets_partial.

(** A rule with [skip] and a string as target is not reported. *)
Theorem C112_skip_refuted : exists (rule : list obj) (rules_of : nat * option pv -> list (vrule unit)) (s : str),
  rules_of (0, None) = [RSeq (PRegex tt) rule] /\ validate (fun _ => true) rules_of 1 (0, None) = Some []
  /\ forall peq escape_str other e, denote_rule peq escape_str other e rule = Some [RSkip; RAtom (AStr s)].
Proof. exists [OSkip; OAtom (AStr [120])], (fun _ => [RSeq (PRegex tt) [OSkip; OAtom (AStr [120])]]), [120]. split; [reflexivity|]. split; [reflexivity|]. reflexivity. Qed.
Print Assumptions C112_skip_refuted.

(** Two default actions are not reported if the first is None; neither is a default target beside a default action None. *)
Theorem C112_conflict_refuted : exists (rules_of : nat * option pv -> list (vrule unit)),
  rules_of (0, None) = [RSeq PAction [OAtom ANone]; RSeq PAction [OAtom (AAct 1)]] /\ validate (fun _ => true) rules_of 1 (0, None) = Some []
  /\ rules_of (1, None) = [RSeq PAction [OAtom ANone]; RSeq PTarget [OAtom (ALex 2 None)]] /\ validate (fun _ => true) rules_of 5 (1, None) = Some [].
Proof.
  exists (fun l => match fst l with
                   | 0 => [RSeq PAction [OAtom ANone]; RSeq PAction [OAtom (AAct 1)]]
                   | 1 => [RSeq PAction [OAtom ANone]; RSeq PTarget [OAtom (ALex 2 None)]]
                   | _ => [] end). repeat split; reflexivity.
Qed.
Print Assumptions C112_conflict_refuted.

(** A lexicon with a rule with a choice and a computed target, a rule without pattern and a default target; and what is reported if the choice
    has a string. *)
Definition rules_ex (o : obj) (l : nat * option pv) : list (vrule nat) :=
  match fst l with
  | 0 => [RSeq (PRegex 5) [OAtom (AAct 1); OSelect (OCall (OFun FBool) [tTEXT]) [OSeq [OAtom (AInt 1%Z); OAtom (ALex 1 None)]; o]];
          RSeq PNone [OAtom (AAct 2)]; RSeq PTarget [OAtom (ALex 1 None)]]
  | _ => []
  end.
Example C112_ex : true_actions (rules_ex (OAtom (ALex 3 None))) (0, None) /\ validate (fun _ => true) (rules_ex (OAtom (ALex 3 None))) 5 (0, None) = Some []
  /\ validate (fun _ => true) (rules_ex (OAtom (AStr [97]))) 5 (0, None) = Some [EInvalid 1] /\ validate (fun _ => false) (rules_ex OSkip) 5 (0, None) = Some [ERegex 1]
  /\ Forall var_ok [OAtom (AAct 1); OSelect (OCall (OFun FBool) [tTEXT]) [OSeq [OAtom (AInt 1%Z); OAtom (ALex 1 None)]; OAtom (ALex 3 None)]].
Proof.
  split; [|repeat split; try reflexivity; repeat constructor]. intros a rest H. cbn in H. intuition discriminate.
Qed.
