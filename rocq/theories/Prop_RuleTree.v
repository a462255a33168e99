(** The decision tree of a rule (C125), and what introspection finds in the rules of a language (C126). *)
From Verif Require Import Base BaseFacts RuleValues RuleItemModel RuleItemSpec RuleVariationSpec RuleItemProofs RuleItemRuleProofs RuleVariationProofs RuleTreeModel RuleTreeSpec RuleTreeProofs RuleTreeListProofs IntrospectProofs.
From Coq Require Import ZArith Sorting.Sorted.

(** C125, agreement.  For rules without [skip] and without items that have nothing to choose from: the ways through the decision tree are
    the variations of the rule; and the one raises an exception exactly if the other does. *)
Theorem C125_agree_partial : forall rule : list obj,
  Forall (fun o => match o with OSeq _ => True | _ => full o end) rule ->
  match variations_tree rule, variations rule with
  | Some t, Some vs => forall p, walk t p <-> In p vs
  | None, None => True
  | _, _ => False
  end.
Proof.
  intros rule H. unfold variations_tree, variations. apply agree_seq. rewrite Forall_forall in *. intros o Ho. specialize (H o Ho). destruct o; try (apply tree_agrees; exact H). apply agree_entry.
Qed.
Print Assumptions C125_agree_partial.

(** C125, completeness.  The tree of a rule in which no list stands, with literal indices in [target((index, argument), ...)], has for
    everything that the rule gives, for any argument and match, a way that lists it; [skip] is an entry of its own. *)
Theorem C125_covers_partial : forall peq escape_str other (rule : list obj) (e : env) (rs : list rv) (out : list atom),
  flat_rule rule -> Forall tree_ok rule -> denote_rule peq escape_str other e rule = Some rs -> outcomes rs out ->
  exists t p, variations_tree rule = Some t /\ walk t p /\ Forall2 listed out (spoken p).
Proof.
  intros peq escape_str other rule e rs out Hf Hok E H. unfold denote_rule in E. destruct (omap (denote peq escape_str other e) rule) as [l|] eqn:El; [|discriminate]. injection E as <-. apply outcomes_flat in H.
  destruct (tree_listed peq escape_str other (OSeq rule) e (RTup l) out) as (t & p & Et & Hp & F); [apply fold_and; exact Hok|cbn [RuleItemSpec.denote]; rewrite El; reflexivity|constructor; exact H|].
  exists t, p. split; [|auto]. rewrite <- Et. unfold variations_tree. cbn [titems]. f_equal. apply map_ext_in. intros o Ho. unfold flat_rule in Hf. rewrite Forall_forall in Hf. specialize (Hf o Ho). destruct o; try reflexivity. contradiction.
Qed.
Print Assumptions C125_covers_partial.

(** With [skip] they do not agree: there are no variations, but there is a way through the tree. *)
Theorem C125_skip_refuted : exists (rule : list obj) t p, variations_tree rule = Some t /\ walk t p /\ variations rule = Some [].
Proof.
  exists [OSkip; OAtom (AInt (-1))], [TEntry (VObj OSkip); TEntry (VObj (OAtom (AInt (-1))))], [VObj OSkip; VObj (OAtom (AInt (-1)))]. split; [reflexivity|]. split; [|reflexivity].
  apply (walk_cons _ _ [VObj OSkip] [VObj (OAtom (AInt (-1)))]); [constructor|]. apply walk_entry. reflexivity.
Qed.
Print Assumptions C125_skip_refuted.

Definition t125_num (z : Z) := OAtom (AInt z).
Definition t125_never (n : nat) (args : list pv) : option pv := None.
Definition t125_peq (a b : pv) : bool := match a, b with PA (AStr s), PA (AStr t) => if list_eq_dec Nat.eq_dec s t then true else false | _, _ => false end.
Definition t125_if (a b : nat) : obj := OSelect (OCall (OFun FEq) [tTEXT; OAtom (AStr [97])]) [OAtom (AAct a); OAtom (AAct b)].
(** The choices in a list that stands in the rule are not in the tree: [decision_tree] gives the rules of a lexicon as they are written. *)
Theorem C125_nested_refuted : exists rule : list obj,
  Forall tree_ok rule
  /\ denote_rule t125_peq (fun s => s) t125_never (Env None (Some (PA (AStr [97]))) None) rule = Some [RAtom (AAct 1)] /\ outcomes [RAtom (AAct 1)] [AAct 1]
  /\ forall t p x, variations_tree rule = Some t -> walk t p -> In x p -> ~ listed (AAct 1) x.
Proof.
  exists [OSeq [t125_if 2 1]]. split; [repeat constructor|]. split; [reflexivity|]. split; [apply (outs_cons (RAtom (AAct 1)) [] [AAct 1] []); constructor|].
  intros t p x [= <-] Hp Hx. apply walk_entry in Hp. subst p. destruct Hx as [<-|[]]. intros [].
Qed.
Print Assumptions C125_nested_refuted.

(** A case: [select(TEXT == "a", A, (B, target(call(...), lexicon 3))), bygroup(C)], and one with [skip] in a choice. *)
Definition t125_rule : list obj :=
  [OSelect (OCall (OFun FEq) [tTEXT; OAtom (AStr [97])]) [OAtom (AAct 1); OSeq [OAtom (AAct 2); OTarget (OCall (OFun (FOther 0)) [tTEXT]) [OAtom (ALex 3 None)]]]; OSub [OAtom (AAct 5)]].
Example C125_case : Forall (fun o => match o with OSeq _ => True | _ => full o end) t125_rule /\ flat_rule t125_rule /\ Forall tree_ok t125_rule
  /\ variations_tree t125_rule = Some [TSet [TTup [TEntry (VObj (OAtom (AAct 1)))]; TTup [TEntry (VObj (OAtom (AAct 2))); TSet [TTup [TEntry ANumber]; TTup [TEntry (VObj (OAtom (ALex 3 None)))]]]]; TTup [TEntry (VObj (OAtom (AAct 5)))]]
  /\ variations t125_rule = Some [[VObj (OAtom (AAct 1)); VObj (OAtom (AAct 5))]; [VObj (OAtom (AAct 2)); ANumber; VObj (OAtom (AAct 5))]; [VObj (OAtom (AAct 2)); VObj (OAtom (ALex 3 None)); VObj (OAtom (AAct 5))]].
Proof. split; [repeat constructor; discriminate|]. split; [repeat constructor|]. split; [repeat constructor|]. split; reflexivity. Qed.
Definition t125_skip : list obj := [OSelect (OCall (OFun FEq) [tTEXT; OAtom (AStr [97])]) [OAtom (AAct 1); OSkip]; OAtom (AInt (-1))].
Example C125_skip_case : flat_rule t125_skip /\ Forall tree_ok t125_skip
  /\ denote_rule t125_peq (fun s => s) t125_never (Env None (Some (PA (AStr [97]))) None) t125_skip = Some [RSkip; RAtom (AInt (-1))] /\ outcomes [RSkip; RAtom (AInt (-1))] [AInt (-1)].
Proof. split; [repeat constructor|]. split; [repeat constructor|]. split; [reflexivity|]. apply (outs_cons RSkip _ [] [AInt (-1)]); [constructor|]. apply (outs_cons (RAtom (AInt (-1))) [] [AInt (-1)] []); constructor. Qed.

(** C126, the lexicons of a language: sorted by name, each once; those that are listed are what the language has by the names that are
    those of a lexicon in one of its classes.  So every lexicon that the language has is listed. *)
Theorem C126_lexicons : forall mro rest : list cls, Forall (fun c => NoDup (map fst c)) mro ->
  exists ls, lexicons mro rest = Some ls /\ StronglySorted lt (map fst ls)
    /\ (forall name a, In (name, a) ls <-> get_attr (mro ++ rest) name = Some a /\ exists c rules, In c mro /\ own c name = Some (ALexicon rules))
    /\ (forall name rules, get_attr mro name = Some (ALexicon rules) -> In (name, ALexicon rules) ls).
Proof.
  intros mro rest Hd. destruct (lexicons_ok mro rest Hd) as (ls & E & Hs & H). exists ls. split; [exact E|]. split; [exact Hs|]. split; [exact H|].
  intros name rules Hg. apply H. clear - Hg. induction mro as [|c mro IH]; [discriminate|]. cbn [get_attr app] in *. destruct (own c name) as [a|] eqn:Eo.
  - injection Hg as ->. split; [reflexivity|]. exists c, rules. split; [left; reflexivity|exact Eo].
  - destruct (IH Hg) as [H1 (d & r & Hdm & Hr)]. split; [exact H1|]. exists d, r. split; [right; exact Hdm|exact Hr].
Qed.
Print Assumptions C126_lexicons.

(** C126, the actions and languages.  For a language of which no lexicon is replaced with something else in a class derived from the one
    that has it, with rules that are fit for [tree_ok] (lists in rules are no problem here): the standard actions and the languages are
    found; every action that a rule gives, for any argument and match, is among the actions; the language of every lexicon that it gives
    is among the languages, if it is another one; and all of them are written in a rule. *)
Theorem C126_found_partial : forall peq escape_str other (language_of : nat -> nat) (lang : nat) (mro rest : list cls),
  Forall (fun c => NoDup (map fst c)) mro ->
  (forall c name rules, In c mro -> own c name = Some (ALexicon rules) -> exists rules', get_attr (mro ++ rest) name = Some (ALexicon rules')) ->
  (forall name rules rule, get_attr (mro ++ rest) name = Some (ALexicon rules) -> In rule rules -> Forall tree_ok rule) ->
  exists acts langs, standardactions mro rest = Some acts /\ languages language_of lang mro rest = Some langs
    /\ (forall name rules rule e rs out, get_attr mro name = Some (ALexicon rules) -> In rule rules -> denote_rule peq escape_str other e rule = Some rs -> outcomes rs out ->
          (forall n, In (AAct n) out -> In n acts) /\ (forall l x, In (ALex l x) out -> language_of l <> lang -> In (language_of l) langs))
    /\ (forall n, In n acts -> exists name rules rule o, get_attr (mro ++ rest) name = Some (ALexicon rules) /\ In rule rules /\ In o rule /\ mentions (AAct n) o)
    /\ (forall n, In n langs -> n <> lang /\ exists name rules rule o l x, get_attr (mro ++ rest) name = Some (ALexicon rules) /\ In rule rules /\ In o rule /\ mentions (ALex l x) o /\ language_of l = n).
Proof.
  intros peq escape_str other language_of lang mro rest Hd Hno Hok.
  destruct (C126_lexicons mro rest Hd) as (ls & El & _ & Hls & Hall).
  assert (Hlex : forall name a, In (name, a) ls -> exists rules, a = ALexicon rules /\ get_attr (mro ++ rest) name = Some (ALexicon rules)).
  { intros name a H. apply Hls in H. destruct H as [Hg (c & r & Hc & Ho)]. destruct (Hno c name r Hc Ho) as [r' Hr]. exists r'. split; [congruence|exact Hr]. }
  assert (Hleaf : forall rule, Forall tree_ok rule -> exists l, leaves (OSeq rule) = Some l).
  { intros rule H. pose proof (tree_within (OSeq rule)) as Hw. destruct (titems_some (OSeq rule)) as [ts Et]; [apply fold_and; exact H|]. rewrite Et in Hw. cbn [within] in Hw. destruct (leaves (OSeq rule)) as [l|]; [eauto|contradiction]. }
  assert (Hri : exists items, rule_items mro rest = Some items /\ forall v, In v items <-> exists name rules rule l, In (name, ALexicon rules) ls /\ In rule rules /\ leaves (OSeq rule) = Some l /\ In v l).
  { unfold rule_items. rewrite El. set (f := fun p : nat * attr => match snd p with ALexicon rules => fold_right oapp (Some []) (map (fun rule => leaves (OSeq rule)) rules) | ANot => None end).
    pose proof (oapp_cases (map f ls)) as Hc. destruct (fold_right oapp (Some []) (map f ls)) as [items|].
    - exists items. split; [reflexivity|]. intros v. rewrite (proj2 Hc). split.
      + intros (b & Hb & Hv). apply in_map_iff in Hb. destruct Hb as ((name & a) & Eb & Hin). destruct (Hlex name a Hin) as (rules & -> & _). cbn [f snd] in Eb. pose proof (oapp_cases (map (fun rule => leaves (OSeq rule)) rules)) as Hr. unfold f in Eb. cbn [snd] in Eb. rewrite Eb in Hr. apply (proj2 Hr) in Hv. destruct Hv as (l & Hl & Hv). apply in_map_iff in Hl. destruct Hl as (rule & Er & Hrule). exists name, rules, rule, l. auto.
      + intros (name & rules & rule & l & Hin & Hrule & Er & Hv). destruct (Hlex name _ Hin) as (rules' & [= <-] & Hg).
        pose proof (oapp_cases (map (fun rule => leaves (OSeq rule)) rules)) as Hr. destruct (fold_right oapp (Some []) (map (fun rule => leaves (OSeq rule)) rules)) as [b|] eqn:Eb.
        * exists b. split; [|apply (proj2 Hr); exists l; split; [rewrite <- Er; apply (in_map (fun rule => leaves (OSeq rule))); exact Hrule|exact Hv]]. apply in_map_iff. exists (name, ALexicon rules). split; [exact Eb|exact Hin].
        * exfalso. apply in_map_iff in Hr. destruct Hr as (rule' & E' & Hr'). destruct (Hleaf rule' (Hok name rules rule' Hg Hr')) as [l' El']. congruence.
    - exfalso. apply in_map_iff in Hc. destruct Hc as ((name & a) & E & Hin). destruct (Hlex name a Hin) as (rules & -> & Hg). unfold f in E. cbn [snd] in E. pose proof (oapp_cases (map (fun rule => leaves (OSeq rule)) rules)) as Hr. rewrite E in Hr. apply in_map_iff in Hr. destruct Hr as (rule' & E' & Hr'). destruct (Hleaf rule' (Hok name rules rule' Hg Hr')) as [l' El']. congruence. }
  destruct Hri as (items & Ei & Hitems). unfold standardactions, languages. rewrite Ei. eexists. eexists. split; [reflexivity|]. split; [reflexivity|].
  assert (Hout : forall a v, listed a v -> worth v). { intros a v. destruct v as [o| |]; cbn; [destruct o; intros; try contradiction; exact I|intros; exact I|intros; exact I]. }
  split; [|split].
  - intros name rules rule e rs out Hg Hin E H. pose proof (Hall name rules Hg) as Hl. destruct (Hlex name _ Hl) as (rules' & [= <-] & Hg').
    assert (Ht : Forall tree_ok rule) by (eapply Hok; eassumption). unfold denote_rule in E. destruct (omap (denote peq escape_str other e) rule) as [l|] eqn:Eo; [|discriminate]. injection E as <-. apply outcomes_flat in H.
    destruct (tree_listed peq escape_str other (OSeq rule) e (RTup l) out) as (t & p & Et & Hp & F); [apply fold_and; exact Ht|cbn [RuleItemSpec.denote]; rewrite Eo; reflexivity|constructor; exact H|].
    pose proof (tree_within (OSeq rule)) as Hw. rewrite Et in Hw. cbn [within] in Hw. destruct (leaves (OSeq rule)) as [lv|] eqn:Elv; [|contradiction].
    assert (Hat : forall a, In a out -> exists v, listed a v /\ In v items).
    { intros a Ha. assert (exists v, In v (spoken p) /\ listed a v) as (v & Hv & Hlv). { clear - F Ha. induction F as [|x y l l' Hxy _ IH]; [destruct Ha|]. destruct Ha as [<-|Ha]; [exists y; split; [left; reflexivity|exact Hxy]|]. destruct (IH Ha) as (v & Hv & Hl). exists v. split; [right; exact Hv|exact Hl]. }
      exists v. split; [exact Hlv|]. apply Hitems. exists name, rules, rule, lv. split; [exact Hl|]. split; [exact Hin|]. split; [exact Elv|]. apply (Hw p); [exact Hp|apply filter_In in Hv; apply Hv|eapply Hout; exact Hlv]. }
    split.
    + intros n Hn. destruct (Hat _ Hn) as (v & Hlv & Hv). apply in_flat_map. exists v. split; [exact Hv|]. destruct v as [o| |]; [|destruct Hlv as [z Hz]; discriminate|destruct Hlv as [s Hs]; discriminate]. destruct o; try contradiction. destruct Hlv as [<-|(? & ? & ? & ? & ?)]; [left; reflexivity|discriminate].
    + intros n x Hn Hne. destruct (Hat _ Hn) as (v & Hlv & Hv). apply in_flat_map. exists v. split; [exact Hv|]. destruct v as [o| |]; [|destruct Hlv as [z Hz]; discriminate|destruct Hlv as [s Hs]; discriminate]. destruct o as [b| | | | | | | | |]; try contradiction.
      destruct Hlv as [<-|(l' & x' & y' & [= <- <-] & ->)]; (destruct (language_of n =? lang) eqn:En; [apply Nat.eqb_eq in En; contradiction|left; reflexivity]).
  - intros n Hn. apply in_flat_map in Hn. destruct Hn as (v & Hv & Hn). destruct v as [[b| | | | | | | | |]| |]; try contradiction. destruct b; try contradiction. destruct Hn as [->|[]]. apply Hitems in Hv. destruct Hv as (name & rules & rule & l & Hl & Hr & Elv & Hv).
    apply (leaves_mention (OSeq rule) _ l Elv) in Hv. cbn [mentions] in Hv. apply fold_or in Hv. destruct Hv as (o & Ho & Hm). destruct (Hlex name _ Hl) as (rules' & [= <-] & Hg). exists name, rules, rule, o. auto.
  - intros n Hn. apply in_flat_map in Hn. destruct Hn as (v & Hv & Hn). destruct v as [[b| | | | | | | | |]| |]; try contradiction. destruct b as [| | | | |ln x| | | |]; try contradiction. destruct (language_of ln =? lang) eqn:En; [destruct Hn|]. destruct Hn as [<-|[]]. apply Nat.eqb_neq in En. split; [exact En|].
    apply Hitems in Hv. destruct Hv as (name & rules & rule & l & Hl & Hr & Elv & Hv). apply (leaves_mention (OSeq rule) _ l Elv) in Hv. cbn [mentions] in Hv. apply fold_or in Hv. destruct Hv as (o & Ho & Hm). destruct (Hlex name _ Hl) as (rules' & [= <-] & Hg). exists name, rules, rule, o, ln, x. auto.
Qed.
Print Assumptions C126_found_partial.

(** A class that replaces a lexicon of its base class with something else, such as None: what stands there is listed as a lexicon, and
    the actions are not found. *)
Theorem C126_replaced_refuted : exists (mro : list cls) ls, lexicons mro [] = Some ls /\ In (1, ANot) ls /\ standardactions mro [] = None.
Proof. exists [[(1, ANot)]; [(1, ALexicon []); (2, ALexicon [])]], [(1, ANot); (2, ALexicon [])]. split; [reflexivity|]. split; [left; reflexivity|reflexivity]. Qed.
Print Assumptions C126_replaced_refuted.
(** With a computed index in a target, as in the documentation ("where n can be any expression"), the actions of the language are not
    found. *)
Theorem C126_index_refuted : exists rule : list obj,
  (forall s, denote_rule t125_peq (fun s => s) t125_never (Env None (Some (PA (AStr s))) None) rule
             = Some [RAtom (AStr [97]); RAtom (AAct 1); RAtom (ALex (if list_eq_dec Nat.eq_dec s [97] then 8 else 7) None)])
  /\ standardactions [[(1, ALexicon [rule])]] [] = None.
Proof.
  exists [OAtom (AStr [97]); OAtom (AAct 1); OTarget (OSeq [OCall (OFun FEq) [tTEXT; OAtom (AStr [97])]; OAtom ANone]) [OAtom (ALex 7 None); OAtom (ALex 8 None)]]. split; [|reflexivity].
  intros s. cbv -[list_eq_dec Nat.eq_dec]. destruct (list_eq_dec Nat.eq_dec s [97]); reflexivity.
Qed.
Print Assumptions C126_index_refuted.

(** A case: a language with two lexicons, one of them from a base class. *)
Definition c126_mro : list cls :=
  [[(2, ALexicon [[OAtom (AStr [97]); OSeq [t125_if 2 1]; OAtom (ALex 9 None)]]); (5, ANot)]; [(1, ALexicon [[OAtom (AStr [98]); OSkip; OAtom (ALex 2 None)]; [OAtom (AStr [99]); OAtom (AAct 3)]]); (2, ALexicon [])]].
Example C126_case :
  Forall (fun c => NoDup (map fst c)) c126_mro
  /\ (forall c name rules, In c c126_mro -> own c name = Some (ALexicon rules) -> exists rules', get_attr (c126_mro ++ []) name = Some (ALexicon rules'))
  /\ (forall name rules rule, get_attr (c126_mro ++ []) name = Some (ALexicon rules) -> In rule rules -> Forall tree_ok rule)
  /\ standardactions c126_mro [] = Some [3; 2; 1] /\ languages (fun l => l / 8) 0 c126_mro [] = Some [1].
Proof.
  split. { repeat constructor; cbn; intuition discriminate. }
  split. { intros c name rules [<-|[<-|[]]]; cbn [own find fst c126_mro app get_attr]; unfold own; cbn [find fst].
    - destruct (2 =? name) eqn:E; [apply Nat.eqb_eq in E; subst; intros; eexists; reflexivity|]. destruct (5 =? name); discriminate.
    - destruct (1 =? name) eqn:E; [apply Nat.eqb_eq in E; subst; intros; eexists; reflexivity|]. destruct (2 =? name) eqn:E2; [apply Nat.eqb_eq in E2; subst; intros; eexists; reflexivity|discriminate]. }
  split; [|split; reflexivity].
  intros name rules rule. unfold c126_mro. cbn [app get_attr]. unfold own. cbn [find fst].
  destruct (2 =? name); [intros [= <-] [<-|[]]; repeat constructor|]. destruct (5 =? name); [discriminate|]. destruct (1 =? name); [|discriminate]. intros [= <-] [<-|[<-|[]]]; repeat constructor.
Qed.
