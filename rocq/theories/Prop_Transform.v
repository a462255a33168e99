(** C43-C46: transforming texts and trees. *)
From Verif Require Import Base BaseFacts TargetModel TargetSpec LexerModel LexerSpec LexerProofs LexiconModel LexiconSpec LexerExamples LexerTheorems Prop_Lexer
  TreeModel TreeSpec TreeProofs BuildModel BuildProofs ChangesModel RebuildModel
  TransformModel TransformSpec TransformTextProofs TransformTreeProofs TransformUpdateModel TransformUpdateSpec TransformUpdateProofs.
From Coq Require Import ZArith ZifyBool.

(** The lexicons that are open when the last event was yielded, without the root lexicon. *)
Definition open_at_end {L A} (evs : list (event L A * list L)) : list L :=
  match last_opt evs with Some x => tl (snd x) | None => [] end.

Lemma replay_open (L A : Type) consume parse text root n (evs : list (event L A * list L)) r :
  l_run consume parse text n (l_init [root] 0) = (evs, r) -> tl (replay [root] (map fst evs)) = open_at_end evs.
Proof.
  intros Hr. unfold open_at_end. destruct evs as [|x evs _] using rev_ind; [reflexivity|].
  assert (El : last_opt (evs ++ [x]) = Some x) by (unfold last_opt; rewrite rev_app_distr; reflexivity). rewrite El.
  pose proof (proj1 (C02_events_replay_to_lexer_state _ _ consume _ text [root] 0 n _ r ltac:(discriminate) Hr evs x [] eq_refl)) as H. rewrite H.
  rewrite map_app, replay_app. reflexivity.
Qed.

(** C43. For the events of every run of a lexer, the tree that is built from them, and any transform: if every lexicon that is still open at the
    last event has a method (or the root lexicon has none), and no method that asks for untransformed contexts gets one, then transforming the
    text and transforming the tree give the same result, which is the meaning of the tree.
    Missing: texts that end in a context without a method (see below), and untransformed contexts (C44). *)
Theorem C43_text_equals_tree_partial :
  forall (L A R Lang Name Arg : Type) (lang : L -> Lang) (name : L -> Name) (arg : L -> Arg) (lang_is : Lang -> Lang -> bool)
         (get_transform : Lang -> transform L A R Name Arg)
         (consume : L -> bool) (parse : L -> str -> nat -> gen (item L A)) (text : str) (root : L) (n : nat) evs r tree itree,
    (forall a b, lang_is a b = true <-> a = b) ->
    l_run consume parse text n (l_init [root] 0) = (evs, r) ->
    build_tree root (map fst evs) = Some tree ->
    erase itree = tree -> distinct itree ->
    none_untransformed lang name get_transform false tree ->
    (Forall (fun l => method_of lang name get_transform l <> None) (open_at_end evs) \/ method_of lang name get_transform root = None) ->
    transform_text L A R Lang Name Arg lang name arg lang_is get_transform root (map fst evs) = Some (meaning lang name arg get_transform tree)
    /\ exists ca, transform_tree L A R Lang Name Arg lang name arg lang_is get_transform (fun _ => None) itree None
                  = Some (Value (meaning lang name arg get_transform tree), ca).
Proof.
  intros L A R Lang Name Arg lang name arg lang_is get_transform consume parse text root n evs r tree itree Hl Hr Hb He Hd Hq Ho.
  assert (Hst : stream_ok L A [root] (map fst evs)) by (eapply run_stream_ok; [discriminate|exact Hr]).
  split.
  - apply (proj1 (text_ok L A R Lang Name Arg lang name arg lang_is Hl get_transform root (map fst evs) tree Hst Hb Hq)).
    rewrite (replay_open L A consume parse text root n evs r Hr). exact Ho.
  - destruct (build_tree_ok L A root _ Hst) as (cs0 & Hb' & _). rewrite Hb in Hb'. injection Hb' as Et.
    destruct itree as [t|[id l] cs]; [rewrite Et in He; discriminate|].
    destruct (tree_ok L A R Lang Name Arg lang name arg lang_is Hl get_transform (Ctx (id, l) cs) Hd (fun _ => None) None id l cs eq_refl) as (o & ca & E & _ & _ & _ & H).
    + split; [intros ? ? ? ? ? ? ? Hv; discriminate|]. intros ? ? ? ? ? ? Hv. exfalso. apply Hv. reflexivity.
    + exists ca. destruct o as [v|]; [|congruence]. destruct H as [-> _]. rewrite He in E. exact E.
Qed.
Print Assumptions C43_text_equals_tree_partial.

(** C43. In all other cases transforming the text raises: when the text ends in a context that has no method, or is below one.  (The event that
    ends the skipped context is missing then, and [make_tokens] is called without lexemes.) *)
Theorem C43_raises_at_the_end :
  forall (L A R Lang Name Arg : Type) (lang : L -> Lang) (name : L -> Name) (arg : L -> Arg) (lang_is : Lang -> Lang -> bool)
         (get_transform : Lang -> transform L A R Name Arg)
         (consume : L -> bool) (parse : L -> str -> nat -> gen (item L A)) (text : str) (root : L) (n : nat) evs r tree,
    (forall a b, lang_is a b = true <-> a = b) ->
    l_run consume parse text n (l_init [root] 0) = (evs, r) ->
    build_tree root (map fst evs) = Some tree ->
    none_untransformed lang name get_transform false tree ->
    method_of lang name get_transform root <> None ->
    ~ Forall (fun l => method_of lang name get_transform l <> None) (open_at_end evs) ->
    transform_text L A R Lang Name Arg lang name arg lang_is get_transform root (map fst evs) = None.
Proof.
  intros L A R Lang Name Arg lang name arg lang_is get_transform consume parse text root n evs r tree Hl Hr Hb Hq Hm Ho.
  assert (Hst : stream_ok L A [root] (map fst evs)) by (eapply run_stream_ok; [discriminate|exact Hr]).
  apply (proj2 (text_ok L A R Lang Name Arg lang name arg lang_is Hl get_transform root (map fst evs) tree Hst Hb Hq)); [|exact Hm].
  rewrite (replay_open L A consume parse text root n evs r Hr). exact Ho.
Qed.
Print Assumptions C43_raises_at_the_end.

(** ** Examples *)

(** Methods for the lexicons of [lang1] and the like that give the text, with the number of the lexicon before it, and 50 more
    than that after it.  Contexts that are not transformed give 100 and their text. *)
Definition ex_item (i : titem nat nat (list nat) nat) : list nat :=
  match i with
  | IToken t => k_text t
  | IObj _ r => r
  | IUntransformed c => 100 :: concat (map k_text (flatten c))
  end.
Definition ex_method (un : bool) (l : nat) : method nat nat (list nat) nat unit :=
  Method (fun il => l :: concat (map ex_item (il_items il)) ++ [50 + l]) un.
Definition ex_lang (l : nat) : unit := tt.
Definition ex_name (l : nat) : nat := l.
Definition ex_arg (l : nat) : unit := tt.
Definition ex_is (a b : unit) : bool := true.
Lemma ex_is_spec a b : ex_is a b = true <-> a = b.
Proof. destruct a, b. split; reflexivity. Qed.

(** Methods for all lexicons, and for lexicon 0 only. *)
Definition ex_all (_ : unit) : transform nat nat (list nat) nat unit := fun l => Some (ex_method false l).
Definition ex_zero (un : bool) (_ : unit) : transform nat nat (list nat) nat unit := fun l => if l =? 0 then Some (ex_method un l) else None.

Definition ex_text (gt : unit -> transform nat nat (list nat) nat unit) (text : str) : option (option (list nat)) :=
  transform_text nat nat (list nat) unit nat unit ex_lang ex_name ex_arg ex_is gt 0
    (map fst (fst (l_run no_consume parse1 text 20 (l_init [0] 0)))).
Definition ex_tree (text : str) : option (node nat nat) := build_tree 0 (map fst (fst (l_run no_consume parse1 text 20 (l_init [0] 0)))).
Definition ex_meaning (gt : unit -> transform nat nat (list nat) nat unit) (text : str) : option (option (list nat)) :=
  option_map (meaning ex_lang ex_name ex_arg gt) (ex_tree text).

(** The text a(b)c, with a method for both lexicons, and with a method for the root lexicon only. *)
Definition ex_abc : str := [97; 40; 98; 41; 99].
Example C43_example_all : ex_text ex_all ex_abc = Some (Some [0; 97; 40; 1; 98; 41; 51; 99; 50]) /\ ex_meaning ex_all ex_abc = Some (Some [0; 97; 40; 1; 98; 41; 51; 99; 50]).
Proof. vm_compute. auto. Qed.
Example C43_example_skip : ex_text (ex_zero false) ex_abc = Some (Some [0; 97; 40; 99; 50]) /\ ex_meaning (ex_zero false) ex_abc = Some (Some [0; 97; 40; 99; 50]).
Proof. vm_compute. auto. Qed.
Ltac each_once := apply once_distinct; intros k; cbn [cnt map list_sum fold_right]; repeat match goal with |- context [?a =? k] => destruct (Nat.eqb_spec a k) end; lia.
Example C43_example_hypotheses :
  let run := l_run no_consume parse1 ex_abc 20 (l_init [0] 0) in
  let itree := Ctx (0, 0) [Tok (Token 0 [97] 9 None); Tok (Token 1 [40] 1 None);
                           Ctx (1, 1) [Tok (Token 2 [98] 1 None); Tok (Token 3 [41] 3 None)]; Tok (Token 4 [99] 9 None)] in
  snd run = None /\ open_at_end (fst run) = [] /\ ex_tree ex_abc = Some (erase itree) /\ distinct itree
  /\ none_untransformed ex_lang ex_name (ex_zero false) false (erase itree).
Proof. do 3 (split; [vm_compute; reflexivity|]). split; [each_once|]. vm_compute. auto 10. Qed.

(** C43 does not hold: the text a(b ends in lexicon 1, which has no method. *)
Theorem C43_refuted :
  exists (gt : unit -> transform nat nat (list nat) nat unit) (text : str) evs tree,
    l_events no_consume parse1 text [0] 0 evs
    /\ build_tree 0 (map fst evs) = Some tree
    /\ (forall u l m, gt u l = Some m -> m_untransformed m = false)
    /\ meaning ex_lang ex_name ex_arg gt tree = Some [0; 97; 40; 50]
    /\ transform_text nat nat (list nat) unit nat unit ex_lang ex_name ex_arg ex_is gt 0 (map fst evs) = None.
Proof.
  exists (ex_zero false), [97; 40; 98]. do 2 eexists. split; [exists 20; vm_compute; reflexivity|]. split; [vm_compute; reflexivity|].
  split; [|split; vm_compute; reflexivity]. intros u l m H. unfold ex_zero in H. destruct (l =? 0); [|discriminate]. injection H as <-. reflexivity.
Qed.
Print Assumptions C43_refuted.

(** Lexicon 0 has [ (91) that enters lexicon 1; that has the open parenthesis (40) that enters lexicon 2, which has the closing one (41) that
    leaves.  All have a default action. *)
Definition ex_compiled (l : nat) : compiled nat nat :=
  match l with
  | 0 => Compiled [SRule (AStd 1) [RLex 1]] (StaticDA (AStd 9)) None None (lit_match [[91]] 0)
  | 1 => Compiled [SRule (AStd 2) [RLex 2]] (StaticDA (AStd 9)) None None (lit_match [[40]] 0)
  | _ => Compiled [SRule (AStd 3) [RInt (-1)%Z]] (StaticDA (AStd 9)) None None (lit_match [[41]] 0)
  end.
Definition ex_parse (l : nat) := lexicon_parse no_sublex l (ex_compiled l).
(** Methods for lexicons 0 and 1; the method for 1 asks for untransformed contexts. *)
Definition ex_two (_ : unit) : transform nat nat (list nat) nat unit :=
  fun l => match l with 0 => Some (ex_method false 0) | 1 => Some (ex_method true 1) | _ => None end.

(** C44 does not hold.  In the text [(b)c the method for lexicon 1 gets a context without the token b (the lexemes of the event that enters the
    context are lost), and the event after the context pops one level too many, so that the token c is given to the method for lexicon 0.  In
    the text a(b)c of [lang1] an exception is raised for the same reason. *)
Theorem C44_refuted :
  (exists text evs tree, l_events no_consume ex_parse text [0] 0 evs /\ build_tree 0 (map fst evs) = Some tree
     /\ meaning ex_lang ex_name ex_arg ex_two tree = Some [0; 91; 1; 40; 100; 98; 41; 99; 51; 50]
     /\ transform_text nat nat (list nat) unit nat unit ex_lang ex_name ex_arg ex_is ex_two 0 (map fst evs) = Some (Some [0; 91; 1; 40; 100; 41; 51; 99; 50]))
  /\ (exists text evs tree, l_events no_consume parse1 text [0] 0 evs /\ build_tree 0 (map fst evs) = Some tree
     /\ meaning ex_lang ex_name ex_arg (ex_zero true) tree = Some [0; 97; 40; 100; 98; 41; 99; 50]
     /\ transform_text nat nat (list nat) unit nat unit ex_lang ex_name ex_arg ex_is (ex_zero true) 0 (map fst evs) = None).
Proof.
  split.
  - exists [91; 40; 98; 41; 99]. do 2 eexists. split; [exists 20; vm_compute; reflexivity|]. split; [vm_compute; reflexivity|]. split; vm_compute; reflexivity.
  - exists ex_abc. do 2 eexists. split; [exists 20; vm_compute; reflexivity|]. split; [vm_compute; reflexivity|]. split; vm_compute; reflexivity.
Qed.
Print Assumptions C44_refuted.

(** C45. Every history of updates of the tree and of complete and interrupted runs of the transformer, for methods that do not look at the
    positions of tokens: the next complete run gives the meaning of the tree as it is then.
    Missing: methods that look at positions, see below.  [wf_children], [at_tokens] and [fresh] describe what a tree builder gives to
    [replace_tree]; a history ends when an update raises (C46). *)
Theorem C45_results_are_never_stale_partial :
  forall (L A R Lang Name Arg : Type) (lang : L -> Lang) (name : L -> Name) (arg : L -> Arg) (lang_is : Lang -> Lang -> bool)
         (get_transform : Lang -> transform L A R Name Arg) (l_eq : L -> L -> bool) (s : ustate L A R),
    (forall a b, lang_is a b = true <-> a = b) ->
    position_blind lang name get_transform ->
    history lang name arg lang_is get_transform l_eq s ->
    exists s', u_transform L A R Lang Name Arg lang name arg lang_is get_transform s None false = Some s'
      /\ u_tree s' = u_tree s /\ tc_result (u_cache s') = meaning lang name arg get_transform (erase (u_tree s)).
Proof.
  intros L A R Lang Name Arg lang name arg lang_is get_transform l_eq s Hl Hb H.
  destruct (history_run L A R Lang Name Arg lang name arg lang_is Hl get_transform l_eq Hb s H) as (ca & E).
  unfold u_transform, t_process. rewrite E. cbn [option_map]. eexists. split; [reflexivity|]. split; reflexivity.
Qed.
Print Assumptions C45_results_are_never_stale_partial.

(** C45, every single run: in any such history no run fails, and one that is interrupted leaves the result as it was. *)
Theorem C45_every_run_partial :
  forall (L A R Lang Name Arg : Type) (lang : L -> Lang) (name : L -> Name) (arg : L -> Arg) (lang_is : Lang -> Lang -> bool)
         (get_transform : Lang -> transform L A R Name Arg) (l_eq : L -> L -> bool) (s : ustate L A R) (intr : option nat) (done : bool),
    (forall a b, lang_is a b = true <-> a = b) ->
    position_blind lang name get_transform ->
    history lang name arg lang_is get_transform l_eq s ->
    exists s', u_transform L A R Lang Name Arg lang name arg lang_is get_transform s intr done = Some s'
      /\ u_tree s' = u_tree s
      /\ (tc_result (u_cache s') = tc_result (u_cache s) \/ tc_result (u_cache s') = meaning lang name arg get_transform (erase (u_tree s)))
      /\ (done = true -> tc_result (u_cache s') = tc_result (u_cache s)).
Proof.
  intros L A R Lang Name Arg lang name arg lang_is get_transform l_eq s intr done Hl Hb H.
  destruct (history_good L A R Lang Name Arg lang name arg lang_is Hl get_transform l_eq Hb s H) as (([id l] & cs & Ht) & Hd & Hr & Hc).
  destruct (tree_ok L A R Lang Name Arg lang name arg lang_is Hl get_transform (u_tree s) Hd (tc_nodes (u_cache s)) intr id l cs Ht (conj Hr Hc)) as (o & ca' & E & _ & _ & _ & E2).
  unfold u_transform, t_process. rewrite E. destruct o as [v|]; cbn [option_map]; eexists; (split; [reflexivity|]); (split; [reflexivity|]); cbn [u_cache tc_result].
  - destruct E2 as [-> _]. destruct done; [auto|]. split; [right; reflexivity|discriminate].
  - auto.
Qed.
Print Assumptions C45_every_run_partial.

(** *** A tree, and updates of it *)

Definition ex_tok (pos : nat) (text : str) : node (nat * nat) nat := Tok (Token pos text 0 None).
Definition ex_state (tree : node (nat * nat) nat) : ustate nat nat (list nat) := UState tree (TCache (fun _ => None) None).
Definition ex_run (gt : unit -> transform nat nat (list nat) nat unit) (s : ustate nat nat (list nat)) :=
  u_transform nat nat (list nat) unit nat unit ex_lang ex_name ex_arg ex_is gt s None false.
Notation ex_history gt := (history ex_lang ex_name ex_arg ex_is gt Nat.eqb).

(** The text abc, with c in lexicon 1, and abc in lexicon 1.  The context with number 1 is lexicon 1. *)
Definition ex_t1 := Ctx (0, 0) [ex_tok 0 [97]; ex_tok 1 [98]; Ctx (1, 1) [ex_tok 2 [99]]].
Definition ex_t2 := Ctx (0, 0) [Ctx (1, 1) [ex_tok 0 [97]; ex_tok 1 [98]; ex_tok 2 [99]]].
(** In the first an a is added to the token at the start, in the second the token b is replaced by bb. *)
Definition ex_r1 : bresult (nat * nat) nat := BResult (Ctx (9, 0) [ex_tok 0 [97; 97]]) 0 1 1%Z None [].
Definition ex_r2 : bresult (nat * nat) nat := BResult (Ctx (9, 0) [Ctx (10, 1) [ex_tok 1 [98; 98]]]) 1 2 1%Z None [].
(** And after that bb by b. *)
Definition ex_r3 : bresult (nat * nat) nat := BResult (Ctx (19, 0) [Ctx (20, 1) [ex_tok 1 [98]]]) 1 3 (-1)%Z None [].

Ltac ex_wf := split; cbn; [repeat (constructor; try discriminate)|split; repeat constructor; try discriminate; cbn; lia].
Lemma ex_wf1 : wf_children (children ex_t1).
Proof. ex_wf. Qed.
Lemma ex_wf2 : wf_children (children ex_t2).
Proof. ex_wf. Qed.
Lemma ex_fresh (s : ustate nat nat (list nat)) r k : (forall id, k <= id -> cnt _ _ id (u_tree s) = 0 /\ tc_nodes (u_cache s) id = None) ->
  (forall id, id < k -> cnt _ _ id (r_tree r) = 0) -> distinct (r_tree r) -> fresh s r.
Proof.
  intros H1 H2 Hd. split; [exact Hd|]. intros id Hid. apply has_cnt in Hid. destruct (Nat.le_gt_cases k id) as [Hk|Hk]; [|rewrite (H2 id Hk) in Hid; lia].
  destruct (H1 id Hk) as [H3 H4]. split; [|exact H4]. intros Hx. apply has_cnt in Hx. lia.
Qed.
Ltac ex_unfold := cbv [ex_t1 ex_t2 ex_r1 ex_r2 ex_r3 ex_tok r_tree children].
Ltac ex_once := ex_unfold; each_once.
Ltac nocnt := ex_unfold; intros; cbn [u_tree cnt map list_sum fold_right]; repeat match goal with |- context [?a =? ?b] => destruct (Nat.eqb_spec a b) end; try reflexivity; lia.
Ltac ex_at p q := split; [try (left; reflexivity); right; exists p; eexists; split; reflexivity
  |right; exists q; eexists; split; [reflexivity|]; split; [reflexivity|cbn; lia]].

(** C45, an instance: a complete run, an update that leaves context 1 in place, another run. *)
Lemma ex_all_blind : position_blind ex_lang ex_name ex_all.
Proof.
  intros l m a items items' Hm E. unfold method_of, ex_all in Hm. injection Hm as <-. cbn [ex_method m_call il_items]. do 2 f_equal.
  revert items' E. induction items as [|i items IH]; intros [|i' items'] E; try discriminate; [reflexivity|]. cbn [map concat] in *. injection E as E1 E2. rewrite (IH _ E2). f_equal.
  destruct i as [t|n o|c], i' as [t'|n' o'|c']; try discriminate; cbn [unplace_item ex_item] in *.
  - injection E1 as E1. exact E1.
  - injection E1 as _ ->. reflexivity.
  - injection E1 as E1. f_equal. assert (G : forall n : node nat nat, concat (map k_text (flatten (unplace n))) = concat (map k_text (flatten n))).
    { clear. intros n. induction n as [t|l cs IH] using node_ind'; [reflexivity|]. cbn [unplace]. rewrite !flatten_ctx. unfold flat. rewrite map_map.
      induction IH as [|x xs Hx _ IHx]; [reflexivity|]. cbn [map concat]. rewrite !map_app, !concat_app, Hx, IHx. reflexivity. }
    rewrite <- (G c), E1, (G c'). reflexivity.
Qed.
Example C45_example :
  exists s1 s2 s3, ex_run ex_all (ex_state ex_t1) = Some s1 /\ u_update Nat.eqb s1 ex_r1 = Some s2 /\ ex_run ex_all s2 = Some s3
    /\ ex_history ex_all s2 /\ position_blind ex_lang ex_name ex_all
    /\ tc_nodes (u_cache s2) 1 = Some [1; 99; 51]                      (* used again *)
    /\ tc_result (u_cache s3) = Some [0; 97; 97; 98; 1; 99; 51; 50].
Proof.
  eexists. eexists. eexists. split; [vm_compute; reflexivity|]. split; [vm_compute; reflexivity|]. split; [vm_compute; reflexivity|].
  split; [|split; [exact ex_all_blind|split; vm_compute; reflexivity]].
  eapply h_update with (r := ex_r1); [eapply (h_transform _ _ _ _ _ _ _ _ _ _ _ _ _ None false); [apply (h_start _ _ _ _ _ _ _ _ _ _ _ _ (0, 0) (children ex_t1))|vm_compute; reflexivity]| | | |vm_compute; reflexivity].
  - ex_once.
  - exact ex_wf1.
  - ex_at [0] [1].
  - apply (ex_fresh _ _ 9); [|nocnt|ex_once]. intros id Hid. split; [revert Hid; nocnt|]. cbn. destruct id as [|[|id]]; [lia|lia|reflexivity].
Qed.

(** C45 does not hold for methods that look at positions.  Here the method gives the positions of the tokens.  The result for context 1 is used
    again after its token has moved from position 2 to 3. *)
Definition ex_pos (_ : unit) : transform nat nat (list nat) nat unit :=
  fun l => Some (Method (fun il => concat (map (fun i => match i with IToken t => [k_pos t] | IObj _ r => r | IUntransformed _ => [] end) (il_items il))) false).
Theorem C45_refuted :
  exists s s', ex_history ex_pos s /\ ex_run ex_pos s = Some s'
    /\ tc_result (u_cache s') = Some [0; 2; 2] /\ meaning ex_lang ex_name ex_arg ex_pos (erase (u_tree s)) = Some [0; 2; 3].
Proof.
  assert (H : exists s1 s2, ex_run ex_pos (ex_state ex_t1) = Some s1 /\ u_update Nat.eqb s1 ex_r1 = Some s2 /\ ex_history ex_pos s2
     /\ option_map (fun s => tc_result (u_cache s)) (ex_run ex_pos s2) = Some (Some [0; 2; 2])
     /\ meaning ex_lang ex_name ex_arg ex_pos (erase (u_tree s2)) = Some [0; 2; 3]).
  { eexists. eexists. split; [vm_compute; reflexivity|]. split; [vm_compute; reflexivity|]. split; [|split; vm_compute; reflexivity].
    eapply h_update with (r := ex_r1); [eapply (h_transform _ _ _ _ _ _ _ _ _ _ _ _ _ None false); [apply (h_start _ _ _ _ _ _ _ _ _ _ _ _ (0, 0) (children ex_t1))|vm_compute; reflexivity]| | | |vm_compute; reflexivity].
    - ex_once.
    - exact ex_wf1.
    - ex_at [0] [1].
    - apply (ex_fresh _ _ 9); [|nocnt|ex_once]. intros id Hid. split; [revert Hid; nocnt|]. cbn. destruct id as [|[|id]]; [lia|lia|reflexivity]. }
  destruct H as (s1 & s2 & _ & _ & Hh & Hr & Hm). destruct (ex_run ex_pos s2) as [s3|] eqn:E; [|discriminate]. cbn [option_map] in Hr. injection Hr as Hr.
  exists s2, s3. auto.
Qed.
Print Assumptions C45_refuted.

(** C46. An update right after a complete run of the transformer does not raise, if the context that is changed and all its ancestors have a method.
    Missing: contexts without method, and updates without a complete run before them, see below. *)
Theorem C46_update_after_run_partial :
  forall (L A R Lang Name Arg : Type) (lang : L -> Lang) (name : L -> Name) (arg : L -> Arg) (lang_is : Lang -> Lang -> bool)
         (get_transform : Lang -> transform L A R Name Arg) (l_eq : L -> L -> bool) (s s1 : ustate L A R) (done : bool) r tree p,
    (forall a b, lang_is a b = true <-> a = b) ->
    position_blind lang name get_transform ->
    history lang name arg lang_is get_transform l_eq s ->
    u_transform L A R Lang Name Arg lang name arg lang_is get_transform s None done = Some s1 ->
    wf_children (children (u_tree s)) -> at_tokens (u_tree s) r ->
    replace_itree l_eq (u_tree s) r = Some tree ->
    invalid_path l_eq (u_tree s) r = Some p ->
    (forall q q' id l cs, p = q ++ q' -> node_at (u_tree s) q = Some (Ctx (id, l) cs) -> method_of lang name get_transform l <> None) ->
    exists s2, u_update l_eq s1 r = Some s2 /\ u_tree s2 = tree.
Proof.
  intros L A R Lang Name Arg lang name arg lang_is get_transform l_eq s s1 done r tree p Hl Hb H E Hwf Hat Er Ep Hm.
  exact (update_runs L A R Lang Name Arg lang name arg lang_is Hl get_transform l_eq Hb s s1 done r tree p H E Hwf Hat Er Ep Hm).
Qed.
Print Assumptions C46_update_after_run_partial.
Example C46_example :
  exists s1 s2, ex_run ex_all (ex_state ex_t2) = Some s1 /\ at_tokens ex_t2 ex_r2 /\ wf_children (children ex_t2)
    /\ invalid_path Nat.eqb ex_t2 ex_r2 = Some [0] /\ replace_itree Nat.eqb ex_t2 ex_r2 = Some (u_tree s2) /\ u_update Nat.eqb s1 ex_r2 = Some s2
    /\ tc_nodes (u_cache s1) 1 = Some [1; 97; 98; 99; 51] /\ tc_nodes (u_cache s2) 1 = None.
Proof.
  eexists. eexists. split; [vm_compute; reflexivity|]. split; [ex_at [0; 0] [0; 2]|]. split; [exact ex_wf2|]. split; [vm_compute; reflexivity|].
  split; [|split; [vm_compute; reflexivity|split; vm_compute; reflexivity]]. vm_compute. reflexivity.
Qed.

(** C46 does not hold: after a complete run, changing a context that has no method raises; and, with methods for everything, so does the second
    of two updates of a context when there was no complete run between them.  (Replacing the tree alone gives a tree in both cases.) *)
Theorem C46_refuted :
  (exists s r, ex_history (ex_zero false) s /\ (exists s0, ex_run (ex_zero false) s0 = Some s) /\ wf_children (children (u_tree s)) /\ at_tokens (u_tree s) r /\ fresh s r
     /\ replace_itree Nat.eqb (u_tree s) r <> None /\ u_update Nat.eqb s r = None)
  /\ (exists s r, ex_history ex_all s /\ wf_children (children (u_tree s)) /\ at_tokens (u_tree s) r /\ fresh s r
     /\ replace_itree Nat.eqb (u_tree s) r <> None /\ u_update Nat.eqb s r = None).
Proof.
  split.
  - eexists. exists ex_r2. split; [|split; [exists (ex_state ex_t2); vm_compute; reflexivity|]].
    + eapply (h_transform _ _ _ _ _ _ _ _ _ _ _ _ _ None false); [apply (h_start _ _ _ _ _ _ _ _ _ _ _ _ (0, 0) (children ex_t2)); ex_once|vm_compute; reflexivity].
    + split; [exact ex_wf2|]. split; [ex_at [0; 0] [0; 2]|]. split; [|split; [vm_compute; discriminate|vm_compute; reflexivity]].
      apply (ex_fresh _ _ 9); [|nocnt|ex_once]. intros id Hid. split; [revert Hid; nocnt|]. cbn. reflexivity.
  - eexists. exists ex_r3. split.
    + eapply h_update with (r := ex_r2); [eapply (h_transform _ _ _ _ _ _ _ _ _ _ _ _ _ None false); [apply (h_start _ _ _ _ _ _ _ _ _ _ _ _ (0, 0) (children ex_t2))|vm_compute; reflexivity]| | | |vm_compute; reflexivity].
      * ex_once.
      * exact ex_wf2.
      * ex_at [0; 0] [0; 2].
      * apply (ex_fresh _ _ 9); [|nocnt|ex_once]. intros id Hid. split; [revert Hid; nocnt|]. cbn. destruct id as [|[|id]]; [lia|lia|reflexivity].
    + split; [ex_wf|]. split; [ex_at [0; 0] [0; 2]|]. split; [|split; [vm_compute; discriminate|vm_compute; reflexivity]].
      apply (ex_fresh _ _ 19); [|nocnt|ex_once]. intros id Hid. split; [revert Hid; nocnt|]. cbn. destruct id as [|[|id]]; [lia|lia|reflexivity].
Qed.
Print Assumptions C46_refuted.
