(** C07-C13, C56-C58: the tree structure. *)
From Verif Require Import Base BaseFacts TargetModel TargetSpec LexerModel LexerSpec LexerProofs
  LexiconModel LexiconSpec LexiconProofs LexerExamples LexerTheorems Prop_Lexer
  TreeModel TreeSpec TreeProofs TreeWalkProofs TreeRangeProofs BuildModel BuildProofs TreeDeleteProofs.
From Coq Require Import ZArith ZifyBool.

(** C07. The tree built from the events of a run (a full run or the first steps of one):
    - written with brackets, it is what the events say: leave, enter, add tokens;
    - its tokens from left to right are the lexemes of all events, and the ancestor lexicons of
      each are [lexer.lexicons] at the moment the event was yielded;
    - no context below the root is empty and the tokens are in order, without overlap. *)
Theorem C07_tree_contains_the_lexemes :
  forall (L B : Type) (sublex : L -> str -> list (lexeme B)) (consume : L -> bool)
         (defs : L -> compiled L B) (text : str) (root : L) (n : nat) evs r,
    (forall l, match_ok (c_match (defs l)) text /\ wf_lexicon sublex (defs l) text) ->
    l_run consume (fun l => lexicon_parse sublex l (defs l)) text n (l_init [root] 0) = (evs, r) ->
    exists cs, build_tree root (map fst evs) = Some (Ctx root cs)
      /\ (exists k, words cs = concat (map event_word (map fst evs)) ++ repeat Exit k)
      /\ map (fun x => (fst x, lexeme_of (snd x))) (leaves [] (Ctx root cs))
         = concat (map (fun x => map (pair (snd x)) (e_lexemes (fst x))) evs)
      /\ wf_children cs.
Proof.
  intros L B sublex consume defs text root n evs r H Hr.
  assert (Hst : stream_ok L B [root] (map fst evs)) by (eapply run_stream_ok; [discriminate|exact Hr]).
  destruct (build_tree_ok L B root (map fst evs) Hst) as (cs & Hb & Hw & _).
  exists cs. split; [exact Hb|]. split; [eauto|].
  pose proof (build_leaves _ _ root _ _ _ Hw) as Hl.
  assert (Hseen : forall before x after, evs = before ++ x :: after ->
            snd x = follow (replay [root] (map fst before)) (e_target (fst x))).
  { intros before x after E.
    exact (proj1 (C02_events_replay_to_lexer_state _ _ consume _ text [root] 0 n evs r
                    ltac:(discriminate) Hr before x after E)). }
  split.
  - rewrite Hl. clear -Hseen.
    assert (G : forall after before, evs = before ++ after ->
      map (fun x => (fst x, lexeme_of (snd x))) (event_leaves L B (replay [root] (map fst before)) (map fst after))
      = concat (map (fun x => map (pair (snd x)) (e_lexemes (fst x))) after)).
    { induction after as [|x after IH]; intros before E; [reflexivity|].
      cbn [map event_leaves concat]. rewrite map_app. f_equal.
      - rewrite map_map. simpl. rewrite <- (Hseen _ _ _ E).
        rewrite <- (make_tokens_lexemes B (e_lexemes (fst x))) at 2. rewrite map_map. reflexivity.
      - specialize (IH (before ++ [x]) ltac:(rewrite <- app_assoc; exact E)).
        rewrite map_app, replay_app in IH. exact IH. }
    exact (G evs [] eq_refl).
  - split.
    + exact (build_full L B (map fst evs) cs _ [root] Hst Hw).
    + assert (Hfl : flat cs = map snd (leaves [] (Ctx root cs)))
        by (rewrite wleaves_flatten, flatten_ctx; reflexivity).
      apply (pieces_in_order B text (flat cs) 0 (length text)).
      rewrite Hfl, Hl, event_leaves_lexemes.
      apply (C03_lexemes_are_ordered_slices L B sublex consume defs text [root] 0 n evs r H
               ltac:(discriminate) (Nat.le_0_l _) Hr).
Qed.
Print Assumptions C07_tree_contains_the_lexemes.

(** The bracket word determines the tree. *)
Theorem C07_word_determines_tree : forall (L A : Type) (cs ds : list (node L A)), words cs = words ds -> cs = ds.
Proof. intros L A cs ds. apply words_inj. Qed.
Print Assumptions C07_word_determines_tree.

(** A small tree. *)
Definition tree1 : node nat nat :=
  Ctx 0 [Tok (Token 0 [99] 9 None); Tok (Token 1 [97; 98] 2 None); Tok (Token 3 [40] 1 None);
         Ctx 1 [Tok (Token 4 [40] 1 None); Tok (Token 5 [120] 1 None); Tok (Token 6 [41] 3 None)];
         Tok (Token 7 [41] 9 None); Tok (Token 8 [121] 9 None)].
Example C07_example : exists evs t, l_run no_consume parse1 text1 20 (l_init [0] 0) = (evs, None)
  /\ build_tree 0 (map fst evs) = Some t /\ length (flatten t) = 6 /\ height t = 2.
Proof. do 2 eexists. split; [vm_compute; reflexivity|]. split; [vm_compute; reflexivity|]. split; reflexivity. Qed.

Example tree1_wf : wf_children (children tree1).
Proof.
  split.
  - repeat constructor; discriminate.
  - split; simpl; repeat constructor; unfold k_end; simpl; try lia; discriminate.
Qed.

(** C08. The searches find the first or last token with the property in question, and the trails
    lead to it. *)
Theorem C08_find_token :
  forall (L A : Type) (l : L) (cs : list (node L A)) (pos : nat), wf_children cs ->
    find_token cs pos = Some (find (fun t => pos <? k_pos t + length (k_text t)) (flat cs))
    /\ find_token_left cs pos = Some (find_last (fun t => k_pos t <? pos) (flat cs))
    /\ find_token_after l cs pos = Some (find (fun t => pos <=? k_pos t) (flat cs))
    /\ find_token_before l cs pos = Some (find_last (fun t => k_pos t + length (k_text t) <=? pos) (flat cs)).
Proof.
  intros L A l cs pos Hwf. split; [|split; [|split]].
  - unfold find_token.
    assert (E : find (fun t => pos <? k_pos t + length (k_text t)) (flat cs)
                = sel_first A (fun t => k_end t <=? pos) (flat cs)).
    { unfold sel_first, k_end. induction (flat cs) as [|t ts IH]; [reflexivity|]. simpl.
      rewrite Nat.ltb_antisym. destruct (negb _); auto. }
    rewrite E. clear E.
    pose proof (find_with_trail_spec _ _ _ (c_find pos) cs (sel_first_ok A (fun t => k_end t <=? pos))
                  (fun cs H => c_find_pick _ _ pos cs H) Hwf) as H.
    unfold find_token_with_trail.
    destruct (sel_first A (fun t => k_end t <=? pos) (flat cs)) as [t|].
    + destruct H as (trail & -> & _). reflexivity.
    + rewrite H. reflexivity.
  - unfold find_token_left.
    change (find_last (fun t => k_pos t <? pos) (flat cs)) with (sel_last A (fun t => k_pos t <? pos) (flat cs)).
    pose proof (find_with_trail_spec _ _ _ (c_find_left pos) cs (sel_last_ok A (fun t => k_pos t <? pos))
                  (fun cs H => c_find_left_pick _ _ pos cs H) Hwf) as H.
    unfold find_token_left_with_trail.
    destruct (sel_last A (fun t => k_pos t <? pos) (flat cs)) as [t|].
    + destruct H as (trail & -> & _). reflexivity.
    + rewrite H. reflexivity.
  - apply (find_token_after_spec L A pos (size (Ctx l cs)) l); [lia|exact Hwf].
  - apply (find_token_before_spec L A pos (size (Ctx l cs)) l); [lia|exact Hwf].
Qed.
Print Assumptions C08_find_token.

Theorem C08_trails_lead_to_the_token :
  forall (L A : Type) (l : L) (cs : list (node L A)) (pos : nat) (t : tok A) (trail : list Z),
    wf_children cs ->
    (find_token_with_trail cs pos = Some (Some (t, trail)) ->
       find_token cs pos = Some (Some t)
       /\ Forall (fun i => 0 <= i)%Z trail /\ node_at (Ctx l cs) (map Z.to_nat trail) = Some (Tok t))
    /\ (find_token_left_with_trail cs pos = Some (Some (t, trail)) ->
       find_token_left cs pos = Some (Some t)
       /\ Forall (fun i => 0 <= i)%Z trail /\ node_at (Ctx l cs) (map Z.to_nat trail) = Some (Tok t)).
Proof.
  intros L A l cs pos t trail Hwf. split; intros E.
  - unfold find_token. rewrite E. split; [reflexivity|]. unfold find_token_with_trail in E.
    pose proof (find_with_trail_spec _ _ _ (c_find pos) cs (sel_first_ok A (fun t => k_end t <=? pos))
                  (fun cs H => c_find_pick _ _ pos cs H) Hwf) as H.
    destruct (sel_first A _ (flat cs)) as [u|]; [|rewrite H in E; discriminate].
    destruct H as (tr & E' & _ & H). rewrite E' in E. injection E as -> <-. split.
    + apply Forall_forall. intros z Hz. apply in_map_iff in Hz as (k & <- & _). lia.
    + rewrite <- (H l) at 1. f_equal. exact (nat_trail_nat tr).
  - unfold find_token_left. rewrite E. split; [reflexivity|]. unfold find_token_left_with_trail in E.
    pose proof (find_with_trail_spec _ _ _ (c_find_left pos) cs (sel_last_ok A (fun t => k_pos t <? pos))
                  (fun cs H => c_find_left_pick _ _ pos cs H) Hwf) as H.
    destruct (sel_last A _ (flat cs)) as [u|]; [|rewrite H in E; discriminate].
    destruct H as (tr & E' & _ & H). rewrite E' in E. injection E as -> <-. split.
    + apply Forall_forall. intros z Hz. apply in_map_iff in Hz as (k & <- & _). lia.
    + rewrite <- (H l) at 1. f_equal. exact (nat_trail_nat tr).
Qed.
Print Assumptions C08_trails_lead_to_the_token.

Example C08_example : wf_children (children tree1)
  /\ find_token_with_trail (children tree1) 4 = Some (Some (Token 4 [40] 1 None, [3; 0]%Z)).
Proof. split; [exact tree1_wf|reflexivity]. Qed.

(** C09. [find_context] gives the node at a path [q] such that the contexts that cover the position
    are exactly those on the way to it. *)
Theorem C09_find_context_innermost :
  forall (L A : Type) (l : L) (cs : list (node L A)) (pos : nat), wf_children cs ->
    exists q l' cs', find_context (Ctx l cs) pos = Some q /\ node_at (Ctx l cs) q = Some (Ctx l' cs')
      /\ forall p l2 cs2, p <> [] -> node_at (Ctx l cs) p = Some (Ctx l2 cs2) ->
           (covers pos (Ctx l2 cs2) <-> exists s, q = p ++ s).
Proof. intros L A l cs pos. apply find_context_innermost. Qed.
Print Assumptions C09_find_context_innermost.

Example C09_example : wf_children (children tree1) /\ find_context tree1 5 = Some [3].
Proof. split; [exact tree1_wf|reflexivity]. Qed.

(** C10. A range that lies in a gap between two contexts yields tokens that do not overlap it, in
    the wrong order. *)
Definition gap_tree : node nat nat :=
  Ctx 0 [Ctx 1 [Tok (Token 0 [1] 0 None); Tok (Token 1 [2] 0 None)]; Ctx 1 [Tok (Token 9 [3] 0 None)]].
Theorem C10_range_in_gap_refuted :
  exists (cs : list (node nat nat)) (start end_ : nat) r ts, wf_children cs /\ start < end_
    /\ range_from_tree (Ctx 0 cs) start (Some end_) = Some (Some r)
    /\ range_tokens (Ctx 0 cs) r = Some ts
    /\ filter (fun t => (start <? k_pos t + length (k_text t)) && (k_pos t <? end_)) (flat cs) = []
    /\ map k_pos ts = [9; 0; 1].
Proof.
  exists (children gap_tree), 4, 6. do 2 eexists. split.
  { split; [repeat constructor; discriminate|].
    split; simpl; repeat constructor; unfold k_end; simpl; try lia; discriminate. }
  split; [lia|]. split; [reflexivity|]. split; [reflexivity|]. split; reflexivity.
Qed.
Print Assumptions C10_range_in_gap_refuted.

(** What does hold: if at least one token overlaps the range, the range yields exactly the tokens
    that do. Missing for the full claim: the case without any token, see above. *)
Theorem C10_range_tokens_partial :
  forall (L A : Type) (l : L) (cs : list (node L A)) (start : nat) (end_ : option nat),
    let overlap t := (start <? k_pos t + length (k_text t))
                     && match end_ with None => true | Some e => k_pos t <? e end in
    wf_children cs ->
    match end_ with None => True | Some e => start < e end ->
    (exists t, In t (flat cs) /\ overlap t = true) ->
    exists r, range_from_tree (Ctx l cs) start end_ = Some (Some r)
      /\ range_tokens (Ctx l cs) r = Some (filter overlap (flat cs)).
Proof. intros L A l cs start end_ overlap. exact (range_ok L A l cs start end_). Qed.
Print Assumptions C10_range_tokens_partial.

Example C10_example : wf_children (children tree1) /\
  exists r ts, range_from_tree tree1 2 (Some 5) = Some (Some r) /\ range_tokens tree1 r = Some ts
  /\ map k_pos ts = [1; 3; 4].
Proof. split; [exact tree1_wf|]. do 2 eexists. split; [reflexivity|]. split; reflexivity. Qed.

(** C11. From the node at any path, [forward] and [backward] yield the tokens to the right and to
    the left of it, nearest first; upto a context only those within it. *)
Theorem C11_forward_backward :
  forall (L A : Type) (root : node L A) (path : list nat) (n : node L A),
    wf_children (children root) -> node_at root path = Some n ->
    exists f b, forward root path None = Some f /\ backward root path None = Some b
      /\ flatten root = rev b ++ flatten n ++ f
      /\ next_token root path = Some (hd_error f) /\ previous_token root path = Some (hd_error b).
Proof.
  intros L A root path n Hwf Hn. destruct (walk_root L A root path n Hwf Hn) as (f & b & Hf & Hb & E).
  exists f, b. unfold next_token, previous_token. rewrite Hf, Hb. auto.
Qed.
Print Assumptions C11_forward_backward.

Theorem C11_forward_backward_upto :
  forall (L A : Type) (root : node L A) (up path : list nat) (c n : node L A),
    wf_children (children root) -> node_at root up = Some c -> node_at c path = Some n -> path <> [] ->
    exists f b, forward root (up ++ path) (Some up) = Some f /\ backward root (up ++ path) (Some up) = Some b
      /\ flatten c = rev b ++ flatten n ++ f.
Proof. intros L A root up path c n. apply walk_upto. Qed.
Print Assumptions C11_forward_backward_upto.

(** Both ways of listing all tokens, and the index in the parent. *)
Theorem C11_tokens_and_parent_index :
  forall (L A : Type) (l : L) (cs : list (node L A)),
    c_tokens false l cs = Some (flat cs) /\ c_tokens true l cs = Some (rev (flat cs))
    /\ u_tokens false cs = Some (flat cs) /\ u_tokens true cs = Some (rev (flat cs))
    /\ (wf_children cs -> forall i, i < length cs -> parent_index cs i = Some i).
Proof.
  intros L A l cs. rewrite !c_tokens_spec, !u_tokens_spec. repeat split; auto.
  intros Hwf i Hi. apply parent_index_ok; assumption.
Qed.
Print Assumptions C11_tokens_and_parent_index.

(** Visiting: from the first token, taking the next token again and again gives all tokens. *)
Fixpoint visit (L A : Type) (next : tok A -> option (tok A)) (n : nat) (t : tok A) : list (tok A) :=
  match n with
  | 0 => [t]
  | S n => t :: match next t with None => [] | Some t' => visit L A next n t' end
  end.

Theorem C11_next_token_visits_all :
  forall (L A : Type) (l : L) (cs : list (node L A)) (next : tok A -> option (tok A)),
    wf_children cs ->
    (forall path t, node_at (Ctx l cs) path = Some (Tok t) -> next_token (Ctx l cs) path = Some (next t)) ->
    forall t ts, flat cs = t :: ts -> visit L A next (length ts) t = flat cs.
Proof.
  intros L A l cs next Hwf Hnext.
  assert (Hpath : forall t (n : node L A), In t (flatten n) -> exists path, node_at n path = Some (Tok t)).
  { intros t n. induction n as [u|l' cs' IH] using node_ind'; intros Hin.
    - destruct Hin as [->|[]]. exists []. reflexivity.
    - rewrite flatten_ctx in Hin. unfold flat in Hin. apply in_concat in Hin as (us & Hu & Ht).
      apply in_map_iff in Hu as (c & <- & Hc). rewrite Forall_forall in IH.
      destruct (IH c Hc Ht) as [path Hp]. apply In_nth_error in Hc as [i Hi].
      exists (i :: path). simpl. rewrite Hi. exact Hp. }
  assert (G : forall ts pre t, flat cs = pre ++ t :: ts -> visit L A next (length ts) t = t :: ts).
  { induction ts as [|u ts IH]; intros pre t E.
    - reflexivity.
    - simpl. f_equal.
      destruct (Hpath t (Ctx l cs)) as [path Hp];
        [rewrite flatten_ctx, E; apply in_or_app; right; left; reflexivity|].
      destruct (walk_root L A (Ctx l cs) path _ Hwf Hp) as (f & b & Hf & _ & Efl).
      rewrite flatten_ctx in Efl. simpl in Efl.
      destruct (split_unique A _ _ _ _ _ t (proj2 Hwf) E Efl) as [_ <-].
      specialize (Hnext _ _ Hp). unfold next_token in Hnext. rewrite Hf in Hnext. injection Hnext as <-. simpl.
      apply (IH (pre ++ [t])). rewrite <- app_assoc. exact E. }
  intros t ts E. rewrite E. apply (G ts [] t E).
Qed.
Print Assumptions C11_next_token_visits_all.

Example C11_example : wf_children (children tree1)
  /\ (exists f, forward tree1 [3; 1] None = Some f /\ map k_pos f = [6; 7; 8])
  /\ (exists b, backward tree1 [3; 1] None = Some b /\ map k_pos b = [4; 3; 1; 0]).
Proof. split; [exact tree1_wf|]. split; eexists; split; reflexivity. Qed.

(** The tokens with a group number in a tree built from events. *)
Lemma groups_of_built_tree :
  forall (L A : Type) (root : L) (evs : list (event L A)) (cs : list (node L A)) path l ds i t z,
    stream_ok L A [root] evs ->
    build_tree root evs = Some (Ctx root cs) -> wf_children cs ->
    node_at (Ctx root cs) path = Some (Ctx l ds) -> nth_error ds i = Some (Tok t) -> k_group t = Some z ->
    exists e g k, In e evs /\ g = make_tokens (e_lexemes e) /\ nth_error g k = Some t
      /\ get_group ds i z = Some (map Tok g)
      /\ get_group_start ds i z = option_map Tok (hd_error g)
      /\ get_group_end ds i z = option_map Tok (last_opt g).
Proof.
  intros L A root evs cs path l ds i t z Hst Hb Hwf Hp Hi Hz.
  destruct (build_tree_ok L A root evs Hst) as (cs' & Hb' & Hw & Hg). rewrite Hb in Hb'. injection Hb' as <-.
  pose proof (all_grouped_at _ _ _ _ _ Hg Hp) as Hgp. inversion Hgp as [|? ? Hgr _]; subst.
  destruct (token_in_group _ _ _ _ _ _ Hgr Hi Hz) as (pre & g & post & k & Eds & Hig & Hk & ->).
  assert (Hwd : wf_children ds).
  { assert (G : forall path cs l0, wf_children cs -> node_at (Ctx l0 cs) path = Some (Ctx l ds) -> wf_children ds).
    { clear. induction path as [|j path IH]; intros cs l0 Hwf Hp.
      - injection Hp as -> ->. exact Hwf.
      - simpl in Hp. destruct (nth_error cs j) as [c|] eqn:E; [|discriminate].
        pose proof (wf_node_child _ _ _ _ _ Hwf E) as Hc. destruct c as [u|lc dc].
        + destruct path as [|[] path]; discriminate.
        + apply (IH dc lc Hc Hp). }
    exact (G _ _ _ Hwf Hp). }
  destruct (get_group_ok L A ds g pre post k t Hwd Eds Hig Hk) as (z' & Hz' & H1 & H2 & H3).
  rewrite Hz in Hz'. injection Hz' as <-.
  assert (Hin : In g (map (fun e => make_tokens (e_lexemes e)) evs)).
  { pose proof (pre_suf L A _ _ _ Hp) as Efl. rewrite !flatten_ctx in Efl.
    rewrite Eds, !flat_app, flat_toks in Efl.
    apply (group_chunk A) with (x := pre_toks L A (Ctx root cs) path ++ flat pre)
                               (y := flat post ++ suf_toks L A (Ctx root cs) path); [| |exact Hig].
    - apply Forall_forall. intros ts Hts. apply in_map_iff in Hts as (e & <- & He).
      apply make_tokens_tchunk. clear -Hst He. revert Hst. generalize [root].
      induction evs as [|e' evs IH]; [destruct He|]. intros s (_ & H & Hs).
      destruct He as [->|He]; [exact H|exact (IH He _ Hs)].
    - transitivity (flat cs); [|rewrite Efl, <- !app_assoc; reflexivity].
      rewrite <- (flatten_ctx L A root), <- (wleaves_flatten L A), (build_leaves _ _ _ _ _ _ Hw).
      clear. generalize [root] as s. induction evs as [|e evs IH]; intros s; [reflexivity|].
      cbn [map concat event_leaves]. rewrite map_app, map_map. cbn [snd]. rewrite map_id, <- (IH (follow s (e_target e))). reflexivity. }
  apply in_map_iff in Hin as (e & <- & He). exists e, (make_tokens (e_lexemes e)), k. auto 10.
Qed.

(** C12. In a tree built from the events of any lexer run, for the token at index [i] of any
    context: if it has a group number, [get_group] is the list of the tokens made from one event,
    it includes the token itself, and start and end are its first and last. *)
Theorem C12_get_group :
  forall (L A : Type) (consume : L -> bool) (parse : L -> str -> nat -> gen (item L A))
         (text : str) (root : L) (n : nat) evs r (cs : list (node L A)) path l ds i t z,
    l_run consume parse text n (l_init [root] 0) = (evs, r) ->
    build_tree root (map fst evs) = Some (Ctx root cs) -> wf_children cs ->
    node_at (Ctx root cs) path = Some (Ctx l ds) -> nth_error ds i = Some (Tok t) -> k_group t = Some z ->
    exists e g k, In e (map fst evs) /\ map lexeme_of g = e_lexemes e /\ nth_error g k = Some t
      /\ get_group ds i z = Some (map Tok g)
      /\ get_group_start ds i z = option_map Tok (hd_error g)
      /\ get_group_end ds i z = option_map Tok (last_opt g).
Proof.
  intros L A consume parse text root n evs r cs path l ds i t z Hr Hb Hwf Hp Hi Hz.
  destruct (groups_of_built_tree L A root (map fst evs) cs path l ds i t z) as (e & g & k & H1 & H2 & H3 & H4);
    try assumption.
  - eapply run_stream_ok; [discriminate|exact Hr].
  - exists e, g, k. split; [exact H1|]. split; [rewrite H2; apply make_tokens_lexemes|]. auto.
Qed.
Print Assumptions C12_get_group.

(** "abcd": one match with the tokens a, b and cd in a new context, made from one match. *)
Definition group_parse (l : nat) (text : str) (pos : nat) : gen (item nat nat) := fun k =>
  if (pos =? 0) && (k =? 0) then Some (Item 0 text [Lexeme 0 [1] 5; Lexeme 1 [2] 6; Lexeme 2 [3; 4] 7] (Some (Target 0 [7])))
  else None.
Example C12_example :
  exists evs cs ds t, l_run (fun _ => true) group_parse [1; 2; 3; 4] 9 (l_init [0] 0) = (evs, None)
     /\ build_tree 0 (map fst evs) = Some (Ctx 0 cs) /\ wf_children cs
     /\ nth_error cs 0 = Some (Ctx 7 ds) /\ nth_error ds 1 = Some (Tok t) /\ k_group t = Some 1%Z.
Proof.
  do 4 eexists. split; [vm_compute; reflexivity|]. split; [vm_compute; reflexivity|].
  split; [|repeat split; reflexivity].
  split; [repeat constructor; discriminate|].
  split; simpl; repeat constructor; unfold k_end; simpl; try lia; discriminate.
Qed.

(** C13. The explicit-stack copy gives an equal tree for every context. *)
Theorem C13_copy_is_equal : forall (L A : Type) (l : L) (cs : list (node L A)), c_copy l cs = Some (Ctx l cs).
Proof. intros L A l cs. apply c_copy_ok. Qed.
Print Assumptions C13_copy_is_equal.
Example C13_example : c_copy 0 (children tree1) = Some tree1.
Proof. reflexivity. Qed.

(** C57. [height] is the longest distance to a descendant, when no sub-context is empty. *)
Theorem C57_height : forall (L A : Type) (l : L) (cs : list (node L A)), Forall full cs ->
  c_height l cs = Some (height (Ctx l cs)).
Proof. intros L A l cs. apply c_height_ok. Qed.
Print Assumptions C57_height.
Example C57_example : c_height 0 (children tree1) = Some 2.
Proof. reflexivity. Qed.

(** C56. Deleting the only token of a context that is not the first node of its parent deletes
    another node instead of the emptied context. *)
Theorem C56_delete_refuted :
  exists (cs cs' : list (node nat nat)) (path : list nat) (t u : tok nat),
    wf_children cs /\ node_at (Ctx 0 cs) path = Some (Tok t) /\ In u (flat cs) /\ u <> t
    /\ n_delete (Ctx 0 cs) path = Some (Ctx 0 cs')
    /\ ~ In u (flat cs') /\ ~ Forall full cs'.
Proof.
  exists [Tok (Token 0 [1] 0 None); Tok (Token 1 [2] 0 None); Ctx 1 [Tok (Token 2 [3] 0 None)]].
  exists [Tok (Token 1 [2] 0 None); Ctx 1 []], [2; 0], (Token 2 [3] 0 None), (Token 0 [1] 0 None). split; [|split; [|split; [|split; [|split]]]].
  - split; [repeat constructor; discriminate|].
    split; simpl; repeat constructor; unfold k_end; simpl; try lia; discriminate.
  - reflexivity.
  - left; reflexivity.
  - discriminate.
  - reflexivity.
  - split; [simpl; intros [H|[]]; discriminate|].
    intros HF. inversion HF as [|? ? _ HF1]; subst. inversion HF1 as [|? ? Hf _]; subst.
    inversion Hf; congruence.
Qed.
Print Assumptions C56_delete_refuted.

(** What does hold: when the parent has other children, exactly the node disappears. Missing: the
    case in which the parent becomes empty, see above. *)
Theorem C56_delete_partial :
  forall (L A : Type) (root n : node L A) (p : list nat) (i : nat) (l : L) (cs : list (node L A)),
    wf_children (children root) -> node_at root p = Some (Ctx l cs) -> nth_error cs i = Some n ->
    2 <= length cs ->
    exists root', n_delete root (p ++ [i]) = Some root'
      /\ exists u v, word root = u ++ word n ++ v /\ word root' = u ++ v.
Proof. intros L A root n p i l cs. apply delete_one. Qed.
Print Assumptions C56_delete_partial.
Example C56_example : wf_children (children tree1) /\ exists cs, node_at tree1 [3] = Some (Ctx 1 cs) /\ length cs = 3.
Proof. split; [exact tree1_wf|]. eexists. split; reflexivity. Qed.

(** C58. Siblings. *)
Theorem C58_siblings :
  forall (L A : Type) (cs : list (node L A)) (i : nat), wf_children cs -> i < length cs ->
    left_sibling cs i = Some (match i with 0 => None | S j => nth_error cs j end)
    /\ right_sibling cs i = Some (nth_error cs (i + 1))
    /\ left_siblings cs i = Some (rev (firstn i cs))
    /\ right_siblings cs i = Some (skipn (i + 1) cs).
Proof. intros L A cs i. apply siblings_ok. Qed.
Print Assumptions C58_siblings.
Example C58_example : wf_children (children tree1) /\ option_map (map n_pos) (left_siblings (children tree1) 3) = Some [3; 1; 0].
Proof. split; [exact tree1_wf|reflexivity]. Qed.
