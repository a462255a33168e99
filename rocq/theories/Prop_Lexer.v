(** C02-C06: the event stream of a lexer. *)
From Verif Require Import Base BaseFacts TargetModel TargetSpec LexerModel LexerSpec LexerProofs
  LexiconModel LexiconSpec LexiconProofs FastPathProofs ActionProofs LexerExamples LexerTheorems ParseProofs.

(** C02. For any parse functions whatsoever: an event [x] that is yielded after the events [before]
    has a target that never reaches the bottom lexicon, following it from the replayed stack gives
    exactly [lexer.lexicons] at that moment, and the root stays the same. *)
Theorem C02_events_replay_to_lexer_state :
  forall (L A : Type) (consume : L -> bool) (parse : L -> str -> nat -> gen (item L A))
         (text : str) (lexicons : list L) (pos n : nat) (evs : list (seen L A)) r,
    lexicons <> [] ->
    l_run consume parse text n (l_init lexicons pos) = (evs, r) ->
    forall before x after, evs = before ++ x :: after ->
      let stack := replay lexicons (map fst before) in
      snd x = follow stack (e_target (fst x))
      /\ keeps_root stack (e_target (fst x))
      /\ stack <> [] /\ hd_error stack = hd_error lexicons
      /\ snd x <> [] /\ hd_error (snd x) = hd_error lexicons.
Proof.
  intros L A consume parse text lexs pos n evs r Hl Hr before x after E stack.
  destruct (replay_hd L A consume parse text n lexs pos evs r Hl Hr before (x :: after) E) as [H1 H2].
  pose proof (proj1 (run_stack L A consume parse text n _ _ _ _ (stack_inv_start L lexs pos Hl) Hr) _ _ _ E) as H3.
  destruct (seen_ok_hd L A _ _ H1 H3) as [H4 H5]. fold stack in H1, H2, H4.
  destruct H3 as (H6 & H7 & _). repeat split; auto. congruence.
Qed.
Print Assumptions C02_events_replay_to_lexer_state.

Example C02_example : exists evs x, l_run cons1 parse1 text1 20 (l_init [0] 0) = (evs, None)
  /\ nth_error evs 2 = Some x /\ e_target (fst x) = Some (Target 0 [1]) /\ snd x = [0; 1] /\ length evs = 6.
Proof. do 2 eexists. split; [vm_compute; reflexivity|]. repeat split. Qed.

(** C03. Every prefix of the stream consists of events with at least one lexeme, and all lexemes
    together are consecutive pieces of the text after the start position. *)
Theorem C03_lexemes_are_ordered_slices :
  forall (L B : Type) (sublex : L -> str -> list (lexeme B)) (consume : L -> bool)
         (defs : L -> compiled L B) (text : str) (lexicons : list L) (pos n : nat) evs r,
    (forall l, match_ok (c_match (defs l)) text /\ wf_lexicon sublex (defs l) text) ->
    lexicons <> [] -> pos <= length text ->
    l_run consume (fun l => lexicon_parse sublex l (defs l)) text n (l_init lexicons pos) = (evs, r) ->
    pieces text pos (length text) (all_lexemes (map fst evs))
    /\ forall e, In e (map fst evs) -> e_lexemes e <> [].
Proof.
  intros L B sublex consume defs text lexs pos n evs r H Hl Hp Hr. split.
  - eapply run_pieces; [apply defs_pieces, H|apply low_inv_start, Hp|exact Hr].
  - intros e He. apply in_map_iff in He as (x & <- & Hx).
    apply in_split in Hx as (before & after & E).
    exact (proj2 (proj2 (proj1 (run_stack L B consume _ text n _ _ _ _ (stack_inv_start L lexs pos Hl) Hr) _ _ _ E))).
Qed.
Print Assumptions C03_lexemes_are_ordered_slices.

Lemma lit_match_ok words text : forall i, match_ok (lit_match words i) text.
Proof.
  induction words as [|w words IH]; intros i adv p m Hp E; [discriminate|].
  cbn [lit_match] in E. destruct (_ && _ && _) eqn:Ec.
  - injection E as <-. apply andb_prop in Ec as [Ec E3]. apply andb_prop in Ec as [E1 E2].
    apply Nat.leb_le in E1. simpl. do 3 (split; [lia|]). intros ->. simpl in E3.
    destruct w; [discriminate|simpl; lia].
  - apply (IH (S i) adv p m Hp E).
Qed.

Lemma lit_match_rule words text : forall i adv p m, lit_match words i adv text p = Some m ->
  m_groups m = [] /\ i <= m_rule m < i + length words
  /\ (Forall (fun w => w <> []) words -> m_start m < m_end m).
Proof.
  induction words as [|w words IH]; intros i adv p m E; [discriminate|].
  cbn [lit_match] in E. destruct (_ && _ && _) eqn:Ec.
  - injection E as <-. simpl. repeat split; try lia. intros HF. inversion HF; subst.
    destruct w; [congruence|simpl; lia].
  - destruct (IH _ _ _ _ E) as (H1 & H2 & H3). simpl. repeat split; try lia; auto.
    intros HF. inversion HF; subst. auto.
Qed.

Lemma lang1_ok text : forall l, match_ok (c_match (lang1 l)) text /\ wf_lexicon no_sublex (lang1 l) text
  /\ rules_ok (lang1 l) text /\ actions_sat no_sublex tiles (lang1 l) text
  /\ no_empty_match (c_match (lang1 l)) text /\ c_da (lang1 l) <> NoDA.
Proof.
  intros l.
  assert (Hm : match_ok (c_match (lang1 l)) text) by (destruct l; apply lit_match_ok).
  split; [exact Hm|]. split; [|split; [|split]].
  - split; [|split; [|split]].
    + intros adv p m Hp E. destruct (Hm _ _ _ Hp E) as (E1 & E2 & E3 & _).
      destruct l; apply lit_match_rule in E as (-> & H1 & _); simpl in *; (split; lia).
    + intros r m Hr. destruct l; simpl in Hr; repeat (destruct Hr as [<-|Hr]; [exact I|]); destruct Hr.
    + intros t a. destruct l; intros [= <-]; exact I.
    + intros _. destruct l; exact I.
  - intros adv p m Hp E. destruct l; apply lit_match_rule in E as (_ & H1 & _); simpl in *; lia.
  - apply std_tiles; [exact Hm| | |].
    + intros adv p m Hp E.
      destruct l; apply lit_match_rule in E as (_ & H1 & _); destruct (m_rule m) as [|[|k]]; simpl in *;
        solve [eauto | lia].
    + intros b t Hin. destruct l; simpl in Hin; repeat (destruct Hin as [[= <- <-]|Hin]; [eauto|]); destruct Hin.
    + intros t a. destruct l; intros [= <-]; eauto.
  - split; [|destruct l; discriminate].
    intros adv p m Hp E.
    destruct l; apply lit_match_rule in E as (_ & _ & H1); apply H1; repeat constructor; discriminate.
Qed.

Example C03_example : forall l, match_ok (c_match (lang1 l)) text1 /\ wf_lexicon no_sublex (lang1 l) text1.
Proof. intros l. destruct (lang1_ok text1 l) as (H1 & H2 & _). auto. Qed.

(** C04. If every lexicon has a default action, no rule matches the empty string, and the actions
    give back all the text they are applied to, then the stream ends, and the text of all lexemes
    joined is the text from the start position. *)
Theorem C04_default_action_lossless :
  forall (L B : Type) (sublex : L -> str -> list (lexeme B)) (consume : L -> bool)
         (defs : L -> compiled L B) (text : str) (lexicons : list L) (pos : nat),
    (forall l, match_ok (c_match (defs l)) text /\ rules_ok (defs l) text
       /\ actions_sat sublex tiles (defs l) text
       /\ no_empty_match (c_match (defs l)) text /\ c_da (defs l) <> NoDA) ->
    lexicons <> [] -> pos <= length text ->
    exists evs, l_events consume (fun l => lexicon_parse sublex l (defs l)) text lexicons pos evs
      /\ texts (all_lexemes (map fst evs)) = skipn pos text.
Proof. intros L B sublex consume defs text lexs pos. exact (defs_lossless L B sublex consume defs text lexs pos). Qed.
Print Assumptions C04_default_action_lossless.

Example C04_example : forall text l, match_ok (c_match (lang1 l)) text /\ rules_ok (lang1 l) text
       /\ actions_sat no_sublex tiles (lang1 l) text
       /\ no_empty_match (c_match (lang1 l)) text /\ c_da (lang1 l) <> NoDA.
Proof. intros text l. destruct (lang1_ok text l) as (H1 & H2 & H3 & H4 & H5 & H6). auto 10. Qed.

(** C05. A root lexicon whose default target leaves the lexicon never finishes a text with an
    unknown character: the stack stays [root], the position stays 0, no event is ever yielded. *)
Theorem C05_default_target_leaving_root_refuted :
  exists (defs : nat -> compiled nat nat) (text : str),
    (forall l, c_rules (defs l) = [] /\ c_da (defs l) = NoDA /\ c_dt (defs l) = Some (Target 1 [])) /\
    forall n, exists s,
      l_run (fun _ => false) (fun l => lexicon_parse (fun _ _ => []) l (defs l)) text n (l_init [0] 0) = ([], Some s)
      /\ length (s_lex s) <= 1 /\ s_pos s < length text.
Proof.
  exists lang2, [120]. split; [repeat split|]. intros n. destruct (lang2_hangs n) as (s & E & H).
  exists s. split; [exact E|]. apply andb_prop in H as [H1 H2].
  apply Nat.leb_le in H1. apply Nat.eqb_eq in H2. simpl. lia.
Qed.
Print Assumptions C05_default_target_leaving_root_refuted.

(** The same without ever trying to leave the root: five lexicons, only default targets. *)
Theorem C05_bounded_circle_refuted :
  exists (defs : nat -> compiled nat nat) (text : str),
    (forall l, c_rules (defs l) = [] /\ c_da (defs l) = NoDA) /\
    forall n, exists s,
      l_run (fun _ => false) (fun l => lexicon_parse (fun _ _ => []) l (defs l)) text n (l_init [0] 0) = ([], Some s)
      /\ length (s_lex s) <= 4 /\ s_pos s < length text
      /\ forall l t, last_opt (s_lex s) = Some l -> c_dt (defs l) = Some t -> t_pop t < length (s_lex s).
Proof.
  exists lang3, [120]. split; [repeat split|]. intros n. destruct (lang3_hangs n) as (s & E & H).
  exists s. split; [exact E|]. apply andb_prop in H as [H H3]. apply andb_prop in H as [H1 H2].
  apply Nat.leb_le in H1. split; [exact H1|]. split; [apply Nat.eqb_eq in H2; simpl; lia|].
  intros l t El Et. rewrite El, Et in H3. apply Nat.ltb_lt in H3. exact H3.
Qed.
Print Assumptions C05_bounded_circle_refuted.

(** What does hold: if the stack stays bounded, no text-less target occurs at the end of the text
    or is a no-op or reaches the root, and either all text-less targets open something or none
    opens more than one lexicon, then the lexer finishes. Missing for the full claim: exactly the
    situations of the two refutations above. *)
Theorem C05_circle_ends_partial :
  forall (L A : Type) (consume : L -> bool) (parse : L -> str -> nat -> gen (item L A))
         (text : str) (lexicons : list L) (pos bound : nat) (always_push : bool),
    (forall l p, p <= length text -> gen_pieces text p (parse l text p)) ->
    (forall l p, p <= length text -> exists k, parse l text p k = None) ->
    pos <= length text ->
    (forall n evs s, l_run consume parse text n (l_init lexicons pos) = (evs, Some s) ->
       length (s_lex s) <= bound) ->
    (forall n evs s l it t, l_run consume parse text n (l_init lexicons pos) = (evs, Some s) ->
       last_opt (s_lex s) = Some l -> parse l text (s_pos s) (s_idx s) = Some it ->
       i_txt it = [] -> i_target it = Some t ->
       i_pos it < length text /\ (t_push t <> [] \/ (0 < t_pop t /\ t_pop t < length (s_lex s)))
       /\ (if always_push then t_push t <> [] else length (t_push t) <= 1)) ->
    exists evs, l_events consume parse text lexicons pos evs.
Proof. exact circular_ends. Qed.
Print Assumptions C05_circle_ends_partial.

(** An instance with circles at two positions: all hypotheses hold. *)
Example C05_example : exists evs, l_events no_consume parse4 [97; 120; 121; 97] [0] 0 evs /\ length evs = 2.
Proof.
  destruct (C05_circle_ends_partial nat nat no_consume parse4 [97; 120; 121; 97] [0] 0 2 false) as [evs He].
  - intros l p Hp. apply defs_pieces with (defs := lang4); [|exact Hp]. clear l p Hp. intros l.
    assert (Hm : match_ok (c_match (lang4 l)) [97; 120; 121; 97]) by (destruct l; apply lit_match_ok).
    split; [exact Hm|]. split; [|split; [|split]].
    + intros adv p m Hp E. destruct (Hm _ _ _ Hp E) as (E1 & E2 & E3 & _).
      destruct l; apply lit_match_rule in E as (-> & H1 & _); simpl in *; (split; lia).
    + intros r m Hr. destruct l; simpl in Hr; repeat (destruct Hr as [<-|Hr]; [exact I|]); destruct Hr.
    + intros t a. destruct l; intros [=].
    + intros _. destruct l; exact I.
  - intros l p Hp. apply lexicon_finite; [destruct l; apply lit_match_ok|exact Hp|].
    left. intros adv q m Hq E.
    destruct l; apply lit_match_rule in E as (_ & _ & H1); apply H1; repeat constructor; discriminate.
  - simpl; lia.
  - intros n evs s E.
    pose proof (reach_check nat nat no_consume parse4 [97; 120; 121; 97]
      (fun s => length (s_lex s) <=? 2) 30 (l_init [0] 0) ltac:(vm_compute; reflexivity)) as H.
    apply Nat.leb_le. exact (H n evs s E).
  - intros n evs s l it t E El Ei Et Etg.
    pose proof (reach_check nat nat no_consume parse4 [97; 120; 121; 97]
      (fun s => match last_opt (s_lex s) with
        | Some l => match parse4 l [97; 120; 121; 97] (s_pos s) (s_idx s) with
          | Some it => match i_target it with
             | Some t => (i_pos it <? 4) && (negb (length (t_push t) =? 0) || ((0 <? t_pop t) && (t_pop t <? length (s_lex s))))
                         && (length (t_push t) <=? 1)
             | None => true end
          | None => true end
        | None => true end) 30 (l_init [0] 0) ltac:(vm_compute; reflexivity) n evs s E) as H.
    cbn beta in H. rewrite El, Ei, Etg in H.
    apply andb_prop in H as [H H3]. apply andb_prop in H as [H1 H2].
    apply Nat.ltb_lt in H1. apply Nat.leb_le in H3. split; [exact H1|]. split; [|exact H3].
    apply orb_prop in H2 as [H2|H2].
    + left. intros C. rewrite C in H2. discriminate.
    + right. apply andb_prop in H2 as [H2 H4]. apply Nat.ltb_lt in H2. apply Nat.ltb_lt in H4. auto.
  - exists evs. split; [exact He|].
    assert (He' : exists evs', l_events no_consume parse4 [97; 120; 121; 97] [0] 0 evs' /\ length evs' = 2).
    { eexists. split; [exists 30; vm_compute; reflexivity|reflexivity]. }
    destruct He' as (evs' & He' & Hl). rewrite (l_events_unique _ _ _ _ _ _ _ _ _ He He'). exact Hl.
Qed.

(** C06. For a lexicon with the single pattern standing for the string [needle]: the literal parse
    function yields, one by one, the same items as the one based on the regular expression. The
    action may be any action that does not look at the match object. *)
Theorem C06_literal_fast_path :
  forall (L B : Type) (sublex : L -> str -> list (lexeme B)) (self : L) (c : compiled L B)
         (needle : str) (a : action L B) (t : list (ritem L)) (text : str) (pos k : nat),
    literal_match (c_match c) needle -> needle <> [] ->
    c_rules c = [SRule a t] -> c_needle c = Some needle ->
    (forall p m, act_lexemes sublex text a p needle (Some m) = act_lexemes sublex text a p needle None) ->
    lexicon_parse sublex self c text pos k = parse_regex sublex self c text pos k.
Proof.
  intros L B sublex self c needle a t text pos k H1 H2 H3 H4 H5. unfold lexicon_parse. rewrite H3, H4.
  destruct needle as [|x needle]; [congruence|].
  exact (parse_fast_regex L B sublex (c_match c) (x :: needle) H1 H2 text self a t H5 c pos k eq_refl H3).
Qed.
Print Assumptions C06_literal_fast_path.

Example C06_example :
  c_needle (lang1 1) = Some [41] /\ literal_match (c_match (lang1 1)) [41]
  /\ parse1 1 [120; 41; 121; 121] 0 2 = Some (Item 2 [121; 121] [Lexeme 2 [121; 121] 2] None).
Proof.
  split; [reflexivity|]. split; [|vm_compute; reflexivity].
  intros adv text p. cbn [lang1 c_match lit_match].
  replace (adv && (length [41] =? 0)) with false by (destruct adv; reflexivity).
  rewrite andb_true_r. reflexivity.
Qed.

(** C59. What the lexer does with the next item of the current lexicon, in any reachable state. A
    lexeme-less or text-less item yields nothing; any other yields one event with the item's
    lexemes. The target is followed, without ever removing the root. The event belongs to the old
    lexicons, unless the lexicon that becomes current has [consume] set. Parsing goes on with the
    next item, or, after a target, at the end of the item's text; after a target without text it
    may go on one character further, to escape from a circle. If there is no next item, the stream
    ends. *)
Theorem C59_lexer_step :
  forall (L A : Type) (consume : L -> bool) (parse : L -> str -> nat -> gen (item L A))
         (text : str) (n : nat) (lexicons : list L) (pos : nat) evs s l,
    l_run consume parse text n (l_init lexicons pos) = (evs, Some s) ->
    last_opt (s_lex s) = Some l ->
    match parse l text (s_pos s) (s_idx s) with
    | None => l_run consume parse text (n + 1) (l_init lexicons pos) = (evs, None)
    | Some it =>
      exists more s', l_run consume parse text (n + 1) (l_init lexicons pos) = (evs ++ more, Some s')
      /\ s_lex s' = match i_target it with
                    | None => s_lex s
                    | Some t => firstn (Nat.max 1 (length (s_lex s) - t_pop t)) (s_lex s) ++ t_push t
                    end
      /\ (i_txt it = [] \/ i_lexemes it = [] -> more = [])
      /\ (i_txt it <> [] -> i_lexemes it <> [] -> exists tg, more = [(Event tg (i_lexemes it),
               match i_target it with
               | Some t => match last_opt (t_push t) with
                           | Some l' => if consume l' then s_lex s' else s_lex s
                           | None => s_lex s
                           end
               | None => s_lex s
               end)])
      /\ match i_target it with
         | None => s_pos s' = s_pos s /\ s_idx s' = S (s_idx s)
         | Some t => s_idx s' = 0 /\ (i_txt it <> [] -> s_pos s' = i_pos it + length (i_txt it))
                     /\ (i_txt it = [] -> s_pos s' = i_pos it \/
                           (s_pos s' = i_pos it + 1 /\ i_pos it < length text /\ t_push t <> []))
         end
    end.
Proof.
  intros L A consume parse text n lexs pos evs s l Hr Hl. destruct (parse l text (s_pos s) (s_idx s)) as [it|] eqn:Ep.
  - destruct (step_spec L A consume parse text n lexs pos evs s l it Hr Hl Ep) as (more & s' & H1 & H2 & H3 & H4).
    exists more, s'. split; [exact H1|]. split; [|split; [|split; [|exact H4]]].
    + rewrite H2. destruct (i_target it) as [t|]; [|reflexivity]. f_equal. f_equal.
      assert (Hlen : 1 <= length (s_lex s)) by (destruct (s_lex s); [discriminate|simpl; lia]).
      destruct (Nat.eqb_spec (t_pop t) 0); lia.
    + intros H. destruct H as [H|H]; rewrite H in H3; cbn [length Nat.eqb] in H3;
        [|rewrite orb_true_r in H3]; exact H3.
    + intros Ha Hb. destruct (i_txt it); [congruence|]. destruct (i_lexemes it); [congruence|]. exact H3.
  - rewrite (run_Some_app L A consume parse text n 1 _ _ _ Hr). cbn [l_run]. unfold l_step. rewrite Hl, Ep.
    simpl. rewrite app_nil_r. reflexivity.
Qed.
Print Assumptions C59_lexer_step.

Example C59_example : exists evs s it, l_run cons1 parse1 text1 2 (l_init [0] 0) = (evs, Some s)
  /\ last_opt (s_lex s) = Some 0 /\ parse1 0 text1 (s_pos s) (s_idx s) = Some it
  /\ i_target it = Some (Target 0 [1]) /\ i_txt it = [40].
Proof. do 3 eexists. split; [vm_compute; reflexivity|]. repeat split. Qed.

(** C60. What a lexicon yields. Every item is either a match of one of the patterns, with the
    action and the target (made for this lexicon) of the rule that matched, also when the rule is
    only evaluated at match time; or unmatched text with the default action; or the default target
    at a place without match. Between two items, and between the last item and the end of the
    text, no pattern matches. *)
Theorem C60_what_a_lexicon_yields :
  forall (L B : Type) (sublex : L -> str -> list (lexeme B)) (self : L) (c : compiled L B) (text : str) (pos : nat),
    match_ok (c_match c) text -> rules_ok c text -> pos <= length text ->
    (forall needle a t, c_needle c = Some needle -> c_rules c = [SRule a t] -> needle <> [] ->
       literal_match (c_match c) needle /\
       forall p m, act_lexemes sublex text a p needle (Some m) = act_lexemes sublex text a p needle None) ->
    let items := lexicon_parse sublex self c text pos in
    (forall k it, items k = Some it ->
       (from_match sublex self c text it \/ from_gap sublex c text it \/ from_default_target c text it)
       /\ forall e, before_item items pos k e -> e <= i_pos it /\ quiet (c_match c) text e (i_pos it))
    /\ (c_da c <> NoDA \/ c_dt c = None ->
        forall k e, items k = None -> before_item items pos k e -> quiet (c_match c) text e (S (length text))).
Proof. intros L B sublex self c text pos H1 H2 H3 H4. exact (lexicon_known L B sublex self c text pos H1 H2 H3 H4). Qed.
Print Assumptions C60_what_a_lexicon_yields.

Example C60_example : forall l, match_ok (c_match (lang1 l)) text1 /\ rules_ok (lang1 l) text1
  /\ forall needle a t, c_needle (lang1 l) = Some needle -> c_rules (lang1 l) = [SRule a t] -> needle <> [] ->
       literal_match (c_match (lang1 l)) needle /\
       forall p m, act_lexemes no_sublex text1 a p needle (Some m) = act_lexemes no_sublex text1 a p needle None.
Proof.
  intros l. destruct (lang1_ok text1 l) as (H1 & _ & H3 & _). split; [exact H1|]. split; [exact H3|].
  intros needle a t. destruct l; [discriminate|]. intros [= <-] [= <- <-] _. split; [|reflexivity].
  intros adv text p. cbn [lang1 c_match lit_match].
  replace (adv && (length [41] =? 0)) with false by (destruct adv; reflexivity).
  rewrite andb_true_r. reflexivity.
Qed.
