(** C14, C15, C72, C73, C74: updating a tree after an edit. *)
From Verif Require Import Base BaseFacts TargetModel LexerModel LexerSpec TreeModel TreeSpec BuildModel LexiconModel LexiconSpec ChangesModel ChangesSpec
  RebuildModel RebuildSpec LocalLexiconSpec LocalLexiconProofs RebuildHistoryProofs
  ChangesProofs ArrivalSpec ArrivalProofs.
From Coq Require Import ZArith ZifyBool.

(** ** C14 *)

(** Every history of calls of [rebuild], with changed regions or new root lexicons: the tree and the open lexicons are at the
    end those found by tokenizing the last text from scratch.  [n] bounds the number of steps of the lexer on the texts. *)
Theorem C14_history :
  forall (L A : Type) (l_is l_eq : L -> L -> bool) (a_eq : A -> A -> bool) (consume : L -> bool)
      (parse : L -> str -> nat -> gen (item L A)) (K n : nat),
    (forall a b, l_is a b = true <-> a = b) -> (forall a, l_eq a a = true) -> (forall a b, a_eq a b = true <-> a = b) ->
    local_parse K parse -> K <= 9 ->
    forall (calls : list (call L)) (tb : builder L A) (l : L) (text : str),
    up_to_date consume parse n tb l text -> calls_ok consume parse l_eq n l text calls ->
    exists tb',
      run_calls (fun tb text rl s r a => process1 l_is l_eq a_eq consume (lex_events consume parse n) tb text rl s r a []) tb calls = Some tb'
      /\ up_to_date consume parse n tb' (fst (after_calls l text calls)) (snd (after_calls l text calls)).
Proof.
  intros L A l_is l_eq a_eq consume parse K n His Heq Hact HL HK calls tb l text.
  exact (history_updates L A l_is l_eq a_eq consume parse K His Heq Hact HL HK n calls tb l text).
Qed.
Print Assumptions C14_history.

(** The same for lexicons with rules: if the regular expression engine looks at most [K] characters ahead. *)
Theorem C14_lexicons :
  forall (L B : Type) (l_is l_eq : L -> L -> bool) (a_eq : B -> B -> bool) (consume : L -> bool)
      (sublex : L -> str -> list (lexeme B)) (comp : L -> compiled L B) (K n : nat),
    (forall a b, l_is a b = true <-> a = b) -> (forall a, l_eq a a = true) -> (forall a b, a_eq a b = true <-> a = b) ->
    (forall l, local_lexicon sublex K (comp l)) -> 1 <= K <= 9 ->
    let parse := fun l => lexicon_parse sublex l (comp l) in
    forall (calls : list (call L)) (tb : builder L B) (l : L) (text : str),
    up_to_date consume parse n tb l text -> calls_ok consume parse l_eq n l text calls ->
    exists tb',
      run_calls (fun tb text rl s r a => process1 l_is l_eq a_eq consume (lex_events consume parse n) tb text rl s r a []) tb calls = Some tb'
      /\ up_to_date consume parse n tb' (fst (after_calls l text calls)) (snd (after_calls l text calls)).
Proof.
  intros L B l_is l_eq a_eq consume sublex comp K n His Heq Hact Hloc HK parse calls tb l text.
  apply (C14_history L B l_is l_eq a_eq consume parse K n His Heq Hact); [|apply HK].
  apply local_lexicons; [apply HK|exact Hloc].
Qed.
Print Assumptions C14_lexicons.

(** A new tree builder, before the first text. *)
Theorem C14_initial :
  forall (L A : Type) (consume : L -> bool) (parse : L -> str -> nat -> gen (item L A)) (n : nat) (l : L),
    1 <= n -> parse l [] 0 0 = None -> up_to_date consume parse n (Builder (Ctx l []) 0 0 []) l [].
Proof. intros L A consume parse n l. exact (initial_updated L A consume parse 0 (Nat.le_0_l 9) n l). Qed.
Print Assumptions C14_initial.

(** ** C72: the reported range *)
Theorem C72_updated_range :
  forall (L A : Type) (l_is l_eq : L -> L -> bool) (a_eq : A -> A -> bool) (consume : L -> bool)
      (parse : L -> str -> nat -> gen (item L A)) (K n : nat),
    (forall a b, l_is a b = true <-> a = b) -> (forall a, l_eq a a = true) -> (forall a b, a_eq a b = true <-> a = b) ->
    local_parse K parse -> K <= 9 ->
    forall (tb : builder L A) (l : L) (old new : str) (start removed added : nat),
    up_to_date consume parse n tb l old -> covers_change old new start removed added -> lex_events consume parse n [l] new 0 <> None ->
    exists tb',
      process1 l_is l_eq a_eq consume (lex_events consume parse n) tb new None start removed added [] = Some tb'
      /\ up_to_date consume parse n tb' l new
      /\ updated_range new (Z.of_nat added - Z.of_nat removed) start added (children (tb_root tb)) (children (tb_root tb'))
           (tb_start tb') (tb_end tb').
Proof.
  intros L A l_is l_eq a_eq consume parse K n His Heq Hact HL HK tb l old new start removed added.
  exact (edit_updates L A l_is l_eq a_eq consume parse K His Heq Hact HL HK n tb l old new start removed added).
Qed.
Print Assumptions C72_updated_range.

(** ** A language that meets the conditions *)

(** Characters from 5 on are letters; a word is a sequence of letters.  1 opens a context, 2 closes it; 4 is white space, for
    which there is no rule, lexicon 1 has a default action. *)
Fixpoint run_length (t : str) : nat := match t with c :: t => if 5 <=? c then S (run_length t) else 0 | [] => 0 end.
Definition w_match (adv : bool) (text : str) (p : nat) : option mtch :=
  match skipn p text with
  | [] => None
  | c :: t => if 5 <=? c then Some (Mtch p (p + S (run_length t)) 2 [])
              else if c =? 1 then Some (Mtch p (p + 1) 0 []) else if c =? 2 then Some (Mtch p (p + 1) 1 []) else None
  end.
Definition w_lexicon (l : nat) : compiled nat nat :=
  Compiled [SRule (AStd 100) [RLex 1]; SRule (AStd 200) [RInt (-1)]; SRule (AStd 300) []]
    (if l =? 1 then StaticDA (AStd 400) else NoDA) None None w_match.
Definition no_sub (l : nat) (t : str) : list (lexeme nat) := [].
Definition w_parse (l : nat) := lexicon_parse no_sub l (w_lexicon l).
Definition no_consume (l : nat) := false.

Lemma run_length_le t : run_length t <= length t.
Proof. induction t as [|c t IH]; [apply le_n|]. cbn [run_length length]. destruct (5 <=? c); lia. Qed.
Lemma run_length_look t t' m : firstn m t = firstn m t' -> run_length t < m -> m <= length t -> run_length t' = run_length t.
Proof.
  revert t' m. induction t as [|c t IH]; intros t' [|m] H Hm Hl; cbn [run_length length] in *; try lia.
  destruct t' as [|c' t']; [discriminate|]. cbn [firstn] in H. injection H as <- H. cbn [run_length].
  destruct (5 <=? c); [|reflexivity]. f_equal. apply (IH t' m); [exact H|lia|lia].
Qed.
Lemma w_facts adv text p m : w_match adv text p = Some m -> p < length text /\ m_start m = p /\ p < m_end m <= length text /\ m_groups m = [] /\ m_rule m < 3.
Proof.
  unfold w_match. assert (Hl := skipn_length p text). destruct (skipn p text) as [|c t] eqn:E; [discriminate|]. cbn [length] in Hl.
  pose proof (run_length_le t). destruct (5 <=? c); [|destruct (c =? 1); [|destruct (c =? 2); [|discriminate]]]; intros [= <-]; cbn [m_start m_end m_groups m_rule]; repeat split; lia.
Qed.
Lemma w_suffix : match_suffix w_match.
Proof.
  intros adv text text' q q' Hq Hq' Hs. unfold w_match. rewrite <- Hs. destruct (skipn q text) as [|c t]; [reflexivity|].
  destruct (5 <=? c); [|destruct (c =? 1); [|destruct (c =? 2); [|reflexivity]]]; cbn [option_map]; unfold move_match, move_pos; cbn [m_start m_end m_rule m_groups map];
    do 2 f_equal; lia.
Qed.
Lemma w_look : match_look 1 w_match.
Proof.
  intros adv text text' p m Hp Hm Hf Hk. unfold w_match in *.
  assert (Hs : firstn (m - p) (skipn p text) = firstn (m - p) (skipn p text')).
  { rewrite !firstn_skipn_comm. replace (p + (m - p)) with m by lia. rewrite Hf. reflexivity. }
  assert (Hl := skipn_length p text). assert (Hl' := skipn_length p text').
  destruct (skipn p text) as [|c t] eqn:E; cbn [length] in Hl; [lia|]. destruct (skipn p text') as [|c' t'] eqn:E'; cbn [length] in Hl'.
  - exfalso. assert (m = p) by lia. subst m. destruct (5 <=? c); [|destruct (c =? 1); [|destruct (c =? 2)]]; cbn [m_end] in Hk; lia.
  - destruct (m - p) as [|d] eqn:Ed.
    { exfalso. destruct (5 <=? c); [|destruct (c =? 1); [|destruct (c =? 2)]]; cbn [m_end] in Hk; lia. }
    cbn [firstn] in Hs. injection Hs as <- Hs. destruct (5 <=? c); [|reflexivity]. cbn [m_end] in Hk.
    rewrite (run_length_look t t' d Hs); [reflexivity|lia|lia].
Qed.
Lemma w_local l : local_lexicon no_sub 1 (w_lexicon l).
Proof.
  assert (Hone : forall (b : nat) text lo hi, at_start text lo hi (act_lexemes no_sub text (AStd b) lo (slice text lo hi) None)).
  { intros b text lo hi. cbn [act_lexemes]. destruct (slice text lo hi); cbn; reflexivity || exact I. }
  split; cbn [w_lexicon c_match c_rules c_needle c_da].
  - intros text adv p m _ E. destruct (w_facts _ _ _ _ E) as (E1 & E2 & E3 & _). repeat split; lia.
  - intros text adv p m _ E. destruct (w_facts _ _ _ _ E) as (E1 & E2 & E3 & _). lia.
  - exact w_suffix.
  - exact w_look.
  - intros text. split; [|split; [|split]].
    + intros adv p m _ E. destruct (w_facts _ _ _ _ E) as (E1 & E2 & E3 & E4 & E5). cbn [c_match c_rules w_lexicon length] in *. split; [lia|]. rewrite E4. cbn [groups_ok]. lia.
    + intros r m [<-|[<-|[<-|[]]]]; exact I.
    + intros t a E. cbn [w_lexicon c_da] in E. destruct (l =? 1); [injection E as <-; exact I|discriminate].
    + intros H. exfalso. apply H. reflexivity.
  - intros text. split; [|split].
    + intros adv p m a _ E Ha _. unfold rule_action in Ha. cbn [w_lexicon c_rules] in Ha.
      destruct (w_facts _ _ _ _ E) as (_ & _ & _ & _ & E5).
      destruct (m_rule m) as [|[|[|j]]]; cbn [nth_error] in Ha; [| | |lia]; injection Ha as <-; cbn [act_lexemes]; destruct (slice text (m_start m) (m_end m)); cbn; auto.
    + intros i j a _ _ Ha. cbn [w_lexicon c_da] in Ha. destruct (l =? 1); [injection Ha as <-; apply Hone|discriminate].
    + intros needle a t i _ Hn. discriminate.
  - intros eval m txt d [H|[H|[H|[]]]]; discriminate.
  - intros needle a t Hn. discriminate.
Qed.

Notation w_process := (fun tb text rl s r a => process1 Nat.eqb Nat.eqb Nat.eqb no_consume (lex_events no_consume w_parse 100) tb text rl s r a []).

(** Three calls: the first text, an edit in the middle, another root lexicon. *)
Definition w_text1 : str := [10; 11; 4; 1; 12; 4; 13; 2; 14].
Definition w_text2 : str := [10; 11; 4; 1; 12; 15; 1; 13; 2; 14].
Definition w_calls : list (call nat) := [CEdit w_text1 0 0 9; CEdit w_text2 5 1 2; CRoot w_text2 1].
Example C14_ex_meets : up_to_date no_consume w_parse 100 (Builder (Ctx 0 []) 0 0 []) 0 [] /\ calls_ok no_consume w_parse Nat.eqb 100 0 [] w_calls.
Proof.
  split.
  - apply C14_initial; [lia|reflexivity].
  - cbn [calls_ok w_calls]. repeat split; try (vm_compute; lia); try (vm_compute; discriminate).
Qed.
Example C14_ex : exists tb',
  run_calls w_process (Builder (Ctx 0 []) 0 0 []) w_calls = Some tb'
  /\ up_to_date no_consume w_parse 100 tb' 1 w_text2.
Proof.
  assert (H : forall a b, (a =? b) = true <-> a = b) by (intros; apply Nat.eqb_eq).
  destruct C14_ex_meets as [H1 H2].
  exact (C14_lexicons nat nat Nat.eqb Nat.eqb Nat.eqb no_consume no_sub w_lexicon 1 100 H Nat.eqb_refl H w_local ltac:(lia) w_calls _ 0 [] H1 H2).
Qed.
(** The tree after the second call, and what was updated by it. *)
Example C72_ex :
  option_map (fun tb => (tb_root tb, tb_start tb, tb_end tb, tb_lexicons tb)) (run_calls w_process (Builder (Ctx 0 []) 0 0 []) [CEdit w_text1 0 0 9; CEdit w_text2 5 1 2])
  = Some (Ctx 0 [Tok (Token 0 [10; 11] 300 None); Tok (Token 3 [1] 100 None);
                 Ctx 1 [Tok (Token 4 [12; 15] 300 None); Tok (Token 6 [1] 100 None);
                        Ctx 1 [Tok (Token 7 [13] 300 None); Tok (Token 8 [2] 200 None)]; Tok (Token 9 [14] 300 None)]], 4, 10, [1]).
Proof. vm_compute. reflexivity. Qed.

(** ** C15 *)

(** C15 asks the same of every language.  It is false, also without lookbehind, and with matches that are never empty.  The
    rules: a quoted string (["[^"]*"]), a single quote ["], any other character.  After a quote and 14 other characters, a
    second quote is typed. *)
Fixpoint find_quote (t : str) : option nat :=
  match t with [] => None | c :: t => if c =? 34 then Some 0 else option_map S (find_quote t) end.
Definition q_match (adv : bool) (text : str) (p : nat) : option mtch :=
  match skipn p text with
  | [] => None
  | c :: t => if c =? 34 then match find_quote t with
                              | Some k => Some (Mtch p (p + k + 2) 0 [])
                              | None => Some (Mtch p (p + 1) 1 [])
                              end
              else Some (Mtch p (p + 1) 2 [])
  end.
Definition q_lexicon (l : nat) : compiled nat nat :=
  Compiled [SRule (AStd 10) []; SRule (AStd 11) []; SRule (AStd 12) []] NoDA None None q_match.
Lemma find_quote_lt t k : find_quote t = Some k -> k < length t.
Proof.
  revert k. induction t as [|c t IH]; intros k; [discriminate|]. cbn [find_quote length]. destruct (c =? 34); [intros [= <-]; lia|].
  destruct (find_quote t) as [j|]; [|discriminate]. intros [= <-]. specialize (IH j eq_refl). lia.
Qed.

Definition scratch (parse : nat -> str -> nat -> gen (item nat nat)) (l : nat) (text : str) : builder nat nat :=
  match lex_events no_consume parse 100 [l] text 0 with
  | Some (evs, fin) => match build_tree l evs with Some r => Builder r 0 0 (tl fin) | None => Builder (Ctx l []) 0 0 [] end
  | None => Builder (Ctx l []) 0 0 []
  end.
Ltac current := eexists; eexists; split; [vm_compute; reflexivity|split; vm_compute; reflexivity].
Ltac outdated := intros (evs & fin & H1 & H2 & H3); vm_compute in H1; injection H1 as <- <-; vm_compute in H2; vm_compute in H3; discriminate.

Theorem C15_refuted :
  exists (mat : bool -> str -> nat -> option mtch) (c : compiled nat nat) (old new : str) (start removed added : nat) (tb tb' : builder nat nat),
    let parse := fun l => lexicon_parse no_sub l c in
    c_match c = mat /\ (forall text, match_ok mat text /\ no_empty_match mat text) /\ match_suffix mat
    /\ covers_change old new start removed added
    /\ up_to_date no_consume parse 100 tb 0 old /\ lex_events no_consume parse 100 [0] new 0 <> None
    /\ process1 Nat.eqb Nat.eqb Nat.eqb no_consume (lex_events no_consume parse 100) tb new None start removed added [] = Some tb'
    /\ ~ up_to_date no_consume parse 100 tb' 0 new.
Proof.
  set (old := 34 :: repeat 97 14). set (c := q_lexicon 0). set (tb := scratch (fun l => lexicon_parse no_sub l c) 0 old).
  exists q_match, c, old, (old ++ [34]), 15, 0, 1, tb.
  destruct (process1 Nat.eqb Nat.eqb Nat.eqb no_consume (lex_events no_consume (fun l => lexicon_parse no_sub l c) 100) tb (old ++ [34]) None 15 0 1 []) as [tb'|] eqn:E;
    [|vm_compute in E; discriminate].
  exists tb'. cbv zeta. split; [reflexivity|]. split; [|split; [|split; [|split; [|split; [|split]]]]].
  - assert (H : forall text adv p m, p <= length text -> q_match adv text p = Some m -> m_start m = p /\ p < m_end m <= length text).
    { intros text adv p m Hp. unfold q_match. assert (Hl := skipn_length p text). destruct (skipn p text) as [|ch t]; [discriminate|]. cbn [length] in Hl.
      destruct (ch =? 34); [destruct (find_quote t) as [k|] eqn:Ek; [apply find_quote_lt in Ek|]|]; intros [= <-]; cbn [m_start m_end]; lia. }
    intros text. split.
    + intros adv p m Hp Em. destruct (H text adv p m Hp Em). repeat split; lia.
    + intros adv p m Hp Em. destruct (H text adv p m Hp Em). lia.
  - intros adv text text' q q' Hq Hq' Hs. unfold q_match. rewrite <- Hs. destruct (skipn q text) as [|ch t]; [reflexivity|].
    destruct (ch =? 34); [destruct (find_quote t)|]; cbn [option_map]; unfold move_match, move_pos; cbn [m_start m_end m_rule m_groups map]; do 2 f_equal; lia.
  - vm_compute. repeat split; lia.
  - current.
  - vm_compute. discriminate.
  - exact E.
  - vm_compute in E. injection E as <-. outdated.
Qed.
Print Assumptions C15_refuted.

(** Also not if all patterns are local, but an action skips the first subgroup: the rules [(a)(b)] with
    [bygroup(skip, B)], the same with [x] instead of [a] and a target, and any character.  The [a] is replaced by [x]. *)
Definition s_match (adv : bool) (text : str) (p : nat) : option mtch :=
  match skipn p text with
  | [] => None
  | [c] => Some (Mtch p (p + 1) 2 [])
  | c :: d :: _ => if (c =? 97) && (d =? 98) then Some (Mtch p (p + 2) 0 [Some (p, p + 1); Some (p + 1, p + 2)])
                   else if (c =? 120) && (d =? 98) then Some (Mtch p (p + 2) 1 [Some (p, p + 1); Some (p + 1, p + 2)])
                   else Some (Mtch p (p + 1) 2 [])
  end.
Definition s_lexicon : compiled nat nat :=
  Compiled [SRule (AGroups [ASkip; AStd 10]) []; SRule (AGroups [ASkip; AStd 10]) [RLex 1]; SRule (AStd 12) []] NoDA None None s_match.
Theorem C15_skip_refuted :
  exists (c : compiled nat nat) (old new : str) (start removed added : nat) (tb tb' : builder nat nat),
    let parse := fun l => lexicon_parse no_sub l c in
    match_suffix (c_match c) /\ match_look 1 (c_match c) /\ (forall text, wf_lexicon no_sub c text)
    /\ covers_change old new start removed added
    /\ up_to_date no_consume parse 100 tb 0 old /\ lex_events no_consume parse 100 [0] new 0 <> None
    /\ process1 Nat.eqb Nat.eqb Nat.eqb no_consume (lex_events no_consume parse 100) tb new None start removed added [] = Some tb'
    /\ ~ up_to_date no_consume parse 100 tb' 0 new.
Proof.
  set (tb := scratch (fun l => lexicon_parse no_sub l s_lexicon) 0 [97; 98; 99]).
  exists s_lexicon, [97; 98; 99], [120; 98; 99], 0, 1, 1, tb.
  destruct (process1 Nat.eqb Nat.eqb Nat.eqb no_consume (lex_events no_consume (fun l => lexicon_parse no_sub l s_lexicon) 100) tb [120; 98; 99] None 0 1 1 []) as [tb'|] eqn:E;
    [|vm_compute in E; discriminate].
  exists tb'. cbv zeta. split; [|split; [|split; [|split; [|split; [|split; [|split]]]]]].
  - intros adv text text' q q' Hq Hq' Hs. cbn [s_lexicon c_match]. unfold s_match. rewrite <- Hs. destruct (skipn q text) as [|ch [|dh t]]; [reflexivity| |].
    + cbn [option_map]; unfold move_match, move_pos; cbn [m_start m_end m_rule m_groups map]; do 2 f_equal; lia.
    + destruct ((ch =? 97) && (dh =? 98)); [|destruct ((ch =? 120) && (dh =? 98))]; cbn [option_map]; unfold move_match, move_span, move_pos; cbn [m_start m_end m_rule m_groups map];
        repeat (f_equal; try lia).
  - intros adv text text' p m Hp Hm Hf Hk. cbn [s_lexicon c_match] in *. unfold s_match in *.
    assert (Hs : firstn (m - p) (skipn p text) = firstn (m - p) (skipn p text')).
    { rewrite !firstn_skipn_comm. replace (p + (m - p)) with m by lia. rewrite Hf. reflexivity. }
    assert (Hl := skipn_length p text). assert (Hl' := skipn_length p text').
    destruct (skipn p text) as [|ch [|dh t]]; cbn [length] in Hl; [lia|cbn [m_end] in Hk; lia|].
    assert (Hm2 : p + 2 <= m) by (destruct ((ch =? 97) && (dh =? 98)); [|destruct ((ch =? 120) && (dh =? 98))]; cbn [m_end] in Hk; lia).
    destruct (m - p) as [|[|k]] eqn:Ek; [lia|lia|]. destruct (skipn p text') as [|ch' [|dh' t']]; cbn [length] in Hl'; [lia|lia|].
    cbn [firstn] in Hs. injection Hs as <- <- _. reflexivity.
  - intros text. split; [|split; [|split]].
    + intros adv p m Hp Em. cbn [s_lexicon c_match c_rules length] in *. unfold s_match in Em. destruct (skipn p text) as [|ch [|dh t]]; [discriminate| |].
      * injection Em as <-. cbn. lia.
      * destruct ((ch =? 97) && (dh =? 98)); [|destruct ((ch =? 120) && (dh =? 98))]; injection Em as <-; cbn; lia.
    + intros r m [<-|[<-|[<-|[]]]]; cbn [wf_action leaf_action]; repeat constructor.
    + intros t a H. discriminate.
    + intros H. exfalso. apply H. reflexivity.
  - vm_compute. repeat split; lia.
  - current.
  - vm_compute. discriminate.
  - exact E.
  - vm_compute in E. injection E as <-. outdated.
Qed.
Print Assumptions C15_skip_refuted.

(** ** C73: changes that come in while a new tree is built *)

(** C73 says that the tree then is the tree of the newest text.  It is false: when the builder starts again in the new tree,
    the last token that it has compared is removed, but the events that are read from then on come after that token.  Here all
    characters are tokens.  While the first 20 characters are read, those from 14 on are replaced by one. *)
Definition any_match (adv : bool) (text : str) (p : nat) : option mtch :=
  match skipn p text with [] => None | _ :: _ => Some (Mtch p (p + 1) 0 []) end.
Definition any_lexicon : compiled nat nat := Compiled [SRule (AStd 12) []] NoDA None None any_match.
Theorem C73_refuted :
  exists (old new1 new2 : str) (sched : list (list (entry nat))) (tb tb' : builder nat nat),
    let parse := fun l => lexicon_parse no_sub l any_lexicon in
    covers_change old new1 0 0 20 /\ covers_change new1 new2 14 6 1
    /\ concat sched = [Entry new2 None 14 6 1]
    /\ up_to_date no_consume parse 100 tb 0 old
    /\ process1 Nat.eqb Nat.eqb Nat.eqb no_consume (lex_events no_consume parse 100) tb new1 None 0 0 20 sched = Some tb'
    /\ ~ up_to_date no_consume parse 100 tb' 0 new2
    /\ map (fun t => k_pos t) (flat (children (tb_root tb'))) = seq 0 13 ++ [14].
Proof.
  set (new1 := seq 50 20). set (new2 := firstn 14 new1 ++ [99]). set (tb := Builder (@Ctx nat nat 0 []) 0 0 []).
  set (sched := repeat [] 15 ++ [[Entry new2 (@None (option nat)) 14 6 1]]).
  exists [], new1, new2, sched, tb.
  destruct (process1 Nat.eqb Nat.eqb Nat.eqb no_consume (lex_events no_consume (fun l => lexicon_parse no_sub l any_lexicon) 100) tb new1 None 0 0 20 sched) as [tb'|] eqn:E;
    [|vm_compute in E; discriminate].
  exists tb'. cbv zeta. split; [vm_compute; repeat split; lia|]. split; [vm_compute; repeat split; lia|]. split; [reflexivity|]. split; [current|]. split; [exact E|].
  vm_compute in E. injection E as <-. split; [outdated|vm_compute; reflexivity].
Qed.
Print Assumptions C73_refuted.

(** What holds: if every change comes in within the first 9 events after the start or after the last change, or if at most 11 tokens
    end before it, the tree is the tree of the text and root lexicon after all changes that came in while it was built ([arr1]).
    The others ([arr2]) are still pending, and are done in the next round (see C41).  If more edits than one come in after an
    event, none of them may start before the first (see C16). *)
Theorem C73_arrivals_partial :
  forall (L A : Type) (l_is l_eq : L -> L -> bool) (a_eq : A -> A -> bool) (consume : L -> bool)
      (parse : L -> str -> nat -> gen (item L A)) (K n : nat),
    (forall a b, l_is a b = true <-> a = b) -> (forall a, l_eq a a = true) -> (forall a b, a_eq a b = true <-> a = b) ->
    local_parse K parse -> K <= 9 ->
    forall (tb : builder L A) (l : L) (old new : str) (start removed added : nat) (arr : list (arrival L)),
    up_to_date consume parse n tb l old -> covers_change old new start removed added -> lex_events consume parse n [l] new 0 <> None ->
    arrivals_ok consume parse l_eq n l l new 0 arr ->
    exists arr1 arr2 tb',
      arr = arr1 ++ arr2
      /\ process1 l_is l_eq a_eq consume (lex_events consume parse n) tb new None start removed added (sched_of new arr) = Some tb'
      /\ changes_left l_is l_eq a_eq consume (lex_events consume parse n) tb new None start removed added (sched_of new arr)
         = Some (sched_of (snd (after_arrivals l new arr1)) arr2)
      /\ up_to_date consume parse n tb' (fst (after_arrivals l new arr1)) (snd (after_arrivals l new arr1)).
Proof.
  intros L A l_is l_eq a_eq consume parse K n His Heq Hact HL HK.
  exact (arrivals_update L A l_is l_eq a_eq consume parse K His Heq Hact HL HK n).
Qed.
Print Assumptions C73_arrivals_partial.

(** The same while a tree with another root lexicon is built. *)
Theorem C73_root_arrivals_partial :
  forall (L A : Type) (l_is l_eq : L -> L -> bool) (a_eq : A -> A -> bool) (consume : L -> bool)
      (parse : L -> str -> nat -> gen (item L A)) (K n : nat),
    (forall a b, l_is a b = true <-> a = b) -> (forall a, l_eq a a = true) -> (forall a b, a_eq a b = true <-> a = b) ->
    local_parse K parse -> K <= 9 ->
    forall (tb : builder L A) (l : L) (old : str) (l' : L) (new : str) (arr : list (arrival L)),
    up_to_date consume parse n tb l old -> (l_eq l' l = true -> l' = l) -> lex_events consume parse n [l'] new 0 <> None ->
    arrivals_ok consume parse l_eq n l l' new 0 arr ->
    exists arr1 arr2 tb',
      arr = arr1 ++ arr2
      /\ process1 l_is l_eq a_eq consume (lex_events consume parse n) tb new (Some l') 0 0 0 (sched_of new arr) = Some tb'
      /\ changes_left l_is l_eq a_eq consume (lex_events consume parse n) tb new (Some l') 0 0 0 (sched_of new arr)
         = Some (sched_of (snd (after_arrivals l' new arr1)) arr2)
      /\ up_to_date consume parse n tb' (fst (after_arrivals l' new arr1)) (snd (after_arrivals l' new arr1)).
Proof.
  intros L A l_is l_eq a_eq consume parse K n His Heq Hact HL HK.
  exact (arrivals_root L A l_is l_eq a_eq consume parse K His Heq Hact HL HK n).
Qed.
Print Assumptions C73_root_arrivals_partial.

(** While the change of C72_ex is handled two edits come in after the second event, another lexicon after one event more,
    and a last edit when all has been done. *)
Definition w_arr : list (arrival nat) :=
  [Quiet; Edits (Edit 5 0 [1]) [Edit 8 1 [2; 16]]; NewRoot [10; 1; 2; 12] 1 2 0 1; Quiet; Quiet; Quiet; Quiet; Quiet; Edits (Edit 0 1 []) []].
Example C73_ex_meets :
  up_to_date no_consume w_parse 100 (scratch w_parse 0 w_text1) 0 w_text1 /\ covers_change w_text1 w_text2 5 1 2
  /\ arrivals_ok no_consume w_parse Nat.eqb 100 0 0 w_text2 0 w_arr.
Proof.
  split; [current|]. split; [vm_compute; repeat split; lia|].
  cbn [arrivals_ok w_arr]. repeat split; try (vm_compute; lia); try (vm_compute; discriminate); try (left; lia).
  repeat constructor.
Qed.
Example C73_ex :
  option_map (fun tb => (tb_root tb, tb_start tb, tb_end tb, tb_lexicons tb))
    (process1 Nat.eqb Nat.eqb Nat.eqb no_consume (lex_events no_consume w_parse 100) (scratch w_parse 0 w_text1) w_text2 None 5 1 2 (sched_of w_text2 w_arr))
  = option_map (fun tb => (tb_root tb, 0, 4, tb_lexicons tb)) (Some (scratch w_parse 1 [10; 1; 2; 12]))
  /\ changes_left Nat.eqb Nat.eqb Nat.eqb no_consume (lex_events no_consume w_parse 100) (scratch w_parse 0 w_text1) w_text2 None 5 1 2 (sched_of w_text2 w_arr)
     = Some [[]; [Entry [1; 2; 12] None 0 1 0]].
Proof. vm_compute. split; reflexivity. Qed.

(** ** C74: another root lexicon *)

(** C74 says that the root gets the new lexicon.  It is false for a lexicon that is derived from the one in use, as those
    compare equal: 0 and 1 are derived from the same lexicon. *)
Theorem C74_refuted :
  exists (l_eq : nat -> nat -> bool) (text : str) (tb tb' : builder nat nat),
    let parse := fun l => lexicon_parse no_sub l any_lexicon in
    (forall a, l_eq a a = true) /\ up_to_date no_consume parse 100 tb 0 text
    /\ process1 Nat.eqb l_eq Nat.eqb no_consume (lex_events no_consume parse 100) tb text (Some 1) 0 0 0 [] = Some tb'
    /\ root_lex (tb_root tb') = Some 0.
Proof.
  exists (fun _ _ => true), [50; 51]. set (tb := scratch (fun l => lexicon_parse no_sub l any_lexicon) 0 [50; 51]). exists tb.
  destruct (process1 Nat.eqb (fun _ _ => true) Nat.eqb no_consume (lex_events no_consume (fun l => lexicon_parse no_sub l any_lexicon) 100) tb [50; 51] (Some 1) 0 0 0 []) as [tb'|] eqn:E;
    [|vm_compute in E; discriminate].
  exists tb'. cbv zeta. split; [reflexivity|]. split; [current|]. split; [exact E|]. vm_compute in E. injection E as <-. reflexivity.
Qed.
Print Assumptions C74_refuted.

(** It holds for any other lexicon, and then the whole tree is new. *)
Theorem C74_root_lexicon_partial :
  forall (L A : Type) (l_is l_eq : L -> L -> bool) (a_eq : A -> A -> bool) (consume : L -> bool)
      (parse : L -> str -> nat -> gen (item L A)) (K n : nat),
    (forall a b, l_is a b = true <-> a = b) -> (forall a, l_eq a a = true) -> (forall a b, a_eq a b = true <-> a = b) ->
    local_parse K parse -> K <= 9 ->
    forall (tb : builder L A) (l : L) (old : str) (l' : L) (new : str),
    up_to_date consume parse n tb l old -> (l_eq l' l = true -> l' = l) -> lex_events consume parse n [l'] new 0 <> None ->
    exists tb',
      process1 l_is l_eq a_eq consume (lex_events consume parse n) tb new (Some l') 0 0 0 [] = Some tb'
      /\ up_to_date consume parse n tb' l' new /\ tb_start tb' = 0 /\ tb_end tb' = length new.
Proof.
  intros L A l_is l_eq a_eq consume parse K n His Heq Hact HL HK tb l old l' new.
  exact (root_updates L A l_is l_eq a_eq consume parse K His Heq HL HK n tb l old l' new).
Qed.
Print Assumptions C74_root_lexicon_partial.
Example C74_ex : exists tb',
  w_process (scratch w_parse 0 w_text1) w_text2 (Some 1) 0 0 0 = Some tb' /\ up_to_date no_consume w_parse 100 tb' 1 w_text2 /\ root_lex (tb_root tb') = Some 1.
Proof.
  assert (H : forall a b, (a =? b) = true <-> a = b) by (intros; apply Nat.eqb_eq).
  destruct (C74_root_lexicon_partial nat nat Nat.eqb Nat.eqb Nat.eqb no_consume w_parse 1 100 H Nat.eqb_refl H
    (local_lexicons nat nat no_sub w_lexicon 1 (le_n 1) w_local) ltac:(lia) (scratch w_parse 0 w_text1) 0 w_text1 1 w_text2) as (tb' & E & Hu & _).
  - current.
  - discriminate.
  - vm_compute. discriminate.
  - exists tb'. split; [exact E|]. split; [exact Hu|]. vm_compute in E. injection E as <-. reflexivity.
Qed.
