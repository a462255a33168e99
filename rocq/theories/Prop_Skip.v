(** C110: characters that are skipped at a default target. *)
From Verif Require Import Base BaseFacts TargetModel LexerModel LexerSpec LexiconModel LexiconSpec LexerExamples LexerTheorems SkipSpec SkipProofs SkipLexiconProofs.
From Coq Require Import ZArith.

(** C110 says that a lexer that follows default targets skips a character only if it has come back to where it was before: the same
    lexicons at the same position.  It is false.  Lexicon 0 has lexicon 1 as default target; lexicon 1 has a default target that leaves
    it and enters lexicon 2; lexicon 2 knows the character.  The two targets are taken for a circle because after leaving there are as
    many lexicons as before, and one is entered; the character is skipped, and no event is ever yielded. *)
Definition lang_skip (l : nat) : compiled nat nat :=
  match l with
  | 0 => Compiled [] NoDA (Some (Target 0 [1])) None (lit_match [] 0)
  | 1 => Compiled [] NoDA (Some (Target 1 [2])) None (lit_match [] 0)
  | _ => Compiled [SRule (AStd 7) []] (StaticDA (AStd 9)) None (Some [120]) (lit_match [[120]] 0)
  end.
Theorem C110_skip_refuted :
  exists (defs : nat -> compiled nat nat) (text : str),
    let parse := fun l => lexicon_parse no_sublex l (defs l) in
    l_events no_consume parse text [0] 0 []
    /\ textless no_consume parse text [0] 0 0 [0] 0 /\ textless no_consume parse text [0] 0 1 [0; 1] 0
    /\ goes_on no_consume parse text [0] 0 2 1
    /\ parse 2 text 0 0 = Some (Item 0 text [Lexeme 0 text 7] None).
Proof.
  exists lang_skip, [120]. cbv zeta. split; [exists 3; reflexivity|].
  split; [do 4 eexists; repeat (split; [reflexivity|]); reflexivity|]. split; [do 4 eexists; repeat (split; [reflexivity|]); reflexivity|].
  split; [eexists; repeat split; reflexivity|reflexivity].
Qed.
Print Assumptions C110_skip_refuted.

(** It holds if every target that is taken without text either enters lexicons or leaves one lexicon, but not both.  For any rules,
    any regular expressions, also those that match without text, and any text. *)
Theorem C110_skip_partial :
  forall (L B : Type) (sublex : L -> str -> list (lexeme B)) (consume : L -> bool) (defs : L -> compiled L B) (text : str) (lexicons : list L) (pos : nat),
    let parse := fun l => lexicon_parse sublex l (defs l) in
    (forall l, match_ok (c_match (defs l)) text /\ wf_lexicon sublex (defs l) text) -> pos <= length text ->
    (forall l t, c_dt (defs l) = Some t -> simple_target t) ->
    (forall l p m t, c_match (defs l) false text p = Some m -> m_end m = p -> i_target (token sublex l (c_rules (defs l)) text m) = Some t -> simple_target t) ->
    forall n stack p q,
      textless consume parse text lexicons pos n stack p -> goes_on consume parse text lexicons pos (S n) q -> q <> p ->
      q = S p /\ exists m, m < n /\ textless consume parse text lexicons pos m stack p.
Proof.
  intros L B sublex consume defs text lexicons pos parse Hok Hpos Hdt Hru n stack p q.
  assert (Hag : forall l q k it t, q <= length text -> parse l text q k = Some it -> i_txt it = [] -> i_target it = Some t ->
    (rule_here L B sublex l (defs l) text (i_pos it) t \/ c_dt (defs l) = Some t) /\ parse l text (i_pos it) 0 = Some it).
  { intros l. exact (lexicon_again L B sublex l (defs l) text (proj1 (Hok l))). }
  apply (skip_in_circle L B consume parse text lexicons pos).
  - intros l q0. apply (defs_pieces L B sublex defs text Hok l q0).
  - intros l q0 k it t H1 H2 H3 H4. destruct (Hag l q0 k it t H1 H2 H3 H4) as [_ E]. exists it. auto.
  - intros l q0 k it t H1 H2 H3 H4. destruct (Hag l q0 k it t H1 H2 H3 H4) as [[(m & M1 & M2 & M3 & M4)|E] _]; [exact (Hru l _ m t M1 M3 M4)|exact (Hdt l t E)].
  - exact Hpos.
Qed.
Print Assumptions C110_skip_partial.

(** A language where characters are skipped: lexicon 0 enters 1 at unknown text, 1 leaves at unknown text; "x" is a token in 0, and 1 is left
    before "y" too, by a rule that matches no text. *)
Definition lang_circle (l : nat) : compiled nat nat :=
  match l with
  | 0 => Compiled [SRule (AStd 7) []] NoDA (Some (Target 0 [1])) None
           (fun adv text p => match skipn p text with 120 :: _ => Some (Mtch p (p + 1) 0 []) | _ => None end)
  | _ => Compiled [SRule (AStd 8) [RInt (-1)%Z]] NoDA (Some (Target 1 [])) None
           (fun adv text p => match skipn p text with 121 :: _ => if adv then None else Some (Mtch p p 0 []) | _ => None end)
  end.
Notation parse_circle := (fun l => lexicon_parse no_sublex l (lang_circle l)).
Lemma circle_match l adv text p m : c_match (lang_circle l) adv text p = Some m ->
  p < length text /\ m_rule m = 0 /\ m_groups m = [] /\ m_start m = p /\ ((l = 0 /\ m_end m = p + 1) \/ (l <> 0 /\ m_end m = p /\ adv = false)).
Proof.
  destruct l as [|l]; cbn [lang_circle c_match]; destruct (skipn p text) as [|x s] eqn:Es; try discriminate;
    assert (p < length text) by (apply (f_equal (@length nat)) in Es; rewrite skipn_length in Es; cbn [length] in Es; lia).
  - do 120 (destruct x as [|x]; [discriminate|]). destruct x; [|discriminate]. intros E. injection E as <-. cbn. auto 10.
  - do 121 (destruct x as [|x]; [discriminate|]). destruct x; [|discriminate]. destruct adv; [discriminate|]. intros E. injection E as <-. cbn. auto 10.
Qed.
Example C110_ex_meets text : (forall l, match_ok (c_match (lang_circle l)) text /\ wf_lexicon no_sublex (lang_circle l) text)
  /\ (forall l t, c_dt (lang_circle l) = Some t -> simple_target t)
  /\ (forall l p m t, c_match (lang_circle l) false text p = Some m -> m_end m = p -> i_target (token no_sublex l (c_rules (lang_circle l)) text m) = Some t -> simple_target t).
Proof.
  split; [|split].
  - intros l. split.
    + intros adv p m _ E. apply circle_match in E as (H1 & _ & _ & H2 & [(_ & H3)|(_ & H3 & ->)]); repeat split; try lia; discriminate.
    + split; [|split; [|split]].
      * intros adv p m _ E. apply circle_match in E as (H1 & H0 & -> & H2 & H3). rewrite H0. split; [destruct l; cbn; lia|cbn [groups_ok]; lia].
      * intros r m Hr. destruct l; cbn in Hr; destruct Hr as [<-|[]]; exact I.
      * intros t a. destruct l; discriminate.
      * intros H. destruct l; cbn in H; congruence.
  - intros [|l] t E; injection E as <-; [left; split; [reflexivity|discriminate]|right; split; reflexivity].
  - intros l p m t E He Ht. apply circle_match in E as (_ & H0 & _ & _ & [(_ & H3)|(Hl & _)]); [lia|]. destruct l as [|l]; [congruence|].
    unfold token in Ht. rewrite H0 in Ht. cbn in Ht. injection Ht as <-. right. split; reflexivity.
Qed.
(** In "zyx" the two first characters are skipped, each after a circle; then the token "x" is found. *)
Example C110_ex : textless no_consume parse_circle [122; 121; 120] [0] 0 0 [0] 0 /\ textless no_consume parse_circle [122; 121; 120] [0] 0 2 [0] 0
  /\ goes_on no_consume parse_circle [122; 121; 120] [0] 0 3 1
  /\ exists x, l_events no_consume parse_circle [122; 121; 120] [0] 0 [x] /\ e_lexemes (fst x) = [Lexeme 2 [120] 7].
Proof.
  split; [do 4 eexists; repeat (split; [reflexivity|]); reflexivity|]. split; [do 4 eexists; repeat (split; [reflexivity|]); reflexivity|].
  split; [eexists; repeat split; reflexivity|]. eexists. split; [exists 14; vm_compute; reflexivity|reflexivity].
Qed.
