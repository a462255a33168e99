From Verif Require Import Base BaseFacts TargetModel LexerModel LexerSpec LexiconModel LexiconSpec LexiconProofs.

Section Proofs.
Variables L B : Type.
Variable sublex : L -> str -> list (lexeme B).
Variable mat : bool -> str -> nat -> option mtch.
Variable needle : str.
Hypothesis Hlit : literal_match mat needle.
Hypothesis Hne : needle <> [].
Variable text : str.

Local Notation l := (length needle).
Local Notation M i := (Mtch i (i + length needle) 0 []).

Lemma l_pos : 0 < l.
Proof. destruct needle; [congruence|simpl; lia]. Qed.

Lemma scan_lit : forall fuel fuel' adv pos, length text + 1 - pos < fuel -> length text - pos < fuel' ->
  match find_from needle text fuel' pos with
  | None => scan mat text fuel adv pos = []
  | Some i => exists fuel2, scan mat text fuel adv pos = M i :: scan mat text fuel2 false (i + l)
                            /\ length text + 1 - (i + l) < fuel2
  end.
Proof.
  pose proof l_pos as Hl.
  induction fuel as [|fuel IH]; intros fuel' adv pos H1 H2; [lia|].
  destruct fuel' as [|fuel']; [lia|]. cbn [find_from scan].
  destruct (Nat.ltb_spec (length text) pos) as [Hgt|Hle].
  - destruct (Nat.ltb_spec (length text) (pos + l)); [reflexivity|lia].
  - rewrite Hlit. destruct (Nat.leb_spec (pos + l) (length text)) as [H3|H3].
    + destruct (Nat.ltb_spec (length text) (pos + l)); [lia|].
      destruct (str_eqb needle (slice text pos (pos + l))) eqn:E; simpl.
      * exists fuel. destruct (Nat.eqb_spec (pos + l) pos); [lia|]. split; [reflexivity|lia].
      * apply IH; lia.
    + destruct (Nat.ltb_spec (length text) (pos + l)); [|lia]. simpl.
      specialize (IH (S (length text)) false (S pos) ltac:(lia) ltac:(lia)).
      cbn [find_from] in IH. destruct (Nat.ltb_spec (length text) (S pos + l)); [exact IH|lia].
Qed.

Lemma find_from_fuel : forall fuel fuel' pos, length text - pos < fuel -> length text - pos < fuel' ->
  find_from needle text fuel pos = find_from needle text fuel' pos.
Proof.
  pose proof l_pos as Hl.
  induction fuel as [|fuel IH]; intros fuel' pos H1 H2; [lia|].
  destruct fuel' as [|fuel']; [lia|]. cbn [find_from].
  destruct (Nat.ltb_spec (length text) (pos + l)); [reflexivity|].
  destruct (str_eqb _ _); [reflexivity|]. apply IH; lia.
Qed.

Variables (self : L) (a : action L B) (t : list (ritem L)).
Hypothesis Hact : forall pos m, act_lexemes sublex text a pos needle (Some m) = act_lexemes sublex text a pos needle None.
Local Notation rules := [SRule a t].

Lemma token_lit i : needle = slice text i (i + l) ->
  token sublex self rules text (M i) = mk_item sublex text i needle None (Some a) (t_make self t).
Proof.
  intros E. unfold token. simpl. rewrite <- E. unfold mk_item.
  destruct needle as [|n nd] eqn:En; [congruence|]. rewrite Hact. reflexivity.
Qed.

Lemma gaps_lit da : da <> NoDA -> forall fuel fuel2 adv pos, length text - pos < fuel ->
  length text + 1 - pos < fuel2 ->
  gaps sublex self rules da text pos (scan mat text fuel2 adv pos)
  = fast_find sublex text needle da a (t_make self t) fuel pos.
Proof.
  intros Hda. pose proof l_pos as Hl.
  induction fuel as [|fuel IH]; intros fuel2 adv pos H1 H2; [lia|].
  cbn [fast_find]. unfold str_find.
  pose proof (scan_lit fuel2 (S (length text - pos)) adv pos H2 ltac:(lia)) as HS.
  destruct (find_from needle text (S (length text - pos)) pos) as [i|] eqn:Ef.
  - destruct HS as (fuel3 & -> & H3). apply find_from_spec in Ef. destruct Ef as (F1 & F2 & F3).
    cbn [gaps]. rewrite (token_lit i F3). rewrite (IH fuel3 false) by (simpl; lia).
    cbn [m_start m_end]. f_equal. destruct da; [congruence|reflexivity|reflexivity].
  - rewrite HS. cbn [gaps]. destruct da; [congruence|reflexivity|reflexivity].
Qed.

Lemma tokens_lit : forall fuel fuel2 adv pos, length text - pos < fuel ->
  length text + 1 - pos < fuel2 ->
  map (token sublex self rules text) (scan mat text fuel2 adv pos)
  = fast_find sublex text needle NoDA a (t_make self t) fuel pos.
Proof.
  pose proof l_pos as Hl.
  induction fuel as [|fuel IH]; intros fuel2 adv pos H1 H2; [lia|].
  cbn [fast_find]. unfold str_find.
  pose proof (scan_lit fuel2 (S (length text - pos)) adv pos H2 ltac:(lia)) as HS.
  destruct (find_from needle text (S (length text - pos)) pos) as [i|] eqn:Ef.
  - destruct HS as (fuel3 & -> & H3). apply find_from_spec in Ef. destruct Ef as (F1 & F2 & F3).
    cbn [map app]. rewrite (token_lit i F3). rewrite (IH fuel3 false) by (simpl; lia). reflexivity.
  - rewrite HS. reflexivity.
Qed.

Lemma slice_needle pos : needle = slice text pos (pos + l) -> pos + l <= length text.
Proof.
  intros E. pose proof l_pos. pose proof (f_equal (@length nat) E) as El. rewrite slice_length in El. lia.
Qed.

Lemma dt_lit dt : forall fuel pos k, length text - pos < fuel ->
  dt_gen sublex self rules mat dt text pos k = nth_error (fast_dt sublex text needle a (t_make self t) dt fuel pos) k.
Proof.
  pose proof l_pos as Hl.
  induction fuel as [|fuel IH]; intros pos k H; [lia|].
  destruct k as [|k]; cbn [dt_gen fast_dt]; rewrite Hlit;
    destruct (str_eqb needle (slice text pos (pos + l))) eqn:E.
  - apply str_eqb_spec in E. pose proof (slice_needle pos E).
    destruct (Nat.leb_spec (pos + l) (length text)); [|lia].
    cbn [andb nth_error]. rewrite (token_lit pos E). reflexivity.
  - rewrite andb_false_r. destruct (pos <? length text); reflexivity.
  - apply str_eqb_spec in E. pose proof (slice_needle pos E).
    destruct (Nat.leb_spec (pos + l) (length text)); [|lia].
    cbn [andb nth_error m_end]. apply IH. lia.
  - rewrite andb_false_r. destruct (pos <? length text); [|reflexivity].
    cbn [nth_error]. destruct k; reflexivity.
Qed.

Lemma parse_fast_regex (c : compiled L B) pos k :
  c_match c = mat -> c_rules c = rules ->
  parse_fast sublex self c needle a t text pos k = parse_regex sublex self c text pos k.
Proof.
  intros Hm Hr. unfold parse_fast, parse_regex, finditer. rewrite Hm, Hr.
  destruct (c_da c) as [|a0|f] eqn:Eda.
  - destruct (c_dt c) as [dt|].
    + symmetry. apply dt_lit. lia.
    + rewrite (tokens_lit (S (length text - pos))) by lia. reflexivity.
  - rewrite (gaps_lit (StaticDA a0) ltac:(discriminate) (S (length text - pos))) by lia. reflexivity.
  - rewrite (gaps_lit (DynDA f) ltac:(discriminate) (S (length text - pos))) by lia. reflexivity.
Qed.
End Proofs.
