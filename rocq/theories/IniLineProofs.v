(** Runs of the lexer over the lines of an INI text, and the items for the transform. *)
From Verif Require Import Base BaseFacts TargetModel TargetSpec LexerModel LexerSpec TargetProofs LexerProofs LexiconModel LexiconSpec TreeModel TreeSpec TreeProofs BuildModel BuildProofs
  TransformModel TransformSpec TransformTextProofs MachineProofs GeneratorProofs IniModel IniSpec IniTextProofs IniRunProofs.
From Coq Require Import ZArith ZifyBool.

(** A piece of text that is followed by a match. *)
Lemma da_gap_match (L B : Type) sublex (self : L) (c : compiled L B) text : c_needle c = None -> c_rules c <> [] -> match_ok (c_match c) text -> c_da c <> NoDA ->
  forall pos a, pos < a <= length text -> (forall p, pos <= p < a -> c_match c false text p = None) -> c_match c false text a <> None ->
  lexicon_parse sublex self c text pos 0 = Some (da_item sublex text (c_da c) pos (slice text pos a))
  /\ forall j, lexicon_parse sublex self c text pos (S j) = lexicon_parse sublex self c text a j.
Proof.
  intros Hn Hr Hm Hda pos a H1 H2 H3. pose proof (finditer_gap L B c text Hm pos a ltac:(lia) H2) as E.
  destruct (c_match c false text a) as [m |] eqn:Em; [| congruence]. destruct (Hm false a m ltac:(lia) Em) as (E1 & _).
  destruct (finditer_any L B c text a m ltac:(lia) Em) as [ms E']. rewrite E' in E. split.
  - rewrite (da_is L B sublex self c text Hn Hr Hda), E. cbn [gaps]. rewrite E1. destruct (Nat.ltb_spec pos a); [| lia]. reflexivity.
  - intros j. rewrite !(da_is L B sublex self c text Hn Hr Hda), E, E'. cbn [gaps]. rewrite E1. destruct (Nat.ltb_spec pos a); [| lia].
    destruct (Nat.ltb_spec a a); [lia | reflexivity].
Qed.

(** ** Searching for a character *)

Lemma find_char c (n : str) : forall pre s fuel, ~ In c n -> length n < fuel ->
  find_from [c] (pre ++ n ++ c :: s) fuel (length pre) = Some (length (pre ++ n)).
Proof.
  induction n as [| x n IH]; intros pre s fuel Hn Hf; (destruct fuel as [| fuel]; [exfalso; cbn in Hf; lia |]); cbn [find_from].
  - cbn [app]. assert (E : (length (pre ++ c :: s) <? length pre + length [c]) = false) by (apply Nat.ltb_ge; rewrite app_length; cbn [length]; lia). rewrite E.
    replace (slice (pre ++ c :: s) (length pre) (length pre + length [c])) with [c].
    + rewrite (proj2 (str_eqb_spec [c] [c]) eq_refl). now rewrite app_nil_r.
    + symmetry. change (c :: s) with ([c] ++ s). rewrite <- app_length. apply slice_mid.
  - assert (E : (length (pre ++ (x :: n) ++ c :: s) <? length pre + length [c]) = false) by (apply Nat.ltb_ge; rewrite !app_length; cbn [length]; lia). rewrite E.
    replace (slice (pre ++ (x :: n) ++ c :: s) (length pre) (length pre + length [c])) with [x].
    + destruct (str_eqb [c] [x]) eqn:Ex; [apply str_eqb_spec in Ex; injection Ex as ->; exfalso; apply Hn; now left |].
      replace (S (length pre)) with (length (pre ++ [x])) by (rewrite app_length; cbn; lia).
      replace (pre ++ (x :: n) ++ c :: s) with ((pre ++ [x]) ++ n ++ c :: s) by now rewrite <- app_assoc.
      rewrite IH; [now rewrite <- app_assoc | intros H; apply Hn; now right | cbn in Hf; lia].
    + symmetry. change ((x :: n) ++ c :: s) with ([x] ++ n ++ c :: s). change (length [c]) with (length [x]). rewrite <- app_length. apply slice_mid.
Qed.
Lemma find_bound needle text fuel : forall pos i, find_from needle text fuel pos = Some i -> pos <= i /\ i + length needle <= length text.
Proof.
  induction fuel as [| fuel IH]; intros pos i; cbn [find_from]; [discriminate |].
  destruct (Nat.ltb_spec (length text) (pos + length needle)); [discriminate |].
  destruct (str_eqb _ _); [injection 1 as <-; lia |]. intros H1. apply IH in H1. lia.
Qed.
Lemma find_enough {L B} sublex text c da a t fuel : forall fuel' pos, length text - pos < fuel -> length text - pos < fuel' ->
  fast_find (L := L) (B := B) sublex text [c] da a t fuel pos = fast_find sublex text [c] da a t fuel' pos.
Proof.
  induction fuel as [| fuel IH]; intros fuel' pos H1 H2; [lia |]. destruct fuel' as [| fuel']; [lia |]. cbn [fast_find].
  destruct (str_find [c] text pos) as [i |] eqn:E; [| reflexivity]. apply find_bound in E. cbn [length] in *. do 2 f_equal. apply IH; lia.
Qed.

Section Lines.
Variable marks : str -> nat -> option (nat * nat).
Hypothesis Hmarks : marks_ok marks.
Variable odd : str -> option nat.
Variable text : str.
Notation i_compiled := (i_compiled marks).
Notation i_parse := (i_parse marks).
Notation i_pick := (i_pick marks).
Notation reach := (reach i_consume i_parse text).
Notation wrd := (list (sym ilex iact)).
Notation cfg := (cfg ilex iact).

(** ** Keys and values *)

Definition stop (s : str) : Prop := match s with [] => True | c :: _ => In c [91; 10; 59; 61; 35; 58] end.
Lemma stop_special c : In c [91; 10; 59; 61; 35; 58] -> i_plain c = false.
Proof. intros H. cbn in H. repeat destruct H as [<- | H]; try reflexivity. contradiction. Qed.
Lemma escape_at e c s : esc e c -> i_values_at (e ++ s) = Some (0, length e).
Proof.
  unfold i_values_at. intros [(-> & H1 & H2) | (x & h & -> & H1 & H2 & _)]; cbn [app i_escape Nat.eqb].
  - rewrite H1. reflexivity.
  - assert (Hx : i_escapable x = false) by (unfold i_x in H1; destruct (Nat.eqb_spec x 120) as [-> |]; [reflexivity |]; destruct (Nat.eqb_spec x 88) as [-> |]; [reflexivity | discriminate]).
    rewrite Hx, H1. assert (Hl : length h = 4) by (unfold i_hex4 in H2; lia).
    replace (firstn 4 (h ++ s)) with h by (rewrite <- Hl, firstn_app, firstn_all, Nat.sub_diag; cbn; now rewrite app_nil_r). rewrite H2. cbn [andb length]. now rewrite Hl.
Qed.
Lemma plain_at r s : plain_run r -> (match s with [] => True | c :: _ => i_plain c = false end) -> i_values_at (r ++ s) = Some (1, length r).
Proof.
  intros [Hne Hr] Hs. unfold i_values_at.
  assert (He : i_escape (r ++ s) = None).
  { destruct Hr as [| c r Hc Hr]; [congruence |]. cbn [app i_escape]. destruct (r ++ s) as [| d q]; [reflexivity |].
    destruct (Nat.eqb_spec c 92) as [-> |]; [discriminate | reflexivity]. }
  rewrite He, (span_app i_plain r s Hr Hs). destruct r; [congruence | reflexivity].
Qed.
Definition kv (l : ilex) : Prop := l = IKey \/ l = IValue.
Lemma pieces_run l ts t v : kv l -> pieces ts t v -> forall pre s w new circ, text = pre ++ t ++ s -> stop s ->
  exists toks, map k_text toks = ts /\
    reach (Cfg [IRoot; l] w new circ (length pre)) (Cfg [IRoot; l] (w ++ map Leaf toks) (match ts with [] => new | _ => 0 end) circ (length (pre ++ t))).
Proof.
  intros Hl. assert (Hns : l <> ISection) by (destruct Hl as [-> | ->]; discriminate).
  assert (Hpick : forall p, i_pick l false text p = i_values_at (skipn p text)) by (destruct Hl as [-> | ->]; reflexivity).
  induction 1 as [| r ts t v Hr Hp IH Hn | e c ts t v He Hp IH]; intros pre s w new circ E Hs.
  - exists []. split; [reflexivity |]. cbn. rewrite !app_nil_r. apply reach_refl.
  - rewrite <- app_assoc in E.
    assert (Ef : i_pick l false text (length pre) = Some (1, length r)).
    { rewrite Hpick, E, skipn_pre. apply plain_at; [exact Hr |]. destruct Hp as [| r' ts t v Hr' Hp _ | e c ts t v He Hp].
      - cbn [app]. destruct s as [| d s]; [exact I |]. apply stop_special. exact Hs.
      - rewrite (plain_escaped r' Hr') in Hn. discriminate.
      - apply esc_escaped in He. destruct e as [| x e]; [discriminate |]. cbn in *. destruct (Nat.eqb_spec x 92) as [-> |]; [reflexivity | discriminate]. }
    destruct (IH (pre ++ r) s (w ++ [Leaf (Token (length pre) r (match l with IKey => IIdent | _ => IData end) None)]) 0 circ) as (toks & H1 & H2); [rewrite E, <- app_assoc; reflexivity | exact Hs |].
    pose proof (step_item marks Hmarks text [IRoot] l pre r (t ++ s) 1 (match l with IKey => IIdent | _ => IData end) w new circ Hns E (proj1 Hr) Ef) as H0.
    exists (Token (length pre) r (match l with IKey => IIdent | _ => IData end) None :: toks). split; [cbn [map k_text]; now rewrite H1 |].
    eapply reach_trans; [exact (H0 ltac:(destruct Hl as [-> | ->]; reflexivity)) |]. eapply (reach_eq marks text); [exact H2 |]. cbn [map]. f_equal.
    + now rewrite <- app_assoc.
    + destruct ts; reflexivity.
    + now rewrite <- app_assoc.
  - rewrite <- app_assoc in E.
    assert (Ef : i_pick l false text (length pre) = Some (0, length e)) by (rewrite Hpick, E, skipn_pre; exact (escape_at e c _ He)).
    assert (Hne : e <> []) by (apply esc_escaped in He; destruct e; discriminate).
    destruct (IH (pre ++ e) s (w ++ [Leaf (Token (length pre) e IEscape None)]) 0 circ) as (toks & H1 & H2); [rewrite E, <- app_assoc; reflexivity | exact Hs |].
    pose proof (step_item marks Hmarks text [IRoot] l pre e (t ++ s) 0 IEscape w new circ Hns E Hne Ef) as H0.
    exists (Token (length pre) e IEscape None :: toks). split; [cbn [map k_text]; now rewrite H1 |].
    eapply reach_trans; [exact (H0 ltac:(destruct Hl as [-> | ->]; reflexivity)) |]. eapply (reach_eq marks text); [exact H2 |]. cbn [map]. f_equal.
    + now rewrite <- app_assoc.
    + destruct ts; reflexivity.
    + now rewrite <- app_assoc.
Qed.

(** ** Items *)

Definition items (ns : list (node ilex iact)) : list iitem :=
  concat (map (items_of (fun _ => tt) (fun l => l) (fun _ => tt) (fun _ : unit => i_methods odd) false) ns).
Lemma items_app a b : items (a ++ b) = items a ++ items b.
Proof. unfold items. now rewrite map_app, concat_app. Qed.
Lemma items_toks ts : items (map Tok ts) = map IToken ts.
Proof. unfold items. rewrite map_map. cbn. induction ts as [| t ts IH]; [reflexivity |]. cbn. now rewrite IH. Qed.
Lemma items_kv l cs : kv l -> items [Ctx l cs] = [IObj l (if existsb i_raised (items cs) then None else i_values odd (items cs))].
Proof. intros [-> | ->]; reflexivity. Qed.
Lemma items_section cs : items [Ctx ISection cs] = [IObj ISection (if existsb i_raised (items cs) then None else i_section odd (items cs))].
Proof. reflexivity. Qed.
Lemma toks_calm ts : existsb i_raised (map (IToken (L := ilex) (A := iact) (R := IR) (Name := ilex)) ts) = false.
Proof. induction ts as [| t ts IH]; [reflexivity | exact IH]. Qed.
Lemma texts_toks ts : texts_of (map IToken ts) = Some (map k_text ts).
Proof. induction ts as [| t ts IH]; [reflexivity |]. cbn. now rewrite IH. Qed.
Lemma kv_value l toks s : kv l -> join_all odd (strip_last (strip_first (map k_text toks))) = Some s -> items [Ctx l (map Tok toks)] = [IObj l (Some (VStr s))].
Proof. intros Hl H. rewrite (items_kv l _ Hl), items_toks, toks_calm. unfold i_values. now rewrite texts_toks, H. Qed.

Lemma words_one (n : node ilex iact) : words [n] = word n.
Proof. unfold words. cbn. apply app_nil_r. Qed.

Definition is_kv_tokens (l : ilex) (s : str) (n : node ilex iact) : Prop := exists toks, n = Ctx l (map Tok toks) /\ items [n] = [IObj l (Some (VStr s))].
(** A key at the start of a line. *)
Lemma key_run k t pre s w c : text_for k t -> t <> [] -> text = pre ++ t ++ s -> stop s -> before w (length pre) c ->
  exists n c', is_kv_tokens IKey k n /\ after (w ++ words [n]) (length (pre ++ t)) c' /\ reach c c'.
Proof.
  intros Hk Ht E Hs Hb. destruct (text_pieces k t Hk) as (ts & v & Hp & Hj).
  assert (Hlt : length pre < length text) by (rewrite E, !app_length; destruct t; [congruence | cbn; lia]).
  assert (Hroot : i_pick IRoot false text (length pre) = None).
  { cbn [IniModel.i_pick]. rewrite E, skipn_pre. destruct Hp as [| r ts t v Hr Hp _ | e x ts t v He Hp]; [congruence | |].
    - destruct Hr as [Hne Hr]. destruct Hr as [| x r Hx Hr]; [congruence |]. cbn [app]. unfold i_plain, i_special in Hx.
      destruct (Nat.eqb_spec x 91); [lia |]. destruct (Nat.eqb_spec x 59); [lia |]. destruct (Nat.eqb_spec x 35); [lia |]. destruct (Nat.eqb_spec x 61); [lia | reflexivity].
    - apply esc_escaped in He. destruct e as [| y e]; [discriminate |]. cbn in He. apply Nat.eqb_eq in He as ->. reflexivity. }
  destruct (enter_key marks text w _ c Hb Hlt Hroot) as (circ & Hc & H1).
  destruct (pieces_run IKey ts t v (or_introl eq_refl) Hp pre s (w ++ [Enter IKey]) 1 circ E Hs) as (toks & Et & H2).
  destruct ts as [| u ts]; [inversion Hp; congruence |].
  exists (Ctx IKey (map Tok toks)). eexists. split; [| split; [| exact (reach_trans _ _ _ _ _ _ _ _ H1 H2)]].
  - exists toks. split; [reflexivity |]. apply kv_value; [now left |]. rewrite Et. apply Hj.
  - exists circ. split.
    { eapply okc_le; [exact Hc |]. rewrite app_length. destruct t; [congruence | cbn; lia]. }
    right. exists IKey. eexists _, _. split; [now left |]. split; [reflexivity |]. left. split; [reflexivity |].
    rewrite words_one, word_ctx, words_toks. now rewrite <- !app_assoc.
Qed.
Lemma root_pick pre x s : text = pre ++ x :: s ->
  i_pick IRoot false text (length pre) = (if x =? 91 then Some (0, 1) else if (x =? 59) || (x =? 35) then Some (1, 1) else if x =? 61 then Some (2, 1) else None).
Proof. intros E. cbn [IniModel.i_pick]. rewrite E, skipn_pre. reflexivity. Qed.
Lemma key_pick pre x s : text = pre ++ x :: s -> In x [91; 10; 59; 61; 35; 58] -> i_pick IKey false text (length pre) = None.
Proof. intros E Hx. cbn [IniModel.i_pick]. rewrite E, skipn_pre. now apply values_none. Qed.
Lemma enter_run pre x s i a l w c : text = pre ++ x :: s -> In x [91; 10; 59; 61; 35; 58] -> i_pick IRoot false text (length pre) = Some (i, 1) ->
  nth_error (i_rules IRoot) i = Some (SRule (AStd a) [RLex l]) -> after w (length pre) c ->
  reach c (Cfg [IRoot; l] ((w ++ [Leaf (Token (length pre) [x] a None)]) ++ [Enter l]) 1 [] (length (pre ++ [x]))).
Proof.
  intros E Hx Hi Ha Hc. assert (Hlt : length pre < length text) by (rewrite E, app_length; cbn; lia).
  destruct (to_root marks text w _ c Hc Hlt (key_pick pre x s E Hx)) as (circ & _ & H1).
  eapply reach_trans; [exact H1 |]. exact (step_enter marks Hmarks text pre x s i a l w circ E Hi Ha).
Qed.
Lemma value_run v t pre s w : text_for v t -> t <> [] -> text = pre ++ t ++ s -> stop s ->
  exists n c', is_kv_tokens IValue v n /\ after (w ++ words [n]) (length (pre ++ t)) c' /\ reach (Cfg [IRoot; IValue] (w ++ [Enter IValue]) 1 [] (length pre)) c'.
Proof.
  intros Hv Ht E Hs. destruct (text_pieces v t Hv) as (ts & x & Hp & Hj).
  destruct (pieces_run IValue ts t x (or_intror eq_refl) Hp pre s (w ++ [Enter IValue]) 1 [] E Hs) as (toks & Et & H2).
  destruct ts as [| u ts]; [inversion Hp; congruence |].
  exists (Ctx IValue (map Tok toks)). eexists. split; [| split; [| exact H2]].
  - exists toks. split; [reflexivity |]. apply kv_value; [now right |]. rewrite Et. apply Hj.
  - exists []. split; [apply okc_nil |]. right. exists IValue. eexists _, _. split; [now right |]. split; [reflexivity |]. left. split; [reflexivity |].
    rewrite words_one, word_ctx, words_toks. now rewrite <- !app_assoc.
Qed.

(** ** Sections *)

Lemma section_parse pre n s : text = pre ++ n ++ 93 :: s -> ~ In 93 n ->
  (n <> [] -> i_parse ISection text (length pre) 0 = Some (Item (length pre) n [Lexeme (length pre) n INamespace] None)
              /\ forall j, i_parse ISection text (length pre) (S j) = i_parse ISection text (length (pre ++ n)) j)
  /\ i_parse ISection text (length (pre ++ n)) 0 = Some (Item (length (pre ++ n)) [93] [Lexeme (length (pre ++ n)) [93] IEnd] (Some (Target 1 []))).
Proof.
  intros E Hn.
  assert (F : forall p, i_parse ISection text p = nth_error (fast_find (L := ilex) (fun _ _ => []) text [93] (StaticDA (AStd INamespace)) (AStd IEnd) (Some (Target 1 [])) (S (length text - p)) p)) by reflexivity.
  assert (Hq : length (pre ++ n) < length text) by (rewrite E, !app_length; cbn; lia).
  assert (Ff : str_find [93] text (length (pre ++ n)) = Some (length (pre ++ n))).
  { unfold str_find. rewrite E at 1. rewrite app_assoc. change (93 :: s) with ([] ++ 93 :: s). rewrite (find_char 93 [] (pre ++ n) s) by (cbn; tauto || cbn; lia). now rewrite app_nil_r. }
  split.
  - intros Hne. assert (Fn : str_find [93] text (length pre) = Some (length (pre ++ n))).
    { unfold str_find. rewrite E at 1. apply find_char; [exact Hn |]. rewrite E, !app_length. lia. }
    assert (Hlt : (length pre <? length (pre ++ n)) = true) by (apply Nat.ltb_lt; rewrite app_length; destruct n; [congruence | cbn [length]; lia]).
    assert (Es : slice text (length pre) (length (pre ++ n)) = n) by (rewrite E; apply slice_mid).
    split.
    + rewrite F. cbn [fast_find]. rewrite Fn, Hlt, Es. cbn [nth_error app da_item]. unfold mk_item. destruct n; [congruence | reflexivity].
    + intros j. rewrite !F. cbn [fast_find]. rewrite Fn, Hlt, Ff, Nat.ltb_irrefl. cbn [nth_error app]. destruct j as [| j]; [reflexivity |]. cbn [nth_error].
      f_equal. apply find_enough; rewrite app_length in *; cbn [length]; lia.
  - rewrite F. cbn [fast_find]. rewrite Ff, Nat.ltb_irrefl. reflexivity.
Qed.
Lemma section_run name n pre s w : padded (eq name) n -> ~ In 93 name -> hd_error name <> Some 92 -> text = pre ++ n ++ 93 :: s ->
  exists nd, items [nd] = [IObj ISection (Some (VStr name))] /\ (exists toks, nd = Ctx ISection (map Tok toks)) /\
    reach (Cfg [IRoot; ISection] (w ++ [Enter ISection]) 1 [] (length pre)) (Cfg [IRoot] (w ++ words [nd]) 0 [] (length (pre ++ n ++ [93]))).
Proof.
  intros Hn H93 Hh E.
  assert (Hn93 : ~ In 93 n).
  { destruct Hn as (a & u & b & -> & Ha & Hb & _ & <-). intros H. apply in_app_or in H as [H | H]; [apply (proj1 (Forall_forall _ _) Ha) in H as [H | H]; discriminate |].
    apply in_app_or in H as [H | H]; [contradiction |]. apply (proj1 (Forall_forall _ _) Hb) in H as [H | H]; discriminate. }
  destruct (section_parse pre n s E Hn93) as [P1 P2].
  set (body := match n with [] => [] | _ => [Token (length pre) n INamespace None] end).
  assert (H1 : exists new, reach (Cfg [IRoot; ISection] (w ++ [Enter ISection]) 1 [] (length pre)) (Cfg [IRoot; ISection] ((w ++ [Enter ISection]) ++ map Leaf body) new [] (length (pre ++ n)))).
  { destruct n as [| x n].
    - exists 1. cbn. rewrite !app_nil_r. apply reach_refl.
    - destruct (P1 ltac:(discriminate)) as [Q0 QS]. exists 0.
      exact (reach_item _ _ i_consume i_parse text [IRoot; ISection] ISection (w ++ [Enter ISection]) 1 [] _ _ _ eq_refl Q0 eq_refl ltac:(discriminate) QS). }
  destruct H1 as (new & H1).
  pose proof (reach_target _ _ i_consume i_parse text [IRoot; ISection] ISection ((w ++ [Enter ISection]) ++ map Leaf body) new [] _ _ (Target 1 []) eq_refl P2 eq_refl ltac:(discriminate)) as H2.
  cbn [i_pos i_txt i_lexemes] in H2. cbn in H2. unfold g_follow, g_leave in H2. cbn [fst snd t_pop t_push map length app Nat.leb] in H2. cbn in H2.
  rewrite ?drop_last_0, ?Nat.sub_0_r, ?firstn_all, ?app_nil_r, ?Nat.add_0_r in H2.
  exists (Ctx ISection (map Tok (body ++ [Token (length (pre ++ n)) [93] IEnd None]))). split; [| split; [eexists; reflexivity |]].
  - rewrite items_section.
    rewrite items_toks, toks_calm. unfold i_section. rewrite map_app, rev_app_distr. cbn [map rev app k_act]. rewrite rev_involutive.
    unfold i_values. rewrite texts_toks. unfold body. destruct n as [| x n].
    + destruct Hn as (a & u & b & En & _ & _ & _ & <-). symmetry in En. apply app_eq_nil in En as [_ En]. apply app_eq_nil in En as [-> _]. reflexivity.
    + cbn [map k_text]. rewrite (name_join odd (x :: n) name Hn Hh ltac:(discriminate)). reflexivity.
  - eapply reach_trans; [exact H1 |]. eapply (reach_eq marks text); [exact H2 |]. f_equal.
    + rewrite words_one, word_ctx, words_toks, map_app. cbn [map]. rewrite <- !app_assoc. reflexivity.
    + rewrite app_assoc, (app_length (pre ++ n)). reflexivity.
Qed.

(** ** Comments *)

Lemma first_mark (c : str) : forall pre : str,
  (forall p, length pre <= p < length (pre ++ c) -> marks text p = None)
  \/ exists c1 c2, c = c1 ++ c2 /\ c2 <> [] /\ (forall p, length pre <= p < length (pre ++ c1) -> marks text p = None) /\ marks text (length (pre ++ c1)) <> None.
Proof.
  induction c as [| x c IH]; intros pre.
  - left. intros p. rewrite app_nil_r. lia.
  - destruct (marks text (length pre)) as [m |] eqn:E.
    + right. exists [], (x :: c). split; [reflexivity |]. split; [discriminate |]. rewrite app_nil_r, E. split; [intros p; lia | discriminate].
    + destruct (IH (pre ++ [x])) as [H | (c1 & c2 & -> & H1 & H2 & H3)].
      * left. intros p Hp. destruct (Nat.eq_dec p (length pre)) as [-> |]; [exact E |]. apply H. rewrite <- app_assoc. cbn [app]. rewrite !app_length in *. cbn in *. lia.
      * right. exists (x :: c1), c2. split; [reflexivity |]. split; [exact H1 |]. rewrite <- !app_assoc in *. cbn [app] in *. split; [| exact H3].
        intros p Hp. destruct (Nat.eq_dec p (length pre)) as [-> |]; [exact E |]. apply H2. rewrite <- ?app_assoc in *. cbn [app] in *. rewrite !app_length in *. cbn in *. lia.
Qed.
Definition eol (s : str) : Prop := match s with [] => True | c :: _ => c = 10 end.
Lemma comment_pick (pre : str) x s : text = pre ++ x :: s -> x <> 10 -> i_pick IComment false text (length pre) = match marks text (length pre) with Some (k, n) => Some (S k, n) | None => None end.
Proof. intros E Hx. cbn [IniModel.i_pick]. rewrite E, skipn_pre at 1. cbn [negb andb]. destruct (Nat.eqb_spec x 10); [contradiction |]. reflexivity. Qed.
Lemma comment_eol pre s : text = pre ++ s -> eol s -> i_pick IComment false text (length pre) = Some (0, 0).
Proof. intros E Hs. cbn [IniModel.i_pick]. rewrite E, skipn_pre at 1. destruct s as [| c s]; [reflexivity |]. cbn in Hs. subst c. reflexivity. Qed.
Lemma comment_run m : forall (c pre s : str) w new circ, length c <= m -> text = pre ++ c ++ s -> ~ In 10 c -> eol s ->
  exists toks, (c = [] -> toks = []) /\ (c <> [] -> toks <> []) /\
    reach (Cfg [IRoot; IComment] w new circ (length pre)) (Cfg [IRoot; IComment] (w ++ map Leaf toks) (match c with [] => new | _ => 0 end) circ (length (pre ++ c))).
Proof.
  induction m as [| m IH]; intros c pre s w new circ Hm E Hc Hs.
  { destruct c; [| cbn in Hm; lia]. exists []. repeat split; try congruence. cbn. rewrite !app_nil_r. apply reach_refl. }
  destruct c as [| x c]; [exists []; repeat split; try congruence; cbn; rewrite !app_nil_r; apply reach_refl |].
  set (C := x :: c) in *. assert (HC : C <> []) by discriminate.
  assert (G : exists t a c2, C = t ++ c2 /\ t <> [] /\
            reach (Cfg [IRoot; IComment] w new circ (length pre)) (Cfg [IRoot; IComment] (w ++ [Leaf (Token (length pre) t a None)]) 0 circ (length (pre ++ t)))).
  { destruct (marks text (length pre)) as [[k n] |] eqn:Ek.
    - destruct (Hmarks _ _ _ _ Ek) as (Hk & Hn & Hlen & Hin).
      assert (Hle : n <= length C).
      { destruct s as [| y s]; [rewrite E, !app_length in Hlen; change (length (@nil nat)) with 0 in Hlen; lia |]. cbn in Hs. subst y.
        destruct (le_lt_dec n (length C)) as [H | H]; [exact H |]. exfalso. apply Hin. rewrite E, skipn_pre. rewrite firstn_app. apply in_or_app. right.
        destruct (n - length C) as [| j] eqn:Ej; [lia |]. now left. }
      exists (firstn n C), (IMark k), (skipn n C). split; [now rewrite firstn_skipn |].
      assert (Ht : firstn n C <> []) by (unfold C; destruct n; [lia | discriminate]). split; [exact Ht |].
      assert (Hlen' : length (firstn n C) = n) by (rewrite firstn_length; lia).
      assert (Ex : text = pre ++ firstn n C ++ skipn n C ++ s) by (rewrite (app_assoc (firstn n C)), firstn_skipn; exact E).
      apply (step_item marks Hmarks text [IRoot] IComment pre (firstn n C) (skipn n C ++ s) (S k) (IMark k) w new circ ltac:(discriminate) Ex Ht).
      + rewrite (comment_pick pre x (c ++ s) E ltac:(intros ->; apply Hc; now left)), Ek. now rewrite Hlen'.
      + destruct k as [| [| [| k]]]; [reflexivity | reflexivity | reflexivity | lia].
    - assert (Gap : forall t c2, C = t ++ c2 -> t <> [] -> (forall p, length pre <= p < length (pre ++ t) -> marks text p = None) ->
                (c2 = [] \/ marks text (length (pre ++ t)) <> None) ->
                reach (Cfg [IRoot; IComment] w new circ (length pre)) (Cfg [IRoot; IComment] (w ++ [Leaf (Token (length pre) t ICom None)]) 0 circ (length (pre ++ t)))).
      { intros t c2 Et Htn Hnone Hend.
        assert (Ex : text = pre ++ t ++ c2 ++ s) by (rewrite (app_assoc t), <- Et; exact E).
        assert (Hb : length pre < length (pre ++ t) <= length text).
        { rewrite Ex. rewrite !app_length. destruct t; [congruence |]. cbn. lia. }
        assert (H1 : forall p, length pre <= p < length (pre ++ t) -> c_match (i_compiled IComment) false text p = None).
        { intros p Hp. cbn [IniModel.i_compiled c_match].
          assert (Hq : exists pre' y s', text = pre' ++ y :: s' /\ length pre' = p /\ y <> 10).
          { rewrite app_length in Hp. destruct (nth_error t (p - length pre)) as [y |] eqn:Ey; [| apply nth_error_None in Ey; lia].
            apply nth_error_split in Ey as (t1 & t2 & Et' & Hl). exists (pre ++ t1), y, (t2 ++ c2 ++ s). split; [rewrite Ex, Et', <- !app_assoc; reflexivity |].
            split; [rewrite app_length; lia |]. intros ->. apply Hc. rewrite Et, Et'. apply in_or_app. left. apply in_or_app. right. now left. }
          destruct Hq as (pre' & y & s' & Eq & <- & Hy). rewrite (comment_pick pre' y s' Eq Hy), (Hnone _ Hp). reflexivity. }
        assert (H2 : c_match (i_compiled IComment) false text (length (pre ++ t)) <> None).
        { cbn [IniModel.i_compiled c_match]. destruct c2 as [| y c2].
          - rewrite (comment_eol (pre ++ t) s) by (exact Hs || (rewrite Ex, <- app_assoc; reflexivity)). discriminate.
          - destruct Hend as [Hend | Hend]; [discriminate |]. rewrite (comment_pick (pre ++ t) y (c2 ++ s)).
            + destruct (marks text (length (pre ++ t))) as [[k n] |]; [discriminate | congruence].
            + rewrite Ex, <- app_assoc. reflexivity.
            + intros ->. apply Hc. rewrite Et. apply in_or_app. right. now left. }
        destruct (da_gap_match ilex iact (fun _ _ => []) IComment (i_compiled IComment) text eq_refl ltac:(discriminate) (i_match_ok marks Hmarks text _) ltac:(discriminate) _ _ Hb H1 H2) as [H0 HS].
        assert (Es : slice text (length pre) (length (pre ++ t)) = t) by (rewrite Ex; apply slice_mid). rewrite Es in H0. cbn [c_da IniModel.i_compiled da_item] in H0. unfold mk_item in H0. destruct t as [| c0 t]; [congruence |].
        exact (reach_item _ _ i_consume i_parse text [IRoot; IComment] IComment w new circ _ _ _ eq_refl H0 eq_refl ltac:(discriminate) HS). }
      destruct (first_mark C pre) as [Hnone | (c1 & c2 & Ec & H1 & H2 & H3)].
      + exists C, ICom, []. rewrite app_nil_r. split; [reflexivity |]. split; [exact HC |]. apply (Gap C []); [now rewrite app_nil_r | exact HC | exact Hnone | now left].
      + assert (Hc1 : c1 <> []) by (intros ->; rewrite app_nil_r in H3; congruence).
        exists c1, ICom, c2. split; [exact Ec |]. split; [exact Hc1 |]. apply (Gap c1 c2); [exact Ec | exact Hc1 | exact H2 | now right]. }
  destruct G as (t & a & c2 & Ec & Ht & H1).
  destruct (IH c2 (pre ++ t) s (w ++ [Leaf (Token (length pre) t a None)]) 0 circ) as (toks & _ & _ & H2).
  { apply (f_equal (@length nat)) in Ec. rewrite app_length in Ec. destruct t; [congruence |]. cbn [length] in Ec. lia. }
  { rewrite E, Ec, <- !app_assoc. reflexivity. }
  { intros H. apply Hc. rewrite Ec. apply in_or_app. now right. }
  { exact Hs. }
  exists (Token (length pre) t a None :: toks). split; [congruence |]. split; [discriminate |].
  eapply reach_trans; [exact H1 |]. eapply (reach_eq marks text); [exact H2 |]. rewrite Ec. f_equal.
  - cbn [map]. now rewrite <- app_assoc.
  - destruct c2; (destruct t; [congruence | reflexivity]).
  - now rewrite <- app_assoc.
Qed.
Lemma comment_leave pre s w new : text = pre ++ s -> eol s -> new <= 1 ->
  reach (Cfg [IRoot; IComment] w new [] (length pre)) (Cfg [IRoot] (left_word w new) 0 [(length pre, 1, 0)] (length pre)).
Proof.
  intros E Hs Hn. assert (Hm : c_match (i_compiled IComment) false text (length pre) = Some (Mtch (length pre) (length pre) 0 [])).
  { cbn [IniModel.i_compiled c_match]. rewrite (comment_eol pre s E Hs). now rewrite Nat.add_0_r. }
  assert (H0 : i_parse IComment text (length pre) 0 = Some (Item (length pre) [] [] (Some (Target 1 [])))).
  { assert (Hle : length pre <= length text) by (rewrite E, app_length; lia). unfold IniModel.i_parse. rewrite (da_any ilex iact (fun _ _ => []) IComment (i_compiled IComment) text eq_refl ltac:(discriminate) (i_match_ok marks Hmarks text _) ltac:(discriminate) (length pre) _ Hle Hm).
    unfold token. cbn [m_rule m_start m_end c_rules IniModel.i_compiled i_rules nth_error]. unfold slice. rewrite Nat.sub_diag. reflexivity. }
  pose proof (reach_default _ _ i_consume i_parse text [IRoot; IComment] IComment w new [] _ _ _ eq_refl H0 eq_refl eq_refl) as H.
  cbn -[l_circle] in H. unfold g_follow, g_leave in H. cbn [fst snd t_pop t_push map length app] in H. unfold l_circle in H.
  change (length (drop_last 1 [IRoot; IComment])) with 1 in H. change (drop_last 1 [IRoot; IComment]) with [IRoot] in H. unfold left_word.
  destruct new as [| [| new]]; [| | lia]; cbn in H |- *; rewrite ?drop_last_0, ?Nat.sub_0_r, ?firstn_all, ?app_nil_r, ?Nat.add_0_r in H.
  - exact H.
  - assert (Ew : drop_last 1 w = removelast w) by (unfold drop_last; rewrite removelast_firstn_len; f_equal; lia). rewrite Ew in H. exact H.
Qed.

(** ** Lines *)

Definition mread (x : option str * list isection) (l : line) : option str * list isection :=
  let '(cur, r) := x in
  match l with
  | Blank => (cur, r)
  | Section n => (Some n, d_set name_eqb (Some n) [] r)
  | Entry k v => (cur, in_section cur k v r)
  end.
(** Items that can follow a line. *)
Definition clean (l : list iitem) : Prop :=
  match l with IToken t :: _ => k_act t <> IAssign | IObj IValue _ :: _ => False | _ => True end.
Definition reads (l : line) (its : list iitem) : Prop :=
  existsb i_raised its = false /\ forall rest, clean rest ->
    clean (its ++ rest) /\ forall cur r, root_loop (its ++ rest) cur r = root_loop rest (fst (mread (cur, r) l)) (snd (mread (cur, r) l)).

Lemma loop_key o rest cur r : clean rest -> root_loop (IObj IKey o :: rest) cur r = root_loop rest cur r.
Proof. intros H. destruct rest as [| [t | nm ob | u] rest]; try reflexivity. cbn in H. cbn [root_loop]. destruct (k_act t); try reflexivity. congruence. Qed.
Lemma clean_key o rest : clean (IObj IKey o :: rest). Proof. exact I. Qed.
Lemma reads_nil : reads Blank [].
Proof. split; [reflexivity |]. intros rest H. split; [exact H | reflexivity]. Qed.
Lemma reads_key o : o <> None -> reads Blank [IObj IKey o].
Proof. intros Ho. split; [destruct o; [reflexivity | congruence] |]. intros rest H. split; [exact I |]. intros cur r. cbn [app]. rewrite loop_key by exact H. reflexivity. Qed.
Lemma reads_tok t : k_act t <> IAssign -> reads Blank [IToken t].
Proof. intros Ht. split; [reflexivity |]. intros rest H. split; [exact Ht | reflexivity]. Qed.
Lemma reads_app_l l a b : reads Blank a -> reads l b -> reads l (a ++ b).
Proof.
  intros [A1 A2] [B1 B2]. split; [rewrite existsb_app, A1, B1; reflexivity |]. intros rest H. destruct (B2 rest H) as [B3 B4]. destruct (A2 _ B3) as [A3 A4].
  rewrite <- app_assoc. split; [exact A3 |]. intros cur r. rewrite A4. cbn [mread fst snd]. apply B4.
Qed.
Lemma reads_app_r l a b : reads l a -> reads Blank b -> reads l (a ++ b).
Proof.
  intros [A1 A2] [B1 B2]. split; [rewrite existsb_app, A1, B1; reflexivity |]. intros rest H. destruct (B2 rest H) as [B3 B4]. destruct (A2 _ B3) as [A3 A4].
  rewrite <- app_assoc. split; [exact A3 |]. intros cur r. rewrite A4, B4. reflexivity.
Qed.
Lemma reads_section n : reads (Section n) [IObj ISection (Some (VStr n))].
Proof. split; [reflexivity |]. intros rest H. split; [exact I | reflexivity]. Qed.
Lemma reads_absent k p : reads (Entry k None) [IObj IKey (Some (VStr k)); IToken (Token p [61] IAssign None)].
Proof.
  split; [reflexivity |]. intros rest H. split; [exact I |]. intros cur r. cbn [app root_loop k_act].
  destruct rest as [| [t | nm ob | u] rest]; try reflexivity. destruct nm; try reflexivity. contradiction.
Qed.
Lemma reads_entry k p v : reads (Entry k (Some v)) [IObj IKey (Some (VStr k)); IToken (Token p [61] IAssign None); IObj IValue (Some (VStr v))].
Proof. split; [reflexivity |]. intros rest H. split; [exact I | reflexivity]. Qed.

(** No comments in the tree. *)
Definition no_comment (ns : list (node ilex iact)) : Prop := Forall (fun n => match n with Ctx IComment _ => False | Tok _ => True | Ctx _ cs => Forall (fun c => exists t, c = Tok t) cs end) ns.
Lemma no_comment_app a b : no_comment a -> no_comment b -> no_comment (a ++ b).
Proof. intros H1 H2. apply Forall_app. split; assumption. Qed.
Lemma toks_only (ts : list (tok iact)) : Forall (fun c => exists t, c = Tok t) (map (@Tok ilex iact) ts).
Proof. apply Forall_forall. intros c H. apply in_map_iff in H as (t & <- & _). eauto. Qed.

Lemma blank_key a pre s w c : blanks a -> text = pre ++ a ++ s -> stop s -> before w (length pre) c ->
  exists ns c', reads Blank (items ns) /\ no_comment ns /\ after (w ++ words ns) (length (pre ++ a)) c' /\ reach c c'.
Proof.
  intros Ha E Hs Hb. destruct a as [| x a].
  - exists [], c. split; [apply reads_nil |]. split; [constructor |]. cbn [words map concat]. unfold words. cbn. rewrite !app_nil_r. split; [apply before_after; exact Hb | apply reach_refl].
  - assert (Hk : text_for [] (x :: a)).
    { exists (x :: a), [], []. rewrite !app_nil_r. split; [reflexivity |]. split; [exact Ha |]. split; [constructor |]. split; [split; intros; [discriminate | destruct r; discriminate] | constructor]. }
    destruct (key_run [] (x :: a) pre s w c Hk ltac:(discriminate) E Hs Hb) as (n & c' & (toks & -> & Hi) & H2 & H3).
    exists [Ctx IKey (map Tok toks)], c'. split; [rewrite Hi; apply reads_key; discriminate |]. split; [repeat constructor; apply toks_only |]. split; [exact H2 | exact H3].
Qed.
Lemma body_run l t pre s w c : line_body l t -> text = pre ++ t ++ s -> (match s with [] => True | c :: _ => In c [10; 59; 35] end) -> before w (length pre) c ->
  exists ns c', reads l (items ns) /\ no_comment ns /\ after (w ++ words ns) (length (pre ++ t)) c' /\ reach c c'.
Proof.
  intros Hl E Hs Hb. assert (Hst : stop s) by (destruct s as [| x s]; [exact I |]; cbn in *; tauto).
  destruct Hl as [a Ha | a n name b Ha Hbb Hn H93 H10 Hh | k t v u Ht Hu Hk Hv | k t Ht Hk].
  - exact (blank_key a pre s w c Ha E Hst Hb).
  - rewrite <- app_assoc in E. cbn [app] in E. rewrite <- app_assoc in E. cbn [app] in E.
    destruct (blank_key a pre (91 :: n ++ 93 :: b ++ s) w c Ha E ltac:(left; reflexivity) Hb) as (n1 & c1 & R1 & N1 & A1 & P1).
    assert (E1 : text = (pre ++ a) ++ 91 :: n ++ 93 :: b ++ s) by (rewrite E, <- app_assoc; reflexivity).
    pose proof (enter_run (pre ++ a) 91 _ 0 IStart ISection _ c1 E1 ltac:(left; reflexivity) (root_pick _ _ _ E1) eq_refl A1) as P2.
    set (tk := Token (length (pre ++ a)) [91] IStart None) in *.
    assert (E2 : text = ((pre ++ a) ++ [91]) ++ n ++ 93 :: b ++ s) by (rewrite E1, <- !app_assoc; reflexivity).
    destruct (section_run name n ((pre ++ a) ++ [91]) (b ++ s) ((w ++ words n1) ++ [Leaf tk]) Hn H93 Hh E2) as (nd & R3 & (toks & ->) & P3).
    set (q := ((pre ++ a) ++ [91]) ++ n ++ [93]) in *.
    assert (E3 : text = q ++ b ++ s) by (rewrite E2; unfold q; rewrite <- !app_assoc; reflexivity).
    destruct (blank_key b q s (((w ++ words n1) ++ [Leaf tk]) ++ words [Ctx ISection (map Tok toks)]) (Cfg [IRoot] (((w ++ words n1) ++ [Leaf tk]) ++ words [Ctx ISection (map Tok toks)]) 0 [] (length q)) Hbb E3 Hst) as (n4 & c4 & R4 & N4 & A4 & P4).
    { exists []. split; [apply okc_nil | now left]. }
    exists (n1 ++ Tok tk :: Ctx ISection (map Tok toks) :: n4), c4. split; [| split; [| split]].
    + rewrite items_app. apply reads_app_l; [exact R1 |]. change (Tok tk :: Ctx ISection (map Tok toks) :: n4) with ([Tok tk] ++ [Ctx ISection (map Tok toks)] ++ n4).
      rewrite !items_app, R3. change (items [Tok tk]) with [IToken (L := ilex) (R := IR) (Name := ilex) tk]. apply reads_app_l; [apply reads_tok; discriminate |]. apply reads_app_r; [apply reads_section | exact R4].
    + apply no_comment_app; [exact N1 |]. constructor; [exact I |]. constructor; [apply toks_only | exact N4].
    + assert (Ew : w ++ words (n1 ++ Tok tk :: Ctx ISection (map Tok toks) :: n4) = (((w ++ words n1) ++ [Leaf tk]) ++ words [Ctx ISection (map Tok toks)]) ++ words n4).
      { rewrite words_app, !words_cons, <- !app_assoc. reflexivity. }
      rewrite Ew. assert (Eq : pre ++ a ++ 91 :: n ++ 93 :: b = q ++ b) by (unfold q; rewrite <- !app_assoc; reflexivity). rewrite Eq. exact A4.
    + eapply reach_trans; [exact P1 |]. eapply reach_trans; [exact P2 |]. eapply reach_trans; [exact P3 | exact P4].
  - rewrite <- app_assoc in E. cbn [app] in E.
    destruct (key_run k t pre (61 :: u ++ s) w c Hk Ht E ltac:(cbn; tauto) Hb) as (n1 & c1 & (toks & -> & I1) & A1 & P1).
    assert (E1 : text = (pre ++ t) ++ 61 :: u ++ s) by (rewrite E, <- app_assoc; reflexivity).
    pose proof (enter_run (pre ++ t) 61 _ 2 IAssign IValue _ c1 E1 ltac:(cbn; tauto) (root_pick _ _ _ E1) eq_refl A1) as P2.
    set (tk := Token (length (pre ++ t)) [61] IAssign None) in *.
    assert (E2 : text = ((pre ++ t) ++ [61]) ++ u ++ s) by (rewrite E1, <- !app_assoc; reflexivity).
    destruct (value_run v u ((pre ++ t) ++ [61]) s ((w ++ words [Ctx IKey (map Tok toks)]) ++ [Leaf tk]) Hv Hu E2 Hst) as (n2 & c2 & (toks2 & -> & I2) & A2 & P3).
    exists [Ctx IKey (map Tok toks); Tok tk; Ctx IValue (map Tok toks2)], c2. split; [| split; [| split]].
    + change [Ctx IKey (map Tok toks); Tok tk; Ctx IValue (map Tok toks2)] with ([Ctx IKey (map Tok toks)] ++ [Tok tk] ++ [Ctx IValue (map Tok toks2)]).
      rewrite !items_app, I1, I2. exact (reads_entry k (length (pre ++ t)) v).
    + repeat constructor; apply toks_only.
    + assert (Ew : w ++ words [Ctx IKey (map Tok toks); Tok tk; Ctx IValue (map Tok toks2)] = ((w ++ words [Ctx IKey (map Tok toks)]) ++ [Leaf tk]) ++ words [Ctx IValue (map Tok toks2)]).
      { rewrite !words_cons, <- !app_assoc. reflexivity. }
      rewrite Ew. replace (pre ++ t ++ 61 :: u) with (((pre ++ t) ++ [61]) ++ u) by (rewrite <- !app_assoc; reflexivity). exact A2.
    + eapply reach_trans; [exact P1 |]. eapply reach_trans; [exact P2 | exact P3].
  - rewrite <- app_assoc in E. cbn [app] in E.
    destruct (key_run k t pre (61 :: s) w c Hk Ht E ltac:(cbn; tauto) Hb) as (n1 & c1 & (toks & -> & I1) & A1 & P1).
    assert (E1 : text = (pre ++ t) ++ 61 :: s) by (rewrite E, <- app_assoc; reflexivity).
    pose proof (enter_run (pre ++ t) 61 _ 2 IAssign IValue _ c1 E1 ltac:(cbn; tauto) (root_pick _ _ _ E1) eq_refl A1) as P2.
    set (tk := Token (length (pre ++ t)) [61] IAssign None) in *.
    exists [Ctx IKey (map Tok toks); Tok tk]. eexists. split; [| split; [| split; [| eapply reach_trans; [exact P1 | exact P2]]]].
    + change [Ctx IKey (map Tok toks); Tok tk] with ([Ctx IKey (map Tok toks)] ++ [Tok tk]). rewrite items_app, I1. exact (reads_absent k (length (pre ++ t))).
    + repeat constructor; apply toks_only.
    + exists []. split; [apply okc_nil |]. right. exists IValue. eexists _, _. split; [now right |]. rewrite app_assoc. split; [reflexivity |]. right. split; [reflexivity |].
      rewrite !words_cons. cbn [word]. unfold words at 2. cbn [map concat]. rewrite <- !app_assoc. reflexivity.
Qed.
Lemma line_run com l t pre s w c : line_text com l t -> text = pre ++ t ++ s -> eol s -> before w (length pre) c ->
  exists ns c', reads l (items ns) /\ (com = false -> no_comment ns) /\ after (w ++ words ns) (length (pre ++ t)) c' /\ reach c c'.
Proof.
  intros (body & tail & -> & Hl & Ht) E Hs Hb. rewrite <- app_assoc in E.
  assert (Hs' : match tail ++ s with [] => True | c :: _ => In c [10; 59; 35] end).
  { destruct Ht as [-> | (_ & x & r & -> & [-> | ->] & _)]; cbn [app]; [| cbn; tauto | cbn; tauto]. destruct s as [| x s]; [exact I |]. cbn in *. auto. }
  destruct (body_run l body pre (tail ++ s) w c Hl E Hs' Hb) as (n1 & c1 & R1 & N1 & A1 & P1).
  destruct Ht as [-> | (-> & x & r & -> & Hx & Hr)].
  - exists n1, c1. rewrite app_nil_r. auto.
  - assert (E1 : text = (pre ++ body) ++ x :: r ++ s) by (rewrite E, <- app_assoc; reflexivity).
    assert (Hxi : In x [91; 10; 59; 61; 35; 58]) by (destruct Hx as [-> | ->]; cbn; tauto).
    assert (Hpick : i_pick IRoot false text (length (pre ++ body)) = Some (1, 1)) by (rewrite (root_pick _ _ _ E1); destruct Hx as [-> | ->]; reflexivity).
    pose proof (enter_run (pre ++ body) x _ 1 ICom IComment _ c1 E1 Hxi Hpick eq_refl A1) as P2.
    set (tk := Token (length (pre ++ body)) [x] ICom None) in *.
    assert (E2 : text = ((pre ++ body) ++ [x]) ++ r ++ s) by (rewrite E1, <- !app_assoc; reflexivity).
    destruct (comment_run (length r) r _ s (((w ++ words n1) ++ [Leaf tk]) ++ [Enter IComment]) 1 [] (le_n _) E2 Hr Hs) as (toks & T1 & T2 & P3).
    set (q := ((pre ++ body) ++ [x]) ++ r) in *.
    assert (E3 : text = q ++ s) by (unfold q; rewrite E2, <- !app_assoc; reflexivity).
    pose proof (comment_leave q s ((((w ++ words n1) ++ [Leaf tk]) ++ [Enter IComment]) ++ map Leaf toks) (match r with [] => 1 | _ => 0 end) E3 Hs ltac:(destruct r; lia)) as P4.
    set (cn := match r with [] => [] | _ => [Ctx IComment (map (@Tok ilex iact) toks)] end).
    exists (n1 ++ Tok tk :: cn). eexists. split; [| split; [discriminate |]]; [| split; [| eapply reach_trans; [exact P1 |]; eapply reach_trans; [exact P2 |]; eapply reach_trans; [exact P3 | exact P4]]].
    + rewrite items_app. apply reads_app_r; [exact R1 |]. assert (Ei : items (Tok tk :: cn) = [IToken tk]) by (unfold cn; destruct r; reflexivity). rewrite Ei. apply reads_tok. discriminate.
    + exists [(length q, 1, 0)]. split; [intros p _ [H | []]; discriminate |]. left. rewrite app_assoc. f_equal.
      * unfold left_word, cn. destruct r as [| y r]; cbn [Nat.eqb].
        -- rewrite (T1 eq_refl). cbn [map]. rewrite app_nil_r, removelast_snoc, words_app. rewrite words_cons. rewrite <- !app_assoc. reflexivity.
        -- rewrite words_app, words_cons, words_one, word_ctx, words_toks. cbn [word app]. rewrite <- !app_assoc. reflexivity.
      * unfold q. rewrite <- !app_assoc. reflexivity.
Qed.
End Lines.
