(** Runs of the lexer over texts of numerals. *)
From Verif Require Import Base BaseFacts TargetModel TargetSpec LexerModel LexerSpec TargetProofs LexerProofs LexiconModel LexiconSpec TreeModel TreeSpec TreeProofs BuildModel BuildProofs
  TransformModel TransformSpec TransformTextProofs MachineProofs GeneratorProofs IniRunProofs NumbersModel NumbersSpec.
From Coq Require Import ZArith ZifyBool.

Section Runs.
Variable uspace : nat -> bool.
Variable umatch : nat -> nat -> bool.
Variable g : nlang.
Variable text : str.
Notation n_pick := (n_pick uspace umatch g).
Notation n_compiled := (n_compiled uspace umatch g).
Notation n_parse := (n_parse uspace umatch g).
Notation reach := (reach n_consume n_parse text).
Notation wrd := (list (sym nlex nact)).
Notation cfg := (cfg nlex nact).

Definition skips (l : nlex) : Prop := l <> NRoot /\ l <> NNumber.
(** The rules of n99: the first skips. *)
Hypothesis Hg : exists r, g_99rules g = (ASkip, []) :: r.
Hypothesis Hsep : forall s, sep_hit uspace s <> None -> g_99 g s = sep_hit uspace s.

Lemma rules_ne l : skips l -> n_rules g l <> [].
Proof. intros [H1 H2]. destruct l; try congruence; cbn; try discriminate. destruct Hg as [r ->]. discriminate. Qed.
Lemma rules_skip l : skips l -> nth_error (n_rules g l) 0 = Some (ASkip, []).
Proof. intros [H1 H2]. destruct l; try congruence; try reflexivity. cbn. destruct Hg as [r ->]. reflexivity. Qed.
Definition dt_of (l : nlex) : target nlex := match l with NRoot => Target 0 [NNumber; NP6; NP3; NP2; N99] | _ => Target 1 [] end.
Lemma dt_is_of l : c_dt (n_compiled l) = Some (dt_of l).
Proof. destruct l; reflexivity. Qed.
Lemma not_fast l : skips l -> n_parse l = parse_regex (fun _ _ => []) l (n_compiled l).
Proof.
  intros H. pose proof (rules_ne l H) as Hr. unfold NumbersModel.n_parse, lexicon_parse. cbn [c_rules c_needle NumbersModel.n_compiled].
  destruct (n_rules g l) as [| [a t] rs]; [congruence |]. cbn [map fst snd]. destruct (map _ rs); reflexivity.
Qed.
Lemma pos_lt pre (t s : str) : text = pre ++ t ++ s -> length pre <= length text.
Proof. intros ->. rewrite app_length. lia. Qed.

Definition moved (p : nat) (gs : list (option (nat * nat))) : list (option (nat * nat)) := map (option_map (fun x => (p + fst x, p + snd x))) gs.
Lemma parse_found l pre t s i gs : skips l -> text = pre ++ t ++ s -> n_pick l (t ++ s) = Some (i, length t, gs) ->
  n_parse l text (length pre) 0 = Some (token (fun _ _ => []) l (c_rules (n_compiled l)) text (Mtch (length pre) (length pre + length t) i (moved (length pre) gs))) /\
  forall j, n_parse l text (length pre) (S j) = n_parse l text (length (pre ++ t)) j.
Proof.
  intros Hl E Ef. rewrite (not_fast l Hl).
  assert (Em : c_match (n_compiled l) false text (length pre) = Some (Mtch (length pre) (length pre + length t) i (moved (length pre) gs))).
  { cbn [NumbersModel.n_compiled c_match]. rewrite E, skipn_pre, Ef. reflexivity. }
  unfold parse_regex. rewrite (dt_is_of l). change (c_da (n_compiled l)) with (@NoDA nlex nact). split.
  - cbn [dt_gen]. now rewrite Em.
  - intros j. cbn [dt_gen]. rewrite Em. cbn [m_end]. now rewrite app_length.
Qed.
Lemma parse_default l p : p < length text -> n_pick l (skipn p text) = None -> n_parse l text p 0 = Some (Item p [] [] (Some (dt_of l))).
Proof.
  intros Hp Ef. assert (D : skips l \/ (l = NRoot \/ l = NNumber)) by (destruct l; unfold skips; auto; left; split; discriminate).
  destruct D as [Hl | Hl].
  - rewrite (not_fast l Hl). unfold parse_regex. rewrite (dt_is_of l). change (c_da (n_compiled l)) with (@NoDA nlex nact). cbn [dt_gen].
    cbn [NumbersModel.n_compiled c_match]. rewrite Ef. destruct (Nat.ltb_spec p (length text)); [reflexivity | lia].
  - assert (Hlt : (p <? length text) = true) by lia. destruct Hl as [-> | ->]; unfold NumbersModel.n_parse, lexicon_parse; cbn [c_rules NumbersModel.n_compiled n_rules map];
      unfold parse_empty; rewrite Hlt; reflexivity.
Qed.
Lemma parse_end l : n_pick l [] = None -> n_parse l text (length text) 0 = None.
Proof.
  intros Ef. assert (D : skips l \/ (l = NRoot \/ l = NNumber)) by (destruct l; unfold skips; auto; left; split; discriminate).
  assert (Hlt : (length text <? length text) = false) by lia. destruct D as [Hl | Hl].
  - rewrite (not_fast l Hl). unfold parse_regex. rewrite (dt_is_of l). change (c_da (n_compiled l)) with (@NoDA nlex nact). cbn [dt_gen].
    cbn [NumbersModel.n_compiled c_match]. rewrite skipn_all, Ef, Hlt. reflexivity.
  - destruct Hl as [-> | ->]; unfold NumbersModel.n_parse, lexicon_parse; cbn [c_rules NumbersModel.n_compiled n_rules map]; unfold parse_empty; rewrite Hlt; reflexivity.
Qed.
Lemma token_is l pre t s i gs a tg : text = pre ++ t ++ s -> t <> [] -> nth_error (n_rules g l) i = Some (a, tg) ->
  token (fun _ _ => []) l (c_rules (n_compiled l)) text (Mtch (length pre) (length pre + length t) i (moved (length pre) gs))
  = Item (length pre) t (act_lexemes (fun _ _ => []) text a (length pre) t (Some (Mtch (length pre) (length pre + length t) i (moved (length pre) gs)))) (t_make l tg).
Proof.
  intros E Ht En. unfold token. cbn [m_rule m_start m_end c_rules NumbersModel.n_compiled]. rewrite (map_nth_error _ _ _ En). cbn [fst snd].
  assert (Es : slice text (length pre) (length pre + length t) = t) by (rewrite E, <- app_length; apply slice_mid). rewrite Es. unfold mk_item. destruct t; [congruence | reflexivity].
Qed.

(** ** Steps *)

(** Separators are skipped. *)
Lemma span_sep e s : Forall (fun c => n_sep uspace c = true) e -> match s with [] => True | c :: _ => n_sep uspace c = false end -> n_span (n_sep uspace) (e ++ s) = length e.
Proof.
  induction 1 as [| c e Hc _ IH]; intros Hs; cbn [app n_span length].
  - destruct s as [| c s]; [reflexivity |]. cbn. now rewrite Hs.
  - rewrite Hc. now rewrite (IH Hs).
Qed.
Lemma pick_sep l e s : skips l -> e <> [] -> Forall (fun c => n_sep uspace c = true) e -> match s with [] => True | c :: _ => n_sep uspace c = false end ->
  n_pick l (e ++ s) = Some (0, length e, []).
Proof.
  intros [H1 H2] Hne He Hs. assert (E : sep_hit uspace (e ++ s) = Some (0, length e, [])).
  { unfold sep_hit. rewrite (span_sep e s He Hs). destruct e; [congruence | reflexivity]. }
  destruct l; try congruence; cbn [NumbersModel.n_pick first_of]; rewrite ?E; try reflexivity. rewrite Hsep; rewrite E; [reflexivity | discriminate].
Qed.
Lemma step_gap up l pre e s w new circ : skips l -> Forall (fun c => n_sep uspace c = true) e -> match s with [] => True | c :: _ => n_sep uspace c = false end ->
  text = pre ++ e ++ s -> reach (Cfg (up ++ [l]) w new circ (length pre)) (Cfg (up ++ [l]) w new circ (length (pre ++ e))).
Proof.
  intros Hl He Hs E. destruct (list_eq_dec Nat.eq_dec e []) as [-> | Hne]; [rewrite app_nil_r; apply reach_refl |].
  destruct (parse_found l pre e s 0 [] Hl E (pick_sep l e s Hl Hne He Hs)) as [H0 HS].
  rewrite (token_is l pre e s 0 [] _ _ E Hne (rules_skip l Hl)) in H0.
  exact (reach_item _ _ n_consume n_parse text (up ++ [l]) l w new circ _ _ _ (last_opt_app up l) H0 eq_refl Hne HS).
Qed.
(** A match that leaves the lexicon and enters others. *)
Lemma step_match up l pre t s i gs a push w new circ : skips l -> up <> [] -> text = pre ++ t ++ s -> t <> [] -> n_pick l (t ++ s) = Some (i, length t, gs) ->
  nth_error (n_rules g l) i = Some (a, OUT ++ map RLex push) ->
  let xs := act_lexemes (fun _ _ => []) text a (length pre) t (Some (Mtch (length pre) (length pre + length t) i (moved (length pre) gs))) in
  xs <> [] ->
  reach (Cfg (up ++ [l]) w new circ (length pre)) (Cfg (up ++ push) ((w ++ map Leaf (make_tokens xs)) ++ Exit :: map Enter push) (length push) [] (length (pre ++ t))).
Proof.
  intros Hl Hup E Ht Ef En xs Hxs. destruct (parse_found l pre t s i gs Hl E Ef) as [H0 _]. rewrite (token_is l pre t s i gs _ _ E Ht En) in H0. fold xs in H0.
  assert (Em : t_make l (OUT ++ map RLex push) = Some (Target 1 push)).
  { unfold t_make. cbn [app OUT map]. change (RInt (-1) :: map RLex push) with ([RInt (-1)] ++ map (@RLex nlex) push). rewrite fold_left_app. cbn [fold_left make_step f_pops].
    change (f_pops f_init (Z.to_nat (- -1))) with (Factory 1 (@nil nlex)). assert (G : forall ls acc, fold_left (make_step l) (map RLex ls) (Factory 1 acc) = Factory 1 (acc ++ ls)).
    { induction ls as [| x ls IH]; intros acc; cbn [map fold_left make_step]; [now rewrite app_nil_r |]. unfold f_pushes. cbn [f_pop f_push]. rewrite IH, <- app_assoc. reflexivity. }
    cbn. rewrite (G push []). cbn [app]. reflexivity. }
  rewrite Em in H0.
  pose proof (reach_target _ _ n_consume n_parse text (up ++ [l]) l w new circ _ _ (Target 1 push) (last_opt_app up l) H0 eq_refl Ht) as H.
  assert (Ec : l_clip (length (up ++ [l])) (Target 1 push) = Target 1 push).
  { unfold l_clip. cbn [t_pop]. rewrite app_length. cbn [length]. destruct up; [congruence |]. cbn [length Nat.eqb negb andb].
    match goal with |- (if ?x then _ else _) = _ => assert (Hx : x = false) by (apply Nat.leb_gt; lia); rewrite Hx end. reflexivity. }
  rewrite Ec in H. cbn [t_pop t_push i_lexemes i_pos i_txt] in H.
  assert (Eq : l_consumes n_consume (Target 1 push) = false) by (unfold l_consumes, n_consume; cbn; destruct (last_opt push); reflexivity). rewrite Eq in H.
  unfold g_emit in H. destruct xs as [| x xs']; [congruence |]. cbn [fst snd] in H. unfold g_follow, g_leave in H. cbn [fst snd t_pop t_push Nat.leb] in H.
  assert (Ed : drop_last 1 (up ++ [l]) = up) by (unfold drop_last; rewrite app_length; cbn [length]; rewrite Nat.add_sub, firstn_app, Nat.sub_diag, firstn_all; cbn; apply app_nil_r).
  rewrite Ed, drop_last_0 in H. cbn [Nat.sub repeat Nat.add] in H. rewrite app_length. rewrite <- app_assoc in H. cbn [app] in H. exact H.
Qed.
(** A default target is followed: the lexicon is left. *)
Definition left_word (w : wrd) (new : nat) : wrd := if new =? 0 then w ++ [Exit] else removelast w.
Lemma step_leave up l w new circ p : l <> NRoot -> up <> [] -> p < length text -> n_pick l (skipn p text) = None ->
  reach (Cfg (up ++ [l]) w new circ p) (Cfg up (left_word w new) (new - 1) (if existsb (triple_eqb (p, length up, 0)) circ then [] else (p, length up, 0) :: circ) p).
Proof.
  intros Hl Hup Hp Ef. pose proof (parse_default l p Hp Ef) as H0. assert (Hd : dt_of l = Target 1 []) by (destruct l; try reflexivity; congruence). rewrite Hd in H0.
  pose proof (reach_default _ _ n_consume n_parse text (up ++ [l]) l w new circ _ _ _ (last_opt_app up l) H0 eq_refl eq_refl) as H.
  assert (Ec : l_clip (length (up ++ [l])) (Target 1 (@nil nlex)) = Target 1 []).
  { unfold l_clip. cbn [t_pop]. rewrite app_length. cbn [length]. destruct up; [congruence |]. cbn [length Nat.eqb negb andb].
    match goal with |- (if ?x then _ else _) = _ => assert (Hx : x = false) by (apply Nat.leb_gt; lia); rewrite Hx end. reflexivity. }
  rewrite Ec in H. cbn [t_pop t_push i_pos] in H.
  assert (Ed : drop_last 1 (up ++ [l]) = up) by (unfold drop_last; rewrite app_length; cbn [length]; rewrite Nat.add_sub, firstn_app, Nat.sub_diag, firstn_all; cbn; apply app_nil_r).
  rewrite Ed in H. unfold l_circle, g_follow, g_leave in H. cbn [fst snd t_pop t_push length Nat.eqb negb andb map] in H. unfold left_word. rewrite app_nil_r in H.
  destruct new as [| new]; cbn [Nat.leb Nat.eqb Nat.sub] in *.
  - cbn [repeat Nat.add] in H. rewrite drop_last_0, app_nil_r in H. destruct (existsb _ circ); exact H.
  - rewrite Nat.add_0_r, app_nil_r in H. assert (Ew : drop_last 1 w = removelast w) by (unfold drop_last; rewrite removelast_firstn_len; f_equal; lia). rewrite Ew in H. destruct (existsb _ circ); exact H.
Qed.

(** All that was read is the word [W], if the lexicons [rest] are left. *)
Definition before (p : nat) (circ : list (nat * nat * nat)) : Prop := forall q a b, In (q, a, b) circ -> q < p.
Definition pend (up rest : list nlex) (W : wrd) (p : nat) (c : cfg) : Prop :=
  exists w new circ, c = Cfg (up ++ rest) w new circ p /\ new <= length rest /\ drop_last new w ++ repeat Exit (length rest - new) = W /\ new <= length w /\ before p circ.
Lemma before_nil p : before p [].
Proof. intros q a b []. Qed.
Lemma before_le p q circ : before p circ -> p <= q -> before q circ.
Proof. intros H Hq x a b Hin. specialize (H x a b Hin). lia. Qed.
Lemma pend_up up l rest W p c : pend (up ++ [l]) rest W p c -> pend up (l :: rest) (W ++ [Exit]) p c.
Proof.
  intros (w & new & circ & -> & H1 & <- & H2 & H3). exists w, new, circ. rewrite <- app_assoc. split; [reflexivity |]. cbn [length]. split; [lia |]. split; [| tauto].
  rewrite <- app_assoc. f_equal. replace (S (length rest) - new) with (length rest - new + 1) by lia. rewrite repeat_app. reflexivity.
Qed.
Lemma gap_lt pre e s : text = pre ++ e ++ s -> length pre <= length (pre ++ e).
Proof. intros _. rewrite app_length. lia. Qed.
Lemma pend_gap up rest W l pre e s c : last_opt (up ++ rest) = Some l -> skips l -> Forall (fun c => n_sep uspace c = true) e -> match s with [] => True | c :: _ => n_sep uspace c = false end ->
  text = pre ++ e ++ s -> pend up rest W (length pre) c -> exists c', pend up rest W (length (pre ++ e)) c' /\ reach c c'.
Proof.
  intros Hlast Hl He Hs E (w & new & circ & -> & H1 & H2 & H3 & H4). exists (Cfg (up ++ rest) w new circ (length (pre ++ e))).
  split; [exists w, new, circ; repeat split; auto; eapply before_le; [exact H4 | eapply gap_lt; exact E] |].
  destruct (exists_last (l := up ++ rest)) as (k & x & Ek). { intros E0. rewrite E0 in Hlast. discriminate. }
  rewrite Ek in *. rewrite last_opt_app in Hlast. injection Hlast as ->. eapply step_gap; eassumption.
Qed.
Lemma left_word_pend l k' (w : wrd) new W : new <= length (k' ++ [l : nlex]) -> drop_last new w ++ repeat Exit (length (k' ++ [l]) - new) = W -> new <= length w ->
  new - 1 <= length k' /\ drop_last (new - 1) (left_word w new) ++ repeat Exit (length k' - (new - 1)) = W /\ new - 1 <= length (left_word w new).
Proof.
  intros H1 H2 H3. rewrite app_length in *. cbn [length] in *. split; [lia |]. unfold left_word. destruct new as [| new]; cbn [Nat.eqb Nat.sub].
  - rewrite !drop_last_0 in *. rewrite !Nat.sub_0_r in *. split; [| lia]. rewrite <- H2, <- app_assoc. f_equal. replace (length k' + 1) with (S (length k')) by lia. reflexivity.
  - rewrite Nat.sub_0_r. rewrite <- H2. split.
    + replace (length k' + 1 - S new) with (length k' - new) by lia. f_equal. unfold drop_last. rewrite removelast_firstn_len, firstn_firstn, firstn_length. f_equal. lia.
    + rewrite removelast_firstn_len, firstn_length. lia.
Qed.
(** At [p] the lexicons [rest] are left. *)
Definition added (p : nat) (circ circ' : list (nat * nat * nat)) : Prop := forall q a b, In (q, a, b) circ' -> In (q, a, b) circ \/ q = p /\ b = 0.
Lemma pop_all up W p : up <> [] -> p < length text -> forall rest w new circ, Forall (fun l => l <> NRoot /\ n_pick l (skipn p text) = None) rest ->
  new <= length rest -> drop_last new w ++ repeat Exit (length rest - new) = W -> new <= length w ->
  exists circ', reach (Cfg (up ++ rest) w new circ p) (Cfg up W 0 circ' p) /\ added p circ circ'.
Proof.
  intros Hup Hp rest. induction rest as [| l rest IH] using rev_ind; intros w new circ Hr H1 H2 H3.
  - cbn in H1. assert (new = 0) by lia. subst new. rewrite drop_last_0 in H2. cbn in H2. rewrite !app_nil_r in *. subst W. exists circ. split; [apply reach_refl | left; auto].
  - apply Forall_app in Hr as [Hr Hl]. inversion Hl as [| ? ? [Hl1 Hl2] _]; subst.
    assert (Hne : up ++ rest <> []) by (destruct up; [congruence | discriminate]).
    pose proof (step_leave (up ++ rest) l w new circ p Hl1 Hne Hp Hl2) as St.
    destruct (left_word_pend l rest w new _ H1 eq_refl H3) as (G1 & G2 & G3).
    destruct (IH (left_word w new) (new - 1) (if existsb (triple_eqb (p, length (up ++ rest), 0)) circ then [] else (p, length (up ++ rest), 0) :: circ) Hr G1 G2 G3) as (circ' & Hre & Ha).
    exists circ'. rewrite app_assoc. split; [eapply reach_trans; [exact St |]; exact Hre |]. intros q a b Hin. destruct (Ha q a b Hin) as [Hi | Hi]; [| now right].
    destruct (existsb _ circ); [destruct Hi |]. destruct Hi as [Hi | Hi]; [injection Hi as <- <- <-; now right | now left].
Qed.
Lemma pend_pop up W p rest c : up <> [] -> p < length text -> Forall (fun l => l <> NRoot /\ n_pick l (skipn p text) = None) rest -> pend up rest W p c ->
  exists circ, reach c (Cfg up W 0 circ p) /\ forall q a b, In (q, a, b) circ -> q < p \/ q = p /\ b = 0.
Proof.
  intros Hup Hp Hr (w & new & circ & -> & H1 & H2 & H3 & H4). destruct (pop_all up W p Hup Hp rest w new circ Hr H1 H2 H3) as (circ' & Hre & Ha).
  exists circ'. split; [exact Hre |]. intros q a b Hin. destruct (Ha q a b Hin) as [Hi | Hi]; [left; exact (H4 _ _ _ Hi) | now right].
Qed.
(** Lexicons that have just been entered are left. *)
Lemma start_pop up p : up <> [] -> p < length text -> forall rest w k circ, Forall (fun l => l <> NRoot /\ n_pick l (skipn p text) = None) rest ->
  exists circ', reach (Cfg (up ++ rest) (w ++ map Enter rest) (k + length rest) circ p) (Cfg up w k circ' p).
Proof.
  intros Hup Hp rest. induction rest as [| l rest IH] using rev_ind; intros w k circ Hr.
  - cbn. rewrite !app_nil_r, Nat.add_0_r. exists circ. apply reach_refl.
  - apply Forall_app in Hr as [Hr Hl]. inversion Hl as [| ? ? [Hl1 Hl2] _]; subst.
    assert (Hne : up ++ rest <> []) by (destruct up; [congruence | discriminate]).
    pose proof (step_leave (up ++ rest) l (w ++ map Enter (rest ++ [l])) (k + length (rest ++ [l])) circ p Hl1 Hne Hp Hl2) as St.
    rewrite app_length in St. cbn [length] in St. unfold left_word in St. replace (k + (length rest + 1) =? 0) with false in St by (symmetry; apply Nat.eqb_neq; lia).
    rewrite map_app, app_assoc in St. cbn [map] in St. rewrite removelast_last in St. replace (k + (length rest + 1) - 1) with (k + length rest) in St by lia.
    edestruct (IH w k) as (circ' & Hre); [exact Hr |]. exists circ'. rewrite app_length. cbn [length]. rewrite map_app, !app_assoc. cbn [map]. eapply reach_trans; [exact St | exact Hre].
Qed.

(** ** A character that is no part of a number *)

Definition chain : list nlex := [NNumber; NP6; NP3; NP2; N99].
(** The root enters the other lexicons, at the next position if it has done this before. *)
Lemma step_root W circ p : p < length text ->
  reach (Cfg [NRoot] W 0 circ p) (if existsb (triple_eqb (p, 1, 5)) circ then Cfg (NRoot :: chain) (W ++ map Enter chain) 5 [] (p + 1)
                                  else Cfg (NRoot :: chain) (W ++ map Enter chain) 5 ((p, 1, 5) :: circ) p).
Proof.
  intros Hp. pose proof (parse_default NRoot p Hp eq_refl) as H0.
  pose proof (reach_default _ _ n_consume n_parse text [NRoot] NRoot W 0 circ _ _ _ eq_refl H0 eq_refl eq_refl) as H.
  change (l_clip (length [NRoot]) (dt_of NRoot)) with (Target 0 chain) in H. cbv zeta in H. unfold g_follow, g_leave in H. cbn [fst snd t_pop t_push i_pos Nat.leb Nat.sub] in H.
  rewrite !drop_last_0 in H. unfold l_circle in H. change (length chain) with 5 in H. cbn [length Nat.eqb negb andb repeat Nat.add app] in H.
  assert (Hlt : (p <? length text) = true) by lia. rewrite Hlt in H. destruct (existsb _ circ); exact H.
Qed.
Fixpoint sim (fuel d : nat) (K : list (nat * nat)) : bool :=
  match fuel with
  | 0 => false
  | S fuel => match d with
              | 0 => if existsb (fun x => (fst x =? 1) && (snd x =? 5)) K then true else sim fuel 5 ((1, 5) :: K)
              | S d => sim fuel d (if existsb (fun x => (fst x =? S d) && (snd x =? 0)) K then [] else (S d, 0) :: K)
              end
  end.
Definition at_p (p : nat) (x : nat * nat) : nat * nat * nat := (p, fst x, snd x).
Lemma exists_at p a b K circ : before p circ -> existsb (triple_eqb (p, a, b)) (map (at_p p) K ++ circ) = existsb (fun x => (fst x =? a) && (snd x =? b)) K.
Proof.
  intros Hb. rewrite existsb_app. replace (existsb (triple_eqb (p, a, b)) circ) with false.
  - rewrite orb_false_r. induction K as [| [x y] K IH]; cbn [map existsb]; [reflexivity |]. rewrite IH. f_equal. unfold at_p, triple_eqb. cbn [fst snd]. rewrite Nat.eqb_refl, (Nat.eqb_sym x), (Nat.eqb_sym y). reflexivity.
  - symmetry. apply Bool.not_true_iff_false. intros Hx. apply existsb_exists in Hx as ([[q x] y] & Hin & Hq). specialize (Hb _ _ _ Hin). unfold triple_eqb in Hq. cbn [fst snd] in Hq. apply andb_true_iff in Hq as [Hq _]. apply andb_true_iff in Hq as [Hq _]. apply Nat.eqb_eq in Hq. cbn in Hq. lia.
Qed.
Lemma sim_reach W p : p < length text -> (forall l, skips l -> n_pick l (skipn p text) = None) -> forall fuel rest w new K circ,
  Forall (fun l => l <> NRoot) rest -> new <= length rest -> drop_last new w ++ repeat Exit (length rest - new) = W -> new <= length w -> before p circ ->
  sim fuel (length rest) K = true -> reach (Cfg (NRoot :: rest) w new (map (at_p p) K ++ circ) p) (Cfg (NRoot :: chain) (W ++ map Enter chain) 5 [] (p + 1)).
Proof.
  intros Hp Hn. assert (Hnone : forall l, l <> NRoot -> n_pick l (skipn p text) = None).
  { intros l Hl. destruct l; try (apply Hn; split; discriminate); [congruence | reflexivity]. }
  induction fuel as [| fuel IH]; intros rest w new K circ Hr H1 H2 H3 Hb Hs; [discriminate |]. cbn [sim] in Hs.
  destruct rest as [| l0 rest0] using rev_ind; [| clear IHrest0].
  - cbn [length] in *. assert (new = 0) by lia. subst new. rewrite drop_last_0 in H2. cbn in H2. rewrite app_nil_r in H2. subst w.
    pose proof (step_root W (map (at_p p) K ++ circ) p Hp) as St. rewrite (exists_at p 1 5 K circ Hb) in St. destruct (existsb _ K); [exact St |].
    eapply reach_trans; [exact St |]. apply (IH chain (W ++ map Enter chain) 5 ((1, 5) :: K) circ); auto.
    + repeat constructor; discriminate.
    + rewrite drop_last_app by (cbn; lia). change (drop_last 5 (map Enter chain)) with (@nil (sym nlex nact)). cbn [length chain Nat.sub repeat]. now rewrite !app_nil_r.
    + rewrite app_length. cbn. lia.
  - rewrite app_length in Hs. cbn [length] in Hs. rewrite Nat.add_1_r in Hs. cbn match in Hs. apply Forall_app in Hr as [Hr Hl]. inversion Hl as [| ? ? Hl0 _]; subst.
    pose proof (step_leave (NRoot :: rest0) l0 w new (map (at_p p) K ++ circ) p Hl0 ltac:(discriminate) Hp (Hnone _ Hl0)) as St. cbn [length] in St.
    rewrite (exists_at p (S (length rest0)) 0 K circ Hb) in St.
    destruct (left_word_pend l0 rest0 w new _ H1 eq_refl H3) as (G1 & G2 & G3). eapply reach_trans; [exact St |].
    destruct (existsb _ K).
    + apply (IH rest0 _ _ [] []); auto using before_nil.
    + apply (IH rest0 _ _ ((S (length rest0), 0) :: K) circ); auto.
Qed.
Lemma sim_ok d : d <= 5 -> sim 60 d [] = true.
Proof. intros H. do 6 (destruct d as [| d]; [reflexivity |]). lia. Qed.
Lemma skip_char W p rest c : p < length text -> (forall l, skips l -> n_pick l (skipn p text) = None) -> Forall (fun l => l <> NRoot) rest -> length rest <= 5 ->
  pend [NRoot] rest W p c -> reach c (Cfg (NRoot :: chain) (W ++ map Enter chain) 5 [] (p + 1)).
Proof.
  intros Hp Hn Hr Hlen (w & new & circ & -> & H1 & H2 & H3 & H4). exact (sim_reach W p Hp Hn 60 rest w new [] circ Hr H1 H2 H3 H4 (sim_ok _ Hlen)).
Qed.
Lemma fresh_pend W p circ : before p circ -> pend [NRoot] chain W p (Cfg (NRoot :: chain) (W ++ map Enter chain) 5 circ p).
Proof.
  intros Hb. exists (W ++ map Enter chain), 5, circ. split; [reflexivity |]. split; [cbn; lia |]. rewrite app_length. split; [| split; [cbn; lia | exact Hb]].
  rewrite drop_last_app by (cbn; lia). change (drop_last 5 (map Enter chain)) with (@nil (sym nlex nact)). cbn. now rewrite !app_nil_r.
Qed.
End Runs.
