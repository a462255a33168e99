(** English numerals are read. *)
From Verif Require Import Base BaseFacts TargetModel TargetSpec LexerModel LexerSpec TargetProofs LexerProofs LexiconModel LexiconSpec TreeModel TreeSpec TreeProofs BuildModel BuildProofs
  TransformModel TransformSpec TransformTextProofs MachineProofs GeneratorProofs IniRunProofs NumbersModel NumbersSpec NumbersRunProofs NumbersLevelProofs NumbersTextProofs.
From Coq Require Import ZArith ZifyBool String.
Open Scope string_scope. Open Scope list_scope. Open Scope nat_scope.
Notation length := List.length.

Section Same.
Variable umatch : nat -> nat -> bool.
Notation starts := (starts umatch).
Notation longest := (longest umatch).
Definition lower (w : str) : Prop := Forall (fun p => 97 <= p <= 122) w.
(** Two texts that start with the same words. *)
Definition same (s s' : str) : Prop := forall w, lower w -> starts w s = starts w s'.
Lemma same_refl s : same s s.
Proof. intros w _. reflexivity. Qed.
Lemma same_letter p c s s' : 97 <= p <= 122 -> letter p c -> same s s' -> same (c :: s) (p :: s').
Proof.
  intros Hp Hc Hs w Hw. destruct w as [| q w]; [reflexivity |]. inversion Hw as [| ? ? Hq Hw']; subst. cbn [NumbersModel.starts]. rewrite (Hs w Hw'). f_equal.
  unfold ieq. assert (Hc' : c < 128) by (destruct Hc as [-> | [_ H]]; lia). assert (H1 : (c <? 128) = true) by lia. assert (H2 : (p <? 128) = true) by lia. rewrite H1, H2. f_equal.
  unfold a_low. destruct Hc as [-> | [_ H]]; [reflexivity |]. destruct ((65 <=? c) && (c <=? 90)) eqn:E1; destruct ((65 <=? p) && (p <=? 90)) eqn:E2; lia.
Qed.
Lemma same_spelled u t s s' : lower u -> spelled u t -> same s s' -> same (t ++ s) (u ++ s').
Proof.
  intros Hu Ht Hs. revert Hu. induction Ht as [| p c u t Hc Ht IH]; intros Hu; [exact Hs |]. inversion Hu as [| ? ? Hp Hu']; subst. cbn [app]. apply same_letter; auto.
Qed.
Lemma no_letter c q : gap [c] \/ other c -> 97 <= q <= 122 -> ieq umatch q c = false.
Proof.
  intros Hc Hq. unfold ieq. assert (H : c < 128 /\ ~ 65 <= c <= 90 /\ ~ 97 <= c <= 122).
  { destruct Hc as [Hc | (H1 & _ & H2 & H3)]; [| tauto]. inversion Hc as [| ? ? H _]; subst. cbn in H. repeat (destruct H as [<- | H]; [lia |]). destruct H. }
  assert (Hlt : (c <? 128) = true) by lia. rewrite Hlt. unfold a_low. destruct ((65 <=? c) && (c <=? 90)) eqn:E; apply Nat.eqb_neq; lia.
Qed.
Lemma same_stop c s : gap [c] \/ other c -> same (c :: s) (44 :: s).
Proof.
  intros Hc w Hw. destruct w as [| q w]; [reflexivity |]. inversion Hw as [| ? ? Hq _]; subst. cbn [NumbersModel.starts]. rewrite (no_letter c q Hc Hq), (no_letter 44 q); [reflexivity | | exact Hq].
  right. repeat split; cbn; lia.
Qed.
Lemma same_longest s s' ws : same s s' -> Forall lower ws -> longest ws s = longest ws s'.
Proof.
  intros Hs Hw. unfold NumbersModel.longest. generalize (@None nat). induction Hw as [| w ws Hl _ IH]; intros b; [reflexivity |]. cbn [fold_left]. rewrite (Hs w Hl). apply IH.
Qed.
End Same.
Lemma lower_dec ws : forallb (forallb (fun p => (97 <=? p) && (p <=? 122))) ws = true -> Forall lower ws.
Proof. intros H. rewrite forallb_forall in H. apply Forall_forall. intros w Hw. specialize (H w Hw). rewrite forallb_forall in H. apply Forall_forall. intros p Hp. specialize (H p Hp). lia. Qed.
Lemma spelled_length u t : spelled u t -> length t = length u.
Proof. induction 1; cbn; congruence. Qed.
Lemma spelled_ne u t : u <> [] -> spelled u t -> t <> [].
Proof. intros Hu H. destruct H as [| p c u' t' _ _]; [congruence | discriminate]. Qed.

Section English.
Variable uspace : nat -> bool.
Variable umatch : nat -> nat -> bool.
Variable ulower : nat -> str.
Notation eng := (english uspace umatch).
Notation n_pick := (n_pick uspace umatch eng).
Definition HUNDRED := codes "hundred". Definition THOUSAND := codes "thousand". Definition MILLION := codes "million".
(** What may follow a number. *)
Definition en_after (s : str) : Prop :=
  s = [] \/ (exists c r, s = c :: r /\ (gap [c] \/ other c)) \/ exists w t r, In w [HUNDRED; THOUSAND; MILLION] /\ s = t ++ r /\ spelled w t.
Lemma big_lower w : In w [HUNDRED; THOUSAND; MILLION] -> lower w.
Proof. intros H. pose proof (lower_dec [HUNDRED; THOUSAND; MILLION] eq_refl) as G. rewrite Forall_forall in G. now apply G. Qed.
Lemma after_same s : en_after s -> exists s', same umatch s s' /\ (s' = [] \/ (exists r, s' = 44 :: r) \/ exists w r, In w [HUNDRED; THOUSAND; MILLION] /\ s' = w ++ r).
Proof.
  intros [-> | [(c & r & -> & Hc) | (w & t & r & Hw & -> & Ht)]].
  - exists []. split; [apply same_refl | now left].
  - exists (44 :: r). split; [now apply same_stop |]. right. left. now exists r.
  - exists (w ++ r). split; [apply same_spelled; [now apply big_lower | exact Ht | apply same_refl] |]. right. right. now exists w, r.
Qed.
Lemma no_sep_hit u t s : lower u -> u <> [] -> spelled u t -> sep_hit uspace (t ++ s) = None.
Proof.
  intros Hu Hne Ht. destruct Ht as [| p c u t Hc Ht]; [congruence |]. inversion Hu as [| ? ? Hp _]; subst. unfold sep_hit. cbn [app n_span].
  now rewrite (proj1 (letter_not_sep uspace p c Hp Hc)).
Qed.
Lemma words_lower : Forall lower EN_TENS /\ Forall lower EN_TO19 /\ Forall lower (slc 1 10 EN_TO19).
Proof. split; [| split]; apply lower_dec; reflexivity. Qed.
(** What the patterns find in a text that starts with letters depends on the small letters. *)
Lemma pick_word l u t s s' : skips l -> lower u -> u <> [] -> spelled u t -> same umatch s s' -> n_pick l (t ++ s) =
  match l with
  | NRoot | NNumber => None
  | NP6 => one_hit 1 (longest umatch [MILLION] (u ++ s'))
  | NP3 => one_hit 1 (longest umatch [THOUSAND] (u ++ s'))
  | NP2 => one_hit 1 (longest umatch [HUNDRED] (u ++ s'))
  | N99 => first_of [one_hit 1 (longest umatch EN_TENS (u ++ s')); one_hit 2 (longest umatch EN_TO19 (u ++ s'))]
  | NP1 => one_hit 1 (longest umatch (slc 1 10 EN_TO19) (u ++ s'))
  end.
Proof.
  intros Hl Hu Hne Ht Hs. pose proof (no_sep_hit u t s Hu Hne Ht) as Hsep. pose proof (same_spelled umatch u t s s' Hu Ht Hs) as Hsame. destruct words_lower as (L1 & L2 & L3).
  assert (H : forall ws, Forall lower ws -> longest umatch ws (t ++ s) = longest umatch ws (u ++ s')) by (intros ws; now apply same_longest).
  assert (Ho : forall o : option hit, orelse o None = o) by (now intros []).
  assert (Em : wd "million" = MILLION) by reflexivity. assert (Et : wd "thousand" = THOUSAND) by reflexivity. assert (Eh : wd "hundred" = HUNDRED) by reflexivity.
  assert (Lm : Forall lower [MILLION]) by (apply lower_dec; reflexivity). assert (Lt : Forall lower [THOUSAND]) by (apply lower_dec; reflexivity). assert (Lh : Forall lower [HUNDRED]) by (apply lower_dec; reflexivity).
  assert (Hn : forall o : option hit, orelse None o = o) by reflexivity.
  destruct l; destruct Hl as [Hl1 Hl2]; try congruence; cbn [NumbersModel.n_pick g_99 english g_100 g_1000 g_1000000 first_of]; rewrite Hsep, Hn.
  - rewrite Em, (H _ Lm). apply Ho.
  - rewrite Et, (H _ Lt). apply Ho.
  - rewrite Eh, (H _ Lh). apply Ho.
  - rewrite (H _ L1), (H _ L2). reflexivity.
  - rewrite (H _ L3). apply Ho.
Qed.
Lemma quiet_word w t s l : In w [HUNDRED; THOUSAND; MILLION] -> spelled w t ->
  In l (match w with 104 :: _ => [NP1; N99] | 116 :: _ => [NP1; NP2; N99] | _ => [NP1; NP3; NP2; N99] end) -> n_pick l (t ++ s) = None.
Proof.
  intros Hw Ht Hl. assert (Hne : w <> []) by (intros ->; cbn in Hw; repeat (destruct Hw as [Hw | Hw]; [discriminate |]); destruct Hw).
  assert (Hsk : skips l). { destruct Hw as [<- | [<- | [<- | []]]]; cbn in Hl; repeat (destruct Hl as [<- | Hl]; [split; discriminate |]); destruct Hl. }
  rewrite (pick_word l w t s s Hsk (big_lower w Hw) Hne Ht (same_refl _ s)).
  destruct Hw as [<- | [<- | [<- | []]]]; cbn in Hl; repeat (destruct Hl as [<- | Hl]; [vm_compute; reflexivity |]); destruct Hl.
Qed.
Lemma lower_word w t : lower w -> spelled w t -> n_lower ulower t = w.
Proof.
  intros Hw Ht. revert Hw. induction Ht as [| p c w t Hc _ IH]; intros Hw; [reflexivity |]. inversion Hw as [| ? ? Hp Hw']; subst. unfold n_lower. cbn [flat_map]. fold (n_lower ulower t). rewrite (IH Hw').
  assert (Hc' : c < 128) by (destruct Hc as [-> | [_ H]]; lia). assert (H1 : (c <? 128) = true) by lia. rewrite H1. cbn [app]. f_equal. unfold a_low.
  destruct Hc as [-> | [_ H]]; [| assert (H2 : (65 <=? c) && (c <=? 90) = true) by lia; rewrite H2; lia]. assert (H2 : (65 <=? p) && (p <=? 90) = false) by lia. now rewrite H2.
Qed.

Notation gives := (gives ulower eng).
Lemma word_gives l t z : l = N99 \/ l = NP1 -> lookup (n_lower ulower (k_text t)) (g_values eng) = Some z -> gives [Ctx l [Tok t]] [z].
Proof.
  intros Hl H. unfold NumbersLevelProofs.gives. assert (E : nitems ulower eng [Ctx l [Tok t]] = [IObj l (n_99 ulower eng [IToken t])]) by (destruct Hl as [-> | ->]; reflexivity).
  rewrite E. unfold n_99. cbn [sum_opt]. rewrite H. cbn [option_map]. rewrite Z.add_0_r. constructor; [now exists l | constructor].
Qed.

(** The words for the numbers below 20. *)
Lemma small_word n : n < 20 -> lower (nth_word n en_small) /\ nth_word n en_small <> [] /\ lookup (nth_word n en_small) (g_values eng) = Some (Z.of_nat n)
  /\ (forall s', s' = [] \/ (exists r, s' = 44 :: r) \/ (exists w r, In w [HUNDRED; THOUSAND; MILLION] /\ s' = w ++ r) ->
      first_of [one_hit 1 (longest umatch EN_TENS (nth_word n en_small ++ s')); one_hit 2 (longest umatch EN_TO19 (nth_word n en_small ++ s'))] = Some (2, length (nth_word n en_small), [])).
Proof.
  intros Hn. pose proof (lower_dec (map codes en_small) eq_refl) as HL. split; [| split; [| split]].
  - rewrite Forall_forall in HL. apply HL. unfold nth_word. apply (in_map codes), nth_In. exact Hn.
  - do 20 (destruct n as [| n]; [discriminate |]). lia.
  - do 20 (destruct n as [| n]; [vm_compute; reflexivity |]). lia.
  - clear HL. intros s' Hs'. do 20 (destruct n as [| n]; [destruct Hs' as [-> | [(r & ->) | (w & r & [<- | [<- | [<- | []]]] & ->)]]; vm_compute; reflexivity |]). lia.
Qed.
Lemma tens_word i : i < 8 -> lower (nth_word i en_tens) /\ nth_word i en_tens <> [] /\ lookup (nth_word i en_tens) (g_values eng) = Some (20 + 10 * Z.of_nat i)%Z
  /\ (forall s', first_of [one_hit 1 (longest umatch EN_TENS (nth_word i en_tens ++ s')); one_hit 2 (longest umatch EN_TO19 (nth_word i en_tens ++ s'))] = Some (1, length (nth_word i en_tens), [])).
Proof.
  intros Hn. pose proof (lower_dec (map codes en_tens) eq_refl) as HL. split; [| split; [| split]].
  - rewrite Forall_forall in HL. apply HL. unfold nth_word. apply (in_map codes), nth_In. exact Hn.
  - do 8 (destruct i as [| i]; [discriminate |]). lia.
  - do 8 (destruct i as [| i]; [vm_compute; reflexivity |]). lia.
  - clear HL. intros s'. do 8 (destruct i as [| i]; [vm_compute; reflexivity |]). lia.
Qed.
Lemma unit_word j s' : 0 < j < 10 -> one_hit 1 (longest umatch (slc 1 10 EN_TO19) (nth_word j en_small ++ s')) = Some (1, length (nth_word j en_small), []).
Proof. intros Hj. destruct j as [| j]; [lia |]. do 9 (destruct j as [| j]; [vm_compute; reflexivity |]). lia. Qed.

Section Text.
Variable text : str.
Notation n_parse := (n_parse uspace umatch eng).
Notation reach := (reach n_consume n_parse text).
Notation reads := (reads uspace umatch ulower eng text en_after).
Lemma Hg : exists r, g_99rules eng = (ASkip, []) :: r.
Proof. eexists. reflexivity. Qed.
Lemma Hsep : forall s, sep_hit uspace s <> None -> g_99 eng s = sep_hit uspace s.
Proof. intros s H. cbn [g_99 english first_of]. destruct (sep_hit uspace s); [reflexivity | congruence]. Qed.
Lemma calm_word u t s : lower u -> u <> [] -> spelled u t -> match t ++ s with [] => True | c :: _ => n_sep uspace c = false end.
Proof. intros Hu Hne Ht. destruct Ht as [| p c u t Hc _]; [congruence |]. inversion Hu as [| ? ? Hp _]; subst. cbn. exact (proj1 (letter_not_sep uspace p c Hp Hc)). Qed.
(** A gap, then a word that is found. *)
Lemma one_word l u e t s i push pre up w new circ : skips l -> up <> [] -> lower u -> u <> [] -> gap e -> spelled u t -> text = pre ++ e ++ t ++ s ->
  n_pick l (t ++ s) = Some (i, length u, []) -> nth_error (n_rules eng l) i = Some (NUMBER, OUT ++ map RLex push) ->
  reach (Cfg (up ++ [l]) w new circ (length pre))
        (Cfg (up ++ push) ((w ++ [Leaf (Token (length (pre ++ e)) t tt None)]) ++ Exit :: map Enter push) (length push) [] (length (pre ++ e ++ t))).
Proof.
  intros Hl Hup Hu Hne He Ht E Hpick Hrule. assert (Hnt : t <> []) by (intros ->; inversion Ht; congruence).
  eapply reach_trans; [exact (step_gap uspace umatch eng text Hg Hsep up l pre e (t ++ s) w new circ Hl (gap_sep uspace e He) (calm_word u t s Hu Hne Ht) E) |].
  rewrite <- (spelled_length u t Ht) in Hpick.
  pose proof (step_match uspace umatch eng text Hg up l (pre ++ e) t s i [] NUMBER push w new circ Hl Hup ltac:(rewrite E, <- !app_assoc; reflexivity) Hnt Hpick Hrule) as H.
  cbv zeta in H. assert (Ex : act_lexemes (fun _ _ => []) text NUMBER (length (pre ++ e)) t (Some (Mtch (length (pre ++ e)) (length (pre ++ e) + length t) i (moved (length (pre ++ e)) []))) = [Lexeme (length (pre ++ e)) t tt]) by (destruct t; [congruence | reflexivity]).
  rewrite Ex, <- (app_assoc pre e t) in H. apply H. discriminate.
Qed.
Lemma reads_99 : reads [N99] (fun n => after_gap (en_below_100 n)) Z.of_nat.
Proof.
  intros n s0 s pre up w k circ Hup (e & t0 & -> & He & Hn) E Ha. destruct (after_same s Ha) as (s' & Hs & Hs').
  assert (H99 : skips N99) by (split; discriminate).
  destruct Hn as [[Hn Ht] | [Hn (a & b & -> & Hta & Hb)]].
  - destruct (small_word n Hn) as (L & Hne & Hv & Hp).
    pose proof (one_word N99 _ e t0 s 2 [] pre up (w ++ [Enter N99]) (k + 1) circ H99 Hup L Hne He Ht ltac:(rewrite E, <- !app_assoc; reflexivity)) as R.
    rewrite (pick_word N99 _ t0 s s' H99 L Hne Ht Hs) in R. specialize (R (Hp s' Hs') eq_refl).
    set (tk := Token (length (pre ++ e)) t0 tt None) in *. exists [], [Ctx N99 [Tok tk]], [Z.of_nat n]. eexists. split; [exact R |]. split; [| split; [constructor |]; split; [| split; [discriminate |]]].
    + exists (w ++ words [Ctx N99 [Tok tk]]), 0, []. split; [f_equal; unfold words; cbn; rewrite <- !app_assoc; reflexivity |]. split; [cbn; lia |]. split; [rewrite drop_last_0; cbn; apply app_nil_r |]. split; [lia | apply before_nil].
    + apply word_gives; [now left |]. cbn [k_text tk]. now rewrite (lower_word _ _ L Ht).
    + split; [apply Z.add_0_l | cbn; lia].
  - assert (Hi : n / 10 - 2 < 8) by (destruct Hn; assert (n / 10 < 10) by (apply Nat.div_lt_upper_bound; lia); lia).
    destruct (tens_word _ Hi) as (L & Hne & Hv & Hp). pose proof (Nat.div_mod n 10 ltac:(lia)) as Hdm.
    assert (Hge : 2 <= n / 10) by (apply Nat.div_le_lower_bound; lia).
    pose proof (one_word N99 _ e a (b ++ s) 1 [NP1] pre up (w ++ [Enter N99]) (k + 1) circ H99 Hup L Hne He Hta ltac:(rewrite E, <- !app_assoc; reflexivity)) as R.
    rewrite (pick_word N99 _ a (b ++ s) (b ++ s) H99 L Hne Hta (same_refl _ _)) in R. specialize (R (Hp _) eq_refl).
    set (tk := Token (length (pre ++ e)) a tt None) in *. destruct Hb as [[Hmod ->] | [Hmod (e2 & t2 & -> & He2 & Ht2)]].
    + exists [NP1], [Ctx N99 [Tok tk]], [Z.of_nat n]. eexists. split; [exact R |]. split; [| split; [constructor; [now left | constructor] |]; split; [| split; [discriminate |]]].
      * exists ((w ++ words [Ctx N99 [Tok tk]]) ++ [Enter NP1]), 1, []. split; [f_equal; [unfold words; cbn; rewrite <- !app_assoc; reflexivity | now rewrite app_nil_r] |]. split; [cbn; lia |].
        split; [unfold drop_last; rewrite app_length; cbn [length]; rewrite Nat.add_sub, firstn_app, firstn_all, Nat.sub_diag; cbn; rewrite !app_nil_r; reflexivity |]. split; [rewrite app_length; cbn [length]; lia | apply before_nil].
      * apply word_gives; [now left |]. cbn [k_text tk]. rewrite (lower_word _ _ L Hta), Hv. f_equal. lia.
      * split; [apply Z.add_0_l | cbn; lia].
    + assert (Hj : 0 < n mod 10 < 10) by (pose proof (Nat.mod_upper_bound n 10 ltac:(lia)); lia). destruct (small_word (n mod 10) ltac:(lia)) as (L2 & Hne2 & Hv2 & _).
      pose proof (one_word NP1 _ e2 t2 s 1 [] (pre ++ e ++ a) up (((w ++ [Enter N99]) ++ [Leaf tk]) ++ Exit :: map Enter [NP1]) 1 [] ltac:(split; discriminate) Hup L2 Hne2 He2 Ht2 ltac:(rewrite E, <- !app_assoc; reflexivity)) as R2.
      rewrite (pick_word NP1 _ t2 s s ltac:(split; discriminate) L2 Hne2 Ht2 (same_refl _ _)) in R2. specialize (R2 (unit_word _ s Hj) eq_refl).
      set (tk2 := Token (length ((pre ++ e ++ a) ++ e2)) t2 tt None) in *.
      exists [], ([Ctx N99 [Tok tk]] ++ [Ctx NP1 [Tok tk2]]), ([20 + 10 * Z.of_nat (n / 10 - 2)] ++ [Z.of_nat (n mod 10)])%Z. eexists. split; [eapply reach_trans; [exact R | exact R2] |]. split; [| split; [constructor |]; split; [| split; [discriminate |]]].
      * exists (w ++ words ([Ctx N99 [Tok tk]] ++ [Ctx NP1 [Tok tk2]])), 0, []. split; [f_equal; [unfold words; cbn; rewrite <- !app_assoc; reflexivity | now rewrite <- !app_assoc] |]. split; [cbn; lia |].
        split; [rewrite drop_last_0; cbn; apply app_nil_r |]. split; [lia | apply before_nil].
      * apply gives_app; apply word_gives; auto; cbn [k_text tk tk2].
        -- now rewrite (lower_word _ _ L Hta).
        -- now rewrite (lower_word _ _ L2 Ht2).
      * split; [| cbn; lia]. unfold sum. cbn [app fold_left]. lia.
Qed.
Lemma after_word w : In w [HUNDRED; THOUSAND; MILLION] -> forall e t s, gap e -> spelled w t -> en_after (e ++ t ++ s).
Proof.
  intros Hw e t s He Ht. destruct He as [| c e Hc He]; right; [right; exists w, t, s; tauto |]. left. exists c, (e ++ t ++ s). split; [reflexivity |]. left. constructor; [exact Hc | constructor].
Qed.
Lemma pick_big P w t s : spelled w t -> P = NP2 /\ w = HUNDRED \/ P = NP3 /\ w = THOUSAND \/ P = NP6 /\ w = MILLION -> n_pick P (t ++ s) = Some (1, length t, []).
Proof.
  intros Ht H. rewrite (spelled_length w t Ht). assert (Hw : In w [HUNDRED; THOUSAND; MILLION]) by (destruct H as [[_ ->] | [[_ ->] | [_ ->]]]; cbn; tauto).
  rewrite (pick_word P w t s s); [| | now apply big_lower | | exact Ht | apply same_refl]; destruct H as [[-> ->] | [[-> ->] | [-> ->]]]; try (split; discriminate); try discriminate; vm_compute; reflexivity.
Qed.
Lemma reads_en : reads [NP6; NP3; NP2; N99] (numeral_text en_below_100 HUNDRED THOUSAND MILLION) numeral_value.
Proof.
  assert (Hsk : forall C, Forall (fun l => l <> NRoot /\ l <> NNumber) C -> Forall skips C) by auto.
  assert (G2 : reads [NP2; N99] (text_100 en_below_100 HUNDRED) value_100).
  { refine (big_reads uspace umatch ulower eng text Hg Hsep en_after NP2 [N99] HUNDRED 100 (fun n => after_gap (en_below_100 n)) Z.of_nat reads_99 _ _ _ eq_refl (fun cs => eq_refl) _ _ _ _).
    - split; discriminate.
    - apply Hsk. repeat constructor; discriminate.
    - now exists [].
    - exists 104, (codes "undred"). split; [reflexivity | lia].
    - intros t s Ht. apply (pick_big NP2 HUNDRED); tauto.
    - intros t s l Ht Hl. apply (quiet_word HUNDRED); [cbn; tauto | exact Ht | exact Hl].
    - apply after_word. cbn. tauto. }
  assert (G3 : reads [NP3; NP2; N99] (text_1000 en_below_100 HUNDRED THOUSAND) value_1000).
  { refine (big_reads uspace umatch ulower eng text Hg Hsep en_after NP3 [NP2; N99] THOUSAND 1000 _ value_100 G2 _ _ _ eq_refl (fun cs => eq_refl) _ _ _ _).
    - split; discriminate.
    - apply Hsk. repeat constructor; discriminate.
    - now exists [NP2].
    - exists 116, (codes "housand"). split; [reflexivity | lia].
    - intros t s Ht. apply (pick_big NP3 THOUSAND); tauto.
    - intros t s l Ht Hl. apply (quiet_word THOUSAND); [cbn; tauto | exact Ht | exact Hl].
    - apply after_word. cbn. tauto. }
  refine (big_reads uspace umatch ulower eng text Hg Hsep en_after NP6 [NP3; NP2; N99] MILLION 1000000 _ value_1000 G3 _ _ _ eq_refl (fun cs => eq_refl) _ _ _ _).
  - split; discriminate.
  - apply Hsk. repeat constructor; discriminate.
  - now exists [NP3; NP2].
  - exists 109, (codes "illion"). split; [reflexivity | lia].
  - intros t s Ht. apply (pick_big NP6 MILLION); tauto.
  - intros t s l Ht Hl. apply (quiet_word MILLION); [cbn; tauto | exact Ht | exact Hl].
  - apply after_word. cbn. tauto.
Qed.
Definition starts_well {X} (R : X -> str -> Prop) : Prop := forall x s, R x s -> exists e t, s = e ++ t /\ gap e /\ t <> [] /\ calm_start uspace t /\ R x t.
Lemma calm_app t s : t <> [] -> calm_start uspace t -> t ++ s <> [] /\ calm_start uspace (t ++ s).
Proof. destruct t; [congruence |]. intros _ H. split; [discriminate | exact H]. Qed.
Lemma big_start {X} (R : X -> str -> Prop) w : In w [HUNDRED; THOUSAND; MILLION] -> starts_well R -> starts_well (big_text R w).
Proof.
  intros Hw HR x s H. destruct x as [x | a b]; [exact (HR x s H) |]. destruct H as (sa & sw & sb & -> & Ha & (e & t & -> & He & Ht) & Hb).
  assert (Hne : w <> []) by (intros ->; cbn in Hw; repeat (destruct Hw as [Hw | Hw]; [discriminate |]); destruct Hw).
  destruct a as [x |]; cbn [maybe] in Ha.
  - destruct (HR x sa Ha) as (e0 & t0 & -> & He0 & Hne0 & Hc0 & Hx). exists e0, (t0 ++ (e ++ t) ++ sb). split; [now rewrite <- !app_assoc |]. split; [exact He0 |].
    destruct (calm_app t0 ((e ++ t) ++ sb) Hne0 Hc0) as [G1 G2]. split; [exact G1 |]. split; [exact G2 |]. exists t0, (e ++ t), sb. split; [reflexivity |]. split; [exact Hx |]. split; [exists e, t; tauto | exact Hb].
  - subst sa. exists e, (t ++ sb). split; [cbn; now rewrite <- app_assoc |]. split; [exact He |]. assert (Hnt : t <> []) by (intros ->; inversion Ht; congruence).
    assert (Hc : calm_start uspace t) by (pose proof (calm_word w t [] (big_lower w Hw) Hne Ht) as G; now rewrite app_nil_r in G).
    destruct (calm_app t sb Hnt Hc) as [G1 G2]. split; [exact G1 |]. split; [exact G2 |]. exists [], t, sb. split; [reflexivity |]. split; [reflexivity |]. split; [exists [], t; repeat split; [constructor | exact Ht] | exact Hb].
Qed.
Lemma below_start : starts_well (fun n => after_gap (en_below_100 n)).
Proof.
  intros n s (e & t & -> & He & Hn). exists e, t. split; [reflexivity |]. split; [exact He |].
  assert (G : t <> [] /\ calm_start uspace t).
  { destruct Hn as [[Hn Ht] | [Hn (a & b & -> & Hta & _)]].
    - destruct (small_word n Hn) as (L & Hne & _ & _). split; [intros ->; inversion Ht; congruence |]. pose proof (calm_word _ t [] L Hne Ht) as G. now rewrite app_nil_r in G.
    - assert (Hi : n / 10 - 2 < 8) by (destruct Hn; assert (n / 10 < 10) by (apply Nat.div_lt_upper_bound; lia); lia).
      destruct (tens_word _ Hi) as (L & Hne & _ & _). apply calm_app; [exact (spelled_ne _ a Hne Hta) |]. pose proof (calm_word _ a [] L Hne Hta) as G. now rewrite app_nil_r in G. }
  destruct G as [G1 G2]. split; [exact G1 |]. split; [exact G2 |]. exists [], t. repeat split; [constructor | exact Hn].
Qed.
Lemma other_pick c s l : other c -> skips l -> n_pick l (c :: s) = None.
Proof.
  intros Hc [H1 H2]. assert (Hs : sep_hit uspace (c :: s) = None) by (unfold sep_hit; cbn [n_span]; now rewrite (other_calm uspace c Hc)).
  assert (Hw : forall ws, Forall lower ws -> longest umatch ws (c :: s) = longest umatch ws (44 :: s)) by (intros ws; apply same_longest, same_stop; now right).
  destruct words_lower as (L1 & L2 & L3).
  destruct l; try congruence; cbn [NumbersModel.n_pick g_99 english g_100 g_1000 g_1000000 first_of]; rewrite Hs; rewrite ?(Hw _ L1), ?(Hw _ L2), ?(Hw _ L3);
    try (rewrite Hw by (apply lower_dec; reflexivity)); vm_compute; reflexivity.
Qed.
Lemma end_pick l : n_pick l [] = None.
Proof. destruct l; reflexivity. Qed.
Lemma english_read xs : en_numerals xs text ->
  exists n evs ns, l_run n_consume n_parse text n (l_init [NRoot] 0) = (evs, None) /\ build_tree NRoot (map fst evs) = Some (Ctx NRoot ns)
    /\ n_call n_root (ItemList tt (nitems ulower eng ns)) = Some (VNums (map numeral_value xs)).
Proof.
  intros H. apply (text_read uspace umatch ulower eng text Hg Hsep en_after en_below_100 HUNDRED THOUSAND MILLION reads_en); auto.
  - now left.
  - intros c s Hc. right. left. now exists c, s.
  - exact other_pick.
  - exact end_pick.
  - apply big_start; [cbn; tauto |]. apply big_start; [cbn; tauto |]. apply big_start; [cbn; tauto |]. exact below_start.
Qed.
End Text.
End English.
