(** Reading texts with numerals. *)
From Verif Require Import Base BaseFacts TargetModel TargetSpec LexerModel LexerSpec TargetProofs LexerProofs LexiconModel LexiconSpec TreeModel TreeSpec TreeProofs BuildModel BuildProofs
  TransformModel TransformSpec TransformTextProofs MachineProofs GeneratorProofs IniRunProofs NumbersModel NumbersSpec NumbersRunProofs NumbersLevelProofs.
From Coq Require Import ZArith ZifyBool.

Notation between := NumbersSpec.between.

Section Text.
Variable uspace : nat -> bool.
Variable umatch : nat -> nat -> bool.
Variable ulower : nat -> str.
Variable g : nlang.
Variable text : str.
Notation n_pick := (n_pick uspace umatch g).
Notation n_parse := (n_parse uspace umatch g).
Notation reach := (reach n_consume n_parse text).
Notation wrd := (list (sym nlex nact)).
Notation cfg := (cfg nlex nact).
Notation gives := (gives ulower g).
Hypothesis Hg : exists r, g_99rules g = (ASkip, []) :: r.
Hypothesis Hsep : forall s, sep_hit uspace s <> None -> g_99 g s = sep_hit uspace s.
Variable after : str -> Prop.
Variable below : nat -> str -> Prop.
Variables hundred thousand million : str.
Hypothesis Hreads : reads uspace umatch ulower g text after [NP6; NP3; NP2; N99] (numeral_text below hundred thousand million) numeral_value.
Hypothesis Hafter_end : after [].
Hypothesis Hafter : forall c s, gap [c] \/ other c -> after (c :: s).
Hypothesis Hother : forall c s l, other c -> skips l -> n_pick l (c :: s) = None.
Hypothesis Hend : forall l, n_pick l [] = None.
Definition calm_start (s : str) : Prop := match s with [] => True | c :: _ => n_sep uspace c = false end.
Hypothesis Hstart : forall x s, numeral_text below hundred thousand million x s ->
  exists e t, s = e ++ t /\ gap e /\ t <> [] /\ calm_start t /\ numeral_text below hundred thousand million x t.

Definition at_root (W : wrd) (p : nat) (c : cfg) : Prop := exists circ, c = Cfg [NRoot] W 0 circ p /\ before p circ.
Definition at_fresh (W : wrd) (p : nat) (c : cfg) : Prop := exists circ, c = Cfg (NRoot :: chain) (W ++ map Enter chain) 5 circ p /\ before p circ.
Definition at_number (W : wrd) (p : nat) (c : cfg) : Prop := exists rest, pend [NRoot] (NNumber :: rest) W p c /\ Forall skips rest /\ length rest <= 4.
Definition open (W : wrd) (p : nat) (c : cfg) : Prop := at_root W p c \/ at_fresh W p c.
Definition idle (W : wrd) (p : nat) (c : cfg) : Prop := open W p c \/ at_number W p c.

Lemma root_pend W p c : at_root W p c -> pend [NRoot] [] W p c.
Proof.
  intros (circ & -> & Hb). exists W, 0, circ. split; [reflexivity |]. split; [apply le_n |]. split; [rewrite drop_last_0; apply app_nil_r |]. split; [lia | exact Hb].
Qed.
Lemma idle_pend W p c : idle W p c -> exists rest, pend [NRoot] rest W p c /\ Forall (fun l => l <> NRoot) rest /\ length rest <= 5.
Proof.
  intros [[H | (circ & -> & Hb)] | (rest & H & Hs & Hl)].
  - exists []. split; [exact (root_pend _ _ _ H) |]. split; [constructor | cbn; lia].
  - exists chain. split; [now apply fresh_pend |]. split; [repeat constructor; discriminate | cbn; lia].
  - exists (NNumber :: rest). split; [exact H |]. split; [| cbn [length]; lia]. constructor; [discriminate |]. eapply Forall_impl; [| exact Hs]. intros l [Hl0 _]. exact Hl0.
Qed.
(** From the root into the other lexicons, then over the gap. *)
Lemma root_enter W p circ : p < length text -> (forall q a b, In (q, a, b) circ -> q < p \/ q = p /\ b = 0) ->
  reach (Cfg [NRoot] W 0 circ p) (Cfg (NRoot :: chain) (W ++ map Enter chain) 5 ((p, 1, 5) :: circ) p).
Proof.
  intros Hp Hc. pose proof (step_root uspace umatch g text Hg W circ p Hp) as St. destruct (existsb (triple_eqb (p, 1, 5)) circ) eqn:Ex; [| exact St].
  apply existsb_exists in Ex as ([[q a] b] & Hin & Hq). unfold triple_eqb in Hq. apply andb_true_iff in Hq as [Hq1 Hq3]. apply andb_true_iff in Hq1 as [Hq1 Hq2].
  apply Nat.eqb_eq in Hq1, Hq3. cbn in Hq1, Hq3. destruct (Hc q a b Hin) as [H | [_ H]]; [lia |]. exfalso. subst b. discriminate.
Qed.
Lemma gap_fresh W pre e s circ : e <> [] -> gap e -> calm_start s -> text = pre ++ e ++ s -> (forall q a b, In (q, a, b) circ -> q <= length pre) ->
  exists c', reach (Cfg (NRoot :: chain) (W ++ map Enter chain) 5 circ (length pre)) c' /\ at_fresh W (length (pre ++ e)) c'.
Proof.
  intros Hne He Hs E Hc. eexists. split; [exact (step_gap uspace umatch g text Hg Hsep [NRoot; NNumber; NP6; NP3; NP2] N99 pre e s _ _ circ ltac:(split; discriminate) (gap_sep uspace e He) Hs E) |].
  exists circ. split; [reflexivity |]. intros q a b Hin. specialize (Hc q a b Hin). rewrite app_length. destruct e; [congruence | cbn [length]; lia].
Qed.
Lemma gap_run W pre e s c : e <> [] -> gap e -> calm_start s -> text = pre ++ e ++ s ->
  (open W (length pre) c -> exists c', reach c c' /\ open W (length (pre ++ e)) c') /\ (at_number W (length pre) c -> exists c', reach c c' /\ idle W (length (pre ++ e)) c').
Proof.
  intros Hne He Hs E. assert (Hlt : length pre < length text) by (rewrite E, !app_length; destruct e; [congruence | cbn [length]; lia]).
  assert (Hnum : forall circ, (forall q a b, In (q, a, b) circ -> q < length pre \/ q = length pre /\ b = 0) ->
    exists c', reach (Cfg [NRoot] W 0 circ (length pre)) c' /\ at_fresh W (length (pre ++ e)) c').
  { intros circ Hc. destruct (gap_fresh W pre e s ((length pre, 1, 5) :: circ) Hne He Hs E) as (c' & H1 & H2).
    { intros q a b [Hin | Hin]; [injection Hin as <- <- <-; lia |]. destruct (Hc _ _ _ Hin); lia. }
    exists c'. split; [| exact H2]. eapply reach_trans; [exact (root_enter W _ circ Hlt Hc) | exact H1]. }
  split; [intros [(circ & -> & Hb) | (circ & -> & Hb)] | intros (rest & Hp & Hr & Hl)].
  - destruct (Hnum circ) as (c' & H1 & H2). { intros q a b Hin. left. exact (Hb _ _ _ Hin). } exists c'. unfold idle, open. tauto.
  - destruct (gap_fresh W pre e s circ Hne He Hs E) as (c' & H1 & H2). { intros q a b Hin. specialize (Hb _ _ _ Hin). lia. } exists c'. unfold idle, open. tauto.
  - destruct rest as [| l rest _] using rev_ind.
    + destruct (pend_pop uspace umatch g text Hg [NRoot] W (length pre) [NNumber] c ltac:(discriminate) Hlt ltac:(constructor; [split; [discriminate | reflexivity] | constructor]) Hp) as (circ & H1 & H2).
      destruct (Hnum circ H2) as (c' & H3 & H4). exists c'. split; [exact (reach_trans _ _ _ _ _ _ _ _ H1 H3) |]. unfold idle, open. tauto.
    + assert (Hsk : skips l) by (apply Forall_app in Hr as [_ Hr]; now inversion Hr).
      destruct (pend_gap uspace umatch g text Hg Hsep [NRoot] (NNumber :: rest ++ [l]) W l pre e s c) as (c' & H1 & H2); auto.
      { change ([NRoot] ++ NNumber :: rest ++ [l]) with ((NRoot :: NNumber :: rest) ++ [l]). apply last_opt_app. } { now apply gap_sep. }
      exists c'. split; [exact H2 |]. right. exists (rest ++ [l]). tauto.
Qed.
Lemma other_run W pre o s c : other o -> text = pre ++ o :: s -> idle W (length pre) c -> exists c', reach c c' /\ at_fresh W (length (pre ++ [o])) c'.
Proof.
  intros Ho E Hi. destruct (idle_pend _ _ _ Hi) as (rest & Hp & Hr & Hl). assert (Hlt : length pre < length text) by (rewrite E, app_length; cbn [length]; lia).
  eexists. split; [apply (skip_char uspace umatch g text Hg W (length pre) rest c Hlt) |].
  - intros l Hsk. rewrite E, skipn_pre. now apply Hother.
  - exact Hr.
  - exact Hl.
  - exact Hp.
  - exists []. split; [now rewrite app_length | apply before_nil].
Qed.
Lemma other_calm o : other o -> n_sep uspace o = false.
Proof.
  intros (H1 & H2 & H3 & H4). destruct (n_sep uspace o) eqn:E; [| reflexivity]. exfalso. apply H2. unfold n_sep, n_space in E.
  assert (Hlt : (o <? 128) = true) by lia. rewrite Hlt in E. assert (9 <= o <= 13 \/ 28 <= o <= 32 \/ o = 45) by lia. cbn. lia.
Qed.
(** Text between numerals: runs of gaps, and other characters. *)
Lemma split_gap e : between e -> exists a b, e = a ++ b /\ gap a /\ (b = [] \/ exists o b', b = o :: b' /\ other o /\ between b').
Proof.
  induction 1 as [| c e Hc He IH]; [exists [], []; repeat constructor |]. destruct Hc as [Hc | Hc].
  - destruct IH as (a & b & -> & Ha & Hb). exists (c :: a), b. split; [reflexivity |]. split; [constructor; [now inversion Hc | exact Ha] | exact Hb].
  - exists [], (c :: e). split; [reflexivity |]. split; [constructor |]. right. exists c, e. tauto.
Qed.
Definition st (b : bool) (W : wrd) (p : nat) (c : cfg) : Prop := if b then open W p c else at_number W p c.
Lemma st_idle b W p c : st b W p c -> idle W p c.
Proof. destruct b; [now left | now right]. Qed.
Lemma between_run W n : forall e pre s c b, length e <= n -> between e -> calm_start s -> text = pre ++ e ++ s -> st b W (length pre) c ->
  exists c' b', reach c c' /\ st b' W (length (pre ++ e)) c' /\ (b = true \/ Exists other e -> b' = true).
Proof.
  induction n as [| n IH]; intros e pre s c b Hn He Hs E Hi.
  - destruct e; [| cbn in Hn; lia]. exists c, b. rewrite app_nil_r. split; [apply reach_refl |]. split; [exact Hi |]. intros [H | H]; [exact H | inversion H].
  - destruct (split_gap e He) as (a & r & -> & Ha & Hr).
    assert (Hsb : calm_start (r ++ s)) by (destruct Hr as [-> | (o & b' & -> & Ho & _)]; [exact Hs | exact (other_calm o Ho)]).
    rewrite <- app_assoc in E.
    assert (H1 : exists c1 b1, reach c c1 /\ st b1 W (length (pre ++ a)) c1 /\ (b = true -> b1 = true)).
    { destruct (list_eq_dec Nat.eq_dec a []) as [-> | Hne]; [exists c, b; rewrite app_nil_r; split; [apply reach_refl | tauto] |].
      destruct (gap_run W pre a (r ++ s) c Hne Ha Hsb E) as [G1 G2]. destruct b; cbn [st] in Hi.
      - destruct (G1 Hi) as (c1 & R1 & O1). exists c1, true. tauto.
      - destruct (G2 Hi) as (c1 & R1 & [O1 | O1]); [exists c1, true | exists c1, false]; split; try exact R1; split; try exact O1; congruence. }
    destruct H1 as (c1 & b1 & R1 & S1 & B1). destruct Hr as [-> | (o & r' & -> & Ho & Hr')].
    + exists c1, b1. rewrite app_nil_r. split; [exact R1 |]. split; [exact S1 |]. intros [H | H]; [exact (B1 H) |]. exfalso.
      clear - Ha H. induction H as [c e Hc | c e _ IH]; inversion Ha as [| ? ? G1 G2]; subst; [destruct Hc as (_ & Hc & _); contradiction | auto].
    + destruct (other_run W (pre ++ a) o (r' ++ s) c1 Ho ltac:(rewrite E, <- !app_assoc; reflexivity) (st_idle _ _ _ _ S1)) as (c2 & R2 & S2).
      destruct (IH r' ((pre ++ a) ++ [o]) s c2 true) as (c3 & b3 & R3 & S3 & B3); auto.
      { rewrite app_length in Hn. cbn [length] in Hn. lia. } { rewrite E, <- !app_assoc. reflexivity. } { now right. }
      exists c3, b3. split; [eapply reach_trans; [exact R1 |]; eapply reach_trans; [exact R2 | exact R3] |].
      split; [| intros _; apply B3; now left]. replace (pre ++ a ++ o :: r') with (((pre ++ a) ++ [o]) ++ r') by (now rewrite <- !app_assoc). exact S3.
Qed.

Lemma number_gives ns zs : gives ns zs -> gives [Ctx NNumber ns] [sum zs].
Proof.
  intros H. unfold NumbersLevelProofs.gives. assert (E : nitems ulower g [Ctx NNumber ns] = [IObj NNumber (if existsb n_raised (nitems ulower g ns) then None else n_number (nitems ulower g ns))]) by reflexivity.
  rewrite E, (calm _ _ H). constructor; [| constructor]. exists NNumber. f_equal. unfold n_number. clear E. unfold NumbersLevelProofs.gives in H. induction H as [| i z is zs [nm ->] _ IH]; [reflexivity |].
  cbn [sum_opt obj_of]. destruct (sum_opt obj_of is) as [y |]; [| discriminate]. cbn [option_map] in *. injection IH as IH. do 2 f_equal.
  change (z :: zs) with ([z] ++ zs). rewrite sum_app, <- IH. unfold sum. cbn [fold_left]. lia.
Qed.
Lemma numeral_run W x t pre s c : numeral_text below hundred thousand million x t -> t <> [] -> text = pre ++ t ++ s -> after s -> open W (length pre) c ->
  exists n c', reach c c' /\ at_number (W ++ words [n]) (length (pre ++ t)) c' /\ gives [n] [numeral_value x].
Proof.
  intros Hx Hne E Ha Ho. assert (Hlt : length pre < length text) by (rewrite E, !app_length; destruct t; [congruence | cbn [length]; lia]).
  assert (H1 : exists circ, reach c (Cfg (NRoot :: chain) (W ++ map Enter chain) 5 circ (length pre))).
  { destruct Ho as [(circ & -> & Hb) | (circ & -> & Hb)].
    - eexists. apply (root_enter W (length pre) circ Hlt). intros q a b Hin. left. exact (Hb _ _ _ Hin).
    - exists circ. apply reach_refl. }
  destruct H1 as (circ & R1). destruct (Hreads x t s pre [NRoot; NNumber] (W ++ [Enter NNumber]) 1 circ ltac:(discriminate) Hx E Ha) as (rest & body & zs & c' & R2 & Hp & Hr & Hz & Hne' & Hv & Hl).
  exists (Ctx NNumber body), c'. split; [| split].
  - eapply reach_trans; [exact R1 |]. rewrite <- app_assoc in R2. exact R2.
  - exists rest. split; [| split; [| exact Hl]].
    + change [NRoot; NNumber] with ([NRoot] ++ [NNumber]) in Hp. apply (pend_up umatch) in Hp. replace (W ++ words [Ctx NNumber body]) with (((W ++ [Enter NNumber]) ++ words body) ++ [Exit]); [exact Hp |].
      unfold words at 2. cbn [map concat]. rewrite word_ctx, app_nil_r, <- !app_assoc. reflexivity.
    + eapply Forall_impl; [| exact Hr]. intros l Hin. cbn in Hin. repeat (destruct Hin as [<- | Hin]; [split; discriminate |]). destruct Hin.
  - rewrite <- Hv. now apply number_gives.
Qed.
Lemma between_app a b : between a -> between b -> between (a ++ b).
Proof. intros Ha Hb. now apply Forall_app. Qed.
Lemma gap_between e : gap e -> between e.
Proof. apply Forall_impl. intros c H. left. constructor; [exact H | constructor]. Qed.
Lemma numerals_run xs s : numerals below hundred thousand million xs s -> forall W e pre c b, between e -> text = pre ++ e ++ s -> st b W (length pre) c -> (xs <> [] -> b = true \/ Exists other e) ->
  exists ns c', reach c c' /\ idle (W ++ words ns) (length text) c' /\ gives ns (map numeral_value xs).
Proof.
  induction 1 as [e' He' | x xs s e' r Hx He' Hex Hn IH Hlast]; intros W e pre c b He E Hi Hb.
  - destruct (between_run W (length (e ++ e')) (e ++ e') pre [] c b (le_n _) (between_app _ _ He He') I) as (c' & b' & R & S' & _).
    { now rewrite app_nil_r. } { exact Hi. }
    exists [], c'. split; [exact R |]. split; [| constructor]. unfold words. cbn. rewrite app_nil_r. rewrite E. apply (st_idle b'). exact S'.
  - destruct (Hstart x s Hx) as (e0 & t & -> & He0 & Hne & Hcalm & Ht).
    destruct (between_run W (length (e ++ e0)) (e ++ e0) pre (t ++ e' ++ r) c b (le_n _) (between_app _ _ He (gap_between _ He0))) as (c1 & b1 & R1 & S1 & B1).
    { destruct t; [congruence | exact Hcalm]. } { rewrite E, <- !app_assoc. reflexivity. } { exact Hi. }
    assert (b1 = true). { apply B1. destruct (Hb ltac:(discriminate)) as [H | H]; [now left | right; apply Exists_app; now left]. } subst b1.
    destruct (numeral_run W x t (pre ++ e ++ e0) (e' ++ r) c1 Ht Hne) as (n & c2 & R2 & S2 & G2).
    { rewrite E, <- !app_assoc. reflexivity. }
    { destruct He' as [| y e' Hy He']; [| now apply Hafter]. cbn [app]. destruct xs as [| x' xs]; [rewrite (Hlast eq_refl); exact Hafter_end |]. exfalso. specialize (Hex ltac:(discriminate)). inversion Hex. }
    { exact S1. }
    destruct (IH (W ++ words [n]) e' ((pre ++ e ++ e0) ++ t) c2 false He') as (ns & c3 & R3 & S3 & G3).
    { rewrite E, <- !app_assoc. reflexivity. } { exact S2. } { intros H. right. now apply Hex. }
    exists ([n] ++ ns), c3. split; [eapply reach_trans; [exact R1 |]; eapply reach_trans; [exact R2 | exact R3] |].
    split; [rewrite words_app, app_assoc; exact S3 |]. cbn [map]. change (numeral_value x :: map numeral_value xs) with ([numeral_value x] ++ map numeral_value xs). now apply gives_app.
Qed.
Lemma gives_objs ns zs : gives ns zs -> objs (nitems ulower g ns) = Some zs.
Proof.
  intros H. unfold NumbersLevelProofs.gives in H. induction H as [| i z is zs [nm ->] _ IH]; [reflexivity |]. cbn [objs obj_of]. now rewrite IH.
Qed.
Lemma text_read xs : numerals_text below hundred thousand million xs text ->
  exists n evs ns, l_run n_consume n_parse text n (l_init [NRoot] 0) = (evs, None) /\ build_tree NRoot (map fst evs) = Some (Ctx NRoot ns)
    /\ n_call n_root (ItemList tt (nitems ulower g ns)) = Some (VNums (map numeral_value xs)).
Proof.
  intros (e & s & E & He & Hs).
  destruct (numerals_run xs s Hs [] e [] (Cfg [NRoot] [] 0 [] 0) true He E) as (ns & c & R & S & G).
  { left. exists []. split; [reflexivity | apply before_nil]. } { now left. }
  destruct (idle_pend _ _ _ S) as (rest & (w & new & circ & -> & H1 & H2 & H3 & _) & _ & _).
  destruct (exists_last (l := [NRoot] ++ rest) ltac:(discriminate)) as (up & l & El). rewrite El in R.
  destruct (reach_finish nlex nact n_consume n_parse text NRoot (up ++ [l]) l w new circ (length text) R (last_opt_app up l)) as (n & evs & cs & Hr & Hb & Hw).
  { apply (parse_end uspace umatch g text Hg). apply Hend. }
  rewrite <- El in Hw. cbn [app length Nat.sub] in Hw. rewrite Nat.sub_0_r, H2 in Hw. cbn [app] in Hw. apply words_inj in Hw. subst cs.
  exists n, evs, ns. split; [exact Hr |]. split; [exact Hb |]. unfold n_call. cbn [il_items]. rewrite (calm _ _ G). unfold n_root. now rewrite (gives_objs ns _ G).
Qed.
End Text.
