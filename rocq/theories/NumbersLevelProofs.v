(** Reading the parts of a numeral. *)
From Verif Require Import Base BaseFacts TargetModel TargetSpec LexerModel LexerSpec TargetProofs LexerProofs LexiconModel LexiconSpec TreeModel TreeSpec TreeProofs BuildModel BuildProofs
  TransformModel TransformSpec TransformTextProofs MachineProofs GeneratorProofs IniRunProofs NumbersModel NumbersSpec NumbersRunProofs.
From Coq Require Import ZArith ZifyBool.

Section Level.
Variable uspace : nat -> bool.
Variable umatch : nat -> nat -> bool.
Variable ulower : nat -> str.
Variable g : nlang.
Variable text : str.
Notation n_pick := (n_pick uspace umatch g).
Notation n_parse := (n_parse uspace umatch g).
Notation reach := (reach n_consume n_parse text).
Notation wrd := (list (sym nlex nact)).
Notation pend := (pend).
Hypothesis Hg : exists r, g_99rules g = (ASkip, []) :: r.
Hypothesis Hsep : forall s, sep_hit uspace s <> None -> g_99 g s = sep_hit uspace s.

(** ** Values *)

Definition nitems (ns : list (node nlex nact)) : list nitem :=
  concat (map (items_of (fun _ => tt) (fun l => l) (fun _ => tt) (fun _ : unit => n_methods ulower g) false) ns).
Lemma nitems_app a b : nitems (a ++ b) = nitems a ++ nitems b.
Proof. unfold nitems. now rewrite map_app, concat_app. Qed.
Definition gives (ns : list (node nlex nact)) (zs : list Z) : Prop := Forall2 (fun i z => exists nm, i = IObj nm (Some (VNum z))) (nitems ns) zs.
Lemma gives_app a b za zb : gives a za -> gives b zb -> gives (a ++ b) (za ++ zb).
Proof. unfold gives. rewrite nitems_app. apply Forall2_app. Qed.
Definition sum (zs : list Z) : Z := fold_left Z.add zs 0%Z.
Lemma sum_app a b : sum (a ++ b) = (sum a + sum b)%Z.
Proof.
  unfold sum. rewrite fold_left_app. generalize (fold_left Z.add a 0%Z). intros z. rewrite <- (Z.add_0_r z) at 1. generalize 0%Z. revert z.
  induction b as [| x b IH]; intros z y; cbn [fold_left]; [reflexivity |]. rewrite <- Z.add_assoc. apply IH.
Qed.
Lemma calm (is : list nitem) zs : Forall2 (fun i z => exists nm, i = IObj nm (Some (VNum z))) is zs -> existsb n_raised is = false.
Proof. induction 1 as [| i z is zs [nm ->] _ IH]; [reflexivity | exact IH]. Qed.
Lemma factor_objs f (is : list nitem) zs : Forall2 (fun i z => exists nm, i = IObj nm (Some (VNum z))) is zs -> forall vs r, factor_loop f vs (is ++ r) = factor_loop f (vs ++ zs) r.
Proof.
  induction 1 as [| i z is zs [nm ->] _ IH]; intros vs r; [now rewrite app_nil_r |]. cbn [app factor_loop obj_of]. rewrite IH, <- app_assoc. reflexivity.
Qed.
Definition is_factor (P : nlex) (f : Z) : Prop := forall cs, nitems [Ctx P cs] = [IObj P (if existsb n_raised (nitems cs) then None else n_factor f (nitems cs))].
Lemma factor_plain P f ns zs : is_factor P f -> gives ns zs -> gives [Ctx P ns] [sum zs].
Proof.
  intros HP H. unfold gives. rewrite HP, (calm _ _ H). unfold n_factor. rewrite <- (app_nil_r (nitems ns)), (factor_objs f _ _ H). cbn. constructor; [eexists; reflexivity | constructor].
Qed.
Lemma factor_times P f ns zs t : is_factor P f -> gives ns zs -> gives [Ctx P (ns ++ [Tok t])] [(f * match zs with [] => 1 | _ => sum zs end)%Z].
Proof.
  intros HP H. unfold gives. rewrite HP, nitems_app. change (nitems [Tok t]) with [@IToken nlex nact NR nlex t].
  rewrite existsb_app, (calm _ _ H). cbn [existsb n_raised orb]. unfold n_factor. rewrite (factor_objs f _ _ H). cbn [factor_loop app option_map].
  constructor; [| constructor]. exists P. do 3 f_equal. destruct zs; [now rewrite Z.mul_1_r | reflexivity].
Qed.

(** ** Texts *)

Lemma gap_sep e : gap e -> Forall (fun c => n_sep uspace c = true) e.
Proof.
  apply Forall_impl. intros c H. cbn in H. unfold n_sep, n_space. repeat (destruct H as [<- | H]; [reflexivity |]). destruct H.
Qed.
Lemma letter_not_sep p c : 97 <= p <= 122 -> letter p c -> n_sep uspace c = false /\ c < 128.
Proof.
  intros Hp H. assert (Hc : 65 <= c <= 90 \/ 97 <= c <= 122) by (destruct H as [-> | [_ H]]; lia). unfold n_sep, n_space.
  assert (Hlt : (c <? 128) = true) by lia. rewrite Hlt. lia.
Qed.

(** ** Reading *)

(** What may follow. *)
Variable after : str -> Prop.
Definition reads {X} (C : list nlex) (R : X -> str -> Prop) (v : X -> Z) : Prop :=
  forall x s0 s pre up w k circ, up <> [] -> R x s0 -> text = pre ++ s0 ++ s -> after s ->
  exists rest body zs c', reach (Cfg (up ++ C) (w ++ map Enter C) (k + length C) circ (length pre)) c'
    /\ pend up rest (w ++ words body) (length (pre ++ s0)) c' /\ Forall (fun l => In l (NP1 :: C)) rest /\ gives body zs /\ zs <> [] /\ sum zs = v x /\ length rest <= length C.

Section Big.
Variable P : nlex.
Variable C : list nlex.
Variable word : str.
Variable factor : Z.
Context {X : Type}.
Variable R : X -> str -> Prop.
Variable v : X -> Z.
Hypothesis HR : reads C R v.
Hypothesis HP : skips P.
Hypothesis HC : Forall skips C.
Hypothesis HN99 : exists C', C = C' ++ [N99].
Hypothesis Hrule : nth_error (n_rules g P) 1 = Some (NUMBER, OUT ++ map RLex C).
Hypothesis Hfactor : is_factor P factor.
Hypothesis Hword : exists p r, word = p :: r /\ 97 <= p <= 122.
Hypothesis Hpick : forall t s, spelled word t -> n_pick P (t ++ s) = Some (1, length t, []).
Hypothesis Hquiet : forall t s l, spelled word t -> In l (NP1 :: C) -> n_pick l (t ++ s) = None.
Hypothesis Hafter : forall e t s, gap e -> spelled word t -> after (e ++ t ++ s).

Lemma spelled_first t : spelled word t -> exists c r, t = c :: r /\ n_sep uspace c = false.
Proof.
  destruct Hword as (p & r & -> & Hp). intros H. inversion H as [| ? c ? r' Hc Hr]; subst. exists c, r'. split; [reflexivity |]. exact (proj1 (letter_not_sep p c Hp Hc)).
Qed.
Lemma rest_quiet rest t s p : Forall (fun l => In l (NP1 :: C)) rest -> spelled word t -> skipn p text = t ++ s -> Forall (fun l => l <> NRoot /\ n_pick l (skipn p text) = None) rest.
Proof.
  intros Hr Ht E. eapply Forall_impl; [| exact Hr]. intros l Hl. split; [| rewrite E; now apply Hquiet].
  destruct Hl as [<- | Hl]; [discriminate |]. rewrite Forall_forall in HC. exact (proj1 (HC l Hl)).
Qed.
Lemma rest_skips l rest : Forall (fun l => In l (NP1 :: C)) rest -> In l rest -> skips l.
Proof.
  intros Hr Hl. rewrite Forall_forall in Hr. destruct (Hr l Hl) as [<- | H]; [split; discriminate |]. rewrite Forall_forall in HC. now apply HC.
Qed.
(** The big word. *)
Lemma the_word t s pre up w new circ : up <> [] -> spelled word t -> text = pre ++ t ++ s ->
  reach (Cfg (up ++ [P]) w new circ (length pre)) (Cfg (up ++ C) ((w ++ [Leaf (Token (length pre) t tt None)]) ++ Exit :: map Enter C) (length C) [] (length (pre ++ t))).
Proof.
  intros Hup Ht E. destruct (spelled_first t Ht) as (c & r & Et & _). assert (Hne : t <> []) by (rewrite Et; discriminate).
  pose proof (step_match uspace umatch g text Hg up P pre t s 1 [] NUMBER C w new circ HP Hup E Hne (Hpick t s Ht) Hrule) as H.
  cbv zeta in H. assert (Ex : act_lexemes (fun _ _ => []) text NUMBER (length pre) t (Some (Mtch (length pre) (length pre + length t) 1 (moved (length pre) []))) = [Lexeme (length pre) t tt]) by (destruct t; [congruence | reflexivity]).
  rewrite Ex in H. apply H. discriminate.
Qed.
Lemma big_reads : reads (P :: C) (big_text R word) (big_value factor v).
Proof.
  intros x s0 s pre up w k circ Hup Hx E Ha. assert (HupP : up ++ [P] <> []) by (destruct up; discriminate).
  assert (Ew : w ++ map Enter (P :: C) = (w ++ [Enter P]) ++ map Enter C) by (cbn [map]; now rewrite <- app_assoc).
  assert (Eu : up ++ P :: C = (up ++ [P]) ++ C) by (now rewrite <- app_assoc).
  assert (Ek : k + length (P :: C) = S k + length C) by (cbn [length]; lia).
  rewrite Ew, Eu, Ek. destruct x as [x | a b].
  - destruct (HR x s0 s pre (up ++ [P]) (w ++ [Enter P]) (S k) circ HupP Hx E Ha) as (rest & body & zs & c' & H1 & H2 & H3 & H4 & H5 & H6 & H7).
    exists (P :: rest), [Ctx P body], [sum zs], c'. split; [exact H1 |]. split; [| split; [| split; [| split; [| split]]]].
    + apply (pend_up umatch) in H2. replace (w ++ words [Ctx P body]) with (((w ++ [Enter P]) ++ words body) ++ [Exit]); [exact H2 |].
      unfold words at 2. cbn [map concat]. rewrite word_ctx, app_nil_r, <- !app_assoc. reflexivity.
    + constructor; [right; now left |]. eapply Forall_impl; [| exact H3]. cbn. tauto.
    + now apply factor_plain with (f := factor).
    + discriminate.
    + cbn [big_value]. rewrite <- H6. apply Z.add_0_l.
    + cbn [length]. lia.
  - destruct Hx as (sa & sw & sb & -> & Hsa & (e & t & -> & He & Ht) & Hsb).
    destruct (spelled_first t Ht) as (c0 & r0 & Et & Hc0).
    (* up to the big word *)
    assert (Hfirst : exists body zs new circ', reach (Cfg ((up ++ [P]) ++ C) ((w ++ [Enter P]) ++ map Enter C) (S k + length C) circ (length pre))
        (Cfg (up ++ [P]) ((w ++ [Enter P]) ++ words body) new circ' (length (pre ++ sa ++ e))) /\ gives body zs
        /\ match a with Some x => zs <> [] /\ sum zs = v x | None => zs = [] end).
    { assert (Esk : skipn (length (pre ++ sa ++ e)) text = t ++ sb ++ s). { rewrite E, <- !app_assoc. rewrite !app_assoc. rewrite <- (app_assoc _ t), <- (app_assoc _ (t ++ sb)), <- (app_assoc t). apply skipn_pre. }
      assert (Hlt : length (pre ++ sa ++ e) < length text). { rewrite E, Et, !app_length. cbn [length]. lia. }
      assert (Hnosep : match t ++ sb ++ s with [] => True | c :: _ => n_sep uspace c = false end) by (rewrite Et; exact Hc0).
      destruct a as [x |].
      - cbn [maybe] in Hsa. destruct (HR x sa ((e ++ t) ++ sb ++ s) pre (up ++ [P]) (w ++ [Enter P]) (S k) circ HupP Hsa) as (rest & body & zs & c' & H1 & H2 & H3 & H4 & H5 & H6 & H7).
        { rewrite E, <- !app_assoc. reflexivity. }
        { rewrite <- app_assoc. now apply Hafter. }
        assert (Hlast : exists l, last_opt ((up ++ [P]) ++ rest) = Some l /\ skips l).
        { destruct rest as [| l rest _] using rev_ind; [exists P; rewrite app_nil_r, last_opt_app; tauto |]. exists l. rewrite app_assoc, last_opt_app. split; [reflexivity |]. apply (rest_skips l _ H3), in_elt. }
        destruct Hlast as (l & Hl1 & Hl2).
        destruct (pend_gap uspace umatch g text Hg Hsep (up ++ [P]) rest ((w ++ [Enter P]) ++ words body) l (pre ++ sa) e (t ++ sb ++ s) c' Hl1 Hl2 (gap_sep e He) Hnosep) as (c2 & G1 & G2).
        { rewrite E, <- !app_assoc. reflexivity. } { exact H2. }
        rewrite <- (app_assoc pre sa e) in G1.
        destruct (pend_pop uspace umatch g text Hg (up ++ [P]) _ _ rest c2 HupP Hlt (rest_quiet rest t (sb ++ s) _ H3 Ht Esk) G1) as (circ' & G3 & _).
        exists body, zs, 0, circ'. split; [| tauto]. eapply reach_trans; [exact H1 |]. eapply reach_trans; [exact G2 |]. exact G3.
      - cbn [maybe] in Hsa. subst sa. cbn [app] in *. destruct HN99 as (C' & EC). exists [], [].
        destruct (start_pop uspace umatch g text Hg (up ++ [P]) (length (pre ++ e)) HupP Hlt C (w ++ [Enter P]) (S k) circ) as (circ' & G).
        { apply (rest_quiet C t (sb ++ s)); [apply Forall_forall; intros l Hl; now right | exact Ht | exact Esk]. }
        exists (S k), circ'. split; [| split; [constructor | reflexivity]]. unfold words. cbn [map concat]. rewrite app_nil_r. eapply reach_trans; [| exact G].
        rewrite EC. rewrite (app_assoc (up ++ [P])). apply (step_gap uspace umatch g text Hg Hsep ((up ++ [P]) ++ C') N99 pre e (t ++ sb ++ s)); [split; discriminate | now apply gap_sep | exact Hnosep |].
        rewrite E, <- !app_assoc. reflexivity. }
    destruct Hfirst as (body & zs & new & circ' & F1 & F2 & F3).
    pose proof (the_word t (sb ++ s) (pre ++ sa ++ e) up ((w ++ [Enter P]) ++ words body) new circ' Hup Ht) as F4.
    specialize (F4 ltac:(rewrite E, <- !app_assoc; reflexivity)).
    set (tk := Token (length (pre ++ sa ++ e)) t tt None) in *.
    assert (F5 : gives [Ctx P (body ++ [Tok tk])] [(factor * match zs with [] => 1 | _ => sum zs end)%Z]) by (now apply factor_times).
    set (w2 := w ++ words [Ctx P (body ++ [Tok tk])]).
    assert (Ew2 : (((w ++ [Enter P]) ++ words body) ++ [Leaf tk]) ++ Exit :: map Enter C = w2 ++ map Enter C).
    { unfold w2. unfold words at 2. cbn [map concat]. rewrite word_ctx, words_app. change (words [Tok tk]) with [@Leaf nlex nact tk]. rewrite app_nil_r, <- !app_assoc. cbn [app]. rewrite <- !app_assoc. reflexivity. }
    rewrite Ew2 in F4. destruct b as [y |].
    + cbn [maybe] in Hsb. destruct (HR y sb s ((pre ++ sa ++ e) ++ t) up w2 0 [] Hup Hsb ltac:(rewrite E, <- !app_assoc; reflexivity) Ha) as (rest & body2 & zs2 & c' & H1 & H2 & H3 & H4 & H5 & H6 & H7).
      exists rest, ([Ctx P (body ++ [Tok tk])] ++ body2), ([(factor * match zs with [] => 1 | _ => sum zs end)%Z] ++ zs2), c'.
      split; [eapply reach_trans; [exact F1 |]; eapply reach_trans; [exact F4 |]; exact H1 |].
      split; [| split; [| split; [| split; [| split]]]].
      * rewrite words_app, app_assoc. fold w2. replace (pre ++ sa ++ (e ++ t) ++ sb) with (((pre ++ sa ++ e) ++ t) ++ sb) by (now rewrite <- !app_assoc). exact H2.
      * eapply Forall_impl; [| exact H3]. cbn. tauto.
      * now apply gives_app.
      * discriminate.
      * rewrite sum_app, H6. cbn [big_value]. change (sum [?z]) with (0 + z)%Z. unfold sum at 1. cbn [fold_left]. rewrite Z.add_0_l. f_equal. f_equal.
        destruct a; [destruct F3 as [F3 F3']; destruct zs; [congruence | exact F3'] | now rewrite F3].
      * cbn [length]. lia.
    + cbn [maybe] in Hsb. subst sb. exists C, [Ctx P (body ++ [Tok tk])], [(factor * match zs with [] => 1 | _ => sum zs end)%Z].
      eexists. split; [eapply reach_trans; [exact F1 |]; exact F4 |]. split; [| split; [| split; [| split; [| split]]]].
      * fold w2. exists (w2 ++ map Enter C), (length C), []. split; [f_equal; f_equal; rewrite app_nil_r; now rewrite <- !app_assoc |]. split; [lia |]. rewrite app_length, map_length.
        split; [| split; [lia | apply before_nil]]. rewrite drop_last_app by (rewrite map_length; lia). rewrite Nat.sub_diag. cbn [repeat]. rewrite app_nil_r.
        replace (drop_last (length C) (map Enter C)) with (@nil (sym nlex nact)); [now rewrite app_nil_r |]. unfold drop_last. rewrite map_length, Nat.sub_diag. reflexivity.
      * apply Forall_forall. intros l Hl. right. now right.
      * exact F5.
      * discriminate.
      * unfold sum at 1. cbn [fold_left big_value]. rewrite Z.add_0_l, Z.add_0_r. f_equal.
        destruct a; [destruct F3 as [F3 F3']; destruct zs; [congruence | exact F3'] | now rewrite F3].
      * cbn [length]. lia.
Qed.
End Big.
End Level.
