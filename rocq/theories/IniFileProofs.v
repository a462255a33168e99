(** INI files: the run of the lexer, and the value that is read. *)
From Verif Require Import Base BaseFacts TargetModel TargetSpec LexerModel LexerSpec TargetProofs LexerProofs LexiconModel LexiconSpec TreeModel TreeSpec TreeProofs BuildModel BuildProofs
  TransformModel TransformSpec TransformTextProofs MachineProofs GeneratorProofs IniModel IniSpec IniTextProofs IniRunProofs IniLineProofs.
From Coq Require Import ZArith ZifyBool.

Section Files.
Variable marks : str -> nat -> option (nat * nat).
Hypothesis Hmarks : marks_ok marks.
Variable odd : str -> option nat.
Variable text : str.
Notation i_parse := (i_parse marks).
Notation reach := (reach i_consume i_parse text).
Notation items := (items odd).

Definition reads_all (ls : list line) (its : list iitem) : Prop :=
  existsb i_raised its = false /\ forall rest, clean rest ->
    clean (its ++ rest) /\ forall x, root_loop (its ++ rest) (fst x) (snd x) = root_loop rest (fst (fold_left mread ls x)) (snd (fold_left mread ls x)).
Lemma reads_all_nil : reads_all [] [].
Proof. split; [reflexivity |]. intros rest H. split; [exact H | reflexivity]. Qed.
Lemma reads_all_cons l ls a b : reads l a -> reads_all ls b -> reads_all (l :: ls) (a ++ b).
Proof.
  intros [A1 A2] [B1 B2]. split; [rewrite existsb_app, A1, B1; reflexivity |]. intros rest H. destruct (B2 rest H) as [B3 B4]. destruct (A2 _ B3) as [A3 A4].
  rewrite <- app_assoc. split; [exact A3 |]. intros [cur r]. cbn [fst snd fold_left]. rewrite A4. apply B4.
Qed.
Lemma file_run com ls u : ini_text com ls u -> forall pre w c, text = pre ++ u -> before w (length pre) c ->
  exists ns c', reads_all ls (items ns) /\ (com = false -> no_comment ns) /\ after (w ++ words ns) (length text) c' /\ reach c c'.
Proof.
  induction 1 as [| l t Hl | l t ls u Hl Hu IH]; intros pre w c E Hb.
  - exists [], c. split; [apply reads_all_nil |]. split; [intros _; constructor |]. unfold words. cbn. rewrite app_nil_r in *. split; [apply before_after; rewrite E; exact Hb | apply reach_refl].
  - assert (E1 : text = pre ++ t ++ []) by now rewrite app_nil_r.
    destruct (line_run marks Hmarks odd text com l t pre [] w c Hl E1 I Hb) as (ns & c' & H1 & H2 & H3 & H4).
    exists ns, c'. split; [rewrite <- (app_nil_r (items ns)); apply reads_all_cons; [exact H1 | apply reads_all_nil] |]. split; [exact H2 |]. split; [rewrite E; exact H3 | exact H4].
  - destruct (line_run marks Hmarks odd text com l t pre (10 :: u) w c Hl E eq_refl Hb) as (n1 & c1 & H1 & H2 & H3 & H4).
    assert (E1 : text = (pre ++ t) ++ 10 :: u) by (rewrite E, <- app_assoc; reflexivity).
    destruct (skip_line marks text (w ++ words n1) (pre ++ t) u c1 H3 E1) as (c2 & H5 & H6).
    destruct (IH ((pre ++ t) ++ [10]) (w ++ words n1) c2) as (n2 & c3 & K1 & K2 & K3 & K4); [rewrite E1, <- !app_assoc; reflexivity | exact H5 |].
    exists (n1 ++ n2), c3. split; [rewrite items_app; apply reads_all_cons; assumption |]. split; [intros Hc; apply no_comment_app; auto |].
    split; [rewrite words_app, app_assoc; exact K3 |]. eapply reach_trans; [exact H4 |]. eapply reach_trans; [exact H6 | exact K4].
Qed.

(** ** The dictionaries *)

Lemma d_set_entry {K V} eqb dec (k : K) (v : V) d : (forall a b, eqb a b = true <-> a = b) -> d_set eqb k v d = entry dec k v d.
Proof.
  intros H. induction d as [| [k' v'] d IH]; [reflexivity |]. cbn [d_set entry]. destruct (eqb k k') eqn:E, (dec k k') as [D | D].
  - now rewrite D.
  - apply H in E. contradiction.
  - apply H in D. congruence.
  - now rewrite IH.
Qed.
Lemma name_eqb_spec a b : name_eqb a b = true <-> a = b.
Proof.
  destruct a as [a |], b as [b |]; cbn; try (split; [discriminate | intros; discriminate]); [| tauto]. rewrite str_eqb_spec. split; congruence.
Qed.
Definition str_entry k v d : list (str * option str) := entry str_dec k v d.
Lemma in_section_entry cur k v r : In cur (map fst r) ->
  in_section cur k v r = entry name_dec cur (entry str_dec k v (match lookup name_dec cur r with Some d => d | None => [] end)) r.
Proof.
  induction r as [| [n d] r IH]; [contradiction |]. cbn [map fst In in_section lookup entry]. intros H. destruct (name_eqb cur n) eqn:E.
  - apply name_eqb_spec in E. subst n. destruct (name_dec cur cur) as [_ | N]; [| congruence]. rewrite (d_set_entry str_eqb str_dec); [reflexivity |]. intros. apply str_eqb_spec.
  - destruct (name_dec cur n) as [D | D]; [apply name_eqb_spec in D; congruence |]. f_equal. apply IH. destruct H as [H | H]; [congruence | exact H].
Qed.
Lemma entry_keys {K V} dec (k : K) (v : V) d x : In x (map fst (entry dec k v d)) <-> x = k \/ In x (map fst d).
Proof.
  induction d as [| [k' v'] d IH]; cbn [entry map fst In]; [split; intros [H | H]; auto; contradiction |]. destruct (dec k k') as [-> | D]; cbn [map fst In]; [intuition congruence |]. rewrite IH. intuition congruence.
Qed.
Lemma entry_ne {K V} dec (k : K) (v : V) d : entry dec k v d <> [].
Proof. destruct d as [| [k' v'] d]; cbn; [discriminate |]. destruct (dec k k'); discriminate. Qed.

Definition rel (cur : option str) (r r' : list isection) : Prop :=
  exists d rest, r = (None, d) :: rest /\ ~ In None (map fst rest) /\ r' = (match d with [] => rest | _ => r end)
    /\ match cur with None => rest = [] | Some n => In (Some n) (map fst rest) end.
Lemma read_rel ls : forall cur r r', rel cur r r' ->
  rel (fst (fold_left mread ls (cur, r))) (snd (fold_left mread ls (cur, r))) (snd (fold_left read_line ls (cur, r')))
  /\ fst (fold_left mread ls (cur, r)) = fst (fold_left read_line ls (cur, r')).
Proof.
  induction ls as [| l ls IH]; intros cur r r' H; [split; [exact H | reflexivity] |]. cbn [fold_left].
  destruct H as (d & rest & -> & H1 & -> & H2). destruct l as [| n | k v]; cbn [mread read_line].
  - apply IH. exists d, rest. auto.
  - apply IH. cbn [d_set]. rewrite (d_set_entry name_eqb name_dec) by (exact name_eqb_spec). change (name_eqb (Some n) None) with false. cbn iota.
    exists d, (entry name_dec (Some n) [] rest). split; [reflexivity |]. split; [rewrite entry_keys; intros [H | H]; [discriminate | contradiction] |].
    split; [| rewrite entry_keys; now left]. destruct d as [| e d]; [reflexivity |]. cbn [entry]. destruct (name_dec (Some n) None) as [D | D]; [discriminate | reflexivity].
  - apply IH. destruct cur as [n |].
    + cbn [in_section]. change (name_eqb (Some n) None) with false. cbn iota. rewrite (in_section_entry (Some n) k v rest H2).
      set (rest' := entry name_dec (Some n) (entry str_dec k v match lookup name_dec (Some n) rest with Some d0 => d0 | None => [] end) rest).
      exists d, rest'. split; [reflexivity |]. split; [unfold rest'; rewrite entry_keys; intros [H | H]; [discriminate | contradiction] |].
      split; [| unfold rest'; rewrite entry_keys; now left]. destruct d as [| e d]; [reflexivity |]. cbn [entry lookup]. destruct (name_dec (Some n) None) as [D | D]; [discriminate | reflexivity].
    + subst rest. cbn [in_section name_eqb]. rewrite (d_set_entry str_eqb str_dec) by (exact str_eqb_spec). exists (entry str_dec k v d), []. split; [reflexivity |]. split; [exact H1 |].
      split; [| reflexivity]. pose proof (entry_ne str_dec k v d) as Hne. destruct (entry str_dec k v d) as [| e0 d0] eqn:Ee; [congruence |]. destruct d as [| e d].
      * cbn in Ee |- *. now rewrite Ee.
      * cbn [lookup]. destruct (name_dec None None) as [_ | N]; [| congruence]. rewrite Ee. cbn [entry]. destruct (name_dec None None) as [_ | N]; [reflexivity | congruence].
Qed.
Lemma root_value ls its : reads_all ls its -> i_root its = Some (VIni (ini_value ls)).
Proof.
  intros [_ H]. destruct (H [] I) as [_ H0]. specialize (H0 (None, [(None, [])])). rewrite app_nil_r in H0. cbn [fst snd] in H0. unfold i_root. rewrite H0. cbn [root_loop option_map]. do 2 f_equal.
  destruct (read_rel ls None [(None, [])] []) as [(d & rest & E1 & H1 & E2 & _) _].
  { exists [], []. split; [reflexivity |]. split; [exact (fun x => x) |]. split; reflexivity. }
  transitivity (snd (fold_left read_line ls (None, []))); [| reflexivity]. rewrite E2, E1. destruct d as [| e d]; reflexivity.
Qed.

(** ** The file *)

Theorem file_read com ls : ini_text com ls text ->
  exists n evs ns, l_run i_consume i_parse text n (l_init [IRoot] 0) = (evs, None) /\ build_tree IRoot (map fst evs) = Some (Ctx IRoot ns)
    /\ existsb i_raised (items ns) = false /\ i_root (items ns) = Some (VIni (ini_value ls)) /\ (com = false -> no_comment ns).
Proof.
  intros H. destruct (file_run com ls text H [] [] (Cfg [IRoot] [] 0 [] 0) eq_refl) as (ns & c & H1 & H2 & H3 & H4).
  { exists []. split; [apply okc_nil | now left]. }
  cbn [app] in H3. destruct H3 as (circ & _ & H3).
  assert (G : exists n evs cs, l_run i_consume i_parse text n (l_init [IRoot] 0) = (evs, None) /\ build_tree IRoot (map fst evs) = Some (Ctx IRoot cs) /\ words cs = words ns).
  { destruct H3 as [-> | (l & w' & new & Hl & -> & Hw)].
    - destruct (reach_finish _ _ _ _ _ IRoot [IRoot] IRoot (words ns) 0 circ (length text) H4 eq_refl (parse_end marks text IRoot (or_introl eq_refl))) as (n & evs & cs & Hr & Hb & Hw).
      exists n, evs, cs. split; [exact Hr |]. split; [exact Hb |]. rewrite Hw, drop_last_0. cbn. apply app_nil_r.
    - destruct (reach_finish _ _ _ _ _ IRoot [IRoot; l] l w' new circ (length text) H4 eq_refl (parse_end marks text l (or_intror Hl))) as (n & evs & cs & Hr & Hb & Hw').
      exists n, evs, cs. split; [exact Hr |]. split; [exact Hb |]. rewrite Hw'. destruct Hw as [[-> ->] | [-> ->]].
      + rewrite drop_last_0. reflexivity.
      + rewrite drop_last_app by (cbn; lia). cbn. now rewrite !app_nil_r. }
  destruct G as (n & evs & cs & Hr & Hb & Hw). apply words_inj in Hw. subst cs. exists n, evs, ns. split; [exact Hr |]. split; [exact Hb |].
  split; [exact (proj1 H1) |]. split; [exact (root_value ls _ H1) | exact H2].
Qed.

(** A lexicon that is open was entered. *)
Lemma replay_in (evs : list (event ilex iact)) : forall st l, In l (replay st evs) -> In l st \/ In (Enter l) (concat (map event_word evs)).
Proof.
  induction evs as [| e evs IH]; intros st l H; [left; exact H |]. unfold replay in H. cbn [fold_left] in H. fold (replay (TargetSpec.follow st (e_target e)) evs) in H.
  cbn [map concat]. rewrite in_app_iff. apply IH in H as [H | H]; [| tauto]. unfold TargetSpec.follow in H. destruct (e_target e) as [t |] eqn:Et; [| tauto].
  apply in_app_or in H as [H | H].
  - left. unfold drop_last in H. rewrite <- (firstn_skipn (length st - t_pop t) st). apply in_or_app. now left.
  - right. left. unfold event_word. rewrite Et. cbn [target_word]. apply in_or_app. left. apply in_or_app. right. apply in_map. exact H.
Qed.
Lemma no_comment_word ns : no_comment ns -> ~ In (Enter IComment) (words ns).
Proof.
  induction 1 as [| n ns Hn _ IH]; [exact (fun x => x) |]. rewrite words_cons. intros H. apply in_app_or in H as [H | H]; [| contradiction].
  destruct n as [t | l cs]; [destruct H as [H | []]; discriminate |]. rewrite word_ctx in H. destruct H as [H | H].
  - injection H as ->. exact Hn.
  - apply in_app_or in H as [H | [H | []]]; [| discriminate]. assert (Hc : Forall (fun c => exists t, c = Tok t) cs) by (destruct l; [exact Hn .. | contradiction]). clear Hn IH.
    induction Hc as [| c cs (t & ->) _ IH]; [exact H |]. rewrite words_cons in H. apply in_app_or in H as [[H | []] | H]; [discriminate | exact (IH H)].
Qed.
Lemma open_comment evs ns : stream_ok ilex iact [IRoot] evs -> build_tree IRoot evs = Some (Ctx IRoot ns) -> no_comment ns -> ~ In IComment (tl (replay [IRoot] evs)).
Proof.
  intros Hst Hb Hn H. destruct (build_tree_ok ilex iact IRoot evs Hst) as (cs & Hb' & Hw & _). rewrite Hb in Hb'. injection Hb' as <-.
  assert (Hi : In IComment (replay [IRoot] evs)) by (destruct (replay [IRoot] evs); [exact H | now right]).
  apply replay_in in Hi as [[Hi | []] | Hi]; [discriminate |]. apply (no_comment_word ns Hn). rewrite Hw. apply in_or_app. now left.
Qed.
Lemma quiet_ini (n : node ilex iact) : none_untransformed (fun _ => tt) (fun l => l) (fun _ : unit => i_methods odd) false n.
Proof.
  induction n as [t | l cs IH] using node_ind'; [exact I |].
  assert (G : (fix all (cs : list (node ilex iact)) := match cs with [] => True | c :: cs => none_untransformed (fun _ => tt) (fun l => l) (fun _ : unit => i_methods odd) false c /\ all cs end) cs).
  { induction IH as [| c cs Hc Hcs IH']; [exact I |]. split; assumption. }
  destruct l; cbn; try exact G. reflexivity.
Qed.
End Files.
