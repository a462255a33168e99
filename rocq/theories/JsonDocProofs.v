(** Reading JSON documents, and reading any text as JSON. *)
From Verif Require Import Base BaseFacts TargetModel TargetSpec LexerModel LexerSpec LexerProofs LexiconModel LexiconSpec TreeModel TreeSpec TreeProofs BuildModel BuildProofs
  TransformModel TransformSpec TransformTextProofs ItemListModel MachineProofs GeneratorProofs JsonModel JsonSpec JsonStepProofs JsonRunProofs.
From Coq Require Import ZArith ZifyBool.

Section Docs.
Variables udigit uword uspace : nat -> bool.
Variable F : Type.
Variable float_of : str -> option F.
Variable is_integer : F -> option Z.
Variable text : str.
Notation j_parse := (j_parse udigit uword uspace).
Notation j_compiled := (j_compiled udigit uword uspace).
Notation reach := (reach j_consume j_parse text).
Notation pv := (pv F).
Notation methods := (j_methods F float_of is_integer).
Notation j_read := (j_read F float_of is_integer).
Notation items := (items F float_of is_integer).
Notation mcall := (mcall F float_of is_integer).
Notation same := (same float_of is_integer).

Lemma quiet_json n : none_untransformed (fun _ => tt) (fun l => l) (fun _ : unit => methods) false n.
Proof.
  induction n as [t | l cs IH] using node_ind'; [exact I |]. cbn. induction IH as [| c cs Hc Hcs IH']; cbn; auto.
Qed.
Lemma methods_all l : method_of (fun _ => tt) (fun l => l) (fun _ : unit => methods) l <> None.
Proof. discriminate. Qed.

Lemma read_tree evs cs : stream_ok jlex jact [JRoot] evs -> build_tree JRoot evs = Some (Ctx JRoot cs) -> j_read evs = Some (Some (mcall JRoot (items cs))).
Proof.
  intros Hst Hb. unfold JsonModel.j_read.
  rewrite (proj1 (text_ok jlex jact (option pv) unit jlex unit (fun _ => tt) (fun l => l) (fun _ => tt) (fun _ _ => true) ltac:(intros [] []; tauto)
    (fun _ => methods) JRoot evs (Ctx JRoot cs) Hst Hb (quiet_json _))); [reflexivity |].
  left. apply Forall_forall. intros l _. exact (methods_all l).
Qed.

Lemma root_end : j_parse JRoot text (length text) 0 = None.
Proof.
  unfold JsonModel.j_parse.
  apply (plain_end jlex jact (fun _ _ => []) JRoot (j_compiled JRoot) text eq_refl (j_rules_ne udigit uword uspace JRoot) (j_match_ok udigit uword uspace text JRoot) eq_refl eq_refl).
  rewrite (match_at udigit uword uspace text JRoot false text [] ltac:(now rewrite app_nil_r)). unfold found, JsonModel.j_rules, values_rules, std. cbn [map fst pick p_char].
  unfold p_constant. cbn. destruct (at_bound _ _ _); reflexivity.
Qed.

Theorem doc_read v : (forall n, number n -> float_of n <> None) -> json_doc false v text ->
  exists n evs cs r, l_run j_consume j_parse text n (l_init [JRoot] 0) = (evs, None) /\ build_tree JRoot (map fst evs) = Some (Ctx JRoot cs)
    /\ mcall JRoot (items cs) = Some r /\ same v r.
Proof.
  intros Hf (a & t & b & E & Ha & Ht & Hb).
  pose proof (ws_run udigit uword uspace text [] JRoot a (or_introl eq_refl) Ha [] (t ++ b) [] 0 [] E) as H1.
  destruct (proj1 (json_runs udigit uword uspace F float_of is_integer Hf text) v t Ht [] JRoot a b [] 0 (or_introl eq_refl) E) as (ns & r & Hs & [Hg1 Hg2] & H2).
  { unfold prevok. destruct (last_opt a) as [c |] eqn:El; [| exact I]. unfold ws in Ha. rewrite Forall_forall in Ha.
    assert (Hin : In c a).
    { unfold last_opt in El. destruct (rev a) as [| x y] eqn:Er; [discriminate |]. injection El as <-. apply in_rev. rewrite Er. now left. }
    specialize (Ha c Hin). cbn in *. tauto. }
  { unfold follow. destruct b as [| c b]; [exact I |]. inversion Hb; subst. cbn in *. tauto. }
  assert (E3 : text = (a ++ t) ++ b ++ []) by now rewrite app_nil_r, <- app_assoc.
  pose proof (ws_run udigit uword uspace text [] JRoot b (or_introl eq_refl) Hb (a ++ t) [] (words ns) 0 [] E3) as H3.
  cbn [app length] in *. rewrite app_nil_r in E3.
  rewrite <- E3 in H3. pose proof (reach_trans _ _ _ _ _ _ _ _ H1 (reach_trans _ _ _ _ _ _ _ _ H2 H3)) as H.
  destruct (reach_end _ _ _ _ _ JRoot [JRoot] JRoot (words ns) [] (length text) H eq_refl root_end) as (n & evs & cs & Hr & Hbt & Hw).
  cbn [length Nat.sub repeat] in Hw. rewrite app_nil_r in Hw. apply words_inj in Hw. subst cs.
  exists n, evs, ns, r. split; [exact Hr |]. split; [exact Hbt |]. split; [| exact Hs].
  unfold JsonRunProofs.mcall, j_methods. cbn [m_call]. unfold call. cbn [TransformModel.il_items]. rewrite Hg1. now rewrite (first_of F float_of is_integer _ r [] Hg2).
Qed.
End Docs.
