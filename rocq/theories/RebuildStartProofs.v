(** The new lexer is prepared at a place where the old and the new events are the same. *)
From Verif Require Import Base BaseFacts TargetModel TargetSpec LexerModel LexerSpec LexerProofs TreeModel TreeSpec TreeProofs TreeWalkProofs
  TreeRangeProofs BuildModel BuildProofs TreeDeleteProofs ChangesModel ChangesSpec RebuildModel RebuildSpec RestartProofs
  RebuildTreeProofs RebuildEventsProofs RebuildPrepareProofs.
From Coq Require Import ZArith ZifyBool.

(** ** Tokens in words *)
Section Words.
Variables L A : Type.
Notation node := (node L A).
Notation tok := (tok A).
Implicit Types (n c root : node) (cs : list node) (p q path : list nat) (w : list (sym L A)).

Definition sleaf (s : sym L A) : list tok := match s with Leaf t => [t] | _ => [] end.
Definition sleaves w : list tok := concat (map sleaf w).
Lemma sleaves_app a b : sleaves (a ++ b) = sleaves a ++ sleaves b.
Proof. unfold sleaves. rewrite map_app, concat_app. reflexivity. Qed.
Lemma sleaves_word n : sleaves (word n) = flatten n.
Proof.
  induction n as [t|l cs IH] using node_ind'; [reflexivity|]. rewrite word_ctx, flatten_ctx. change (Enter l :: words cs ++ [Exit]) with ([Enter l] ++ words cs ++ [Exit]).
  rewrite !sleaves_app. cbn [sleaves map concat sleaf app]. rewrite app_nil_r.
  induction IH as [|c cs Hc _ IHc]; [reflexivity|]. rewrite words_cons, sleaves_app, Hc, IHc, flat_cons. reflexivity.
Qed.
Lemma sleaves_words cs : sleaves (words cs) = flat cs.
Proof. induction cs as [|c cs IH]; [reflexivity|]. rewrite words_cons, sleaves_app, sleaves_word, IH, flat_cons. reflexivity. Qed.

Lemma sleaf_unique t a b : forall a' b', NoDup (sleaves (a ++ Leaf t :: b)) ->
  a ++ Leaf t :: b = a' ++ Leaf t :: b' -> a = a' /\ b = b'.
Proof.
  induction a as [|s a IH]; intros [|s' a'] b' Hn E; cbn [app] in E;
    (assert (E1 := f_equal (@hd_error _) E); assert (E2 := f_equal (@tl _) E); cbn [hd_error tl] in E1, E2; try (injection E1 as E1)).
  - auto.
  - subst s'. exfalso. rewrite E2 in Hn. cbn [app] in Hn. change (Leaf t :: ?w) with ([Leaf t] ++ w) in Hn. rewrite !sleaves_app in Hn.
    cbn [sleaves map concat sleaf app] in Hn. inversion Hn as [|? ? Hni _]. apply Hni. apply in_or_app. right. left. reflexivity.
  - subst s. exfalso. cbn [app] in Hn. change (Leaf t :: ?w) with ([Leaf t] ++ w) in Hn. rewrite !sleaves_app in Hn.
    cbn [sleaves map concat sleaf app] in Hn. inversion Hn as [|? ? Hni _]. apply Hni. apply in_or_app. right. left. reflexivity.
  - subst s'. cbn [app] in Hn. assert (Hn' : NoDup (sleaves (a ++ Leaf t :: b))).
    { change (s :: ?w) with ([s] ++ w) in Hn. rewrite sleaves_app in Hn. apply nodup_app_r in Hn. exact Hn. }
    destruct (IH a' b' Hn' E2) as [-> ->]. auto.
Qed.

(** Only a token that is first in its context comes directly after the bracket that opens it. *)
Lemma words_not_open cs w l : words cs = w ++ [Enter l] -> False.
Proof.
  intros E. destruct cs as [|c cs _] using rev_ind; [destruct w; discriminate|]. rewrite words_app, words_cons in E. cbn in E.
  destruct c as [t|l' cs'].
  - cbn [word] in E. rewrite app_nil_r in E. apply app_inj_tail in E as [_ E]. discriminate.
  - fold (word (Ctx l' cs')) in E. rewrite app_nil_r in E. rewrite word_ctx in E. rewrite app_comm_cons, app_assoc in E. apply app_inj_tail in E as [_ E]. discriminate.
Qed.
Lemma pre_word_open p : forall n m w l, node_at n p = Some m -> pre_word L A n p = w ++ [Enter l] -> last_opt p = Some 0.
Proof.
  induction p as [|i p IH]; intros n m w l Hat E; [destruct w; discriminate|]. cbn [node_at pre_word] in *.
  destruct (nth_error (children n) i) as [c|] eqn:Ec; [|discriminate]. destruct p as [|j p].
  - rewrite app_nil_r in E. destruct (words_not_open _ _ _ E).
  - destruct c as [t|l' cs']; [destruct j; discriminate|]. change (i :: j :: p) with ([i] ++ j :: p). rewrite last_opt_app_r by discriminate.
    destruct (pre_word L A (Ctx l' cs') (j :: p)) as [|s v _] eqn:Ep using rev_ind.
    + cbn [pre_word] in Ep. apply app_eq_nil in Ep as [E1 E2]. cbn [node_at] in Hat. destruct (nth_error (children (Ctx l' cs')) j) as [c'|] eqn:Ec'; [|discriminate].
      assert (j = 0). { destruct j as [|j]; [reflexivity|]. cbn [children] in E1, Ec'. destruct cs' as [|c0 cs']; [destruct j; discriminate|]. cbn [firstn] in E1.
        rewrite words_cons in E1. apply app_eq_nil in E1 as [E1 _]. destruct c0; [discriminate|rewrite word_ctx in E1; discriminate]. }
      subst j. destruct p as [|k p]; [reflexivity|]. destruct c' as [t'|l2 cs2]; [destruct k; discriminate|discriminate].
    + rewrite app_comm_cons, app_assoc in E. apply app_inj_tail in E as [E ->]. apply (IH (Ctx l' cs') m v l Hat Ep).
Qed.
End Words.

Lemma app_cons_cases {T} (a : list T) : forall b c x d, a ++ b = c ++ x :: d ->
  (exists r, a = c ++ x :: r /\ d = r ++ b) \/ (exists r, c = a ++ r /\ b = r ++ x :: d).
Proof.
  induction a as [|y a IH]; intros b c x d E.
  - right. exists c. auto.
  - destruct c as [|z c]; cbn [app] in E.
    + left. injection E as -> <-. exists a. auto.
    + injection E as -> E. destruct (IH b c x d E) as [(r & -> & ->)|(r & -> & ->)]; [left|right]; exists r; auto.
Qed.

Section Main.
Variables L A : Type.
Notation node := (node L A).
Notation tok := (tok A).
Notation handle := (handle A).
Notation event := (event L A).
Notation hev := (event * list handle)%type.
Variables l_is l_eq : L -> L -> bool.
Variable a_eq : A -> A -> bool.
Variable consume : L -> bool.
Variable parse : L -> str -> nat -> gen (item L A).
Variable K : nat.
Hypothesis His : forall a b, l_is a b = true <-> a = b.
Hypothesis Heq : forall a, l_eq a a = true.
Hypothesis Hact : forall a b, a_eq a b = true <-> a = b.
Hypothesis HL : local_parse K parse.
Hypothesis HK : K <= 9.
Local Notation all := (l_all consume parse).

(** ** Comparing events *)

Lemma list_eqb_refl {T} (eqb : T -> T -> bool) (l : list T) : (forall x, eqb x x = true) -> list_eqb eqb l l = true.
Proof. intros H. induction l as [|x l IH]; [reflexivity|]. cbn [list_eqb]. rewrite H, IH. reflexivity. Qed.
Lemma list_eqb_length {T} (eqb : T -> T -> bool) (l : list T) : forall l', list_eqb eqb l l' = true -> length l = length l'.
Proof. induction l as [|x l IH]; intros [|y l'] H; cbn [list_eqb] in H; try discriminate; [reflexivity|]. cbn [length]. f_equal. apply IH. lia. Qed.

Lemma same_refl (e : event) : same_events l_is l_eq a_eq e e = true.
Proof.
  unfold same_events. assert (Ht : target_eq l_eq (e_target e) (e_target e) = true).
  { destruct (e_target e) as [t|]; [|reflexivity]. cbn [target_eq]. rewrite Nat.eqb_refl, list_eqb_refl by exact Heq. reflexivity. }
  assert (Hx : list_eqb (lexeme_eq a_eq) (e_lexemes e) (e_lexemes e) = true).
  { apply list_eqb_refl. intros x. unfold lexeme_eq. rewrite Nat.eqb_refl, str_eqb_refl, (proj2 (Hact _ _) eq_refl). reflexivity. }
  rewrite Ht, Hx. cbn [andb negb]. destruct (e_target e) as [t|]; [|reflexivity]. destruct (length (t_push t) =? 0); [reflexivity|].
  induction (t_push t) as [|l ls IH]; [reflexivity|]. cbn [combine forallb fst snd]. rewrite (proj2 (His _ _) eq_refl), IH. reflexivity.
Qed.

Lemma same_eq (e e' : event) : same_events l_is l_eq a_eq e e' = true -> e = e'.
Proof.
  unfold same_events. destruct (target_eq l_eq (e_target e) (e_target e')) eqn:Et; [|cbn; discriminate].
  destruct (list_eqb (lexeme_eq a_eq) (e_lexemes e) (e_lexemes e')) eqn:Ex; [|cbn; discriminate]. cbn [andb negb]. intros H.
  destruct e as [t xs], e' as [t' xs']. cbn [e_target e_lexemes] in *. f_equal.
  - destruct t as [[p pu]|], t' as [[p' pu']|]; cbn [target_eq t_pop t_push] in *; try discriminate; [|reflexivity].
    apply andb_true_iff in Et as [E1 E2]. apply Nat.eqb_eq in E1 as ->. apply list_eqb_length in E2.
    do 2 f_equal. destruct (length pu =? 0) eqn:El; [destruct pu, pu'; cbn in *; try lia; reflexivity|]. clear El. revert pu' E2 H.
    induction pu as [|l ls IH]; intros [|l' ls'] E2 H; try discriminate; [reflexivity|]. cbn [combine forallb fst snd] in H. apply andb_true_iff in H as [H1 H2].
    apply His in H1 as ->. f_equal. apply IH; [cbn in E2; lia|exact H2].
  - refine (proj1 (list_eqb_spec (lexeme_eq a_eq) _ xs xs') Ex). intros x y. unfold lexeme_eq. destruct x as [p s a], y as [p' s' a']. cbn [x_pos x_text x_act].
    split.
    + intros H'. apply andb_true_iff in H' as [H' H3]. apply andb_true_iff in H' as [H1 H2]. apply Nat.eqb_eq in H1 as ->. apply str_eqb_spec in H2 as ->.
      apply Hact in H3 as ->. reflexivity.
    + intros [= <- <- <-]. rewrite Nat.eqb_refl, str_eqb_refl, (proj2 (Hact _ _) eq_refl). reflexivity.
Qed.

Lemma compare_spec (old : list hev) : forall evs prev r, compare_events l_is l_eq a_eq old evs prev = Some r ->
  (prev = Some (fst r) /\ evs = snd r) \/
  exists O1 o O2, old = O1 ++ (o, fst r) :: O2 /\ evs = map fst O1 ++ o :: snd r.
Proof.
  induction old as [|[o hs] old IH]; intros evs prev r H.
  - destruct prev; [|discriminate]. cbn [compare_events] in H. injection H as <-. left. auto.
  - destruct evs as [|n evs].
    + cbn [compare_events] in H. destruct prev; [|discriminate]. injection H as <-. left. auto.
    + cbn [compare_events] in H. destruct (same_events l_is l_eq a_eq o n) eqn:E.
      * apply same_eq in E as <-. right. destruct (IH evs (Some hs) r H) as [[E1 E2]|(O1 & o' & O2 & E1 & E2)].
        -- injection E1 as ->. exists [], o, old. rewrite E2. auto.
        -- exists ((o, hs) :: O1), o', O2. rewrite E1, E2. auto.
      * destruct prev; [|discriminate]. injection H as <-. left. auto.
Qed.
Lemma compare_some (old : list hev) : forall evs p, compare_events l_is l_eq a_eq old evs (Some p) <> None.
Proof.
  induction old as [|[o hs] old IH]; intros evs p; [discriminate|]. destruct evs as [|n evs]; [discriminate|]. cbn [compare_events].
  destruct (same_events l_is l_eq a_eq o n); [apply IH|discriminate].
Qed.

(** ** Streams *)

Lemma all_normal text n : forall s es fin, all text n s = Some (es, fin) -> Forall (@normal L A) es.
Proof.
  induction n as [|n IH]; intros s es fin H; [discriminate|]. cbn [l_all] in H.
  destruct (l_step consume parse text s) as [[evs s']|] eqn:Es; [|injection H as <- _; constructor].
  destruct (all text n s') as [[r f]|] eqn:Er; [|discriminate]. injection H as <- <-. apply Forall_app. split; [|eapply IH; eauto].
  assert (Hemit : forall f it lex, Forall (@normal L A) (map fst (fst (l_emit f it lex)))).
  { intros f' it lex. unfold l_emit. destruct (i_lexemes it) as [|x xs]; [constructor|]. destruct (f_get f') as [t f''] eqn:Eg. cbn [fst map].
    constructor; [|constructor]. unfold normal. cbn [e_target]. unfold f_get in Eg.
    destruct (negb (f_pop f' =? 0) || negb (length (f_push f') =? 0)) eqn:E; injection Eg as <- _; [|exact I]. cbn [t_pop t_push].
    destruct (f_pop f'); [right|left; discriminate]. destruct (f_push f'); [discriminate|discriminate]. }
  unfold l_step in Es. destruct (last_opt (s_lex s)) as [l|]; [|discriminate]. destruct (parse l text (s_pos s) (s_idx s)) as [it|]; [|discriminate].
  destruct (i_target it) as [t|].
  - destruct (i_txt it) as [|ch txt].
    + destruct (l_circle _ _ _ _ _) as [pos circ]. injection Es as <- _. constructor.
    + destruct (l_consumes consume _).
      * destruct (l_emit _ it _) as [ev f'] eqn:Ee. injection Es as <- _. specialize (Hemit (f_add (s_fac s) (Some (l_clip (length (s_lex s)) t))) it).
        match type of Ee with l_emit ?a ?b ?c = _ => pose proof (Hemit c) as He end. rewrite Ee in He. exact He.
      * destruct (l_emit _ it _) as [ev f'] eqn:Ee. injection Es as <- _.
        match type of Ee with l_emit ?a ?b ?c = _ => pose proof (Hemit a b c) as He end. rewrite Ee in He. exact He.
  - destruct (i_txt it) as [|ch txt].
    + injection Es as <- _. constructor.
    + destruct (l_emit _ it _) as [ev f'] eqn:Ee. injection Es as <- _.
      match type of Ee with l_emit ?a ?b ?c = _ => pose proof (Hemit a b c) as He end. rewrite Ee in He. exact He.
Qed.

(** ** The old tree *)

Variables (old new : str) (n : nat) (l : L) (evs evs' : list event) (fin fin' : list L) (cs : list node).
Hypothesis Hold : all old n (l_init [l] 0) = Some (evs, fin).
Hypothesis Hnew : all new n (l_init [l] 0) = Some (evs', fin').
Hypothesis Hcs : build_tree l evs = Some (Ctx l cs).
Notation root := (Ctx l cs).

Lemma circ_start lexs text q : q <= length text -> circ_inv L text (l_init lexs q).
Proof. intros H. split; [exact H|]. intros tr []. Qed.
Lemma old_stream : stream_ok L A [l] evs.
Proof.
  destruct (all_run L A consume parse old n _ _ _ Hold) as (es & Hr & E).
  rewrite <- E. eapply run_stream_ok; [discriminate|]. exact Hr.
Qed.
Lemma new_stream : stream_ok L A [l] evs'.
Proof.
  destruct (all_run L A consume parse new n _ _ _ Hnew) as (es & Hr & E).
  rewrite <- E. eapply run_stream_ok; [discriminate|]. exact Hr.
Qed.
Definition k0 : nat := length (replay [l] evs) - 1.
Lemma old_words : words cs = concat (map event_word evs) ++ repeat Exit k0.
Proof.
  destruct (build_tree_ok L A l evs old_stream) as (cs' & E & Hw & _). rewrite Hcs in E. injection E as <-. exact Hw.
Qed.
Lemma old_pieces : pieces old 0 (length old) (all_lexemes evs).
Proof.
  apply (all_pieces L A consume parse K HL old n 0 (l_init [l] 0) evs fin); [apply low_inv_start; lia|exact Hold].
Qed.

Lemma old_hevs : exists hevs, map fst hevs = evs /\ hwords L A [] 0 cs = hevs_word L A hevs ++ repeat (hx L A) k0 /\ Forall (hev_ok L A) hevs.
Proof.
  destruct (label_events L A evs k0 (hwords L A [] 0 cs)) as (hevs & E & Hw & HF).
  { rewrite erase_hwords. exact old_words. }
  exists hevs. split; [exact E|]. split; [exact Hw|]. rewrite Forall_forall in *. intros x Hx. split; [apply HF, Hx|].
  assert (Hin : In (fst x) evs) by (rewrite <- E; apply in_map, Hx). split.
  - pose proof (all_nonempty L A consume parse old n _ _ _ _ (stack_inv_start L [l] 0 ltac:(discriminate)) Hold) as Hne.
    rewrite Forall_forall in Hne. apply Hne, Hin.
  - pose proof (all_normal _ _ _ _ _ Hold) as Hn. rewrite Forall_forall in Hn. apply Hn, Hin.
Qed.

Variable hevs : list hev.
Hypothesis Hevs : map fst hevs = evs.
Hypothesis Hword : hwords L A [] 0 cs = hevs_word L A hevs ++ repeat (hx L A) k0.
Hypothesis Hok : Forall (hev_ok L A) hevs.

Lemma hev_lex (H : list hev) : Forall (hev_ok L A) H -> all_lexemes (map fst H) = map lexeme_of (map snd (concat (map snd H))).
Proof.
  unfold all_lexemes. induction 1 as [|x H (Hx & _) _ IH]; [reflexivity|]. cbn [map concat]. rewrite !map_app, IH. f_equal.
  etransitivity; [|exact (f_equal (map lexeme_of) (eq_sym Hx))]. symmetry. apply make_tokens_lexemes.
Qed.
Lemma old_order : in_order (flat cs).
Proof.
  apply (pieces_in_order A old _ 0 (length old)).
  replace (map lexeme_of (flat cs)) with (all_lexemes evs); [exact old_pieces|].
  rewrite <- Hevs, (hev_lex hevs Hok), <- (handles_hevs L A l cs hevs k0 Hword), handles_snd, flatten_ctx. reflexivity.
Qed.
Lemma old_full : Forall full cs.
Proof. eapply build_full; [exact old_stream|exact old_words]. Qed.
Lemma old_wf : wf_children cs.
Proof. split; [exact old_full|exact old_order]. Qed.

Notation handles := (handles L A root).
Let Hhand : handles = concat (map snd hevs) := handles_hevs L A l cs hevs k0 Hword.

(** The words before and after a token. *)
Lemma word_at H1 e a h b H2 : hevs = H1 ++ (e, a ++ h :: b) :: H2 ->
  pre_word L A root (fst h) = concat (map event_word (map fst H1)) ++ target_word (e_target e) ++ map Leaf (map snd a)
  /\ post_word L A root (fst h) = map Leaf (map snd b) ++ concat (map event_word (map fst H2)) ++ repeat Exit k0.
Proof.
  intros E. assert (Hin : In h handles).
  { rewrite Hhand, E, map_app, concat_app. cbn [map concat snd]. apply in_or_app. right. apply in_or_app. left. apply in_or_app. right. left. reflexivity. }
  destruct (handles_at L A l cs h Hin) as [Hat Hne]. pose proof (pre_post L A _ _ _ Hne Hat) as Hw. cbn [children word] in Hw.
  assert (Hok1 : hev_ok L A (e, a ++ h :: b)) by (rewrite Forall_forall in Hok; apply Hok; rewrite E; apply in_or_app; right; left; reflexivity).
  destruct Hok1 as (Et & _). cbn [fst snd] in Et.
  assert (Hw2 : words cs = (concat (map event_word (map fst H1)) ++ target_word (e_target e) ++ map Leaf (map snd a))
                 ++ Leaf (snd h) :: map Leaf (map snd b) ++ concat (map event_word (map fst H2)) ++ repeat Exit k0).
  { rewrite old_words, <- Hevs, E. rewrite map_app, map_app, concat_app. cbn [map concat fst]. unfold event_word at 2. rewrite <- Et, map_app, map_app.
    cbn [map]. lnorm. reflexivity. }
  rewrite Hw in Hw2. apply sleaf_unique in Hw2; [exact Hw2|]. change (Leaf (snd h) :: ?w) with ([Leaf (snd h)] ++ w). 
  replace (pre_word L A root (fst h) ++ [Leaf (snd h)] ++ post_word L A root (fst h)) with (words cs) by exact Hw.
  rewrite sleaves_words. apply in_order_nodup, old_order.
Qed.

Lemma lex_at_hev H1 e a h b H2 : hevs = H1 ++ (e, a ++ h :: b) :: H2 -> lex_at root (fst h) = replay [l] (map fst H1 ++ [e]).
Proof.
  intros E. destruct (word_at _ _ _ _ _ _ E) as [Hp _].
  assert (Hin : In h handles).
  { rewrite Hhand, E, map_app, concat_app. cbn [map concat snd]. apply in_or_app. right. apply in_or_app. left. apply in_or_app. right. left. reflexivity. }
  destruct (handles_at L A l cs h Hin) as [Hat Hne].
  pose proof (lex_at_word L A (fst h) l cs [] _ Hne Hat) as Hs. cbn [app] in Hs. rewrite <- Hs, Hp.
  rewrite !wstack_app, wstack_events, wstack_target, wstack_leaves, replay_app. reflexivity.
Qed.

Lemma open_hev H1 e h b H2 l' ls : hevs = H1 ++ (e, h :: b) :: H2 -> option_map (@t_push L) (e_target e) = Some (ls ++ [l']) ->
  h_is_first h = true /\ last_opt (lex_at root (fst h)) = Some l'.
Proof.
  intros E Ht. destruct (word_at H1 e [] h b H2 E) as [Hp _]. cbn [map] in Hp. rewrite app_nil_r in Hp.
  assert (Hin : In h handles).
  { rewrite Hhand, E, map_app, concat_app. cbn [map concat snd]. apply in_or_app. right. apply in_or_app. left. left. reflexivity. }
  destruct (handles_at L A l cs h Hin) as [Hat Hne]. destruct (e_target e) as [t|] eqn:Et; [|discriminate]. cbn [option_map] in Ht. injection Ht as Ht.
  cbn [target_word] in Hp. rewrite Ht, map_app in Hp. cbn [map] in Hp. rewrite !app_assoc in Hp. split.
  - unfold h_is_first. rewrite (pre_word_open L A _ _ _ _ _ Hat Hp). reflexivity.
  - rewrite (lex_at_hev H1 e [] h b H2 E), replay_app. cbn [replay fold_left]. rewrite Et. cbn [follow]. rewrite Ht, app_assoc. apply last_opt_app.
Qed.

Lemma not_consumed_plain H1 e h b H2 : hevs = H1 ++ (e, h :: b) :: H2 -> h_consumed consume root h = false -> plain L A consume e.
Proof.
  intros E Hc. unfold plain. destruct (e_target e) as [t|] eqn:Et; [|exact I]. unfold l_consumes. destruct (last_opt (t_push t)) as [l'|] eqn:El; [|reflexivity].
  apply last_opt_some in El as (ls & El). destruct (open_hev H1 e h b H2 l' ls E) as [O1 O2]; [rewrite Et; cbn; congruence|].
  unfold h_consumed in Hc. rewrite O1, O2 in Hc. exact Hc.
Qed.

(** Up to the last token of an event. *)
Lemma split_at_last (H : list hev) : Forall (hev_ok L A) H -> forall m h b, concat (map snd H) = m ++ h :: b -> group_ended h = true ->
  exists E H3, H = E ++ H3 /\ concat (map snd E) = m ++ [h].
Proof.
  induction 1 as [|x H Hx _ IH]; intros m h b E Hg; [destruct m; discriminate|]. cbn [map concat] in E.
  apply app_cons_cases in E as [(r & E1 & _)|(r & -> & E2)].
  - exists [x], H. split; [reflexivity|]. cbn [map concat]. rewrite app_nil_r, E1. do 2 f_equal. destruct x as [e hs]. cbn [snd] in E1. subst hs.
    unfold group_ended in Hg. destruct (event_groups L A _ _ _ _ Hx) as [(_ & _ & ->)|[Eg Hl]]; [reflexivity|]. rewrite Eg in Hg.
    destruct (length m =? length m + length r) eqn:El; [|lia]. destruct r; [reflexivity|cbn in El; lia].
  - destruct (IH r h b E2 Hg) as (E & H3 & -> & E3). exists (x :: E), H3. split; [reflexivity|]. cbn [map concat]. rewrite E3, app_assoc. reflexivity.
Qed.

(** Events from the very first token on. *)
Lemma read_first a last b : handles = a ++ last :: b -> group_ended last = true ->
  forall st, hd_error (a ++ [last]) = Some st ->
  exists Hs H3, hevs = Hs ++ H3 /\ concat (map snd Hs) = a ++ [last] /\ events_with_tokens root st last = Some Hs.
Proof.
  intros Ea Hg st Hst. rewrite Hhand in Ea. destruct (split_at_last hevs Hok _ _ _ Ea Hg) as (Hs & H3 & EH & Ec).
  exists Hs, H3. split; [exact EH|]. split; [exact Ec|].
  assert (Hx : exists e0 hs0 E', Hs = (e0, st :: hs0) :: E').
  { destruct Hs as [|[e0 hs] E']; [destruct a; discriminate|]. exists e0. cbn [map concat snd] in Ec.
    assert (Hne : hs <> []).
    { rewrite Forall_forall in Hok. destruct (Hok (e0, hs)) as (E1 & E3 & _); [rewrite EH; left; reflexivity|]. cbn [fst snd] in *.
      intros ->. symmetry in E1. revert E1. apply make_tokens_nonempty, E3. }
    destruct hs as [|h0 hs]; [congruence|]. exists hs, E'. rewrite <- Ec in Hst. injection Hst as ->. reflexivity. }
  destruct Hx as (e0 & hs0 & E' & ->).
  rewrite (events_read L A l cs hevs k0 Hword Hok old_order [] e0 st hs0 E' H3 last EH).
  2:{ rewrite Ec. apply last_opt_app. }
  do 3 f_equal.
  assert (Hback : backward_h root (fst st) = []).
  { apply (handle_back L A l cs old_order [] st (hs0 ++ concat (map snd E') ++ concat (map snd H3))).
    rewrite Hhand, EH, map_app, concat_app. cbn [map concat snd app]. rewrite <- app_assoc. reflexivity. }
  rewrite Hback. cbn [length Nat.eqb]. rewrite andb_true_r.
  pose proof (lex_at_hev [] e0 [] st hs0 (E' ++ H3) EH) as Hlex. cbn [map app replay fold_left] in Hlex.
  assert (Hat : node_at root (fst st) = Some (Tok (snd st))).
  { apply handles_at. rewrite Hhand, EH. cbn [app map concat snd]. left. reflexivity. }
  pose proof (lex_at_length L A _ _ _ Hat) as Hlen.
  pose proof old_stream as Hstr. rewrite <- Hevs, EH in Hstr. cbn [app map stream_ok fst] in Hstr. destruct Hstr as (Hkr & _).
  assert (Hno : normal L A e0) by (rewrite Forall_forall in Hok; apply (Hok (e0, st :: hs0)); rewrite EH; left; reflexivity).
  destruct e0 as [t xs]. cbn [e_target e_lexemes] in *. f_equal. destruct t as [[pop push]|].
  - cbn [keeps_root t_pop length] in Hkr. assert (pop = 0) by lia. subst pop. cbn [follow t_pop t_push] in Hlex. rewrite drop_last_0 in Hlex. cbn [app] in Hlex.
    unfold normal in Hno. cbn [e_target t_pop t_push] in Hno. assert (Hpu : push <> []) by (destruct Hno; [lia|assumption]).
    destruct (@exists_last _ push Hpu) as (ls & l' & El).
    destruct (open_hev [] _ st hs0 (E' ++ H3) l' ls EH) as [O1 _]; [cbn [e_target option_map t_push]; rewrite El; reflexivity|].
    rewrite O1, Hlex. cbn [tl]. rewrite <- Hlen, Hlex. cbn [length]. destruct push as [|x push]; [congruence|]. cbn [length Nat.eqb negb andb]. reflexivity.
  - cbn [follow] in Hlex. rewrite <- Hlen, Hlex. cbn [length Nat.eqb negb]. rewrite andb_false_r. reflexivity.
Qed.

(** ** The prepared lexer *)

Variables (start removed added : nat).
Hypothesis Hcov : covers_change old new start removed added.
Local Notation evts := (lex_events consume parse n).

Lemma before_handles H1 h b : handles = H1 ++ h :: b -> k_end (snd h) <= start -> forall x, In x (H1 ++ [h]) -> k_end (snd x) <= start.
Proof.
  intros E Hh x Hx. apply in_app_or in Hx as [Hx|[<-|[]]]; [|exact Hh]. apply in_split in Hx as (u & v & ->).
  pose proof (handles_order L A l cs old_order u x v h b) as Ho. rewrite <- app_assoc in E. cbn [app] in E. specialize (Ho E).
  pose proof (handle_text L A l cs old_order h). assert (In h handles) by (rewrite E; apply in_or_app; right; right; apply in_or_app; right; left; reflexivity). specialize (H H0). lia.
Qed.

Lemma hevs_before (H : list hev) : Forall (hev_ok L A) H -> (forall x, In x (concat (map snd H)) -> k_end (snd x) <= start) -> before_m L A start (map fst H).
Proof.
  intros Hf Hb. unfold before_m. rewrite (hev_lex H Hf). apply Forall_forall. intros x Hx. apply in_map_iff in Hx as (t & <- & Hx).
  apply in_map_iff in Hx as (h & <- & Hx). exact (Hb h Hx).
Qed.

(** What is known about the place where tokenizing starts again. *)
Definition restart_ok (r : list event * list L * list handle) : Prop :=
  exists H1 e hs H2 rest, hevs = H1 ++ (e, hs) :: H2 /\ evs' = map fst H1 ++ e :: rest /\ r = (rest, fin', hs)
    /\ forall x, In x hs -> k_end (snd x) <= start.

Lemma restart_from Hs H3 (r : list handle * list event) : hevs = Hs ++ H3 -> (forall x, In x (concat (map snd Hs)) -> k_end (snd x) <= start) ->
  (exists O1 o O2, Hs = O1 ++ (o, fst r) :: O2 /\ evs' = map fst O1 ++ o :: snd r) -> restart_ok (snd r, fin', fst r).
Proof.
  intros EH Hb (O1 & o & O2 & E1 & E2). exists O1, o, (fst r), (O2 ++ H3), (snd r). rewrite EH, E1, <- app_assoc. split; [reflexivity|].
  split; [exact E2|]. split; [reflexivity|]. intros x Hx. apply Hb. rewrite E1, map_app, concat_app. cbn [map concat snd].
  apply in_or_app. right. apply in_or_app. left. exact Hx.
Qed.

Lemma prepare_ok m a last b st : handles = a ++ last :: b -> group_ended last = true -> k_end (snd last) <= start ->
  In st handles -> (st = last \/ k_pos (snd last) < k_pos (snd st)) ->
  prepare_loop l_is l_eq a_eq consume evts (S (S m)) root l new false start st last (rev a) = Some None
  \/ exists r, prepare_loop l_is l_eq a_eq consume evts (S (S m)) root l new false start st last (rev a) = Some (Some r) /\ restart_ok r.
Proof.
  intros Ea Hg Hend Hin Hst. cbn [prepare_loop]. destruct (start =? 0) eqn:E0; [left; reflexivity|].
  pose proof (before_handles a last b Ea Hend) as Hbef.
  (* from the beginning *)
  assert (Hfirst : forall st gb', hd_error (a ++ [last]) = Some st ->
     match evts [l] new 0, events_with_tokens root st last with
     | Some (evs1, fin1), Some old1 =>
         match compare_events l_is l_eq a_eq old1 evs1 None with
         | Some (prev, rest) => Some (Some (rest, fin1, prev))
         | None => if 0 =? 0 then Some None else
             let '(st0, start0, gb0) := match gb' with [] => (st, 0, []) | c :: gb0 => scan10 consume root 10 c gb0 end in
             if (start0 =? 0) && false then Some None else
             match evts (if start0 =? 0 then [l] else lex_at root (fst st0)) new start0, events_with_tokens root st0 last with
             | Some (evs2, fin2), Some old2 =>
                 match compare_events l_is l_eq a_eq old2 evs2 None with
                 | Some (prev, rest) => Some (Some (rest, fin2, prev))
                 | None => prepare_loop l_is l_eq a_eq consume evts m root l new false start0 st0 last gb0
                 end
             | _, _ => None
             end
         end
     | _, _ => None
     end = Some None \/ exists r,
     match evts [l] new 0, events_with_tokens root st last with
     | Some (evs1, fin1), Some old1 =>
         match compare_events l_is l_eq a_eq old1 evs1 None with
         | Some (prev, rest) => Some (Some (rest, fin1, prev))
         | None => if 0 =? 0 then Some None else
             let '(st0, start0, gb0) := match gb' with [] => (st, 0, []) | c :: gb0 => scan10 consume root 10 c gb0 end in
             if (start0 =? 0) && false then Some None else
             match evts (if start0 =? 0 then [l] else lex_at root (fst st0)) new start0, events_with_tokens root st0 last with
             | Some (evs2, fin2), Some old2 =>
                 match compare_events l_is l_eq a_eq old2 evs2 None with
                 | Some (prev, rest) => Some (Some (rest, fin2, prev))
                 | None => prepare_loop l_is l_eq a_eq consume evts m root l new false start0 st0 last gb0
                 end
             | _, _ => None
             end
         end
     | _, _ => None
     end = Some (Some r) /\ restart_ok r).
  { intros st1 gb' Hhd. unfold lex_events. rewrite Hnew. destruct (read_first a last b Ea Hg st1 Hhd) as (Hs & H3 & EH & Ec & ->).
    destruct (compare_events l_is l_eq a_eq Hs evs' None) as [[prev rest]|] eqn:Ecmp; [right|left; reflexivity].
    exists (rest, fin', prev). split; [reflexivity|]. apply (restart_from Hs H3 (prev, rest) EH).
    - rewrite Ec. exact Hbef.
    - apply compare_spec in Ecmp. destruct Ecmp as [[E _]|E]; [discriminate|exact E]. }
  destruct a as [|a0 a1] eqn:Eaa.
  - cbn [rev]. cbn [Nat.eqb andb]. destruct Hst as [->|Hlt].
    + apply (Hfirst last []). reflexivity.
    + left. unfold lex_events. rewrite Hnew. unfold events_with_tokens, common_trails.
      destruct (path_eqb (fst st) (fst last)) eqn:Ep.
      { apply path_eqb_spec in Ep. exfalso. destruct (handles_at L A l cs st Hin) as [A1 _].
        destruct (handles_at L A l cs last) as [A2 _]; [rewrite Ea; left; reflexivity|]. rewrite Ep in A1. rewrite A1 in A2. injection A2 as A2. rewrite A2 in Hlt. lia. }
      replace (k_pos (snd st) <? k_pos (snd last)) with false by lia. reflexivity.
  - rewrite <- Eaa in *. destruct (rev a) as [|c gb] eqn:Era.
    { apply (f_equal (@length _)) in Era. rewrite rev_length, Eaa in Era. discriminate. }
    destruct (scan10 consume root 10 c gb) as [[st1 start1] gb1] eqn:Esc. rewrite andb_false_r.
    destruct (scan10_spec L A consume root gb 9 c st1 start1 gb1 Esc) as [[-> Elast]|(mid & nx & Emid & Hgs & Hcnt & Hs1)].
    + cbn [Nat.eqb]. apply (Hfirst st1 gb1). rewrite <- Era in Elast. rewrite Eaa in Elast |- *. cbn [rev] in Elast. rewrite last_opt_app in Elast. injection Elast as <-. reflexivity.
    + rewrite <- Era in Emid. apply (f_equal (@rev _)) in Emid. rewrite rev_involutive, rev_app_distr in Emid. cbn [rev] in Emid. rewrite <- !app_assoc in Emid. cbn [app] in Emid.
      (* the token to start from *)
      assert (I1 : In st1 handles) by (rewrite Ea, Emid; apply in_or_app; left; apply in_or_app; right; right; left; reflexivity).
      assert (Inx : In nx handles) by (rewrite Ea, Emid; apply in_or_app; left; apply in_or_app; right; left; reflexivity).
      assert (Hpos : 0 < k_pos (snd st1)).
      { pose proof (handles_order L A l cs old_order (rev gb1) nx [] st1 (rev mid ++ last :: b)) as Ho. specialize (Ho ltac:(rewrite Ea, Emid, <- app_assoc; reflexivity)).
        pose proof (handle_text L A l cs old_order nx Inx). lia. }
      replace (start1 =? 0) with false by lia.
      unfold good_start in Hgs. destruct (k_group (snd st1)) eqn:Egr; [discriminate|].
      destruct (none_single L A l cs hevs k0 Hword Hok st1 I1 Egr) as (H1 & e & H2 & EH).
      assert (Hcat : concat (map snd H1) = rev gb1 ++ [nx] /\ concat (map snd H2) = rev mid ++ last :: b).
      { pose proof Hhand as Hh. rewrite Ea, Emid, EH, map_app, concat_app in Hh. cbn [map concat snd app] in Hh.
        pose proof (handles_nodup L A l cs old_order) as Hnd. rewrite Hhand, EH, map_app, concat_app in Hnd. cbn [map concat snd app] in Hnd.
        rewrite <- !app_assoc in Hh. cbn [app] in Hh. symmetry in Hh. change (nx :: st1 :: rev mid ++ last :: b) with ([nx] ++ st1 :: rev mid ++ last :: b) in Hh.
        rewrite app_assoc in Hh. split.
        - destruct (app_cons_cases _ _ _ _ _ Hh) as [(r & E1 & E2)|(r & E1 & E2)].
          + exfalso. apply NoDup_remove_2 in Hnd. apply Hnd. apply in_or_app. left. rewrite E1. apply in_or_app. right. left. reflexivity.
          + destruct r as [|y r]; [rewrite app_nil_r in E1; auto|]. exfalso. cbn [app] in E2. injection E2 as <- E2. apply NoDup_remove_2 in Hnd. apply Hnd.
            apply in_or_app. right. rewrite E2. apply in_or_app. right. left. reflexivity.
        - destruct (app_cons_cases _ _ _ _ _ Hh) as [(r & E1 & E2)|(r & E1 & E2)].
          + exfalso. apply NoDup_remove_2 in Hnd. apply Hnd. apply in_or_app. left. rewrite E1. apply in_or_app. right. left. reflexivity.
          + destruct r as [|y r]; [cbn [app] in E2; injection E2 as E2; auto|]. exfalso. cbn [app] in E2. injection E2 as <- E2. apply NoDup_remove_2 in Hnd. apply Hnd.
            apply in_or_app. right. rewrite E2. apply in_or_app. right. left. reflexivity. }
      destruct Hcat as [Hc1 Hc2].
      assert (Hok12 := Hok). rewrite EH in Hok12. apply Forall_app in Hok12 as [Hok1 Hok2]. inversion Hok2 as [|? ? Hoke Hok3]; subst x l0.
      destruct (split_at_last H2 Hok3 _ _ _ Hc2 Hg) as (E' & H3 & EH2 & Ec').
      assert (HokE : Forall (hev_ok L A) E') by (rewrite EH2 in Hok3; apply Forall_app in Hok3; tauto).
      pose proof (count_hevs L A E' _ _ HokE Ec') as Hn10.
      assert (Hnr : nones A (rev mid) = nones A mid).
      { clear. induction mid as [|y mid IH]; [reflexivity|]. cbn [rev]. change (y :: mid) with ([y] ++ mid). rewrite !nones_app. lia. }
      rewrite Hnr in Hn10.
      (* all these tokens are before the change *)
      assert (Hbef2 : forall x, In x (concat (map snd (H1 ++ (e, [st1]) :: E'))) -> k_end (snd x) <= start).
      { intros x Hx. apply Hbef. rewrite map_app, concat_app in Hx. cbn [map concat snd] in Hx. rewrite Ec', Hc1 in Hx. rewrite Emid. clear -Hx.
        rewrite <- app_assoc in Hx. cbn [app] in Hx. rewrite <- app_assoc. cbn [app]. exact Hx. }
      (* the new events are the same up to there *)
      destruct Hcov as (Hc_1 & Hc_2 & Hc_3 & Hc_4).
      assert (Hlook : exists post', evs' = map fst H1 ++ e :: post').
      { apply (look_event L A consume parse K HL old new start ltac:(lia) ltac:(lia) Hc_3 HK n [l] 0 (l_init [l] 0) (map fst H1) e
                 (map fst (firstn 10 E')) (map fst (skipn 10 E' ++ H3)) fin n evs' fin').
        - apply stack_inv_start. discriminate.
        - apply low_inv_start. lia.
        - rewrite Hold. do 2 f_equal. rewrite <- Hevs, EH, EH2. rewrite <- (firstn_skipn 10 E') at 1. rewrite !map_app. cbn [map fst]. rewrite !map_app, <- !app_assoc. reflexivity.
        - rewrite map_length. apply firstn_length_le. lia.
        - replace (map fst H1 ++ e :: map fst (firstn 10 E')) with (map fst (H1 ++ (e, [st1]) :: firstn 10 E')) by (rewrite map_app; reflexivity).
          apply hevs_before.
          + apply Forall_app. split; [exact Hok1|]. constructor; [exact Hoke|]. rewrite <- (firstn_skipn 10 E') in HokE. apply Forall_app in HokE. tauto.
          + intros x Hx. apply Hbef2. rewrite map_app, concat_app in Hx |- *. cbn [map concat] in Hx |- *. rewrite <- (firstn_skipn 10 E'), map_app, concat_app.
            apply in_app_or in Hx as [Hx|Hx]; apply in_or_app; [left; exact Hx|right]. apply in_app_or in Hx as [Hx|Hx]; apply in_or_app; [left; exact Hx|right].
            apply in_or_app. left. exact Hx.
        - exact Hnew. }
      destruct Hlook as (post' & Epost).
      (* the lexer started there *)
      assert (Hplain : plain L A consume e).
      { apply (not_consumed_plain H1 e st1 [] H2 EH). destruct (h_consumed consume root st1); [discriminate|reflexivity]. }
      pose proof Hnew as Hnew'. rewrite Epost in Hnew'.
      pose proof (restart_event L A consume parse K HL new n [l] (l_init [l] 0) (map fst H1) e post' fin'
                    ltac:(apply stack_inv_start; discriminate) ltac:(apply circ_start; lia) Hnew' Hplain) as Hre.
      assert (Hex : exists x, e_lexemes e = [x] /\ x_pos x = k_pos (snd st1)).
      { destruct Hoke as (Ht & _ & _). cbn [fst snd map] in Ht. apply (f_equal (map lexeme_of)) in Ht. rewrite make_tokens_lexemes in Ht. cbn [map] in Ht.
        exists (lexeme_of (snd st1)). rewrite <- Ht. auto. }
      destruct Hex as (x & Ex & Epx). rewrite Ex in Hre. destruct Hre as [_ Hre]. rewrite <- (lex_at_hev H1 e [] st1 [] H2 EH), Epx, <- Hs1 in Hre.
      unfold lex_events. rewrite Hre. rewrite EH2 in EH.
      rewrite (events_read L A l cs hevs k0 Hword Hok old_order H1 e st1 [] E' H3 last EH).
      2:{ cbn [map concat snd app]. rewrite Ec'. rewrite app_comm_cons. apply last_opt_app. }
      assert (Hback : length (backward_h root (fst st1)) <> 0).
      { destruct (handle_back L A l cs old_order (rev gb1 ++ [nx]) st1 (rev mid ++ last :: b)) as [-> _].
        - rewrite Ea, Emid. rewrite <- !app_assoc. reflexivity.
        - rewrite rev_length, app_length. cbn [length]. lia. }
      replace (length (backward_h root (fst st1)) =? 0) with false by lia. rewrite andb_false_r. cbn [f_get f_init f_pop f_push length Nat.eqb negb orb fst].
      rewrite Ex. cbn [compare_events]. rewrite same_refl.
      destruct (compare_events l_is l_eq a_eq E' post' (Some [st1])) as [[prev rest]|] eqn:Ecmp; [|destruct (compare_some _ _ _ Ecmp)].
      right. exists (rest, fin', prev). split; [reflexivity|].
      apply (restart_from (H1 ++ (e, [st1]) :: E') H3 (prev, rest)); [rewrite EH, <- app_assoc; reflexivity|exact Hbef2|].
      apply compare_spec in Ecmp. destruct Ecmp as [[E1 E2]|(O1 & o & O2 & E1 & E2)].
      * cbn [fst snd] in E1, E2. injection E1 as <-. exists H1, e, E'. cbn [fst snd]. rewrite Epost, E2. auto.
      * cbn [fst snd] in E1, E2. exists (H1 ++ (e, [st1]) :: O1), o, O2. cbn [fst snd]. rewrite E1, Epost, E2, map_app, <- !app_assoc. auto.
Qed.

Lemma prepared_ok :
  get_prepared_lexer l_is l_eq a_eq consume evts root new start false = Some None
  \/ exists r, get_prepared_lexer l_is l_eq a_eq consume evts root new start false = Some (Some r) /\ restart_ok r.
Proof.
  unfold get_prepared_lexer. pose proof (ufind_before_ok L A l cs start old_wf) as Hb.
  destruct (find_last (fun t => k_end t <=? start) (flat cs)) as [t|] eqn:Ef; [|rewrite Hb; left; reflexivity].
  destruct Hb as (p & Hp & -> & Hat).
  assert (Ht : k_end t <= start) by (unfold find_last in Ef; apply find_some in Ef as [_ Ef]; lia).
  pose proof (handles_split L A p root t Hat) as Hs. change (ptoks [] root) with handles in Hs.
  set (bw := backward_h root p) in *. cbn [fst]. assert (Hin : In (p, t) handles) by (rewrite Hs; apply in_or_app; right; left; reflexivity).
  fold bw. destruct (group_ended (p, t)) eqn:Eg.
  - replace bw with (rev (rev bw)) by apply rev_involutive. apply (prepare_ok _ (rev bw) (p, t) (forward_h root p) (p, t)); auto.
  - destruct (skip_group bw) as [[last gb]|] eqn:Esk; [|left; reflexivity]. apply skip_group_spec in Esk as (Hgl & mid & Emid).
    assert (Ea : handles = rev gb ++ last :: rev mid ++ (p, t) :: forward_h root p).
    { rewrite Hs, Emid, rev_app_distr. cbn [rev]. rewrite <- !app_assoc. reflexivity. }
    pose proof (handles_order L A l cs old_order _ _ _ _ _ Ea) as Ho. cbn [snd] in Ho.
    assert (Il : In last handles) by (rewrite Ea; apply in_or_app; right; left; reflexivity).
    pose proof (handle_text L A l cs old_order last Il). pose proof (handle_text L A l cs old_order (p, t) Hin). cbn [snd] in *.
    replace gb with (rev (rev gb)) by apply rev_involutive. eapply (prepare_ok _ (rev gb) last _ (p, t)); [exact Ea|exact Hgl|lia|exact Hin|]. right. cbn [snd]. lia.
Qed.

End Main.
