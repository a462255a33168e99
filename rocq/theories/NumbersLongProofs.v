(** A letter that matches in a word, but is another letter in lower case. *)
From Verif Require Import Base BaseFacts TargetModel TargetSpec LexerModel LexerSpec TargetProofs LexerProofs LexiconModel LexiconSpec TreeModel TreeSpec TreeProofs BuildModel BuildProofs
  TransformModel TransformSpec TransformTextProofs MachineProofs GeneratorProofs NumbersModel NumbersSpec NumbersRunProofs NumbersLevelProofs NumbersTotalProofs.
From Coq Require Import ZArith ZifyBool String.
Open Scope string_scope. Open Scope list_scope. Open Scope nat_scope.
Notation length := List.length.

(** Runs only depend on what the oracles say of the characters of the text. *)
Section Same_oracles.
Variables us us' : nat -> bool.
Variables um um' : nat -> nat -> bool.
Variable text : str.
Hypothesis Hs : forall c, In c text -> us c = us' c.
Hypothesis Hm : forall p c, In c text -> um p c = um' p c.
Lemma starts_same w : forall s, incl s text -> starts um w s = starts um' w s.
Proof.
  clear Hs us us'. induction w as [| p w IH]; intros s Hi; [reflexivity |]. destruct s as [| c s]; [reflexivity |]. cbn [starts]. rewrite (IH s) by (intros x Hx; apply Hi; now right). f_equal.
  unfold ieq. destruct (c <? 128); [reflexivity |]. apply Hm, Hi. now left.
Qed.
Lemma longest_same ws s : incl s text -> longest um ws s = longest um' ws s.
Proof. clear Hs us us'. intros Hi. unfold longest. generalize (@None nat). induction ws as [| w ws IH]; intros b; [reflexivity |]. cbn [fold_left]. rewrite (starts_same w s Hi). apply IH. Qed.
Lemma sep_same s : incl s text -> sep_hit us s = sep_hit us' s.
Proof.
  clear Hm um um'. intros Hi. unfold sep_hit. assert (E : n_span (n_sep us) s = n_span (n_sep us') s); [| now rewrite E]. induction s as [| c s IH]; [reflexivity |]. cbn [n_span].
  rewrite IH by (intros x Hx; apply Hi; now right). assert (Ec : n_sep us c = n_sep us' c); [| now rewrite Ec]. unfold n_sep, n_space. destruct (c <? 128); [reflexivity |]. now rewrite (Hs c (Hi c (or_introl eq_refl))).
Qed.
Lemma skipn_incl n (s : str) : incl (skipn n s) s.
Proof. intros x Hx. rewrite <- (firstn_skipn n s). apply in_or_app. now right. Qed.
Lemma pick_same l p : n_pick us um (english us um) l (skipn p text) = n_pick us' um' (english us' um') l (skipn p text).
Proof.
  pose proof (skipn_incl p text) as Hi. destruct l; try reflexivity; cbn [n_pick english g_99 g_100 g_1000 g_1000000 first_of]; rewrite (sep_same _ Hi), ?(longest_same _ _ Hi); reflexivity.
Qed.
Lemma parse_same l pos k : n_parse us um (english us um) l text pos k = n_parse us' um' (english us' um') l text pos k.
Proof.
  assert (D : skips l \/ (l = NRoot \/ l = NNumber)) by (destruct l; unfold skips; auto; left; split; discriminate). destruct D as [Hl | Hl]; [| destruct Hl as [-> | ->]; reflexivity].
  rewrite (not_fast us um (english us um) ltac:(eexists; reflexivity) l Hl), (not_fast us' um' (english us' um') ltac:(eexists; reflexivity) l Hl). unfold parse_regex.
  change (c_da (n_compiled us um (english us um) l)) with (@NoDA nlex nact). change (c_da (n_compiled us' um' (english us' um') l)) with (@NoDA nlex nact). rewrite !dt_is_of. cbv iota.
  change (c_rules (n_compiled us um (english us um) l)) with (c_rules (n_compiled us' um' (english us' um') l)).
  revert pos. induction k as [| k IH]; intros pos; cbn [dt_gen c_match n_compiled]; rewrite (pick_same l pos); destruct (n_pick us' um' (english us' um') l (skipn pos text)) as [[[i n] gs] |]; try reflexivity. apply IH.
Qed.
Lemma run_same n : forall s, l_run n_consume (n_parse us um (english us um)) text n s = l_run n_consume (n_parse us' um' (english us' um')) text n s.
Proof.
  induction n as [| n IH]; intros s; [reflexivity |]. cbn [l_run]. assert (E : l_step n_consume (n_parse us um (english us um)) text s = l_step n_consume (n_parse us' um' (english us' um')) text s).
  { unfold l_step. destruct (last_opt (s_lex s)) as [l |]; [| reflexivity]. now rewrite parse_same. }
  rewrite E. destruct (l_step n_consume (n_parse us' um' (english us' um')) text s) as [[evs s'] |]; [| reflexivity]. now rewrite IH.
Qed.
End Same_oracles.

(** An exception in a context is an exception in the contexts around it. *)
Lemma raised_up ulower g l cs : existsb n_raised (nitems ulower g cs) = true -> existsb n_raised (nitems ulower g [Ctx l cs]) = true.
Proof.
  intros H. assert (E : exists f, nitems ulower g [Ctx l cs] = [IObj l (if existsb n_raised (nitems ulower g cs) then None else f)]) by (destruct l; eexists; reflexivity).
  destruct E as [f ->]. now rewrite H.
Qed.
Lemma unknown_word ulower g t : lookup (n_lower ulower (k_text t)) (g_values g) = None -> existsb n_raised (nitems ulower g [Ctx N99 [Tok t]]) = true.
Proof.
  intros H. assert (E : nitems ulower g [Ctx N99 [Tok t]] = [IObj N99 (option_map VNum (match lookup (n_lower ulower (k_text t)) (g_values g) with Some a => Some (a + 0)%Z | None => None end))]) by reflexivity.
  rewrite E, H. reflexivity.
Qed.

Lemma long_s us um ulower : us 383 = false -> (forall p, um p 383 = (p =? 115)) -> ulower 383 = [383] ->
  exists evs ns, l_run n_consume (n_parse us um (english us um)) ([383] ++ codes "ix") 100 (l_init [NRoot] 0) = (evs, None)
    /\ build_tree NRoot (map fst evs) = Some (Ctx NRoot ns) /\ n_call n_root (ItemList tt (nitems ulower (english us um) ns)) = None.
Proof.
  intros H1 H2 H3. set (text := [383] ++ codes "ix").
  set (us2 := fun c : nat => if c =? 383 then false else us c). set (um2 := fun p c : nat => if c =? 383 then p =? 115 else um p c).
  assert (R : l_run n_consume (n_parse us um (english us um)) text 100 (l_init [NRoot] 0) = l_run n_consume (n_parse us2 um2 (english us2 um2)) text 100 (l_init [NRoot] 0)).
  { apply run_same; intros; unfold us2, um2; destruct (Nat.eqb_spec c 383) as [-> |]; auto. }
  rewrite R. eexists _, _. split; [vm_compute; reflexivity |]. split; [vm_compute; reflexivity |].
  unfold n_call. cbn [il_items].
  match goal with |- (if ?b then _ else _) = _ => assert (E : b = true); [| now rewrite E] end.
  do 4 apply raised_up. apply unknown_word. cbn [k_text].
  assert (El : n_lower ulower [383; 105; 120] = [383; 105; 120]) by (unfold n_lower; cbn [flat_map]; change (383 <? 128) with false; cbv iota; rewrite H3; reflexivity). rewrite El. vm_compute. reflexivity.
Qed.
