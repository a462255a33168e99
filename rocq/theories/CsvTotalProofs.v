(** Which texts make the reader of CSV raise an exception. *)
From Verif Require Import Base BaseFacts TargetModel TargetSpec LexerModel LexerSpec LexerProofs LexiconModel LexiconSpec TreeModel TreeSpec TreeProofs BuildModel BuildProofs
  TransformModel TransformSpec TransformTextProofs MachineProofs GeneratorProofs CsvModel CsvSpec CsvRunProofs.
From Coq Require Import ZArith ZifyBool.

Section Total.
Variable uspace : nat -> bool.
Variable text : str.
Notation c_solid := (c_solid uspace).
Notation c_patterns := (c_patterns uspace).
Notation c_compiled := (c_compiled uspace).
Notation c_parse := (c_parse uspace).
Notation run := (l_run c_consume c_parse text).
Notation step := (l_step c_consume c_parse text).

(** ** The items *)

Definition all_of (a : cact) (xs : list (lexeme cact)) : Prop := Forall (fun x => x_act x = a) xs.
Definition cls (l : clex) (it : item clex cact) : Prop :=
  match l with
  | CRoot => i_txt it = [] /\ i_target it = Some (Target 0 [CRecord])
  | CRecord =>
      (i_target it = None /\ exists x, i_lexemes it = [x] /\ x_act x <> CStart)
      \/ (i_target it = Some (Target 1 []) /\ i_lexemes it = [])
      \/ (i_target it = Some (Target 0 [CString]) /\ i_txt it <> [] /\ nth_error text (i_pos it + length (i_txt it) - 1) = Some 34 /\
          exists ys x, i_lexemes it = ys ++ [x] /\ all_of CInvalid ys /\ x_act x = CStart)
  | CString =>
      (i_target it = None /\ i_txt it <> [] /\ exists x, i_lexemes it = [x] /\ (x_act x = CText \/ x_act x = CEscape))
      \/ (i_target it = Some (Target 1 []) /\ i_txt it <> [] /\ exists x ys, i_lexemes it = x :: ys /\ x_act x = CEnd /\ all_of CInvalid ys)
  end.

Lemma slice_firstn p n : slice text p (p + n) = firstn n (skipn p text).
Proof. unfold slice. f_equal. lia. Qed.
Lemma firstn_ne {X} n (s : list X) : 1 <= n <= length s -> firstn n s <> [].
Proof. destruct n, s; cbn; (lia || discriminate). Qed.
Lemma std_all a i s m : all_of a (act_lexemes (L := clex) (fun _ _ => []) text (AStd a) i s m).
Proof. cbn. destruct s; repeat constructor. Qed.
Lemma nth_skipn {X} (l : list X) p k : nth_error (skipn p l) k = nth_error l (p + k).
Proof. revert l. induction p as [| p IH]; intros l; [reflexivity |]. destruct l as [| x l]; [destruct k; reflexivity |]. cbn. apply IH. Qed.
Lemma quote_slice p k r : skipn k (skipn p text) = 34 :: r -> slice text (p + k) (p + (k + 1)) = [34] /\ nth_error text (p + k) = Some 34.
Proof.
  intros E. split.
  - replace (p + (k + 1)) with (p + k + 1) by lia. rewrite slice_firstn. rewrite skipn_skipn in E. now rewrite E.
  - rewrite <- nth_skipn. rewrite <- (Nat.add_0_r k), <- nth_skipn, E. reflexivity.
Qed.

Lemma token_cls l adv p m : c_match (c_compiled l) adv text p = Some m -> cls l (token (fun _ _ => []) l (c_rules (c_compiled l)) text m).
Proof.
  cbn [CsvModel.c_compiled c_match c_rules]. destruct (c_pick (c_patterns l) 0 adv (skipn p text)) as [[[i n] gs] |] eqn:E; [| discriminate]. injection 1 as <-.
  set (s := skipn p text) in *. unfold token. cbn [m_rule m_start m_end]. rewrite slice_firstn. fold s. unfold mk_item.
  destruct l; [discriminate | |]; unfold CsvModel.c_patterns in E; cbn [c_pick] in E.
  - (* record *)
    destruct (p_line s) as [[n0 g0] |] eqn:E0.
    { destruct (adv && (n0 =? 0)) eqn:Ea.
      - (* an empty match: the end of the text, and nothing else matches there *)
        assert (Hs : s = []) by (destruct s as [| c s']; [reflexivity |]; unfold p_line in E0; do 11 (destruct c as [| c]; try discriminate); injection E0 as <- <-; cbn in Ea; destruct adv; discriminate).
        rewrite Hs in E. cbn in E. discriminate.
      - injection E as <- <- <-. cbn [nth_error c_actions]. right. left. split; [reflexivity |]. cbn [i_lexemes]. destruct (firstn n0 s); reflexivity. }
    assert (Hpl : forall n1 g1, p_plain s = Some (n1, g1) -> 1 <= n1 /\ n1 <= length s).
    { intros n1 g1 E1. split; [| exact (plain_ok _ _ _ E1)]. unfold p_plain in E1. destruct (run_of c_plain s) as [| k]; [discriminate |].
      destruct (skipn (S k) s) as [| c r]; [injection E1 as <- <-; lia |]. do 34 (destruct c as [| c]; [injection E1 as <- <-; lia |]).
      destruct c; [discriminate |]. injection E1 as <- <-. lia. }
    destruct (p_plain s) as [[n1 g1] |] eqn:E1.
    { specialize (Hpl _ _ eq_refl). destruct (Nat.eqb_spec n1 0); [lia |]. rewrite andb_false_r in E. injection E as <- <- <-. cbn [nth_error c_actions]. left.
      split; [reflexivity |]. cbn [i_lexemes act_lexemes]. pose proof (firstn_ne n1 s Hpl). destruct (firstn n1 s) as [| c t]; [congruence |]. eexists. split; [reflexivity | discriminate]. }
    destruct (p_quote uspace s) as [[n2 g2] |] eqn:E2.
    { unfold p_quote in E2. cbv zeta in E2. set (a := run_of c_blank s) in *. set (b := run_of (fun c => c_solid c || c_blank c) (skipn a s)) in *.
      destruct (skipn (a + b) s) as [| c r] eqn:Es; [discriminate |]. do 34 (destruct c as [| c]; [discriminate |]). destruct c; [| discriminate]. injection E2 as <- <-.
      destruct (Nat.eqb_spec (a + b + 1) 0); [lia |]. rewrite andb_false_r in E. injection E as <- <- <-. cbn [nth_error c_actions]. right. right.
      pose proof (skipn_quote _ _ _ _ Es) as Hlen. pose proof (firstn_ne (a + b + 1) s ltac:(lia)) as Hne. destruct (quote_slice p (a + b) r Es) as [Hsl Hnth].
      cbn [i_target i_txt i_pos i_lexemes]. split; [reflexivity |]. split; [exact Hne |]. split.
      { rewrite firstn_length, Nat.min_l by lia. replace (p + (a + b + 1) - 1) with (p + (a + b)) by lia. exact Hnth. }
      destruct (firstn (a + b + 1) s) as [| c0 t0]; [congruence |]. cbn [act_lexemes m_groups map at_pos].
      exists (match (if b =? 0 then None else Some (a, a + b)) with Some (i, j) => act_lexemes (L := clex) (fun _ _ => []) text (AStd CInvalid) (p + i) (slice text (p + i) (p + j)) None | None => [] end), (Lexeme (p + (a + b)) [34] CStart).
      split; [| split; [destruct (b =? 0); [constructor | apply std_all] | reflexivity]].
      destruct (b =? 0); cbn [at_pos act_lexemes]; rewrite Hsl; reflexivity. }
    destruct (p_comma s) as [[n3 g3] |] eqn:E3; [| discriminate].
    destruct s as [| c s']; [discriminate |]. unfold p_comma in E3. do 44 (destruct c as [| c]; [discriminate |]). destruct c; [| discriminate]. injection E3 as <- <-.
    cbn [Nat.eqb] in E. rewrite andb_false_r in E. injection E as <- <- <-. cbn [nth_error c_actions]. left. split; [reflexivity |]. cbn. eexists. split; [reflexivity | discriminate].
  - (* string *)
    destruct (p_double s) as [[n0 g0] |] eqn:E0.
    { destruct s as [| c [| d s']]; try discriminate; unfold p_double in E0; do 34 (try (destruct c as [| c]; [discriminate |])); (destruct c; [| discriminate]); try discriminate.
      do 34 (destruct d as [| d]; [discriminate |]). destruct d; [| discriminate]. injection E0 as <- <-. cbn [Nat.eqb] in E. rewrite andb_false_r in E. injection E as <- <- <-.
      cbn [nth_error c_actions]. left. split; [reflexivity |]. split; [discriminate |]. cbn. eexists. split; [reflexivity | right; reflexivity]. }
    destruct (p_unquote uspace s) as [[n1 g1] |] eqn:E1; [| discriminate].
    destruct s as [| c s'] eqn:Es; [discriminate |]. unfold p_unquote in E1. do 34 (destruct c as [| c]; [discriminate |]). destruct c; [| discriminate]. cbv zeta in E1.
    set (a := run_of c_blank s') in *. set (b := run_of c_solid (skipn a s')) in *. injection E1 as <- <-. cbn [Nat.eqb] in E. rewrite andb_false_r in E. injection E as <- <- <-.
    cbn [nth_error c_actions]. right. split; [reflexivity |]. cbn [i_txt firstn Nat.add i_lexemes]. split; [discriminate |].
    cbn [act_lexemes m_groups map at_pos].
    assert (Hsl : slice text (p + 0) (p + 1) = [34]) by (rewrite Nat.add_0_r, slice_firstn; fold s; rewrite Es; reflexivity). rewrite Hsl.
    exists (Lexeme (p + 0) [34] CEnd), (match (if b =? 0 then None else Some (S a, S (a + b))) with Some (i, j) => act_lexemes (L := clex) (fun _ _ => []) text (AStd CInvalid) (p + i) (slice text (p + i) (p + j)) None | None => [] end).
    split; [| split; [reflexivity | destruct (b =? 0); [constructor | apply std_all]]].
    destruct (b =? 0); cbn [at_pos]; [reflexivity |]. cbn [act_lexemes]. now rewrite app_nil_r.
Qed.
Lemma scan_in mat fuel : forall adv pos m, In m (scan mat text fuel adv pos) -> exists a p, mat a text p = Some m.
Proof.
  induction fuel as [| fuel IH]; intros adv pos m; cbn [scan]; [contradiction |]. destruct (length text <? pos); [contradiction |].
  destruct (mat adv text pos) as [m' |] eqn:E; [intros [<- | H]; eauto | eauto].
Qed.
Lemma parse_cls l pos k it : c_parse l text pos k = Some it -> cls l it.
Proof.
  unfold CsvModel.c_parse. destruct l.
  - unfold lexicon_parse. cbn [c_rules CsvModel.c_compiled c_actions]. unfold parse_empty. destruct (pos <? length text); [| destruct k; discriminate].
    cbn [c_da c_dt CsvModel.c_compiled]. destruct k as [| [| k]]; [| discriminate | discriminate]. injection 1 as <-. split; reflexivity.
  - rewrite (parse_is_regex clex cact (fun _ _ => []) CRecord (c_compiled CRecord) text eq_refl (rules_ne uspace CRecord ltac:(discriminate))).
    unfold parse_regex. cbn [c_da c_dt CsvModel.c_compiled]. intros H. apply nth_error_In, in_map_iff in H as (m & <- & Hin). apply scan_in in Hin as (a & p & E). exact (token_cls CRecord a p m E).
  - rewrite (parse_is_regex clex cact (fun _ _ => []) CString (c_compiled CString) text eq_refl (rules_ne uspace CString ltac:(discriminate))).
    unfold parse_regex. cbn [c_da c_dt CsvModel.c_compiled].
    intros H. apply nth_error_In in H. revert H.
    assert (G : forall ms p, (forall m, In m ms -> exists a q, c_match (c_compiled CString) a text q = Some m) ->
              In it (gaps (fun _ _ => []) CString (c_rules (c_compiled CString)) (StaticDA (AStd CText)) text p ms) -> cls CString it).
    { assert (Hda : forall p s, s <> [] -> cls CString (da_item (L := clex) (fun _ _ => []) text (StaticDA (AStd CText)) p s)).
      { intros p s Hs. left. split; [reflexivity |]. split; [exact Hs |]. cbn. destruct s; [congruence |]. eexists. split; [reflexivity | left; reflexivity]. }
      induction ms as [| m ms IH]; intros p Hms; cbn [gaps].
      - destruct (Nat.ltb_spec p (length text)) as [Hp | Hp]; [intros [<- | []]; apply Hda | contradiction].
        intros E. apply (f_equal (@length nat)) in E. unfold from in E. rewrite skipn_length in E. cbn in E. lia.
      - intros H. apply in_app_or in H as [H | [<- | H]].
        + destruct (Nat.ltb_spec p (m_start m)) as [Hp | Hp]; [| contradiction]. destruct H as [<- | []].
          destruct (slice text p (m_start m)) as [| c t] eqn:Es; [| apply Hda; discriminate].
          exfalso. destruct (Hms m (or_introl eq_refl)) as (a & q & E). cbn [CsvModel.c_compiled c_match] in E.
          destruct (c_pick (c_patterns CString) 0 a (skipn q text)) as [[[i n] gs] |] eqn:Ep; [| discriminate]. injection E as <-. cbn [m_start] in *.
          assert (Hq : q < length text).
          { destruct (le_lt_dec (length text) q) as [Hq | Hq]; [| exact Hq]. rewrite skipn_all2 in Ep by exact Hq. discriminate Ep. }
          apply (f_equal (@length nat)) in Es. unfold slice in Es. rewrite firstn_length, skipn_length in Es. cbn in Es. lia.
        + destruct (Hms m (or_introl eq_refl)) as (a & q & E). exact (token_cls CString a q m E).
        + apply (IH _ (fun m' Hm' => Hms m' (or_intror Hm')) H). }
    apply G. intros m Hm. exact (scan_in _ _ _ _ _ Hm).
Qed.

(** ** Runs *)

(** Where the word of a tree is: [SFresh] is a string that has only tokens before its text. *)
Inductive st := SRoot | SRecord | SFresh | SSome | BadRecord | BadRoot.
Definition nxt (q : st) (x : sym clex cact) : option st :=
  match q, x with
  | SRoot, Enter CRecord => Some SRecord
  | SRecord, Leaf _ => Some SRecord
  | SRecord, Enter CString => Some SFresh
  | SRecord, Exit => Some SRoot
  | SFresh, Leaf t => Some (if opening (IToken t) then SFresh else SSome)
  | SFresh, Exit => Some BadRecord
  | SSome, Leaf _ => Some SSome
  | SSome, Exit => Some SRecord
  | BadRecord, Exit => Some BadRoot
  | _, _ => None
  end.
Fixpoint auto (q : st) (w : list (sym clex cact)) : option st :=
  match w with [] => Some q | x :: w => match nxt q x with Some q => auto q w | None => None end end.
Lemma auto_app q a b : auto q (a ++ b) = match auto q a with Some q => auto q b | None => None end.
Proof. revert q. induction a as [| x a IH]; intros q; [reflexivity |]. cbn [app auto]. destruct (nxt q x); [apply IH | reflexivity]. Qed.

(** The state after the events, what has to be added to the next event, and the lexicons. *)
Inductive combo : st -> factory clex -> list clex -> Prop :=
| cb1 : combo SRoot (Factory 0 []) [CRoot]
| cb2 : combo SRoot (Factory 0 [CRecord]) [CRoot; CRecord]
| cb3 : combo SRecord (Factory 0 []) [CRoot; CRecord]
| cb4 : combo SRecord (Factory 1 []) [CRoot]
| cb5 : combo SRecord (Factory 1 [CRecord]) [CRoot; CRecord]
| cb6 : combo SFresh (Factory 0 []) [CRoot; CRecord; CString]
| cb7 : combo SSome (Factory 0 []) [CRoot; CRecord; CString]
| cb8 : combo SSome (Factory 1 []) [CRoot; CRecord]
| cb9 : combo SSome (Factory 2 []) [CRoot]
| cb10 : combo SSome (Factory 2 [CRecord]) [CRoot; CRecord].

Definition lexemes_of (evs : list (seen clex cact)) : list (lexeme cact) := concat (map (fun x => e_lexemes (fst x)) evs).
Definition last_act (evs : list (seen clex cact)) : option cact := option_map x_act (last_opt (lexemes_of evs)).
Notation evs_word := (evs_word clex cact).
Record inv (evs : list (seen clex cact)) (q : st) (s : lstate clex) : Prop := Inv {
  v_auto : auto SRoot (evs_word evs) = Some q;
  v_combo : combo q (s_fac s) (s_lex s);
  v_last : last_act evs = Some CStart <-> q = SFresh;
  v_fresh : q = SFresh -> s_idx s = 0 /\ nth_error text (s_pos s - 1) = Some 34 }.

Lemma lexemes_app a b : lexemes_of (a ++ b) = lexemes_of a ++ lexemes_of b.
Proof. unfold lexemes_of. now rewrite map_app, concat_app. Qed.
Lemma act_last evs t xs x lex : last_act (evs ++ [(Event t (xs ++ [x]), lex)]) = Some (x_act x).
Proof.
  unfold last_act. rewrite lexemes_app. unfold lexemes_of at 2. cbn [map concat fst e_lexemes]. rewrite app_nil_r, app_assoc, last_opt_app. reflexivity.
Qed.
Lemma one_word t xs (lex : list clex) : evs_word [(Event t xs, lex)] = target_word t ++ map Leaf (make_tokens xs).
Proof. cbn. now rewrite app_nil_r. Qed.
Lemma last_iff evs t xs x lex q : (x_act x = CStart <-> q = SFresh) -> (last_act (evs ++ [(Event t (xs ++ [x]), lex)]) = Some CStart <-> q = SFresh).
Proof. intros H. rewrite act_last. rewrite <- H. split; [now intros [= ->] | now intros ->]. Qed.
Lemma acts_tokens (xs : list (lexeme cact)) : map k_act (make_tokens xs) = map x_act xs.
Proof.
  pose proof (make_tokens_lexemes cact xs) as H. rewrite <- H at 2. rewrite map_map. apply map_ext. intros [p t a g]. reflexivity.
Qed.
Lemma opening_act t : opening (IToken t) = match k_act t with CInvalid | CStart => true | _ => false end.
Proof. destruct t as [p x a g]. destruct a; reflexivity. Qed.
Lemma leaf_record ts : auto SRecord (map Leaf ts) = Some SRecord.
Proof. induction ts as [| t ts IH]; [reflexivity | exact IH]. Qed.
Lemma leaf_some ts : auto SSome (map Leaf ts) = Some SSome.
Proof. induction ts as [| t ts IH]; [reflexivity | exact IH]. Qed.
Lemma leaf_fresh (ts : list (tok cact)) : Forall (fun a => a = CInvalid \/ a = CStart) (map k_act ts) -> auto SFresh (map Leaf ts) = Some SFresh.
Proof.
  induction ts as [| t ts IH]; intros H; [reflexivity |]. inversion H as [| ? ? Ht Hts]; subst. cbn [map auto nxt]. rewrite opening_act.
  destruct Ht as [-> | ->]; exact (IH Hts).
Qed.
Lemma leaf_text t ts : k_act t <> CInvalid -> k_act t <> CStart -> auto SFresh (map Leaf (t :: ts)) = Some SSome.
Proof. intros H1 H2. cbn [map auto nxt]. rewrite opening_act. destruct (k_act t); try congruence; apply leaf_some. Qed.
Lemma tokens_cons (x : lexeme cact) xs : exists t ts, make_tokens (x :: xs) = t :: ts /\ k_act t = x_act x.
Proof.
  pose proof (acts_tokens (x :: xs)) as H. destruct (make_tokens (x :: xs)) as [| t ts]; [discriminate |]. injection H as H _. eauto.
Qed.

Lemma step_inv evs q s e s' : inv evs q s -> step s = Some (e, s') -> exists q', inv (evs ++ e) q' s'.
Proof.
  intros [H1 H2 H3 H4] Hs. unfold l_step in Hs. destruct (last_opt (s_lex s)) as [l |] eqn:El; [| discriminate].
  destruct (c_parse l text (s_pos s) (s_idx s)) as [it |] eqn:Ep; [| discriminate]. pose proof (parse_cls l _ _ it Ep) as Hc.
  destruct l.
  - destruct Hc as (Ht & Htg). rewrite Htg, Ht in Hs. cbv zeta in Hs. cbn [t_push] in Hs.
    destruct (l_circle _ _ _ _ _) as [p' c'] in Hs. injection Hs as <- <-. rewrite app_nil_r. exists q.
    split; [exact H1 | | exact H3 |].
    + destruct s as [lex f c p i]. cbn in *. destruct H2; cbn in *; try discriminate El; constructor.
    + cbn. intros ->. destruct s as [lex f c p i]. cbn in *. inversion H2; subst. discriminate El.
  - assert (Hq : q <> SFresh) by (intros ->; destruct s as [lex f c p i]; cbn in *; inversion H2; subst; discriminate El).
    destruct Hc as [(Htg & x & Hx & Hax) | [(Htg & Hx) | (Htg & Ht & Hp & ys & x & Hx & Hys & Hax)]].
    + rewrite Htg in Hs. destruct (i_txt it) as [| c0 t0] eqn:Et.
      { injection Hs as <- <-. rewrite app_nil_r. exists q. split; [exact H1 | exact H2 | exact H3 | intros ->; congruence]. }
      unfold l_emit in Hs. rewrite Hx in Hs. destruct (f_get (s_fac s)) as [tg f'] eqn:Ef. injection Hs as <- <-.
      exists SRecord. split.
      * rewrite evs_word_app, auto_app, H1, one_word, auto_app.
        destruct s as [lex f c p i]. cbn in *. destruct H2; cbn in Ef, El; try discriminate El; injection Ef as <- <-; cbn [target_word t_pop t_push repeat map app auto nxt]; first [apply leaf_record | reflexivity].
      * destruct s as [lex f c p i]. cbn in *. destruct H2; cbn in Ef, El; try discriminate El; injection Ef as <- <-; constructor.
      * apply (last_iff evs tg [] x (s_lex s)). split; [congruence | discriminate].
      * discriminate.
    + rewrite Htg in Hs. cbv zeta in Hs. unfold l_emit in Hs. rewrite Hx in Hs.
      assert (Hsc : s_lex s = [CRoot; CRecord]) by (destruct s as [lex f c p i]; cbn in *; destruct H2; try discriminate El; reflexivity).
      rewrite Hsc in Hs. change (l_clip (length [CRoot; CRecord]) (Target 1 [])) with (Target 1 (@nil clex)) in Hs. cbn [t_push t_pop l_consumes last_opt rev] in Hs.
      change (l_consumes c_consume (Target 1 [])) with false in Hs. cbn iota in Hs.
      change (drop_last 1 [CRoot; CRecord] ++ []) with [CRoot] in Hs.
      assert (G : e = [] /\ s_lex s' = [CRoot] /\ s_fac s' = f_add (s_fac s) (Some (Target 1 []))).
      { destruct (i_txt it); [destruct (l_circle _ _ _ _ _) in Hs |]; injection Hs as <- <-; repeat split. }
      destruct G as (-> & Hl' & Hf'). rewrite app_nil_r. exists q. split; [exact H1 | | exact H3 | intros ->; congruence].
      rewrite Hl', Hf'. clear - H2 Hsc Hq. rewrite Hsc in H2. clear Hsc. inversion H2; cbn; constructor.
    + rewrite Htg in Hs. cbv zeta in Hs.
      assert (Hsc : s_lex s = [CRoot; CRecord]) by (destruct s as [lex f c p i]; cbn in *; destruct H2; try discriminate El; reflexivity).
      rewrite Hsc in Hs. change (l_clip (length [CRoot; CRecord]) (Target 0 [CString])) with (Target 0 [CString]) in Hs. cbn [t_push t_pop] in Hs.
      change (l_consumes c_consume (Target 0 [CString])) with true in Hs. cbn iota in Hs.
      change (drop_last 0 [CRoot; CRecord] ++ [CString]) with [CRoot; CRecord; CString] in Hs.
      unfold l_emit in Hs. rewrite Hx in Hs. destruct (i_txt it) as [| c0 t0] eqn:Et; [congruence |].
      destruct (ys ++ [x]) as [| y0 yr] eqn:Ey; [destruct ys; discriminate |]. rewrite <- Ey in Hs.
      destruct (f_get (f_add (s_fac s) (Some (Target 0 [CString])))) as [tg f'] eqn:Ef. injection Hs as <- <-. rewrite Hsc in H2.
      exists SFresh. split.
      * rewrite evs_word_app, auto_app, H1, one_word, auto_app.
        assert (Hact : auto SFresh (map Leaf (make_tokens (ys ++ [x]))) = Some SFresh).
        { apply leaf_fresh. rewrite acts_tokens, map_app. apply Forall_app. split; [| cbn; rewrite Hax; constructor; [now right | constructor]].
          apply Forall_map. eapply Forall_impl; [| exact Hys]. intros y Hy. left. exact Hy. }
        clear - H2 Ef Hact. inversion H2 as [| Eq Efc | Eq Efc | | Eq Efc | | | Eq Efc | | Eq Efc]; subst; rewrite <- Efc in Ef; cbn in Ef; injection Ef as <- <-;
          cbn [target_word t_pop t_push repeat map app auto nxt]; exact Hact.
      * cbn [s_fac s_lex]. clear - H2 Ef. inversion H2 as [| Eq Efc | Eq Efc | | Eq Efc | | | Eq Efc | | Eq Efc]; subst; rewrite <- Efc in Ef; cbn in Ef; injection Ef as <- <-; constructor.
      * apply (last_iff evs tg ys x). split; congruence.
      * intros _. cbn [s_idx s_pos]. split; [reflexivity | exact Hp].
  - assert (Hsc : s_lex s = [CRoot; CRecord; CString] /\ s_fac s = Factory 0 [] /\ (q = SFresh \/ q = SSome)).
    { destruct s as [lex f c p i]; cbn in *; destruct H2; try discriminate El; auto. }
    destruct Hsc as (Hsc & Hfac & Hq). rewrite Hsc, Hfac in Hs.
    destruct Hc as [(Htg & Ht & x & Hx & Hax) | (Htg & Ht & x & ys & Hx & Hax & Hys)]; rewrite Htg in Hs.
    + unfold l_emit in Hs. rewrite Hx in Hs. cbn [f_get f_pop f_push Nat.eqb length negb orb] in Hs.
      destruct (i_txt it) as [| c0 t0] eqn:Et; [congruence |].
      injection Hs as <- <-. exists SSome. split.
      * rewrite evs_word_app, auto_app, H1, one_word. cbn [target_word app].
        destruct (tokens_cons x []) as (t & ts & -> & Ek). destruct Hq as [-> | ->]; [| apply leaf_some]. apply leaf_text; rewrite Ek; destruct Hax as [-> | ->]; discriminate.
      * constructor.
      * apply (last_iff evs None [] x). split; [destruct Hax as [-> | ->]; discriminate | discriminate].
      * discriminate.
    + cbv zeta in Hs. change (l_clip (length [CRoot; CRecord; CString]) (Target 1 [])) with (Target 1 (@nil clex)) in Hs.
      change (l_consumes c_consume (Target 1 [])) with false in Hs. cbn iota in Hs. unfold l_emit in Hs. rewrite Hx in Hs.
      cbn [f_get f_pop f_push Nat.eqb length negb orb] in Hs. destruct (i_txt it) as [| c0 t0] eqn:Et; [congruence |]. injection Hs as <- <-.
      exists SSome. split.
      * rewrite evs_word_app, auto_app, H1, one_word. cbn [target_word app].
        destruct (tokens_cons x ys) as (t & ts & -> & Ek). destruct Hq as [-> | ->]; [| apply leaf_some]. apply leaf_text; rewrite Ek, Hax; discriminate.
      * constructor.
      * destruct (x :: ys) as [| y0 yr _] eqn:Ey using rev_ind; [discriminate |]. apply last_iff.
        assert (Hy : x_act y0 = CEnd \/ x_act y0 = CInvalid).
        { assert (Hin : In y0 (x :: ys)) by (rewrite Ey; apply in_or_app; right; now left). destruct Hin as [<- | Hin]; [now left |]. right.
          unfold all_of in Hys. rewrite Forall_forall in Hys. exact (Hys _ Hin). }
        split; [destruct Hy as [-> | ->]; discriminate | discriminate].
      * discriminate.
Qed.

Lemma run_inv n : forall s evs0 q e r, inv evs0 q s -> run n s = (e, r) ->
  exists q' s', inv (evs0 ++ e) q' s' /\ (r = None -> step s' = None).
Proof.
  induction n as [| n IH]; intros s evs0 q e r Hi; cbn [l_run].
  - intros [= <- <-]. exists q, s. rewrite app_nil_r. split; [exact Hi | discriminate].
  - destruct (step s) as [[e1 s1] |] eqn:Es.
    + destruct (step_inv _ _ _ _ _ Hi Es) as [q1 H1]. destruct (run n s1) as [e2 r2] eqn:Er. intros [= <- <-].
      destruct (IH _ _ _ _ _ H1 Er) as (q2 & s2 & H2 & H3). exists q2, s2. rewrite app_assoc. split; assumption.
    + intros [= <- <-]. exists q, s. rewrite app_nil_r. split; [exact Hi | intros _; exact Es].
Qed.
Lemma start_inv : inv [] SRoot (l_init [CRoot] 0).
Proof. split; [reflexivity | constructor | split; discriminate | discriminate]. Qed.

(** ** Trees *)

Lemma raised_app a b : existsb c_raised (a ++ b) = existsb c_raised a || existsb c_raised b.
Proof. apply existsb_app. Qed.
Lemma string_tree cs : forall q q', (q = SFresh \/ q = SSome) -> auto q (words cs) = Some q' ->
  exists ts, cs = map Tok ts /\ (q' = SFresh /\ q = SFresh /\ Forall (fun t => opening (IToken t) = true) ts \/ q' = SSome /\ (q = SSome \/ Exists (fun t => opening (IToken t) = false) ts)).
Proof.
  induction cs as [| c cs IH]; intros q q' Hq H.
  - exists []. split; [reflexivity |]. injection H as <-. destruct Hq as [-> | ->]; [left; auto | right; auto].
  - rewrite words_cons, auto_app in H. destruct c as [t | l ks].
    + cbn [word auto] in H. destruct Hq as [-> | ->]; cbn [nxt] in H.
      * destruct (opening (IToken t)) eqn:Et.
        -- destruct (IH SFresh q' (or_introl eq_refl) H) as (ts & -> & [(-> & _ & Hts) | (-> & [Hd | Hts])]); [| discriminate |]; exists (t :: ts); (split; [reflexivity |]); [left; auto | right; auto].
        -- destruct (IH SSome q' (or_intror eq_refl) H) as (ts & -> & [(_ & Hd & _) | (-> & _)]); [discriminate |]. exists (t :: ts). split; [reflexivity |]. right. auto.
      * destruct (IH SSome q' (or_intror eq_refl) H) as (ts & -> & [(_ & Hd & _) | (-> & _)]); [discriminate |]. exists (t :: ts). split; [reflexivity |]. right. auto.
    + rewrite word_ctx in H. cbn [auto] in H. destruct Hq as [-> | ->]; destruct l; discriminate.
Qed.
Lemma strip_start_none ts : Forall (fun t => opening (IToken t) = true) ts -> strip_start (map IToken ts) = None.
Proof. induction 1 as [| t ts Ht _ IH]; [reflexivity |]. cbn [map strip_start]. now rewrite Ht. Qed.
Lemma strip_start_some ts : Exists (fun t => opening (IToken t) = false) ts -> exists us, strip_start (map IToken ts) = Some (map IToken us).
Proof.
  induction 1 as [t ts Ht | t ts _ (us & IH)]; cbn [map strip_start]; [rewrite Ht; exists (t :: ts); reflexivity |].
  destruct (opening (IToken t)); [exists us; exact IH | exists (t :: ts); reflexivity].
Qed.
Lemma strip_rev_toks ts : exists us, strip_rev (map IToken ts) = map IToken us.
Proof. induction ts as [| t ts (us & IH)]; cbn [map strip_rev]; [exists []; reflexivity |]. destruct (closing (IToken t)); [exists us; exact IH | exists (t :: ts); reflexivity]. Qed.
Lemma join_toks ts : exists s, c_join (map IToken ts) = Some s.
Proof. induction ts as [| t ts (s & IH)]; cbn [map c_join]; [eauto |]. rewrite IH. eexists. reflexivity. Qed.
Lemma toks_not_raised ts : existsb c_raised (map IToken ts) = false.
Proof. induction ts as [| t ts IH]; [reflexivity | exact IH]. Qed.
Lemma string_ok cs q' : auto SFresh (words cs) = Some q' ->
  (q' = SFresh /\ mcall CString (items cs) = None) \/ (q' = SSome /\ exists s, mcall CString (items cs) = Some (VStr s)).
Proof.
  intros H. destruct (string_tree cs SFresh q' (or_introl eq_refl) H) as (ts & -> & [(-> & _ & Hts) | (-> & [Hd | Hts])]); [left | discriminate | right].
  - split; [reflexivity |]. unfold mcall. rewrite items_toks, toks_not_raised. unfold m_string. now rewrite (strip_start_none ts Hts).
  - split; [reflexivity |]. unfold mcall. rewrite items_toks, toks_not_raised. unfold m_string. destruct (strip_start_some ts Hts) as (us & ->).
    rewrite <- map_rev. destruct (strip_rev_toks (rev us)) as (vs & ->). rewrite <- map_rev. destruct (join_toks (rev vs)) as (s & ->). exists s. reflexivity.
Qed.
Definition fine (i : citem) : Prop := match i with IToken _ => True | IObj _ (Some _) => True | _ => False end.
Lemma fine_not_raised its : Forall fine its -> existsb c_raised its = false.
Proof. induction 1 as [| i its Hi _ IH]; [reflexivity |]. cbn [existsb]. rewrite IH. destruct i as [t | nm [v |] | ?]; try contradiction; reflexivity. Qed.
Lemma record_tree cs : forall q', auto SRecord (words cs) = Some q' ->
  (q' = SRecord /\ Forall fine (items cs)) \/ (q' = BadRecord /\ existsb c_raised (items cs) = true).
Proof.
  induction cs as [| c cs IH]; intros q' H.
  - injection H as <-. left. split; [reflexivity | constructor].
  - rewrite words_cons, auto_app in H. change (c :: cs) with ([c] ++ cs). rewrite items_app. destruct c as [t | l ks].
    + cbn [word auto nxt] in H. destruct (IH q' H) as [[-> Hf] | [-> Hb]]; [left | right]; (split; [reflexivity |]).
      * apply Forall_app. split; [repeat constructor | exact Hf].
      * rewrite raised_app, Hb. apply orb_true_r.
    + rewrite word_ctx in H. cbn [auto] in H. destruct l; try discriminate. cbn [nxt] in H. rewrite auto_app in H. rewrite items_ctx.
      destruct (auto SFresh (words ks)) as [q1 |] eqn:E1; [| discriminate]. destruct (string_ok ks q1 E1) as [[-> Hv] | [-> (s & Hv)]]; cbn [auto nxt] in H; rewrite Hv.
      * destruct cs as [| c cs]; [| rewrite words_cons in H; destruct c as [t | l cs']; [discriminate | rewrite word_ctx in H; discriminate]].
        injection H as <-. right. split; reflexivity.
      * destruct (IH q' H) as [[-> Hf] | [-> Hb]]; [left | right]; (split; [reflexivity |]).
        -- apply Forall_app. split; [repeat constructor | exact Hf].
        -- rewrite raised_app, Hb. apply orb_true_r.
Qed.
Lemma split_fine l : Forall fine l -> forall cur, Forall fine cur -> Forall (Forall fine) (c_split l cur).
Proof.
  induction 1 as [| i l Hi Hl IH]; intros cur Hc; cbn [c_split]; [repeat constructor; exact Hc |].
  destruct (is_comma i); [constructor; [exact Hc | apply IH; constructor] |]. apply IH. apply Forall_app. split; [exact Hc | now constructor].
Qed.
Lemma fields_fine ls : Forall (Forall fine) ls -> exists vs, fields_of ls = Some vs.
Proof.
  induction 1 as [| l ls Hl _ (vs & IH)]; [exists []; reflexivity |]. cbn [fields_of].
  assert (G : exists v, field_of l = Some v).
  { destruct Hl as [| i l Hi Hl]; [eexists; reflexivity |]. destruct i as [t | nm [v |] | ?]; try contradiction; eexists; reflexivity. }
  destruct G as (v & ->). rewrite IH. eexists. reflexivity.
Qed.
Lemma record_ok cs q' : auto SRecord (words cs) = Some q' ->
  (q' = SRecord /\ exists v, mcall CRecord (items cs) = Some v) \/ (q' = BadRecord /\ mcall CRecord (items cs) = None).
Proof.
  intros H. destruct (record_tree cs q' H) as [[-> Hf] | [-> Hb]]; [left | right]; (split; [reflexivity |]); unfold mcall.
  - rewrite (fine_not_raised _ Hf). unfold m_record. destruct (fields_fine _ (split_fine _ Hf [] ltac:(constructor))) as (vs & ->). eexists. reflexivity.
  - now rewrite Hb.
Qed.
Lemma root_tree cs : forall q', auto SRoot (words cs) = Some q' ->
  (q' = SRoot /\ existsb c_raised (items cs) = false /\ exists vs, c_objs (items cs) = Some vs) \/ (q' = BadRoot /\ existsb c_raised (items cs) = true).
Proof.
  induction cs as [| c cs IH]; intros q' H.
  - injection H as <-. left. split; [reflexivity |]. split; [reflexivity | exists []; reflexivity].
  - rewrite words_cons, auto_app in H. change (c :: cs) with ([c] ++ cs). rewrite items_app. destruct c as [t | l ks]; [discriminate |].
    rewrite word_ctx in H. cbn [auto] in H. destruct l; try discriminate. cbn [nxt] in H. rewrite auto_app in H. rewrite items_ctx.
    destruct (auto SRecord (words ks)) as [q1 |] eqn:E1; [| discriminate]. destruct (record_ok ks q1 E1) as [[-> (v & Hv)] | [-> Hv]]; cbn [auto nxt] in H; rewrite Hv.
    + destruct (IH q' H) as [(-> & Hf & vs & Ho) | [-> Hb]]; [left | right]; (split; [reflexivity |]).
      * split; [exact Hf |]. exists (v :: vs). cbn [app c_objs]. now rewrite Ho.
      * rewrite raised_app, Hb. apply orb_true_r.
    + destruct cs as [| c cs]; [| rewrite words_cons in H; destruct c as [t | l cs']; [discriminate | rewrite word_ctx in H; discriminate]].
      injection H as <-. right. split; reflexivity.
Qed.

(** Balance: entered minus left. *)
Definition bal1 (x : sym clex cact) : Z := match x with Enter _ => 1 | Exit => -1 | Leaf _ => 0 end.
Definition bal (w : list (sym clex cact)) : Z := fold_right (fun x z => bal1 x + z)%Z 0%Z w.
Lemma bal_app a b : bal (a ++ b) = (bal a + bal b)%Z.
Proof. induction a as [| x a IH]; [reflexivity |]. cbn [app bal fold_right]. fold (bal (a ++ b)) (bal a). rewrite IH. lia. Qed.
Lemma bal_words cs : bal (words cs) = 0%Z.
Proof.
  assert (G : forall n, bal (word n) = 0%Z).
  { intros n. induction n as [t | l ks IH] using node_ind'; [reflexivity |]. rewrite word_ctx. cbn [bal fold_right]. fold (bal (words ks ++ [Exit])). rewrite bal_app.
    assert (E : bal (words ks) = 0%Z) by (induction IH as [| c ks Hc _ IH']; [reflexivity |]; rewrite words_cons, bal_app, Hc, IH'; reflexivity).
    rewrite E. reflexivity. }
  induction cs as [| c cs IH]; [reflexivity |]. now rewrite words_cons, bal_app, G, IH.
Qed.
Lemma bal_exits k : bal (repeat Exit k) = (- Z.of_nat k)%Z.
Proof. induction k as [| k IH]; [reflexivity |]. cbn [repeat bal fold_right]. fold (bal (repeat Exit k)). rewrite IH. cbn [bal1]. lia. Qed.
Definition depth (q : st) : Z := match q with SRoot | BadRoot => 0 | SRecord | BadRecord => 1 | SFresh | SSome => 2 end.
Lemma auto_bal w : forall q q', auto q w = Some q' -> depth q' = (depth q + bal w)%Z.
Proof.
  induction w as [| x w IH]; intros q q'; cbn [auto]; [intros [= <-]; cbn; lia |]. destruct (nxt q x) as [q1 |] eqn:E; [| discriminate]. intros H.
  rewrite (IH _ _ H). cbn [bal fold_right]. fold (bal w). destruct q, x as [[] | | t]; try discriminate; cbn [nxt] in E; injection E as <-; cbn [depth bal1]; try lia. match goal with |- context [opening ?i] => destruct (opening i); cbn [depth]; lia end.
Qed.

Theorem read_iff n evs r : run n (l_init [CRoot] 0) = (evs, r) ->
  if match last_act evs with Some CStart => true | _ => false end then c_read (map fst evs) = Some (Some None) else exists v, c_read (map fst evs) = Some (Some (Some v)).
Proof.
  intros Hr. pose proof (run_stream_ok clex cact c_consume c_parse text n [CRoot] 0 evs r ltac:(discriminate) Hr) as Hst.
  destruct (build_tree_ok clex cact CRoot _ Hst) as (cs & Hb & Hw & _). rewrite (read_tree _ cs Hst Hb).
  destruct (run_inv n _ _ _ _ _ start_inv Hr) as (q & s & [H1 H2 H3 _] & _). cbn [app] in *.
  change (concat (map event_word (map fst evs))) with (evs_word evs) in Hw. set (k := length (replay [CRoot] (map fst evs)) - 1) in *.
  assert (Hk : Z.of_nat k = depth q).
  { pose proof (bal_words cs) as Hz. rewrite Hw, bal_app, bal_exits in Hz. pose proof (auto_bal _ _ _ H1) as Hd. cbn [depth] in Hd. lia. }
  assert (Ha : auto SRoot (words cs) = auto q (repeat Exit k)) by (rewrite Hw, auto_app, H1; reflexivity).
  assert (Hq : q = SFresh /\ auto SRoot (words cs) = Some BadRoot \/ q <> SFresh /\ auto SRoot (words cs) = Some SRoot).
  { rewrite Ha. destruct H2; cbn [depth] in Hk; (first [replace k with 0 by lia | replace k with 1 by lia | replace k with 2 by lia]); cbn; ((left; split; [reflexivity | reflexivity]) || (right; split; [discriminate | reflexivity])). }
  destruct Hq as [[-> Hq] | [Hne Hq]].
  - rewrite (proj2 H3 eq_refl). destruct (root_tree cs _ Hq) as [[Hd _] | [_ Hraise]]; [discriminate |]. unfold mcall. now rewrite Hraise.
  - destruct (root_tree cs _ Hq) as [(_ & Hnr & vs & Hvs) | [Hd _]]; [| discriminate].
    assert (El : match last_act evs with Some CStart => true | _ => false end = false).
    { destruct (last_act evs) as [[] |]; try reflexivity. exfalso. apply Hne, H3. reflexivity. }
    rewrite El. unfold mcall. rewrite Hnr. unfold m_root. rewrite Hvs. eexists. reflexivity.
Qed.
(** After a complete run the last token only opens a string if the text ends with a quote. *)
Theorem end_open n evs : run n (l_init [CRoot] 0) = (evs, None) -> last_act evs = Some CStart -> exists t, text = t ++ [34].
Proof.
  intros Hr Hl. destruct (run_inv n _ _ _ _ _ start_inv Hr) as (q & s & [H1 H2 H3 H4] & He). specialize (He eq_refl). cbn [app] in *.
  apply H3 in Hl. subst q. destruct (H4 eq_refl) as [Hi Hp].
  assert (Hlex : s_lex s = [CRoot; CRecord; CString]) by (destruct s as [lex f c p i]; cbn in *; inversion H2; reflexivity).
  assert (Hnone : c_parse CString text (s_pos s) 0 = None).
  { unfold l_step in He. rewrite Hlex, Hi in He. cbn [last_opt rev app] in He. destruct (c_parse CString text (s_pos s) 0) as [it |]; [exfalso | reflexivity].
    destruct (i_target it) as [t0 |]; [| destruct (i_txt it); [discriminate | destruct (l_emit _ _ _); discriminate]].
    cbv zeta in He. destruct (i_txt it); [destruct (l_circle _ _ _ _ _); discriminate |]. destruct (l_consumes _ _); [destruct (l_emit _ _ _); discriminate |]. destruct (l_emit _ _ _). discriminate. }
  assert (Hge : length text <= s_pos s).
  { destruct (le_lt_dec (length text) (s_pos s)) as [Hle | Hlt]; [exact Hle | exfalso]. revert Hnone. unfold CsvModel.c_parse.
    rewrite (da_is clex cact (fun _ _ => []) CString (c_compiled CString) text eq_refl (rules_ne uspace CString ltac:(discriminate)) ltac:(discriminate)).
    destruct (finditer (c_match (c_compiled CString)) text (s_pos s)) as [| m ms]; cbn [gaps].
    - destruct (Nat.ltb_spec (s_pos s) (length text)); [discriminate | lia].
    - destruct (s_pos s <? m_start m); discriminate. }
  assert (Hlt : s_pos s - 1 < length text) by (apply nth_error_Some; congruence).
  assert (Hlast : s_pos s - 1 = length text - 1) by lia. rewrite Hlast in Hp.
  destruct text as [| c0 t0] eqn:Et; [discriminate |]. rewrite <- Et in *. destruct (nth_error_split _ _ Hp) as (a & b & E & Ea). exists a. rewrite E.
  assert (Hb : b = []) by (apply (f_equal (@length nat)) in E; rewrite app_length in E; cbn in E; assert (Hz : length b = 0) by lia; destruct b; [reflexivity | discriminate]).
  now rewrite Hb.
Qed.
End Total.
