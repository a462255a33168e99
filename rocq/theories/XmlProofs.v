(** The tree of an XML document shows the document. *)
From Verif Require Import Base BaseFacts TargetModel LexerModel LexiconModel TreeModel TreeSpec TreeProofs BuildModel BuildProofs MachineProofs XmlModel XmlSpec XmlMatchProofs XmlStepProofs XmlAttrProofs.
From Coq Require Import ZArith ZifyBool.

Lemma least (f : nat -> bool) : forall n, f n = true -> exists k, k <= n /\ f k = true /\ forall j, j < k -> f j = false.
Proof.
  intros n Hn. assert (G : forall m, (exists k, k < m /\ f k = true /\ forall j, j < k -> f j = false) \/ forall j, j < m -> f j = false).
  { induction m as [| m IH]; [right; lia |]. destruct IH as [(k & H1 & H2) | IH]; [left; exists k; split; [lia | exact H2] |].
    destruct (f m) eqn:E; [left; exists m; split; [lia |]; now split |]. right. intros j Hj. destruct (Nat.eq_dec j m) as [-> | Hne]; [exact E | apply IH; lia]. }
  destruct (G (S n)) as [(k & H1 & H2) | H]; [exists k; split; [lia | exact H2] |]. specialize (H n ltac:(lia)). congruence.
Qed.
Lemma item_ind (P : xitem -> Prop) : (forall x, match x with XElem _ _ _ c _ => Forall P c | _ => True end -> P x) -> forall x, P x.
Proof.
  intros H. fix F 1. intros x. apply H. destruct x as [| | | | | | | n ats w c w']; try exact I. induction c as [| y c IH]; constructor; [apply F | exact IH].
Qed.

Ltac flat H := repeat (progress (rewrite <- ?app_assoc in H; cbn [app] in H)); repeat (progress (rewrite <- ?app_assoc; cbn [app])).

Section Doc.
Variable e : xenv.
Variable dtd : xlex -> compiled xlex xact.
Variable text : str.
Notation R := (R e dtd text).

(** ** Comments *)
Notation fm := (first_match 0).
Notation cend := ([45; 45; 62] ++ _).
Lemma mark_groups p s n gs : re_email e p s = Some (n, gs) \/ re_url e p s = Some (n, gs) \/ re_alert e p s = Some (n, gs) -> gs = [].
Proof.
  unfold re_email, re_url, re_alert. intros [H | [H | H]].
  - destruct (word_before e p); [discriminate |]. destruct (run_len _ _ s); [discriminate |]. destruct (skipn _ s) as [| c r]; [discriminate |]. destruct (c =? 64); [| discriminate].
    destruct (run_len _ _ r); [discriminate | congruence].
  - destruct (url_start e p s); [discriminate |]. destruct (url_parts e _ _); [discriminate | congruence].
  - destruct (word_before e p); [discriminate |]. destruct (find _ _); [congruence |]. destruct (_ && _); [congruence | discriminate].
Qed.
Lemma hyphens s a b r : comment_ok e s -> s = a ++ b -> b <> [] -> starts [45; 45] (b ++ [45; 45; 62] ++ r) = false.
Proof.
  intros [H1 H2] E Hb. destruct (starts _ _) eqn:Es; [| reflexivity]. exfalso. apply starts_firstn in Es. cbn [length] in Es. destruct b as [| c [| d b]]; [congruence | |]; cbn [app firstn] in Es.
  - injection Es as Ec. subst c s. rewrite rev_app_distr in H2. cbn [rev app] in H2. apply H2. right. cbn. tauto.
  - injection Es as Ec Ed. subst c d. apply H1. exists a, b. exact E.
Qed.
Lemma mark_len s a b q p r n gs : comment_ok e s -> s = a ++ b -> b <> [] -> marks_only e q -> q p (b ++ [45; 45; 62] ++ r) = Some (n, gs) -> n <= length b.
Proof.
  intros [_ H2] E Hb Hq Hs. destruct (Hq _ _ _ _ Hs) as (H3 & H4 & _). destruct (le_lt_dec n (length b)) as [Hl | Hl]; [exact Hl |]. exfalso.
  destruct (exists_last Hb) as (b' & c & ->). subst s. rewrite !rev_app_distr in H2. cbn [rev app] in H2. apply H2. rewrite app_length in Hl. cbn [length] in Hl.
  rewrite Forall_forall in H4. apply H4. apply nth_error_In with (n := length b'). 
  rewrite <- app_assoc. assert (Hn : nth_error (b' ++ [c] ++ [45; 45; 62] ++ r) (length b') = Some c) by apply nth_pre.
  rewrite <- Hn. rewrite <- (firstn_skipn n (b' ++ [c] ++ [45; 45; 62] ++ r)) at 2. rewrite nth_error_app1; [reflexivity |]. rewrite firstn_length.
  rewrite <- app_assoc in H3. lia.
Qed.
Lemma comment_here s a b p r i n gs : comment_ok e s -> s = a ++ b -> b <> [] -> fm (x_patterns e XComment) p (b ++ [45; 45; 62] ++ r) = Some (i, (n, gs)) ->
  (exists k, nth_error (x_rules XComment) i = Some (SRule (AStd (AMark k)) []) /\ k < 3) /\ 0 < n <= length b /\ gs = [].
Proof.
  intros Hs E Hb. set (u := b ++ [45; 45; 62] ++ r). pose proof (hyphens s a b r Hs E Hb) as Hh. fold u in Hh. cbn [x_patterns first_match]. unfold plain at 1, lit at 1.
  assert (H3 : starts [45; 45; 62] u = false).
  { destruct (starts [45; 45; 62] u) eqn:Es; [| reflexivity]. apply starts_firstn in Es. cbn [length] in Es. unfold starts in Hh. cbn [length] in Hh.
    destruct u as [| c [| d [| g u]]]; cbn [firstn] in *; try discriminate. injection Es as -> -> ->. discriminate. }
  rewrite H3. cbn [option_map]. unfold plain, lit. rewrite Hh. cbn [option_map].
  destruct (re_email e p u) as [[n1 g1] |] eqn:E1.
  { intros H. injection H as <- <- <-. split; [exists 0; split; [reflexivity | lia] |]. split; [| eapply mark_groups; left; exact E1].
    pose proof (mark_len s a b _ p r n1 g1 Hs E Hb (email_marks e) E1). apply email_marks in E1. lia. }
  destruct (re_url e p u) as [[n1 g1] |] eqn:E2.
  { intros H. injection H as <- <- <-. split; [exists 1; split; [reflexivity | lia] |]. split; [| eapply mark_groups; right; left; exact E2].
    pose proof (mark_len s a b _ p r n1 g1 Hs E Hb (url_marks e) E2). apply url_marks in E2. lia. }
  destruct (re_alert e p u) as [[n1 g1] |] eqn:E3; [| discriminate].
  intros H. injection H as <- <- <-. split; [exists 2; split; [reflexivity | lia] |]. split; [| eapply mark_groups; right; right; exact E3].
  pose proof (mark_len s a b _ p r n1 g1 Hs E Hb (alert_marks e) E3). apply alert_marks in E3. lia.
Qed.
Lemma com_nil p : fm (x_patterns e XComment) p [] = None.
Proof.
  cbn [x_patterns first_match]. assert (E1 : re_email e p [] = None) by (unfold re_email; destruct (word_before e p); reflexivity).
  assert (E2 : re_url e p [] = None) by (unfold re_url, url_start; destruct (word_before e p); reflexivity).
  assert (E3 : re_alert e p [] = None) by (unfold re_alert; destruct (word_before e p); reflexivity). rewrite E1, E2, E3. reflexivity.
Qed.
Definition ctok (x : xact * str) : Prop := In (fst x) [ACom; AMark 0; AMark 1; AMark 2] /\ snd x <> [].
Lemma comment_run s : comment_ok e s -> forall m b, length b <= m -> forall a up pre r w new, s = a ++ b -> text = pre ++ b ++ [45; 45; 62] ++ r ->
  exists ts new', Forall ctok (map tk ts) /\ concat (map snd (map tk ts)) = b /\ R (up ++ [XComment]) w new pre (up ++ [XComment]) (w ++ map Leaf ts) new' (pre ++ b).
Proof.
  intros Hs. induction m as [| m IH]; intros b Hm a up pre r w new E Et.
  { destruct b; [| cbn in Hm; lia]. exists [], new. split; [constructor |]. split; [reflexivity |]. cbn [map]. rewrite !app_nil_r. apply R_refl. }
  destruct b as [| c0 b0] eqn:Eb.
  { exists [], new. split; [constructor |]. split; [reflexivity |]. cbn [map]. rewrite !app_nil_r. apply R_refl. }
  rewrite <- Eb in *. assert (Hb : b <> []) by (subst b; discriminate). clear Eb.
  set (f := fun k => match fm (x_patterns e XComment) (before text (length pre + k)) (skipn k b ++ [45; 45; 62] ++ r) with None => false | Some _ => true end).
  assert (Hf : f (length b) = true) by (unfold f; rewrite skipn_all; reflexivity).
  destruct (least f (length b) Hf) as (k & K1 & K2 & K3). destruct (Nat.eq_dec k 0) as [-> | Hk].
  - (* a mark *)
    unfold f in K2. rewrite Nat.add_0_r in K2. cbn [skipn] in K2. destruct (fm _ _ _) as [[i [n gs]] |] eqn:Ef; [| discriminate]. clear K2.
    destruct (comment_here s a b _ r i n gs Hs E Hb Ef) as ((q & Hq & Hq3) & Hn & ->).
    pose proof (firstn_skipn n b) as Esp. assert (El : length (firstn n b) = n) by (rewrite firstn_length; lia).
    destruct (step_out e dtd text up XComment pre (firstn n b) (skipn n b ++ [45; 45; 62] ++ r) i [] (AStd (AMark q)) w new I) as (t1 & A1 & R1).
    + rewrite app_assoc with (l := firstn n b), Esp. exact Et.
    + intros H. rewrite H in El. cbn in El. lia.
    + unfold found. rewrite app_assoc with (l := firstn n b), Esp, El. exact Ef.
    + unfold rule_is. rewrite Hq. now split.
    + exact I.
    + constructor.
    + discriminate.
    + destruct (IH (skipn n b)) with (a := a ++ firstn n b) (up := up) (pre := pre ++ firstn n b) (r := r) (w := w ++ map Leaf t1) (new := 0) as (t2 & new' & B1 & B2 & B3).
      * rewrite skipn_length. lia.
      * rewrite <- app_assoc, Esp. exact E.
      * rewrite <- app_assoc, (app_assoc (firstn n b)), Esp. exact Et.
      * exists (t1 ++ t2), new'. split; [| split].
        -- rewrite map_app, A1. apply Forall_app. split; [| exact B1]. constructor; [| constructor]. split; [| intros H; cbn in H; rewrite H in El; cbn in El; lia].
           cbn [fst]. destruct q as [| [| [| q]]]; cbn; tauto || lia.
        -- rewrite !map_app, concat_app, A1, B2. cbn [map concat snd gives]. rewrite ?app_nil_r. exact Esp.
        -- eapply R_trans; [exact R1 |]. rewrite map_app. rewrite <- !app_assoc in B3. rewrite Esp in B3. exact B3.
  - (* plain text *)
    pose proof (firstn_skipn k b) as Esp. assert (El : length (firstn k b) = k) by (rewrite firstn_length; lia).
    destruct (step_gap e dtd text up XComment pre (firstn k b) (skipn k b ++ [45; 45; 62] ++ r) ACom w new I) as (t1 & A1 & R1).
    + rewrite app_assoc with (l := firstn k b), Esp. exact Et.
    + intros H. rewrite H in El. cbn in El. lia.
    + reflexivity.
    + intros a' c' Hac Hc. specialize (K3 (length a')). unfold f in K3. rewrite app_length.
      assert (Hj : length a' < k) by (rewrite <- El, Hac, app_length; destruct c'; [congruence | cbn; lia]). specialize (K3 Hj).
      assert (Esk : skipn (length a') b = c' ++ skipn k b) by (rewrite <- Esp at 1; rewrite Hac, <- app_assoc; apply skipn_pre). rewrite Esk, <- app_assoc in K3.
      destruct (fm (x_patterns e XComment) _ (c' ++ skipn k b ++ [45; 45; 62] ++ r)); [discriminate | reflexivity].
    + destruct (skipn k b ++ [45; 45; 62] ++ r) eqn:Er; [exact I |]. rewrite <- Er. rewrite app_length, El. unfold f in K2. destruct (fm _ _ _); [discriminate | discriminate].
    + apply com_nil.
    + destruct (IH (skipn k b)) with (a := a ++ firstn k b) (up := up) (pre := pre ++ firstn k b) (r := r) (w := w ++ map Leaf t1) (new := 0) as (t2 & new' & B1 & B2 & B3).
      * rewrite skipn_length. lia.
      * rewrite <- app_assoc, Esp. exact E.
      * rewrite <- app_assoc, (app_assoc (firstn k b)), Esp. exact Et.
      * exists (t1 ++ t2), new'. split; [| split].
        -- rewrite map_app, A1. apply Forall_app. split; [| exact B1]. constructor; [| constructor]. split; [cbn; tauto | intros H; cbn in H; rewrite H in El; cbn in El; lia].
        -- rewrite !map_app, concat_app, A1, B2. cbn [map concat snd gives]. rewrite ?app_nil_r. exact Esp.
        -- eapply R_trans; [exact R1 |]. rewrite map_app. rewrite <- !app_assoc in B3. rewrite Esp in B3. exact B3.
Qed.

(** ** The patterns of contents *)
Definition content (l : xlex) : Prop := l = XRoot \/ l = XTag.
Lemma content_known l : content l -> known l. Proof. intros [-> | ->]; exact I. Qed.
Lemma content_rules l : content l -> x_rules l = r_content. Proof. intros [-> | ->]; reflexivity. Qed.
Definition every (i n : nat) (gs : grp) (s : str) : Prop := forall ic p, fm (p_content e ic) p s = Some (i, (n, gs)).
Lemma every_at l i n gs p s : content l -> every i n gs s -> fm (x_patterns e l) p s = Some (i, (n, gs)).
Proof. intros [-> | ->] H; apply H. Qed.
Lemma c_com s : every 0 4 [] ([60; 33; 45; 45] ++ s). Proof. intros ic p. reflexivity. Qed.
Lemma c_cdata s : every 1 9 [Some (0, 3); Some (3, 8); Some (8, 9)] ([60; 33; 91; 67; 68; 65; 84; 65; 91] ++ s). Proof. intros ic p. reflexivity. Qed.
Lemma no_bang ic p c s : (c =? 33) = false -> plain (lit [60; 33; 45; 45]) p (60 :: c :: s) = None /\ re_cdata ic p (60 :: c :: s) = None /\ re_doctype e ic p (60 :: c :: s) = None.
Proof.
  intros H. rewrite Nat.eqb_sym in H. split; [| split].
  - unfold plain, lit, starts. cbn [length firstn str_eqb list_eqb]. unfold str_eqb. cbn [list_eqb]. rewrite H. reflexivity.
  - unfold re_cdata. cbn [starts_ic]. rewrite Nat.eqb_sym in H. rewrite H. destruct ic; reflexivity.
  - unfold re_doctype. cbn [starts_ic]. rewrite Nat.eqb_sym in H. rewrite H. destruct ic; reflexivity.
Qed.
Lemma c_pi n s : xname e n -> (forall ic, hd_not (nchar e ic) s) -> every 3 (2 + length n) [Some (0, 2); Some (2, 2 + length n)] ([60; 63] ++ n ++ s).
Proof.
  intros Hn Hs ic p. unfold p_content. cbn [first_match]. change ([60; 63] ++ n ++ s) with (60 :: 63 :: n ++ s). destruct (no_bang ic p 63 (n ++ s) eq_refl) as (-> & -> & ->). unfold re_pi. cbn [app].
  assert (Es : starts [60; 63] (60 :: 63 :: n ++ s) = true) by reflexivity. rewrite Es. cbn [skipn]. rewrite (name_at e ic n s Hn (Hs ic)).
  pose proof (xname_ne e n Hn). destruct n; [congruence | reflexivity].
Qed.
Lemma c_end n w s : xname e n -> blanks w ->
  every 4 (3 + length n + length w) [Some (0, 2); Some (2, 2 + length n); Some (2 + length n + length w, 2 + length n + length w + 1)] (([60; 47] ++ n ++ w ++ [62]) ++ s).
Proof.
  intros Hn Hw ic p. unfold p_content. cbn [first_match]. replace (([60; 47] ++ n ++ w ++ [62]) ++ s) with (60 :: 47 :: n ++ w ++ 62 :: s) by (cbn [app]; rewrite <- !app_assoc; reflexivity).
  destruct (no_bang ic p 47 (n ++ w ++ 62 :: s) eq_refl) as (-> & -> & ->).
  assert (Ep : re_pi e ic p (60 :: 47 :: n ++ w ++ 62 :: s) = None) by reflexivity. rewrite Ep.
  unfold re_end. cbn [Nat.eqb]. cbv zeta. change (span (space e) (47 :: n ++ w ++ 62 :: s)) with 0. cbn [skipn Nat.eqb].
  rewrite (spaced_at e ic n) by (exact Hn || (apply hd_blanks; [apply blank_nchar | exact Hw | reflexivity])). cbn [Nat.add]. rewrite skipn_pre.
  rewrite (span_app (space e) w _ (blanks_space e _ Hw)) by reflexivity. rewrite nth_pre. cbn [Nat.eqb]. do 3 f_equal. lia.
Qed.
Lemma c_ref s r : ref_ok e s -> every 6 (length ([38] ++ s ++ [59])) [] (([38] ++ s ++ [59]) ++ r).
Proof.
  intros H ic p. unfold p_content. cbn [first_match]. rewrite <- app_assoc. pose proof (ref_at e s r H) as Hr.
  assert (A : plain (re_ref e) p ([38] ++ (s ++ [59]) ++ r) = Some (length ([38] ++ s ++ [59]), [])) by (unfold plain; rewrite Hr; reflexivity).
  rewrite A. destruct ic; reflexivity.
Qed.
Lemma name_hd n s : xname e n -> exists c r, n ++ s = c :: r /\ (forall ic, nstart e ic c = true) /\ space e c = false.
Proof. intros H. destruct (xname_cons e n H) as (c & r & -> & H1 & H2 & _). exists c, (r ++ s). now split. Qed.
(** The patterns before that of a start tag do not match it. *)
Lemma c_start n s x : xname e n -> (forall ic p, re_start e ic p (60 :: n ++ s) = Some x) -> every 5 (fst x) (snd x) (60 :: n ++ s).
Proof.
  intros Hn Hx ic p. unfold p_content. cbn [first_match]. rewrite Hx. destruct (name_hd n s Hn) as (c & r & -> & H1 & H2).
  destruct (no_bang ic p c r (nstart_neq e ic c 33 (H1 ic) ltac:(lia) eq_refl)) as (-> & -> & ->).
  assert (Ep : re_pi e ic p (60 :: c :: r) = None).
  { unfold re_pi, starts. cbn [length firstn]. unfold str_eqb. cbn [list_eqb].
    pose proof (nstart_neq e ic c 63 (H1 ic) ltac:(lia) eq_refl) as N1. pose proof N1 as N2. rewrite Nat.eqb_sym in N2. rewrite ?N1, ?N2. reflexivity. }
  rewrite Ep. assert (Ee : re_end e ic p (60 :: c :: r) = None).
  { unfold re_end. cbn [Nat.eqb]. cbv zeta. cbn [span]. rewrite H2. cbn [skipn]. now rewrite (nstart_neq e ic c 47 (H1 ic) ltac:(lia) eq_refl). }
  rewrite Ee. destruct x; reflexivity.
Qed.
Definition closing (open : bool) : str := if open then [62] else [47; 62].
Lemma start_plain n w open s ic p : xname e n -> blanks w ->
  re_start e ic p (60 :: n ++ w ++ closing open ++ s) =
  Some (1 + length n + length w + length (closing open), [Some (0, 1); Some (1, 1 + length n); Some (1 + length n + length w, 1 + length n + length w + length (closing open))]).
Proof.
  intros Hn Hw. unfold re_start. cbn [Nat.eqb]. rewrite (spaced_at e ic n) by (exact Hn || (apply hd_blanks; [apply blank_nchar | exact Hw | destruct open; reflexivity])). cbv zeta. cbn [Nat.add].
  rewrite skipn_pre. rewrite (span_app (space e) w _ (blanks_space e _ Hw)) by (destruct open; reflexivity). rewrite skipn_pre.
  assert (Ec : re_close e (closing open ++ s) = Some (length (closing open))) by (destruct open; reflexivity). rewrite Ec. reflexivity.
Qed.
Lemma start_attrs n w m s ic p : xname e n -> w <> [] -> blanks w -> xname e m -> re_start e ic p (60 :: n ++ w ++ m ++ s) = Some (1 + length n, [Some (0, 1); Some (1, 1 + length n); None]).
Proof.
  intros Hn Hne Hw Hm. unfold re_start. cbn [Nat.eqb]. destruct (name_hd m s Hm) as (c & r & -> & H1 & H2).
  rewrite (spaced_at e ic n); [| exact Hn | destruct w; [congruence |]; inversion Hw; now apply blank_nchar]. cbv zeta. cbn [Nat.add]. rewrite skipn_pre.
  rewrite (span_app (space e) w _ (blanks_space e _ Hw)) by exact H2. rewrite skipn_pre. cbn [re_close].
  rewrite (nstart_neq e ic c 62 (H1 ic) ltac:(lia) eq_refl), (nstart_neq e ic c 47 (H1 ic) ltac:(lia) eq_refl). reflexivity.
Qed.

(** ** Start tags *)
Lemma slice_at (a b c : str) : slice (a ++ b ++ c) (length a) (length a + length b) = b.
Proof. rewrite <- app_length. apply slice_mid. Qed.
Lemma slice1 (c : nat) s : slice (c :: s) 0 1 = [c]. Proof. reflexivity. Qed.
Lemma tag_start n ats w0 open s l up pre w new : content l -> xname e n -> Forall (attr_ok e) ats -> blanks w0 -> text = pre ++ ([60] ++ n ++ attrs_text ats ++ w0 ++ closing open) ++ s ->
  exists ns, map strip ns = tag_nodes n ats (closing open) /\
    R (up ++ [l]) w new pre ((up ++ [l]) ++ if open then [XTag] else []) (w ++ words ns ++ if open then [Enter XTag] else []) (if open then 1 else 0)
      (pre ++ [60] ++ n ++ attrs_text ats ++ w0 ++ closing open).
Proof.
  intros Hl Hn Ha Hw E. pose proof (xname_ne e n Hn) as Hne. destruct ats as [| a ats].
  - cbn [attrs_text map concat app] in E |- *. set (t := 60 :: n ++ w0 ++ closing open) in *.
    set (gs := [Some (0, 1); Some (1, 1 + length n); Some (1 + length n + length w0, 1 + length n + length w0 + length (closing open))]).
    assert (Elen : length t = 1 + length n + length w0 + length (closing open)) by (unfold t; cbn [length]; rewrite !app_length; lia).
    assert (Hf : every 5 (length t) gs (t ++ s)).
    { pose proof (c_start n (w0 ++ closing open ++ s) _ Hn (fun ic p => start_plain n w0 open s ic p Hn Hw)) as H. cbn [fst snd] in H. rewrite Elen. unfold t. cbn [app]. rewrite <- !app_assoc. exact H. }
    assert (S3 : slice t (1 + length n + length w0) (1 + length n + length w0 + length (closing open)) = closing open).
    { unfold t. change (60 :: n ++ w0 ++ closing open) with ((60 :: n) ++ w0 ++ closing open). rewrite app_assoc.
      replace (1 + length n + length w0) with (length ((60 :: n) ++ w0)) by (rewrite app_length; cbn [length]; lia). apply slice_end. }
    assert (S2 : slice t 1 (1 + length n) = n) by exact (slice_at [60] n (w0 ++ closing open)).
    assert (G : gives (AGroups [AStd ADelim; AStd ATag; AStd ADelim]) t gs = [(ADelim, [60]); (ATag, n); (ADelim, closing open)]).
    { cbn [gives gs gout]. rewrite S2, S3. change (slice t 0 1) with [60]. destruct n; [congruence |]. destruct open; reflexivity. }
    assert (Hg : grp_ok (length t) gs) by (rewrite Elen; unfold grp_ok, gs; repeat (apply Forall_cons; [cbn; lia |]); apply Forall_nil).
    assert (Hr : rule_is l 5 pre t gs (AGroups [AStd ADelim; AStd ATag; AStd ADelim]) (if open then [RLex XTag] else [])).
    { unfold rule_is. rewrite (content_rules l Hl). cbn [r_content nth_error]. unfold tag_rule. cbn [m_groups m_start g_shift gs map option_map fst snd nth_error]. f_equal.
      replace (length pre + (1 + length n + length w0) - length pre) with (1 + length n + length w0) by lia.
      replace (length pre + (1 + length n + length w0 + length (closing open)) - length pre) with (1 + length n + length w0 + length (closing open)) by lia. rewrite S3. destruct open; reflexivity. }
    assert (Hsi : simple (AGroups [AStd ADelim; AStd ATag; AStd ADelim])) by repeat constructor.
    destruct open.
    + destruct (step_enter e dtd text up l XTag pre t s 5 gs _ w new (content_known l Hl) E ltac:(discriminate) (every_at l _ _ _ _ _ Hl Hf) Hr Hsi Hg ltac:(rewrite G; discriminate)) as (ts & A1 & K1).
      exists (map Tok ts). split; [rewrite strip_toks, A1, G; reflexivity |]. rewrite words_toks. exact K1.
    + destruct (step_out e dtd text up l pre t s 5 gs _ w new (content_known l Hl) E ltac:(discriminate) (every_at l _ _ _ _ _ Hl Hf) Hr Hsi Hg ltac:(rewrite G; discriminate)) as (ts & A1 & K1).
      exists (map Tok ts). split; [rewrite strip_toks, A1, G; reflexivity |]. rewrite words_toks, !app_nil_r. exact K1.
  - inversion Ha as [| a0 ats0 Ha1 Ha2]; subst a0 ats0. set (t := [60] ++ n). set (gs := [Some (0, 1); Some (1, 1 + length n); @None (nat * nat)]).
    assert (E1 : text = pre ++ t ++ attrs_text (a :: ats) ++ w0 ++ closing open ++ s) by (rewrite E; unfold t; rewrite <- !app_assoc; reflexivity).
    assert (Hf : every 5 (length t) gs (t ++ attrs_text (a :: ats) ++ w0 ++ closing open ++ s)).
    { unfold attrs_text. cbn [map concat]. unfold attr_text. destruct Ha1 as [[Hb1 Hb2] Hn1 _ _ _]. unfold t. cbn [app length]. rewrite <- !app_assoc.
      refine (c_start n _ (1 + length n, gs) Hn _). intros ic p. apply start_attrs; assumption. }
    assert (S2 : slice t 1 (1 + length n) = n) by exact (slice_end [60] n).
    assert (G : gives (AGroups [AStd ADelim; AStd ATag; AStd ADelim]) t gs = [(ADelim, [60]); (ATag, n)]).
    { cbn [gives gs gout]. rewrite S2. change (slice t 0 1) with [60]. destruct n; [congruence | reflexivity]. }
    destruct (step_enter e dtd text up l XAttrs pre t _ 5 gs (AGroups [AStd ADelim; AStd ATag; AStd ADelim]) w new (content_known l Hl) E1) as (ts & A1 & K1).
    { discriminate. } { now apply every_at. } { unfold rule_is. rewrite (content_rules l Hl). reflexivity. } { repeat constructor. } { unfold grp_ok, gs, t; repeat (apply Forall_cons; [cbn; try exact I; lia |]); apply Forall_nil. } { rewrite G. discriminate. }
    rewrite G in A1. assert (E2 : text = (pre ++ t) ++ attrs_text (a :: ats) ++ w0 ++ closing open ++ s) by (rewrite <- app_assoc; exact E1).
    destruct (attrs_run e dtd text (a :: ats) Ha (up ++ [l]) (pre ++ t) _ (w ++ map Leaf ts ++ [Enter XAttrs]) 1 E2) as (ns & new' & A2 & K2).
    assert (E3 : text = ((pre ++ t) ++ attrs_text (a :: ats)) ++ w0 ++ closing open ++ s) by (rewrite <- !app_assoc; rewrite <- !app_assoc in E2; exact E2).
    pose proof (attrs_skip e dtd text (up ++ [l]) w0 (closing open ++ s) _ ((w ++ map Leaf ts ++ [Enter XAttrs]) ++ words ns) new' Hw ltac:(destruct open; reflexivity) E3) as K3.
    assert (E4 : text = (((pre ++ t) ++ attrs_text (a :: ats)) ++ w0) ++ closing open ++ s) by (rewrite <- !app_assoc; rewrite <- !app_assoc in E2; exact E2).
    assert (Hup : up ++ [l] <> []) by (destruct up; discriminate).
    destruct open.
    + destruct (step_switch e dtd text (up ++ [l]) XAttrs XTag _ [62] s 5 [] (AStd ADelim) ((w ++ map Leaf ts ++ [Enter XAttrs]) ++ words ns) new' Hup I E4) as (t2 & A3 & K4).
      { discriminate. } { reflexivity. } { now split. } { exact I. } { constructor. } { discriminate. }
      exists (map Tok ts ++ [Ctx XAttrs (ns ++ map Tok t2)]). split.
      * rewrite map_app, strip_toks, A1. cbn [map strip]. rewrite map_app, strip_toks, A2, A3. reflexivity.
      * eapply R_trans; [exact K1 |]. eapply R_trans; [exact K2 |]. eapply R_trans; [exact K3 |]. rewrite words_app, words_toks, words_ctx, words_app, words_toks.
        cbn [closing] in K4 |- *. unfold t in K4 |- *. flat K4. exact K4.
    + destruct (step_leave e dtd text (up ++ [l]) XAttrs _ [47; 62] s 4 [] (AStd ADelim) ((w ++ map Leaf ts ++ [Enter XAttrs]) ++ words ns) new' Hup I E4) as (t2 & A3 & K4).
      { discriminate. } { reflexivity. } { now split. } { exact I. } { constructor. } { discriminate. }
      exists (map Tok ts ++ [Ctx XAttrs (ns ++ map Tok t2)]). split.
      * rewrite map_app, strip_toks, A1. cbn [map strip]. rewrite map_app, strip_toks, A2, A3. reflexivity.
      * eapply R_trans; [exact K1 |]. eapply R_trans; [exact K2 |]. eapply R_trans; [exact K3 |]. rewrite words_app, words_toks, words_ctx, words_app, words_toks.
        rewrite !app_nil_r. cbn [closing] in K4 |- *. unfold t in K4 |- *. flat K4. exact K4.
Qed.

(** ** Processing instructions and CDATA sections *)
Lemma span_le f c r : f 63 = false -> span f (c ++ 63 :: r) <= length c.
Proof. intros H. induction c as [| x c IH]; cbn [app span length]; [rewrite H; lia | destruct (f x); lia]. Qed.
Lemma pi_none p c r : c <> [] -> Forall (fun x => ~ In x [34; 39; 38; 63; 61]) c -> fm (x_patterns e XPi) p (c ++ [63; 62] ++ r) = None.
Proof.
  intros Hne Hc. cbn [x_patterns first_match app p_strings].
  assert (Ea : re_pi_attr e p (c ++ 63 :: 62 :: r) = None).
  { unfold re_pi_attr. assert (Hn : name_len e false (c ++ 63 :: 62 :: r) <= length c).
    { destruct c as [| x c]; [congruence |]. cbn [app name_len]. destruct (nstart e false x); [| lia]. cbn [length]. pose proof (span_le (nchar e false) c (62 :: r) eq_refl). lia. }
    set (n := name_len _ _ _) in *. clearbody n. destruct n as [| n]; [reflexivity |]. cbv zeta. set (k := S n) in *.
    assert (Es : skipn k (c ++ 63 :: 62 :: r) = skipn k c ++ 63 :: 62 :: r) by (rewrite skipn_app; replace (k - length c) with 0 by lia; reflexivity).
    rewrite Es. pose proof (span_le (space e) (skipn k c) (62 :: r) eq_refl) as Hm. set (m := span _ _) in *. clearbody m. rewrite skipn_length in Hm.
    rewrite skipn_app. replace (k + m - length c) with 0 by lia. cbn [skipn]. destruct (skipn (k + m) c) as [| x y] eqn:Ey; [reflexivity |]. cbn [app].
    destruct (x =? 61) eqn:Ex; [| reflexivity]. apply Nat.eqb_eq in Ex. rewrite Forall_forall in Hc. exfalso. apply (Hc x).
    - rewrite <- (firstn_skipn (k + m) c), Ey. apply in_or_app. right. now left.
    - cbn. lia. }
  rewrite Ea. destruct c as [| x c]; [congruence |]. inversion Hc as [| x' c' Hx _]; subst x' c'. cbn in Hx. cbn [app]. unfold plain, lit, starts. cbn [length firstn]. unfold str_eqb. cbn [list_eqb].
  destruct (x =? 34) eqn:E1; [apply Nat.eqb_eq in E1; lia |]. destruct (x =? 39) eqn:E2; [apply Nat.eqb_eq in E2; lia |]. destruct (x =? 38) eqn:E3; [apply Nat.eqb_eq in E3; lia |].
  destruct (x =? 63) eqn:E4; [apply Nat.eqb_eq in E4; lia |]. rewrite ?(Nat.eqb_sym 34), ?(Nat.eqb_sym 39), ?(Nat.eqb_sym 63), E1, E2, E4. cbn [re_ref andb option_map]. rewrite E3. reflexivity.
Qed.
Lemma pi_end p r : fm (x_patterns e XPi) p ([63; 62] ++ r) = Some (4, (2, [])). Proof. reflexivity. Qed.
Lemma pi_close up r pre w new : up <> [] -> text = pre ++ [63; 62] ++ r ->
  exists ts, map tk ts = [(APiEnd, [63; 62])] /\ R (up ++ [XPi]) w new pre up (w ++ map Leaf ts ++ [Exit]) 0 (pre ++ [63; 62]).
Proof. intros Hup E. apply (step_leave e dtd text up XPi pre [63; 62] r 4 [] (AStd APiEnd) w new Hup I E); [discriminate | reflexivity | now split | exact I | constructor | discriminate]. Qed.
Lemma pi_start n s l up pre w new : content l -> xname e n -> (forall ic, hd_not (nchar e ic) s) -> text = pre ++ ([60; 63] ++ n) ++ s ->
  exists ts, map tk ts = [(APiStart, [60; 63]); (APiName, n)] /\ R (up ++ [l]) w new pre ((up ++ [l]) ++ [XPi]) (w ++ map Leaf ts ++ [Enter XPi]) 1 (pre ++ [60; 63] ++ n).
Proof.
  intros Hl Hn Hs E. pose proof (xname_ne e n Hn) as Hne. set (t := [60; 63] ++ n) in *. set (gs := [Some (0, 2); Some (2, 2 + length n)]).
  assert (G : gives (AGroups [AStd APiStart; AStd APiName]) t gs = [(APiStart, [60; 63]); (APiName, n)]).
  { cbn [gives gs gout]. assert (S2 : slice t 2 (2 + length n) = n) by exact (slice_end [60; 63] n). rewrite S2. change (slice t 0 2) with [60; 63]. destruct n; [congruence | reflexivity]. }
  rewrite <- G. apply (step_enter e dtd text up l XPi pre t s 3 gs _ w new (content_known l Hl) E).
  - discriminate.
  - apply every_at; [exact Hl |]. pose proof (c_pi n s Hn Hs) as H. unfold t. rewrite <- app_assoc. exact H.
  - unfold rule_is. rewrite (content_rules l Hl). now split.
  - repeat constructor.
  - unfold grp_ok, gs, t. repeat (apply Forall_cons; [cbn; lia |]); apply Forall_nil.
  - rewrite G. discriminate.
Qed.
Lemma no_cdata_end s a c r : ~ has [93; 93; 62] s -> s = a ++ c -> c <> [] -> starts [93; 93; 62] (c ++ [93; 93; 62] ++ r) = false.
Proof.
  intros H E Hc. destruct (starts _ _) eqn:Es; [| reflexivity]. exfalso. apply starts_firstn in Es. cbn [length] in Es. destruct c as [| x [| y [| z c]]]; [congruence | | |]; cbn [app firstn] in Es.
  - discriminate.
  - discriminate.
  - injection Es as -> -> ->. apply H. exists a, c. exact E.
Qed.

(** ** Items *)
Definition stop (s : str) : Prop := s = [] \/ forall ic p, fm (p_content e ic) p s <> None.
Lemma content_none ic p c s : c <> 60 -> c <> 38 -> fm (p_content e ic) p (c :: s) = None.
Proof.
  intros H1 H2. apply Nat.eqb_neq in H1, H2. unfold p_content. cbn [first_match]. pose proof H1 as H3. rewrite Nat.eqb_sym in H3.
  unfold plain, lit, starts, re_cdata, re_doctype, re_pi, re_end, re_start, re_ref, starts. cbn [length firstn starts_ic]. unfold str_eqb. cbn [list_eqb]. rewrite ?H1, ?H2, ?H3. destruct ic; reflexivity.
Qed.
Lemma content_nil ic p : fm (p_content e ic) p [] = None.
Proof. destruct ic; reflexivity. Qed.
Lemma item_stop x s : item_ok e x -> is_text x = false -> stop (item_text x ++ s).
Proof.
  intros Hx Ht. right. intros ic p. destruct x as [t | t | t | t | n t | n ats w | n ats w | n ats w c w']; cbn [item_text item_ok is_text] in *; try discriminate.
  - rewrite (c_ref t s Hx ic p). discriminate.
  - destruct Hx as (Hn & Hb & _). rewrite <- !app_assoc. rewrite (c_pi n (t ++ [63; 62] ++ s) Hn); [discriminate |]. intros ic'. destruct t; [reflexivity | now apply blank_nchar].
  - destruct Hx as (Hn & Ha & Hb). rewrite <- !app_assoc. rewrite (c_pi n _ Hn); [discriminate |]. intros ic'. destruct Ha as [| a ats [[Hb1 Hb2] _ _ _ _] _].
    + apply (hd_blanks _ w ([63; 62] ++ s)); [apply blank_nchar | exact Hb | reflexivity].
    + unfold attrs_text. cbn [map concat]. unfold attr_text. rewrite <- !app_assoc. destruct (a_before a); [congruence |]. inversion Hb2. now apply blank_nchar.
  - destruct Hx as (Hn & Ha & Hb). rewrite <- !app_assoc. cbn [app]. destruct Ha as [| a ats [[Hb1 Hb2] Hn1 _ _ _] _].
    + pose proof (c_start n _ _ Hn (fun ic p => start_plain n w false s ic p Hn Hb) ic p) as H. cbn [closing app] in H. cbn [attrs_text map concat app]. rewrite H. discriminate.
    + unfold attrs_text. cbn [map concat]. unfold attr_text. rewrite <- !app_assoc.
      rewrite (c_start n _ _ Hn (fun ic p => start_attrs n _ _ _ ic p Hn Hb1 Hb2 Hn1) ic p). discriminate.
  - destruct Hx as (Hn & Ha & Hb & _). rewrite <- !app_assoc. cbn [app]. destruct Ha as [| a ats [[Hb1 Hb2] Hn1 _ _ _] _].
    + pose proof (c_start n _ _ Hn (fun ic p => start_plain n w true (concat (map item_text c) ++ 60 :: 47 :: n ++ w' ++ 62 :: s) ic p Hn Hb) ic p) as H. cbn [closing app] in H. cbn [attrs_text map concat app]. rewrite H. discriminate.
    + unfold attrs_text. cbn [map concat]. unfold attr_text. rewrite <- !app_assoc.
      rewrite (c_start n _ _ Hn (fun ic p => start_attrs n _ _ _ ic p Hn Hb1 Hb2 Hn1) ic p). discriminate.
Qed.
Definition item_run (x : xitem) : Prop := item_ok e x -> forall up l pre s w new, content l -> text = pre ++ item_text x ++ s -> (is_text x = true -> stop s) ->
  exists ns, R (up ++ [l]) w new pre (up ++ [l]) (w ++ words ns) 0 (pre ++ item_text x) /\ forall ns' d, shows e ns' d -> shows e (map strip ns ++ ns') (x :: d).
Lemma items_run c : Forall item_run c -> Forall (item_ok e) c -> apart is_text c -> forall up l pre s w new, content l -> text = pre ++ xml_text c ++ s -> stop s ->
  exists ns new', (new = 0 -> new' = 0) /\ R (up ++ [l]) w new pre (up ++ [l]) (w ++ words ns) new' (pre ++ xml_text c) /\ shows e (map strip ns) c.
Proof.
  induction 1 as [| x c Hx Hc IH]; intros Hok Hap up l pre s w new Hl E Hs.
  - exists [], new. split; [easy |]. cbn. rewrite !app_nil_r. split; [apply R_refl | constructor].
  - inversion Hok as [| x' c' Ho1 Ho2]; subst x' c'. unfold xml_text in *. cbn [map concat] in *. rewrite <- app_assoc in E.
    destruct (Hx Ho1 up l pre (concat (map item_text c) ++ s) w new Hl E) as (ns & K1 & A1).
    { intros Ht. destruct c as [| y c]; [exact Hs |]. destruct Hap as [Hap _]. inversion Ho2 as [| y' c' Hy _]; subst y' c'. cbn [map concat]. rewrite <- app_assoc. apply item_stop; [exact Hy | now apply Hap]. }
    assert (E2 : text = (pre ++ item_text x) ++ concat (map item_text c) ++ s) by (rewrite <- app_assoc; exact E).
    destruct (IH Ho2 ltac:(destruct c; [exact I | apply Hap]) up l _ s (w ++ words ns) 0 Hl E2 Hs) as (ns' & new' & A2 & K2 & A3).
    exists (ns ++ ns'), new'. split; [intros _; now apply A2 |]. split; [| rewrite map_app; now apply A1].
    eapply R_trans; [exact K1 |]. rewrite words_app. rewrite <- !app_assoc in K2. exact K2.
Qed.
Lemma all_ok c : fold_right (fun x P => item_ok e x /\ P) True c -> Forall (item_ok e) c.
Proof. induction c as [| x c IH]; [constructor |]. intros [H1 H2]. constructor; [exact H1 | apply IH, H2]. Qed.
Lemma tn_ctoks ts : map strip (map (@Tok xlex xact) ts) = map (fun x => T (fst x) (snd x)) (map tk ts).
Proof. apply strip_toks. Qed.
Theorem item_runs : forall x, item_run x.
Proof.
  apply item_ind. intros x IH Hok up l pre s w new Hl E Hs. assert (Hup : up ++ [l] <> []) by (destruct up; discriminate). destruct x as [t | t | t | t | n t | n ats w0 | n ats w0 | n ats w0 c w'];
    cbn [item_text item_ok is_text] in *.
  - (* text *)
    destruct Hok as (H1 & H2 & H3). destruct (step_gap e dtd text up l pre t s (if forallb (space e) t then ASpace else AText) w new (content_known l Hl) E H1) as (ts & A1 & K1).
    + destruct Hl as [-> | ->]; reflexivity.
    + intros a c Hac Hc. destruct c as [| x c]; [congruence |]. assert (Hin : In x t) by (rewrite Hac; apply in_or_app; right; now left).
      assert (N1 : x <> 60) by (intros ->; contradiction). assert (N2 : x <> 38) by (intros ->; contradiction). destruct Hl as [-> | ->]; cbn [x_patterns app]; now apply content_none.
    + destruct (Hs eq_refl) as [-> | Hs']; [exact I |]. destruct s; [exact I |]. destruct Hl as [-> | ->]; apply Hs'.
    + destruct Hl as [-> | ->]; apply content_nil.
    + exists (map Tok ts). rewrite words_toks. split; [exact K1 |]. intros ns' d Hd. rewrite strip_toks, A1. cbn [map app tn fst snd]. now constructor.
  - (* a reference *)
    destruct (step_out e dtd text up l pre ([38] ++ t ++ [59]) s 6 [] (AStd AEsc) w new (content_known l Hl) E) as (ts & A1 & K1).
    { discriminate. } { apply every_at; [exact Hl |]. now apply c_ref. } { unfold rule_is. rewrite (content_rules l Hl). now split. } { exact I. } { constructor. } { discriminate. }
    exists (map Tok ts). rewrite words_toks. split; [exact K1 |]. intros ns' d Hd. rewrite strip_toks, A1. cbn [gives map app tn fst snd]. now apply ShRef.
  - (* a comment *)
    assert (E1 : text = pre ++ [60; 33; 45; 45] ++ t ++ [45; 45; 62] ++ s) by (rewrite E; rewrite <- !app_assoc; reflexivity).
    destruct (step_enter e dtd text up l XComment pre [60; 33; 45; 45] _ 0 [] (AStd AComStart) w new (content_known l Hl) E1) as (t1 & A1 & K1).
    { discriminate. } { apply every_at; [exact Hl |]. apply c_com. } { unfold rule_is. rewrite (content_rules l Hl). now split. } { exact I. } { constructor. } { discriminate. }
    rewrite app_assoc in E1. destruct (comment_run t Hok (length t) t (le_n _) [] (up ++ [l]) _ s (w ++ map Leaf t1 ++ [Enter XComment]) 1 eq_refl E1) as (t2 & new' & A2 & A3 & K2).
    rewrite app_assoc in E1.
    destruct (step_leave e dtd text (up ++ [l]) XComment _ [45; 45; 62] s 0 [] (AStd AComEnd) ((w ++ map Leaf t1 ++ [Enter XComment]) ++ map Leaf t2) new' Hup I E1) as (t3 & A4 & K3).
    { discriminate. } { reflexivity. } { now split. } { exact I. } { constructor. } { discriminate. }
    exists (map Tok t1 ++ [Ctx XComment (map Tok t2 ++ map Tok t3)]). split.
    + eapply R_trans; [exact K1 |]. eapply R_trans; [exact K2 |]. rewrite words_app, words_ctx, words_app, !words_toks. flat K3. exact K3.
    + intros ns' d Hd. rewrite map_app, strip_toks, A1. cbn [map strip]. rewrite map_app, !strip_toks, A4. cbn [gives map app tn fst snd]. apply ShCom; [| exact Hd].
      exists (map tk t2). split; [reflexivity |]. split; [exact A3 | exact A2].
  - (* a CDATA section *)
    set (cs := [60; 33; 91; 67; 68; 65; 84; 65; 91]) in *.
    assert (E1 : text = pre ++ cs ++ t ++ [93; 93; 62] ++ s) by (rewrite E; unfold cs; rewrite <- !app_assoc; reflexivity).
    destruct (step_enter e dtd text up l XCdata pre cs _ 1 [Some (0, 3); Some (3, 8); Some (8, 9)] (AGroups [AStd ADelim; AStd ADataDef; AStd ADelim]) w new (content_known l Hl) E1) as (t1 & A1 & K1).
    { discriminate. } { apply every_at; [exact Hl |]. apply c_cdata. } { unfold rule_is. rewrite (content_rules l Hl). now split. } { repeat constructor. }
    { unfold grp_ok. repeat (apply Forall_cons; [cbn; lia |]); apply Forall_nil. } { discriminate. }
    assert (G : exists t2 new', map tk t2 = (match t with [] => [] | _ => [(AData, t)] end) /\
      R ((up ++ [l]) ++ [XCdata]) (w ++ map Leaf t1 ++ [Enter XCdata]) 1 (pre ++ cs) ((up ++ [l]) ++ [XCdata]) ((w ++ map Leaf t1 ++ [Enter XCdata]) ++ map Leaf t2) new' ((pre ++ cs) ++ t)).
    { destruct t as [| c0 t0] eqn:Et; [exists [], 1; split; [reflexivity |]; cbn [map]; rewrite !app_nil_r; apply R_refl |]. rewrite <- Et in *.
      destruct (step_gap e dtd text (up ++ [l]) XCdata (pre ++ cs) t ([93; 93; 62] ++ s) AData (w ++ map Leaf t1 ++ [Enter XCdata]) 1 I) as (t2 & A2 & K2).
      - rewrite <- app_assoc. exact E1.
      - subst t. discriminate.
      - reflexivity.
      - intros a c Hac Hc. cbn [x_patterns first_match]. unfold plain, lit. rewrite (no_cdata_end t a c s Hok Hac Hc). reflexivity.
      - discriminate.
      - reflexivity.
      - exists t2, 0. split; [exact A2 | exact K2]. }
    destruct G as (t2 & new' & A2 & K2). rewrite app_assoc in E1. rewrite app_assoc in E1.
    destruct (step_leave e dtd text (up ++ [l]) XCdata _ [93; 93; 62] s 0 [] (AStd ADelim) ((w ++ map Leaf t1 ++ [Enter XCdata]) ++ map Leaf t2) new' Hup I E1) as (t3 & A4 & K3).
    { discriminate. } { reflexivity. } { now split. } { exact I. } { constructor. } { discriminate. }
    exists (map Tok t1 ++ [Ctx XCdata (map Tok t2 ++ map Tok t3)]). split.
    + eapply R_trans; [exact K1 |]. eapply R_trans; [exact K2 |]. rewrite words_app, words_ctx, words_app, !words_toks. flat K3. exact K3.
    + intros ns' d Hd. rewrite map_app, strip_toks, A1. cbn [map strip]. rewrite map_app, !strip_toks, A4, A2. pose proof (ShCData e t ns' d Hd) as H. destruct t; exact H.
  - (* a processing instruction with text *)
    destruct Hok as (Hn & Hb & Hf). assert (E1 : text = pre ++ ([60; 63] ++ n) ++ t ++ [63; 62] ++ s) by (rewrite E; rewrite <- !app_assoc; reflexivity).
    destruct (pi_start n (t ++ [63; 62] ++ s) l up pre w new Hl Hn) as (t1 & A1 & K1).
    { intros ic. destruct t; [reflexivity | now apply blank_nchar]. } { exact E1. }
    assert (G : exists t2 new', map tk t2 = (match t with [] => [] | _ => [(APiText, t)] end) /\
      R ((up ++ [l]) ++ [XPi]) (w ++ map Leaf t1 ++ [Enter XPi]) 1 (pre ++ [60; 63] ++ n) ((up ++ [l]) ++ [XPi]) ((w ++ map Leaf t1 ++ [Enter XPi]) ++ map Leaf t2) new' ((pre ++ [60; 63] ++ n) ++ t)).
    { destruct t as [| c0 t0] eqn:Et; [exists [], 1; split; [reflexivity |]; cbn [map]; rewrite !app_nil_r; apply R_refl |]. rewrite <- Et in *.
      destruct (step_gap e dtd text (up ++ [l]) XPi (pre ++ [60; 63] ++ n) t ([63; 62] ++ s) APiText (w ++ map Leaf t1 ++ [Enter XPi]) 1 I) as (t2 & A2 & K2).
      - rewrite <- (app_assoc pre). exact E1.
      - subst t. discriminate.
      - reflexivity.
      - intros a c Hac Hc. apply pi_none; [exact Hc |]. rewrite Hac in Hf. apply Forall_app in Hf. apply Hf.
      - cbn [app]. intros H. pose proof (pi_end (before text (length ((pre ++ [60; 63] ++ n) ++ t))) s) as H'. cbn [app] in H'. congruence.
      - reflexivity.
      - exists t2, 0. split; [exact A2 | exact K2]. }
    destruct G as (t2 & new' & A2 & K2). rewrite app_assoc in E1. rewrite app_assoc in E1.
    destruct (pi_close (up ++ [l]) s _ ((w ++ map Leaf t1 ++ [Enter XPi]) ++ map Leaf t2) new' Hup E1) as (t3 & A4 & K3).
    exists (map Tok t1 ++ [Ctx XPi (map Tok t2 ++ map Tok t3)]). split.
    + eapply R_trans; [exact K1 |]. eapply R_trans; [exact K2 |]. rewrite words_app, words_ctx, words_app, !words_toks. flat K3. exact K3.
    + intros ns' d Hd. rewrite map_app, strip_toks, A1. cbn [map strip]. rewrite map_app, !strip_toks, A4, A2. pose proof (ShProc e n t ns' d Hd) as H. destruct t; exact H.
  - (* a processing instruction with attributes *)
    destruct Hok as (Hn & Ha & Hb). assert (E1 : text = pre ++ ([60; 63] ++ n) ++ attrs_text ats ++ w0 ++ [63; 62] ++ s) by (rewrite E; rewrite <- !app_assoc; reflexivity).
    destruct (pi_start n (attrs_text ats ++ w0 ++ [63; 62] ++ s) l up pre w new Hl Hn) as (t1 & A1 & K1).
    { intros ic. destruct Ha as [| a ats [[Hb1 Hb2] _ _ _ _] _].
      - apply (hd_blanks _ w0 ([63; 62] ++ s)); [apply blank_nchar | exact Hb | reflexivity].
      - unfold attrs_text. cbn [map concat]. unfold attr_text. rewrite <- !app_assoc. destruct (a_before a); [congruence |]. inversion Hb2. now apply blank_nchar. }
    { exact E1. }
    rewrite app_assoc in E1.
    destruct (pi_attrs_run e dtd text ats Ha (up ++ [l]) (pre ++ [60; 63] ++ n) _ (w ++ map Leaf t1 ++ [Enter XPi]) 1 E1) as (ns & new1 & A2 & K2). rewrite app_assoc in E1.
    assert (G : exists t2 new', map tk t2 = (match w0 with [] => [] | _ => [(APiText, w0)] end) /\
      R ((up ++ [l]) ++ [XPi]) ((w ++ map Leaf t1 ++ [Enter XPi]) ++ words ns) new1 ((pre ++ [60; 63] ++ n) ++ attrs_text ats)
        ((up ++ [l]) ++ [XPi]) (((w ++ map Leaf t1 ++ [Enter XPi]) ++ words ns) ++ map Leaf t2) new' (((pre ++ [60; 63] ++ n) ++ attrs_text ats) ++ w0)).
    { destruct w0 as [| c0 w1] eqn:Ew; [exists [], new1; split; [reflexivity |]; cbn [map]; rewrite !app_nil_r; apply R_refl |]. rewrite <- Ew in *.
      destruct (pi_gap e dtd text (up ++ [l]) w0 ([63; 62] ++ s) ((pre ++ [60; 63] ++ n) ++ attrs_text ats) ((w ++ map Leaf t1 ++ [Enter XPi]) ++ words ns) new1 Hb) as (t2 & A3 & K3).
      - subst w0. discriminate.
      - rewrite pi_end. discriminate.
      - exact E1.
      - exists t2, 0. split; [exact A3 | exact K3]. }
    destruct G as (t2 & new' & A3 & K3). rewrite app_assoc in E1.
    destruct (pi_close (up ++ [l]) s _ (((w ++ map Leaf t1 ++ [Enter XPi]) ++ words ns) ++ map Leaf t2) new' Hup E1) as (t3 & A4 & K4).
    exists (map Tok t1 ++ [Ctx XPi (ns ++ map Tok t2 ++ map Tok t3)]). split.
    + eapply R_trans; [exact K1 |]. eapply R_trans; [exact K2 |]. eapply R_trans; [exact K3 |]. rewrite words_app, words_ctx, !words_app, !words_toks. flat K4. exact K4.
    + intros ns' d Hd. rewrite map_app, strip_toks, A1. cbn [map strip]. rewrite !map_app, !strip_toks, A4, A3, A2. pose proof (ShDecl e n ats w0 ns' d Hd) as H. destruct w0; exact H.
  - (* an empty element *)
    destruct Hok as (Hn & Ha & Hb). destruct (tag_start n ats w0 false s l up pre w new Hl Hn Ha Hb E) as (ns & A1 & K1). exists ns. cbn [closing] in K1. rewrite !app_nil_r in K1. split; [exact K1 |].
    intros ns' d Hd. rewrite A1. now apply ShEmpty.
  - (* an element *)
    destruct Hok as (Hn & Ha & Hb & Hb' & Hc & Hap). apply all_ok in Hc.
    assert (E1 : text = pre ++ ([60] ++ n ++ attrs_text ats ++ w0 ++ closing true) ++ xml_text c ++ ([60; 47] ++ n ++ w' ++ [62]) ++ s) by (rewrite E; unfold xml_text; cbn [closing]; rewrite <- !app_assoc; reflexivity).
    destruct (tag_start n ats w0 true _ l up pre w new Hl Hn Ha Hb E1) as (ns & A1 & K1). rewrite app_assoc in E1.
    destruct (items_run c IH Hc Hap (up ++ [l]) XTag _ _ (w ++ words ns ++ [Enter XTag]) 1 (or_intror eq_refl) E1) as (cs & new' & _ & K2 & A2).
    { right. intros ic p. rewrite (c_end n w' s Hn Hb' ic p). discriminate. }
    rewrite app_assoc in E1. set (te := [60; 47] ++ n ++ w' ++ [62]) in *.
    set (gs := [Some (0, 2); Some (2, 2 + length n); Some (2 + length n + length w', 2 + length n + length w' + 1)]).
    assert (Elen : length te = 3 + length n + length w') by (unfold te; rewrite !app_length; cbn [length]; lia).
    assert (G : gives (AGroups [AStd ADelim; AStd ATag; AStd ADelim]) te gs = [(ADelim, [60; 47]); (ATag, n); (ADelim, [62])]).
    { cbn [gives gs gout]. assert (S2 : slice te 2 (2 + length n) = n) by exact (slice_at [60; 47] n (w' ++ [62])).
      assert (S3 : slice te (2 + length n + length w') (2 + length n + length w' + 1) = [62]).
      { unfold te. rewrite (app_assoc n), (app_assoc [60; 47]). replace (2 + length n + length w') with (length ([60; 47] ++ n ++ w')) by (rewrite !app_length; cbn [length]; lia). exact (slice_end ([60; 47] ++ n ++ w') [62]). }
      rewrite S2, S3. change (slice te 0 2) with [60; 47]. pose proof (xname_ne e n Hn). destruct n; [congruence | reflexivity]. }
    destruct (step_leave e dtd text (up ++ [l]) XTag _ te s 4 gs (AGroups [AStd ADelim; AStd ATag; AStd ADelim]) ((w ++ words ns ++ [Enter XTag]) ++ words cs) new' Hup I E1) as (t3 & A4 & K3).
    { discriminate. } { unfold found. rewrite Elen. apply (every_at XTag _ _ _ _ _ (or_intror eq_refl)). now apply c_end. } { now split. } { repeat constructor. }
    { rewrite Elen. unfold grp_ok, gs. repeat (apply Forall_cons; [cbn; lia |]); apply Forall_nil. } { rewrite G. discriminate. }
    exists (ns ++ [Ctx XTag (cs ++ map Tok t3)]). split.
    + eapply R_trans; [exact K1 |]. eapply R_trans; [exact K2 |]. rewrite words_app, words_ctx, words_app, !words_toks. unfold te, xml_text in K3. cbn [closing] in K3. flat K3. exact K3.
    + intros ns' d Hd. rewrite map_app. cbn [map strip]. rewrite map_app, strip_toks, A1, A4, G. rewrite <- app_assoc. now apply ShElem.
Qed.
End Doc.

(** ** Documents *)
Theorem xml_shown e dtd d : xml_ok e d ->
  exists n evs cs, l_run x_consume (x_parse e dtd) (xml_text d) n (l_init [XRoot] 0) = (evs, None) /\ build_tree XRoot (map fst evs) = Some (Ctx XRoot cs) /\ shows e (map strip cs) d.
Proof.
  intros [Hd Ha]. destruct (items_run e dtd (xml_text d) d) with (up := @nil xlex) (l := XRoot) (pre := @nil nat) (s := @nil nat) (w := @nil (sym xlex xact)) (new := 0) as (ns & new' & A1 & K & A2).
  - rewrite Forall_forall. intros x _. apply item_runs.
  - exact Hd.
  - exact Ha.
  - now left.
  - now rewrite app_nil_r.
  - now left.
  - rewrite (A1 eq_refl) in K. destruct (K []) as [circ' K']. cbn [app length] in K'.
    destruct (reach_end xlex xact x_consume (x_parse e dtd) (xml_text d) XRoot [XRoot] XRoot _ _ _ K' eq_refl) as (n & evs & cs & B1 & B2 & B3).
    + apply parse_end; [exact I | reflexivity].
    + exists n, evs, cs. split; [exact B1 |]. split; [exact B2 |]. cbn [length Nat.sub repeat] in B3. rewrite app_nil_r in B3. apply words_inj in B3. subst cs. exact A2.
Qed.
