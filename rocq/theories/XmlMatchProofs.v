(** Lengths of the matches of the patterns of XML, and the steps of the lexer. *)
From Verif Require Import Base BaseFacts TargetModel TargetSpec LexerModel LexerSpec TargetProofs LexerProofs LexiconModel LexiconSpec TreeModel TreeSpec TreeProofs BuildModel BuildProofs
  MachineProofs GeneratorProofs FastPathProofs XmlModel XmlSpec.
From Coq Require Import ZArith ZifyBool.

Section Match.
Variable e : xenv.

(** ** Lengths *)
Lemma span_le f s : span f s <= length s.
Proof. induction s as [| c s IH]; cbn [span length]; [lia |]. destruct (f c); lia. Qed.
Definition hd_not (f : nat -> bool) (s : str) : Prop := match s with [] => True | c :: _ => f c = false end.
Lemma span_app f a s : Forall (fun c => f c = true) a -> hd_not f s -> span f (a ++ s) = length a.
Proof.
  induction 1 as [| c a Hc Ha IH]; intros Hs; cbn [app span length].
  - destruct s as [| c s]; [reflexivity |]. cbn in *. now rewrite Hs.
  - rewrite Hc. now rewrite (IH Hs).
Qed.
Lemma span_stop f a x s : f x = false -> span f (a ++ x :: s) <= length a.
Proof. intros H. induction a as [| c a IH]; cbn [app span length]; [rewrite H; lia |]. destruct (f c); lia. Qed.
Lemma skipn_pre {X} (pre s : list X) : skipn (length pre) (pre ++ s) = s.
Proof. now rewrite skipn_app, skipn_all, Nat.sub_diag. Qed.
Lemma nth_pre {X} (pre : list X) x s : nth_error (pre ++ x :: s) (length pre) = Some x.
Proof. now rewrite nth_error_app2, Nat.sub_diag. Qed.
Lemma slice_mid (pre t s : str) : slice (pre ++ t ++ s) (length pre) (length (pre ++ t)) = t.
Proof.
  unfold slice. rewrite skipn_pre, app_length. replace (length pre + length t - length pre) with (length t) by lia.
  now rewrite firstn_app, firstn_all, Nat.sub_diag, app_nil_r.
Qed.
Lemma slice_in (pre t s : str) i j : j <= length t -> slice (pre ++ t ++ s) (length pre + i) (length pre + j) = slice t i j.
Proof.
  intros H. unfold slice. rewrite skipn_app. rewrite (skipn_all2 pre) by lia. cbn [app]. replace (length pre + i - length pre) with i by lia.
  replace (length pre + j - (length pre + i)) with (j - i) by lia. rewrite skipn_app, firstn_app, skipn_length.
  replace (j - i - (length t - i)) with 0 by lia. cbn [firstn]. apply app_nil_r.
Qed.
Lemma nth_len {X} (l : list X) n x : nth_error l n = Some x -> n < length l.
Proof. intros H. apply nth_error_Some. congruence. Qed.

Notation grp := (list (option (nat * nat))).
Notation pat := (option nat -> str -> option (nat * grp)).
Definition grp_ok (n : nat) (gs : grp) : Prop := Forall (fun g => match g with Some (i, j) => i <= j <= n | None => True end) gs.
Definition pat_ok (q : pat) : Prop := forall p s n gs, q p s = Some (n, gs) -> 0 < n <= length s.
Lemma plain_ok f : (forall s n, f s = Some n -> 0 < n <= length s) -> pat_ok (plain f).
Proof. intros H p s n gs. unfold plain. destruct (f s) as [m |] eqn:E; [| discriminate]. injection 1 as <- <-. exact (H _ _ E). Qed.
Lemma starts_len t s : starts t s = true -> length t <= length s.
Proof. unfold starts. intros H. apply str_eqb_spec in H. apply (f_equal (@length nat)) in H. rewrite firstn_length in H. lia. Qed.
Lemma lit_ok c t : pat_ok (plain (lit (c :: t))).
Proof. apply plain_ok. intros s n. unfold lit. destruct (starts _ s) eqn:E; [| discriminate]. apply starts_len in E. injection 1 as <-. cbn [length] in *. lia. Qed.
Lemma starts_ic_len ic t : forall s, starts_ic ic t s = true -> length t <= length s.
Proof. induction t as [| a t IH]; intros [| c s]; cbn [starts_ic length]; try discriminate; try lia. intros H. apply andb_prop in H as [_ H]. apply IH in H. lia. Qed.
Lemma name_len_le ic s : name_len e ic s <= length s.
Proof. destruct s as [| c s]; cbn [name_len length]; [lia |]. destruct (nstart e ic c); [| lia]. pose proof (span_le (nchar e ic) s). lia. Qed.
Lemma name_from_le ic s : forall k j n, name_from e ic k s = Some (j, n) -> j <= k /\ 0 < n /\ j + n <= length s.
Proof.
  induction k as [| k IH]; intros j n; cbn [name_from].
  - pose proof (name_len_le ic (skipn 0 s)) as H. destruct (name_len e ic (skipn 0 s)); [discriminate |]. injection 1 as <- <-. cbn [skipn] in H. lia.
  - pose proof (name_len_le ic (skipn (S k) s)) as H. destruct (name_len e ic (skipn (S k) s)) as [| m]; [intros H1; apply IH in H1; lia |]. injection 1 as <- <-.
    rewrite skipn_length in H. lia.
Qed.
Lemma spaced_le ic s j n : spaced_name e ic s = Some (j, n) -> 0 < n /\ j + n <= length s.
Proof. intros H. apply name_from_le in H. lia. Qed.
Lemma ref_pat_ok : pat_ok (plain (re_ref e)).
Proof.
  apply plain_ok. intros [| c r] n; cbn [re_ref]; [discriminate |]. destruct (c =? 38); [| discriminate]. cbv zeta.
  destruct (nth_error r _) as [d |] eqn:E; [| discriminate]. destruct (d =? 59); [| discriminate]. injection 1 as <-. apply nth_len in E. cbn [length]. lia.
Qed.
Lemma cdata_ok ic : pat_ok (re_cdata ic).
Proof. intros p s n gs. unfold re_cdata. destruct (starts_ic _ _ s) eqn:E; [| discriminate]. apply starts_ic_len in E. injection 1 as <- <-. cbn [length] in E. lia. Qed.
Lemma doctype_ok ic : pat_ok (re_doctype e ic).
Proof.
  intros p s n gs. unfold re_doctype. destruct (starts_ic _ _ s) eqn:E; [| discriminate]. apply starts_ic_len in E. cbn [length] in E. destruct (_ && _); [| discriminate].
  destruct (spaced_name e ic (skipn 9 s)) as [[k m] |] eqn:Es; [| injection 1 as <- <-; lia].
  intros H. apply spaced_le in Es. rewrite skipn_length in Es. injection H as <- _. lia.
Qed.
Lemma pi_ok ic : pat_ok (re_pi e ic).
Proof.
  intros p s n gs. unfold re_pi. destruct (starts _ s) eqn:E; [| discriminate]. apply starts_len in E. cbn [length] in E. pose proof (name_len_le ic (skipn 2 s)) as H.
  rewrite skipn_length in H. destruct (name_len e ic (skipn 2 s)); intros H1; injection H1 as <- _; lia.
Qed.
Lemma end_ok ic : pat_ok (re_end e ic).
Proof.
  intros p [| c r] n gs; cbn [re_end]; [discriminate |]. destruct (c =? 60); [| discriminate]. cbv zeta. destruct (skipn _ r) as [| d r1] eqn:E; [discriminate |].
  destruct (d =? 47); [| discriminate]. destruct (spaced_name e ic r1) as [[k m] |] eqn:Es; [| discriminate]. apply spaced_le in Es.
  destruct (nth_error _ _) as [g |] eqn:En; [| discriminate]. destruct (g =? 62); [| discriminate]. apply nth_len in En. rewrite skipn_length in En.
  apply (f_equal (@length nat)) in E. rewrite skipn_length in E. cbn [length] in E. intros H. injection H as <- _. cbn [length]. lia.
Qed.
Lemma close_ok s n : re_close e s = Some n -> 0 < n <= length s.
Proof.
  destruct s as [| c r]; cbn [re_close]; [discriminate |]. destruct (c =? 62); [injection 1 as <-; cbn; lia |]. destruct (c =? 47); [| discriminate]. cbv zeta.
  destruct (nth_error r _) as [g |] eqn:E; [| discriminate]. destruct (g =? 62); [| discriminate]. injection 1 as <-. apply nth_len in E. cbn [length]. lia.
Qed.
Lemma start_ok ic : pat_ok (re_start e ic).
Proof.
  intros p [| c r] n gs; cbn [re_start]; [discriminate |]. destruct (c =? 60); [| discriminate]. destruct (spaced_name e ic r) as [[k m] |] eqn:Es; [| discriminate].
  apply spaced_le in Es. cbv zeta. destruct (re_close e _) as [x |] eqn:Ec.
  - apply close_ok in Ec. rewrite !skipn_length in Ec. intros H. injection H as <- _. cbn [length]. lia.
  - intros H. injection H as <- _. cbn [length]. lia.
Qed.
Lemma pi_attr_ok : pat_ok (re_pi_attr e).
Proof.
  intros p s n gs. unfold re_pi_attr. pose proof (name_len_le false s) as H0. destruct (name_len e false s) as [| k]; [discriminate |]. cbv zeta.
  set (m := span (space e) (skipn (S k) s)). clearbody m. destruct (skipn (S k + m) s) as [| c r] eqn:E; [discriminate |]. destruct (_ && _); [| discriminate]. apply (f_equal (@length nat)) in E. rewrite skipn_length in E. cbn [length] in E.
  intros H. injection H as <- _. lia.
Qed.
Lemma slash_ok : pat_ok (plain (re_slash e)).
Proof. apply plain_ok. intros [| c r] n; cbn [re_slash]; [discriminate |]. destruct (c =? 47); [| discriminate]. apply close_ok. Qed.
Lemma name_ok : pat_ok (plain (re_name e)).
Proof. apply plain_ok. intros s n. unfold re_name. pose proof (name_len_le false s). destruct (name_len e false s); [discriminate |]. injection 1 as <-. lia. Qed.
Lemma spaces_ok : pat_ok (plain (re_spaces e)).
Proof. apply plain_ok. intros s n. unfold re_spaces. pose proof (span_le (space e) s). destruct (span (space e) s); [discriminate |]. injection 1 as <-. lia. Qed.

(** ** Marks: their characters *)
Notation markable := (markable e).
Lemma span_all f s : Forall (fun c => f c = true) (firstn (span f s) s).
Proof. induction s as [| c s IH]; cbn [span]; [constructor |]. destruct (f c) eqn:E; cbn [firstn]; constructor; assumption. Qed.
Lemma firstn_add {X} n m (s : list X) : firstn (n + m) s = firstn n s ++ firstn m (skipn n s).
Proof. revert s. induction n as [| n IH]; intros [| c s]; cbn [Nat.add firstn skipn app]; rewrite ?firstn_nil; try reflexivity. now rewrite IH. Qed.
Lemma runs_le f seps : forall fuel s, runs f seps fuel s <= length s.
Proof.
  induction fuel as [| fuel IH]; intros [| c s]; cbn [runs length]; try lia. destruct (mem seps c); [| lia]. pose proof (span_le f s) as H1. destruct (span f s) as [| n]; [lia |].
  specialize (IH (skipn (S n) s)). rewrite skipn_length in IH. lia.
Qed.
Lemma run_len_le f seps s : run_len f seps s <= length s.
Proof. unfold run_len. pose proof (span_le f s). destruct (span f s) as [| n]; [lia |]. pose proof (runs_le f seps (length s) (skipn (S n) s)) as H1. rewrite skipn_length in H1. lia. Qed.
Lemma runs_all (P : nat -> Prop) f seps : (forall c, f c = true -> P c) -> (forall c, mem seps c = true -> P c) -> forall fuel s, Forall P (firstn (runs f seps fuel s) s).
Proof.
  intros H1 H2. induction fuel as [| fuel IH]; intros [| c s]; cbn [runs]; try constructor. destruct (mem seps c) eqn:E; [| constructor]. pose proof (span_all f s) as Ha.
  destruct (span f s) as [| n]; [constructor |]. change (Forall P (c :: firstn (S n + runs f seps fuel (skipn (S n) s)) s)). constructor; [exact (H2 _ E) |].
  rewrite firstn_add. apply Forall_app. split; [| apply IH]. eapply Forall_impl; [| exact Ha]. exact H1.
Qed.
Lemma run_len_all (P : nat -> Prop) f seps s : (forall c, f c = true -> P c) -> (forall c, mem seps c = true -> P c) -> Forall P (firstn (run_len f seps s) s).
Proof.
  intros H1 H2. unfold run_len. pose proof (span_all f s) as Ha. destruct (span f s) as [| n]; [constructor |]. rewrite firstn_add. apply Forall_app. split.
  - eapply Forall_impl; [| exact Ha]. exact H1.
  - now apply runs_all.
Qed.
Lemma mem_in l c : mem l c = true -> In c l.
Proof. unfold mem. intros H. apply existsb_exists in H as (x & Hx & Hc). apply Nat.eqb_eq in Hc. now subst x. Qed.
Lemma mark_mem l c : mem l c = true -> incl l [126; 58; 47; 35; 45; 46; 63; 61; 40; 41; 37; 43; 64] -> markable c.
Proof. intros H Hi. right. apply Hi, mem_in, H. Qed.
Definition marks_only (q : pat) : Prop := forall p s n gs, q p s = Some (n, gs) -> 0 < n <= length s /\ Forall markable (firstn n s) /\ exists c r, s = c :: r /\ wordc e c = true.
Lemma word_mark c : wordc e c = true -> markable c. Proof. now left. Qed.
Lemma under c : c = 95 -> markable c. Proof. intros ->. now left. Qed.
Lemma seps1 c : mem [46; 95; 37; 43; 45] c = true -> markable c.
Proof. intros H. apply mem_in in H. destruct (Nat.eq_dec c 95) as [-> | Hc]; [now left |]. right. cbn in *. intuition. Qed.
Lemma seps2 c : mem [46; 95; 45] c = true -> markable c.
Proof. intros H. apply mem_in in H. destruct (Nat.eq_dec c 95) as [-> | Hc]; [now left |]. right. cbn in *. intuition. Qed.
Lemma run_first f seps s : run_len f seps s <> 0 -> exists c r, s = c :: r /\ f c = true.
Proof. unfold run_len. destruct s as [| c r]; cbn [span]; [congruence |]. destruct (f c) eqn:E; [| congruence]. intros _. exists c, r. now split. Qed.
Lemma email_marks : marks_only (re_email e).
Proof.
  intros p s n gs. unfold re_email. destruct (word_before e p); [discriminate |]. pose proof (run_len_all markable (wordc e) [46; 95; 37; 43; 45] s word_mark seps1) as H1.
  pose proof (run_len_le (wordc e) [46; 95; 37; 43; 45] s) as L1. pose proof (run_first (wordc e) [46; 95; 37; 43; 45] s) as F1.
  destruct (run_len (wordc e) [46; 95; 37; 43; 45] s) as [| k]; [discriminate |]. destruct (skipn (S k) s) as [| c r] eqn:Es; [discriminate |].
  destruct (Nat.eqb_spec c 64) as [-> | _]; [| discriminate]. pose proof (run_len_all markable (wordc e) [46; 95; 45] r word_mark seps2) as H2. pose proof (run_len_le (wordc e) [46; 95; 45] r) as L2.
  destruct (run_len (wordc e) [46; 95; 45] r) as [| m]; [discriminate |]. intros H. injection H as <- _.
  pose proof (f_equal (@length nat) Es) as El. rewrite skipn_length in El. cbn [length] in El. split; [lia |]. split; [| apply F1; discriminate].
  change (S (k + 1 + S m)) with (S k + 1 + S m). rewrite <- Nat.add_assoc, firstn_add, Es. apply Forall_app. split; [exact H1 |]. cbn [Nat.add firstn]. constructor; [right; cbn; tauto | exact H2].
Qed.
Lemma urlc_mark c : urlc e c = true -> markable c.
Proof. unfold urlc. intros H. apply orb_prop in H as [H | H]; [now left |]. apply (mark_mem _ _ H). intros x Hx. cbn in *. tauto. Qed.
Lemma url_part_all s : Forall markable (firstn (url_part e s) s) /\ url_part e s <= length s.
Proof.
  unfold url_part. pose proof (run_len_le (urlc e) [46; 63; 61] s) as L1. pose proof (run_len_all markable (urlc e) [46; 63; 61] s urlc_mark) as H1.
  destruct (run_len (urlc e) [46; 63; 61] s) as [| k] eqn:Er.
  - destruct s as [| c r]; [split; [constructor | lia] |]. destruct (Nat.eqb_spec c 40) as [-> | _]; [| split; [constructor | lia]]. cbv zeta.
    set (g := fun d => urlc e d || mem [46; 63] d). pose proof (span_all g r) as Ha. pose proof (span_le g r) as L2. destruct (nth_error r (span g r)) as [d |] eqn:En; [| split; [constructor | lia]].
    destruct (Nat.eqb_spec d 41) as [-> | _]; [| split; [constructor | lia]]. pose proof (nth_len _ _ _ En) as Hl. split; [| cbn [length]; lia].
    rewrite Nat.add_comm. change (2 + span g r) with (1 + (1 + span g r)). rewrite (firstn_add 1). cbn [firstn skipn app]. constructor; [right; cbn; tauto |].
    rewrite Nat.add_comm. rewrite firstn_add. apply Forall_app. split.
    + eapply Forall_impl; [| exact Ha]. intros x Hx. unfold g in Hx. apply orb_prop in Hx as [Hx | Hx]; [now apply urlc_mark |]. apply (mark_mem _ _ Hx). intros y Hy. cbn in *. tauto.
    + apply nth_error_split in En as (l1 & l2 & E1 & E2). rewrite E1 at 2. rewrite <- E2, skipn_pre. cbn [firstn]. constructor; [right; cbn; tauto | constructor].
  - split; [| lia]. apply H1. intros x Hx. apply (mark_mem _ _ Hx). intros y Hy. cbn in *. tauto.
Qed.
Lemma url_parts_all : forall fuel s, Forall markable (firstn (url_parts e fuel s) s) /\ url_parts e fuel s <= length s.
Proof.
  induction fuel as [| fuel IH]; intros s; cbn [url_parts]; [split; [constructor | lia] |]. destruct (url_part_all s) as [H1 H2]. destruct (url_part e s) as [| n]; [split; [constructor | lia] |].
  destruct (IH (skipn (S n) s)) as [H3 H4]. rewrite skipn_length in H4. split; [| lia]. rewrite firstn_add. apply Forall_app. now split.
Qed.
Lemma starts_firstn t s : starts t s = true -> firstn (length t) s = t.
Proof. unfold starts. intros H. apply str_eqb_spec in H. now symmetry. Qed.
Lemma starts_hd c t s : starts (c :: t) s = true -> exists r, s = c :: r.
Proof. intros H. apply starts_firstn in H. destruct s as [| d r]; [discriminate |]. cbn [length firstn] in H. injection H as <- _. now exists r. Qed.
Lemma url_start_all p s : url_start e p s <> 0 -> Forall markable (firstn (url_start e p s) s) /\ url_start e p s <= length s /\ exists c r, s = c :: r /\ wordc e c = true.
Proof.
  unfold url_start. destruct (starts [104; 116; 116; 112; 115; 58; 47] s) eqn:E1; [| destruct (starts [104; 116; 116; 112; 58; 47] s) eqn:E2;
    [| destruct (starts [102; 116; 112; 58; 47] s) eqn:E3; [| destruct (starts [119; 119; 119; 46] s) eqn:E4; [destruct (negb _); cbn [andb] |]]]]; try (intros H; exfalso; apply H; reflexivity); intros _.
  - split; [rewrite (starts_firstn _ _ E1 : firstn 7 s = _); repeat constructor; (left; reflexivity) || (right; cbn; tauto) |]. split; [exact (starts_len _ _ E1) |].
    apply starts_hd in E1 as [r ->]. now exists 104, r.
  - split; [rewrite (starts_firstn _ _ E2 : firstn 6 s = _); repeat constructor; (left; reflexivity) || (right; cbn; tauto) |]. split; [exact (starts_len _ _ E2) |].
    apply starts_hd in E2 as [r ->]. now exists 104, r.
  - split; [rewrite (starts_firstn _ _ E3 : firstn 5 s = _); repeat constructor; (left; reflexivity) || (right; cbn; tauto) |]. split; [exact (starts_len _ _ E3) |].
    apply starts_hd in E3 as [r ->]. now exists 102, r.
  - split; [rewrite (starts_firstn _ _ E4 : firstn 4 s = _); repeat constructor; (left; reflexivity) || (right; cbn; tauto) |]. split; [exact (starts_len _ _ E4) |].
    apply starts_hd in E4 as [r ->]. now exists 119, r.
Qed.
Lemma url_marks : marks_only (re_url e).
Proof.
  intros p s n gs. unfold re_url. pose proof (url_start_all p s) as H1. destruct (url_start e p s) as [| k]; [discriminate |]. destruct (H1 ltac:(discriminate)) as (A1 & A2 & A3).
  destruct (url_parts_all (length s) (skipn (S k) s)) as [H2 H3]. destruct (url_parts e (length s) (skipn (S k) s)) as [| m]; [discriminate |]. intros H. injection H as <- _.
  rewrite skipn_length in H3. split; [lia |]. split; [| exact A3]. change (S (k + S m)) with (S k + S m). rewrite firstn_add. apply Forall_app. now split.
Qed.
Lemma alert_marks : marks_only (re_alert e).
Proof.
  intros p s n gs. unfold re_alert. destruct (word_before e p); [discriminate |]. destruct (find _ alert_words) as [t |] eqn:Ef.
  - apply find_some in Ef as [Hi Ht]. apply andb_prop in Ht as [Ht _]. injection 1 as <- _. rewrite (starts_firstn _ _ Ht). pose proof (starts_len _ _ Ht) as Hl.
    assert (Hw : Forall (fun c => wordc e c = true) t /\ t <> []) by (cbn in Hi; destruct Hi as [<- | [<- | [<- | [<- | [<- | []]]]]]; (split; [repeat constructor | discriminate])).
    destruct Hw as [Hw Hne]. assert (0 < length t) by (destruct t; [congruence | cbn [length]; lia]). split; [lia |]. split; [eapply Forall_impl; [| exact Hw]; intros c Hc; now left |].
    destruct t as [| c t]; [congruence |]. apply starts_hd in Ht as [r ->]. inversion Hw; subst. now exists c, r.
  - cbv zeta. pose proof (span_all (Nat.eqb 88) s) as Ha. pose proof (span_le (Nat.eqb 88) s) as Hl. destruct (Nat.leb_spec 3 (span (Nat.eqb 88) s)) as [H3 | H3]; [| discriminate].
    destruct (ends_word e _ s); cbn [andb]; [| discriminate]. intros H. assert (En : n = span (Nat.eqb 88) s) by congruence. rewrite En. split; [lia |].
    assert (Hw : Forall (fun c => wordc e c = true) (firstn (span (Nat.eqb 88) s) s)).
    { eapply Forall_impl; [| exact Ha]. cbn beta. intros c Hc. apply Nat.eqb_eq in Hc. now subst c. }
    split; [eapply Forall_impl; [| exact Hw]; intros c Hc; now left |]. destruct s as [| c r]; [cbn in *; lia |]. exists c, r. split; [reflexivity |].
    destruct (span (Nat.eqb 88) (c :: r)) as [| k]; [lia |]. cbn [firstn] in Hw. inversion Hw; assumption.
Qed.
Lemma marks_ok q : marks_only q -> pat_ok q.
Proof. intros H p s n gs E. now apply H in E. Qed.

Definition known (l : xlex) : Prop := match l with XInternal | XDtd _ | XDoctype => False | _ => True end.
Lemma patterns_ok l : known l -> Forall pat_ok (x_patterns e l).
Proof.
  destruct l; try contradiction; intros _; cbn [x_patterns]; unfold p_content, p_strings; cbn [app];
    repeat (apply Forall_cons; [first [apply lit_ok | apply cdata_ok | apply doctype_ok | apply pi_ok | apply end_ok | apply start_ok | apply ref_pat_ok | apply pi_attr_ok | apply slash_ok
      | apply name_ok | apply spaces_ok | apply marks_ok, email_marks | apply marks_ok, url_marks | apply marks_ok, alert_marks] |]); apply Forall_nil.
Qed.
Lemma first_match_in i ps p s j x : first_match i ps p s = Some (j, x) -> exists q, In q ps /\ q p s = Some x.
Proof.
  revert i. induction ps as [| q ps IH]; intros i; cbn [first_match]; [discriminate |]. destruct (q p s) as [y |] eqn:E.
  - injection 1 as <- <-. exists q. split; [now left | exact E].
  - intros H. apply IH in H as (r & H1 & H2). exists r. split; [now right | exact H2].
Qed.
Lemma x_match_ok l text : known l -> match_ok (x_match e l) text.
Proof.
  intros Hk adv p m Hp. unfold x_match. destruct (first_match _ _ _ _) as [[i [n gs]] |] eqn:E; [| discriminate]. injection 1 as <-. cbn [m_start m_end].
  apply first_match_in in E as (q & H1 & H2). pose proof (patterns_ok l Hk) as F. rewrite Forall_forall in F. apply (F q H1) in H2. rewrite skipn_length in H2. split; [reflexivity |]. lia.
Qed.
End Match.
