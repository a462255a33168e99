(** Reading the pattern that [build_regexp] writes gives an expression with the words of the tuple. *)
From Verif Require Import Base BaseFacts RegexModel RegexSpec RegexLangProofs RegexTupleProofs.
From Coq Require Import ZifyBool Permutation.

(** ** Items *)
Definition lang_item (i : item) : lang :=
  match i with IStr s => word s | ISet ss ts => fun t => In t ss \/ exists u, In u ts /\ lang_tup u t end.
Definition lang_c (c : citem) : lang := let '(i, lo, hi) := c in rep (lang_item i) lo hi.
Definition ok_item (i : item) : Prop :=
  match i with IStr s => s <> [] | ISet ss ts => (ss <> [] \/ ts <> []) /\ Forall (fun s => s <> []) ss /\ Forall ok_tup ts end.
Definition ok_c (c : citem) : Prop := let '(i, lo, hi) := c in ok_item i /\ lo <= hi /\ 1 <= hi.

Lemma item_eqb_sound i j : item_eqb i j = true -> eqv (lang_item i) (lang_item j).
Proof.
  destruct i as [s|ss ts], j as [s'|ss' ts']; cbn [item_eqb]; try discriminate.
  - intros E. apply str_eqb_eq in E. subst. apply eqv_refl.
  - unfold set_eqb. rewrite !andb_true_iff. intros (((E1 & E2) & E3) & E4) t. apply set_incl in E1. apply set_incl in E2. cbn [lang_item].
    assert (Hts : Forall (fun u => forall v, tup_eqb u v = true -> eqv (lang_tup u) (lang_tup v)) ts) by (apply Forall_forall; intros u _ v; apply tup_eqb_sound).
    rewrite (tups_sound ts ts' Hts E3 E4 t). assert (H : In t ss <-> In t ss') by (split; [apply E1|apply E2]). rewrite H. reflexivity.
Qed.
Lemma last_opt_app {A} (l : list A) x : last_opt (l ++ [x]) = Some x.
Proof. unfold last_opt. rewrite rev_app_distr. reflexivity. Qed.
Lemma last_opt_cases {A} (l : list A) : (l = [] /\ last_opt l = None) \/ (exists l' x, l = l' ++ [x] /\ last_opt l = Some x /\ removelast l = l').
Proof.
  destruct l as [|y l] using rev_ind; [left; split; reflexivity|right]. exists l, y. split; [reflexivity|]. split; [apply last_opt_app|apply removelast_last].
Qed.
Lemma merge_step_ok items c : Forall ok_c items -> ok_c c ->
  Forall ok_c (merge_step items c) /\ eqv (seqP (map lang_c (merge_step items c))) (seqP (map lang_c (items ++ [c]))).
Proof.
  intros Hi Hc. unfold merge_step. destruct (last_opt_cases items) as [[-> ->]|(l & [[i lo] hi] & -> & -> & ->)].
  - split; [constructor; [exact Hc|constructor]|apply eqv_refl].
  - destruct c as [[j lo'] hi']. apply Forall_app in Hi. destruct Hi as [Hl Hi]. inversion Hi as [|? ? Hi0 _]; subst. destruct Hi0 as (Hi1 & Hi2 & Hi3). destruct Hc as (Hc1 & Hc2 & Hc3).
    destruct (item_eqb i j) eqn:E.
    + split; [apply Forall_app; split; [exact Hl|]; constructor; [|constructor]; split; [exact Hi1|lia]|]. rewrite <- app_assoc, !map_app. cbn [map app].
      eapply eqv_trans; [apply seqP_app|]. eapply eqv_trans; [|apply eqv_sym; apply seqP_app]. apply cat_eqv; [apply eqv_refl|].
      eapply eqv_trans; [apply seqP_one|]. cbn [lang_c seqP]. apply eqv_sym. eapply eqv_trans; [apply cat_eqv; [apply eqv_refl|apply cat_nil_r]|].
      eapply eqv_trans; [apply cat_eqv; [apply eqv_refl|apply rep_eqv; apply eqv_sym; apply item_eqb_sound; exact E]|]. apply rep_cat; assumption.
    + split; [|apply eqv_refl]. apply Forall_app. split; [apply Forall_app; split; [exact Hl|constructor; [split; [exact Hi1|lia]|constructor]]|constructor; [split; [exact Hc1|lia]|constructor]].
Qed.
Lemma merge_list_ok l : Forall ok_c l -> Forall ok_c (merge_list l) /\ eqv (seqP (map lang_c (merge_list l))) (seqP (map lang_c l)).
Proof.
  intros H. unfold merge_list.
  assert (G : forall l, Forall ok_c l -> forall acc, Forall ok_c acc -> Forall ok_c (fold_left merge_step l acc) /\ eqv (seqP (map lang_c (fold_left merge_step l acc))) (seqP (map lang_c (acc ++ l)))).
  { clear l H. induction 1 as [|c l Hc Hl IH]; intros acc Ha; cbn [fold_left]; [rewrite app_nil_r; split; [exact Ha|apply eqv_refl]|].
    destruct (merge_step_ok acc c Ha Hc) as [H1 H2]. destruct (IH _ H1) as [H3 H4]. split; [exact H3|]. eapply eqv_trans; [exact H4|]. rewrite !map_app.
    eapply eqv_trans; [apply seqP_app|]. eapply eqv_trans; [apply cat_eqv; [exact H2|apply eqv_refl]|]. rewrite map_app. eapply eqv_trans; [apply cat_eqv; [apply seqP_app|apply eqv_refl]|].
    eapply eqv_trans; [apply cat_assoc|]. eapply eqv_trans; [|apply eqv_sym; apply seqP_app]. apply cat_eqv; [apply eqv_refl|]. cbn [map seqP]. apply cat_eqv; [apply cat_nil_r|apply eqv_refl]. }
  destruct (G l H [] (Forall_nil _)) as [H1 H2]. split; [exact H1|exact H2].
Qed.
(** The sets in merged items are those of the items. *)
Lemma merge_list_sets l ss ts lo hi : In (ISet ss ts, lo, hi) (merge_list l) -> exists lo' hi', In (ISet ss ts, lo', hi') l.
Proof.
  unfold merge_list.
  assert (G : forall l acc i lo hi, In (i, lo, hi) (fold_left merge_step l acc) -> (exists lo' hi', In (i, lo', hi') l) \/ exists lo' hi', In (i, lo', hi') acc).
  { clear. induction l as [|[[j lo'] hi'] l IH]; intros acc i lo hi; cbn [fold_left]; [intros H; right; exists lo, hi; exact H|].
    intros H. destruct (IH _ _ _ _ H) as [(a & b & Hab)|(a & b & Hab)]; [left; exists a, b; right; exact Hab|]. unfold merge_step in Hab.
    destruct (last_opt_cases acc) as [[-> E]|(acc' & [[i0 lo0] hi0] & -> & E & Er)]; rewrite E in Hab.
    - destruct Hab as [[= -> -> ->]|[]]. left. exists a, b. left. reflexivity.
    - rewrite Er in Hab. destruct (item_eqb i0 j).
      + apply in_app_or in Hab. destruct Hab as [Hab|[[= -> _ _]|[]]]; [right; exists a, b; apply in_or_app; left; exact Hab|]. right. exists lo0, hi0. apply in_or_app. right. left. reflexivity.
      + apply in_app_or in Hab. destruct Hab as [Hab|[[= -> -> ->]|[]]]; [right; exists a, b; exact Hab|]. left. exists a, b. left. reflexivity. }
  intros H. destruct (G l [] _ _ _ H) as [H1|(a & b & [])]. exact H1.
Qed.

Lemma set_opt o ss ts : eqv (lang_part (PSet o ss ts)) (rep (lang_item (ISet ss ts)) (if o then 0 else 1) 1).
Proof.
  intros t. rewrite lang_set. destruct o.
  - rewrite <- (rep_optional _ 1 1 (le_n 1) (le_n 1) t), (rep_one _ t). cbn [lang_item]. tauto.
  - rewrite (rep_one _ t). cbn [lang_item]. split; [intros [[H _]|H]; [discriminate|exact H]|intros H; right; exact H].
Qed.
Lemma tup_items_ok r : Forall (fun p => ok_part p -> Forall ok_c (get_items p) /\ eqv (seqP (map lang_c (get_items p))) (lang_part p)) r -> ok_tup r ->
  Forall ok_c (flat_map get_items r) /\ eqv (seqP (map lang_c (flat_map get_items r))) (lang_tup r).
Proof.
  induction 1 as [|p r Hp _ IH]; intros Hok; cbn [flat_map]; [split; [constructor|apply eqv_refl]|]. inversion Hok as [|? ? H1 H2]; subst.
  destruct (Hp H1) as [P1 P2]. destruct (IH H2) as [I1 I2]. split; [apply Forall_app; split; assumption|]. rewrite map_app. eapply eqv_trans; [apply seqP_app|].
  unfold lang_tup. cbn [map seqP]. apply cat_eqv; assumption.
Qed.
Lemma get_items_ok : forall p, ok_part p -> Forall ok_c (get_items p) /\ eqv (seqP (map lang_c (get_items p))) (lang_part p).
Proof.
  refine (part_ind' _ _ _).
  - intros s Hs. cbn [get_items]. split; [constructor; [split; [exact Hs|lia]|constructor]|]. cbn [map]. eapply eqv_trans; [apply seqP_one|]. cbn [lang_c]. apply rep_one.
  - intros o ss ts IH Hok. pose proof Hok as Hok'. apply ok_set in Hok. destruct Hok as (Hne & Hss & Hts).
    assert (Hgen : Forall ok_c [(ISet ss ts, if o then 0 else 1, 1)] /\ eqv (seqP (map lang_c [(ISet ss ts, if o then 0 else 1, 1)])) (lang_part (PSet o ss ts))).
    { split; [constructor; [split; [split; [exact Hne|split; assumption]|destruct o; lia]|constructor]|]. cbn [map]. eapply eqv_trans; [apply seqP_one|]. cbn [lang_c]. apply eqv_sym, set_opt. }
    cbn [get_items]. destruct ss as [|s [|s2 ss]].
    + destruct ts as [|r [|r2 ts]]; [destruct Hne; congruence| |exact Hgen].
      inversion IH as [|? ? IH1 _]; subst. inversion Hts as [|? ? Hr _]; subst. destruct (tup_items_ok r IH1 Hr) as [T1 T2]. destruct (merge_list_ok _ T1) as [M1 M2].
      set (items := merge_list (flat_map get_items r)) in *.
      assert (Hl : eqv (seqP (map lang_c items)) (lang_tup r)) by (eapply eqv_trans; eassumption).
      destruct o.
      * destruct items as [|[[i lo] hi] [|c items']] eqn:Ei; [exact Hgen| |exact Hgen]. destruct (lo <=? 1) eqn:El; [|exact Hgen]. inversion M1 as [|? ? Hi0 _]; subst. destruct Hi0 as (Hi1 & Hi2 & Hi3).
        split; [constructor; [split; [exact Hi1|lia]|constructor]|]. cbn [map] in *. eapply eqv_trans; [apply seqP_one|]. cbn [lang_c] in *.
        eapply eqv_trans; [apply eqv_sym; apply (rep_optional _ lo hi); lia|]. intros t. rewrite lang_set. assert (Ht := Hl t). rewrite (seqP_one _ t) in Ht. rewrite Ht. split.
        -- intros [H|H]; [left; split; [reflexivity|exact H]|right; right; exists r; split; [left; reflexivity|exact H]].
        -- intros [[_ H]|[[]|(u & [<-|[]] & H)]]; [left; exact H|right; exact H].
      * split; [exact M1|]. eapply eqv_trans; [exact Hl|]. intros t. rewrite lang_set. split; [intros H; right; right; exists r; split; [left; reflexivity|exact H]|].
        intros [[H _]|[[]|(u & [<-|[]] & H)]]; [discriminate|exact H].
    + destruct ts as [|u ts]; [|exact Hgen]. inversion Hss as [|? ? Hs _]; subst. split; [constructor; [split; [exact Hs|destruct o; lia]|constructor]|].
      cbn [map]. eapply eqv_trans; [apply seqP_one|]. cbn [lang_c]. apply eqv_sym. eapply eqv_trans; [apply set_opt|]. apply rep_eqv. intros t. cbn [lang_item]. unfold word. split.
      * intros [[H|[]]|(u & [] & _)]. symmetry. exact H.
      * intros ->. left. left. reflexivity.
    + exact Hgen.
Qed.
Lemma merge_items_ok r : ok_tup r -> Forall ok_c (merge_items r) /\ eqv (seqP (map lang_c (merge_items r))) (lang_tup r).
Proof.
  intros H. destruct (tup_items_ok r) as [T1 T2]; [apply Forall_forall; intros p _; apply get_items_ok|exact H|]. destruct (merge_list_ok _ T1) as [M1 M2].
  split; [exact M1|]. eapply eqv_trans; eassumption.
Qed.

(** Tuples in the items are smaller. *)
Lemma list_sum_in {A} (f : A -> nat) l x : In x l -> f x <= list_sum (map f l).
Proof. induction l as [|y l IH]; [intros []|]. intros [<-|H]; cbn [map list_sum fold_right]; [lia|specialize (IH H); unfold list_sum in IH; lia]. Qed.
Lemma get_items_size : forall p ss ts lo hi, In (ISet ss ts, lo, hi) (get_items p) -> forall u, In u ts -> tup_size u < part_size p.
Proof.
  refine (part_ind' _ _ _).
  - intros s ss ts lo hi [H|[]]. discriminate.
  - intros o ss ts IH ss' ts' lo hi H u Hu.
    assert (Hown : In u ts -> tup_size u < part_size (PSet o ss ts)).
    { intros Hin. cbn [part_size]. pose proof (list_sum_in tup_size ts u Hin). change (map (fun u => list_sum (map part_size u)) ts) with (map tup_size ts). lia. }
    assert (Hg : In (ISet ss' ts', lo, hi) [(ISet ss ts, if o then 0 else 1, 1)] -> tup_size u < part_size (PSet o ss ts)).
    { intros [[= <- <- <- <-]|[]]. apply Hown, Hu. }
    cbn [get_items] in H. destruct ss as [|s [|s2 ss]].
    + destruct ts as [|r [|r2 ts]]; [apply Hg, H| |apply Hg, H]. inversion IH as [|? ? IH1 _]; subst.
      assert (Hsub : forall lo hi, In (ISet ss' ts', lo, hi) (merge_list (flat_map get_items r)) -> tup_size u < part_size (PSet o [] [r])).
      { intros lo0 hi0 Hin. apply merge_list_sets in Hin. destruct Hin as (lo' & hi' & Hin). apply in_flat_map in Hin. destruct Hin as (p & Hp & Hin). rewrite Forall_forall in IH1.
        pose proof (IH1 p Hp _ _ _ _ Hin u Hu). pose proof (list_sum_in part_size r p Hp). cbn [part_size map list_sum fold_right]. fold (list_sum (map part_size r)). lia. }
      destruct o.
      * destruct (merge_list (flat_map get_items r)) as [|[[i lo1] hi1] [|c items]]; [apply Hg, H| |apply Hg, H]. destruct (lo1 <=? 1); [|apply Hg, H].
        destruct H as [[= -> <- <-]|[]]. eapply Hsub. left. reflexivity.
      * eapply Hsub. exact H.
    + destruct ts as [|u0 ts]; [|apply Hg, H]. destruct H as [H|[]]. discriminate.
    + apply Hg, H.
Qed.
Lemma merge_items_size r ss ts lo hi u : In (ISet ss ts, lo, hi) (merge_items r) -> In u ts -> tup_size u < tup_size r.
Proof.
  intros H Hu. apply merge_list_sets in H. destruct H as (lo' & hi' & H). apply in_flat_map in H. destruct H as (p & Hp & H).
  pose proof (get_items_size p _ _ _ _ H u Hu). pose proof (list_sum_in part_size r p Hp). unfold tup_size at 2. lia.
Qed.

(** ** Reading *)
Lemma matches_group alts t : matches (RGroup alts) t <-> exists s, In s alts /\ seqP (map matches s) t.
Proof.
  assert (Hseq : forall s t, (fix seq (s : list rx) (t : str) : Prop := match s with [] => t = [] | r :: s => exists a b, t = a ++ b /\ matches r a /\ seq s b end) s t <-> seqP (map matches s) t).
  { induction s as [|r s IH]; intros u; cbn [map seqP]; [reflexivity|]. unfold cat. split; intros (a & b & -> & Ha & Hb); exists a, b; (split; [reflexivity|split; [exact Ha|apply IH; exact Hb]]). }
  cbn [matches]. induction alts as [|s alts IH]; [split; [intros []|intros (s & [] & _)]|]. rewrite Hseq, IH. split.
  - intros [H|(s' & H1 & H2)]; [exists s; split; [left; reflexivity|exact H]|exists s'; split; [right; exact H1|exact H2]].
  - intros (s' & [<-|H1] & H2); [left; exact H2|right; exists s'; split; assumption].
Qed.
Lemma run_app s a b : run s (a ++ b) = match run s a with Some s' => run s' b | None => None end.
Proof. revert s. induction a as [|c a IH]; intros s; cbn [app run]; [reflexivity|]. destruct (step s c); [apply IH|reflexivity]. Qed.

(** What reading a piece of a pattern does: it adds a sequence, one thing that is no repetition, or alternatives. *)
Definition flang (alts : list (list rx)) : lang := fun t => exists s, In s alts /\ seqP (map matches s) t.
Definition seq_ok (s : str) (P : lang) : Prop :=
  exists l, (forall alts sq fs, run (MNormal, (alts, sq), fs) s = Some (MNormal, (alts, sq ++ l), fs)) /\ eqv (seqP (map matches l)) P.
Definition atom_ok (s : str) (P : lang) : Prop :=
  exists r, (forall r' lo hi, r <> RRepeat r' lo hi) /\ (forall f fs, run (MNormal, f, fs) s = Some (MNormal, put r f, fs)) /\ eqv (matches r) P.
Definition alt_ok (s : str) (P : lang) : Prop :=
  exists more last, (forall alts fs, run (MNormal, (alts, []), fs) s = Some (MNormal, (alts ++ more, last), fs)) /\ eqv (flang (more ++ [last])) P.

Lemma seq_ok_eqv s P Q : eqv P Q -> seq_ok s P -> seq_ok s Q.
Proof. intros H (l & H1 & H2). exists l. split; [exact H1|]. eapply eqv_trans; eassumption. Qed.
Lemma atom_ok_eqv s P Q : eqv P Q -> atom_ok s P -> atom_ok s Q.
Proof. intros H (r & H0 & H1 & H2). exists r. split; [exact H0|]. split; [exact H1|]. eapply eqv_trans; eassumption. Qed.
Lemma alt_ok_eqv s P Q : eqv P Q -> alt_ok s P -> alt_ok s Q.
Proof. intros H (m & l & H1 & H2). exists m, l. split; [exact H1|]. eapply eqv_trans; eassumption. Qed.
Lemma seq_nil : seq_ok [] nil_lang.
Proof. exists []. split; [intros alts sq fs; rewrite app_nil_r; reflexivity|apply eqv_refl]. Qed.
Lemma seq_app a b P Q : seq_ok a P -> seq_ok b Q -> seq_ok (a ++ b) (cat P Q).
Proof.
  intros (l & H1 & H2) (l' & H3 & H4). exists (l ++ l'). split.
  - intros alts sq fs. rewrite run_app, H1, H3, app_assoc. reflexivity.
  - rewrite map_app. eapply eqv_trans; [apply seqP_app|]. apply cat_eqv; assumption.
Qed.
Lemma atom_seq s P : atom_ok s P -> seq_ok s P.
Proof. intros (r & _ & H1 & H2). exists [r]. split; [intros alts sq fs; rewrite H1; reflexivity|]. cbn [map]. eapply eqv_trans; [apply seqP_one|exact H2]. Qed.
Lemma flang_app a b t : flang (a ++ b) t <-> flang a t \/ flang b t.
Proof.
  unfold flang. split.
  - intros (s & Hs & H). apply in_app_or in Hs. destruct Hs; [left|right]; exists s; split; assumption.
  - intros [(s & Hs & H)|(s & Hs & H)]; exists s; (split; [apply in_or_app; auto|exact H]).
Qed.
Lemma flang_one s t : flang [s] t <-> seqP (map matches s) t.
Proof. unfold flang. split; [intros (x & [<-|[]] & H); exact H|intros H; exists s; split; [left; reflexivity|exact H]]. Qed.
Lemma seq_alt s P : seq_ok s P -> alt_ok s P.
Proof.
  intros (l & H1 & H2). exists [], l. split; [intros alts fs; rewrite H1, app_nil_r; reflexivity|]. intros t. cbn [app]. rewrite (flang_one l t). apply H2.
Qed.
Lemma group_atom s P : alt_ok s P -> atom_ok ([40; 63; 58] ++ s ++ [41]) P.
Proof.
  intros (more & last & E & He). exists (RGroup (more ++ [last])). split; [discriminate|]. split.
  - intros f fs. rewrite run_app. change (run (MNormal, f, fs) [40; 63; 58]) with (Some (MNormal, (@nil (list rx), @nil rx), f :: fs)). cbv iota beta. rewrite run_app, E. reflexivity.
  - intros t. rewrite matches_group. apply (He t).
Qed.
Lemma alt_bar a b P Q : alt_ok a P -> alt_ok b Q -> alt_ok (a ++ 124 :: b) (fun t => P t \/ Q t).
Proof.
  intros (m & l & H1 & H2) (m' & l' & H3 & H4). exists (m ++ [l] ++ m'), l'. split.
  - intros alts fs. rewrite run_app, H1. cbn [run]. change (step (MNormal, (alts ++ m, l), fs) 124) with (Some (MNormal, (alts_of (alts ++ m, l), @nil rx), fs)). cbv iota beta. unfold alts_of. cbn [fst snd]. rewrite H3, !app_assoc. reflexivity.
  - intros t. rewrite <- (H2 t), <- (H4 t). rewrite !app_assoc. rewrite <- (app_assoc (m ++ [l])). apply flang_app.
Qed.
Lemma join_alt l : Forall (fun p => alt_ok (fst p) (snd p)) l -> l <> [] -> alt_ok (join [124] (map fst l)) (fun t => exists p, In p l /\ snd p t).
Proof.
  induction 1 as [|[s P] l Hp Hl IH]; intros Hne; [congruence|]. cbn [fst snd] in Hp. destruct l as [|q l].
  - cbn [map join fst]. eapply alt_ok_eqv; [|exact Hp]. intros t. split; [intros H; exists (s, P); split; [left; reflexivity|exact H]|intros (p & [<-|[]] & H); exact H].
  - specialize (IH ltac:(discriminate)). cbn [map join fst]. cbn [map fst] in IH. eapply alt_ok_eqv; [|apply alt_bar; [exact Hp|exact IH]]. intros t. split.
    + intros [H|(p & Hin & H)]; [exists (s, P); split; [left; reflexivity|exact H]|exists p; split; [right; exact Hin|exact H]].
    + intros (p & [<-|Hin] & H); [left; exact H|right; exists p; split; assumption].
Qed.

(** *** Characters *)
Lemma special_cases (c : nat) : existsb (Nat.eqb c) specials = true -> ascii_alnum c = false.
Proof.
  intros H. apply existsb_exists in H. destruct H as (x & Hx & E). apply Nat.eqb_eq in E. subst x. unfold specials in Hx. cbn [In] in Hx.
  repeat (destruct Hx as [<-|Hx]; [reflexivity|]). destruct Hx.
Qed.
Lemma not_special c k : existsb (Nat.eqb c) specials = false -> existsb (Nat.eqb k) specials = true -> (c =? k) = false.
Proof. intros H H'. destruct (c =? k) eqn:E; [|reflexivity]. apply Nat.eqb_eq in E. subst. congruence. Qed.
Lemma not_meta c : existsb (Nat.eqb c) specials = false -> meta c = false.
Proof.
  intros H. unfold meta. cbn [existsb]. repeat (rewrite (not_special c _ H) by reflexivity). reflexivity.
Qed.
Lemma char_atom c : atom_ok (esc1 c) (word [c]).
Proof.
  exists (RChar c). split; [discriminate|]. split; [|apply eqv_refl]. intros f fs. unfold esc1. destruct (existsb (Nat.eqb c) specials) eqn:E.
  - cbn [run]. change (step (MNormal, f, fs) 92) with (Some (MEscape, f, fs)). cbv iota beta. unfold step. rewrite (special_cases c E). reflexivity.
  - cbn [run]. unfold step. rewrite (not_meta c E). repeat (rewrite (not_special c _ E) by reflexivity). reflexivity.
Qed.
Lemma escape_seq s : seq_ok (re_escape s) (word s).
Proof.
  induction s as [|c s IH]; cbn [re_escape flat_map]; [apply seq_nil|]. eapply seq_ok_eqv; [|apply seq_app; [apply atom_seq, char_atom|exact IH]].
  intros t. unfold cat, word. split; [intros (a & b & -> & -> & ->); reflexivity|intros ->; exists [c], s; repeat split].
Qed.

(** *** Counts *)
Lemma read_digits1 fuel : forall n f fs t, n < fuel -> run (MCount1 None, f, fs) (digits fuel n ++ t) = run (MCount1 (Some n), f, fs) t.
Proof.
  induction fuel as [|fuel IH]; intros n f fs t H; [lia|]. cbn [digits].
  assert (Hd : forall d, d < 10 -> digit (48 + d) = true) by (intros d Hd; unfold digit; lia).
  destruct (n <? 10) eqn:E.
  - cbn [app run]. unfold step. rewrite Hd by lia. unfold more. replace (0 + (48 + n - 48)) with n by lia. reflexivity.
  - rewrite <- app_assoc. assert (H10 : n / 10 < n) by (apply Nat.div_lt; lia). rewrite IH by lia. cbn [app run]. unfold step. rewrite Hd by (apply Nat.mod_upper_bound; lia). unfold more.
    replace (10 * (n / 10) + (48 + n mod 10 - 48)) with n; [reflexivity|]. pose proof (Nat.div_mod n 10). lia.
Qed.
Lemma read_digits2 lo fuel : forall n f fs t, n < fuel -> run (MCount2 lo None, f, fs) (digits fuel n ++ t) = run (MCount2 lo (Some n), f, fs) t.
Proof.
  induction fuel as [|fuel IH]; intros n f fs t H; [lia|]. cbn [digits].
  assert (Hd : forall d, d < 10 -> digit (48 + d) = true) by (intros d Hd; unfold digit; lia).
  destruct (n <? 10) eqn:E.
  - cbn [app run]. unfold step. rewrite Hd by lia. unfold more. replace (0 + (48 + n - 48)) with n by lia. reflexivity.
  - rewrite <- app_assoc. assert (H10 : n / 10 < n) by (apply Nat.div_lt; lia). rewrite IH by lia. cbn [app run]. unfold step. rewrite Hd by (apply Nat.mod_upper_bound; lia). unfold more.
    replace (10 * (n / 10) + (48 + n mod 10 - 48)) with n; [reflexivity|]. pose proof (Nat.div_mod n 10). lia.
Qed.
Lemma put_repeat_put r f lo hi : (forall r' lo hi, r <> RRepeat r' lo hi) -> lo <= hi -> put_repeat lo hi (put r f) = Some (put (RRepeat r lo hi) f).
Proof.
  intros Hr H. unfold put_repeat, put. cbn [fst snd]. rewrite last_opt_app. replace (lo <=? hi) with true by lia. rewrite removelast_last. destruct r; try reflexivity. exfalso. eapply Hr. reflexivity.
Qed.
Lemma atom_qualifier s P lo hi : atom_ok s P -> lo <= hi -> 1 <= hi -> seq_ok (s ++ qualifier lo hi) (rep P lo hi).
Proof.
  intros (r & Hr & H1 & H2) Hle Hhi. unfold qualifier.
  destruct ((lo =? 1) && (hi =? 1)) eqn:E1.
  { assert (lo = 1 /\ hi = 1) as [-> ->] by lia. rewrite app_nil_r. eapply seq_ok_eqv; [apply eqv_sym; apply rep_one|]. apply atom_seq. exists r. split; [exact Hr|split; assumption]. }
  assert (Hseq : forall q, (forall f fs, run (MNormal, f, fs) (s ++ q) = Some (MNormal, put (RRepeat r lo hi) f, fs)) -> seq_ok (s ++ q) (rep P lo hi)).
  { intros q Hq. exists [RRepeat r lo hi]. split; [intros alts sq fs; rewrite Hq; reflexivity|]. cbn [map]. eapply eqv_trans; [apply seqP_one|]. cbn [matches]. apply (rep_eqv (matches r) P lo hi H2). }
  destruct ((lo =? 0) && (hi =? 1)) eqn:E2.
  { apply Hseq. intros f fs. rewrite run_app, H1. cbn [run]. unfold step. cbn [Nat.eqb]. assert (lo = 0 /\ hi = 1) as [-> ->] by lia. rewrite put_repeat_put by (exact Hr || lia). reflexivity. }
  destruct (lo =? hi) eqn:E3.
  { assert (lo = hi) by lia. subst lo. apply Hseq. intros f fs. rewrite run_app, H1. cbn [run]. change (step (MNormal, put r f, fs) 123) with (Some (MCount1 None, put r f, fs)). cbv iota beta.
    unfold dec. rewrite read_digits1 by lia. cbn [run]. unfold step. change (digit 125) with false. cbn [Nat.eqb]. rewrite put_repeat_put by (exact Hr || lia). reflexivity. }
  apply Hseq. intros f fs. rewrite run_app, H1. cbn [run]. change (step (MNormal, put r f, fs) 123) with (Some (MCount1 None, put r f, fs)). cbv iota beta.
  replace (hi =? 0) with false by lia.
  assert (Hend : forall l, run (MCount2 l None, put r f, fs) (dec hi ++ [125]) = match put_repeat (match l with Some n => n | None => 0 end) hi (put r f) with Some f => Some (MNormal, f, fs) | None => None end).
  { intros l. unfold dec. rewrite read_digits2 by lia. cbn [run]. unfold step. change (digit 125) with false. cbn [Nat.eqb]. destruct (put_repeat _ hi (put r f)); reflexivity. }
  destruct (lo =? 0) eqn:E4.
  - cbn [app run]. change (step (MCount1 None, put r f, fs) 44) with (Some (MCount2 None None, put r f, fs)). cbv iota beta. rewrite Hend. rewrite put_repeat_put by (exact Hr || lia). replace lo with 0 by lia. reflexivity.
  - unfold dec at 1. rewrite read_digits1 by lia. cbn [run]. change (step (MCount1 (Some lo), put r f, fs) 44) with (Some (MCount2 (Some lo) None, put r f, fs)). cbv iota beta. rewrite Hend. rewrite put_repeat_put by (exact Hr || lia). reflexivity.
Qed.

(** *** Character classes *)
(** In a class, after the ranges so far. *)
Definition class_at (neg : bool) (ranges : list (nat * nat)) (m : mode) : Prop :=
  (exists first, m = MClass neg first ranges) \/ exists a ranges', m = MClassItem neg ranges' a /\ ranges = ranges' ++ [(a, a)].
Lemma class_char neg ranges m c f fs t : class_at neg ranges m -> run (m, f, fs) (esc1 c ++ t) = run (MClassItem neg ranges c, f, fs) t.
Proof.
  intros Hm. unfold esc1. destruct (existsb (Nat.eqb c) specials) eqn:E.
  - assert (He : run (MClassEsc neg ranges, f, fs) (c :: t) = run (MClassItem neg ranges c, f, fs) t) by (cbn [run]; unfold step; rewrite (special_cases c E); reflexivity).
    destruct Hm as [(first & ->)|(a & ranges' & -> & ->)]; cbn [app run]; rewrite <- He.
    + unfold step. cbn [Nat.eqb]. rewrite andb_false_r. reflexivity.
    + reflexivity.
  - destruct Hm as [(first & ->)|(a & ranges' & -> & ->)]; cbn [app run]; unfold step; repeat (rewrite (not_special c _ E) by reflexivity); rewrite ?andb_false_r; reflexivity.
Qed.
Lemma in_ranges_app x l k k' : in_ranges x (l ++ [(k, k')]) <-> in_ranges x l \/ k <= x <= k'.
Proof.
  unfold in_ranges. split.
  - intros (u & v & Hin & H). apply in_app_or in Hin. destruct Hin as [Hin|[[= <- <-]|[]]]; [left; exists u, v; split; assumption|right; lia].
  - intros [(u & v & Hin & H)|H]; [exists u, v; split; [apply in_or_app; left; exact Hin|exact H]|exists k, k'; split; [apply in_or_app; right; left; reflexivity|exact H]].
Qed.
Lemma esc_one a : re_escape [a] = esc1 a.
Proof. unfold re_escape. cbn [flat_map]. apply app_nil_r. Qed.
Lemma esc_two a b : re_escape [a; b] = esc1 a ++ esc1 b.
Proof. unfold re_escape. cbn [flat_map]. rewrite app_nil_r. reflexivity. Qed.
Lemma class_range neg ranges m a b : class_at neg ranges m -> a <= b ->
  exists m' ranges', (forall f fs t, run (m, f, fs) (cc_str (a, b) ++ t) = run (m', f, fs) t) /\ class_at neg ranges' m' /\ (forall first, m' <> MClass neg true first)
    /\ forall x, in_ranges x ranges' <-> in_ranges x ranges \/ a <= x <= b.
Proof.
  intros Hm Hab. unfold cc_str. rewrite ?esc_one, ?esc_two.
  destruct (a =? b) eqn:E1.
  { exists (MClassItem neg ranges a), (ranges ++ [(a, a)]). split.
    - intros f fs t. apply (class_char neg ranges m a f fs t Hm).
    - split; [right; exists a, ranges; split; reflexivity|]. split; [discriminate|]. intros x. rewrite in_ranges_app. split; (intros [H|H]; [left; exact H|right; lia]). }
  destruct (S a =? b) eqn:E2.
  { assert (Hm2 : class_at neg (ranges ++ [(a, a)]) (MClassItem neg ranges a)) by (right; exists a, ranges; split; reflexivity).
    exists (MClassItem neg (ranges ++ [(a, a)]) b), ((ranges ++ [(a, a)]) ++ [(b, b)]). split.
    - intros f fs t. rewrite <- app_assoc, (class_char neg ranges m a f fs _ Hm). apply (class_char neg _ _ b f fs t Hm2).
    - split; [right; exists b, (ranges ++ [(a, a)]); split; reflexivity|]. split; [discriminate|]. intros x. rewrite !in_ranges_app.
      split; [intros [[H|H]|H]; [left; exact H|right; lia|right; lia]|intros [H|H]; [left; left; exact H|]]. destruct (Nat.eq_dec x a); [left; right; lia|right; lia]. }
  exists (MClass neg false (ranges ++ [(a, b)])), (ranges ++ [(a, b)]). split; [|split; [left; exists false; reflexivity|split; [discriminate|intros x; apply in_ranges_app]]].
  intros f fs t. rewrite <- app_assoc, (class_char neg ranges m a f fs _ Hm). cbn [app run]. change (step (MClassItem neg ranges a, f, fs) 45) with (Some (MClassDash neg ranges a, f, fs)). cbv iota beta.
  unfold esc1. destruct (existsb (Nat.eqb b) specials) eqn:E; cbn [app run].
  + change (step (MClassDash neg ranges a, f, fs) 92) with (Some (MClassDashEsc neg ranges a, f, fs)). cbv iota beta. unfold step. rewrite (special_cases b E). replace (a <=? b) with true by lia. reflexivity.
  + unfold step. repeat (rewrite (not_special b _ E) by reflexivity). replace (a <=? b) with true by lia. reflexivity.
Qed.
Lemma class_ranges neg rs : Forall (fun r => fst r <= snd r) rs -> forall ranges m, class_at neg ranges m ->
  exists m' ranges', (forall f fs t, run (m, f, fs) (flat_map cc_str rs ++ t) = run (m', f, fs) t) /\ class_at neg ranges' m' /\ ((forall first, m <> MClass neg true first) \/ rs <> [] -> forall first, m' <> MClass neg true first)
    /\ forall x, in_ranges x ranges' <-> in_ranges x ranges \/ in_ranges x rs.
Proof.
  induction 1 as [|[a b] rs Hab _ IH]; intros ranges m Hm; cbn [flat_map].
  - exists m, ranges. split; [reflexivity|]. split; [exact Hm|]. split; [intros [H|H]; [exact H|congruence]|]. intros x. split; [auto|]. intros [H|(u & v & [] & _)]. exact H.
  - cbn [fst snd] in Hab. destruct (class_range neg ranges m a b Hm Hab) as (m1 & r1 & H0 & H1 & H2 & H3).
    destruct (IH r1 m1 H1) as (m2 & r2 & I0 & I1 & I2 & I3). exists m2, r2. split; [intros f fs t; rewrite <- app_assoc, H0; apply I0|]. split; [exact I1|]. split; [intros _; apply I2; left; exact H2|].
    intros x. rewrite I3, H3. clear - a. unfold in_ranges. split.
    + intros [[Hx|Hx]|(u & v & Hin & Hx)]; [left; exact Hx|right; exists a, b; split; [left; reflexivity|exact Hx]|right; exists u, v; split; [right; exact Hin|exact Hx]].
    + intros [Hx|(u & v & [Huv|Hin] & Hx)]; [left; left; exact Hx|left; right; injection Huv as <- <-; exact Hx|right; exists u, v; split; assumption].
Qed.
Lemma ins_set_in c l x : In x (ins_set c l) <-> x = c \/ In x l.
Proof.
  induction l as [|d l IH]; cbn [ins_set In]; [intuition|]. destruct (c <? d) eqn:E1; [cbn [In]; intuition|]. destruct (c =? d) eqn:E2.
  - assert (c = d) by lia. subst. cbn [In]. intuition.
  - cbn [In]. rewrite IH. intuition.
Qed.
Lemma sort_set_in cs x : In x (sort_set cs) <-> In x cs.
Proof. unfold sort_set. induction cs as [|c cs IH]; cbn [fold_right In]; [reflexivity|]. rewrite ins_set_in, IH. intuition. Qed.
Lemma cc_step_ok buf c : Forall (fun r => fst r <= snd r) buf ->
  Forall (fun r => fst r <= snd r) (cc_step buf c) /\ cc_step buf c <> [] /\ forall x, in_ranges x (cc_step buf c) <-> in_ranges x buf \/ x = c.
Proof.
  intros H. unfold cc_step.
  assert (Happ : forall l k k' x, in_ranges x (l ++ [(k, k')]) <-> in_ranges x l \/ k <= x <= k').
  { intros l k k' x. unfold in_ranges. split.
    - intros (u & v & Hin & Hx). apply in_app_or in Hin. destruct Hin as [Hin|[[= <- <-]|[]]]; [left; exists u, v; split; assumption|right; exact Hx].
    - intros [(u & v & Hin & Hx)|Hx]; [exists u, v; split; [apply in_or_app; left; exact Hin|exact Hx]|exists k, k'; split; [apply in_or_app; right; left; reflexivity|exact Hx]]. }
  destruct (last_opt_cases buf) as [[-> ->]|(l & [a b] & -> & -> & ->)].
  - split; [repeat constructor|]. split; [discriminate|]. intros x. rewrite (Happ [] c c x). split; (intros [Hx|Hx]; [left; exact Hx|right; lia]).
  - apply Forall_app in H. destruct H as [Hl Hab]. inversion Hab as [|? ? Hab1 _]; subst. cbn [fst snd] in Hab1. destruct (S b =? c) eqn:E.
    + split; [apply Forall_app; split; [exact Hl|constructor; [cbn [fst snd]; lia|constructor]]|]. split; [destruct l; discriminate|]. intros x. rewrite !Happ.
      split; [intros [Hx|Hx]; [left; left; exact Hx|]|intros [[Hx|Hx]|Hx]; [left; exact Hx|right; lia|right; lia]]. destruct (Nat.eq_dec x c); [right; assumption|left; right; lia].
    + split; [apply Forall_app; split; [apply Forall_app; split; [exact Hl|exact Hab]|repeat constructor]|]. split; [destruct l; discriminate|]. intros x. rewrite (Happ (l ++ [(a, b)]) c c x).
      split; (intros [Hx|Hx]; [left; exact Hx|right; lia]).
Qed.
Lemma cc_fold_ok l : forall buf, Forall (fun r => fst r <= snd r) buf ->
  Forall (fun r => fst r <= snd r) (fold_left cc_step l buf) /\ (buf <> [] \/ l <> [] -> fold_left cc_step l buf <> []) /\ forall x, in_ranges x (fold_left cc_step l buf) <-> in_ranges x buf \/ In x l.
Proof.
  induction l as [|c l IH]; intros buf H; cbn [fold_left].
  - split; [exact H|]. split; [intros [Hn|Hn]; congruence|]. intros x. cbn [In]. tauto.
  - destruct (cc_step_ok buf c H) as (H1 & H2 & H3). destruct (IH _ H1) as (I1 & I2 & I3). split; [exact I1|]. split; [intros _; apply I2; left; exact H2|]. intros x. rewrite I3, H3. cbn [In].
    split; [intros [[Hx|Hx]|Hx]|intros [Hx|[Hx|Hx]]]; auto.
Qed.
Lemma class_atom chars (neg : bool) : chars <> [] ->
  atom_ok (91 :: (if neg then [94] else []) ++ make_charclass chars ++ [93]) (fun t => exists c, t = [c] /\ (if neg then ~ In c chars else In c chars)).
Proof.
  intros Hne. destruct (cc_fold_ok (sort_set chars) [] (Forall_nil _)) as (H1 & H2 & H3).
  assert (Hrs : fold_left cc_step (sort_set chars) [] <> []).
  { apply H2. right. destruct chars as [|c cs]; [congruence|]. intros E. assert (Hc : In c (sort_set (c :: cs))) by (apply sort_set_in; left; reflexivity). rewrite E in Hc. destruct Hc. }
  destruct (class_ranges neg _ H1 [] (MClass neg true [])) as (m' & ranges & Hrun & Hc & Hf & Hr); [left; exists true; reflexivity|]. specialize (Hf (or_intror Hrs)).
  assert (Hin : forall x, in_ranges x ranges <-> In x chars).
  { intros x. rewrite Hr, H3, sort_set_in. split; [intros [(u & v & [] & _)|[(u & v & [] & _)|H]]; exact H|intros H; right; right; exact H]. }
  exists (RClass neg ranges). split; [discriminate|]. split.
  - intros f fs.
    assert (E0 : run (MNormal, f, fs) (91 :: (if neg then [94] else []) ++ make_charclass chars ++ [93]) = run (MClass neg true [], f, fs) (make_charclass chars ++ [93])) by (destruct neg; reflexivity).
    rewrite E0. unfold make_charclass. rewrite Hrun. destruct Hc as [(first & ->)|(a & r' & -> & ->)]; cbn [run]; unfold step; cbn [Nat.eqb]; [|reflexivity].
    destruct first; [exfalso; eapply Hf; reflexivity|]. reflexivity.
  - intros t. cbn [matches]. split; intros (c & -> & H); exists c; (split; [reflexivity|]); destruct neg; rewrite ?Hin in *; exact H || (apply Hin; exact H) || idtac.
Qed.

(** ** Items as text *)
Lemma qualifier_nil lo hi : (length (qualifier lo hi) =? 0) = true -> lo = 1 /\ hi = 1.
Proof.
  unfold qualifier. destruct ((lo =? 1) && (hi =? 1)) eqn:E; [intros _; lia|]. destruct ((lo =? 0) && (hi =? 1)); [discriminate|]. destruct (lo =? hi); [discriminate|]. discriminate.
Qed.
Lemma escape_len s : length s <= length (re_escape s).
Proof.
  unfold re_escape. induction s as [|c s IH]; cbn [flat_map length]; [lia|]. rewrite app_length. assert (1 <= length (esc1 c)) by (unfold esc1; destruct (existsb _ _); cbn [length]; lia). lia.
Qed.
Lemma ins_str_in s l x : In x (ins_str s l) <-> x = s \/ In x l.
Proof. induction l as [|t l IH]; cbn [ins_str]; [cbn [In]; intuition|]. destruct (str_leb s t); cbn [In]; [intuition|]. rewrite IH. intuition. Qed.
Lemma sort_strs_in l x : In x (sort_strs l) <-> In x l.
Proof. unfold sort_strs. induction l as [|s l IH]; cbn [fold_right In]; [reflexivity|]. rewrite ins_str_in, IH. intuition. Qed.
Lemma is_char_one s : is_char s = true -> exists c, s = [c].
Proof. unfold is_char. destruct s as [|c [|d s]]; cbn [length]; intros H; try discriminate. exists c. reflexivity. Qed.
Lemma chars_concat chars : Forall (fun s => is_char s = true) chars -> forall c, In c (concat chars) <-> In [c] chars.
Proof.
  induction 1 as [|s l Hs _ IH]; intros c; cbn [concat In]; [reflexivity|]. rewrite in_app_iff, IH. apply is_char_one in Hs. destruct Hs as (d & ->). cbn [In].
  split; [intros [[->|[]]|H]; auto|intros [[= ->]|H]; auto].
Qed.

Definition group1 (chars : list str) : list str :=
  match chars with [] => [] | [c] => [re_escape c] | _ => [91 :: make_charclass (concat chars) ++ [93]] end.
Lemma group1_ok chars : Forall (fun s => is_char s = true) chars -> chars <> [] -> exists rx, group1 chars = [rx] /\ atom_ok rx (fun t => In t chars).
Proof.
  intros H Hne. destruct chars as [|s [|s2 l]]; [congruence| |].
  - inversion H as [|? ? Hs _]; subst. apply is_char_one in Hs. destruct Hs as (c & ->). eexists. split; [reflexivity|]. rewrite esc_one. eapply atom_ok_eqv; [|apply char_atom].
    intros t. unfold word. cbn [In]. split; [intros ->; left; reflexivity|intros [<-|[]]; reflexivity].
  - set (chars := s :: s2 :: l) in *. exists (91 :: make_charclass (concat chars) ++ [93]). split; [reflexivity|].
    assert (Hc : concat chars <> []).
    { inversion H as [|? ? Hs _]; subst. apply is_char_one in Hs. destruct Hs as (c & ->). discriminate. }
    pose proof (class_atom (concat chars) false Hc) as HA. cbv iota in HA. cbn [app] in HA. eapply atom_ok_eqv; [|exact HA]. intros t. split.
    + intros (c & -> & Hin). apply chars_concat; assumption.
    + intros Hin. rewrite Forall_forall in H. destruct (is_char_one t (H t Hin)) as (c & ->). exists c. split; [reflexivity|]. apply chars_concat; [apply Forall_forall; exact H|exact Hin].
Qed.
Lemma group3_ok (build : tuple -> option str) us : (forall u, In u us -> exists s, build u = Some s /\ alt_ok s (lang_tup u)) ->
  exists l, fold_right (fun t r => match build t, r with Some s, Some l => Some (s :: l) | _, _ => None end) (Some []) us = Some (map fst l)
    /\ Forall (fun p => alt_ok (fst p) (snd p)) l /\ (us <> [] -> l <> []) /\ forall t, (exists p, In p l /\ snd p t) <-> exists u, In u us /\ lang_tup u t.
Proof.
  induction us as [|u us IH]; intros H; cbn [fold_right].
  - exists []. split; [reflexivity|]. split; [constructor|]. split; [congruence|]. intros t. split; intros (x & [] & _).
  - destruct (H u (or_introl eq_refl)) as (s & Hs & Ha). destruct IH as (l & E & Hl & _ & Ht); [intros v Hv; apply H; right; exact Hv|]. exists ((s, lang_tup u) :: l). rewrite Hs, E.
    split; [reflexivity|]. split; [constructor; assumption|]. split; [discriminate|]. intros t. split.
    + intros (p & [<-|Hp] & Hpt); [exists u; split; [left; reflexivity|exact Hpt]|]. destruct (proj1 (Ht t)) as (v & Hv & Hvt); [exists p; split; assumption|]. exists v. split; [right; exact Hv|exact Hvt].
    + intros (v & [<-|Hv] & Hvt); [exists (s, lang_tup u); split; [left; reflexivity|exact Hvt]|]. destruct (proj2 (Ht t)) as (p & Hp & Hpt); [exists v; split; assumption|]. exists p. split; [right; exact Hp|exact Hpt].
Qed.

Section Order.
Variable order : list tuple -> list tuple.
Hypothesis Horder : forall l, Permutation (order l) l.

Lemma item_ok build single c : ok_c c ->
  (forall ss ts lo hi, c = (ISet ss ts, lo, hi) -> forall u, In u ts -> exists s, build u = Some s /\ alt_ok s (lang_tup u)) ->
  exists s, item_regexp order build single c = Some s /\ (single = false -> seq_ok s (lang_c c)) /\ alt_ok s (lang_c c).
Proof.
  destruct c as [[i lo] hi]. intros (Hi & Hlh & Hhi) Hb.
  assert (Hseq : forall s, seq_ok s (lang_c (i, lo, hi)) -> (single = false -> seq_ok s (lang_c (i, lo, hi))) /\ alt_ok s (lang_c (i, lo, hi))) by (intros s H; split; [intros _; exact H|apply seq_alt; exact H]).
  unfold item_regexp. destruct i as [s|ss ts].
  - cbn [ok_item] in Hi. cbn [lang_c lang_item] in *. destruct ((length (re_escape s) =? 1) && (lo =? 1) && (hi =? 2)) eqn:E.
    + eexists. split; [reflexivity|]. apply Hseq. pose proof (escape_len s) as Hlen. destruct s as [|c [|c2 s]]; [congruence| |cbn [length] in Hlen; lia]. cbn [length Nat.ltb Nat.leb andb]. rewrite esc_one.
      assert (lo = 1 /\ hi = 2) as [-> ->] by lia. rewrite <- app_assoc. change [63] with (qualifier 0 1).
      eapply seq_ok_eqv; [|apply seq_app; [apply atom_seq, char_atom|apply atom_qualifier; [apply char_atom|lia|lia]]].
      eapply eqv_trans; [apply cat_eqv; [apply eqv_sym; apply (rep_one (word [c]))|apply eqv_refl]|]. apply (rep_cat (word [c]) 1 1 0 1); lia.
    + eexists. split; [reflexivity|]. apply Hseq. destruct ((1 <? length s) && negb (length (qualifier lo hi) =? 0)) eqn:E2.
      * apply atom_qualifier; [|assumption|assumption]. apply group_atom, seq_alt, escape_seq.
      * apply andb_false_iff in E2. destruct E2 as [E2|E2].
        -- destruct s as [|c [|c2 s]]; [congruence| |cbn [length] in E2; lia]. rewrite esc_one. apply atom_qualifier; [apply char_atom|assumption|assumption].
        -- apply negb_false_iff in E2. pose proof (qualifier_nil lo hi E2) as [-> ->]. rewrite app_nil_r. eapply seq_ok_eqv; [apply eqv_sym; apply rep_one|apply escape_seq].
  - destruct Hi as (Hne & Hss & Hts). specialize (Hb ss ts lo hi eq_refl).
    destruct (group3_ok build (order ts)) as (l3 & E3 & H3 & N3 & L3); [intros u Hu; apply Hb; eapply Permutation_in; [apply Horder|exact Hu]|]. rewrite E3.
    set (chars := filter is_char ss). set (strings := filter (fun s => negb (is_char s)) ss).
    fold (group1 chars).
    assert (Hin : forall t, In t ss <-> In t chars \/ In t strings).
    { intros t. unfold chars, strings. rewrite !filter_In. destruct (is_char t); cbn [negb]; split; [left; tauto|tauto|right; tauto|tauto]. }
    assert (Hchars : Forall (fun s => is_char s = true) chars) by (apply Forall_forall; intros s Hs; apply filter_In in Hs; apply Hs).
    set (l2 := map (fun s => (re_escape s, word s)) (sort_strs strings)).
    assert (El2 : map re_escape (sort_strs strings) = map fst l2) by (unfold l2; rewrite map_map; reflexivity).
    assert (H2 : Forall (fun p => alt_ok (fst p) (snd p)) l2).
    { apply Forall_forall. intros p Hp. apply in_map_iff in Hp. destruct Hp as (s & <- & _). apply seq_alt, escape_seq. }
    assert (L2 : forall t, (exists p, In p l2 /\ snd p t) <-> In t strings).
    { intros t. unfold l2. split.
      - intros (p & Hp & Ht). apply in_map_iff in Hp. destruct Hp as (s & <- & Hs). cbn [snd] in Ht. unfold word in Ht. subst. apply sort_strs_in. exact Hs.
      - intros Ht. exists (re_escape t, word t). split; [apply in_map_iff; exists t; split; [reflexivity|apply sort_strs_in; exact Ht]|reflexivity]. }
    assert (Hl1 : exists l1, group1 chars = map fst l1 /\ Forall (fun p => alt_ok (fst p) (snd p)) l1 /\ (forall t, (exists p, In p l1 /\ snd p t) <-> In t chars)).
    { destruct chars as [|c cs] eqn:Ec; [exists []; split; [reflexivity|split; [constructor|intros t; split; [intros (p & [] & _)|intros []]]]|].
      destruct (group1_ok (c :: cs)) as (rx & E1 & H1); [exact Hchars|discriminate|]. exists [(rx, fun t => In t (c :: cs))]. split; [exact E1|].
      split; [constructor; [apply seq_alt, atom_seq; exact H1|constructor]|]. intros t. split; [intros (p & [<-|[]] & Ht); exact Ht|intros Ht; eexists; split; [left; reflexivity|exact Ht]]. }
    destruct Hl1 as (l1 & E1 & H1 & L1).
    assert (HL : forall t, (exists p, In p (l1 ++ l2 ++ l3) /\ snd p t) <-> lang_item (ISet ss ts) t).
    { intros t. cbn [lang_item]. rewrite Hin, <- (L1 t), <- (L2 t). assert (Hord : (exists u, In u ts /\ lang_tup u t) <-> exists p, In p l3 /\ snd p t).
      { rewrite L3. split; intros (u & Hu & Hut); exists u; (split; [|exact Hut]); eapply Permutation_in; [apply Permutation_sym, Horder|exact Hu|apply Horder|exact Hu]. }
      rewrite Hord. split.
      - intros (p & Hp & Ht). apply in_app_or in Hp. destruct Hp as [Hp|Hp]; [left; left; exists p; auto|]. apply in_app_or in Hp. destruct Hp as [Hp|Hp]; [left; right; exists p; auto|right; exists p; auto].
      - intros [[(p & Hp & Ht)|(p & Hp & Ht)]|(p & Hp & Ht)]; exists p; (split; [|exact Ht]); apply in_or_app; [left; exact Hp|right|right]; apply in_or_app; [left; exact Hp|right; exact Hp]. }
    assert (Hnil : l1 ++ l2 ++ l3 <> []).
    { destruct Hne as [Hs|Ht].
      - destruct ss as [|s ss']; [congruence|]. intros E. assert (Hx : lang_item (ISet (s :: ss') ts) s) by (left; left; reflexivity). apply HL in Hx. rewrite E in Hx. destruct Hx as (p & [] & _).
      - intros E. apply app_eq_nil in E. destruct E as [_ E]. apply app_eq_nil in E. destruct E as [_ E]. apply N3; [|exact E]. intros E0. apply Ht. apply Permutation_nil. rewrite <- E0. apply Horder. }
    assert (Hgen : forall s, Some s = Some ((if negb single || negb (length (qualifier lo hi) =? 0) then [40; 63; 58] ++ join [124] (group1 chars ++ map re_escape (sort_strs strings) ++ map fst l3) ++ [41]
        else join [124] (group1 chars ++ map re_escape (sort_strs strings) ++ map fst l3)) ++ qualifier lo hi) ->
        (single = false -> seq_ok s (lang_c (ISet ss ts, lo, hi))) /\ alt_ok s (lang_c (ISet ss ts, lo, hi))).
    { intros s [= ->]. rewrite E1, El2, <- !map_app.
      assert (HJ : alt_ok (join [124] (map fst (l1 ++ l2 ++ l3))) (lang_item (ISet ss ts))).
      { eapply alt_ok_eqv; [exact HL|]. apply join_alt; [|exact Hnil]. apply Forall_app. split; [exact H1|]. apply Forall_app. split; assumption. }
      destruct (negb single || negb (length (qualifier lo hi) =? 0)) eqn:E.
      - apply Hseq. cbn [lang_c]. apply atom_qualifier; [|assumption|assumption]. apply group_atom. exact HJ.
      - apply orb_false_iff in E. destruct E as [Es Eq]. apply negb_false_iff in Es. apply negb_false_iff in Eq. pose proof (qualifier_nil lo hi Eq) as [-> ->]. split; [congruence|].
        change (qualifier 1 1) with (@nil nat). rewrite app_nil_r. eapply alt_ok_eqv; [apply eqv_sym; apply rep_one|exact HJ]. }
    destruct (group1 chars) as [|rx [|rx2 g]] eqn:Eg; [eexists; split; [reflexivity|apply Hgen; reflexivity]| |eexists; split; [reflexivity|apply Hgen; reflexivity]].
    destruct strings as [|s0 strings'] eqn:Es; [|eexists; split; [reflexivity|apply Hgen; reflexivity]].
    destruct ts as [|u0 ts']; [|eexists; split; [reflexivity|apply Hgen; reflexivity]].
    eexists. split; [reflexivity|]. apply Hseq. cbn [lang_c]. apply atom_qualifier; [|assumption|assumption].
    assert (Hcn : chars <> []) by (intros E; rewrite E in Eg; discriminate). destruct (group1_ok chars Hchars Hcn) as (rx' & Er & HA). rewrite Eg in Er. injection Er as <-.
    eapply atom_ok_eqv; [|exact HA]. intros t. cbn [lang_item]. rewrite Hin. split; [intros Ht; left; left; exact Ht|intros [[Ht|[]]|(u & [] & _)]; exact Ht].
Qed.

Lemma build_ok : forall fuel r, ok_tup r -> tup_size r < fuel -> exists s, build_regexp order fuel r = Some s /\ alt_ok s (lang_tup r).
Proof.
  induction fuel as [|fuel IH]; intros r Hok Hf; [lia|]. cbn [build_regexp]. destruct (merge_items_ok r Hok) as [Hitems Hlang].
  assert (Hit : forall c, In c (merge_items r) -> exists s, item_regexp order (build_regexp order fuel) (length (merge_items r) =? 1) c = Some s
     /\ ((length (merge_items r) =? 1) = false -> seq_ok s (lang_c c)) /\ alt_ok s (lang_c c)).
  { intros c Hc. rewrite Forall_forall in Hitems. pose proof (Hitems c Hc) as Hcok. apply item_ok; [exact Hcok|]. intros ss ts lo hi -> u Hu.
    pose proof (merge_items_size r ss ts lo hi u Hc Hu). apply IH; [|lia]. destruct Hcok as ((_ & _ & Hts) & _). rewrite Forall_forall in Hts. apply Hts, Hu. }
  clear IH Hitems. destruct (length (merge_items r) =? 1) eqn:E1.
  - destruct (merge_items r) as [|c [|c2 l]]; try discriminate E1. cbn [fold_right]. destruct (Hit c (or_introl eq_refl)) as (s & -> & _ & Ha). exists (s ++ []). split; [reflexivity|].
    rewrite app_nil_r. eapply alt_ok_eqv; [|exact Ha]. eapply eqv_trans; [apply eqv_sym; apply seqP_one|exact Hlang].
  - clear E1. assert (G : exists s, fold_right (fun c rest => match item_regexp order (build_regexp order fuel) false c, rest with Some s, Some t => Some (s ++ t) | _, _ => None end) (Some []) (merge_items r) = Some s
       /\ seq_ok s (seqP (map lang_c (merge_items r)))).
    { clear Hlang. induction (merge_items r) as [|c l IH]; cbn [fold_right map seqP]; [exists []; split; [reflexivity|apply seq_nil]|].
      destruct (Hit c (or_introl eq_refl)) as (s & -> & Hs & _). destruct IH as (t & -> & Ht); [intros c' Hc'; apply Hit; right; exact Hc'|].
      exists (s ++ t). split; [reflexivity|]. apply seq_app; [apply Hs; reflexivity|exact Ht]. }
    destruct G as (s & -> & Hs). exists s. split; [reflexivity|]. apply seq_alt. eapply seq_ok_eqv; [exact Hlang|exact Hs].
Qed.

Lemma alt_read s P : alt_ok s P -> exists e, read_regexp s = Some e /\ eqv (matches e) P.
Proof.
  intros (more & last & E & He). exists (RGroup (more ++ [last])). split; [unfold read_regexp; rewrite E; reflexivity|]. intros t. rewrite matches_group. apply (He t).
Qed.
Lemma words2regexp_alt words : words <> [] -> exists s, words2regexp order words = Some s /\ alt_ok s (fun t => In t words).
Proof.
  intros Hne. unfold words2regexp. pose proof (common_suffix_ok words Hne) as Hs. destruct (common_suffix words) as [ws suffix]. destruct Hs as [Hws Hs].
  destruct (trie_tuple_ok ws Hws) as (r & -> & Hok & Hl).
  assert (Hr : ok_tup (match suffix with [] => r | _ => r ++ [PStr suffix] end) /\ eqv (lang_tup (match suffix with [] => r | _ => r ++ [PStr suffix] end)) (fun t => In t words)).
  { destruct suffix as [|c suffix].
    - split; [exact Hok|]. eapply eqv_trans; [exact Hl|]. intros t. rewrite Hs. split; [intros H; exists t; rewrite app_nil_r; auto|intros (t' & H & ->); rewrite app_nil_r; exact H].
    - split; [apply Forall_app; split; [exact Hok|constructor; [discriminate|constructor]]|]. eapply eqv_trans; [apply lang_tup_app|]. intros t. rewrite Hs. unfold cat. split.
      + intros (a & b & -> & Ha & Hb). exists a. split; [apply Hl; exact Ha|]. f_equal. unfold lang_tup in Hb. cbn [map] in Hb. exact (proj1 (seqP_one (lang_part (PStr (c :: suffix))) b) Hb).
      + intros (t' & Ht' & ->). exists t', (c :: suffix). split; [reflexivity|]. split; [apply Hl; exact Ht'|]. unfold lang_tup. cbn [map]. apply (proj2 (seqP_one (lang_part (PStr (c :: suffix))) (c :: suffix))). reflexivity. }
  destruct Hr as [Hrok Hrl]. destruct (build_ok (S (tup_size (match suffix with [] => r | _ => r ++ [PStr suffix] end))) _ Hrok (Nat.lt_succ_diag_r _)) as (s & Es & Ha).
  exists s. split; [exact Es|]. eapply alt_ok_eqv; [exact Hrl|exact Ha].
Qed.
End Order.
