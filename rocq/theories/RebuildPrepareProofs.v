(** Where tokenizing starts again. *)
From Verif Require Import Base BaseFacts TargetModel TargetSpec LexerModel LexerSpec LexerProofs TreeModel TreeSpec TreeProofs TreeWalkProofs
  TreeRangeProofs BuildModel BuildProofs TreeDeleteProofs ChangesModel RebuildModel RebuildSpec RestartProofs RebuildTreeProofs RebuildEventsProofs.
From Coq Require Import ZArith ZifyBool.

Ltac lnorm := repeat (progress (rewrite <- ?app_assoc; cbn [app]; rewrite ?app_nil_r)).

Section Labelled.
Variables L A : Type.
Notation node := (node L A).
Notation tok := (tok A).
Notation handle := (handle A).
Notation event := (event L A).
Notation hsym := (hsym L A).
Notation hev := (event * list handle)%type.
Implicit Types (n c root : node) (cs : list node) (p q path : list nat) (f : factory L) (w : list hsym) (hevs : list hev).

(** ** Events with the handles of their tokens *)

Definition hx : hsym := HX L A.
Definition tword (t : option (target L)) : list hsym :=
  match t with None => [] | Some t => repeat hx (t_pop t) ++ map (HE L A) (t_push t) end.
Definition hev_word (x : hev) : list hsym := tword (e_target (fst x)) ++ map (HL L A) (snd x).
Definition hevs_word hevs : list hsym := concat (map hev_word hevs).

Definition normal (e : event) : Prop :=
  match e_target e with None => True | Some t => t_pop t <> 0 \/ t_push t <> [] end.
Definition hev_ok (x : hev) : Prop :=
  map snd (snd x) = make_tokens (e_lexemes (fst x)) /\ e_lexemes (fst x) <> [] /\ normal (fst x).

Lemma hevs_word_app a b : hevs_word (a ++ b) = hevs_word a ++ hevs_word b.
Proof. unfold hevs_word. rewrite map_app, concat_app. reflexivity. Qed.

Lemma erase_tword t : map (erase L A) (tword t) = target_word t.
Proof.
  destruct t as [t|]; [|reflexivity]. cbn [tword target_word]. rewrite map_app, map_map. f_equal. induction (t_pop t) as [|k IH]; [reflexivity|]. cbn [repeat map]. rewrite IH. reflexivity.
Qed.
Lemma erase_inv_target t : forall w, map (erase L A) w = target_word t -> w = tword t.
Proof.
  destruct t as [t|]; intros w H; [|destruct w; [reflexivity|discriminate]]. cbn [tword target_word] in *.
  apply map_eq_app in H as (w1 & w2 & -> & H1 & H2). f_equal.
  - revert w1 H1. induction (t_pop t) as [|k IH]; intros [|s w1] H1; try discriminate; [reflexivity|]. cbn [map repeat] in *.
    injection H1 as H1 H3. destruct s; try discriminate. f_equal. apply IH, H3.
  - revert w2 H2. induction (t_push t) as [|l ls IH]; intros [|s w2] H2; try discriminate; [reflexivity|]. cbn [map] in *.
    injection H2 as H4 H3. destruct s; try discriminate. injection H4 as ->. f_equal. apply IH, H3.
Qed.
Lemma erase_inv_leaves (ts : list tok) : forall w, map (erase L A) w = map Leaf ts -> exists hs, w = map (HL L A) hs /\ map snd hs = ts.
Proof.
  induction ts as [|t ts IH]; intros [|s w] H; try discriminate; [exists []; auto|]. cbn [map] in H. injection H as H1 H2.
  destruct s as [|  |h]; try discriminate. injection H1 as H1. destruct (IH w H2) as (hs & -> & E). exists (h :: hs). cbn [map]. rewrite H1, E. auto.
Qed.
Lemma erase_inv_exits k : forall w, map (erase L A) w = repeat Exit k -> w = repeat hx k.
Proof.
  induction k as [|k IH]; intros [|s w] H; try discriminate; [reflexivity|]. cbn [map repeat] in *. injection H as H1 H2.
  destruct s; try discriminate. f_equal. apply IH, H2.
Qed.

Lemma label_events evs k : forall w, map (erase L A) w = concat (map event_word evs) ++ repeat Exit k ->
  exists hevs, map fst hevs = evs /\ w = hevs_word hevs ++ repeat hx k
    /\ Forall (fun x => map snd (snd x) = make_tokens (e_lexemes (fst x))) hevs.
Proof.
  induction evs as [|e evs IH]; intros w H.
  - exists []. split; [reflexivity|]. split; [apply erase_inv_exits, H|constructor].
  - cbn [map concat] in H. rewrite <- app_assoc in H. apply map_eq_app in H as (w1 & w2 & -> & H1 & H2).
    unfold event_word in H1. apply map_eq_app in H1 as (wt & wl & -> & H3 & H4). apply erase_inv_target in H3 as ->.
    apply erase_inv_leaves in H4 as (hs & -> & H4). destruct (IH w2 H2) as (hevs & <- & -> & HF).
    exists ((e, hs) :: hevs). split; [reflexivity|]. split; [unfold hevs_word; cbn [map concat]; unfold hev_word at 2; cbn [fst snd]; lnorm; reflexivity|].
    constructor; [exact H4|exact HF].
Qed.

Lemma hleaves_map hs : hleaves L A (map (HL L A) hs) = hs.
Proof. unfold hleaves. induction hs as [|h hs IH]; [reflexivity|]. cbn [map concat hleaf app]. f_equal. exact IH. Qed.
Lemma hleaves_tword t : hleaves L A (tword t) = [].
Proof.
  destruct t as [t|]; [|reflexivity]. cbn [tword]. rewrite hleaves_app.
  replace (hleaves L A (repeat hx (t_pop t))) with (@nil handle) by (induction (t_pop t) as [|k IH]; [reflexivity|exact IH]).
  induction (t_push t) as [|l ls IH]; [reflexivity|exact IH].
Qed.
Lemma hleaves_exits k : hleaves L A (repeat hx k) = [].
Proof. induction k as [|k IH]; [reflexivity|exact IH]. Qed.
Lemma hleaves_hevs hevs : hleaves L A (hevs_word hevs) = concat (map snd hevs).
Proof.
  unfold hevs_word. induction hevs as [|x hevs IH]; [reflexivity|]. cbn [map concat]. rewrite hleaves_app, IH. f_equal.
  unfold hev_word. rewrite hleaves_app, hleaves_tword, hleaves_map. reflexivity.
Qed.

(** ** Reading them *)

Lemma fold_exits k w : forall n : nat, ev_fold L A (repeat hx k ++ w) [] (Factory n []) = ev_fold L A w [] (Factory (n + k) []).
Proof.
  induction k as [|k IH]; intros n; [rewrite Nat.add_0_r; reflexivity|]. cbn [repeat app ev_fold hx]. unfold f_pops. cbn [f_push f_pop length Nat.eqb Nat.leb Nat.sub].
  rewrite IH. do 2 f_equal. lia.
Qed.
Lemma fold_enters ls w : forall f, ev_fold L A (map (HE L A) ls ++ w) [] f = ev_fold L A w [] (f_pushes f ls).
Proof.
  induction ls as [|l ls IH]; intros f; [unfold f_pushes; rewrite app_nil_r; destruct f; reflexivity|]. cbn [map app ev_fold]. rewrite IH.
  unfold f_pushes. cbn [f_pop f_push]. rewrite <- app_assoc. reflexivity.
Qed.
Definition fac (t : option (target L)) : factory L := match t with None => f_init | Some t => Factory (t_pop t) (t_push t) end.
Lemma fold_target t w : ev_fold L A (tword t ++ w) [] f_init = ev_fold L A w [] (fac t).
Proof.
  destruct t as [t|]; [|reflexivity]. cbn [tword fac]. rewrite <- app_assoc. unfold f_init. rewrite fold_exits, fold_enters. reflexivity.
Qed.
Lemma fac_get (e : event) : normal e -> f_get (fac (e_target e)) = (e_target e, f_init).
Proof.
  unfold normal. destruct (e_target e) as [[p pu]|]; [|reflexivity]. cbn [t_pop t_push fac]. intros H. unfold f_get. cbn [f_pop f_push].
  replace (negb (p =? 0) || negb (length pu =? 0)) with true; [reflexivity|]. destruct H as [H|H]; [|destruct pu; [congruence|cbn [length]]]; lia.
Qed.

Lemma fold_group xs w : forall (n : nat) hs acc f, 1 <= n -> acc <> [] -> xs <> [] -> map snd hs = make_group_from n xs ->
  ev_fold L A (map (HL L A) hs ++ w) acc f = ev_emit (rev acc ++ hs) f (ev_fold L A w []).
Proof.
  induction xs as [|x xs IH]; intros n hs acc f Hn Ha Hx E; [congruence|]. destruct xs as [|y xs].
  - destruct hs as [|h [|h' hs]]; try discriminate. cbn [make_group_from map] in E. injection E as E.
    cbn [map app ev_fold]. rewrite E. cbn [k_group]. destruct acc as [|a acc]; [congruence|].
    replace (0 <? Z.of_nat n * -1)%Z with false by lia. reflexivity.
  - change (make_group_from n (x :: y :: xs)) with (Token (x_pos x) (x_text x) (x_act x) (Some (Z.of_nat n)) :: make_group_from (S n) (y :: xs)) in E.
    destruct hs as [|h hs]; [discriminate|]. cbn [map] in E.
    assert (E2 : map snd hs = make_group_from (S n) (y :: xs)) by (injection E as _ E2; exact E2).
    assert (E1 : k_group (snd h) = Some (Z.of_nat n)) by (injection E as -> _; reflexivity).
    cbn [map app ev_fold]. rewrite E1.
    destruct acc as [|a acc]; [congruence|]. replace (0 <? Z.of_nat n)%Z with true by lia.
    etransitivity; [apply (IH (S n) hs (h :: a :: acc) f); try discriminate; try lia; exact E2|]. cbn [rev]. lnorm. reflexivity.
Qed.

Lemma fold_leaves xs hs w f : xs <> [] -> map snd hs = make_tokens xs ->
  ev_fold L A (map (HL L A) hs ++ w) [] f = ev_emit hs f (ev_fold L A w []).
Proof.
  intros Hx E. destruct xs as [|x [|y xs]]; [congruence| |].
  - cbn [make_tokens] in E. destruct hs as [|h [|h' hs]]; try discriminate. cbn [map] in E. injection E as E. cbn [map app ev_fold].
    rewrite E. reflexivity.
  - cbn [make_tokens] in E.
    change (make_group_from 0 (x :: y :: xs)) with (Token (x_pos x) (x_text x) (x_act x) (Some 0%Z) :: make_group_from 1 (y :: xs)) in E.
    destruct hs as [|h hs]; [discriminate|]. cbn [map] in E.
    assert (E2 : map snd hs = make_group_from 1 (y :: xs)) by (injection E as _ E2; exact E2).
    assert (E1 : k_group (snd h) = Some 0%Z) by (injection E as -> _; reflexivity).
    cbn [map app ev_fold]. rewrite E1.
    etransitivity; [apply (fold_group (y :: xs) w 1 hs [h] f); try discriminate; try lia; exact E2|]. reflexivity.
Qed.

Lemma hev_lexemes (x : hev) : hev_ok x ->
  map (fun h : handle => Lexeme (k_pos (snd h)) (k_text (snd h)) (k_act (snd h))) (snd x) = e_lexemes (fst x).
Proof.
  intros (H & _). rewrite <- (make_tokens_lexemes _ (e_lexemes (fst x))), <- H, map_map. reflexivity.
Qed.

Lemma fold_hevs hevs : Forall hev_ok hevs -> ev_fold L A (hevs_word hevs) [] f_init = Some (hevs, f_init).
Proof.
  induction 1 as [|x hevs Hx _ IH]; [reflexivity|]. unfold hevs_word. cbn [map concat]. fold (hevs_word hevs). unfold hev_word. rewrite <- app_assoc, fold_target.
  pose proof Hx as (H1 & H2 & H3). rewrite (fold_leaves _ _ _ _ H2 H1). unfold ev_emit. rewrite (fac_get _ H3), IH. pose proof (hev_lexemes _ Hx) as El.
  destruct x as [[t xs] hs]. exact (f_equal (fun m => Some ((Event t m, hs) :: hevs, f_init)) El).
Qed.

(** ** One place for each token *)

Lemma in_order_nodup (ts : list tok) : in_order ts -> NoDup ts.
Proof.
  induction ts as [|t ts IH]; intros H; [constructor|]. change (t :: ts) with ([t] ++ ts) in H. pose proof H as H'.
  apply in_order_app in H as (O1 & O2 & O3). constructor; [|apply IH, O2]. intros Hin. specialize (O3 t t (or_introl eq_refl) Hin).
  pose proof (in_order_text _ _ _ O1 (or_introl eq_refl)). lia.
Qed.

Lemma nodup_app_r {T} (a b : list T) : NoDup (a ++ b) -> NoDup b.
Proof. induction a as [|x a IH]; intros H; [exact H|]. inversion H. auto. Qed.

Lemma leaf_unique h a b : forall a' b', NoDup (hleaves L A (a ++ HL L A h :: b)) ->
  a ++ HL L A h :: b = a' ++ HL L A h :: b' -> a = a' /\ b = b'.
Proof.
  induction a as [|s a IH]; intros [|s' a'] b' Hn E; cbn [app] in E; (assert (E1 := f_equal (@hd_error _) E); assert (E2 := f_equal (@tl _) E); cbn [hd_error tl] in E1, E2; try (injection E1 as E1)).
  - subst b'. auto.
  - subst s'. exfalso. rewrite E2 in Hn. cbn [app] in Hn. change (HL L A h :: ?w) with ([HL L A h] ++ w) in Hn. rewrite !hleaves_app in Hn.
    cbn [hleaves map concat hleaf app] in Hn. inversion Hn as [|? ? Hni _]. apply Hni. apply in_or_app. right. left. reflexivity.
  - subst s. exfalso. cbn [app] in Hn. change (HL L A h :: ?w) with ([HL L A h] ++ w) in Hn. rewrite !hleaves_app in Hn.
    cbn [hleaves map concat hleaf app] in Hn. inversion Hn as [|? ? Hni _]. apply Hni. apply in_or_app. right. left. reflexivity.
  - subst s'. cbn [app] in Hn. assert (Hn' : NoDup (hleaves L A (a ++ HL L A h :: b))).
    { change (s :: ?w) with ([s] ++ w) in Hn. rewrite hleaves_app in Hn. apply nodup_app_r in Hn. exact Hn. }
    destruct (IH a' b' Hn' E2) as [-> ->]. auto.
Qed.

Variables (l0 : L) (cs0 : list node).
Notation root := (Ctx l0 cs0).
Variables (hevs0 : list hev) (k0 : nat).
Hypothesis Hword : hwords L A [] 0 cs0 = hevs_word hevs0 ++ repeat hx k0.
Hypothesis Hok : Forall hev_ok hevs0.
Hypothesis Hord : in_order (flat cs0).

Lemma handles_hevs : handles L A root = concat (map snd hevs0).
Proof.
  unfold handles. rewrite ptoks_ctx. rewrite <- hleaves_words, Hword, hleaves_app, hleaves_hevs, hleaves_exits, app_nil_r. reflexivity.
Qed.
Lemma handles_nodup : NoDup (handles L A root).
Proof.
  apply (NoDup_map_inv snd). rewrite handles_snd, flatten_ctx. apply in_order_nodup, Hord.
Qed.
Lemma handles_at h : In h (handles L A root) -> node_at root (fst h) = Some (Tok (snd h)) /\ fst h <> [].
Proof.
  intros Hin. assert (E : node_at root (fst h) = Some (Tok (snd h))) by (apply ptoks_at, Hin). split; [exact E|]. intros H. rewrite H in E. discriminate.
Qed.
Lemma handles_order a h b h' (d : list handle) : handles L A root = a ++ h :: b ++ h' :: d -> k_end (snd h) <= k_pos (snd h').
Proof.
  intros E. pose proof Hord as Ho. rewrite <- (flatten_ctx _ _ l0), <- handles_snd, E, map_app in Ho. cbn [map] in Ho. rewrite map_app in Ho. cbn [map] in Ho.
  apply (in_order_after _ _ _ _ _ Ho). apply in_or_app. right. left. reflexivity.
Qed.
Lemma handle_text h : In h (handles L A root) -> k_pos (snd h) < k_end (snd h).
Proof.
  intros Hin. eapply in_order_text; [exact Hord|]. rewrite <- (flatten_ctx _ _ l0), <- handles_snd. apply in_map, Hin.
Qed.
Lemma handle_back a h b : handles L A root = a ++ h :: b -> backward_h root (fst h) = rev a /\ forward_h root (fst h) = b.
Proof.
  intros E. destruct (handles_at h) as [Hat _]; [rewrite E; apply in_or_app; right; left; reflexivity|].
  pose proof (handles_split _ _ _ _ _ Hat) as Hs. change (ptoks [] root) with (handles L A root) in Hs.
  destruct h as [p t]. cbn [fst snd] in *.
  assert (G : forall (x y x' y' : list handle) h, NoDup (x ++ h :: y) -> x ++ h :: y = x' ++ h :: y' -> x = x' /\ y = y').
  { clear. induction x as [|s x IH]; intros y [|s' x'] y' h Hn E; cbn [app] in *; (assert (E1 := f_equal (@hd_error _) E); assert (E2 := f_equal (@tl _) E); cbn [hd_error tl] in E1, E2; try (injection E1 as E1)).
    - auto.
    - subst s'. exfalso. inversion Hn as [|? ? Hni _]. apply Hni. rewrite E2. apply in_or_app. right. left. reflexivity.
    - subst s. exfalso. inversion Hn as [|? ? Hni _]. apply Hni. apply in_or_app. right. left. reflexivity.
    - subst s'. inversion Hn. destruct (IH y x' y' h) as [-> ->]; auto. }
  pose proof handles_nodup as Hn. rewrite Hs in Hn, E. destruct (G _ _ _ _ _ Hn E) as [E1 E2]. split; [|exact E2]. rewrite <- E1, rev_involutive. reflexivity.
Qed.

(** The events from the one that starts with [h] to the one that ends with [h2]. *)
Lemma events_read H1 e h hs E' H3 h2 : hevs0 = H1 ++ (e, h :: hs) :: E' ++ H3 ->
  last_opt (concat (map snd ((e, h :: hs) :: E'))) = Some h2 ->
  let f := if h_is_first h && negb (length (fst h) =? 1) && (length (backward_h root (fst h)) =? 0)
           then f_pushes f_init (tl (lex_at root (fst h))) else f_init in
  events_with_tokens root h h2 = Some ((Event (fst (f_get f)) (e_lexemes e), h :: hs) :: E').
Proof.
  intros EH Hl f. pose proof handles_hevs as Hh. rewrite EH in Hh. rewrite map_app in Hh. cbn [map] in Hh. rewrite map_app, concat_app in Hh. cbn [concat snd] in Hh.
  rewrite concat_app in Hh.
  apply last_opt_some in Hl as (pre & Hl). cbn [map concat snd app] in Hl.
  assert (Hsplit : pre = [] /\ h2 = h \/ exists pre', pre = h :: pre').
  { destruct pre as [|x pre]; cbn [app] in Hl; injection Hl as Hl1 Hl2; [left; auto|right; exists pre; congruence]. }
  assert (Hall : handles L A root = concat (map snd H1) ++ (pre ++ [h2]) ++ concat (map snd H3)).
  { rewrite Hh, <- Hl. cbn [app]. rewrite <- !app_assoc. reflexivity. }
  assert (I1 : In h (handles L A root)) by (rewrite Hh; apply in_or_app; right; left; reflexivity).
  assert (I2 : In h2 (handles L A root)) by (rewrite Hall; apply in_or_app; right; apply in_or_app; left; apply in_or_app; right; left; reflexivity).
  destruct (handles_at h I1) as [A1 N1]. destruct (handles_at h2 I2) as [A2 N2].
  assert (Hle : fst h = fst h2 \/ k_pos (snd h) < k_pos (snd h2)).
  { destruct Hsplit as [[_ ->]|(pre' & ->)]; [left; reflexivity|right].
    pose proof (handles_order (concat (map snd H1)) h pre' h2 (concat (map snd H3))) as Ho. pose proof (handle_text h I1).
    specialize (Ho ltac:(rewrite Hall; cbn [app]; lnorm; reflexivity)). lia. }
  destruct (events_word L A root (fst h) (fst h2) (snd h) (snd h2)) as (X & w & w' & Y & EX & (v & Ew) & Ew' & Hev); auto.
  { rewrite flatten_ctx. exact Hord. }
  rewrite <- !surjective_pairing in *. cbn [children] in EX.
  assert (Ehw : hwords L A [] 0 cs0 = (hevs_word H1 ++ tword (e_target e)) ++ HL L A h :: (map (HL L A) hs ++ hevs_word E') ++ hevs_word H3 ++ repeat hx k0).
  { rewrite Hword, EH, hevs_word_app. change ((e, h :: hs) :: E' ++ H3) with ([(e, h :: hs)] ++ E' ++ H3). rewrite !hevs_word_app.
    unfold hevs_word at 2. cbn [map concat]. unfold hev_word. cbn [fst snd map]. lnorm. reflexivity. }
  assert (Hnd : NoDup (hleaves L A (hwords L A [] 0 cs0))) by (rewrite hleaves_words, <- (ptoks_ctx _ _ _ l0); exact handles_nodup).
  assert (Ew2 : HL L A h :: map (HL L A) hs ++ hevs_word E' = w).
  { rewrite EX, Ew in Ehw. cbn [app] in Ehw. pose proof Hnd as Hnd'. rewrite EX, Ew in Hnd'. cbn [app] in Hnd'.
    destruct (leaf_unique _ _ _ _ _ Hnd' Ehw) as [_ E2].
    (* the end *)
    assert (Hend : exists u, HL L A h :: map (HL L A) hs ++ hevs_word E' = u ++ [HL L A h2]).
    { destruct E' as [|x E0 _] using rev_ind.
      - cbn [map concat] in Hl. rewrite app_nil_r in Hl. exists (map (HL L A) pre). unfold hevs_word. cbn [map concat]. rewrite app_nil_r.
        change (HL L A h :: map (HL L A) hs) with (map (HL L A) (h :: hs)). rewrite Hl, map_app. reflexivity.
      - rewrite hevs_word_app. unfold hevs_word at 2. cbn [map concat]. rewrite app_nil_r. unfold hev_word.
        rewrite map_app, concat_app in Hl. cbn [map concat] in Hl. rewrite app_nil_r in Hl.
        assert (Hx : hev_ok x).
        { rewrite Forall_forall in Hok. apply Hok. rewrite EH. apply in_or_app. right. right. apply in_or_app. left. apply in_or_app. right. left. reflexivity. }
        assert (Hx' : snd x <> []).
        { destruct Hx as (E1 & E3 & _). intros E4. rewrite E4 in E1. symmetry in E1. revert E1. apply make_tokens_nonempty, E3. }
        destruct (@exists_last _ (snd x) Hx') as (sx & y & Esx). rewrite Esx in Hl |- *.
        assert (Ey : y = h2).
        { change (h :: hs ++ concat (map snd E0) ++ sx ++ [y]) with ((h :: hs) ++ concat (map snd E0) ++ sx ++ [y]) in Hl.
          rewrite !app_assoc in Hl. apply app_inj_tail in Hl as [_ Hl]. exact Hl. }
        rewrite Ey, map_app. exists (HL L A h :: map (HL L A) hs ++ hevs_word E0 ++ tword (e_target (fst x)) ++ map (HL L A) sx). lnorm. reflexivity. }
    destruct Hend as (u & Eu). assert (Ev : HL L A h :: v = w' ++ [HL L A h2]) by congruence.
    assert (E3 : w' ++ HL L A h2 :: Y = u ++ HL L A h2 :: hevs_word H3 ++ repeat hx k0).
    { change (HL L A h2 :: Y) with ([HL L A h2] ++ Y). rewrite app_assoc. rewrite <- Ev. cbn [app]. rewrite E2.
      change (HL L A h2 :: hevs_word H3 ++ repeat hx k0) with ([HL L A h2] ++ hevs_word H3 ++ repeat hx k0). rewrite (app_assoc u), <- Eu. cbn [app]. reflexivity. }
    assert (Hnd2 : NoDup (hleaves L A (w' ++ HL L A h2 :: Y))).
    { rewrite EX, Ew' in Hnd. rewrite hleaves_app in Hnd. apply nodup_app_r in Hnd. rewrite <- app_assoc in Hnd. exact Hnd. }
    destruct (leaf_unique _ _ _ _ _ Hnd2 E3) as [E4 _]. rewrite Eu, <- E4. symmetry. exact Ew'. }
  apply (Hev _ f_init). fold f. rewrite <- Ew2.
  assert (Hx : hev_ok (e, h :: hs)) by (rewrite Forall_forall in Hok; apply Hok; rewrite EH; apply in_or_app; right; left; reflexivity).
  change (HL L A h :: map (HL L A) hs ++ hevs_word E') with (map (HL L A) (h :: hs) ++ hevs_word E').
  pose proof Hx as (X1 & X2 & _). cbn [fst snd] in X1, X2. rewrite (fold_leaves _ _ _ _ X2 X1). unfold ev_emit.
  assert (Ef : snd (f_get f) = f_init).
  { unfold f. destruct (h_is_first h && negb (length (fst h) =? 1) && (length (backward_h root (fst h)) =? 0)); [|reflexivity].
    unfold f_get, f_pushes. cbn [f_pop f_push f_init app Nat.eqb negb orb]. destruct (length (tl (lex_at root (fst h))) =? 0) eqn:El; [|reflexivity].
    cbn [negb snd]. destruct (tl (lex_at root (fst h))); [reflexivity|discriminate]. }
  destruct (f_get f) as [t f2]. cbn [fst snd] in Ef |- *. subst f2. rewrite fold_hevs.
  - exact (f_equal (fun m => Some ((Event t m, h :: hs) :: E', f_init)) (hev_lexemes _ Hx)).
  - rewrite EH in Hok. apply Forall_app in Hok as [_ Hok']. inversion Hok' as [|? ? _ Hok2]. apply Forall_app in Hok2 as [Hok2 _]. exact Hok2.
Qed.

(** Which event a token belongs to. *)
Lemma in_hevs h : In h (handles L A root) -> exists H1 e a b H2, hevs0 = H1 ++ (e, a ++ h :: b) :: H2 /\ hev_ok (e, a ++ h :: b).
Proof.
  rewrite handles_hevs. intros Hin. apply in_concat in Hin as (hs & Hhs & Hin). apply in_map_iff in Hhs as ((e & hs') & E & Hx). cbn [snd] in E. subst hs'.
  apply in_split in Hin as (a & b & ->). pose proof Hx as Hx'. apply in_split in Hx as (H1 & H2 & ->). exists H1, e, a, b, H2. split; [reflexivity|].
  rewrite Forall_forall in Hok. apply Hok, Hx'.
Qed.

Lemma event_groups e a h b : hev_ok (e, a ++ h :: b) ->
  (k_group (snd h) = None /\ a = [] /\ b = [])
  \/ k_group (snd h) = Some (if length a =? length a + length b then (- Z.of_nat (length a))%Z else Z.of_nat (length a)) /\ 1 <= length a + length b.
Proof.
  intros (E & Hne & _). cbn [fst snd] in *. destruct (make_tokens_tchunk _ _ Hne) as [(t & Et & Hg)|(Hlen & Hg)].
  - rewrite Et in E. assert (Hl : length (map snd (a ++ h :: b)) = 1) by (rewrite E; reflexivity). rewrite map_length, app_length in Hl. cbn [length] in Hl.
    destruct a; [|cbn in Hl; lia]. destruct b; [|cbn in Hl; lia]. cbn in E. injection E as E. left. rewrite E. auto.
  - right. assert (Hn : nth_error (make_tokens (e_lexemes e)) (length a) = Some (snd h)).
    { rewrite <- E, map_app, nth_error_app2 by (rewrite map_length; lia). rewrite map_length, Nat.sub_diag. reflexivity. }
    apply Hg in Hn. rewrite <- E, map_length, app_length in Hn, Hlen. cbn [length] in Hn, Hlen. replace (length a + S (length b) - 1) with (length a + length b) in Hn by lia.
    split; [exact Hn|lia].
Qed.

(** The last token of an event, the only one, the first. *)
Lemma ended_last h : In h (handles L A root) -> group_ended h = true -> exists H1 e a H2, hevs0 = H1 ++ (e, a ++ [h]) :: H2.
Proof.
  intros Hin Hg. destruct (in_hevs h Hin) as (H1 & e & a & b & H2 & E & Hx). exists H1, e, a, H2. rewrite E. unfold group_ended in Hg.
  destruct (event_groups _ _ _ _ Hx) as [(_ & _ & ->)|[Eg Hl]]; [reflexivity|]. rewrite Eg in Hg.
  destruct (length a =? length a + length b) eqn:El; [|lia]. destruct b; [reflexivity|cbn in El; lia].
Qed.
Lemma none_single h : In h (handles L A root) -> k_group (snd h) = None -> exists H1 e H2, hevs0 = H1 ++ (e, [h]) :: H2.
Proof.
  intros Hin Hg. destruct (in_hevs h Hin) as (H1 & e & a & b & H2 & E & Hx). exists H1, e, H2. rewrite E.
  destruct (event_groups _ _ _ _ Hx) as [(_ & -> & ->)|[Eg Hl]]; [reflexivity|congruence].
Qed.
Lemma zero_first h : In h (handles L A root) -> match k_group (snd h) with None => true | Some g => (g =? 0)%Z end = true ->
  exists H1 e b H2, hevs0 = H1 ++ (e, h :: b) :: H2.
Proof.
  intros Hin Hg. destruct (in_hevs h Hin) as (H1 & e & a & b & H2 & E & Hx). exists H1, e, b, H2. rewrite E.
  destruct (event_groups _ _ _ _ Hx) as [(_ & -> & ->)|[Eg Hl]]; [reflexivity|]. rewrite Eg in Hg.
  destruct a as [|a0 a]; [reflexivity|]. destruct (length (a0 :: a) =? length (a0 :: a) + length b); cbn [length] in Hg; lia.
Qed.

(** How many events there are at least. *)
Definition nones (hs : list handle) : nat := length (filter (fun h => match k_group (snd h) with None => true | Some _ => false end) hs).
Lemma nones_app a b : nones (a ++ b) = nones a + nones b.
Proof. unfold nones. rewrite filter_app, app_length. reflexivity. Qed.

Lemma nones_event x a h b : hev_ok x -> snd x = a ++ h :: b -> nones a = 0 /\ nones b = 0.
Proof.
  intros Hx Hs. destruct x as [e hs]. cbn [snd] in Hs. subst hs.
  destruct (event_groups _ _ _ _ Hx) as [(_ & -> & ->)|[_ Hl]]; [auto|].
  assert (G : forall y, In y (a ++ h :: b) -> k_group (snd y) <> None).
  { intros y Hy Hg. apply in_split in Hy as (a' & b' & E'). rewrite E' in Hx. destruct (event_groups _ _ _ _ Hx) as [(_ & -> & ->)|[Eg _]]; [|congruence].
    assert (length (a ++ h :: b) = 1) by (rewrite E'; reflexivity). rewrite app_length in H. cbn [length] in H. lia. }
  assert (G2 : forall hs, (forall y, In y hs -> k_group (snd y) <> None) -> nones hs = 0).
  { clear. intros hs. unfold nones. induction hs as [|y hs IH]; intros H; [reflexivity|]. cbn [filter]. destruct (k_group (snd y)) eqn:E.
    - apply IH. intros u Hu. apply H. right. exact Hu.
    - exfalso. exact (H y (or_introl eq_refl) E). }
  split; apply G2; intros y Hy; apply G, in_or_app; [left|right; right]; exact Hy.
Qed.

Lemma count_hevs hevs hs h : Forall hev_ok hevs -> concat (map snd hevs) = hs ++ [h] -> nones hs + 1 <= length hevs.
Proof.
  intros Hf E. destruct hevs as [|x H0 _] using rev_ind; [destruct hs; discriminate|].
  apply Forall_app in Hf as [Hf Hx]. inversion Hx as [|? ? Hx' _]; subst. rewrite map_app, concat_app in E. cbn [map concat] in E. rewrite app_nil_r in E.
  assert (Hne : snd x <> []).
  { destruct Hx' as (E1 & E3 & _). intros E4. rewrite E4 in E1. symmetry in E1. revert E1. apply make_tokens_nonempty, E3. }
  destruct (@exists_last _ (snd x) Hne) as (sx & y & Esx). rewrite Esx, app_assoc in E. apply app_inj_tail in E as [<- <-].
  rewrite nones_app. destruct (nones_event x sx y [] Hx' Esx) as [-> _]. rewrite app_length. cbn [length].
  assert (G : nones (concat (map snd H0)) <= length H0); [|lia].
  clear -Hf. induction Hf as [|z hevs Hz _ IH]; [cbn; lia|]. cbn [map concat length]. rewrite nones_app.
  destruct (snd z) as [|u hs] eqn:Ez; [cbn; lia|]. destruct (nones_event z [] u hs Hz Ez) as [_ E]. change (u :: hs) with ([u] ++ hs). rewrite nones_app, E.
  assert (nones [u] <= 1) by (unfold nones; cbn [filter]; destruct (k_group (snd u)); cbn [length]; lia). lia.
Qed.

(** ** Going back *)

Section Scan.
Variable consume : L -> bool.
Lemma scan10_spec root' gb : forall (c : nat) cur st start gb', scan10 consume root' (S c) cur gb = (st, start, gb') ->
  (start = 0 /\ last_opt (cur :: gb) = Some st)
  \/ exists mid nx, cur :: gb = mid ++ st :: nx :: gb' /\ good_start consume root' st = true /\ c <= nones mid /\ start = k_pos (snd st).
Proof.
  induction gb as [|nx gb IH]; intros c cur st start gb' H; cbn [scan10] in H.
  - injection H as -> <- _. left. split; reflexivity.
  - assert (Hcons : forall c' : nat, scan10 consume root' (S c') nx gb = (st, start, gb') -> c <= nones [cur] + c' ->
              (start = 0 /\ last_opt (cur :: nx :: gb) = Some st)
              \/ exists mid nx0, cur :: nx :: gb = mid ++ st :: nx0 :: gb' /\ good_start consume root' st = true /\ c <= nones mid /\ start = k_pos (snd st)).
    { intros c' H' Hc. destruct (IH c' nx st start gb' H') as [[-> E]|(mid & nx0 & E & Hg & Hn & Hs)].
      - left. split; [reflexivity|]. change (cur :: nx :: gb) with ([cur] ++ nx :: gb). rewrite last_opt_app_r by discriminate. exact E.
      - right. exists (cur :: mid), nx0. cbn [app]. rewrite E. split; [reflexivity|]. split; [exact Hg|]. split; [|exact Hs].
        change (cur :: mid) with ([cur] ++ mid). rewrite nones_app. lia. }
    destruct (good_start consume root' cur) eqn:Eg.
    + destruct c as [|c].
      * injection H as -> <- ->. right. exists [], nx. split; [reflexivity|]. split; [exact Eg|]. split; [cbn; lia|reflexivity].
      * apply (Hcons c H). unfold good_start in Eg. unfold nones. cbn [filter]. destruct (k_group (snd cur)); [discriminate|]. cbn [length]. lia.
    + apply (Hcons c H). lia.
Qed.
End Scan.

Lemma skip_group_spec (gb : list handle) : forall (h : handle) gb', skip_group gb = Some (h, gb') -> group_ended h = true /\ exists mid, gb = mid ++ h :: gb'.
Proof.
  induction gb as [|x gb IH]; intros h gb' H; [discriminate|]. cbn [skip_group] in H. destruct (group_ended x) eqn:E.
  - injection H as -> ->. split; [exact E|]. exists []. reflexivity.
  - destruct (IH h gb' H) as (H1 & mid & ->). split; [exact H1|]. exists (x :: mid). reflexivity.
Qed.

End Labelled.
