(** The tuples that parce/regex.py makes of a trie have the same words. *)
From Verif Require Import Base BaseFacts RegexModel RegexSpec RegexLangProofs.
From Coq Require Import ZifyBool Permutation.

(** ** The common suffix *)
Lemma cpre_ok : forall w ws, (exists w', w = cpre w ws ++ w') /\ forall v, In v ws -> exists v', v = cpre w ws ++ v'.
Proof.
  induction w as [|c w IH]; intros ws; cbn [cpre].
  - split; [exists []; reflexivity|]. intros v _. exists v. reflexivity.
  - destruct (forallb (fun v => match v with d :: _ => c =? d | [] => false end) ws) eqn:E.
    + destruct (IH (map (@tl nat) ws)) as [(w' & H1) H2]. split; [exists w'; cbn [app]; rewrite <- H1; reflexivity|].
      intros v Hv. rewrite forallb_forall in E. specialize (E v Hv). destruct v as [|d v]; [discriminate|]. apply Nat.eqb_eq in E. subst d.
      destruct (H2 v) as (v' & Ev); [change v with (tl (c :: v)); apply in_map; exact Hv|]. exists v'. cbn [app]. rewrite <- Ev. reflexivity.
    + split; [exists (c :: w); reflexivity|]. intros v _. exists v. reflexivity.
Qed.
Lemma drop_last_app {A} (a b : list A) : drop_last (length b) (a ++ b) = a.
Proof. unfold drop_last. rewrite app_length, Nat.add_sub. rewrite firstn_app, firstn_all, Nat.sub_diag. cbn [firstn]. apply app_nil_r. Qed.
Lemma common_suffix_ok words : words <> [] ->
  let '(ws, suffix) := common_suffix words in ws <> [] /\ forall t, In t words <-> exists t', In t' ws /\ t = t' ++ suffix.
Proof.
  intros Hw. destruct words as [|w words]; [congruence|]. unfold common_suffix. cbv zeta.
  assert (Hs : forall v, In v (w :: words) -> exists v', v = v' ++ rev (cpre (rev w) (map (@rev nat) words))).
  { destruct (cpre_ok (rev w) (map (@rev nat) words)) as [(w' & H1) H2]. intros v [<-|Hv].
    - exists (rev w'). rewrite <- rev_app_distr, <- H1. symmetry. apply rev_involutive.
    - destruct (H2 (rev v)) as (v' & Ev); [apply in_map; exact Hv|]. exists (rev v'). rewrite <- rev_app_distr, <- Ev. symmetry. apply rev_involutive. }
  destruct (rev (cpre (rev w) (map (@rev nat) words))) as [|c suf] eqn:E.
  - split; [discriminate|]. intros t. split; [intros H; exists t; rewrite app_nil_r; split; [exact H|reflexivity]|intros (t' & H & ->); rewrite app_nil_r; exact H].
  - split; [discriminate|]. intros t. split.
    + intros H. destruct (Hs t H) as (v' & Ev). exists v'. split; [|exact Ev]. apply in_map_iff. exists t. split; [|exact H]. rewrite Ev. apply drop_last_app.
    + intros (t' & H & ->). apply in_map_iff in H. destruct H as (v & Ev & Hv). destruct (Hs v Hv) as (v' & Ev'). rewrite Ev' in Ev. rewrite drop_last_app in Ev. subst v'. rewrite <- Ev'. exact Hv.
Qed.

(** ** Grouping equal nodes *)
Section Groups.
Variable rv : bool.
Notation kid := (str * rtrie * option tuple)%type.
Notation group := (list str * rtrie * option tuple)%type.

Definition same_node (m n : rtrie) : Prop := eqv (lang_rt rv m) (lang_rt rv n) /\ is_leaf m = is_leaf n.
Definition seen_ok (done : list kid) (l : list group) : Prop :=
  (forall ks m u, In (ks, m, u) l -> ks <> [] /\ (exists k0, In (k0, m, u) done) /\ forall k, In k ks -> exists n t, In (k, n, t) done /\ same_node m n)
  /\ (forall k n t, In (k, n, t) done -> exists ks m u, In (ks, m, u) l /\ In k ks /\ same_node m n).

Lemma same_refl m : same_node m m.
Proof. split; [apply eqv_refl|reflexivity]. Qed.
Lemma add_seen_members k n t l ks m u : In (ks, m, u) (add_seen k n t l) ->
  In (ks, m, u) l \/ (exists ks0, ks = ks0 ++ [k] /\ In (ks0, m, u) l /\ same_node m n) \/ (ks, m, u) = ([k], n, t).
Proof.
  induction l as [|[[ks1 m1] u1] l IH]; cbn [add_seen].
  - intros [H|[]]. right. right. symmetry. exact H.
  - destruct (rt_eqb m1 n) eqn:E.
    + intros [H|H]; [|left; right; exact H]. injection H as <- <- <-. right. left. exists ks1. split; [reflexivity|]. split; [left; reflexivity|].
      split; [apply rt_eqb_sound; exact E|apply rt_eqb_leaf; exact E].
    + intros [H|H]; [left; left; exact H|]. destruct (IH H) as [H1|[(ks0 & H1 & H2 & H3)|H1]]; [left; right; exact H1|right; left; exists ks0; split; [exact H1|split; [right; exact H2|exact H3]]|right; right; exact H1].
Qed.
Lemma add_seen_keeps k n t l ks m u : In (ks, m, u) l -> exists ks', In (ks', m, u) (add_seen k n t l) /\ incl ks ks'.
Proof.
  induction l as [|[[ks1 m1] u1] l IH]; cbn [add_seen]; [intros []|]. intros [H|H].
  - injection H as <- <- <-. destruct (rt_eqb m1 n); [exists (ks1 ++ [k])|exists ks1]; (split; [left; reflexivity|]); [apply incl_appl, incl_refl|apply incl_refl].
  - destruct (rt_eqb m1 n); [exists ks; split; [right; exact H|apply incl_refl]|]. destruct (IH H) as (ks' & H1 & H2). exists ks'. split; [right; exact H1|exact H2].
Qed.
Lemma add_seen_has k n t l : exists ks m u, In (ks, m, u) (add_seen k n t l) /\ In k ks /\ same_node m n.
Proof.
  induction l as [|[[ks1 m1] u1] l IH]; cbn [add_seen].
  - exists [k], n, t. split; [left; reflexivity|]. split; [left; reflexivity|apply same_refl].
  - destruct (rt_eqb m1 n) eqn:E.
    + exists (ks1 ++ [k]), m1, u1. split; [left; reflexivity|]. split; [apply in_or_app; right; left; reflexivity|]. split; [apply rt_eqb_sound; exact E|apply rt_eqb_leaf; exact E].
    + destruct IH as (ks & m & u & H1 & H2 & H3). exists ks, m, u. split; [right; exact H1|split; assumption].
Qed.
Lemma add_seen_ok k n t l done : seen_ok done l -> seen_ok (done ++ [(k, n, t)]) (add_seen k n t l).
Proof.
  intros [H1 H2]. split.
  - intros ks m u Hin. apply add_seen_members in Hin. destruct Hin as [Hin|[(ks0 & -> & Hin & Hs)|[= -> -> ->]]].
    + destruct (H1 ks m u Hin) as (Ha & (k0 & Hb) & Hc). split; [exact Ha|]. split; [exists k0; apply in_or_app; left; exact Hb|].
      intros k' Hk'. destruct (Hc k' Hk') as (n' & t' & Hd & He). exists n', t'. split; [apply in_or_app; left; exact Hd|exact He].
    + destruct (H1 ks0 m u Hin) as (Ha & (k0 & Hb) & Hc). split; [destruct ks0; discriminate|]. split; [exists k0; apply in_or_app; left; exact Hb|].
      intros k' Hk'. apply in_app_or in Hk'. destruct Hk' as [Hk'|[<-|[]]].
      * destruct (Hc k' Hk') as (n' & t' & Hd & He). exists n', t'. split; [apply in_or_app; left; exact Hd|exact He].
      * exists n, t. split; [apply in_or_app; right; left; reflexivity|exact Hs].
    + split; [discriminate|]. split; [exists k; apply in_or_app; right; left; reflexivity|]. intros k' [<-|[]]. exists n, t. split; [apply in_or_app; right; left; reflexivity|apply same_refl].
  - intros k' n' t' Hin. apply in_app_or in Hin. destruct Hin as [Hin|[[= <- <- <-]|[]]]; [|apply add_seen_has].
    destruct (H2 k' n' t' Hin) as (ks & m & u & Ha & Hb & Hc). destruct (add_seen_keeps k n t l ks m u Ha) as (ks' & Hd & He). exists ks', m, u. split; [exact Hd|]. split; [apply He; exact Hb|exact Hc].
Qed.
Lemma seen_nodes_ok kids : seen_ok kids (seen_nodes kids).
Proof.
  unfold seen_nodes.
  assert (H : forall todo done l, seen_ok done l -> seen_ok (done ++ todo) (fold_left (fun l p => match p with (k, n, t) => add_seen k n t l end) todo l)).
  { induction todo as [|[[k n] t] todo IH]; intros done l Hl; cbn [fold_left]; [rewrite app_nil_r; exact Hl|].
    specialize (IH (done ++ [(k, n, t)]) (add_seen k n t l) (add_seen_ok k n t l done Hl)). rewrite <- app_assoc in IH. exact IH. }
  apply (H kids [] []). split; [intros ks m u []|intros k n t []].
Qed.
Lemma all_leaf kids t0 (Hne : kids <> []) : Forall (fun p => p = (fst3 p, RTrie true [], t0)) kids -> seen_nodes kids = [(map fst3 kids, RTrie true [], t0)].
Proof.
  intros H. unfold seen_nodes. destruct kids as [|p kids]; [congruence|]. inversion H as [|? ? Hp Hk]; subst. rewrite Hp. cbn [fold_left add_seen].
  assert (Hg : forall todo ks, Forall (fun p => p = (fst3 p, RTrie true [], t0)) todo ->
    fold_left (fun l p => match p with (k, n, t) => add_seen k n t l end) todo [(ks, RTrie true [], t0)] = [(ks ++ map fst3 todo, RTrie true [], t0)]).
  { induction todo as [|q todo IH]; intros ks Hq; cbn [fold_left map]; [rewrite app_nil_r; reflexivity|]. inversion Hq as [|? ? H1 H2]; subst. rewrite H1. cbn [add_seen].
    change (rt_eqb (RTrie true []) (RTrie true [])) with true. cbv iota. rewrite IH by exact H2. rewrite <- app_assoc. reflexivity. }
  rewrite Hg by exact Hk. cbn [map fst3 fst app]. reflexivity.
Qed.

(** ** Sets of groups *)
Definition glang (g : gset) : lang := let '(o, ss, ts) := g in lang_part (PSet o ss ts).
Definition g_strs (g : gset) : list str := snd (fst g).
Definition g_tups (g : gset) : list tuple := snd g.
Definition gok (g : gset) : Prop := Forall (fun s => s <> []) (g_strs g) /\ Forall ok_tup (g_tups g).

Lemma g_str_ok s g : s <> [] -> gok g -> let g' := g_str s g in
  gok g' /\ eqv (glang g') (fun x => glang g x \/ x = s) /\ fst (fst g') = fst (fst g) /\ incl (g_strs g) (g_strs g') /\ In s (g_strs g') /\ g_tups g' = g_tups g.
Proof.
  destruct g as [[o ss] ts]. intros Hs [H1 H2]. cbn [g_str g_strs g_tups fst snd] in *. destruct (existsb (str_eqb s) ss) eqn:E.
  - apply existsb_exists in E. destruct E as (s' & Hin & E). apply str_eqb_eq in E. subst s'. split; [split; assumption|]. split; [|split; [reflexivity|split; [apply incl_refl|split; [exact Hin|reflexivity]]]].
    intros x. unfold glang. rewrite lang_set. split; [intros H; left; exact H|intros [H| ->]; [exact H|right; left; exact Hin]].
  - split; [split; [apply Forall_app; split; [exact H1|repeat constructor; exact Hs]|exact H2]|]. split; [|split; [reflexivity|split; [apply incl_appl, incl_refl|split; [apply in_or_app; right; left; reflexivity|reflexivity]]]].
    intros x. unfold glang. rewrite !lang_set. rewrite in_app_iff. cbn [In]. split.
    + intros [H|[[H|[H|[]]]|H]]; auto.
    + intros [[H|[H|H]]|H]; auto.
Qed.
Lemma g_strs_ok ks : forall g, Forall (fun s => s <> []) ks -> gok g -> let g' := fold_left (fun g k => g_str k g) ks g in
  gok g' /\ eqv (glang g') (fun x => glang g x \/ In x ks) /\ fst (fst g') = fst (fst g) /\ incl (g_strs g) (g_strs g') /\ incl ks (g_strs g') /\ g_tups g' = g_tups g.
Proof.
  induction ks as [|k ks IH]; intros g Hk Hg; cbn [fold_left].
  - cbv zeta. split; [exact Hg|]. split; [intros x; cbn [In]; tauto|]. split; [reflexivity|]. split; [apply incl_refl|]. split; [intros x []|reflexivity].
  - inversion Hk as [|? ? Hk1 Hk2]; subst. destruct (g_str_ok k g Hk1 Hg) as (H1 & H2 & H3 & H4 & H5 & H6). cbv zeta in *.
    destruct (IH (g_str k g) Hk2 H1) as (I1 & I2 & I3 & I4 & I5 & I6). split; [exact I1|]. split; [|split; [congruence|split; [eapply incl_tran; eassumption|split; [|congruence]]]].
    + intros x. rewrite (I2 x), (H2 x). cbn [In]. split; [intros [[H|H]|H]|intros [H|[H|H]]]; auto.
    + intros x [<-|Hx]; [apply I4, H5|apply I5, Hx].
Qed.
Lemma g_tup_ok u g : ok_tup u -> gok g -> let g' := g_tup u g in
  gok g' /\ eqv (glang g') (fun x => glang g x \/ lang_tup u x) /\ fst (fst g') = fst (fst g) /\ g_strs g' = g_strs g /\ g_tups g' <> [].
Proof.
  destruct g as [[o ss] ts]. intros Hu [H1 H2]. cbn [g_tup g_strs g_tups fst snd] in *. destruct (existsb (tup_eqb u) ts) eqn:E.
  - apply existsb_exists in E. destruct E as (v & Hin & E). split; [split; assumption|]. split; [|split; [reflexivity|split; [reflexivity|destruct ts; [destruct Hin|discriminate]]]].
    intros x. unfold glang. rewrite lang_set. split; [intros H; left; exact H|intros [H|H]; [exact H|right; right; exists v; split; [exact Hin|]; apply (tup_eqb_sound u v E); exact H]].
  - split; [split; [exact H1|apply Forall_app; split; [exact H2|repeat constructor; exact Hu]]|]. split; [|split; [reflexivity|split; [reflexivity|destruct ts; discriminate]]].
    intros x. unfold glang. rewrite !lang_set. split.
    + intros [H|[H|(v & Hv & H)]]; auto. apply in_app_or in Hv. destruct Hv as [Hv|[<-|[]]]; [left; right; right; exists v; split; assumption|right; exact H].
    + intros [[H|[H|(v & Hv & H)]]|H]; auto; right; right; [exists v|exists u]; (split; [|exact H]); apply in_or_app; [left; exact Hv|right; left; reflexivity].
Qed.

Definition combine_rv (r1 r2 : tuple) : tuple := if rv then r2 ++ r1 else r1 ++ r2.
Lemma combine_lang r t ks m : eqv (lang_tup r) (fun x => In x ks) -> eqv (lang_tup t) (lang_rt rv m) ->
  eqv (lang_tup (combine_rv r t)) (fun x => exists k, In k ks /\ exists x', x = glue rv k x' /\ lang_rt rv m x').
Proof.
  intros Hr Ht x. unfold combine_rv, glue. destruct rv.
  - rewrite (lang_tup_app t r x). split.
    + intros (a & b & -> & Ha & Hb). exists b. split; [apply Hr; exact Hb|]. exists a. split; [reflexivity|apply Ht; exact Ha].
    + intros (k & Hk & x' & -> & Hx). exists x', k. split; [reflexivity|]. split; [apply Ht; exact Hx|apply Hr; exact Hk].
  - rewrite (lang_tup_app r t x). split.
    + intros (a & b & -> & Ha & Hb). exists a. split; [apply Hr; exact Ha|]. exists b. split; [reflexivity|apply Ht; exact Hb].
    + intros (k & Hk & x' & -> & Hx). exists k, x'. split; [reflexivity|]. split; [apply Hr; exact Hk|apply Ht; exact Hx].
Qed.
Lemma combine_ok r t : ok_tup r -> ok_tup t -> ok_tup (combine_rv r t).
Proof. intros H1 H2. unfold combine_rv. destruct rv; apply Forall_app; split; assumption. Qed.
Lemma str_lang k : eqv (lang_tup [PStr k]) (fun x => In x [k]).
Proof. intros x. unfold lang_tup. cbn [map]. rewrite (seqP_one _ x). cbn [lang_part In]. split; [intros ->; left; reflexivity|intros [H|[]]; symmetry; exact H]. Qed.
Lemma frozen_lang ks : eqv (lang_tup [PSet false ks []]) (fun x => In x ks).
Proof.
  intros x. unfold lang_tup. cbn [map]. rewrite (seqP_one _ x), lang_set. split; [intros [[H _]|[H|(u & [] & _)]]; [discriminate|exact H]|intros H; right; left; exact H].
Qed.
Lemma leaf_eq m : ok_rt m -> is_leaf m = true -> m = RTrie true [].
Proof. destruct m as [e [|]]; [|discriminate]. intros H _. apply ok_rt_eq in H. destruct H as [[->|H] _]; [reflexivity|congruence]. Qed.
Lemma leaf_glue ks x : (exists k, In k ks /\ exists x', x = glue rv k x' /\ lang_rt rv (RTrie true []) x') <-> In x ks.
Proof.
  split.
  - intros (k & Hk & x' & -> & H). apply lang_rt_eq in H. destruct H as [[_ ->]|(k' & n & [] & _)]. unfold glue. destruct rv; rewrite ?app_nil_r; exact Hk.
  - intros H. exists x. split; [exact H|]. exists []. split; [unfold glue; destruct rv; rewrite ?app_nil_r; reflexivity|]. apply lang_rt_eq. left. split; reflexivity.
Qed.

Variable optimize : list str -> option tuple.
Hypothesis Hopt : rv = false -> forall ks, ks <> [] -> exists r, optimize ks = Some r /\ ok_tup r /\ eqv (lang_tup r) (fun x => In x ks).

Definition group_ok (p : group) : Prop :=
  let '(ks, m, u) := p in
  ks <> [] /\ Forall (fun s => s <> []) ks /\ ok_rt m /\ exists t, u = Some t /\ ok_tup t /\ eqv (lang_tup t) (lang_rt rv m).
Definition group_words (p : group) : lang := fun x => exists k, In k (fst3 p) /\ exists x', x = glue rv k x' /\ lang_rt rv (snd3 p) x'.
Definition added (g g' : gset) (p : group) : Prop :=
  gok g' /\ eqv (glang g') (fun x => glang g x \/ group_words p x) /\ fst (fst g') = fst (fst g)
  /\ incl (g_strs g) (g_strs g') /\ (g_tups g <> [] -> g_tups g' <> []) /\ (is_leaf (snd3 p) = false -> g_tups g' <> [])
  /\ (g_tups g' <> [] \/ incl (fst3 p) (g_strs g')).

Lemma added_strs ks m u g : Forall (fun s => s <> []) ks -> ok_rt m -> is_leaf m = true -> gok g -> added g (fold_left (fun g k => g_str k g) ks g) (ks, m, u).
Proof.
  intros Hk Hm Hl Hg. pose proof (leaf_eq m Hm Hl) as ->. destruct (g_strs_ok ks g Hk Hg) as (H1 & H2 & H3 & H4 & H5 & H6). cbv zeta in *.
  split; [exact H1|]. split; [|split; [exact H3|split; [exact H4|split; [rewrite H6; auto|split; [discriminate|right; exact H5]]]]].
  intros x. rewrite (H2 x). unfold group_words. cbn [fst3 snd3 fst snd]. rewrite (leaf_glue ks x). reflexivity.
Qed.
Lemma added_tup ks m u g r t : ok_tup r -> eqv (lang_tup r) (fun x => In x ks) -> ok_tup t -> eqv (lang_tup t) (lang_rt rv m) -> gok g ->
  added g (g_tup (combine_rv r t) g) (ks, m, u).
Proof.
  intros Hr Hrl Ht Htl Hg. destruct (g_tup_ok (combine_rv r t) g (combine_ok r t Hr Ht) Hg) as (H1 & H2 & H3 & H4 & H5). cbv zeta in *.
  split; [exact H1|]. split; [|split; [exact H3|split; [rewrite H4; apply incl_refl|split; [intros _; exact H5|split; [intros _; exact H5|left; exact H5]]]]].
  intros x. rewrite (H2 x), (combine_lang r t ks m Hrl Htl x). reflexivity.
Qed.
Lemma add_group_ok p g : group_ok p -> gok g -> exists g', add_group rv optimize p (Some g) = Some g' /\ added g g' p.
Proof.
  destruct p as [[ks m] u]. intros (Hne & Hks & Hm & t & -> & Ht & Htl) Hg. unfold add_group.
  assert (Hfr : ok_tup [PSet false ks []]).
  { constructor; [|constructor]. apply ok_set. split; [left; exact Hne|]. split; [exact Hks|constructor]. }
  destruct ks as [|k [|k2 ks]]; [congruence| |].
  - inversion Hks as [|? ? Hk _]; subst. destruct (is_leaf m) eqn:El.
    + eexists. split; [reflexivity|]. exact (added_strs [k] m (Some t) g Hks Hm El Hg).
    + eexists. split; [reflexivity|]. apply (added_tup [k] m (Some t) g [PStr k] t); [repeat constructor; exact Hk|apply str_lang|exact Ht|exact Htl|exact Hg].
  - remember (k :: k2 :: ks) as kss eqn:Ek.
    assert (Hgen : exists g', (if rv then if is_leaf m then Some (fold_left (fun g k => g_str k g) kss g) else Some (g_tup (combine_rv [PSet false kss []] t) g)
       else match optimize kss with None => None | Some r => if tup_eqb r [PSet false kss []] && is_leaf m then Some (fold_left (fun g k => g_str k g) kss g) else Some (g_tup (combine_rv r t) g) end) = Some g'
       /\ added g g' (kss, m, Some t)).
    { destruct (bool_dec rv true) as [Erv|Erv].
      - match goal with |- exists g', (if rv then ?X else ?Y) = _ /\ _ => replace (if rv then X else Y) with X by (rewrite Erv; reflexivity) end.
        destruct (is_leaf m) eqn:El; (eexists; split; [reflexivity|]).
        + apply added_strs; assumption.
        + apply added_tup; try assumption. apply frozen_lang.
      - apply not_true_is_false in Erv. destruct (Hopt Erv kss Hne) as (r & -> & Hr & Hrl). 
        match goal with |- exists g', (if rv then ?X else ?Y) = _ /\ _ => replace (if rv then X else Y) with Y by (rewrite Erv; reflexivity) end.
        destruct (tup_eqb r [PSet false kss []] && is_leaf m) eqn:El; (eexists; split; [reflexivity|]).
        + apply andb_true_iff in El. destruct El as [_ El]. apply added_strs; assumption.
        + apply added_tup; assumption. }
    rewrite Ek in Hgen |- *. exact Hgen.
Qed.
Lemma fold_groups_ok L : forall g, Forall group_ok L -> gok g -> exists g',
  fold_left (fun g p => add_group rv optimize p g) L (Some g) = Some g' /\ gok g'
  /\ eqv (glang g') (fun x => glang g x \/ exists p, In p L /\ group_words p x) /\ fst (fst g') = fst (fst g)
  /\ incl (g_strs g) (g_strs g') /\ (g_tups g <> [] -> g_tups g' <> [])
  /\ (forall p, In p L -> is_leaf (snd3 p) = false -> g_tups g' <> [])
  /\ (forall p, In p L -> g_tups g' <> [] \/ incl (fst3 p) (g_strs g')).
Proof.
  induction L as [|p L IH]; intros g HL Hg; cbn [fold_left].
  - exists g. split; [reflexivity|]. split; [exact Hg|]. split; [intros x; split; [intros H; left; exact H|intros [H|(p & [] & _)]; exact H]|].
    split; [reflexivity|]. split; [apply incl_refl|]. split; [auto|]. split; intros p [].
  - inversion HL as [|? ? Hp HL']; subst. destruct (add_group_ok p g Hp Hg) as (g1 & -> & (A1 & A2 & A3 & A4 & A5 & A6 & A7)).
    destruct (IH g1 HL' A1) as (g' & -> & B1 & B2 & B3 & B4 & B5 & B6 & B7). exists g'. split; [reflexivity|]. split; [exact B1|]. split; [|split; [congruence|split; [eapply incl_tran; eassumption|split; [|split]]]].
    + intros x. rewrite (B2 x), (A2 x). split.
      * intros [[H|H]|(q & Hq & H)]; [left; exact H|right; exists p; split; [left; reflexivity|exact H]|right; exists q; split; [right; exact Hq|exact H]].
      * intros [H|(q & [<-|Hq] & H)]; [left; left; exact H|left; right; exact H|right; exists q; split; assumption].
    + intros H. apply B5, A5, H.
    + intros q [<-|Hq] Hl; [apply B5, A6, Hl|apply (B6 q Hq Hl)].
    + intros q [<-|Hq]; [destruct A7 as [A7|A7]; [left; apply B5, A7|right; eapply incl_tran; eassumption]|apply (B7 q Hq)].
Qed.

(** ** Nodes *)
Definition kids_of (cs : list (str * rtrie)) : list kid := map (fun p => match p with (k, n) => (k, n, to_tuple rv optimize n) end) cs.
Lemma to_tuple_eq e cs : to_tuple rv optimize (RTrie e cs) =
  match e, cs with
  | true, [] => Some []
  | false, [(k, n)] => match to_tuple rv optimize n with Some t => Some (combine_rv [PStr k] t) | None => None end
  | _, _ => match fold_left (fun g p => add_group rv optimize p g) (seen_nodes (kids_of cs)) (Some (e, [], [])) with
            | None => None
            | Some (false, [], [t]) => Some t
            | Some (false, [s], []) => None
            | Some (true, [], []) => None
            | Some (o, ss, ts) => Some [PSet o ss ts]
            end
  end.
Proof. destruct e; destruct cs as [|[k n] [|]]; reflexivity. Qed.

Definition tuple_ok (n : rtrie) : Prop := ok_rt n -> exists r, to_tuple rv optimize n = Some r /\ ok_tup r /\ eqv (lang_tup r) (lang_rt rv n).
Theorem to_tuple_ok : forall n, tuple_ok n.
Proof.
  refine (rtrie_ind' _ _). intros e cs IH Hok. apply ok_rt_eq in Hok. destruct Hok as (He & Hn & Hf).
  assert (Hkids : forall k n u, In (k, n, u) (kids_of cs) -> In (k, n) cs /\ k <> [] /\ ok_rt n /\ exists t, u = Some t /\ ok_tup t /\ eqv (lang_tup t) (lang_rt rv n)).
  { intros k n u H. apply in_map_iff in H. destruct H as ([k' n'] & [= -> -> <-] & Hin). rewrite Forall_forall in IH, Hf. specialize (Hf _ Hin). cbn [fst snd] in Hf. destruct Hf as [Hf1 Hf2].
    split; [exact Hin|]. split; [exact Hf1|]. split; [exact Hf2|]. destruct (IH _ Hin Hf2) as (r & H1 & H2 & H3). exists r. split; [exact H1|split; assumption]. }
  (* the general case *)
  assert (Hgen : ~ (e = true /\ cs = []) -> (e = false -> 2 <= length cs) ->
     exists r, match fold_left (fun g p => add_group rv optimize p g) (seen_nodes (kids_of cs)) (Some (e, [], [])) with
            | None => None
            | Some (false, [], [t]) => Some t
            | Some (false, [s], []) => None
            | Some (true, [], []) => None
            | Some (o, ss, ts) => Some [PSet o ss ts]
            end = Some r /\ ok_tup r /\ eqv (lang_tup r) (lang_rt rv (RTrie e cs))).
  { intros Hne Htwo. destruct (seen_nodes_ok (kids_of cs)) as [S1 S2].
    assert (Hgo : Forall group_ok (seen_nodes (kids_of cs))).
    { apply Forall_forall. intros [[ks m] u] Hin. destruct (S1 ks m u Hin) as (Ha & (k0 & Hb) & Hc). destruct (Hkids k0 m u Hb) as (_ & _ & Hm & Ht). split; [exact Ha|]. split; [|split; [exact Hm|exact Ht]].
      apply Forall_forall. intros k Hk. destruct (Hc k Hk) as (n & t & Hd & _). apply (Hkids k n t Hd). }
    destruct (fold_groups_ok (seen_nodes (kids_of cs)) (e, [], []) Hgo) as (g & Eg & G1 & G2 & G3 & _ & _ & G6 & G7); [split; constructor|].
    match goal with |- context [match ?x with Some _ => _ | None => _ end] => replace x with (Some g) by (symmetry; exact Eg) end.
    assert (Hlang : eqv (glang g) (lang_rt rv (RTrie e cs))).
    { intros x. rewrite (G2 x). unfold glang. rewrite lang_set, lang_rt_eq. split.
      - intros [[H|[[]|(u & [] & _)]]|([[ks m] u] & Hp & k & Hk & x' & -> & Hx)]; [left; exact H|]. right. cbn [fst3 snd3 fst snd] in *. destruct (S1 ks m u Hp) as (_ & _ & Hc).
        destruct (Hc k Hk) as (n & t & Hd & Hs & _). exists k, n. split; [apply (Hkids k n t Hd)|]. exists x'. split; [reflexivity|]. apply Hs. exact Hx.
      - intros [H|(k & n & Hin & x' & -> & Hx)]; [left; left; exact H|]. right.
        assert (Hd : In (k, n, to_tuple rv optimize n) (kids_of cs)) by (apply in_map_iff; exists (k, n); split; [reflexivity|exact Hin]).
        destruct (S2 _ _ _ Hd) as (ks & m & u & Hp & Hk & Hs & _). exists (ks, m, u). split; [exact Hp|]. exists k. split; [exact Hk|]. exists x'. split; [reflexivity|]. apply Hs. exact Hx. }
    destruct g as [[o ss] ts]. cbn [fst] in G3. subst o. destruct G1 as [G1a G1b]. unfold g_strs, g_tups in *. cbn [fst snd] in *.
    assert (Hcs : cs <> []) by (destruct e; [intros ->; apply Hne; split; reflexivity|destruct cs; [cbn in Htwo; specialize (Htwo eq_refl); lia|discriminate]]).
    assert (Hsome : ss <> [] \/ ts <> []).
    { destruct cs as [|[k n] cs']; [congruence|]. assert (Hd : In (k, n, to_tuple rv optimize n) (kids_of ((k, n) :: cs'))) by (left; reflexivity).
      destruct (S2 _ _ _ Hd) as (ks & m & u & Hp & Hk & _). destruct (G7 _ Hp) as [H|H]; [right; exact H|left]. specialize (H k Hk). destruct ss; [destruct H|discriminate]. }
    assert (Hmany : e = false -> ts <> [] \/ 2 <= length ss).
    { intros ->. specialize (Htwo eq_refl). destruct (existsb (fun p => negb (is_leaf (snd p))) cs) eqn:El.
      - left. apply existsb_exists in El. destruct El as ([k n] & Hin & El). cbn [snd] in El. apply negb_true_iff in El.
        assert (Hd : In (k, n, to_tuple rv optimize n) (kids_of cs)) by (apply in_map_iff; exists (k, n); split; [reflexivity|exact Hin]).
        destruct (S2 _ _ _ Hd) as (ks & m & u & Hp & _ & _ & Hl). apply (G6 _ Hp). cbn [snd3 fst snd]. rewrite Hl. exact El.
      - assert (Hall : seen_nodes (kids_of cs) = [(map fst cs, RTrie true [], Some [])]).
        { replace (map fst cs) with (map fst3 (kids_of cs)) by (unfold kids_of; rewrite map_map; apply map_ext; intros [k n]; reflexivity).
          apply all_leaf; [unfold kids_of; destruct cs; [congruence|discriminate]|]. apply Forall_forall. intros [[k n] u] Hin. destruct (Hkids k n u Hin) as (Hin2 & _ & Hm & _).
          cbn [fst3 fst]. apply in_map_iff in Hin. destruct Hin as ([k' n'] & [= -> -> <-] & _).
          assert (Hl : is_leaf n = true). { destruct (is_leaf n) eqn:E; [reflexivity|]. rewrite <- El. apply existsb_exists. exists (k, n). split; [exact Hin2|]. cbn [snd]. rewrite E. reflexivity. }
          rewrite (leaf_eq n Hm Hl). reflexivity. }
        destruct (G7 (map fst cs, RTrie true [], Some [])) as [H|H]; [rewrite Hall; left; reflexivity|left; exact H|right]. cbn [fst3 fst] in H.
        rewrite <- (map_length fst) in Htwo. apply (Nat.le_trans _ _ _ Htwo). apply (NoDup_incl_length Hn H). }
    assert (Hpset : exists r, Some [PSet e ss ts] = Some r /\ ok_tup r /\ eqv (lang_tup r) (lang_rt rv (RTrie e cs))).
    { eexists. split; [reflexivity|]. split; [constructor; [apply ok_set; split; [exact Hsome|split; assumption]|constructor]|]. intros x. unfold lang_tup. cbn [map]. rewrite (seqP_one _ x). apply (Hlang x). }
    destruct e.
    - destruct ss as [|s ss]; [destruct ts as [|t ts]; [destruct Hsome; congruence|exact Hpset]|exact Hpset].
    - specialize (Hmany eq_refl). destruct ss as [|s [|s2 ss]].
      + destruct ts as [|t [|t2 ts]]; [destruct Hsome; congruence| |exact Hpset]. exists t. split; [reflexivity|]. inversion G1b; subst. split; [assumption|]. intros x. rewrite <- (Hlang x). unfold glang. rewrite lang_set.
        split; [intros H; right; right; exists t; split; [left; reflexivity|exact H]|intros [[H _]|[[]|(v & [<-|[]] & H)]]; [discriminate|exact H]].
      + destruct ts as [|t ts]; [destruct Hmany as [H|H]; [congruence|cbn in H; lia]|exact Hpset].
      + exact Hpset. }
  rewrite to_tuple_eq. destruct e.
  - destruct cs as [|p cs]; [|apply Hgen; [intros [_ H]; discriminate|discriminate]].
    exists []. split; [reflexivity|]. split; [constructor|]. intros x. unfold lang_tup, nil_lang. cbn [map seqP]. rewrite lang_rt_eq. unfold nil_lang.
    split; [intros H; left; split; [reflexivity|exact H]|intros [[_ H]|(k & n & [] & _)]; exact H].
  - destruct cs as [|[k n] [|p cs]]; [destruct He; congruence| |apply Hgen; [intros [H _]; discriminate|intros _; cbn; lia]].
    inversion IH as [|? ? IH1 _]; subst. inversion Hf as [|? ? [Hf1 Hf2] _]; subst. cbn [fst snd] in *. destruct (IH1 Hf2) as (t & -> & Ht & Htl). eexists. split; [reflexivity|].
    split; [apply combine_ok; [repeat constructor; exact Hf1|exact Ht]|]. intros x. rewrite (combine_lang [PStr k] t [k] n (str_lang k) Htl x), lang_rt_eq. split.
    + intros (k' & [<-|[]] & x' & -> & Hx). right. exists k, n. split; [left; reflexivity|]. exists x'. split; [reflexivity|exact Hx].
    + intros [[H _]|(k' & n' & [[= <- <-]|[]] & x' & -> & Hx)]; [discriminate|]. exists k. split; [left; reflexivity|]. exists x'. split; [reflexivity|exact Hx].
Qed.
End Groups.

Theorem rev_tuple_ok ks : ks <> [] -> exists r, rev_tuple ks = Some r /\ ok_tup r /\ eqv (lang_tup r) (fun x => In x ks).
Proof.
  intros H. destruct (make_trie_ok ks true H) as [H1 H2]. destruct (to_tuple_ok true (fun _ => None) ltac:(discriminate) (make_trie ks true) H1) as (r & E & Hr & Hl).
  exists r. split; [exact E|]. split; [exact Hr|]. intros x. rewrite (Hl x). apply H2.
Qed.
Theorem trie_tuple_ok words : words <> [] -> exists r, trie_tuple (make_trie words false) = Some r /\ ok_tup r /\ eqv (lang_tup r) (fun x => In x words).
Proof.
  intros H. destruct (make_trie_ok words false H) as [H1 H2]. destruct (to_tuple_ok false rev_tuple (fun _ => rev_tuple_ok) (make_trie words false) H1) as (r & E & Hr & Hl).
  exists r. split; [exact E|]. split; [exact Hr|]. intros x. rewrite (Hl x). apply H2.
Qed.
