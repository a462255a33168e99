(** What is found in the rules of a language. *)
From Verif Require Import Base BaseFacts RuleValues RuleItemModel RuleItemSpec RuleVariationSpec RuleItemProofs RuleItemRuleProofs RuleVariationProofs RuleTreeModel RuleTreeSpec RuleTreeProofs RuleTreeListProofs.
From Coq Require Import ZArith ZifyBool Sorting.Sorted.

(** Entries that are results. *)
Definition worth (x : vobj) : Prop := match x with VObj (OAtom _) | ANumber | AString => True | _ => False end.
Definition within (t : option (list vt)) (l : option (list vobj)) : Prop :=
  match t, l with Some ts, Some ls => forall p x, walk ts p -> In x p -> worth x -> In x ls | None, None => True | _, _ => False end.
Lemma within_none t l : within t l -> (t = None <-> l = None).
Proof. destruct t, l; cbn; try contradiction; intros _; split; intros; try discriminate; reflexivity. Qed.
Lemma within_sum o (bs : list (option (list vt))) (ls : list (option (list vobj))) : ~ worth (VObj o) -> Forall2 within bs ls -> within (tbranch o bs) (fold_right oapp (Some []) ls).
Proof.
  intros Ho H. destruct bs as [|b bs].
  - inversion H; subst. cbn. intros p x Hp Hx Hw. apply walk_entry in Hp. subst p. destruct Hx as [<-|[]]. contradiction.
  - pose proof (tbranch_cases o (b :: bs) ltac:(discriminate)) as H1. set (bb := b :: bs) in *. clearbody bb. pose proof (oapp_cases ls) as H2.
    assert (HN : In None bb <-> In None ls).
    { clear H1 H2. induction H as [|x y l l' Hxy _ IH]; [reflexivity|]. cbn [In]. apply within_none in Hxy. rewrite Hxy, IH. reflexivity. }
    assert (HS : forall t, In (Some t) bb -> exists l, In (Some l) ls /\ within (Some t) (Some l)).
    { clear H1 H2 HN. induction H as [|x y l l' Hxy _ IH]; [intros t []|]. intros t [->|Ht]; [destruct y as [y|]; [|contradiction]; exists y; split; [left; reflexivity|exact Hxy]|]. destruct (IH t Ht) as (r & Hr & Hw). exists r. split; [right; exact Hr|exact Hw]. }
    destruct (tbranch o bb) as [ts|], (fold_right oapp (Some []) ls) as [r|]; cbn [within]; [|apply (proj1 H1); apply HN; exact H2|apply (proj1 H2); apply HN; exact H1|exact I].
    intros p x Hp Hx Hw. apply (proj2 H1) in Hp. destruct Hp as (t & Ht & Hp). destruct (HS t Ht) as (l & Hl & Hwl). apply (proj2 H2). exists l. split; [exact Hl|]. eapply Hwl; eassumption.
Qed.
Lemma within_seq (f : obj -> option (list vt)) (g : obj -> option (list vobj)) l : Forall (fun o => within (f o) (g o)) l -> within (fold_right oapp (Some []) (map f l)) (fold_right oapp (Some []) (map g l)).
Proof.
  induction 1 as [|o l Ho _ IH]; cbn [map fold_right]; [intros p x Hp Hx; inversion Hp; subst; destruct Hx|].
  destruct (f o) as [t|], (g o) as [v|]; cbn in Ho; try contradiction; [|exact I]. destruct (fold_right oapp (Some []) (map f l)) as [ts|], (fold_right oapp (Some []) (map g l)) as [vs|]; cbn in IH; try contradiction; cbn [oapp]; [|exact I].
  intros p x Hp Hx Hw. apply walk_app in Hp. destruct Hp as (q & r & -> & Hq & Hr). apply in_app_iff in Hx. apply in_app_iff. destruct Hx as [Hx|Hx]; [left; eapply Ho; eassumption|right; eapply IH; eassumption].
Qed.
Lemma within_one o b l : ~ worth (VObj o) -> within b l -> within (tbranch o [b]) l.
Proof. intros Ho H. destruct b as [t|], l as [w|]; cbn; cbn in H; try contradiction; [|trivial]. intros p x Hp. apply (proj1 (walk_tup _ _)) in Hp. eapply H; exact Hp. Qed.
Lemma within_entry v : within (Some [TEntry v]) (Some [v]).
Proof. intros p x Hp Hx _. apply walk_entry in Hp. subst p. exact Hx. Qed.
Lemma map_within l : Forall (fun o => within (titems o) (leaves o)) l -> Forall2 within (map titems l) (map leaves l).
Proof. induction 1; cbn [map]; constructor; assumption. Qed.

Theorem tree_within : forall o, within (titems o) (leaves o).
Proof.
  refine (obj_ind' _ _ _ _ _ _ _ _ _ _ _); try (intros; exact I).
  - intros a. apply within_entry.
  - intros l Hl. cbn [titems leaves]. apply within_seq. exact Hl.
  - intros p l _ Hl. cbn [titems leaves]. apply within_sum; [intros []|apply map_within; exact Hl].
  - intros value l _ Hl.
    assert (Hgen : within (tbranch (OTarget value l) (Some [TEntry ANumber] :: map titems l)) (oapp (Some [ANumber]) (fold_right oapp (Some []) (map leaves l)))).
    { change (oapp (Some [ANumber]) (fold_right oapp (Some []) (map leaves l))) with (fold_right oapp (Some []) (Some [ANumber] :: map leaves l)). apply (within_sum (OTarget value l) (Some [TEntry ANumber] :: map titems l) (Some [ANumber] :: map leaves l)); [intros []|]. constructor; [apply within_entry|apply map_within; exact Hl]. }
    cbn [titems leaves]. destruct value as [a|vl| | | | | | | |]; try exact Hgen.
    + destruct (as_int a); [|exact I]. apply within_one; [intros []|apply within_entry].
    + destruct vl as [|[a| | | | | | | | |] [|arg [|? ?]]]; try exact I. destruct (as_int a) as [i|]; [|exact I]. rewrite !py_get_map. destruct (py_get l i) as [x|] eqn:Eg; cbn [option_map]; [|exact I]. apply within_one; [intros []|]. apply py_get_in in Eg. rewrite Forall_forall in Hl. auto.
  - intros v Hv. cbn [titems leaves]. destruct (is_item v); [|apply within_one; [intros []|exact Hv]].
    apply (within_sum (OPattern v) [Some [TEntry (VObj (OAtom ANone))]; Some [TEntry AString]] [Some [VObj (OAtom ANone)]; Some [AString]]); [intros []|]. constructor; [apply within_entry|]. constructor; [apply within_entry|constructor].
  - intros l Hl. cbn [titems leaves]. apply within_sum; [intros []|apply map_within; exact Hl].
  - intros v Hv. cbn [titems leaves]. apply within_one; [intros []|exact Hv].
  - cbn. intros p x Hp Hx Hw. apply walk_entry in Hp. subst p. destruct Hx as [<-|[]]. contradiction.
Qed.

(** Nothing is found that is not written. *)
Lemma fold_or (a : atom) l : fold_right (fun o P => mentions a o \/ P) False l <-> exists o, In o l /\ mentions a o.
Proof.
  induction l as [|o l IH]; cbn [fold_right In]; [split; [intros []|intros (o & [] & _)]|]. rewrite IH. split.
  - intros [H|(x & Hx & H)]; [exists o; auto|exists x; auto].
  - intros (x & [<-|Hx] & H); [left; exact H|right; eauto].
Qed.
Lemma leaves_mention : forall o a ls, leaves o = Some ls -> In (VObj (OAtom a)) ls -> mentions a o.
Proof.
  assert (Hseq : forall l a ls, Forall (fun o => forall a ls, leaves o = Some ls -> In (VObj (OAtom a)) ls -> mentions a o) l -> fold_right oapp (Some []) (map leaves l) = Some ls -> In (VObj (OAtom a)) ls -> fold_right (fun o P => mentions a o \/ P) False l).
  { intros l a ls Hl E Hin. pose proof (oapp_cases (map leaves l)) as H. rewrite E in H. apply (proj2 H) in Hin. destruct Hin as (b & Hb & Hin). apply in_map_iff in Hb. destruct Hb as (o & Eo & Ho). rewrite Forall_forall in Hl. apply fold_or. exists o. split; [exact Ho|]. eapply Hl; eassumption. }
  refine (obj_ind' _ _ _ _ _ _ _ _ _ _ _); try (intros; discriminate).
  - intros b a ls [= <-] [[= ->]|[]]. reflexivity.
  - intros l Hl a ls E Hin. eapply Hseq; eassumption.
  - intros p l _ Hl a ls E Hin. eapply Hseq; eassumption.
  - intros value l _ Hl a ls E Hin. cbn [leaves mentions] in *.
    assert (Hgen : oapp (Some [ANumber]) (fold_right oapp (Some []) (map leaves l)) = Some ls -> mentions a value \/ fold_right (fun o P => mentions a o \/ P) False l).
    { destruct (fold_right oapp (Some []) (map leaves l)) as [r|] eqn:Er; [|discriminate]. cbn [oapp]. intros [= <-]. right. destruct Hin as [Hin|Hin]; [discriminate|]. eapply Hseq; eassumption. }
    destruct value as [b|vl| | | | | | | |]; try (apply Hgen; exact E).
    + destruct (as_int b); [|discriminate]. injection E as <-. destruct Hin as [[= ->]|[]]. left. reflexivity.
    + right. destruct vl as [|[b| | | | | | | | |] [|arg [|? ?]]]; try discriminate. destruct (as_int b) as [i|]; [|discriminate]. rewrite py_get_map in E. destruct (py_get l i) as [x|] eqn:Eg; [|discriminate]. cbn [option_map] in E. apply py_get_in in Eg. apply fold_or. exists x. split; [exact Eg|]. rewrite Forall_forall in Hl. eapply Hl; eassumption.
  - intros v Hv a ls E Hin. cbn [leaves mentions] in *. destruct (is_item v); [injection E as <-; destruct Hin as [[= <-]|[Hin|[]]]; [right; reflexivity|discriminate]|]. left. eapply Hv; eassumption.
  - intros l Hl a ls E Hin. eapply Hseq; eassumption.
  - intros v Hv a ls E Hin. eapply Hv; eassumption.
  - intros a ls [= <-] [].
Qed.

(** The names of the lexicons. *)
Lemma insert_in x l : forall y, In y (insert x l) <-> y = x \/ In y l.
Proof.
  induction l as [|z l IH]; intros y; cbn [insert]; [cbn; split; [intros [->|[]]; auto|intros [->|[]]; auto]|].
  destruct (x <? z) eqn:E1; [cbn [In]; split; intros [H|H]; auto|]. destruct (x =? z) eqn:E2.
  - apply Nat.eqb_eq in E2. subst z. cbn [In]. split; [auto|intros [->|H]; auto].
  - cbn [In]. rewrite IH. split; [intros [H|[H|H]]; auto|intros [H|[H|H]]; auto].
Qed.
Lemma insert_sorted x l : StronglySorted lt l -> StronglySorted lt (insert x l).
Proof.
  induction 1 as [|y l Hs IH Hall]; cbn [insert]; [repeat constructor|]. destruct (x <? y) eqn:E1.
  - apply Nat.ltb_lt in E1. constructor; [constructor; assumption|]. constructor; [exact E1|]. rewrite Forall_forall in *. intros z Hz. specialize (Hall z Hz). lia.
  - apply Nat.ltb_ge in E1. destruct (x =? y) eqn:E2; [constructor; assumption|]. apply Nat.eqb_neq in E2. constructor; [exact IH|]. rewrite Forall_forall in *. intros z Hz. apply insert_in in Hz. destruct Hz as [->|Hz]; [lia|auto].
Qed.
Lemma sorted_set_ok l : StronglySorted lt (sorted_set l) /\ forall x, In x (sorted_set l) <-> In x l.
Proof.
  induction l as [|y l [H1 H2]]; [split; [constructor|reflexivity]|]. change (sorted_set (y :: l)) with (insert y (sorted_set l)). split; [apply insert_sorted; exact H1|]. intros x. rewrite insert_in, H2. cbn [In]. split; intros [H|H]; auto.
Qed.
Lemma own_in c name a : NoDup (map fst c) -> (own c name = Some a <-> In (name, a) c).
Proof.
  unfold own. induction c as [|[n b] c IH]; intros Hn; cbn [find fst map] in *; [split; [discriminate|intros []]|]. inversion Hn as [|? ? H1 H2]; subst. destruct (n =? name) eqn:E.
  - apply Nat.eqb_eq in E. subst n. split; [intros [= ->]; left; reflexivity|]. intros [[= ->]|H]; [reflexivity|]. exfalso. apply H1. apply (in_map fst) in H. exact H.
  - apply Nat.eqb_neq in E. rewrite IH by exact H2. cbn [In]. split; [auto|]. intros [[= H3 _]|H]; [contradiction|exact H].
Qed.
Lemma names_in mro name : Forall (fun c => NoDup (map fst c)) mro ->
  (In name (lexicon_names mro) <-> exists c rules, In c mro /\ own c name = Some (ALexicon rules)).
Proof.
  intros Hd. rewrite Forall_forall in Hd. unfold lexicon_names. rewrite (proj2 (sorted_set_ok _)), in_flat_map. split.
  - intros (c & Hc & H). apply in_map_iff in H. destruct H as ((n & a) & <- & H). apply filter_In in H. destruct H as [H1 H2]. cbn in H2. destruct a as [rules|]; [|discriminate]. exists c, rules. split; [exact Hc|]. apply own_in; [apply Hd; exact Hc|exact H1].
  - intros (c & rules & Hc & E). exists c. split; [exact Hc|]. apply own_in in E; [|apply Hd; exact Hc]. apply in_map_iff. exists (name, ALexicon rules). split; [reflexivity|]. apply filter_In. split; [exact E|reflexivity].
Qed.
Lemma get_attr_some mro rest c name a : In c mro -> own c name = Some a -> exists b, get_attr (mro ++ rest) name = Some b.
Proof.
  induction mro as [|d mro IH]; intros Hc E; [destruct Hc|]. cbn [app get_attr]. destruct (own d name) as [b|] eqn:Ed; [eauto|]. destruct Hc as [->|Hc]; [congruence|]. eauto.
Qed.
Lemma lexicons_ok mro rest : Forall (fun c => NoDup (map fst c)) mro ->
  exists ls, lexicons mro rest = Some ls /\ StronglySorted lt (map fst ls)
    /\ forall name a, In (name, a) ls <-> get_attr (mro ++ rest) name = Some a /\ exists c rules, In c mro /\ own c name = Some (ALexicon rules).
Proof.
  intros Hd. unfold lexicons.
  assert (Hs : forall name, In name (lexicon_names mro) -> exists b, get_attr (mro ++ rest) name = Some b).
  { intros name H. apply names_in in H; [|exact Hd]. destruct H as (c & rules & Hc & E). eapply get_attr_some; eassumption. }
  assert (Hm : exists ls, omap (fun name => match get_attr (mro ++ rest) name with Some a => Some (name, a) | None => None end) (lexicon_names mro) = Some ls
    /\ map fst ls = lexicon_names mro /\ forall name a, In (name, a) ls <-> In name (lexicon_names mro) /\ get_attr (mro ++ rest) name = Some a).
  { revert Hs. generalize (lexicon_names mro). induction l as [|n l IH]; intros Hs; [exists []; repeat split; try contradiction; intros [[] _]|]. destruct (Hs n (or_introl eq_refl)) as [b Eb]. destruct IH as (ls & E & E2 & H); [intros m Hm; apply Hs; right; exact Hm|].
    exists ((n, b) :: ls). rewrite omap_cons, Eb, E. split; [reflexivity|]. split; [cbn [map fst]; rewrite E2; reflexivity|]. intros name a. cbn [In]. rewrite H. split.
    - intros [[= <- <-]|[H1 H2]]; [auto|auto].
    - intros [[<-|H1] H2]; [left; congruence|right; auto]. }
  destruct Hm as (ls & E & E2 & H). exists ls. split; [exact E|]. split; [rewrite E2; apply sorted_set_ok|]. intros name a. rewrite H, (names_in mro name Hd). split; intros [H1 H2]; split; assumption.
Qed.
