(** Sets of words, and the words of tries and tuples made by parce/regex.py. *)
From Verif Require Import Base BaseFacts RegexModel RegexSpec.
From Coq Require Import ZifyBool Permutation.

Definition lang := str -> Prop.
Definition eqv (P Q : lang) : Prop := forall t, P t <-> Q t.
Definition cat (P Q : lang) : lang := fun t => exists a b, t = a ++ b /\ P a /\ Q b.
Definition nil_lang : lang := fun t => t = [].
Definition word (w : str) : lang := fun t => t = w.
Fixpoint seqP (l : list lang) : lang := match l with [] => nil_lang | P :: l => cat P (seqP l) end.

Lemma eqv_refl P : eqv P P. Proof. intros t. reflexivity. Qed.
Lemma eqv_sym P Q : eqv P Q -> eqv Q P. Proof. intros H t. symmetry. apply H. Qed.
Lemma eqv_trans P Q R : eqv P Q -> eqv Q R -> eqv P R. Proof. intros H H' t. rewrite (H t). apply H'. Qed.
Lemma cat_eqv P P' Q Q' : eqv P P' -> eqv Q Q' -> eqv (cat P Q) (cat P' Q').
Proof. intros H H' t. split; intros (a & b & -> & Ha & Hb); exists a, b; (split; [reflexivity|split; [apply H|apply H']; assumption]). Qed.
Lemma cat_nil_l P : eqv (cat nil_lang P) P.
Proof. intros t. split; [intros (a & b & -> & -> & Hb); exact Hb|intros H; exists [], t; repeat split; assumption]. Qed.
Lemma cat_nil_r P : eqv (cat P nil_lang) P.
Proof. intros t. split; [intros (a & b & -> & Ha & ->); rewrite app_nil_r; exact Ha|intros H; exists t, []; rewrite app_nil_r; repeat split; assumption]. Qed.
Lemma cat_assoc P Q R : eqv (cat (cat P Q) R) (cat P (cat Q R)).
Proof.
  intros t. split.
  - intros (a & b & -> & (c & d & -> & Hc & Hd) & Hb). exists c, (d ++ b). rewrite app_assoc. repeat split; [assumption|]. exists d, b. repeat split; assumption.
  - intros (a & b & -> & Ha & (c & d & -> & Hc & Hd)). exists (a ++ c), d. rewrite app_assoc. repeat split; [|assumption]. exists a, c. repeat split; assumption.
Qed.
Lemma seqP_app l l' : eqv (seqP (l ++ l')) (cat (seqP l) (seqP l')).
Proof.
  induction l as [|P l IH]; cbn [seqP app].
  - apply eqv_sym, cat_nil_l.
  - eapply eqv_trans; [apply cat_eqv; [apply eqv_refl|exact IH]|]. apply eqv_sym, cat_assoc.
Qed.
Lemma seqP_one P : eqv (seqP [P]) P.
Proof. cbn [seqP]. apply cat_nil_r. Qed.
Lemma seqP_eqv l l' : Forall2 eqv l l' -> eqv (seqP l) (seqP l').
Proof. induction 1 as [|P Q l l' H _ IH]; [apply eqv_refl|]. cbn [seqP]. apply cat_eqv; assumption. Qed.
Lemma seqP_map_eqv {A} (f g : A -> lang) (l : list A) : Forall (fun x => eqv (f x) (g x)) l -> eqv (seqP (map f l)) (seqP (map g l)).
Proof. intros H. apply seqP_eqv. induction H; cbn [map]; constructor; assumption. Qed.

(** ** Repetition *)
Lemma times_eqv P Q k : eqv P Q -> eqv (times P k) (times Q k).
Proof.
  intros H. induction k as [|k IH]; [apply eqv_refl|]. cbn [times]. apply (cat_eqv P Q (times P k) (times Q k)); assumption.
Qed.
Lemma times_add P a b : eqv (times P (a + b)) (cat (times P a) (times P b)).
Proof.
  induction a as [|a IH]; cbn [Nat.add times].
  - apply eqv_sym. apply cat_nil_l.
  - eapply eqv_trans; [apply (cat_eqv P P _ _ (eqv_refl P) IH)|]. apply eqv_sym. apply (cat_assoc P (times P a) (times P b)).
Qed.
Definition rep (P : lang) (lo hi : nat) : lang := fun t => exists k, lo <= k <= hi /\ times P k t.
Lemma rep_eqv P Q lo hi : eqv P Q -> eqv (rep P lo hi) (rep Q lo hi).
Proof. intros H t. split; intros (k & Hk & Ht); exists k; (split; [exact Hk|]); eapply times_eqv; try eassumption. apply eqv_sym. exact H. Qed.
Lemma rep_one P : eqv (rep P 1 1) P.
Proof.
  intros t. split.
  - intros (k & Hk & Ht). replace k with 1 in Ht by lia. cbn [times] in Ht. destruct Ht as (a & b & -> & Ha & ->). rewrite app_nil_r. exact Ha.
  - intros H. exists 1. split; [lia|]. cbn [times]. exists t, []. rewrite app_nil_r. repeat split; assumption.
Qed.
Lemma rep_cat P lo hi lo' hi' : lo <= hi -> lo' <= hi' -> eqv (cat (rep P lo hi) (rep P lo' hi')) (rep P (lo + lo') (hi + hi')).
Proof.
  intros H H' t. split.
  - intros (a & b & -> & (k & Hk & Ha) & (k' & Hk' & Hb)). exists (k + k'). split; [lia|]. apply times_add. exists a, b. repeat split; assumption.
  - intros (k & Hk & Ht). set (k1 := Nat.min hi (k - lo')). replace k with (k1 + (k - k1)) in Ht by (unfold k1; lia).
    apply times_add in Ht. destruct Ht as (a & b & -> & Ha & Hb). exists a, b. split; [reflexivity|]. split; [exists k1|exists (k - k1)]; (split; [unfold k1; lia|assumption]).
Qed.
Lemma rep_optional P lo hi : lo <= 1 -> 1 <= hi -> eqv (fun t => t = [] \/ rep P lo hi t) (rep P 0 hi).
Proof.
  intros H H' t. split.
  - intros [->|(k & Hk & Ht)]; [exists 0; split; [lia|reflexivity]|exists k; split; [lia|exact Ht]].
  - intros (k & Hk & Ht). destruct k as [|k]; [left; exact Ht|]. right. exists (S k). split; [lia|exact Ht].
Qed.

(** ** Tuples *)
Lemma part_ind' (P : part -> Prop) :
  (forall s, P (PStr s)) -> (forall o ss ts, Forall (Forall P) ts -> P (PSet o ss ts)) -> forall p, P p.
Proof.
  intros H1 H2. fix IH 1. intros [s|o ss ts]; [apply H1|]. apply H2.
  induction ts as [|u ts IHts]; constructor; [|exact IHts]. induction u as [|p u IHu]; constructor; [apply IH|exact IHu].
Qed.

Fixpoint lang_part (p : part) (t : str) {struct p} : Prop :=
  match p with
  | PStr s => t = s
  | PSet o ss ts => (o = true /\ t = []) \/ In t ss \/ fold_right (fun u Q => seqP (map lang_part u) t \/ Q) False ts
  end.
Definition lang_tup (r : tuple) : lang := seqP (map lang_part r).
Lemma lang_set o ss ts t : lang_part (PSet o ss ts) t <-> (o = true /\ t = []) \/ In t ss \/ exists u, In u ts /\ lang_tup u t.
Proof.
  cbn [lang_part]. assert (H : fold_right (fun u Q => seqP (map lang_part u) t \/ Q) False ts <-> exists u, In u ts /\ lang_tup u t); [|rewrite H; reflexivity].
  induction ts as [|u ts IH]; cbn [fold_right In]; [split; [tauto|intros (u & [] & _)]|]. rewrite IH. split.
  - intros [H|(v & Hv & H)]; [exists u; split; [left; reflexivity|exact H]|exists v; split; [right; exact Hv|exact H]].
  - intros (v & [<-|Hv] & H); [left; exact H|right; exists v; split; assumption].
Qed.
Lemma lang_tup_app r r' : eqv (lang_tup (r ++ r')) (cat (lang_tup r) (lang_tup r')).
Proof. unfold lang_tup. rewrite map_app. apply seqP_app. Qed.

(** Parts with strings that are not empty, and sets with members. *)
Fixpoint ok_part (p : part) : Prop :=
  match p with
  | PStr s => s <> []
  | PSet o ss ts => (ss <> [] \/ ts <> []) /\ Forall (fun s => s <> []) ss
                    /\ fold_right (fun u Q => fold_right (fun p Q => ok_part p /\ Q) True u /\ Q) True ts
  end.
Definition ok_tup (r : tuple) : Prop := Forall ok_part r.
Lemma ok_fold {A} (P : A -> Prop) l : fold_right (fun x Q => P x /\ Q) True l <-> Forall P l.
Proof. induction l as [|x l IH]; cbn [fold_right]; [split; constructor|]. rewrite IH. split; [intros [H1 H2]; constructor; assumption|intros H; inversion H; split; assumption]. Qed.
Lemma ok_set o ss ts : ok_part (PSet o ss ts) <-> (ss <> [] \/ ts <> []) /\ Forall (fun s => s <> []) ss /\ Forall ok_tup ts.
Proof.
  cbn [ok_part]. assert (H : fold_right (fun u Q => fold_right (fun p Q => ok_part p /\ Q) True u /\ Q) True ts <-> Forall ok_tup ts); [|rewrite H; reflexivity].
  rewrite (ok_fold (fun u => fold_right (fun p Q => ok_part p /\ Q) True u) ts). split; intros H; eapply Forall_impl; try exact H; intros u Hu.
  - apply ok_fold. exact Hu.
  - apply (ok_fold ok_part u). exact Hu.
Qed.

(** Equal tuples have the same words. *)
Lemma str_eqb_eq a b : str_eqb a b = true <-> a = b.
Proof.
  unfold str_eqb. revert b. induction a as [|x a IH]; intros [|y b]; cbn [list_eqb]; try (split; [discriminate|discriminate]); [split; reflexivity|].
  rewrite andb_true_iff, IH, Nat.eqb_eq. split; [intros [-> ->]; reflexivity|intros [= -> ->]; split; reflexivity].
Qed.
Lemma set_incl ss ss' : forallb (fun s => existsb (str_eqb s) ss') ss = true -> incl ss ss'.
Proof.
  intros H s Hs. rewrite forallb_forall in H. specialize (H s Hs). apply existsb_exists in H. destruct H as (s' & H1 & H2). apply str_eqb_eq in H2. subst. exact H1.
Qed.
Lemma part_eqb_set o ss ts o' ss' ts' : part_eqb (PSet o ss ts) (PSet o' ss' ts') =
  Bool.eqb o o' && forallb (fun s => existsb (str_eqb s) ss') ss && forallb (fun s => existsb (str_eqb s) ss) ss'
      && forallb (fun u => existsb (tup_eqb u) ts') ts && forallb (fun v => existsb (fun u => tup_eqb u v) ts) ts'.
Proof. reflexivity. Qed.
Lemma tups_sound ts ts' (H : Forall (fun u => forall v, tup_eqb u v = true -> eqv (lang_tup u) (lang_tup v)) ts) :
  forallb (fun u => existsb (tup_eqb u) ts') ts = true -> forallb (fun v => existsb (fun u => tup_eqb u v) ts) ts' = true ->
  forall t, (exists u, In u ts /\ lang_tup u t) <-> (exists v, In v ts' /\ lang_tup v t).
Proof.
  intros H1 H2 t. rewrite forallb_forall in H1, H2. rewrite Forall_forall in H. split.
  - intros (u & Hu & Ht). specialize (H1 u Hu). apply existsb_exists in H1. destruct H1 as (v & Hv & E). exists v. split; [exact Hv|]. apply (H u Hu v E). exact Ht.
  - intros (v & Hv & Ht). specialize (H2 v Hv). apply existsb_exists in H2. destruct H2 as (u & Hu & E). exists u. split; [exact Hu|]. apply (H u Hu v E). exact Ht.
Qed.
Lemma part_eqb_sound : forall a b, part_eqb a b = true -> eqv (lang_part a) (lang_part b).
Proof.
  refine (part_ind' _ _ _).
  - intros s [t|]; [|discriminate]. cbn [part_eqb]. intros E. apply str_eqb_eq in E. subst. apply eqv_refl.
  - intros o ss ts IH [t|o' ss' ts']; [discriminate|]. rewrite part_eqb_set, !andb_true_iff. intros ((((E1 & E2) & E3) & E4) & E5).
    apply Bool.eqb_prop in E1. subst o'. apply set_incl in E2. apply set_incl in E3.
    assert (Hts : Forall (fun u => forall v, tup_eqb u v = true -> eqv (lang_tup u) (lang_tup v)) ts).
    { eapply Forall_impl; [|exact IH]. intros u Hu. induction Hu as [|x u Hx Hu IHu]; intros [|y v]; cbn [tup_eqb]; try discriminate.
      - intros _. apply eqv_refl.
      - rewrite andb_true_iff. intros [H1 H2]. unfold lang_tup. cbn [map seqP]. apply cat_eqv; [apply Hx; exact H1|apply IHu; exact H2]. }
    intros t. rewrite !lang_set, (tups_sound ts ts' Hts E4 E5 t).
    assert (Hs : In t ss <-> In t ss') by (split; [apply E2|apply E3]). rewrite Hs. reflexivity.
Qed.
Lemma tup_eqb_sound u v : tup_eqb u v = true -> eqv (lang_tup u) (lang_tup v).
Proof.
  revert v. induction u as [|x u IH]; intros [|y v]; cbn [tup_eqb]; try discriminate; [intros _; apply eqv_refl|].
  rewrite andb_true_iff. intros [H1 H2]. unfold lang_tup. cbn [map seqP]. apply cat_eqv; [apply part_eqb_sound; exact H1|apply IH; exact H2].
Qed.

(** ** Tries *)
Definition glue (rv : bool) (k t : str) : str := if rv then t ++ k else k ++ t.
Definition ori (rv : bool) (t : str) : str := if rv then rev t else t.

Lemma trie_ind' (P : trie -> Prop) : (forall e cs, Forall (fun p => P (snd p)) cs -> P (Trie e cs)) -> forall n, P n.
Proof.
  intros H. fix IH 1. intros [e cs]. apply H. induction cs as [|[c n] cs IHcs]; constructor; [apply IH|exact IHcs].
Qed.
Lemma rtrie_ind' (P : rtrie -> Prop) : (forall e cs, Forall (fun p => P (snd p)) cs -> P (RTrie e cs)) -> forall n, P n.
Proof.
  intros H. fix IH 1. intros [e cs]. apply H. induction cs as [|[c n] cs IHcs]; constructor; [apply IH|exact IHcs].
Qed.

Fixpoint lang_t (n : trie) (t : str) {struct n} : Prop :=
  match n with
  | Trie e cs => (e = true /\ t = []) \/ fold_right (fun p Q => match p with (c, n) => (exists t', t = c :: t' /\ lang_t n t') \/ Q end) False cs
  end.
Fixpoint lang_rt (rv : bool) (n : rtrie) (t : str) {struct n} : Prop :=
  match n with
  | RTrie e cs => (e = true /\ t = []) \/ fold_right (fun p Q => match p with (k, n) => (exists t', t = glue rv k t' /\ lang_rt rv n t') \/ Q end) False cs
  end.
Lemma fold_or {A B} (f : A -> B -> Prop) (l : list (A * B)) : fold_right (fun p Q => match p with (c, n) => f c n \/ Q end) False l <-> exists c n, In (c, n) l /\ f c n.
Proof.
  induction l as [|[c n] l IH]; cbn [fold_right In]; [split; [intros []|intros (c & n & [] & _)]|]. rewrite IH. split.
  - intros [H|(c' & n' & H1 & H2)]; [exists c, n; split; [left; reflexivity|exact H]|exists c', n'; split; [right; exact H1|exact H2]].
  - intros (c' & n' & [[= <- <-]|H1] & H2); [left; exact H2|right; exists c', n'; split; assumption].
Qed.
Lemma lang_t_eq e cs t : lang_t (Trie e cs) t <-> (e = true /\ t = []) \/ exists c n, In (c, n) cs /\ exists t', t = c :: t' /\ lang_t n t'.
Proof. cbn [lang_t]. rewrite (fold_or (fun c n => exists t', t = c :: t' /\ lang_t n t')). reflexivity. Qed.
Lemma lang_rt_eq rv e cs t : lang_rt rv (RTrie e cs) t <-> (e = true /\ t = []) \/ exists k n, In (k, n) cs /\ exists t', t = glue rv k t' /\ lang_rt rv n t'.
Proof. cbn [lang_rt]. rewrite (fold_or (fun k n => exists t', t = glue rv k t' /\ lang_rt rv n t')). reflexivity. Qed.

(** Different characters at every node, no dead ends. *)
Fixpoint kids_ok_t (n : trie) : Prop :=
  match n with Trie e cs => NoDup (map fst cs)
    /\ fold_right (fun p Q => match p with (c, n) => (match n with Trie false [] => False | _ => True end /\ kids_ok_t n) /\ Q end) True cs end.
Definition nonempty_t (n : trie) : Prop := match n with Trie false [] => False | _ => True end.
Lemma fold_and {A B} (f : A -> B -> Prop) (l : list (A * B)) : fold_right (fun p Q => match p with (c, n) => f c n /\ Q end) True l <-> Forall (fun p => f (fst p) (snd p)) l.
Proof. induction l as [|[c n] l IH]; cbn [fold_right]; [split; constructor|]. rewrite IH. split; [intros [H1 H2]; constructor; assumption|intros H; inversion H; split; assumption]. Qed.
Lemma kids_ok_t_eq e cs : kids_ok_t (Trie e cs) <-> NoDup (map fst cs) /\ Forall (fun p => nonempty_t (snd p) /\ kids_ok_t (snd p)) cs.
Proof. cbn [kids_ok_t]. rewrite (fold_and (fun (_ : nat) n => nonempty_t n /\ kids_ok_t n)). reflexivity. Qed.

Definition go_add (c : nat) (w : str) : list (nat * trie) -> list (nat * trie) :=
  fix go (cs : list (nat * trie)) : list (nat * trie) :=
                 match cs with
                 | [] => [(c, t_add w (Trie false []))]
                 | (d, n) :: cs => if c =? d then (d, t_add w n) :: cs else (d, n) :: go cs
                 end.
Lemma t_add_nonempty w n : nonempty_t (t_add w n).
Proof.
  destruct w as [|c w]; destruct n as [e cs]; cbn [t_add nonempty_t]; [exact I|]. change (match e with true => True | false => match go_add c w cs with [] => False | _ => True end end).
  destruct e; [exact I|]. destruct cs as [|[d n] cs]; cbn [go_add]; [exact I|]. destruct (c =? d); exact I.
Qed.
Lemma go_add_keys c w cs x : In x (map fst (go_add c w cs)) <-> x = c \/ In x (map fst cs).
Proof.
  induction cs as [|[d n] cs IH]; cbn [go_add map fst In]; [intuition|]. destruct (c =? d) eqn:E; cbn [map fst In].
  - apply Nat.eqb_eq in E. subst. intuition.
  - rewrite IH. intuition.
Qed.
Lemma t_add_ok w : forall n, kids_ok_t n -> kids_ok_t (t_add w n).
Proof.
  induction w as [|c w IH]; intros [e cs] H; cbn [t_add].
  - rewrite kids_ok_t_eq in H |- *. exact H.
  - change (kids_ok_t (Trie e (go_add c w cs))). rewrite kids_ok_t_eq in H |- *. destruct H as [Hn Hf]. split.
    + clear Hf. induction cs as [|[d n] cs IHcs]; cbn [go_add map fst]; [repeat constructor; intros []|]. cbn [map fst] in Hn. inversion Hn; subst.
      destruct (c =? d) eqn:E; cbn [map fst]; [exact Hn|]. constructor; [|apply IHcs; assumption]. rewrite go_add_keys. intros [->|Hc]; [rewrite Nat.eqb_refl in E; discriminate|contradiction].
    + clear Hn. induction Hf as [|[d n] cs [H1 H2] Hf IHf]; cbn [go_add].
      * constructor; [|constructor]. cbn [snd]. split; [apply t_add_nonempty|apply IH]. apply kids_ok_t_eq. split; [constructor|constructor].
      * cbn [snd] in H1, H2. destruct (c =? d); constructor; cbn [snd]; try (split; [apply t_add_nonempty|apply IH; exact H2]); try (split; assumption); assumption.
Qed.
Lemma t_add_lang w : forall n, eqv (lang_t (t_add w n)) (fun t => t = w \/ lang_t n t).
Proof.
  induction w as [|c w IH]; intros [e cs] t; cbn [t_add].
  - rewrite !lang_t_eq. intuition.
  - change (lang_t (Trie e (go_add c w cs)) t <-> t = c :: w \/ lang_t (Trie e cs) t). rewrite !lang_t_eq.
    assert (H : (exists d n, In (d, n) (go_add c w cs) /\ exists t', t = d :: t' /\ lang_t n t') <-> t = c :: w \/ exists d n, In (d, n) cs /\ exists t', t = d :: t' /\ lang_t n t').
    2: { rewrite H. tauto. }
    induction cs as [|[d n] cs IHcs]; cbn [go_add].
    + split.
      * intros (d & n & [[= <- <-]|[]] & t' & -> & Ht). apply IH in Ht. destruct Ht as [->|Ht]; [left; reflexivity|]. apply lang_t_eq in Ht. destruct Ht as [[Ht _]|(d & n & [] & _)]. discriminate.
      * intros [->|(d & n & [] & _)]. exists c, (t_add w (Trie false [])). split; [left; reflexivity|]. exists w. split; [reflexivity|]. apply IH. left. reflexivity.
    + destruct (c =? d) eqn:E.
      * apply Nat.eqb_eq in E. subst d. split.
        -- intros (d & m & [[= <- <-]|Hin] & t' & -> & Ht).
           ++ apply IH in Ht. destruct Ht as [->|Ht]; [left; reflexivity|]. right. exists c, n. split; [left; reflexivity|]. exists t'. split; [reflexivity|exact Ht].
           ++ right. exists d, m. split; [right; exact Hin|]. exists t'. split; [reflexivity|exact Ht].
        -- intros [->|(d & m & [[= <- <-]|Hin] & t' & -> & Ht)].
           ++ exists c, (t_add w n). split; [left; reflexivity|]. exists w. split; [reflexivity|]. apply IH. left. reflexivity.
           ++ exists c, (t_add w n). split; [left; reflexivity|]. exists t'. split; [reflexivity|]. apply IH. right. exact Ht.
           ++ exists d, m. split; [right; exact Hin|]. exists t'. split; [reflexivity|exact Ht].
      * split.
        -- intros (d' & m & [[= <- <-]|Hin] & t' & -> & Ht).
           ++ right. exists d, n. split; [left; reflexivity|]. exists t'. split; [reflexivity|exact Ht].
           ++ destruct (proj1 IHcs) as [H|(d2 & m2 & H1 & H2)]; [exists d', m; split; [exact Hin|]; exists t'; split; [reflexivity|exact Ht]|left; exact H|].
              right. exists d2, m2. split; [right; exact H1|exact H2].
        -- intros [->|(d' & m & [[= <- <-]|Hin] & Hx)].
           ++ destruct (proj2 IHcs (or_introl eq_refl)) as (d2 & m2 & H1 & H2). exists d2, m2. split; [right; exact H1|exact H2].
           ++ exists d, n. split; [left; reflexivity|exact Hx].
           ++ destruct (proj2 IHcs) as (d2 & m2 & H1 & H2); [right; exists d', m; split; [exact Hin|exact Hx]|]. exists d2, m2. split; [right; exact H1|exact H2].
Qed.
Lemma fold_add_lang rv words : forall n, eqv (lang_t (fold_left (fun t w => t_add (ori rv w) t) words n)) (fun t => In t (map (ori rv) words) \/ lang_t n t).
Proof.
  induction words as [|w words IH]; intros n t; cbn [fold_left map In]; [tauto|]. rewrite (IH _ t), (t_add_lang _ _ t).
  split; [intros [H|[H|H]]|intros [[H|H]|H]]; auto.
Qed.
Lemma fold_add_ok rv words : forall n, kids_ok_t n -> kids_ok_t (fold_left (fun t w => t_add (ori rv w) t) words n).
Proof. induction words as [|w words IH]; intros n H; cbn [fold_left]; [exact H|]. apply IH, t_add_ok, H. Qed.

(** Merged tries. *)
Fixpoint ok_rt (n : rtrie) : Prop :=
  match n with RTrie e cs => (e = true \/ cs <> []) /\ NoDup (map fst cs)
    /\ fold_right (fun p Q => match p with (k, n) => (k <> [] /\ ok_rt n) /\ Q end) True cs end.
Lemma ok_rt_eq e cs : ok_rt (RTrie e cs) <-> (e = true \/ cs <> []) /\ NoDup (map fst cs) /\ Forall (fun p => fst p <> [] /\ ok_rt (snd p)) cs.
Proof. cbn [ok_rt]. rewrite (fold_and (fun k n => k <> [] /\ ok_rt n)). reflexivity. Qed.

Definition add_key (rv : bool) (k1 k2 : str) : str := if rv then k2 ++ k1 else k1 ++ k2.
(** The character of a key that comes first. *)
Definition lead (rv : bool) (k : str) : option nat := hd_error (ori rv k).
Lemma lead_add rv k k' : k <> [] -> lead rv (add_key rv k k') = lead rv k.
Proof.
  intros H. unfold lead, add_key, ori. destruct rv.
  - rewrite rev_app_distr. destruct (rev k) as [|x l] eqn:E; [|reflexivity]. exfalso. apply H. rewrite <- (rev_involutive k), E. reflexivity.
  - destruct k; [congruence|reflexivity].
Qed.
Lemma add_nonempty rv k k' : k <> [] -> add_key rv k k' <> [].
Proof. intros H. unfold add_key. destruct rv; intros E; apply app_eq_nil in E; destruct E; contradiction. Qed.

Definition merged (rv : bool) (key : str) (n : trie) (p : str * rtrie) : Prop :=
  fst p <> [] /\ lead rv (fst p) = lead rv key /\ ok_rt (snd p)
  /\ forall t, (exists t', t = glue rv (fst p) t' /\ lang_rt rv (snd p) t') <-> (exists t', t = glue rv key t' /\ lang_t n (ori rv t')).

Lemma kids_merged rv cs (add := add_key rv) :
  Forall (fun p => merged rv [fst p] (snd p) (t_merge add [fst p] (snd p))) cs -> NoDup (map fst cs) ->
  NoDup (map fst (map (fun p => match p with (k, n) => t_merge add [k] n end) cs))
  /\ Forall (fun p => fst p <> [] /\ ok_rt (snd p)) (map (fun p => match p with (k, n) => t_merge add [k] n end) cs)
  /\ forall t, (exists k n, In (k, n) (map (fun p => match p with (k, n) => t_merge add [k] n end) cs) /\ exists t', t = glue rv k t' /\ lang_rt rv n t')
               <-> (exists c n, In (c, n) cs /\ exists t', ori rv t = c :: t' /\ lang_t n t').
Proof.
  intros H Hn. split; [|split].
  - assert (Hl : map (fun p => lead rv (fst p)) (map (fun p => match p with (k, n) => t_merge add [k] n end) cs) = map (fun p => Some (fst p)) cs).
    { clear Hn. induction H as [|[c n] cs (H1 & H2 & _) _ IH]; cbn [map fst snd]; [reflexivity|]. cbn [fst snd] in H2. rewrite H2, IH. unfold lead, ori. destruct rv; reflexivity. }
    assert (Hd : NoDup (map (fun p => Some (fst p)) cs)).
    { rewrite <- (map_map fst Some). apply FinFun.Injective_map_NoDup; [|exact Hn]. intros a b [= ->]. reflexivity. }
    rewrite <- Hl, <- (map_map fst (lead rv)) in Hd. apply NoDup_map_inv in Hd. exact Hd.
  - clear Hn. induction H as [|[c n] cs (H1 & H2 & H3 & _) _ IH]; cbn [map fst snd]; constructor; [split; assumption|exact IH].
  - clear Hn. intros t. rewrite Forall_forall in H. split.
    + intros (k & n & Hin & t' & Et & Ht). apply in_map_iff in Hin. destruct Hin as ([c m] & E & Hin). specialize (H _ Hin). cbn [fst snd] in H. destruct H as (_ & _ & _ & H).
      rewrite E in H. cbn [fst snd] in H. destruct (proj1 (H t)) as (t2 & -> & H2); [exists t'; split; assumption|]. exists c, m. split; [exact Hin|].
      unfold glue, ori in *. destruct rv; [exists (rev t2); rewrite rev_app_distr; split; [reflexivity|exact H2]|exists t2; split; [reflexivity|exact H2]].
    + intros (c & n & Hin & t' & Et & Ht). specialize (H _ Hin). cbn [fst snd] in H. destruct H as (_ & _ & _ & H).
      destruct (t_merge add [c] n) as [k m] eqn:E. cbn [fst snd] in H. exists k, m. split; [apply in_map_iff; exists (c, n); split; [exact E|exact Hin]|].
      apply H. unfold glue, ori in *. destruct rv.
      * exists (rev t'). rewrite rev_involutive. split; [|exact Ht]. rewrite <- (rev_involutive t), Et. reflexivity.
      * exists t'. split; [exact Et|exact Ht].
Qed.

Lemma t_merge_eq add key e cs : t_merge add key (Trie e cs) =
  match e, cs with
  | false, [(k, n')] => t_merge add (add key [k]) n'
  | _, _ => (key, RTrie e (map (fun p => match p with (k, n) => t_merge add [k] n end) cs))
  end.
Proof. destruct e; destruct cs as [|[k n'] [|]]; reflexivity. Qed.

Lemma t_merge_ok rv : forall n key, key <> [] -> nonempty_t n -> kids_ok_t n -> merged rv key n (t_merge (add_key rv) key n).
Proof.
  refine (trie_ind' _ _). intros e cs IH key Hk He Hok. apply kids_ok_t_eq in Hok. destruct Hok as [Hn Hf].
  assert (Hgen : merged rv key (Trie e cs) (key, RTrie e (map (fun p => match p with (k, n) => t_merge (add_key rv) [k] n end) cs))).
  { destruct (kids_merged rv cs) as (H1 & H2 & H3); [|exact Hn|].
    { rewrite Forall_forall in IH, Hf |- *. intros p Hp. apply IH; [exact Hp|discriminate|apply Hf; exact Hp|apply Hf; exact Hp]. }
    split; [exact Hk|]. split; [reflexivity|]. cbn [fst snd]. split.
    - apply ok_rt_eq. split; [|split; assumption]. destruct e; [left; reflexivity|right]. destruct cs; [destruct He|discriminate].
    - assert (Hl : forall t', lang_rt rv (RTrie e (map (fun p => match p with (k, n) => t_merge (add_key rv) [k] n end) cs)) t' <-> lang_t (Trie e cs) (ori rv t')).
      { intros t'. rewrite lang_rt_eq, lang_t_eq, (H3 t'). assert (E : t' = [] <-> ori rv t' = []); [|rewrite E; reflexivity].
        unfold ori. destruct rv; [|reflexivity]. split; [intros ->; reflexivity|intros E; rewrite <- (rev_involutive t'), E; reflexivity]. }
      intros t. split; intros (t' & Et & Ht); exists t'; (split; [exact Et|]); apply Hl; exact Ht. }
  rewrite t_merge_eq. destruct e; [exact Hgen|]. destruct cs as [|[c n] [|]]; [exact Hgen| |exact Hgen].
  inversion IH as [|? ? IH1 _]; subst. inversion Hf as [|? ? [Hf1 Hf2] _]; subst. cbn [snd] in *.
  destruct (IH1 (add_key rv key [c])) as (H1 & H2 & H3 & H4); [apply add_nonempty; exact Hk|exact Hf1|exact Hf2|].
  split; [exact H1|]. split; [rewrite H2; apply lead_add; exact Hk|]. split; [exact H3|]. intros t. rewrite (H4 t). split.
  - intros (t' & -> & Ht). exists (glue rv [c] t'). split; [unfold glue, add_key; destruct rv; rewrite <- app_assoc; reflexivity|].
    apply lang_t_eq. right. exists c, n. split; [left; reflexivity|]. exists (ori rv t'). split; [|exact Ht]. unfold ori, glue. destruct rv; [rewrite rev_app_distr; reflexivity|reflexivity].
  - intros (t' & -> & Ht). apply lang_t_eq in Ht. destruct Ht as [[Ht _]|(d & m & [[= <- <-]|[]] & t2 & E & Ht)]; [discriminate|].
    exists (ori rv t2). unfold ori, glue, add_key in *. destruct rv.
    + rewrite rev_involutive. split; [|exact Ht]. rewrite <- (rev_involutive t'), E. cbn [rev]. rewrite <- app_assoc. reflexivity.
    + rewrite E, <- app_assoc. split; [reflexivity|exact Ht].
Qed.

Theorem make_trie_ok words rv : words <> [] -> ok_rt (make_trie words rv) /\ forall t, lang_rt rv (make_trie words rv) t <-> In t words.
Proof.
  intros Hw.
  assert (E0 : make_trie words rv = match fold_left (fun t w => t_add (ori rv w) t) words (Trie false []) with
    Trie e cs => RTrie e (map (fun p => match p with (k, n) => t_merge (add_key rv) [k] n end) cs) end).
  { transitivity (match fold_left (fun t w => t_add (ori rv w) t) words (Trie false []) with
      Trie e cs => RTrie e (map (fun p => t_merge (add_key rv) [fst p] (snd p)) cs) end); [reflexivity|].
    destruct (fold_left (fun t w => t_add (ori rv w) t) words (Trie false [])) as [e cs]. f_equal. apply map_ext. intros [k n]. reflexivity. }
  rewrite E0. clear E0.
  assert (Hl := fold_add_lang rv words (Trie false [])). assert (Hok := fold_add_ok rv words (Trie false [])).
  destruct (fold_left (fun t w => t_add (ori rv w) t) words (Trie false [])) as [e cs] eqn:Ef.
  specialize (Hok ltac:(apply kids_ok_t_eq; split; constructor)). apply kids_ok_t_eq in Hok. destruct Hok as [Hn Hf].
  destruct (kids_merged rv cs) as (H1 & H2 & H3); [|exact Hn|].
  { eapply Forall_impl; [|exact Hf]. intros [c n] [Hn1 Hn2]. apply t_merge_ok; [discriminate|exact Hn1|exact Hn2]. }
  assert (Hlang : forall t, lang_t (Trie e cs) (ori rv t) <-> In t words).
  { intros t. rewrite (Hl (ori rv t)). split.
    - intros [H|H]; [|apply lang_t_eq in H; destruct H as [[H _]|(c & n & [] & _)]; discriminate].
      apply in_map_iff in H. destruct H as (w & E & Hin). assert (w = t); [|subst; exact Hin]. unfold ori in E. destruct rv; [|exact E]. rewrite <- (rev_involutive w), E, rev_involutive. reflexivity.
    - intros H. left. apply in_map. exact H. }
  split.
  - apply ok_rt_eq. split; [|split; assumption]. destruct words as [|w words]; [congruence|]. destruct e; [left; reflexivity|right].
    destruct (proj2 (Hlang w) (or_introl eq_refl)) as [[H _]|H]; [discriminate|]. destruct cs; [destruct H|discriminate].
  - intros t. rewrite lang_rt_eq, (H3 t), <- (Hlang t), lang_t_eq. assert (E : t = [] <-> ori rv t = []); [|rewrite E; reflexivity].
    unfold ori. destruct rv; [|reflexivity]. split; [intros ->; reflexivity|intros E; rewrite <- (rev_involutive t), E; reflexivity].
Qed.

(** Equal nodes have the same words. *)
Lemma rt_eqb_eq e cs e' cs' : rt_eqb (RTrie e cs) (RTrie e' cs') =
  Bool.eqb e e' && forallb (fun p => match p with (k, n) => existsb (fun q => str_eqb k (fst q) && rt_eqb n (snd q)) cs' end) cs
      && forallb (fun q => existsb (fun p => match p with (k, n) => str_eqb k (fst q) && rt_eqb n (snd q) end) cs) cs'.
Proof. reflexivity. Qed.
Lemma rt_eqb_sound rv : forall a b, rt_eqb a b = true -> eqv (lang_rt rv a) (lang_rt rv b).
Proof.
  refine (rtrie_ind' _ _). intros e cs IH [e' cs']. rewrite rt_eqb_eq, !andb_true_iff. intros ((E1 & E2) & E3) t. apply Bool.eqb_prop in E1. subst e'.
  rewrite !lang_rt_eq. rewrite forallb_forall in E2, E3. rewrite Forall_forall in IH.
  assert (H : (exists k n, In (k, n) cs /\ exists t', t = glue rv k t' /\ lang_rt rv n t') <-> (exists k n, In (k, n) cs' /\ exists t', t = glue rv k t' /\ lang_rt rv n t')); [|rewrite H; reflexivity].
  split.
  - intros (k & n & Hin & t' & -> & Ht). specialize (E2 _ Hin). cbv beta iota in E2. apply existsb_exists in E2. destruct E2 as ([k' n'] & Hin' & E). apply andb_true_iff in E. cbn [fst snd] in E. destruct E as [Ek En].
    apply str_eqb_eq in Ek. subst k'. exists k, n'. split; [exact Hin'|]. exists t'. split; [reflexivity|]. apply (IH _ Hin n' En). exact Ht.
  - intros (k & n & Hin & t' & -> & Ht). specialize (E3 _ Hin). cbv beta in E3. apply existsb_exists in E3. destruct E3 as ([k' n'] & Hin' & E). apply andb_true_iff in E. cbn [fst snd] in E. destruct E as [Ek En].
    apply str_eqb_eq in Ek. subst k'. exists k, n'. split; [exact Hin'|]. exists t'. split; [reflexivity|]. apply (IH _ Hin' n En). exact Ht.
Qed.
Lemma rt_eqb_leaf a b : rt_eqb a b = true -> is_leaf a = is_leaf b.
Proof.
  destruct a as [e cs], b as [e' cs']. rewrite rt_eqb_eq, !andb_true_iff. intros ((_ & E2) & E3). destruct cs as [|[k n] cs], cs' as [|q cs']; try reflexivity.
  - cbn [forallb existsb] in E3. discriminate.
  - cbn [forallb existsb] in E2. discriminate.
Qed.
