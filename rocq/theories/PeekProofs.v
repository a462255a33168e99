(** Proofs about the tree that is shown while a tree is being built. *)
From Coq Require Import List Arith Bool Lia ZArith ZifyBool.
From Verif Require Import PeekModel PeekSpec.
Import ListNotations.
Local Open Scope nat_scope.

(** ** The tokens *)
Fixpoint pst (s : stack) : list (list nat * nat) :=
  match s with [] => [] | (l, c) :: r => pst r ++ flat_map (paths (l :: map fst r)) c end.
Lemma pst_close s : pst (close s) = pst s.
Proof.
  destruct s as [|(l1, c1) [|(l2, c2) r]]; try reflexivity. cbn [close pst map fst]. rewrite flat_map_app. cbn [flat_map paths]. rewrite app_nil_r, app_assoc. reflexivity.
Qed.
Lemma pst_closes n : forall s, pst (closes n s) = pst s.
Proof. induction n as [|n IH]; intros s; [reflexivity|]. cbn [closes]. rewrite IH. apply pst_close. Qed.
Lemma pst_pushes ls : forall s, pst (pushes ls s) = pst s.
Proof. induction ls as [|l ls IH]; intros s; [reflexivity|]. cbn [pushes]. rewrite IH. cbn [pst flat_map]. apply app_nil_r. Qed.
Lemma fst_close s : map fst (close s) = leave (map fst s).
Proof. destruct s as [|(l1, c1) [|(l2, c2) r]]; reflexivity. Qed.
Lemma iter_comm n : forall ls, Nat.iter n leave (leave ls) = leave (Nat.iter n leave ls).
Proof. induction n as [|n IH]; intros ls; [reflexivity|]. cbn [Nat.iter nat_rect]. unfold Nat.iter in IH. rewrite IH. reflexivity. Qed.
Lemma fst_closes n : forall s, map fst (closes n s) = Nat.iter n leave (map fst s).
Proof. induction n as [|n IH]; intros s; [reflexivity|]. cbn [closes]. rewrite IH, fst_close. apply iter_comm. Qed.
Lemma fst_pushes ls : forall s, map fst (pushes ls s) = rev ls ++ map fst s.
Proof. induction ls as [|l ls IH]; intros s; [reflexivity|]. cbn [pushes rev]. rewrite IH. cbn [map fst]. rewrite <- app_assoc. reflexivity. Qed.
Lemma fst_extend toks s : map fst (extend toks s) = map fst s.
Proof. destruct s as [|(l, c) r]; reflexivity. Qed.
Lemma flat_tk above toks : flat_map (paths above) (map Tk toks) = map (fun p => (above, p)) toks.
Proof. induction toks as [|t toks IH]; [reflexivity|]. cbn [map flat_map paths app]. rewrite IH. reflexivity. Qed.
Lemma pst_extend toks s : s <> [] -> pst (extend toks s) = pst s ++ map (fun p => (map fst s, p)) toks.
Proof. intros H. destruct s as [|(l, c) r]; [congruence|]. cbn [extend pst map fst]. rewrite flat_map_app, flat_tk, app_assoc. reflexivity. Qed.
Lemma fst_event e s : map fst (do_event e s) = enter e (map fst s).
Proof. unfold do_event, enter. rewrite fst_extend, fst_pushes, fst_closes. reflexivity. Qed.

Lemma close_nonempty s : s <> [] -> close s <> [].
Proof. destruct s as [|(l1, c1) [|(l2, c2) r]]; cbn; congruence. Qed.
Lemma closes_nonempty n : forall s, s <> [] -> closes n s <> [].
Proof. induction n as [|n IH]; intros s H; [exact H|]. apply IH, close_nonempty, H. Qed.
Lemma pushes_nonempty ls : forall s, s <> [] -> pushes ls s <> [].
Proof. induction ls as [|l ls IH]; intros s H; [exact H|]. apply IH. discriminate. Qed.
Lemma event_nonempty e s : s <> [] -> do_event e s <> [].
Proof.
  intros H. unfold do_event. pose proof (pushes_nonempty (e_push e) _ (closes_nonempty (e_pop e) s H)) as N.
  destruct (pushes (e_push e) (closes (e_pop e) s)) as [|(l, c) r]; [congruence|discriminate].
Qed.
Lemma pst_event e s : s <> [] -> pst (do_event e s) = pst s ++ map (fun p => (enter e (map fst s), p)) (e_toks e).
Proof.
  intros H. unfold do_event. rewrite pst_extend by (apply pushes_nonempty, closes_nonempty, H). rewrite pst_pushes, pst_closes. f_equal.
  unfold enter. rewrite fst_pushes, fst_closes. reflexivity.
Qed.
Lemma paths_tree_from r : forall l c, paths [] (tree_from l c r) = pst ((l, c) :: r).
Proof.
  induction r as [|(l2, c2) r IH]; intros l c; [reflexivity|]. cbn [tree_from]. rewrite IH. exact (pst_close ((l, c) :: (l2, c2) :: r)).
Qed.

(** ** Empty contexts *)
Definition is_nil {A} (l : list A) : bool := match l with [] => true | _ => false end.
Inductive almost : node -> Prop :=
| almost_tk p : almost (Tk p)
| almost_nil l : almost (Cx l [])
| almost_cons l x xs : almost x -> Forall solid xs -> almost (Cx l (x :: xs)).
Definition almost_list (c : list node) : Prop := match c with [] => True | x :: xs => almost x /\ Forall solid xs end.
Lemma almost_cx l c : almost_list c -> almost (Cx l c).
Proof. destruct c as [|x xs]; [intros _; constructor|intros [H1 H2]; now constructor]. Qed.
Lemma almost_solid n : solid n -> almost n.
Proof.
  revert n. fix IH 2. intros n H. destruct H as [p|l c Hn Hc]; [constructor|]. destruct Hc as [|x xs Hx Hxs]; [congruence|]. constructor; [exact (IH x Hx)|exact Hxs].
Qed.
Lemma almost_list_solid c : Forall solid c -> almost_list c.
Proof. intros H. destruct H as [|x xs Hx Hxs]; [exact I|]. split; [now apply almost_solid|exact Hxs]. Qed.
Definition leftmost (r : stack) : bool := forallb (fun f => is_nil (snd f)) r.
Fixpoint ok (s : stack) : Prop :=
  match s with [] => True | (l, c) :: r => (if leftmost r then almost_list c else Forall solid c) /\ ok r end.
Definition full (s : stack) : Prop := match s with [] => True | (l, c) :: r => leftmost r = true \/ c <> [] end.

Lemma close_frame l1 c1 l2 c2 r : ok ((l1, c1) :: (l2, c2) :: r) -> full ((l1, c1) :: (l2, c2) :: r) -> ok ((l2, c2 ++ [Cx l1 c1]) :: r) /\ full ((l2, c2 ++ [Cx l1 c1]) :: r).
Proof.
  intros (H1 & H2 & H3) F. cbn [full leftmost forallb snd] in H1, F. split; [|right; destruct c2; discriminate]. split; [|exact H3].
  fold (leftmost r) in *. destruct (leftmost r).
  - destruct c2 as [|x xs]; cbn [is_nil andb app] in *.
    + split; [now apply almost_cx|constructor].
    + destruct H2 as [H2 H4]. split; [exact H2|]. apply Forall_app. split; [exact H4|]. constructor; [|constructor]. constructor; [destruct F; [discriminate|assumption]|exact H1].
  - rewrite andb_false_r in H1, F. apply Forall_app. split; [exact H2|]. constructor; [|constructor]. constructor; [destruct F; [discriminate|assumption]|exact H1].
Qed.
Lemma ok_close s : ok s -> full s -> ok (close s) /\ full (close s).
Proof. destruct s as [|(l1, c1) [|(l2, c2) r]]; intros H F; [split; assumption|split; assumption|]. exact (close_frame l1 c1 l2 c2 r H F). Qed.
Lemma ok_closes n : forall s, ok s -> full s -> ok (closes n s).
Proof. induction n as [|n IH]; intros s H F; [exact H|]. destruct (ok_close s H F) as [H' F']. exact (IH _ H' F'). Qed.
Lemma ok_pushes ls : forall s, ok s -> ok (pushes ls s).
Proof. induction ls as [|l ls IH]; intros s H; [exact H|]. apply IH. cbn [ok]. split; [|exact H]. destruct (leftmost s); [exact I|constructor]. Qed.
Lemma solid_toks toks : Forall solid (map Tk toks).
Proof. induction toks; constructor; [constructor|assumption]. Qed.
Lemma ok_extend toks s : toks <> [] -> ok s -> ok (extend toks s) /\ full (extend toks s).
Proof.
  intros Ht H. destruct s as [|(l, c) r]; [split; exact I|]. destruct H as [H1 H2]. split.
  - split; [|exact H2]. destruct (leftmost r).
    + destruct c as [|x xs]; cbn [app]; [apply almost_list_solid, solid_toks|]. destruct H1 as [H1 H3]. split; [exact H1|]. apply Forall_app. split; [exact H3|apply solid_toks].
    + apply Forall_app. split; [exact H1|apply solid_toks].
  - right. destruct c; [|discriminate]. destruct toks; [congruence|discriminate].
Qed.
Lemma ok_event e s : e_toks e <> [] -> ok s -> full s -> ok (do_event e s) /\ full (do_event e s).
Proof. intros Ht H F. apply ok_extend; [exact Ht|]. apply ok_pushes, ok_closes; assumption. Qed.
Lemma ok_tree_from r : forall l c, ok ((l, c) :: r) -> full ((l, c) :: r) -> almost (tree_from l c r).
Proof.
  induction r as [|(l2, c2) r IH]; intros l c H F; [apply almost_cx, H|]. cbn [tree_from]. destruct (close_frame l c l2 c2 r H F) as [H' F']. exact (IH _ _ H' F').
Qed.
Lemma new_tree_ok lexs : ok (new_tree lexs) /\ full (new_tree lexs) /\ leftmost (new_tree lexs) = true.
Proof.
  induction lexs as [|l lexs (H1 & H2 & H3)]; [repeat split|]. cbn [new_tree map ok full leftmost forallb snd is_nil andb]. fold (new_tree lexs). fold (leftmost (new_tree lexs)). rewrite H3.
  repeat split; [exact H1|now left].
Qed.
Lemma pst_new lexs : pst (new_tree lexs) = [].
Proof. induction lexs as [|l lexs IH]; [reflexivity|]. cbn [new_tree map pst flat_map]. fold (new_tree lexs). rewrite IH. reflexivity. Qed.
Lemma fst_new lexs : map fst (new_tree lexs) = lexs.
Proof. unfold new_tree. rewrite map_map. apply map_id. Qed.

(** ** Pruning *)
Lemma prune_ok n : almost n -> match prune n with Some m => solid m /\ forall above, paths above m = paths above n | None => forall above, paths above n = [] end.
Proof.
  intros H. induction H as [p|l|l x xs Hx IH Hxs]; cbn [prune].
  - split; [constructor|reflexivity].
  - reflexivity.
  - destruct (prune x) as [x'|].
    + destruct IH as [IH1 IH2]. split; [constructor; [discriminate|now constructor]|]. intros above. cbn [paths flat_map]. rewrite IH2. reflexivity.
    + destruct xs as [|y ys].
      * intros above. cbn [paths flat_map]. rewrite IH. reflexivity.
      * split; [constructor; [discriminate|exact Hxs]|]. intros above. cbn [paths flat_map]. rewrite IH. reflexivity.
Qed.

Lemma shown s e : s <> [] -> e_toks e <> [] -> ok s -> full s ->
  exists m, match tree_of (do_event e s) with Some t => prune t | None => None end = Some m
            /\ solid m /\ paths [] m = pst s ++ map (fun p => (enter e (map fst s), p)) (e_toks e).
Proof.
  intros Hs Ht H F. destruct (ok_event e s Ht H F) as [H' F']. pose proof (pst_event e s Hs) as P. pose proof (event_nonempty e s Hs) as N.
  destruct (do_event e s) as [|(l, c) r]; [congruence|]. cbn [tree_of]. pose proof (prune_ok _ (ok_tree_from r l c H' F')) as Q.
  destruct (prune (tree_from l c r)) as [m|].
  - exists m. destruct Q as [Q1 Q2]. split; [reflexivity|]. split; [exact Q1|]. rewrite Q2, paths_tree_from. exact P.
  - exfalso. specialize (Q []). rewrite paths_tree_from, P in Q. apply app_eq_nil in Q. destruct Q as [_ Q]. destruct (e_toks e); [congruence|discriminate Q].
Qed.

Lemma build_zero start : forall es s, build start 0 s es = [].
Proof. induction es as [|e es IH]; intros s; [reflexivity|]. cbn [build Nat.eqb negb andb]. apply IH. Qed.

Lemma build_shown start peek : 0 < peek -> forall es s, s <> [] -> Forall (fun e => e_toks e <> []) es -> ok s -> full s ->
  (Forall (fun e => ~ beyond peek e) es /\ build start peek s es = [])
  \/ exists es1 e es2 m, es = es1 ++ e :: es2 /\ Forall (fun e => ~ beyond peek e) es1 /\ beyond peek e
       /\ build start peek s es = [(start, Some m)] /\ solid m /\ paths [] m = pst s ++ tokens_of (map fst s) (es1 ++ [e]).
Proof.
  intros Hp. induction es as [|e es IH]; intros s Hs Ht H F; [left; split; [constructor|reflexivity]|].
  inversion Ht as [|? ? Ht1 Ht2]; subst. cbn [build]. replace (peek =? 0) with false by lia. cbn [negb andb]. destruct (peek <? last (e_toks e) 0) eqn:E.
  - right. destruct (shown s e Hs Ht1 H F) as (m & E1 & E2 & E3). exists [], e, es, m. split; [reflexivity|]. split; [constructor|]. split; [unfold beyond; lia|].
    cbv zeta. rewrite E1, build_zero. split; [reflexivity|]. split; [exact E2|]. rewrite E3. cbn [app tokens_of]. rewrite app_nil_r. reflexivity.
  - destruct (ok_event e s Ht1 H F) as [H' F']. cbv zeta. destruct (IH (do_event e s) (event_nonempty e s Hs) Ht2 H' F') as [[A B] | (es1 & e' & es2 & m & A & B & C & D & G & K)].
    + left. split; [constructor; [unfold beyond; lia|exact A]|exact B].
    + right. exists (e :: es1), e', es2, m. split; [cbn; f_equal; exact A|]. split; [constructor; [unfold beyond; lia|exact B]|]. split; [exact C|]. split; [exact D|]. split; [exact G|].
      rewrite K, pst_event by exact Hs. rewrite fst_event. cbn [app tokens_of]. rewrite <- app_assoc. reflexivity.
Qed.

Theorem peek_shown threshold start lexs es : lexs <> [] -> 0 < threshold -> Forall (fun e => e_toks e <> []) es ->
  (Forall (fun e => ~ beyond (threshold + start) e) es /\ build_peek threshold start lexs es = [])
  \/ exists es1 e es2 m, es = es1 ++ e :: es2 /\ Forall (fun e => ~ beyond (threshold + start) e) es1 /\ beyond (threshold + start) e
       /\ build_peek threshold start lexs es = [(start, Some m)] /\ solid m /\ paths [] m = tokens_of lexs (es1 ++ [e]).
Proof.
  intros Hl Ht He. unfold build_peek. replace (threshold =? 0) with false by lia. destruct (new_tree_ok lexs) as (H1 & H2 & _).
  pose proof (build_shown start (threshold + start) ltac:(lia) es (new_tree lexs) ltac:(destruct lexs; [congruence|discriminate]) He H1 H2) as R.
  rewrite pst_new, fst_new in R. exact R.
Qed.
