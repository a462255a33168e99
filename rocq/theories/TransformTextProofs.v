(** Proofs about transforming a text. *)
From Verif Require Import Base BaseFacts TargetModel TargetSpec LexerModel LexerSpec TreeModel TreeSpec TreeProofs BuildModel BuildProofs TransformModel TransformSpec.
From Coq Require Import ZArith ZifyBool.

Section Proofs.
Variables L A R Lang Name Arg : Type.
Variable lang : L -> Lang.
Variable name : L -> Name.
Variable arg : L -> Arg.
Variable lang_is : Lang -> Lang -> bool.
Hypothesis lang_is_spec : forall a b, lang_is a b = true <-> a = b.
Variable get_transform : Lang -> transform L A R Name Arg.
Notation meth := (method_of lang name get_transform).
Notation itemsof := (items_of lang name arg get_transform).
Notation quiet := (none_untransformed lang name get_transform).
Notation tstate := (tstate L A R Lang Name Arg).
Notation itemlist := (itemlist L A R Name Arg).
Notation method := (method L A R Name Arg).
Notation sym := (sym L A).

Definition cur_ok (cur : current L A R Lang Name Arg) : Prop := snd cur = get_transform (fst cur).

Lemma switch_ok cur l : cur_ok cur -> let cur' := cur_switch _ _ _ _ _ _ lang lang_is get_transform cur l in
  cur_ok cur' /\ snd cur' (name l) = meth l.
Proof.
  intros H. unfold cur_switch. destruct (lang_is (lang l) (fst cur)) eqn:E; cbn; [|split; reflexivity].
  apply lang_is_spec in E. split; [exact H|]. unfold method_of. rewrite E, <- H. reflexivity.
Qed.

(** A machine that reads a tree written down with brackets.  [q_skip]: how many contexts deep in a context without method. *)
Record qstate := QState { q_items : itemlist; q_stack : list (itemlist * method * Name * bool); q_add : bool; q_skip : nat }.

Definition q_step (q : qstate) (x : sym) : option qstate :=
  match q_skip q with
  | 0 => match x with
         | Enter l => match meth l with
                      | Some m => Some (QState (ItemList (arg l) []) ((q_items q, m, name l, q_add q) :: q_stack q) (m_untransformed m) 0)
                      | None => if q_add q then None else Some (QState (q_items q) (q_stack q) (q_add q) 1)
                      end
         | Exit => match q_stack q with
                   | [] => None
                   | (old, m, nm, add) :: stack => Some (QState (il_add old [IObj nm (m_call m (q_items q))]) stack add 0)
                   end
         | Leaf t => Some (QState (il_add (q_items q) [IToken t]) (q_stack q) (q_add q) 0)
         end
  | S k => Some (QState (q_items q) (q_stack q) (q_add q)
                   match x with Enter _ => S (S k) | Exit => k | Leaf _ => S k end)
  end.
Fixpoint q_run (q : qstate) (w : list sym) : option qstate :=
  match w with
  | [] => Some q
  | x :: w => match q_step q x with None => None | Some q => q_run q w end
  end.

Lemma q_run_app w : forall w' q, q_run q (w ++ w') = match q_run q w with None => None | Some q => q_run q w' end.
Proof. induction w as [|x w IH]; intros w' q; [reflexivity|]. cbn [app q_run]. destruct (q_step q x); [apply IH|reflexivity]. Qed.

Lemma q_skip_word n : forall its st add k w, q_run (QState its st add (S k)) (word n ++ w) = q_run (QState its st add (S k)) w.
Proof.
  induction n as [t|l cs IH] using node_ind'; intros its st add k w; [reflexivity|].
  rewrite word_ctx. cbn [app q_run q_step q_skip q_items q_stack q_add]. rewrite <- app_assoc.
  transitivity (q_run (QState its st add (S (S k))) ([Exit] ++ w)); [|reflexivity].
  generalize ([Exit] ++ w). intros w'. induction IH as [|c cs Hc _ IHc]; [reflexivity|]. rewrite words_cons, <- app_assoc, Hc. exact IHc.
Qed.

Lemma il_add_add (il : itemlist) a b : il_add (il_add il a) b = il_add il (a ++ b).
Proof. unfold il_add. cbn. rewrite app_assoc. reflexivity. Qed.
Lemma il_add_nil (il : itemlist) : il_add il [] = il.
Proof. destruct il. unfold il_add. cbn. rewrite app_nil_r. reflexivity. Qed.

Lemma q_word n : forall its st add w, quiet add n ->
  q_run (QState its st add 0) (word n ++ w) = q_run (QState (il_add its (itemsof add n)) st add 0) w.
Proof.
  induction n as [t|l cs IH] using node_ind'; intros its st add w Hq; [reflexivity|].
  rewrite word_ctx. cbn [app q_run q_step q_skip q_items q_stack q_add]. cbn [none_untransformed] in Hq. cbn [items_of].
  destruct (meth l) as [m|].
  - rewrite <- app_assoc.
    assert (G : forall its0 st0 w0, q_run (QState its0 st0 (m_untransformed m) 0) (words cs ++ w0)
       = q_run (QState (il_add its0 (concat (map (itemsof (m_untransformed m)) cs))) st0 (m_untransformed m) 0) w0).
    { clear its st add w. induction IH as [|c cs Hc _ IHc]; intros its0 st0 w0; [cbn; rewrite il_add_nil; reflexivity|].
      destruct Hq as [Hq1 Hq2]. rewrite words_cons, <- app_assoc, (Hc _ _ _ _ Hq1), (IHc Hq2), il_add_add. reflexivity. }
    rewrite G. reflexivity.
  - subst add. rewrite <- app_assoc, il_add_nil.
    transitivity (q_run (QState its st false 1) ([Exit] ++ w)); [|reflexivity].
    generalize ([Exit] ++ w). intros w'. clear IH. induction cs as [|c cs IHc]; [reflexivity|].
    rewrite words_cons, <- app_assoc, q_skip_word. exact IHc.
Qed.

Lemma q_words cs : forall its st add w, Forall (quiet add) cs ->
  q_run (QState its st add 0) (words cs ++ w) = q_run (QState (il_add its (concat (map (itemsof add) cs))) st add 0) w.
Proof.
  induction cs as [|c cs IH]; intros its st add w Hq; [cbn; rewrite il_add_nil; reflexivity|].
  inversion Hq as [|? ? H1 H2]; subst. rewrite words_cons, <- app_assoc, (q_word _ _ _ _ _ H1), (IH _ _ _ _ H2), il_add_add. reflexivity.
Qed.

(** ** The text machine follows the symbol machine *)

Definition q_of (s : tstate) (k : nat) : qstate := QState (t_items _ _ _ _ _ _ s) (t_stack _ _ _ _ _ _ s) (t_add _ _ _ _ _ _ s) k.
Notation ttpops := (tt_pops L A R Lang Name Arg).
Notation ttpush := (tt_push L A R Lang Name Arg lang name arg lang_is get_transform).
Notation tttarget := (tt_target L A R Lang Name Arg lang name arg lang_is get_transform).
Notation ttevents := (tt_events L A R Lang Name Arg lang name arg lang_is get_transform).
Notation tcur := (t_cur L A R Lang Name Arg).

Lemma pops_run n : forall s w, q_run (q_of s 0) (repeat Exit n ++ w)
  = match ttpops n s with None => None | Some s' => q_run (q_of s' 0) w end.
Proof.
  induction n as [|n IH]; intros s w; [reflexivity|]. cbn [repeat app q_run q_step q_of q_skip tt_pops q_stack].
  unfold tt_pop. destruct (t_stack _ _ _ _ _ _ s) as [|[[[old m] nm] add] st]; [reflexivity|]. cbn [q_items q_of].
  rewrite <- IH. reflexivity.
Qed.
Lemma pops_cur n : forall s s', ttpops n s = Some s' -> tcur s' = tcur s.
Proof.
  induction n as [|n IH]; intros s s'; cbn [tt_pops]; [intros E; injection E as <-; reflexivity|]. unfold tt_pop.
  destruct (t_stack _ _ _ _ _ _ s) as [|[[[old m] nm] add] st]; [discriminate|]. intros E. exact (IH _ _ E).
Qed.

Lemma skip_enters ls : forall k its st add w, q_run (QState its st add (S k)) (map Enter ls ++ w) = q_run (QState its st add (S k + length ls)) w.
Proof.
  induction ls as [|l ls IH]; intros k its st add w; [rewrite Nat.add_0_r; reflexivity|]. cbn [map app q_run q_step q_skip q_items q_stack q_add].
  rewrite IH. cbn [length]. replace (S k + S (length ls)) with (S (S k) + length ls) by lia. reflexivity.
Qed.
Lemma push_run ls : forall s w, cur_ok (tcur s) -> let '(s', miss) := ttpush s ls in cur_ok (tcur s')
  /\ q_run (q_of s 0) (map Enter ls ++ w)
     = match miss with
       | [] => q_run (q_of s' 0) w
       | _ => if t_add _ _ _ _ _ _ s' then None else q_run (q_of s' (length miss)) w
       end.
Proof.
  induction ls as [|l ls IH]; intros s w Hc; cbn [tt_push]; [split; [exact Hc|reflexivity]|].
  destruct (switch_ok (tcur s) l Hc) as (H1 & H2). cbn zeta in H1, H2. rewrite H2.
  cbn [map app q_run q_step q_of q_skip q_items q_add q_stack]. destruct (meth l) as [m|].
  - match goal with |- context [ttpush ?s0 ls] => specialize (IH s0 w) end.
    cbn [t_cur] in IH. specialize (IH H1). destruct (ttpush _ ls) as [s' miss]. exact IH.
  - split; [exact H1|]. cbn [t_add q_of t_items t_stack]. destruct (t_add _ _ _ _ _ _ s); [reflexivity|].
    rewrite skip_enters. reflexivity.
Qed.

Lemma make_target_word n push : @target_word L A (make_target n push) = repeat Exit n ++ map Enter push.
Proof. destruct n, push; reflexivity. Qed.

Definition lx_word (lx : list (lexeme A)) : list sym := map Leaf (make_tokens lx).
Definition evs_word (evs : list (event L A)) : list sym := concat (map event_word evs).

Lemma skip_exits j : forall k its st add w, j <= k -> q_run (QState its st add k) (repeat Exit j ++ w) = q_run (QState its st add (k - j)) w.
Proof.
  induction j as [|j IH]; intros k its st add w Hj; [rewrite Nat.sub_0_r; reflexivity|]. destruct k as [|k]; [lia|].
  cbn [repeat app q_run q_step q_skip q_items q_stack q_add]. rewrite IH by lia. reflexivity.
Qed.
Lemma skip_leaves ts : forall k its st add w, q_run (QState its st add (S k)) (map Leaf ts ++ w) = q_run (QState its st add (S k)) w.
Proof. induction ts as [|t ts IH]; intros k its st add w; [reflexivity|]. cbn [map app q_run q_step q_skip q_items q_stack q_add]. apply IH. Qed.

Lemma consume_run evs : forall k its st add w,
  match consume_events (Z.of_nat (S k)) evs with
  | (Some e, evs') => length evs' < length evs /\ (Forall (fun e => e_lexemes e <> []) evs -> e_lexemes e <> [])
      /\ (exists before, evs = before ++ evs')
      /\ q_run (QState its st add (S k)) (evs_word evs ++ w) = q_run (QState its st add 0) (event_word e ++ evs_word evs' ++ w)
  | (None, evs') => evs' = [] /\ exists k', q_run (QState its st add (S k)) (evs_word evs ++ w) = q_run (QState its st add (S k')) w
  end.
Proof.
  induction evs as [|e evs IH]; intros k its st add w; cbn [consume_events]; [split; [reflexivity|exists k; reflexivity]|].
  assert (EW : evs_word (e :: evs) ++ w = target_word (e_target e) ++ map Leaf (make_tokens (e_lexemes e)) ++ evs_word evs ++ w).
  { unfold evs_word. cbn [map concat]. unfold event_word at 1. rewrite <- !app_assoc. reflexivity. }
  rewrite EW. clear EW. destruct (e_target e) as [t|] eqn:Et; cbn [target_word].
  - destruct (Z.of_nat (S k) - Z.of_nat (t_pop t) <=? 0)%Z eqn:E.
    + split; [cbn; lia|]. split; [intros H; inversion H; assumption|]. split; [exists [e]; reflexivity|]. unfold event_word. cbn [e_target e_lexemes]. rewrite make_target_word.
      replace (t_pop t) with (S k + Z.to_nat (- (Z.of_nat (S k) - Z.of_nat (t_pop t)))) at 1 by lia. rewrite repeat_app, <- !app_assoc.
      rewrite skip_exits by lia. rewrite Nat.sub_diag. reflexivity.
    + replace (Z.of_nat (S k) - Z.of_nat (t_pop t) + Z.of_nat (length (t_push t)))%Z with (Z.of_nat (S (k - t_pop t + length (t_push t)))) by lia.
      specialize (IH (k - t_pop t + length (t_push t)) its st add w). rewrite <- !app_assoc. rewrite skip_exits by lia.
      replace (S k - t_pop t) with (S (k - t_pop t)) by lia. rewrite skip_enters. cbn [Nat.add]. rewrite skip_leaves.
      destruct (consume_events _ evs) as [[e'|] evs']; [|exact IH]. destruct IH as (I1 & I2 & (b & I3) & I4).
      split; [cbn; lia|]. split; [intros H; inversion H; auto|]. split; [exists (e :: b); rewrite I3; reflexivity|]. exact I4.
  - cbn [app]. rewrite skip_leaves. specialize (IH k its st add w).
    destruct (consume_events _ evs) as [[e'|] evs']; [|exact IH]. destruct IH as (I1 & I2 & (b & I3) & I4).
    split; [cbn; lia|]. split; [intros H; inversion H; auto|]. split; [exists (e :: b); rewrite I3; reflexivity|]. exact I4.
Qed.

(** One event with the ones it consumes: either the symbol machine goes on from the new state, or the events are at an end inside a
    context without method. *)
Lemma target_run fuel : forall s tgt lx evs w q, cur_ok (tcur s) -> lx <> [] -> Forall (fun e => e_lexemes e <> []) evs ->
  length evs + 1 < fuel ->
  q_run (q_of s 0) (target_word tgt ++ lx_word lx ++ evs_word evs ++ w) = Some q ->
  exists s' lx' evs', tttarget fuel s tgt lx evs = Some (s', lx', evs') /\ cur_ok (tcur s') /\ length evs' <= length evs
    /\ Forall (fun e => e_lexemes e <> []) evs'
    /\ (lx' <> [] /\ q_run (q_of s' 0) (lx_word lx' ++ evs_word evs' ++ w) = Some q
        \/ lx' = [] /\ evs' = [] /\ exists k, q_run (q_of s' (S k)) w = Some q).
Proof.
  induction fuel as [|fuel IH]; intros s tgt lx evs w q Hc Hlx Hev Hf Hq; [lia|].
  destruct tgt as [t|]; cbn [tt_target].
  2:{ exists s, lx, evs. split; [reflexivity|]. split; [exact Hc|]. split; [lia|]. split; [exact Hev|]. left. split; [exact Hlx|exact Hq]. }
  cbn [target_word] in Hq. rewrite <- app_assoc, pops_run in Hq. destruct (ttpops (t_pop t) s) as [s1|] eqn:E1; [|discriminate].
  pose proof (pops_cur _ _ _ E1) as Hc1. assert (Hc1' : cur_ok (tcur s1)) by (rewrite Hc1; exact Hc). clear Hc1.
  pose proof (push_run (t_push t) s1 (lx_word lx ++ evs_word evs ++ w) Hc1') as Hp. destruct (ttpush s1 (t_push t)) as [s2 miss].
  destruct Hp as (Hc2 & Hp). rewrite Hp in Hq. destruct miss as [|l0 miss].
  - exists s2, lx, evs. split; [reflexivity|]. split; [exact Hc2|]. split; [lia|]. split; [exact Hev|]. left. split; [exact Hlx|exact Hq].
  - destruct (t_add _ _ _ _ _ _ s2) eqn:Ea; [discriminate|]. cbn [length] in Hq |- *. unfold lx_word, q_of in Hq. rewrite skip_leaves in Hq.
    pose proof (consume_run evs (length miss) (t_items _ _ _ _ _ _ s2) (t_stack _ _ _ _ _ _ s2) (t_add _ _ _ _ _ _ s2) w) as Hcon.
    destruct (consume_events (Z.of_nat (S (length miss))) evs) as [[e|] evs'].
    + destruct Hcon as (C1 & C2 & (b & C3) & C4). rewrite C4 in Hq. unfold event_word in Hq. rewrite <- app_assoc in Hq.
      assert (Hev' : Forall (fun e => e_lexemes e <> []) evs') by (rewrite C3 in Hev; apply Forall_app in Hev; apply Hev).
      destruct (IH s2 (e_target e) (e_lexemes e) evs' w q Hc2 (C2 Hev) Hev' ltac:(lia) Hq) as (s' & lx' & evs'' & I1 & I2 & I3 & I4 & I5).
      exists s', lx', evs''. split; [exact I1|]. split; [exact I2|]. split; [lia|]. split; [exact I4|exact I5].
    + destruct Hcon as (-> & k' & C4). rewrite C4 in Hq. exists s2, [], []. destruct fuel as [|fuel]; [lia|].
      split; [reflexivity|]. split; [exact Hc2|]. split; [cbn; lia|]. split; [constructor|]. right. split; [reflexivity|]. split; [reflexivity|].
      exists k'. exact Hq.
Qed.

Lemma leaves_run ts : forall s w, q_run (q_of s 0) (map Leaf ts ++ w)
  = q_run (q_of (TState _ _ _ _ _ _ (il_add (t_items _ _ _ _ _ _ s) (map IToken ts)) (t_stack _ _ _ _ _ _ s) (t_add _ _ _ _ _ _ s) (tcur s)) 0) w.
Proof.
  induction ts as [|t ts IH]; intros s w; [cbn; rewrite il_add_nil; destruct s; reflexivity|].
  cbn [map app q_run q_step q_of q_skip q_items q_stack q_add].
  specialize (IH (TState _ _ _ _ _ _ (il_add (t_items _ _ _ _ _ _ s) [IToken t]) (t_stack _ _ _ _ _ _ s) (t_add _ _ _ _ _ _ s) (tcur s)) w).
  cbn [t_items t_stack t_add t_cur] in IH. rewrite il_add_add in IH. exact IH.
Qed.

Lemma events_run fuel : forall s evs q, cur_ok (tcur s) -> Forall (fun e => e_lexemes e <> []) evs -> length evs <= fuel ->
  q_run (q_of s 0) (evs_word evs) = Some q ->
  (exists s', ttevents fuel s evs = Some s' /\ q = q_of s' 0) \/ (ttevents fuel s evs = None /\ 0 < q_skip q).
Proof.
  induction fuel as [|fuel IH]; intros s evs q Hc Hev Hf Hq; destruct evs as [|e evs]; try (cbn in Hf; lia);
    try (left; exists s; split; [reflexivity|]; injection Hq as <-; reflexivity).
  inversion Hev as [|? ? He Hev']; subst. cbn [length] in Hf. cbn [tt_events].
  assert (Hq0' : q_run (q_of s 0) (target_word (e_target e) ++ lx_word (e_lexemes e) ++ evs_word evs ++ []) = Some q).
  { rewrite app_nil_r. rewrite <- Hq. unfold evs_word at 2. cbn [map concat]. unfold event_word. rewrite <- app_assoc. reflexivity. }
  destruct (target_run (S (S (length evs))) s (e_target e) (e_lexemes e) evs [] q Hc He Hev' ltac:(lia) Hq0') as (s1 & lx1 & evs1 & T1 & T2 & T3 & T4 & T5).
  rewrite T1. destruct T5 as [(T5 & T6)|(-> & -> & k & T6)].
  - unfold py_make_tokens. destruct lx1 as [|x lx1]; [congruence|]. unfold lx_word in T6. rewrite leaves_run, app_nil_r in T6.
    match goal with |- context [ttevents fuel ?x0 evs1] => set (s2 := x0) in * end.
    exact (IH s2 evs1 q T2 T4 ltac:(lia) T6).
  - right. split; [reflexivity|]. injection T6 as <-. cbn. lia.
Qed.

(** ** Where the events end *)

Definition has (l : L) : Prop := meth l <> None.
Definition q_open (q : qstate) (open : list L) : Prop :=
  exists a b, open = a ++ b /\ length (q_stack q) = length a /\ Forall has a /\ length b = q_skip q
    /\ match b with [] => True | l :: _ => meth l = None end.

Definition sym_open (open : list L) (x : sym) : list L :=
  match x with Enter l => open ++ [l] | Exit => removelast open | Leaf _ => open end.

Lemma step_open q x q' open : q_open q open -> q_step q x = Some q' -> q_open q' (sym_open open x).
Proof.
  intros (a & b & -> & H1 & H2 & H3 & H4) E. unfold q_step in E. destruct (q_skip q) as [|k] eqn:Ek.
  - destruct b as [|? ?]; [|discriminate]. rewrite app_nil_r. destruct x as [l| |t]; cbn [sym_open].
    + destruct (meth l) as [m|] eqn:Em.
      * injection E as <-. exists (a ++ [l]), []. rewrite app_nil_r. cbn [q_stack q_skip length]. rewrite app_length. cbn [length].
        split; [reflexivity|]. split; [lia|]. split; [apply Forall_app; split; [assumption|]; constructor; [unfold has; congruence|constructor]|]. auto.
      * destruct (q_add q); [discriminate|]. injection E as <-. exists a, [l]. cbn [q_stack q_skip length]. auto.
    + destruct (q_stack q) as [|[[[old m] nm] add] st] eqn:Es; [discriminate|]. injection E as <-. cbn [length] in H1.
      destruct a as [|x a _] using rev_ind; [discriminate|]. rewrite removelast_app1. exists a, []. rewrite app_nil_r. rewrite app_length in H1. cbn [length q_stack q_skip] in *.
      split; [reflexivity|]. split; [lia|]. split; [apply Forall_app in H2; apply H2|]. auto.
    + injection E as <-. exists a, []. rewrite app_nil_r. cbn [q_stack q_skip length]. auto.
  - injection E as <-. destruct b as [|l0 b]; [discriminate|]. cbn [length] in H3. injection H3 as H3. destruct x as [l| |t]; cbn [sym_open].
    + exists a, (l0 :: b ++ [l]). cbn [q_stack q_skip length]. rewrite app_length. cbn [length]. rewrite <- app_assoc. cbn [app]. repeat split; auto. lia.
    + destruct b as [|x b _] using rev_ind.
      * cbn in H3. subst k. rewrite removelast_app1. exists a, []. rewrite app_nil_r. cbn [q_stack q_skip length]. auto.
      * replace (a ++ l0 :: b ++ [x]) with ((a ++ l0 :: b) ++ [x]) by (rewrite <- app_assoc; reflexivity). rewrite removelast_app1.
        exists a, (l0 :: b). rewrite app_length in H3. cbn [length q_stack q_skip] in *. repeat split; auto. lia.
    + exists a, (l0 :: b). cbn [q_stack q_skip length]. repeat split; auto.
Qed.
Lemma run_open w : forall q q' open, q_open q open -> q_run q w = Some q' -> q_open q' (fold_left sym_open w open).
Proof.
  induction w as [|x w IH]; intros q q' open H E; cbn [q_run fold_left] in *; [injection E as <-; exact H|].
  destruct (q_step q x) as [q1|] eqn:E1; [|discriminate]. exact (IH _ _ _ (step_open _ _ _ _ H E1) E).
Qed.

Lemma open_evs evs : forall root stack, stream_ok L A (root :: stack) evs ->
  replay (root :: stack) evs = root :: fold_left sym_open (evs_word evs) stack.
Proof.
  induction evs as [|e evs IH]; intros root stack Hs; [reflexivity|]. destruct Hs as (H1 & H2 & H3).
  assert (EW : evs_word (e :: evs) = target_word (e_target e) ++ map Leaf (make_tokens (e_lexemes e)) ++ evs_word evs).
  { unfold evs_word. cbn [map concat]. unfold event_word at 1. rewrite <- !app_assoc. reflexivity. }
  rewrite EW, !fold_left_app.
  assert (HL : forall ts st, fold_left sym_open (map Leaf ts) st = st) by (induction ts as [|t ts IHt]; intros st; [reflexivity|exact (IHt st)]).
  rewrite HL.
  assert (Hf : follow (root :: stack) (e_target e) = root :: fold_left sym_open (target_word (e_target e)) stack).
  { destruct (e_target e) as [t|]; [|reflexivity]. cbn [follow target_word]. rewrite fold_left_app.
    assert (HE : forall ls st, fold_left sym_open (map Enter ls) st = st ++ ls).
    { induction ls as [|l ls IHl]; intros st; [cbn; rewrite app_nil_r; reflexivity|]. cbn [map fold_left sym_open]. rewrite IHl, <- app_assoc. reflexivity. }
    rewrite HE. cbn [keeps_root] in H1. change (root :: fold_left sym_open (repeat Exit (t_pop t)) stack ++ t_push t)
      with ((root :: fold_left sym_open (repeat Exit (t_pop t)) stack) ++ t_push t). f_equal.
    cbn [length] in H1. clear - H1. revert stack H1. induction (t_pop t) as [|n IHn]; intros stack H1.
    - unfold drop_last. cbn [repeat fold_left]. rewrite Nat.sub_0_r. apply firstn_all.
    - cbn [repeat fold_left sym_open]. destruct stack as [|x stack _] using rev_ind; [cbn in H1; lia|]. rewrite removelast_app1. rewrite app_length in H1. cbn [length] in H1.
      rewrite <- IHn by lia. unfold drop_last. cbn [length]. rewrite app_length. cbn [length].
      change (root :: stack ++ [x]) with ((root :: stack) ++ [x]). rewrite firstn_app. cbn [length].
      replace (S (length stack + 1) - S n - S (length stack)) with 0 by lia. cbn [firstn]. rewrite app_nil_r. f_equal. lia. }
  change (replay (root :: stack) (e :: evs)) with (replay (follow (root :: stack) (e_target e)) evs). rewrite Hf in *. apply IH. exact H3.
Qed.

Notation ttext := (transform_text L A R Lang Name Arg lang name arg lang_is get_transform).
Notation mean := (meaning lang name arg get_transform).

Lemma quiet_all cs add : (fix all cs := match cs with [] => True | c :: cs => quiet add c /\ all cs end) cs -> Forall (quiet add) cs.
Proof. induction cs as [|c cs IH]; intros H; constructor; [apply H|apply IH, H]. Qed.

Lemma replay_root evs : forall root stack, stream_ok L A (root :: stack) evs -> exists st, replay (root :: stack) evs = root :: st.
Proof. intros. eexists. apply open_evs. assumption. Qed.

Lemma text_ok root evs tree : stream_ok L A [root] evs -> build_tree root evs = Some tree -> quiet false tree ->
  (Forall has (tl (replay [root] evs)) \/ meth root = None -> ttext root evs = Some (mean tree))
  /\ (~ Forall has (tl (replay [root] evs)) -> meth root <> None -> ttext root evs = None).
Proof.
  intros Hst Hb Hq. destruct (build_tree_ok L A root evs Hst) as (cs & Hb' & Hw & _). rewrite Hb in Hb'. injection Hb' as ->.
  unfold transform_text. cbn [none_untransformed] in Hq. cbn [cur_init snd]. change (get_transform (lang root) (name root)) with (meth root). unfold meaning.
  destruct (meth root) as [m|] eqn:Em; cbn [option_map]; [|split; [reflexivity|congruence]].
  apply quiet_all in Hq. pose proof (q_words cs (ItemList (arg root) []) [] (m_untransformed m) [] Hq) as Hrun. rewrite app_nil_r, Hw in Hrun.
  cbn [q_run] in Hrun. fold (evs_word evs) in Hrun.
  set (s0 := TState L A R Lang Name Arg (ItemList (arg root) []) [] (m_untransformed m) (lang root, get_transform (lang root))).
  change (QState (ItemList (arg root) []) [] (m_untransformed m) 0) with (q_of s0 0) in Hrun.
  assert (Hev : Forall (fun e => e_lexemes e <> []) evs).
  { clear - Hst. revert Hst. generalize [root]. induction evs as [|e evs IH]; intros st Hst; constructor; [apply Hst|]. destruct Hst as (_ & _ & H). exact (IH _ H). }
  assert (Ho : q_open (q_of s0 0) []) by (exists [], []; cbn; repeat split; auto).
  assert (Hq0 : exists q0, q_run (q_of s0 0) (evs_word evs) = Some q0) by (rewrite q_run_app in Hrun; destruct (q_run (q_of s0 0) (evs_word evs)); [eauto|discriminate]).
  destruct Hq0 as (q0 & Hq0). pose proof (run_open _ _ _ _ Ho Hq0) as Hopen. rewrite (open_evs evs root [] Hst) in *. cbn [tl length] in *.
  destruct Hopen as (a & b & Hab & O1 & O2 & O3 & O4). rewrite q_run_app, Hq0 in Hrun.
  destruct (events_run (length evs) s0 evs q0 eq_refl Hev (le_n _) Hq0) as [(s' & E1 & ->)|(E1 & E2)]; unfold s0, cur_init in *; rewrite E1.
  - cbn [q_of q_skip q_stack] in O1, O3. destruct b as [|? ?]; [|discriminate]. rewrite app_nil_r in Hab. split; [intros _|intros H; rewrite Hab in H; contradiction].
    rewrite O1, <- Hab. rewrite <- (app_nil_r (repeat Exit _)), pops_run in Hrun.
    replace (S (length (fold_left sym_open (evs_word evs) [])) - 1) with (length (fold_left sym_open (evs_word evs) [])) in Hrun by lia.
    destruct (ttpops _ s') as [s''|]; [|discriminate]. cbn [q_run] in Hrun. injection Hrun as Hi _ _. unfold q_of in Hi. rewrite Hi. reflexivity.
  - destruct b as [|l b]; [cbn in O3; lia|]. split; [|intros _ _; reflexivity]. intros [H|H]; [|discriminate]. exfalso. rewrite Hab in H. apply Forall_app in H as [_ H]. inversion H as [|? ? Hl _]. exact (Hl O4).
Qed.

End Proofs.
