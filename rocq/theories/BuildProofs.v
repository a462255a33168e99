(** Proofs about building a tree from events. *)
From Verif Require Import Base BaseFacts TargetModel TargetSpec LexerModel LexerSpec LexerProofs
  TreeModel TreeSpec TreeProofs BuildModel.
From Coq Require Import ZArith ZifyBool.

Section Proofs.
Variables L A : Type.
Notation node := (node L A).
Notation tok := (tok A).
Implicit Types (n c : node) (cs ns : list node) (t : tok) (ts : list tok) (w : list (sym L A)).

(** ** Words *)

Lemma word_ctx l cs : word (Ctx l cs) = Enter l :: words cs ++ [Exit].
Proof.
  cbn [word]. do 2 f_equal. unfold words. induction cs as [|c cs IH]; [reflexivity|].
  simpl. f_equal. exact IH.
Qed.

Lemma words_cons c cs : words (c :: cs) = word c ++ words cs.
Proof. reflexivity. Qed.
Lemma words_app a b : words (a ++ b : list node) = words a ++ words b.
Proof. unfold words. rewrite map_app, concat_app. reflexivity. Qed.
Lemma words_toks ts : words (map (@Tok L A) ts) = map Leaf ts.
Proof. unfold words. rewrite map_map. induction ts as [|t ts IH]; [reflexivity|]. simpl in *. rewrite IH. reflexivity. Qed.

(** A word determines the tree. *)
Lemma word_cancel n : forall n' w w', word n ++ w = word n' ++ w' -> n = n' /\ w = w'.
Proof.
  induction n as [t|l cs IH] using node_ind'; intros [t'|l' cs'] w w' E.
  - simpl in E. injection E as -> ->. auto.
  - rewrite word_ctx in E. discriminate.
  - rewrite word_ctx in E. discriminate.
  - rewrite !word_ctx in E. simpl in E. injection E as -> E. rewrite <- !app_assoc in E. simpl in E.
    assert (G : forall cs' , words cs ++ Exit :: w = words cs' ++ Exit :: w' -> cs = cs' /\ w = w').
    { clear cs' E. induction IH as [|c cs Hc _ IHcs]; intros [|c' cs'] E.
      - simpl in E. injection E as ->. auto.
      - rewrite words_cons in E. destruct c'; [discriminate|rewrite word_ctx in E; discriminate].
      - rewrite words_cons in E. destruct c; [discriminate|rewrite word_ctx in E; discriminate].
      - rewrite !words_cons, <- !app_assoc in E. apply Hc in E as [-> E].
        apply IHcs in E as [-> ->]. auto. }
    apply G in E as [-> ->]. auto.
Qed.

Lemma words_inj cs cs' : words cs = words cs' -> cs = cs'.
Proof.
  revert cs'; induction cs as [|c cs IH]; intros [|c' cs'] E; [reflexivity| | |].
  - rewrite words_cons in E. destruct c'; [discriminate|rewrite word_ctx in E; discriminate].
  - rewrite words_cons in E. destruct c; [discriminate|rewrite word_ctx in E; discriminate].
  - rewrite !words_cons in E. apply word_cancel in E as [-> E]. f_equal. apply IH, E.
Qed.

(** Tokens with their ancestors, read from a word. *)
Fixpoint wleaves (up : list L) w : list (list L * tok) :=
  match w with
  | [] => []
  | Enter l :: w => wleaves (up ++ [l]) w
  | Exit :: w => wleaves (drop_last 1 up) w
  | Leaf t :: w => (up, t) :: wleaves up w
  end.

Lemma leaves_ctx up l cs : leaves up (Ctx l cs) = concat (map (leaves (up ++ [l])) cs).
Proof. simpl. induction cs as [|c cs IH]; [reflexivity|]. simpl. f_equal. exact IH. Qed.

Lemma wleaves_word n : forall up w, wleaves up (word n ++ w) = leaves up n ++ wleaves up w.
Proof.
  induction n as [t|l cs IH] using node_ind'; intros up w; [reflexivity|].
  rewrite word_ctx, leaves_ctx. simpl. rewrite <- app_assoc. simpl.
  assert (G : forall w', wleaves (up ++ [l]) (words cs ++ w') =
              concat (map (leaves (up ++ [l])) cs) ++ wleaves (up ++ [l]) w').
  { induction IH as [|c cs Hc _ IHcs]; intros w'; [reflexivity|].
    rewrite words_cons, <- app_assoc, Hc, IHcs. simpl. rewrite <- app_assoc. reflexivity. }
  rewrite G. simpl. rewrite drop_last_app by (simpl; lia).
  replace (drop_last 1 [l]) with (@nil L) by reflexivity. rewrite app_nil_r. reflexivity.
Qed.

Lemma wleaves_words cs : forall up w,
  wleaves up (words cs ++ w) = concat (map (leaves up) cs) ++ wleaves up w.
Proof.
  induction cs as [|c cs IH]; intros up w; [reflexivity|].
  rewrite words_cons, <- app_assoc, wleaves_word, IH. simpl. rewrite <- app_assoc. reflexivity.
Qed.

Lemma wleaves_exits up k : wleaves up (repeat Exit k) = [].
Proof. revert up; induction k as [|k IH]; intros up; simpl; auto. Qed.

Lemma wleaves_event up e w :
  wleaves up (event_word e ++ w) =
  map (pair (follow up (e_target e))) (make_tokens (e_lexemes e)) ++ wleaves (follow up (e_target e)) w.
Proof.
  unfold event_word. rewrite <- app_assoc.
  assert (G : forall up ts, wleaves up (map Leaf ts ++ w) = map (pair up) ts ++ wleaves up w).
  { intros up' ts. induction ts as [|t ts IH]; simpl; congruence. }
  assert (Gx : forall k up w', wleaves up (repeat Exit k ++ w') = wleaves (drop_last k up) w').
  { induction k as [|k IH]; intros up' w'; simpl; [rewrite drop_last_0; reflexivity|].
    rewrite IH, drop_last_drop_last. reflexivity. }
  assert (Ge : forall ls up w', wleaves up (map Enter ls ++ w') = wleaves (up ++ ls) w').
  { induction ls as [|l ls IH]; intros up' w'; simpl; [rewrite app_nil_r; reflexivity|].
    rewrite IH, <- app_assoc. reflexivity. }
  unfold target_word, follow. destruct (e_target e) as [tg|]; [|apply G].
  rewrite <- app_assoc, Gx, Ge. apply G.
Qed.

Lemma wleaves_flatten n : map snd (leaves [] n) = flatten n.
Proof.
  generalize (@nil L) as up. induction n as [t|l cs IH] using node_ind'; intros up; [reflexivity|].
  rewrite leaves_ctx, flatten_ctx. unfold flat. rewrite concat_map. f_equal. rewrite map_map.
  apply map_ext_Forall. apply Forall_impl with (2 := IH). intros c H. apply H.
Qed.

(** ** No empty contexts *)

Fixpoint no_empty w : Prop :=
  match w with
  | Enter _ :: ((Exit :: _) as w') => False
  | _ :: w' => no_empty w'
  | [] => True
  end.

Lemma no_empty_app w w' : no_empty (w ++ w') -> no_empty w /\ no_empty w'.
Proof.
  induction w as [|x w IH]; simpl; [auto|]. intros H.
  destruct x; [|auto|auto]. destruct w as [|y w].
  - simpl in *. split; [exact I|]. destruct w' as [|[]]; [exact I|exact H|destruct H|exact H].
  - simpl app in H. destruct y; [apply IH in H; auto|destruct H|apply IH in H; auto].
Qed.

Lemma no_empty_full n : no_empty (word n) -> full n.
Proof.
  induction n as [t|l cs IH] using node_ind'; intros H; [constructor|].
  rewrite word_ctx in H. constructor.
  - intros ->. destruct H.
  - assert (Hw : no_empty (words cs)).
    { change (Enter l :: words cs ++ [Exit]) with ([Enter l] ++ words cs ++ [Exit]) in H.
      apply no_empty_app in H as [_ H]. apply no_empty_app in H as [H _]. exact H. }
    clear H. induction IH as [|c cs Hc _ IHcs]; constructor.
    + apply Hc. rewrite words_cons in Hw. apply no_empty_app in Hw as [Hw _]. exact Hw.
    + apply IHcs. rewrite words_cons in Hw. apply no_empty_app in Hw as [_ Hw]. exact Hw.
Qed.

Lemma no_empty_words cs : no_empty (words cs) -> Forall full cs.
Proof.
  induction cs as [|c cs IH]; intros H; constructor; rewrite words_cons in H;
    apply no_empty_app in H as [H1 H2]; [apply no_empty_full, H1|auto].
Qed.

Lemma no_empty_event e w : make_tokens (e_lexemes e) <> [] -> no_empty w -> no_empty (event_word e ++ w).
Proof.
  intros Hne Hw. unfold event_word. rewrite <- app_assoc.
  assert (Hl : no_empty (map Leaf (make_tokens (e_lexemes e)) ++ w)
               /\ exists t w', map Leaf (make_tokens (e_lexemes e)) ++ w = Leaf t :: w').
  { split.
    - clear Hne. induction (make_tokens (e_lexemes e)) as [|t ts IH]; simpl; auto.
    - destruct (make_tokens (e_lexemes e)) as [|t ts]; [congruence|]. simpl. eauto. }
  destruct Hl as (Hl & t & w' & E). revert Hl E.
  generalize (map Leaf (make_tokens (e_lexemes e)) ++ w) as v. intros v Hv E.
  unfold target_word. destruct (e_target e) as [tg|]; [|exact Hv]. rewrite <- app_assoc.
  assert (He : no_empty (map Enter (t_push tg) ++ v)).
  { induction (t_push tg) as [|l ls IH]; [exact Hv|]. simpl.
    destruct ls as [|l' ls]; [subst v; exact Hv|exact IH]. }
  induction (t_pop tg) as [|k IH]; [exact He|exact IH].
Qed.

(** ** Appending on the right edge of a tree *)

Fixpoint spine_ok (d : nat) n : Prop :=
  match n with
  | Tok _ => False
  | Ctx _ cs => match d with
                | 0 => True
                | S d => match last_opt cs with None => False | Some c => spine_ok d c end
                end
  end.

Lemma removelast_app1 {T} (l : list T) x : removelast (l ++ [x]) = l.
Proof. rewrite removelast_app by discriminate. apply app_nil_r. Qed.

Lemma spine_app_word d : forall n, spine_ok d n ->
  exists w, words (children n) = w ++ repeat Exit d /\
    forall ns, words (children (spine_app d n ns)) = w ++ words ns ++ repeat Exit d.
Proof.
  induction d as [|d IH]; intros [t|l cs] H; try destruct H.
  - exists (words cs). simpl. split; [rewrite app_nil_r; reflexivity|].
    intros ns. rewrite words_app, app_nil_r. reflexivity.
  - simpl in H. destruct (last_opt cs) as [c|] eqn:E; [|destruct H].
    pose proof E as E'. apply last_opt_some in E as [cs' ->].
    destruct (IH c H) as (w & Hw & Hns). destruct c as [t|l' cs'']; [destruct d; destruct H|].
    exists (words cs' ++ Enter l' :: w). split.
    + simpl children. rewrite words_app, words_cons, word_ctx. simpl children in Hw. rewrite Hw.
      change (words []) with (@nil (sym L A)). rewrite app_nil_r, <- !app_assoc.
      rewrite <- repeat_cons. reflexivity.
    + intros ns. specialize (Hns ns). cbn [spine_app]. rewrite E'. simpl children.
      rewrite removelast_app1, words_app, words_cons. change (words []) with (@nil (sym L A)).
      rewrite app_nil_r, <- app_assoc. f_equal.
      assert (Hctx : exists cs3, spine_app d (Ctx l' cs'') ns = Ctx l' cs3).
      { destruct d; simpl; [eauto|]. destruct (last_opt cs''); eauto. }
      destruct Hctx as (cs3 & Hctx). rewrite Hctx in *. simpl children in Hns.
      rewrite word_ctx, Hns, <- !app_assoc. rewrite <- repeat_cons. reflexivity.
Qed.

Lemma spine_app_ok d : forall n ns, spine_ok d n -> spine_ok d (spine_app d n ns).
Proof.
  induction d as [|d IH]; intros [t|l cs] ns H; try destruct H.
  - exact I.
  - simpl in *. destruct (last_opt cs) as [c|] eqn:E; [|destruct H]. simpl. rewrite last_opt_app. auto.
Qed.

Lemma spine_app_push d : forall n l, spine_ok d n -> spine_ok (S d) (spine_app d n [Ctx l []]).
Proof.
  induction d as [|d IH]; intros [t|l' cs] l H; try destruct H.
  - simpl. rewrite last_opt_app. exact I.
  - simpl in H. destruct (last_opt cs) as [c|] eqn:E; [|destruct H].
    change (spine_ok (S (S d)) (match last_opt cs with None => Ctx l' cs
            | Some c => Ctx l' (removelast cs ++ [spine_app d c [Ctx l []]]) end)).
    rewrite E.
    change (match last_opt (removelast cs ++ [spine_app d c [Ctx l []]]) with
            | None => False | Some c => spine_ok (S d) c end).
    rewrite last_opt_app. apply IH, H.
Qed.

Lemma spine_ok_le d : forall d' n, d' <= d -> spine_ok d n -> spine_ok d' n.
Proof.
  induction d as [|d IH]; intros d' n Hd H.
  - replace d' with 0 by lia. exact H.
  - destruct d' as [|d']; [destruct n; [destruct H|exact I]|].
    destruct n as [t|l cs]; [destruct H|]. simpl in *. destruct (last_opt cs); [|destruct H].
    apply IH; [lia|assumption].
Qed.

Lemma ag_inv l cs : all_grouped (Ctx l cs) -> grouped cs /\ Forall all_grouped cs.
Proof. inversion 1; auto. Qed.

Lemma spine_app_grouped d : forall n ns, all_grouped n -> grouped ns -> Forall all_grouped ns ->
  all_grouped (spine_app d n ns).
Proof.
  induction d as [|d IH]; intros [t|l cs] ns Hn Hg Hns; try exact Hn.
  - inversion Hn as [|? ? (ch & E & Hch) HF]; subst. simpl. constructor.
    + destruct Hg as (ch' & -> & Hch'). exists (ch ++ ch'). rewrite concat_app. split; [reflexivity|].
      apply Forall_app; auto.
    + apply Forall_app; auto.
  - simpl. destruct (last_opt cs) as [c|] eqn:E; [|exact Hn].
    apply last_opt_some in E as [cs' ->]. rewrite removelast_app1.
    apply ag_inv in Hn as ((ch & E & Hch) & HF). apply Forall_app in HF as [HF1 HF2].
    inversion HF2; subst.
    destruct c as [t|lc csc].
    { destruct d; simpl; (constructor; [exists ch; auto|apply Forall_app; auto]). }
    assert (Hctx : exists cs3, spine_app d (Ctx lc csc) ns = Ctx lc cs3).
    { destruct d; simpl; [eauto|]. destruct (last_opt csc); eauto. }
    destruct Hctx as (cs3 & Hctx). pose proof (IH (Ctx lc csc) ns H1 Hg Hns) as Hg3. rewrite Hctx in *.
    constructor; [|apply Forall_app; split; [assumption|constructor; [assumption|constructor]]].
    (* the last chunk is the context *)
    assert (Hlast : exists ch', ch = ch' ++ [[Ctx lc csc]] \/ exists k, ch = ch' ++ [Ctx lc csc] :: repeat [] k).
    { clear -E Hch.
      revert cs' E. induction Hch as [|x ch Hx Hch IHch]; intros cs' E.
      - destruct cs'; discriminate.
      - destruct (concat ch) as [|y r] eqn:Ec.
        + simpl in E. rewrite Ec, app_nil_r in E. 
          exists []. right. exists (length ch). simpl. f_equal.
          * destruct Hx as [l cs0|t Ht|ts Ht].
            -- destruct cs' as [|? [|]]; simpl in E; inversion E. reflexivity.
            -- destruct cs' as [|? [|]]; simpl in E; inversion E.
            -- exfalso. destruct Ht as [Hlen _].
               assert (Hin : In (Ctx lc csc) (map Tok ts)) by (rewrite <- E; apply in_or_app; right; left; reflexivity).
               apply in_map_iff in Hin as (t & ? & _). discriminate.
          * clear -Ec. induction ch as [|x ch IH]; [reflexivity|]. simpl in *.
            apply app_eq_nil in Ec as [-> Ec]. f_equal. auto.
        + assert (Hne : concat ch <> []) by congruence.
          assert (Hsuf : exists cs2, concat ch = cs2 ++ [Ctx lc csc]).
          { simpl in E. rewrite Ec in E.
            assert (Hl : last_opt (x ++ y :: r) = Some (Ctx lc csc)) by (rewrite <- E; apply last_opt_app).
            rewrite last_opt_app_r in Hl by discriminate. apply last_opt_some in Hl. rewrite <- Ec in Hl. rewrite Ec. rewrite <- Ec. exact Hl. }
          destruct Hsuf as (cs2 & E2). rewrite <- Ec in IHch.
          destruct (IHch cs2 (eq_sym E2)) as (ch' & [->|(k & ->)]).
          * exists (x :: ch'). left. reflexivity.
          * exists (x :: ch'). right. exists k. reflexivity. }
    destruct Hlast as (ch' & [->|(k & ->)]).
    + exists (ch' ++ [[Ctx lc cs3]]). apply Forall_app in Hch as [Hch1 _].
      rewrite concat_app in E |- *. simpl in *. apply app_inj_tail in E as [-> _].
      split; [reflexivity|]. apply Forall_app; split; [assumption|]. constructor; [constructor|constructor].
    + exists (ch' ++ [[Ctx lc cs3]]). apply Forall_app in Hch as [Hch1 _].
      assert (Hrep : concat (repeat (@nil node) k) = []) by (clear; induction k; simpl; auto).
      rewrite concat_app in E |- *. simpl in *. rewrite Hrep in E. apply app_inj_tail in E as [-> _].
      split; [reflexivity|]. apply Forall_app; split; [assumption|]. constructor; [constructor|constructor].
Qed.

(** ** make_tokens *)


Lemma make_group_lexemes xs : forall n : nat, map (@lexeme_of A) (make_group_from n xs) = xs.
Proof.
  induction xs as [|x xs IH]; intros n; [reflexivity|]. destruct xs as [|y xs].
  - destruct x; reflexivity.
  - change (make_group_from n (x :: y :: xs))
      with (Token (x_pos x) (x_text x) (x_act x) (Some (Z.of_nat n)) :: make_group_from (S n) (y :: xs)).
    cbn [map]. rewrite IH. destruct x; reflexivity.
Qed.

Lemma make_tokens_lexemes (xs : list (lexeme A)) : map lexeme_of (make_tokens xs) = xs.
Proof.
  destruct xs as [|x [|y xs]]; [reflexivity|destruct x; reflexivity|apply make_group_lexemes].
Qed.

Lemma make_tokens_nonempty (xs : list (lexeme A)) : xs <> [] -> make_tokens xs <> [].
Proof. intros H E. apply H. rewrite <- (make_tokens_lexemes xs), E. reflexivity. Qed.

Lemma make_group_length (xs : list (lexeme A)) : forall n : nat, length (make_group_from n xs) = length xs.
Proof. intros n. rewrite <- (make_group_lexemes xs n) at 2. rewrite map_length. reflexivity. Qed.

Lemma make_group_groups (xs : list (lexeme A)) : forall (n i : nat) t, nth_error (make_group_from n xs) i = Some t ->
  k_group t = Some (if i =? length xs - 1 then (- Z.of_nat (n + i))%Z else Z.of_nat (n + i)).
Proof.
  induction xs as [|x xs IH]; intros n i t H; [destruct i; discriminate|]. destruct xs as [|y xs].
  - destruct i as [|[|i]]; try discriminate. injection H as <-. simpl. f_equal. lia.
  - change (make_group_from n (x :: y :: xs))
      with (Token (x_pos x) (x_text x) (x_act x) (Some (Z.of_nat n)) :: make_group_from (S n) (y :: xs)) in H.
    destruct i as [|i].
    + injection H as <-. simpl. f_equal. lia.
    + cbn [nth_error] in H. apply IH in H. rewrite H. simpl length. replace (S n + i) with (n + S i) by lia.
      destruct (i =? S (length xs) - 1) eqn:E1; destruct (S i =? S (S (length xs)) - 1) eqn:E2; try reflexivity; lia.
Qed.

Lemma make_tokens_grouped (xs : list (lexeme A)) : grouped (map (@Tok L A) (make_tokens xs)).
Proof.
  destruct xs as [|x [|y xs]].
  - exists []. split; [reflexivity|constructor].
  - exists [[Tok (Token (x_pos x) (x_text x) (x_act x) None)]]. split; [reflexivity|].
    constructor; [constructor; reflexivity|constructor].
  - exists [map Tok (make_tokens (x :: y :: xs))]. split; [simpl; rewrite app_nil_r; reflexivity|].
    constructor; [|constructor]. constructor. split.
    + unfold make_tokens. rewrite make_group_length. simpl. lia.
    + intros i t H. unfold make_tokens in H |- *. rewrite make_group_length.
      apply make_group_groups in H. exact H.
Qed.

(** ** Building *)

Definition b_ok (s : bstate L A) : Prop := spine_ok (b_depth s) (b_root s) /\ all_grouped (b_root s).

Lemma grouped_ctx l cs : grouped [@Ctx L A l cs].
Proof. exists [[Ctx l cs]]. split; [reflexivity|]. constructor; [constructor|constructor]. Qed.

Lemma ag_empty l : all_grouped (@Ctx L A l []).
Proof. constructor; [exists []; split; [reflexivity|constructor]|constructor]. Qed.

(** The word of a tree without the brackets that are still open. *)
Definition b_word (s : bstate L A) w : Prop := words (children (b_root s)) = w ++ repeat Exit (b_depth s).

Lemma repeat_app_cancel {T} (x : T) (w v : list T) k : w ++ repeat x k = v ++ repeat x k -> w = v.
Proof. apply app_inv_tail. Qed.

Lemma b_push_ok s l w : b_ok s -> b_word s w ->
  b_ok (b_push s l) /\ b_word (b_push s l) (w ++ [Enter l]) /\ b_depth (b_push s l) = S (b_depth s).
Proof.
  intros [Hs Hg] Hw. unfold b_ok, b_word, b_push. simpl b_root. simpl b_depth.
  split; [split|split; [|reflexivity]].
  - apply spine_app_push, Hs.
  - apply spine_app_grouped; [assumption|apply grouped_ctx|constructor; [apply ag_empty|constructor]].
  - destruct (spine_app_word _ _ Hs) as (w' & E & Hns). unfold b_word in Hw. rewrite Hw in E.
    apply repeat_app_cancel in E as <-. rewrite Hns, words_cons, word_ctx. simpl.
    rewrite <- app_assoc. reflexivity.
Qed.

Lemma b_pushes_ok ls : forall s w, b_ok s -> b_word s w ->
  b_ok (fold_left b_push ls s) /\ b_word (fold_left b_push ls s) (w ++ map Enter ls)
  /\ b_depth (fold_left b_push ls s) = b_depth s + length ls.
Proof.
  induction ls as [|l ls IH]; intros s w Hs Hw; simpl.
  - rewrite app_nil_r. auto.
  - destruct (b_push_ok s l w Hs Hw) as (H1 & H2 & H3). destruct (IH _ _ H1 H2) as (H4 & H5 & H6).
    split; [assumption|]. split; [rewrite <- app_assoc in H5; exact H5|]. rewrite H6, H3. lia.
Qed.

Lemma b_event_ok s e w : b_ok s -> b_word s w ->
  (match e_target e with None => True | Some t => t_pop t <= b_depth s end) ->
  exists s', b_event s e = Some s' /\ b_ok s' /\ b_word s' (w ++ event_word e) /\
    b_depth s' = match e_target e with None => b_depth s
                 | Some t => b_depth s - t_pop t + length (t_push t) end.
Proof.
  intros Hs Hw Ht. unfold b_event.
  assert (G : exists s1, (match e_target e with
         | None => Some s
         | Some t => if t_pop t <=? b_depth s
                     then Some (fold_left b_push (t_push t) (BState (b_root s) (b_depth s - t_pop t)))
                     else None end) = Some s1 /\ b_ok s1 /\ b_word s1 (w ++ target_word (e_target e)) /\
         b_depth s1 = match e_target e with None => b_depth s
                 | Some t => b_depth s - t_pop t + length (t_push t) end).
  { destruct (e_target e) as [t|].
    - destruct (t_pop t <=? b_depth s) eqn:E; [|lia].
      assert (H0 : b_ok (BState (b_root s) (b_depth s - t_pop t))).
      { split; simpl; [apply (spine_ok_le (b_depth s)); [lia|apply Hs]|apply Hs]. }
      assert (H1 : b_word (BState (b_root s) (b_depth s - t_pop t)) (w ++ repeat Exit (t_pop t))).
      { unfold b_word in *. simpl. rewrite Hw, <- app_assoc, <- repeat_app. do 2 f_equal. lia. }
      destruct (b_pushes_ok (t_push t) _ _ H0 H1) as (H2 & H3 & H4).
      eexists. split; [reflexivity|]. split; [assumption|]. split; [|rewrite H4; reflexivity].
      simpl. rewrite <- app_assoc in H3. exact H3.
    - exists s. simpl. rewrite app_nil_r. auto. }
  destruct G as (s1 & -> & Hs1 & Hw1 & Hd). eexists. split; [reflexivity|].
  destruct Hs1 as [Hsp Hgr]. split; [split|split].
  - simpl. apply spine_app_ok, Hsp.
  - simpl. apply spine_app_grouped; [assumption|apply make_tokens_grouped|].
    apply Forall_forall. intros n Hn. apply in_map_iff in Hn as (t & <- & _). constructor.
  - unfold b_word in *. simpl. destruct (spine_app_word _ _ Hsp) as (w' & E & Hns). rewrite Hw1 in E.
    apply repeat_app_cancel in E as <-. rewrite Hns, words_toks. unfold event_word.
    rewrite <- !app_assoc. reflexivity.
  - simpl. exact Hd.
Qed.

(** Every target in a stream leaves the bottom of the stack alone. *)
Fixpoint stream_ok (stack : list L) (evs : list (event L A)) : Prop :=
  match evs with
  | [] => True
  | e :: evs => keeps_root stack (e_target e) /\ e_lexemes e <> [] /\ stream_ok (follow stack (e_target e)) evs
  end.

Lemma follow_length stack (t : option (target L)) : keeps_root stack t ->
  length (follow stack t) = match t with None => length stack
    | Some t => length stack - t_pop t + length (t_push t) end.
Proof.
  destruct t as [t|]; [|reflexivity]. simpl. intros H. rewrite app_length, drop_last_length. reflexivity.
Qed.

Lemma b_events_ok evs : forall s w stack, b_ok s -> b_word s w -> stream_ok stack evs ->
  length stack = S (b_depth s) ->
  exists s', b_events s evs = Some s' /\ b_ok s' /\ b_word s' (w ++ concat (map event_word evs)) /\
    S (b_depth s') = length (replay stack evs).
Proof.
  induction evs as [|e evs IH]; intros s w stack Hs Hw Hst Hlen; simpl.
  - exists s. rewrite app_nil_r. auto.
  - destruct Hst as (Hk & Hne & Hst).
    destruct (b_event_ok s e w Hs Hw) as (s' & E & H1 & H2 & H3).
    { destruct (e_target e) as [t|]; [|exact I]. simpl in Hk. lia. }
    rewrite E. destruct (IH s' _ (follow stack (e_target e)) H1 H2 Hst) as (s'' & E' & H4 & H5 & H6).
    + rewrite follow_length by assumption. rewrite H3. destruct (e_target e) as [t|]; [|assumption].
      simpl in Hk. lia.
    + exists s''. split; [assumption|]. split; [assumption|]. split; [|exact H6].
      rewrite app_assoc. exact H5.
Qed.

Lemma build_tree_ok l evs : stream_ok [l] evs ->
  exists cs, build_tree l evs = Some (Ctx l cs) /\
    words cs = concat (map event_word evs) ++ repeat Exit (length (replay [l] evs) - 1) /\
    all_grouped (Ctx l cs).
Proof.
  intros Hst. unfold build_tree.
  destruct (b_events_ok evs (BState (Ctx l []) 0) [] [l]) as (s' & E & [H1 H1'] & H2 & H3).
  - split; [exact I|apply ag_empty].
  - reflexivity.
  - assumption.
  - reflexivity.
  - rewrite E. simpl.
    assert (Hroot : forall evs s s', (exists cs, b_root s = Ctx l cs) -> b_events s evs = Some s' ->
                     exists cs, b_root s' = Ctx l cs).
    { clear. induction evs as [|e evs IH]; intros s s' Hs E; simpl in E; [injection E as <-; assumption|].
      destruct (b_event s e) as [s1|] eqn:E1; [|discriminate]. apply (IH s1 s'); [|assumption].
      assert (Hsp : forall d n ns, (exists cs, n = Ctx l cs) -> exists cs, spine_app d n ns = Ctx l cs).
      { clear. intros d n ns (cs & ->). destruct d; simpl; [eauto|]. destruct (last_opt cs); eauto. }
      assert (Hpu : forall ls s, (exists cs, b_root s = Ctx l cs) -> exists cs, b_root (fold_left b_push ls s) = Ctx l cs).
      { induction ls as [|x ls IHl]; intros s0 H0; simpl; [assumption|]. apply IHl. simpl. apply Hsp, H0. }
      unfold b_event in E1. destruct (e_target e) as [t|].
      - destruct (t_pop t <=? b_depth s); [|discriminate]. injection E1 as <-. simpl. apply Hsp, Hpu, Hs.
      - injection E1 as <-. simpl. apply Hsp, Hs. }
    destruct (Hroot _ (BState (Ctx l []) 0) _ (ex_intro _ [] eq_refl) E) as (cs & Hcs).
    exists cs. rewrite Hcs in *. split; [reflexivity|]. split; [|assumption].
    unfold b_word in H2. rewrite Hcs in H2. simpl in H2. rewrite H2. do 2 f_equal. rewrite <- H3. lia.
Qed.

(** Each token with the stack that the events give it. *)
Fixpoint event_leaves (stack : list L) (evs : list (event L A)) : list (list L * tok) :=
  match evs with
  | [] => []
  | e :: evs => map (pair (follow stack (e_target e))) (make_tokens (e_lexemes e))
                ++ event_leaves (follow stack (e_target e)) evs
  end.

Lemma build_leaves l evs cs k : words cs = concat (map event_word evs) ++ repeat Exit k ->
  leaves [] (Ctx l cs) = event_leaves [l] evs.
Proof.
  intros E. rewrite leaves_ctx. simpl app.
  rewrite <- (app_nil_r (concat _)). change (@nil (list L * tok)) with (wleaves [l] []).
  rewrite <- wleaves_words, app_nil_r, E.
  generalize [l] as stack. clear E. induction evs as [|e evs IH]; intros stack.
  - apply wleaves_exits.
  - cbn [map concat]. rewrite <- app_assoc, wleaves_event. simpl. f_equal. apply IH.
Qed.

Lemma build_full evs cs k stack : stream_ok stack evs ->
  words cs = concat (map event_word evs) ++ repeat Exit k -> Forall full cs.
Proof.
  intros Hst E. apply no_empty_words. rewrite E. clear E cs. revert stack Hst.
  induction evs as [|e evs IH]; intros stack Hst; simpl.
  - clear. induction k; simpl; auto.
  - destruct Hst as (_ & Hne & Hst). rewrite <- app_assoc. apply no_empty_event.
    + apply make_tokens_nonempty, Hne.
    + eapply IH, Hst.
Qed.

Lemma event_leaves_lexemes evs : forall stack,
  map lexeme_of (map snd (event_leaves stack evs)) = all_lexemes evs.
Proof.
  induction evs as [|e evs IH]; intros stack; [reflexivity|].
  cbn [event_leaves]. rewrite !map_app, IH. rewrite !map_map. simpl.
  unfold all_lexemes. simpl. f_equal. apply make_tokens_lexemes.
Qed.

Lemma pieces_in_order text ts : forall lo hi, pieces text lo hi (map lexeme_of ts) -> in_order ts.
Proof.
  assert (Hlow : forall ts lo hi, pieces text lo hi (map lexeme_of ts) -> Forall (fun t => lo <= k_pos t) ts).
  { intros us. induction us as [|t us IH]; intros lo hi H; constructor; destruct H as (H1 & _ & _ & _ & _ & H).
    - exact H1.
    - apply IH in H. apply Forall_impl with (2 := H). intros a Ha.
      unfold x_end in Ha. simpl in Ha, H1. lia. }
  induction ts as [|t ts IH]; intros lo hi H; [split; constructor|].
  destruct H as (H1 & H2 & H3 & H4 & H5 & H6). pose proof (Hlow _ _ _ H6) as Hl.
  apply IH in H6 as [HS HF]. split; constructor; try assumption.
Qed.

(** From the lexer to the stream condition. *)
Lemma run_stream_ok consume parse text (n : nat) lexs pos evs r : lexs <> [] ->
  l_run consume parse text n (l_init lexs pos) = (evs, r) -> stream_ok lexs (map fst evs).
Proof.
  intros Hl Hr.
  pose proof (proj1 (run_stack L A consume parse text n _ _ _ _ (stack_inv_start L lexs pos Hl) Hr)) as H.
  clear Hr.
  assert (G : forall after before, evs = before ++ after -> stream_ok (replay lexs (map fst before)) (map fst after)).
  { induction after as [|x after IH]; intros before E; [exact I|]. simpl.
    destruct (H _ _ _ E) as (H1 & H2 & H3). split; [assumption|]. split; [assumption|].
    specialize (IH (before ++ [x])). rewrite map_app, replay_app in IH. simpl in IH.
    apply IH. rewrite E, <- app_assoc. reflexivity. }
  apply (G evs []). reflexivity.
Qed.

End Proofs.

(** ** Groups in a built tree come from one event *)

Section Groups.
Variables L A : Type.
Notation tok := (tok A).
Implicit Types (ts g x y : list tok).

Definition tchunk ts : Prop := (exists t, ts = [t] /\ k_group t = None) \/ is_group ts.

Lemma is_group_first g t : is_group g -> hd_error g = Some t -> k_group t = Some 0%Z.
Proof.
  intros [Hl H] Ht. destruct g as [|a [|b g]]; simpl in Hl; try lia. injection Ht as ->.
  rewrite (H 0 t eq_refl). reflexivity.
Qed.

Lemma is_group_zero g i t : is_group g -> nth_error g i = Some t -> k_group t = Some 0%Z -> i = 0.
Proof.
  intros [Hl H] Ht. rewrite (H i t Ht). destruct (i =? length g - 1) eqn:E; intros [= H0]; lia.
Qed.

Lemma is_group_prefix g h x y : is_group g -> is_group h -> g ++ x = h ++ y -> g = h.
Proof.
  intros Hg Hh E.
  assert (G : forall g h x y, is_group g -> is_group h -> g ++ x = h ++ y -> length g < length h -> False).
  { clear. intros g h x y [Lg Hg] [Lh Hh] E Hlt.
    assert (E' : nth_error (g ++ x) (length g - 1) = nth_error (h ++ y) (length g - 1)) by congruence.
    rewrite !nth_error_app1 in E' by lia.
    destruct (nth_error g (length g - 1)) as [t|] eqn:Et; [|apply nth_error_None in Et; lia].
    pose proof (Hg _ _ Et) as H1. symmetry in E'. pose proof (Hh _ _ E') as H2.
    rewrite Nat.eqb_refl in H1. destruct (length g - 1 =? length h - 1) eqn:Eq; [lia|].
    rewrite H1 in H2. injection H2 as H2. lia. }
  destruct (Nat.lt_trichotomy (length g) (length h)) as [H|[H|H]].
  - destruct (G _ _ _ _ Hg Hh E H).
  - pose proof (f_equal (firstn (length g)) E) as F.
    rewrite firstn_app, Nat.sub_diag, firstn_all in F. simpl in F. rewrite app_nil_r in F.
    rewrite H, firstn_app, Nat.sub_diag, firstn_all in F. simpl in F. rewrite app_nil_r in F. exact F.
  - symmetry in E. destruct (G _ _ _ _ Hh Hg E H).
Qed.

Lemma group_chunk chunks : Forall tchunk chunks -> forall x g y, concat chunks = x ++ g ++ y -> is_group g ->
  In g chunks.
Proof.
  induction 1 as [|c chunks Hc HF IH]; intros x g y E Hg.
  - destruct x; [|discriminate]. destruct g; [destruct Hg; simpl in *; lia|discriminate].
  - simpl in E. destruct x as [|a x].
    + left. simpl in E. destruct Hc as [(t & -> & Hn)|Hc].
      * exfalso. destruct g as [|u g]; [destruct Hg; simpl in *; lia|]. injection E as -> _.
        pose proof (is_group_first _ _ Hg eq_refl). congruence.
      * exact (is_group_prefix _ _ _ _ Hc Hg E).
    + right. destruct (Nat.le_gt_cases (length c) (length (a :: x))) as [Hle|Hgt].
      * apply (IH (skipn (length c) (a :: x)) g y); [|exact Hg].
        pose proof (f_equal (skipn (length c)) E) as F.
        rewrite skipn_app, skipn_all, Nat.sub_diag in F. simpl app in F at 1.
        change (skipn 0 (concat chunks)) with (concat chunks) in F. rewrite F.
        change ((a :: x) ++ g ++ y) with ((a :: x) ++ (g ++ y)).
        rewrite skipn_app. replace (length c - length (a :: x)) with 0 by lia. reflexivity.
      * exfalso. destruct g as [|u g]; [destruct Hg; simpl in *; lia|].
        assert (Hu : nth_error c (length (a :: x)) = Some u).
        { assert (H : nth_error (c ++ concat chunks) (length (a :: x)) = nth_error ((a :: x) ++ (u :: g) ++ y) (length (a :: x)))
            by (f_equal; exact E).
          rewrite nth_error_app1 in H by lia. rewrite nth_error_app2, Nat.sub_diag in H by lia. exact H. }
        pose proof (is_group_first _ _ Hg eq_refl) as Hz.
        destruct Hc as [(t & -> & Hn)|Hc].
        -- simpl in Hgt. lia.
        -- pose proof (is_group_zero _ _ _ Hc Hu Hz). discriminate.
Qed.

Lemma make_tokens_tchunk (xs : list (lexeme A)) : xs <> [] -> tchunk (make_tokens xs).
Proof.
  destruct xs as [|x [|y xs]]; [congruence| |]; intros _.
  - left. eexists. split; reflexivity.
  - right. split.
    + unfold make_tokens. rewrite make_group_length. simpl. lia.
    + intros i t H. unfold make_tokens in H |- *. rewrite make_group_length.
      apply make_group_groups in H. exact H.
Qed.

Lemma nth_concat {T} (ls : list (list T)) i (x : T) : nth_error (concat ls) i = Some x ->
  exists a l b k, ls = a ++ l :: b /\ nth_error l k = Some x /\ i = length (concat a) + k.
Proof.
  revert i; induction ls as [|l ls IH]; intros i H; simpl in H; [destruct i; discriminate|].
  destruct (Nat.lt_ge_cases i (length l)) as [Hlt|Hge].
  - rewrite nth_error_app1 in H by assumption. exists [], l, ls, i. auto.
  - rewrite nth_error_app2 in H by assumption. destruct (IH _ H) as (a & l' & b & k & -> & Hk & Hi).
    exists (l :: a), l', b, k. split; [reflexivity|]. split; [assumption|]. simpl. rewrite app_length. lia.
Qed.

Lemma all_grouped_at (n : node L A) path m : all_grouped n -> node_at n path = Some m -> all_grouped m.
Proof.
  revert n; induction path as [|i path IH]; intros n Hn H; [injection H as <-; exact Hn|].
  simpl in H. destruct (nth_error (children n) i) as [c|] eqn:E; [|discriminate].
  apply (IH c); [|exact H]. destruct Hn as [t|l cs _ HF]; [destruct i; discriminate|].
  rewrite Forall_forall in HF. apply HF. eapply nth_error_In, E.
Qed.

(** A token with a group number sits in a group. *)
Lemma token_in_group (cs : list (node L A)) i t z : grouped cs -> nth_error cs i = Some (Tok t) ->
  k_group t = Some z ->
  exists pre g post k, cs = pre ++ map Tok g ++ post /\ is_group g /\ nth_error g k = Some t /\ i = length pre + k.
Proof.
  intros (chunks & -> & HF) Hi Hz. apply nth_concat in Hi as (a & c & b & k & -> & Hk & ->).
  rewrite Forall_forall in HF. assert (Hc : chunk c) by (apply HF, in_or_app; right; left; reflexivity).
  destruct Hc as [l cs|u Hu|g Hg].
  - destruct k as [|[|k]]; discriminate.
  - destruct k as [|[|k]]; try discriminate. injection Hk as ->. congruence.
  - exists (concat a), g, (concat b), k. rewrite concat_app. split; [reflexivity|]. split; [exact Hg|].
    split; [|reflexivity]. rewrite nth_error_map in Hk. destruct (nth_error g k); [|discriminate]. injection Hk as ->. reflexivity.
Qed.

End Groups.
