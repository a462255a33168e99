(** Tokens with their paths, and the words before and after them. *)
From Verif Require Import Base BaseFacts TargetModel TargetSpec LexerModel LexerSpec TreeModel TreeSpec TreeProofs TreeWalkProofs
  TreeRangeProofs BuildModel BuildProofs TreeDeleteProofs ChangesModel RebuildModel.
From Coq Require Import ZArith ZifyBool.

Section Proofs.
Variables L A : Type.
Notation node := (node L A).
Notation tok := (tok A).
Notation handle := (handle A).
Implicit Types (n c root : node) (cs : list node) (p q path : list nat).

(** ** Words before and after a node *)

Fixpoint pre_word n path {struct path} : list (sym L A) :=
  match path with
  | [] => []
  | i :: path => words (firstn i (children n)) ++
      match path, nth_error (children n) i with
      | _ :: _, Some (Ctx l cs) => Enter l :: pre_word (Ctx l cs) path
      | _, _ => []
      end
  end.
Fixpoint post_word n path {struct path} : list (sym L A) :=
  match path with
  | [] => []
  | i :: path => match path, nth_error (children n) i with
                 | _ :: _, Some (Ctx l cs) => post_word (Ctx l cs) path ++ [Exit]
                 | _, _ => []
                 end ++ words (skipn (S i) (children n))
  end.

Lemma pre_post root p n : p <> [] -> node_at root p = Some n ->
  words (children root) = pre_word root p ++ word n ++ post_word root p.
Proof.
  revert root; induction p as [|i p IH]; intros root Hp H; [congruence|]. cbn [node_at] in H.
  destruct (nth_error (children root) i) as [c|] eqn:E; [|discriminate]. cbn [pre_word post_word]. rewrite E.
  rewrite (nth_parts _ _ _ _ _ E) at 1. rewrite words_app, words_cons.
  destruct p as [|j p].
  - injection H as ->. cbn [app]. rewrite app_nil_r. reflexivity.
  - destruct c as [t|l cs]; [destruct j; discriminate|].
    rewrite word_ctx. specialize (IH (Ctx l cs) ltac:(discriminate) H). cbn [children] in IH. rewrite IH.
    cbn [app]. rewrite <- !app_assoc. cbn [app]. rewrite <- ?app_assoc. reflexivity.
Qed.

Lemma pre_word_app root p q n : q <> [] -> p <> [] -> node_at root p = Some n ->
  pre_word root (p ++ q) = pre_word root p ++ match n with Ctx l _ => Enter l :: pre_word n q | Tok _ => [] end.
Proof.
  revert root; induction p as [|i p IH]; intros root Hq Hp H; [congruence|]. cbn [node_at app pre_word] in *.
  destruct (nth_error (children root) i) as [c|] eqn:E; [|discriminate].
  destruct p as [|j p].
  - injection H as ->. cbn [app]. destruct q as [|k q]; [congruence|]. destruct n as [t|l cs]; rewrite <- ?app_assoc; reflexivity.
  - cbn [app] in *. destruct c as [t|l cs]; [destruct j; discriminate|]. rewrite <- app_assoc. cbn [app]. do 2 f_equal.
    apply (IH (Ctx l cs)); [exact Hq|discriminate|exact H].
Qed.

(** ** The stack of lexicons *)

Fixpoint wstack (st : list L) (w : list (sym L A)) : list L :=
  match w with
  | [] => st
  | Enter l :: w => wstack (st ++ [l]) w
  | Exit :: w => wstack (removelast st) w
  | Leaf _ :: w => wstack st w
  end.

Lemma wstack_app st w w' : wstack st (w ++ w') = wstack (wstack st w) w'.
Proof. revert st; induction w as [|[l| |t] w IH]; intros st; cbn; auto. Qed.

Lemma wstack_word n : forall st, wstack st (word n) = st.
Proof.
  induction n as [t|l cs IH] using node_ind'; intros st; [reflexivity|]. rewrite word_ctx. cbn [wstack]. rewrite wstack_app.
  assert (E : forall st, wstack st (words cs) = st).
  { induction IH as [|c cs Hc _ IHc]; intros st'; [reflexivity|]. rewrite words_cons, wstack_app, Hc. apply IHc. }
  rewrite E. cbn [wstack]. rewrite removelast_app1. reflexivity.
Qed.

Lemma wstack_words cs st : wstack st (words cs) = st.
Proof. induction cs as [|c cs IH]; [reflexivity|]. rewrite words_cons, wstack_app, wstack_word. exact IH. Qed.

Lemma lex_at_word p : forall l cs up n, p <> [] -> node_at (Ctx l cs) p = Some n ->
  wstack (up ++ [l]) (pre_word (Ctx l cs) p) = up ++ lex_at (Ctx l cs) p.
Proof.
  induction p as [|i p IH]; intros l cs up n Hp H; [congruence|]. cbn [node_at children] in H. cbn [pre_word children lex_at].
  destruct (nth_error cs i) as [c|] eqn:E; [|discriminate]. rewrite wstack_app, wstack_words. destruct p as [|j p].
  - cbn [lex_at wstack]. destruct c; reflexivity.
  - destruct c as [t|l' cs']; [destruct j; discriminate|]. cbn [wstack].
    rewrite (IH l' cs' (up ++ [l]) n ltac:(discriminate) H). rewrite <- app_assoc. reflexivity.
Qed.

Lemma lex_at_length p : forall n m, node_at n p = Some m -> length (lex_at n p) = length p.
Proof.
  induction p as [|i p IH]; intros n m H; [destruct n; reflexivity|]. cbn [node_at] in H.
  destruct n as [t|l cs]; [destruct i; discriminate|]. cbn [lex_at children length] in *.
  destruct (nth_error cs i) as [c|]; [|discriminate]. rewrite (IH c m H). reflexivity.
Qed.

Lemma lex_at_last p : forall i n l cs, node_at n p = Some (Ctx l cs) -> last_opt (lex_at n (p ++ [i])) = Some l.
Proof.
  induction p as [|j p IH]; intros i n l cs H.
  - injection H as ->. cbn [app lex_at]. destruct (nth_error cs i) as [[t|l' cs']|]; reflexivity.
  - cbn [node_at] in H. destruct n as [t|l' cs']; [destruct j; discriminate|]. cbn [children] in H. cbn [app lex_at].
    destruct (nth_error cs' j) as [c|]; [|discriminate]. specialize (IH i c l cs H).
    apply last_opt_some in IH as (ls & ->). rewrite app_comm_cons. apply last_opt_app.
Qed.

Lemma drop_last_S {T} (k : nat) (l : list T) : drop_last (S k) l = drop_last k (removelast l).
Proof.
  induction l as [|x l _] using rev_ind; [reflexivity|]. rewrite removelast_app1. unfold drop_last. rewrite app_length. cbn [length].
  replace (length l + 1 - S k) with (length l - k) by lia. rewrite firstn_app.
  replace (length l - k - length l) with 0 by lia. cbn. rewrite app_nil_r. reflexivity.
Qed.

Lemma wstack_exits k : forall st, wstack st (repeat Exit k) = drop_last k st.
Proof.
  induction k as [|k IH]; intros st; [rewrite drop_last_0; reflexivity|]. cbn [repeat wstack]. rewrite IH, drop_last_S. reflexivity.
Qed.
Lemma wstack_enters ls : forall st, wstack st (map Enter ls) = st ++ ls.
Proof. induction ls as [|l ls IH]; intros st; cbn; [rewrite app_nil_r; reflexivity|]. rewrite IH, <- app_assoc. reflexivity. Qed.
Lemma wstack_leaves (ts : list tok) : forall st, wstack st (map Leaf ts) = st.
Proof. induction ts as [|t ts IH]; intros st; cbn; auto. Qed.

Lemma wstack_target st (t : option (target L)) : wstack st (target_word t) = follow st t.
Proof.
  destruct t as [t|]; [|reflexivity]. cbn [target_word follow]. rewrite wstack_app, wstack_exits, wstack_enters. reflexivity.
Qed.
Lemma wstack_event st (e : event L A) : wstack st (event_word e) = follow st (e_target e).
Proof. unfold event_word. rewrite wstack_app, wstack_target, wstack_leaves. reflexivity. Qed.
Lemma wstack_events (evs : list (event L A)) : forall st, wstack st (concat (map event_word evs)) = replay st evs.
Proof. induction evs as [|e evs IH]; intros st; [reflexivity|]. cbn [map concat]. rewrite wstack_app, wstack_event, IH. reflexivity. Qed.

(** ** Handles *)

Definition pfx (q : list nat) (h : handle) : handle := (q ++ fst h, snd h).

Lemma ptoks_ctx q l cs : ptoks q (Ctx l cs) = ptoks_in q 0 cs.
Proof.
  cbn [ptoks]. generalize 0. induction cs as [|c cs IH]; intros i; [reflexivity|]. cbn [ptoks_in]. rewrite IH. reflexivity.
Qed.

Lemma ptoks_pfx n : forall q r, ptoks (q ++ r) n = map (pfx q) (ptoks r n).
Proof.
  induction n as [t|l cs IH] using node_ind'; intros q r; [reflexivity|]. rewrite !ptoks_ctx. generalize 0.
  induction IH as [|c cs Hc _ IHc]; intros i; [reflexivity|]. cbn [ptoks_in]. rewrite map_app, <- IHc, <- Hc, app_assoc. reflexivity.
Qed.
Lemma ptoks_in_pfx cs : forall q r i, ptoks_in (q ++ r) i cs = map (pfx q) (ptoks_in r i cs).
Proof.
  induction cs as [|c cs IH]; intros q r i; [reflexivity|]. cbn [ptoks_in]. rewrite map_app, <- IH, <- ptoks_pfx, app_assoc. reflexivity.
Qed.
Lemma ptoks_in_app a b q i : ptoks_in q i (a ++ b : list node) = ptoks_in q i a ++ ptoks_in q (i + length a) b.
Proof.
  revert i; induction a as [|c a IH]; intros i; cbn [ptoks_in app length]; [rewrite Nat.add_0_r; reflexivity|].
  rewrite IH, <- app_assoc. do 3 f_equal. lia.
Qed.

Lemma ptoks_snd n : forall q, map snd (ptoks q n) = flatten n.
Proof.
  induction n as [t|l cs IH] using node_ind'; intros q; [reflexivity|]. rewrite ptoks_ctx, flatten_ctx. generalize 0.
  induction IH as [|c cs Hc _ IHc]; intros i; [reflexivity|]. cbn [ptoks_in]. rewrite map_app, Hc, IHc, flat_cons. reflexivity.
Qed.
Lemma ptoks_in_snd cs : forall q i, map snd (ptoks_in q i cs) = flat cs.
Proof. induction cs as [|c cs IH]; intros q i; [reflexivity|]. cbn [ptoks_in]. rewrite map_app, IH, ptoks_snd, flat_cons. reflexivity. Qed.

Lemma ptoks_at n : forall h, In h (ptoks [] n) -> node_at n (fst h) = Some (Tok (snd h)).
Proof.
  induction n as [t|l cs IH] using node_ind'; intros h Hin; [destruct Hin as [<-|[]]; reflexivity|]. rewrite ptoks_ctx in Hin.
  assert (G : forall cs' k, (forall j, nth_error cs' j = nth_error cs (k + j)) -> In h (ptoks_in [] k cs') -> node_at (Ctx l cs) (fst h) = Some (Tok (snd h))).
  { induction cs' as [|c cs' IHc]; intros k Hk H; [destruct H|]. cbn [ptoks_in app] in H. apply in_app_or in H as [H|H].
    - change [k] with ([k] ++ []) in H. rewrite ptoks_pfx in H. apply in_map_iff in H as (h' & <- & H).
      specialize (Hk 0). cbn [nth_error] in Hk. rewrite Nat.add_0_r in Hk. symmetry in Hk. cbn [pfx fst snd app node_at children]. rewrite Hk.
      rewrite Forall_forall in IH. apply IH; [eapply nth_error_In; exact Hk|exact H].
    - apply (IHc (S k)); [|exact H]. intros j. specialize (Hk (S j)). cbn [nth_error] in Hk. rewrite Hk. f_equal. lia. }
  exact (G cs 0 (fun j => eq_refl) Hin).
Qed.

Lemma seq_rev_S k : rev (seq 0 (S k)) = map S (rev (seq 0 k)) ++ [0].
Proof. cbn [seq rev]. rewrite <- seq_shift, map_rev. reflexivity. Qed.

Lemma firstn_app_len {T} (a b : list T) : firstn (length a) (a ++ b) = a.
Proof. rewrite firstn_app, Nat.sub_diag, firstn_all. cbn. apply app_nil_r. Qed.

Lemma back_cons l cs i p c : nth_error cs i = Some c ->
  backward_h (Ctx l cs) (i :: p) = map (pfx [i]) (backward_h c p) ++ rev (ptoks_in [] 0 (firstn i cs)).
Proof.
  intros E. unfold backward_h. cbn [length]. rewrite seq_rev_S, map_app, concat_app, map_map. f_equal.
  - rewrite concat_map, map_map. f_equal. apply map_ext. intros d. unfold back_at. cbn [firstn node_at children nth_error]. rewrite E.
    destruct (node_at c (firstn d p)) as [[t|l' cs']|]; try reflexivity. destruct (nth_error p d) as [k|]; [|reflexivity].
    change (i :: firstn d p) with ([i] ++ firstn d p). rewrite ptoks_in_pfx, map_rev. reflexivity.
  - cbn [map concat]. unfold back_at. cbn [firstn node_at children nth_error]. apply app_nil_r.
Qed.
Lemma forw_cons l cs i p c : nth_error cs i = Some c ->
  forward_h (Ctx l cs) (i :: p) = map (pfx [i]) (forward_h c p) ++ ptoks_in [] (S i) (skipn (S i) cs).
Proof.
  intros E. unfold forward_h. cbn [length]. rewrite seq_rev_S, map_app, concat_app, map_map. f_equal.
  - rewrite concat_map, map_map. f_equal. apply map_ext. intros d. unfold forw_at. cbn [firstn node_at children nth_error]. rewrite E.
    destruct (node_at c (firstn d p)) as [[t|l' cs']|]; try reflexivity. destruct (nth_error p d) as [k|]; [|reflexivity].
    change (i :: firstn d p) with ([i] ++ firstn d p). rewrite ptoks_in_pfx. reflexivity.
  - cbn [map concat]. unfold forw_at. cbn [firstn node_at children nth_error]. apply app_nil_r.
Qed.

(** All tokens: those before a given one, that one, those after it. *)
Lemma handles_split p : forall n t, node_at n p = Some (Tok t) ->
  ptoks [] n = rev (backward_h n p) ++ (p, t) :: forward_h n p.
Proof.
  induction p as [|i p IH]; intros n t H.
  - injection H as ->. reflexivity.
  - cbn [node_at] in H. destruct n as [t'|l cs]; [destruct i; discriminate|]. cbn [children] in H.
    destruct (nth_error cs i) as [c|] eqn:E; [|discriminate].
    rewrite (back_cons l cs i p c E), (forw_cons l cs i p c E), ptoks_ctx.
    assert (Hi : length (firstn i cs) = i) by (apply firstn_length_le; apply Nat.lt_le_incl, nth_error_Some; congruence).
    rewrite (nth_parts _ _ _ _ _ E) at 1. rewrite ptoks_in_app, Hi. cbn [Nat.add ptoks_in app].
    change [i] with ([i] ++ []) at 1. rewrite ptoks_pfx, (IH c t H), map_app, rev_app_distr, rev_involutive, map_rev.
    cbn [map]. rewrite <- !app_assoc. reflexivity.
Qed.

Definition handles root : list handle := ptoks [] root.
Lemma handles_snd root : map snd (handles root) = flatten root.
Proof. apply ptoks_snd. Qed.

Lemma path_unique n : in_order (flatten n) -> forall p q t, node_at n p = Some (Tok t) -> node_at n q = Some (Tok t) -> p = q.
Proof.
  intros Ho p. revert n Ho. induction p as [|i p IH]; intros n Ho q t Hp Hq.
  - injection Hp as ->. destruct q as [|j q]; [reflexivity|]. destruct j; discriminate.
  - destruct q as [|j q]; [injection Hq as ->; destruct i; discriminate|]. cbn [node_at] in Hp, Hq.
    destruct (nth_error (children n) i) as [c|] eqn:Ei; [|discriminate]. destruct (nth_error (children n) j) as [d|] eqn:Ej; [|discriminate].
    destruct n as [t'|l cs]; [destruct i; discriminate|]. cbn [children] in Ei, Ej. rewrite flatten_ctx in Ho.
    assert (Hin : forall c p, node_at c p = Some (Tok t) -> In t (flatten c)).
    { intros c0 p0 H0. rewrite (pre_suf _ _ c0 p0 _ H0). apply in_or_app. right. left. reflexivity. }
    assert (Hlt : forall a b x y, a < b -> nth_error cs a = Some x -> nth_error cs b = Some y -> In t (flatten x) -> In t (flatten y) -> False).
    { intros a b x y Hab Ha Hb Hx Hy. destruct (nth_split2 _ _ _ _ _ _ _ Hab Ha Hb) as (u & v & w & E).
      rewrite E, flat_app, flat_cons, flat_app, flat_cons in Ho. apply in_order_app in Ho as (_ & Ho & _).
      pose proof Ho as Ho'. apply in_order_app in Ho as (O1 & _ & O2). specialize (O2 t t Hx).
      pose proof (in_order_text _ _ _ O1 Hx). specialize (O2 ltac:(apply in_or_app; right; apply in_or_app; left; exact Hy)). lia. }
    destruct (lt_eq_lt_dec i j) as [[H|H]|H].
    + exfalso. eapply (Hlt i j); eauto.
    + subst j. assert (c = d) by congruence. subst d. f_equal. apply (IH c) with (t := t); [|exact Hp|exact Hq].
      rewrite (nth_parts _ _ _ _ _ Ei), flat_app, flat_cons in Ho. apply in_order_app in Ho as (_ & Ho & _). apply in_order_app in Ho as (Ho & _). exact Ho.
    + exfalso. eapply (Hlt j i); eauto.
Qed.

(** ** Finding tokens *)

Lemma find_map {T U} (f : T -> U) (g : U -> bool) l : find g (map f l) = option_map f (find (fun x => g (f x)) l).
Proof. induction l as [|x l IH]; [reflexivity|]. cbn [map find]. destruct (g (f x)); [reflexivity|exact IH]. Qed.

(** The handle of a token that was selected from all tokens. *)
Lemma after_loop_at pos : forall fuel q l cs, size (Ctx l cs) <= fuel -> wf_children cs ->
  match find (fun t => pos <=? k_pos t) (flat cs) with
  | None => after_loop fuel q cs pos = Some None
  | Some t => exists p, p <> [] /\ after_loop fuel q cs pos = Some (Some (q ++ p, t)) /\ node_at (Ctx l cs) p = Some (Tok t)
  end.
Proof.
  assert (Hq : forall ts : list tok, find (fun t => pos <=? k_pos t) ts = sel_first A (fun t => k_pos t <? pos) ts).
  { intros ts. unfold sel_first. induction ts as [|t ts IH]; [reflexivity|]. simpl.
    rewrite Nat.leb_antisym. destruct (negb (k_pos t <? pos)); auto. }
  induction fuel as [|fuel IH]; intros q l cs Hsz Hwf; [rewrite size_ctx in Hsz; lia|].
  cbn [after_loop]. pose proof Hwf as [HF HO].
  destruct (pick_first L A (fun t => k_pos t <? pos) (after_below pos) cs HF (falling_pos _ _ pos HO)) as (r & Hr & Hcase).
  - intros c t _ Et. unfold after_below. rewrite Et. reflexivity.
  - rewrite Hr. destruct Hcase as [[-> Hn]|(c & t & Hi & Hs & Hc)].
    + rewrite Nat.leb_refl, Hq, Hn. reflexivity.
    + assert (r < length cs) by (apply nth_error_Some; congruence).
      destruct (length cs <=? r) eqn:E; [lia|]. rewrite Hi, Hq, Hs.
      destruct c as [t'|l' cs'].
      * apply sel_first_ok in Hc as ->. exists [r]. split; [discriminate|]. split; [reflexivity|]. cbn [node_at children]. rewrite Hi. reflexivity.
      * destruct (wf_child _ _ _ _ _ Hwf Hi) as [Hfc Hoc].
        specialize (IH (q ++ [r]) l' cs'). rewrite Hq in IH. rewrite flatten_ctx in Hc. rewrite Hc in IH.
        destruct IH as (p & Hp & E1 & E2).
        -- apply size_nth in Hi. rewrite size_ctx in Hsz. lia.
        -- apply (wf_ctx _ _ l'); assumption.
        -- exists (r :: p). split; [discriminate|]. rewrite E1, <- app_assoc. split; [reflexivity|]. cbn [node_at children]. rewrite Hi. exact E2.
Qed.

Lemma ubefore_loop_at pos : forall fuel q l cs, size (Ctx l cs) <= fuel -> wf_children cs ->
  match find_last (fun t => k_end t <=? pos) (flat cs) with
  | None => ubefore_loop fuel q cs pos = Some None
  | Some t => exists p, p <> [] /\ ubefore_loop fuel q cs pos = Some (Some (q ++ p, t)) /\ node_at (Ctx l cs) p = Some (Tok t)
  end.
Proof.
  induction fuel as [|fuel IH]; intros q l cs Hsz Hwf; [rewrite size_ctx in Hsz; lia|].
  cbn [ubefore_loop]. pose proof Hwf as [HF HO].
  destruct (pick_last L A (fun t => k_end t <=? pos) (ubefore_below pos) cs HF (falling_end _ _ pos HO)) as (r & Hr & Hcase).
  - intros c t _ Et. unfold ubefore_below. rewrite Nat.leb_antisym. destruct c as [t'|l' cs']; [injection Et as ->; reflexivity|]. rewrite Et. reflexivity.
  - rewrite Hr. destruct Hcase as [[-> Hn]|(i & c & t & -> & Hi & Hs & Hc)].
    + unfold sel_last in Hn. rewrite Hn. reflexivity.
    + unfold sel_last in Hs. rewrite Hi, Hs.
      destruct c as [t'|l' cs'].
      * apply sel_last_ok in Hc as ->. exists [i]. split; [discriminate|]. split; [reflexivity|]. cbn [node_at children]. rewrite Hi. reflexivity.
      * destruct (wf_child _ _ _ _ _ Hwf Hi) as [Hfc Hoc].
        specialize (IH (q ++ [i]) l' cs'). unfold sel_last in Hc. rewrite flatten_ctx in Hc. rewrite Hc in IH.
        destruct IH as (p & Hp & E1 & E2).
        -- apply size_nth in Hi. rewrite size_ctx in Hsz. lia.
        -- apply (wf_ctx _ _ l'); assumption.
        -- exists (i :: p). split; [discriminate|]. rewrite E1, <- app_assoc. split; [reflexivity|]. cbn [node_at children]. rewrite Hi. exact E2.
Qed.

Lemma find_after_ok l cs pos : wf_children cs ->
  match find (fun t => pos <=? k_pos t) (flat cs) with
  | None => find_after_h (Ctx l cs) pos = Some None
  | Some t => exists p, p <> [] /\ find_after_h (Ctx l cs) pos = Some (Some (p, t)) /\ node_at (Ctx l cs) p = Some (Tok t)
  end.
Proof. intros Hwf. exact (after_loop_at pos (size (Ctx l cs)) [] l cs (le_n _) Hwf). Qed.

Lemma ufind_before_ok l cs pos : wf_children cs ->
  match find_last (fun t => k_end t <=? pos) (flat cs) with
  | None => ufind_before (Ctx l cs) pos = Some None
  | Some t => exists p, p <> [] /\ ufind_before (Ctx l cs) pos = Some (Some (p, t)) /\ node_at (Ctx l cs) p = Some (Tok t)
  end.
Proof. intros Hwf. exact (ubefore_loop_at pos (size (Ctx l cs)) [] l cs (le_n _) Hwf). Qed.

End Proofs.
