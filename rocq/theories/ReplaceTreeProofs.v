(** What [replace_tree] does to the sequence of tokens and brackets of a tree. *)
From Verif Require Import Base BaseFacts TargetModel TargetSpec LexerModel LexerSpec LexerProofs TreeModel TreeSpec TreeProofs TreeWalkProofs
  TreeRangeProofs BuildModel BuildProofs TreeDeleteProofs RebuildModel RebuildSpec RebuildTreeProofs RebuildEventsProofs RebuildPrepareProofs.
From Coq Require Import ZArith ZifyBool.

Section Replace.
Variables L A : Type.
Notation node := (node L A).
Notation tok := (tok A).
Notation sym := (sym L A).
Implicit Types (n root : node) (c cs ts : list node) (p q path : list nat) (w u v : list sym) (l : L) (off : Z).

(** ** Moving tokens *)

Definition shift_sym (off : Z) (s : sym) : sym := match s with Leaf t => Leaf (shift_tok off t) | _ => s end.
Definition shiftw (off : Z) w : list sym := map (shift_sym off) w.
Lemma shiftw_app off u v : shiftw off (u ++ v) = shiftw off u ++ shiftw off v.
Proof. apply map_app. Qed.
Lemma shiftw_exits off k : shiftw off (repeat Exit k) = repeat Exit k.
Proof. unfold shiftw. induction k as [|k IH]; [reflexivity|]. cbn [repeat map shift_sym]. rewrite IH. reflexivity. Qed.
Lemma shift_word off n : word (shift_node off n) = shiftw off (word n).
Proof.
  induction n as [t|l cs IH] using node_ind'; [reflexivity|]. cbn [shift_node]. rewrite !word_ctx.
  change (Enter l :: words cs ++ [Exit]) with ([Enter l] ++ words cs ++ [Exit]). rewrite !shiftw_app. cbn [shiftw map shift_sym app]. do 2 f_equal.
  induction IH as [|c cs Hc _ IHc]; [reflexivity|]. cbn [map]. rewrite !words_cons, shiftw_app, Hc, IHc. reflexivity.
Qed.
Lemma shift_words off cs : words (map (shift_node off) cs) = shiftw off (words cs).
Proof. induction cs as [|c cs IH]; [reflexivity|]. cbn [map]. rewrite !words_cons, shiftw_app, shift_word, IH. reflexivity. Qed.
Lemma shift_tok_0 (t : tok) : shift_tok 0 t = t.
Proof. destruct t as [p s a g]. unfold shift_tok. cbn [k_pos k_text k_act k_group]. f_equal. lia. Qed.
Lemma shift_node_0 n : shift_node 0 n = n.
Proof.
  induction n as [t|l cs IH] using node_ind'; cbn [shift_node]; [rewrite shift_tok_0; reflexivity|]. f_equal.
  induction IH as [|c cs Hc _ IHc]; [reflexivity|]. cbn [map]. rewrite Hc, IHc. reflexivity.
Qed.
Lemma shift_nodes_0 cs : map (shift_node 0) cs = cs.
Proof. rewrite <- (map_id cs) at 2. apply map_ext, shift_node_0. Qed.

(** ** Taking brackets off *)

Lemma enters_split ch : forall u a b, map Enter ch ++ u = a ++ Exit :: b -> exists u0, a = map Enter ch ++ u0 /\ u = u0 ++ Exit :: b.
Proof.
  induction ch as [|l ch IH]; intros u a b E; [exists a; auto|]. cbn [map app] in E. destruct a as [|s a]; [discriminate|]. cbn [app] in E. injection E as <- E.
  destruct (IH _ _ _ E) as (u0 & -> & E2). exists u0. auto.
Qed.
Lemma repeat_snoc {T} (x : T) k : repeat x (S k) = repeat x k ++ [x].
Proof. induction k as [|k IH]; [reflexivity|]. cbn [repeat app] in *. f_equal. exact IH. Qed.
Lemma exits_split k : forall v x y (l : L), x ++ Enter l :: y = v ++ repeat Exit k -> exists v0, y = v0 ++ repeat Exit k /\ v = x ++ Enter l :: v0.
Proof.
  induction k as [|k IH]; intros v x y l E.
  - rewrite app_nil_r in E. exists y. rewrite app_nil_r. auto.
  - rewrite repeat_snoc, app_assoc in E. destruct y as [|s y _] using rev_ind.
    + apply app_inj_tail in E as [_ E]. discriminate.
    + change (Enter l :: y ++ [s]) with ((Enter l :: y) ++ [s]) in E. rewrite app_assoc in E. apply app_inj_tail in E as [E ->].
      destruct (IH _ _ _ _ E) as (v0 & -> & ->). exists v0. rewrite repeat_snoc, app_assoc. auto.
Qed.
Lemma words_last_ctx ts w : words ts = w ++ [Exit] -> exists ts0 l cs, ts = ts0 ++ [Ctx l cs] /\ w = words ts0 ++ Enter l :: words cs.
Proof.
  intros E. destruct ts as [|c ts _] using rev_ind; [destruct w; discriminate|]. rewrite words_app, words_cons in E. cbn [words map concat] in E. rewrite app_nil_r in E.
  destruct c as [t|l cs].
  - apply app_inj_tail in E as [_ E]. discriminate.
  - exists ts, l, cs. split; [reflexivity|]. rewrite word_ctx, app_comm_cons, app_assoc in E. apply app_inj_tail in E as [E _]. auto.
Qed.

(** ** Joining the tail *)

Lemma from_word l cs p (t : tok) : p <> [] -> node_at (Ctx l cs) p = Some (Tok t) ->
  match p with
  | [] => True
  | [e] => Leaf t :: post_word L A (Ctx l cs) p = words (skipn e cs)
  | e :: p' => exists l' cs', nth_error cs e = Some (Ctx l' cs') /\ node_at (Ctx l' cs') p' = Some (Tok t)
      /\ post_word L A (Ctx l cs) p = post_word L A (Ctx l' cs') p' ++ Exit :: words (skipn (S e) cs)
  end.
Proof.
  intros Hp H. destruct p as [|e p]; [congruence|]. cbn [node_at children] in H. destruct (nth_error cs e) as [c|] eqn:E; [|discriminate]. destruct p as [|e' p].
  - injection H as ->. rewrite (skipn_nth _ _ _ E), words_cons. cbn [post_word children app]. reflexivity.
  - destruct c as [t'|l' cs']; [destruct e'; discriminate|]. exists l', cs'. split; [reflexivity|]. split; [exact H|].
    change (post_word L A (Ctx l cs) (e :: e' :: p)) with (match nth_error cs e with Some (Ctx l cs) => post_word L A (Ctx l cs) (e' :: p) ++ [Exit] | _ => [] end ++ words (skipn (S e) cs)).
    rewrite E, <- app_assoc. reflexivity.
Qed.

Lemma join_ok off et : forall first c l ts v (t : tok), et <> [] -> node_at (Ctx l c) et = Some (Tok t) ->
  words ts = v ++ repeat Exit (length et - 1) ->
  exists ts', rt_join off first c ts et = Some ts' /\
    words ts' = v ++ (if first then match et with
                                    | e :: (_ :: _) as et' => match nth_error c e with Some m => shiftw off (Leaf t :: post_word L A m et') ++ [Exit] | None => [] end
                                    | _ => [] end
                      else shiftw off (Leaf t :: post_word L A (Ctx l c) et)).
Proof.
  induction et as [|e et IH]; intros first c l ts v t Hne Hat Hw; [congruence|]. pose proof (from_word l c _ t Hne Hat) as Hf. destruct et as [|e' et].
  - cbn [length Nat.sub repeat] in Hw. rewrite app_nil_r in Hw. cbn [rt_join]. destruct first; eexists; (split; [reflexivity|]).
    + rewrite app_nil_r. exact Hw.
    + rewrite words_app, Hw, shift_words, <- Hf. reflexivity.
  - destruct Hf as (l' & cs' & En & Hat' & Hpost). set (et0 := e' :: et) in *.
    replace (length (e :: et0) - 1) with (S (length et0 - 1)) in Hw by (cbn [length]; unfold et0; cbn [length]; lia).
    rewrite repeat_snoc, app_assoc in Hw. destruct (words_last_ctx _ _ Hw) as (ts0 & l1 & cs1 & -> & Hw1). symmetry in Hw1.
    destruct (exits_split _ _ _ _ _ Hw1) as (v0 & Ev0 & Ev).
    destruct (IH false cs' l' cs1 v0 t ltac:(discriminate) Hat' Ev0) as (ts' & Ej & Ew).
    set (t1 := if first then ts0 ++ [Ctx l1 cs1] else (ts0 ++ [Ctx l1 cs1]) ++ map (shift_node off) (skipn (S e) c)).
    assert (Eq : rt_join off first c (ts0 ++ [Ctx l1 cs1]) (e :: et0) =
      match last_opt (ts0 ++ [Ctx l1 cs1]), nth_error c e with
      | Some (Ctx l ts), Some m =>
          match rt_join off false (children m) ts et0 with
          | None => None
          | Some ts => Some (firstn (length (ts0 ++ [Ctx l1 cs1]) - 1) t1 ++ Ctx l ts :: skipn (length (ts0 ++ [Ctx l1 cs1])) t1)
          end
      | _, _ => None
      end) by reflexivity.
    rewrite Eq, last_opt_app, En. cbn [children]. rewrite Ej. clear Eq.
    assert (Ef : firstn (length (ts0 ++ [Ctx l1 cs1]) - 1) t1 = ts0).
    { rewrite app_length. cbn [length]. replace (length ts0 + 1 - 1) with (length ts0) by lia. unfold t1. destruct first; rewrite <- ?app_assoc; apply firstn_app_len. }
    assert (Es : skipn (length (ts0 ++ [Ctx l1 cs1])) t1 = if first then [] else map (shift_node off) (skipn (S e) c)).
    { unfold t1. destruct first; [apply skipn_all|]. rewrite skipn_app, skipn_all, Nat.sub_diag. reflexivity. }
    rewrite Ef, Es. eexists. split; [reflexivity|]. rewrite words_app, words_cons, word_ctx, Ew, Ev.
    unfold et0 at 2. cbn [shiftw map shift_sym]. rewrite Hpost. fold (shiftw off (post_word L A (Ctx l' cs') et0 ++ Exit :: words (skipn (S e) c))).
    rewrite shiftw_app. destruct first.
    + cbn [words map concat]. unfold et0. lnorm. reflexivity.
    + rewrite shift_words. cbn [shiftw map shift_sym]. fold (shiftw off). lnorm. reflexivity.
Qed.

(** ** Replacing after the start *)

Definition aft (c : list node) (st : list nat) (se : option nat) : list node :=
  match se with None => [] | Some b => skipn (Nat.max (match st with [] => 0 | i :: _ => S i end) b) c end.
Definition upto l c st (t : tok) : list sym := pre_word L A (Ctx l c) st ++ [Leaf t].

Lemma skipn_app_len {T} (a b : list T) k : skipn (length a + k) (a ++ b) = skipn k b.
Proof. induction a as [|x a IH]; [reflexivity|]. exact IH. Qed.

Lemma start_ok st : forall c l ts se u (t : tok), st <> [] -> node_at (Ctx l c) st = Some (Tok t) ->
  words ts = map Enter (tl (lex_at (Ctx l c) st)) ++ u ->
  exists X, rt_start c ts st se = Some (X ++ aft c st se) /\ words X = upto l c st t ++ u
    /\ X <> [] /\ first_token (Ctx l X) = first_token (Ctx l c).
Proof.
  induction st as [|i st IH]; intros c l ts se u t Hne Hat Hw; [congruence|]. cbn [node_at children] in Hat.
  destruct (nth_error c i) as [m|] eqn:Ei; [|discriminate]. pose proof (nth_parts _ _ _ _ _ Ei) as Hc. pose proof (nth_len _ _ _ Ei) as Hlen.
  destruct st as [|i' st].
  - injection Hat as ->. cbn [lex_at tl] in Hw. rewrite Ei in Hw. cbn [map app] in Hw. exists (firstn (S i) c ++ ts). cbn [rt_start]. split; [|split; [|split]].
    + unfold set_slice, aft. rewrite app_assoc. reflexivity.
    + rewrite words_app, (firstn_nth _ _ _ Ei), words_app. unfold upto. cbn [pre_word children]. rewrite Hw. cbn [words map concat word app]. lnorm. reflexivity.
    + rewrite (firstn_nth _ _ _ Ei). destruct (firstn i c); discriminate.
    + destruct c as [|c0 c]; [destruct i; discriminate|]. reflexivity.
  - destruct m as [t'|l' ci]; [destruct i'; discriminate|]. set (st0 := i' :: st) in *.
    assert (Elex : tl (lex_at (Ctx l c) (i :: st0)) = l' :: tl (lex_at (Ctx l' ci) st0)).
    { cbn [lex_at tl]. rewrite Ei. unfold st0. cbn [lex_at tl]. reflexivity. }
    rewrite Elex in Hw. cbn [map app] in Hw. destruct ts as [|[t'|l1 t0] ts]; [discriminate|discriminate|].
    rewrite words_cons, word_ctx in Hw. cbn [app] in Hw. injection Hw as -> Hw. rewrite <- app_assoc in Hw. cbn [app] in Hw. symmetry in Hw.
    destruct (enters_split _ _ _ _ Hw) as (u0 & Eu0 & ->).
    destruct (IH ci l' t0 None u0 t ltac:(discriminate) Hat Eu0) as (X & Er & Ew & Hx & Hft). cbn [aft] in Er. rewrite app_nil_r in Er.
    assert (Eq : rt_start c (Ctx l' t0 :: ts) (i :: st0) se = match nth_error c i with Some (Ctx l ci) =>
        match rt_start ci t0 st0 None with None => None | Some ci => Some (set_slice (firstn i c ++ Ctx l ci :: skipn (S i) c) (S i) se ts) end
        | _ => None end) by reflexivity.
    rewrite Eq, Ei, Er. clear Eq. exists (firstn i c ++ [Ctx l' X] ++ ts). split; [|split; [|split]].
    + unfold set_slice. f_equal. cbn [app]. change (firstn i c ++ Ctx l' X :: skipn (S i) c) with (firstn i c ++ [Ctx l' X] ++ skipn (S i) c). rewrite (app_assoc (firstn i c)).
      replace (firstn (S i) ((firstn i c ++ [Ctx l' X]) ++ skipn (S i) c)) with (firstn i c ++ [Ctx l' X]).
      2:{ symmetry. replace (S i) with (length (firstn i c ++ [Ctx l' X])) at 1 by (rewrite app_length; cbn [length]; lia). apply firstn_app_len. }
      rewrite <- !app_assoc. cbn [app]. do 3 f_equal. unfold aft. destruct se as [b|]; [|reflexivity].
      replace (Nat.max (S i) b) with (length (firstn i c ++ [Ctx l' X]) + (Nat.max (S i) b - S i)) at 1 by (rewrite app_length; cbn [length]; lia).
      change (firstn i c ++ Ctx l' X :: skipn (S i) c) with (firstn i c ++ [Ctx l' X] ++ skipn (S i) c). rewrite app_assoc, skipn_app_len.
      rewrite <- (firstn_skipn (S i) c) at 2. replace (Nat.max (S i) b) with (length (firstn (S i) c) + (Nat.max (S i) b - S i)) at 2.
      2:{ rewrite (firstn_nth _ _ _ Ei), app_length. cbn [length]. lia. }
      rewrite skipn_app_len. reflexivity.
    + rewrite !words_app, words_cons, word_ctx, Ew. unfold upto.
      change (pre_word L A (Ctx l c) (i :: st0)) with (words (firstn i c) ++ match nth_error c i with Some (Ctx l cs) => Enter l :: pre_word L A (Ctx l cs) st0 | _ => [] end).
      rewrite Ei. cbn [words map concat]. lnorm. reflexivity.
    + destruct (firstn i c); discriminate.
    + clear Hc. destruct c as [|c0 c]; [destruct i; discriminate|]. destruct i as [|i]; [|reflexivity]. injection Ei as ->. cbn [firstn app].
      change (first_token (Ctx l' X) = first_token (Ctx l' ci)). exact Hft.
Qed.

(** ** One context *)

Definition moved off (c c' : list node) (et : list nat) : list node :=
  match slice_end et with None => c' | Some e => replace_pos off (length c' - (length c - e)) c' end.

Inductive start_spec l c : list nat -> list sym -> list L -> Prop :=
| SS_none : start_spec l c [] [] []
| SS_tok st t : st <> [] -> node_at (Ctx l c) st = Some (Tok t) -> start_spec l c st (upto l c st t) (tl (lex_at (Ctx l c) st)).
Inductive end_spec off l c : list nat -> nat -> list sym -> Prop :=
| ES_none d : end_spec off l c [] d (repeat Exit d)
| ES_tok et t : et <> [] -> node_at (Ctx l c) et = Some (Tok t) -> end_spec off l c et (length et - 1) (shiftw off (Leaf t :: post_word L A (Ctx l c) et)).

Lemma inner_ok off l c ts st hw ch et d tw v : start_spec l c st hw ch -> end_spec off l c et d tw ->
  (forall i j st' et', st = i :: st' -> et = j :: et' -> i < j \/ (i <= j /\ et' <> [])) ->
  words ts = map Enter ch ++ v ++ repeat Exit d ->
  exists t1 c', rt_join off true c ts et = Some t1 /\ rt_start c t1 st (slice_end et) = Some c' /\ words (moved off c c' et) = hw ++ v ++ tw
    /\ (st <> [] -> first_token (Ctx l (moved off c c' et)) = first_token (Ctx l c)).
Proof.
  intros Hs He Hord Hw.
  (* the tail *)
  assert (Hj : exists t1 X, rt_join off true c ts et = Some t1 /\ words t1 = map Enter ch ++ v ++ X
     /\ match slice_end et with None => X = tw | Some e => tw = X ++ shiftw off (words (skipn e c)) /\ e <= length c /\ (forall i st', st = i :: st' -> S i <= e) end).
  { inversion He as [d'|et' t Hne Hat]; subst.
    - exists ts, (repeat Exit d). cbn [rt_join slice_end]. auto.
    - rewrite app_assoc in Hw. destruct (join_ok off et true c l ts _ t Hne Hat Hw) as (ts' & E1 & E2). exists ts'. rewrite <- app_assoc in E2.
      eexists. split; [exact E1|]. split; [exact E2|]. pose proof (from_word l c et t Hne Hat) as Hf.
      destruct et as [|e et]; [congruence|]. assert (He' : e < length c).
      { cbn [node_at children] in Hat. destruct (nth_error c e) eqn:Ee; [|discriminate]. apply nth_error_Some. congruence. }
      destruct et as [|e' et].
      + cbn [slice_end]. rewrite <- Hf. cbn [app]. split; [reflexivity|]. split; [lia|]. intros i st' ->. destruct (Hord i e st' [] eq_refl eq_refl) as [Hor|[_ Hor]]; [lia|congruence].
      + destruct Hf as (l' & cs' & En & Hat' & Hpost). cbn [slice_end]. rewrite Hpost, En. split; [|split; [lia|]].
        * cbn [shiftw map shift_sym]. fold (shiftw off). rewrite map_app. cbn [map shift_sym]. unfold shiftw. lnorm. reflexivity.
        * intros i st' ->. specialize (Hord i e st' (e' :: et) eq_refl eq_refl). lia. }
  destruct Hj as (t1 & X & Ej & Ew & Hse). exists t1. rewrite Ej.
  assert (Hx : exists Y, rt_start c t1 st (slice_end et) = Some (Y ++ aft c st (slice_end et)) /\ words Y = hw ++ v ++ X
     /\ (st <> [] -> Y <> [] /\ first_token (Ctx l Y) = first_token (Ctx l c))).
  { inversion Hs as [|st' t Hne Hat]; subst.
    - exists t1. cbn [rt_start]. unfold set_slice, aft. cbn [firstn app]. split; [|split; [exact Ew|congruence]].
      destruct (slice_end et); reflexivity.
    - destruct (start_ok st c l t1 (slice_end et) (v ++ X) t Hne Hat Ew) as (Y & E1 & E2 & E3 & E4). exists Y. rewrite E2. auto. }
  destruct Hx as (Y & Es & Eyw & Hft). exists (Y ++ aft c st (slice_end et)). split; [reflexivity|]. split; [exact Es|]. unfold moved.
  destruct (slice_end et) as [e|].
  - destruct Hse as (-> & Hec & Hst). unfold aft.
    replace (Nat.max match st with [] => 0 | i :: _ => S i end e) with e by (destruct st as [|i st]; [reflexivity|specialize (Hst i st eq_refl); lia]).
    assert (El : length (Y ++ skipn e c) - (length c - e) = length Y) by (rewrite app_length, skipn_length; lia). rewrite El.
    unfold replace_pos. rewrite firstn_app_len.
    assert (Esk : skipn (length Y) (Y ++ skipn e c) = skipn e c) by (rewrite skipn_app, skipn_all, Nat.sub_diag; reflexivity). rewrite Esk. split.
    + rewrite words_app, shift_words, Eyw. lnorm. reflexivity.
    + intros Hne. destruct (Hft Hne) as [Hy <-]. destruct Y as [|y Y]; [congruence|]. reflexivity.
  - subst X. unfold aft. rewrite app_nil_r. split; [exact Eyw|]. intros Hne. apply Hft, Hne.
Qed.

(** ** The contexts around *)

Fixpoint one_pass (off : Z) (f : list node -> list node) (path : list nat) n : node :=
  match n, path with
  | Tok t, _ => Tok t
  | Ctx l cs, [] => Ctx l (f cs)
  | Ctx l cs, i :: path => Ctx l (firstn i cs ++ match nth_error cs i with Some c => [one_pass off f path c] | None => [] end ++ map (shift_node off) (skipn (S i) cs))
  end.

Lemma index_loop_pos cs1 cs2 self pos : map (@n_pos L A) cs1 = map (@n_pos L A) cs2 ->
  forall fuel lo hi, parent_index_loop cs1 self pos fuel lo hi = parent_index_loop cs2 self pos fuel lo hi.
Proof.
  intros Hm. assert (Hn : forall i, option_map (@n_pos L A) (nth_error cs1 i) = option_map (@n_pos L A) (nth_error cs2 i)).
  { intros i. rewrite <- !nth_error_map, Hm. reflexivity. }
  induction fuel as [|fuel IH]; intros lo hi; [reflexivity|]. cbn [parent_index_loop]. destruct (lo <? hi); [|reflexivity]. cbv zeta.
  specialize (Hn ((lo + hi) / 2)). destruct (nth_error cs1 _) as [a|], (nth_error cs2 _) as [b|]; cbn [option_map] in Hn; try discriminate; [|reflexivity].
  injection Hn as ->. rewrite !IH. reflexivity.
Qed.
Lemma index_pos cs1 cs2 self : map (@n_pos L A) cs1 = map (@n_pos L A) cs2 -> parent_index cs1 self = parent_index cs2 self.
Proof.
  intros Hm. assert (Hl : length cs1 = length cs2) by (apply (f_equal (@length _)) in Hm; rewrite !map_length in Hm; exact Hm). unfold parent_index.
  assert (Hn : option_map (@n_pos L A) (nth_error cs1 self) = option_map (@n_pos L A) (nth_error cs2 self)) by (rewrite <- !nth_error_map, Hm; reflexivity).
  destruct (nth_error cs1 self) as [a|], (nth_error cs2 self) as [b|]; cbn [option_map] in Hn; try discriminate; [|reflexivity]. injection Hn as ->.
  rewrite Hl. apply index_loop_pos, Hm.
Qed.

Lemma nth_mid {T} (a : list T) x b i : length a = i -> nth_error (a ++ [x] ++ b) i = Some x.
Proof. intros <-. rewrite nth_error_app2, Nat.sub_diag by lia. reflexivity. Qed.
Lemma firstn_mid {T} (a b : list T) i : length a = i -> firstn i (a ++ b) = a.
Proof. intros <-. apply firstn_app_len. Qed.
Lemma skipn_mid {T} (a b : list T) i : length a = i -> skipn i (a ++ b) = b.
Proof. intros <-. rewrite skipn_app, skipn_all, Nat.sub_diag. reflexivity. Qed.

Lemma shift_inside off i p : forall d l cs (c c2 : node), d <= length p -> nth_error cs i = Some c ->
  shift_ancestors off d p c = Some c2 ->
  shift_ancestors off (S d) (i :: p) (Ctx l cs) = shift_ancestors off 1 (i :: p) (Ctx l (firstn i cs ++ c2 :: skipn (S i) cs)).
Proof.
  induction d as [|d IH]; intros l cs c c2 Hd Ei Hs.
  - cbn [shift_ancestors] in Hs. injection Hs as <-. rewrite <- (nth_parts _ _ _ _ _ Ei). reflexivity.
  - cbn [shift_ancestors] in Hs. cbn [shift_ancestors]. rewrite (awi_cons L A l cs i p d c Ei).
    destruct (ancestor_with_index c p d) as [[cs' k]|]; [|discriminate].
    cbn [firstn]. cbn [update_at]. rewrite Ei. set (c1 := update_at c (firstn d p) (replace_pos off (S k))) in *.
    pose proof (nth_len _ _ _ Ei) as Hlen.
    assert (Ei' : nth_error (firstn i cs ++ [c1] ++ skipn (S i) cs) i = Some c1) by (apply nth_mid, Hlen).
    specialize (IH l _ c1 c2 ltac:(lia) Ei' Hs). cbn [shift_ancestors] in IH. rewrite IH.
    assert (E1 : firstn i (firstn i cs ++ [c1] ++ skipn (S i) cs) = firstn i cs) by (apply firstn_mid, Hlen).
    assert (E2 : skipn (S i) (firstn i cs ++ [c1] ++ skipn (S i) cs) = skipn (S i) cs).
    { rewrite app_assoc. apply skipn_mid. rewrite app_length. cbn [length]. lia. }
    rewrite E1, E2. reflexivity.
Qed.

Lemma around_ok off f path : forall n l c, wf_children (children n) -> node_at n path = Some (Ctx l c) ->
  (path <> [] -> first_token (Ctx l (f c)) = first_token (Ctx l c)) ->
  shift_ancestors off (length path) path (update_at n path f) = Some (one_pass off f path n)
  /\ (first_token (Ctx l (f c)) = first_token (Ctx l c) -> first_token (one_pass off f path n) = first_token n).
Proof.
  induction path as [|i p IH]; intros n l c Hwf Hat Hft.
  - injection Hat as ->. cbn [length shift_ancestors update_at one_pass]. auto.
  - cbn [node_at] in Hat. destruct n as [t|l0 cs]; [destruct i; discriminate|]. cbn [children] in *. destruct (nth_error cs i) as [m|] eqn:Ei; [|discriminate].
    assert (Hft' := Hft ltac:(discriminate)). pose proof (wf_node_child L A cs i m Hwf Ei) as Hwm. unfold wf_node in Hwm.
    destruct (IH m l c Hwm Hat (fun _ => Hft')) as [E1 E2]. specialize (E2 Hft'). set (m2 := one_pass off f p m) in *.
    pose proof (nth_len _ _ _ Ei) as Hlen. pose proof (nth_parts _ _ _ _ _ Ei) as Hc.
    assert (Ei' : nth_error (firstn i cs ++ [update_at m p f] ++ skipn (S i) cs) i = Some (update_at m p f)) by (apply nth_mid, Hlen).
    split.
    + cbn [length update_at]. rewrite Ei. rewrite (shift_inside off i p (length p) l0 _ _ m2 (le_n _) Ei' E1).
      assert (Ef : firstn i (firstn i cs ++ [update_at m p f] ++ skipn (S i) cs) = firstn i cs) by (apply firstn_mid, Hlen).
      assert (Es : skipn (S i) (firstn i cs ++ [update_at m p f] ++ skipn (S i) cs) = skipn (S i) cs).
      { rewrite app_assoc. apply skipn_mid. rewrite app_length. cbn [length]. lia. }
      rewrite Ef, Es. cbn [shift_ancestors]. unfold ancestor_with_index. cbn [firstn node_at nth_error].
      rewrite (index_pos _ cs i).
      2:{ rewrite Hc at 3. rewrite !map_app. cbn [map]. do 2 f_equal. unfold n_pos. rewrite E2. reflexivity. }
      rewrite parent_index_ok; [|exact Hwf|apply nth_error_Some; congruence]. cbn [update_at one_pass]. rewrite Ei. do 2 f_equal. unfold replace_pos.
      rewrite (app_assoc (firstn i cs) [m2]). change (firstn i cs ++ m2 :: skipn (S i) cs) with (firstn i cs ++ [m2] ++ skipn (S i) cs). rewrite (app_assoc (firstn i cs) [m2]).
      assert (Hl2 : length (firstn i cs ++ [m2]) = S i) by (rewrite app_length; cbn [length]; lia).
      rewrite (firstn_mid _ _ _ Hl2), (skipn_mid _ _ _ Hl2). reflexivity.
    + intros _. cbn [one_pass]. rewrite Ei. clear Hc. destruct cs as [|c0 cs]; [destruct i; discriminate|]. destruct i as [|i]; [|reflexivity].
      injection Ei as ->. cbn [firstn app]. exact E2.
Qed.

Lemma one_pass_word off f path : forall l0 cs0 l c, node_at (Ctx l0 cs0) path = Some (Ctx l c) -> path <> [] ->
  words (children (one_pass off f path (Ctx l0 cs0))) = pre_word L A (Ctx l0 cs0) path ++ Enter l :: words (f c) ++ Exit :: shiftw off (post_word L A (Ctx l0 cs0) path).
Proof.
  induction path as [|i p IH]; intros l0 cs0 l c Hat Hne; [congruence|]. cbn [node_at children] in Hat. destruct (nth_error cs0 i) as [m|] eqn:Ei; [|discriminate].
  cbn [one_pass children]. rewrite Ei, !words_app, shift_words. destruct p as [|j p].
  - injection Hat as ->. cbn [one_pass pre_word post_word children]. rewrite words_cons, word_ctx. cbn [words map concat app]. lnorm. reflexivity.
  - destruct m as [t|l1 cs1]; [destruct j; discriminate|]. set (p0 := j :: p) in *.
    change (pre_word L A (Ctx l0 cs0) (i :: p0)) with (words (firstn i cs0) ++ match nth_error cs0 i with Some (Ctx l cs) => Enter l :: pre_word L A (Ctx l cs) p0 | _ => [] end).
    change (post_word L A (Ctx l0 cs0) (i :: p0)) with (match nth_error cs0 i with Some (Ctx l cs) => post_word L A (Ctx l cs) p0 ++ [Exit] | _ => [] end ++ words (skipn (S i) cs0)).
    rewrite Ei. specialize (IH l1 cs1 l c Hat ltac:(discriminate)). destruct (one_pass off f p0 (Ctx l1 cs1)) as [t|l2 cs2] eqn:E1; [discriminate|].
    assert (l2 = l1) by (cbn [one_pass] in E1; unfold p0 in E1; injection E1; auto). subst l2. cbn [children] in IH.
    rewrite words_cons, word_ctx, IH, !shiftw_app. cbn [words map concat]. unfold shiftw at 3. cbn [map shift_sym]. lnorm. reflexivity.
Qed.
Lemma one_pass_0 f path : forall n l c, node_at n path = Some (Ctx l c) -> one_pass 0 f path n = update_at n path f.
Proof.
  induction path as [|i p IH]; intros n l c Hat; [injection Hat as ->; reflexivity|]. destruct n as [t|l0 cs0]; [destruct i; discriminate|]. cbn [node_at children] in Hat.
  destruct (nth_error cs0 i) as [m|] eqn:Ei; [|discriminate]. cbn [one_pass update_at]. rewrite Ei, (IH _ _ _ Hat), shift_nodes_0. reflexivity.
Qed.

Lemma post_word_app path : forall root q l c, q <> [] -> path <> [] -> node_at root path = Some (Ctx l c) ->
  post_word L A root (path ++ q) = post_word L A (Ctx l c) q ++ Exit :: post_word L A root path.
Proof.
  induction path as [|i p IH]; intros root q l c Hq Hp H; [congruence|]. cbn [node_at app post_word] in *.
  destruct (nth_error (children root) i) as [m|] eqn:E; [|discriminate]. destruct p as [|j p].
  - injection H as ->. cbn [app]. destruct q as [|k q]; [congruence|]. rewrite <- !app_assoc. reflexivity.
  - change ((j :: p) ++ q) with (j :: p ++ q). destruct m as [t|l' cs']; [destruct j; discriminate|].
    change (j :: p ++ q) with ((j :: p) ++ q). rewrite (IH (Ctx l' cs') q l c Hq ltac:(discriminate) H).
    lnorm. reflexivity.
Qed.

(** ** The context that really changes *)

Lemma common_ok q : forall k k' path ts l c i j r1 r2 (t1 t2 : tok) v, i <> j ->
  node_at (Ctx l c) (q ++ i :: r1) = Some (Tok t1) -> node_at (Ctx l c) (q ++ j :: r2) = Some (Tok t2) ->
  words ts = map Enter (tl (lex_at (Ctx l c) (q ++ i :: r1))) ++ v ++ repeat Exit (length (q ++ j :: r2) - 1) ->
  exists q1 q2 l' c' ts', q = q1 ++ q2 /\ rt_common k k' path ts (q ++ i :: r1) (q ++ j :: r2) = (path ++ q1, ts', k + length q1)
    /\ node_at (Ctx l c) q1 = Some (Ctx l' c')
    /\ words ts' = map Enter (tl (lex_at (Ctx l' c') (q2 ++ i :: r1))) ++ v ++ repeat Exit (length (q2 ++ j :: r2) - 1).
Proof.
  induction q as [|s q IH]; intros k k' path ts l c i j r1 r2 t1 t2 v Hij H1 H2 Hw.
  - exists [], [], l, c, ts. rewrite (app_nil_r path). cbn [app length]. rewrite Nat.add_0_r. split; [reflexivity|]. split; [|split; [reflexivity|exact Hw]].
    cbn [app rt_common]. destruct (i =? j) eqn:E; [lia|]. destruct ts as [|[t|l' c'] [|x ts]]; reflexivity.
  - assert (Hstop : exists q1 q2 l' c' ts', s :: q = q1 ++ q2 /\ (path, ts, k) = (path ++ q1, ts', k + length q1)
    /\ node_at (Ctx l c) q1 = Some (Ctx l' c')
    /\ words ts' = map Enter (tl (lex_at (Ctx l' c') (q2 ++ i :: r1))) ++ v ++ repeat Exit (length (q2 ++ j :: r2) - 1)).
    { exists [], (s :: q), l, c, ts. rewrite (app_nil_r path). cbn [length]. rewrite Nat.add_0_r. auto. }
    change ((s :: q) ++ i :: r1) with (s :: q ++ i :: r1) in *. change ((s :: q) ++ j :: r2) with (s :: q ++ j :: r2) in *. cbn [rt_common]. rewrite Nat.eqb_refl.
    destruct ts as [|[t|l1 ts1] [|x ts]]; try exact Hstop. clear Hstop.
    cbn [node_at children] in H1, H2. destruct (nth_error c s) as [m|] eqn:Es; [|discriminate].
    destruct m as [t|l2 c2]; [destruct q; [destruct i|destruct n]; discriminate|].
    assert (El : tl (lex_at (Ctx l c) (s :: q ++ i :: r1)) = l2 :: tl (lex_at (Ctx l2 c2) (q ++ i :: r1))).
    { cbn [lex_at tl]. rewrite Es. destruct q; reflexivity. }
    rewrite El in Hw. replace (length (s :: q ++ j :: r2) - 1) with (S (length (q ++ j :: r2) - 1)) in Hw by (cbn [length]; rewrite app_length; cbn [length]; lia).
    rewrite repeat_snoc in Hw. rewrite words_cons, word_ctx in Hw. cbn [words map concat app] in Hw. rewrite app_nil_r in Hw. injection Hw as -> Hw.
    rewrite !app_assoc in Hw. apply app_inj_tail in Hw as [Hw _]. rewrite <- app_assoc in Hw.
    destruct (IH (S k) k (path ++ [s]) ts1 l2 c2 i j r1 r2 t1 t2 v Hij H1 H2 Hw) as (q1 & q2 & l' & c' & ts' & -> & E2 & E3 & E4).
    exists (s :: q1), q2, l', c', ts'. split; [reflexivity|]. split; [|split; [|exact E4]].
    + rewrite E2, <- app_assoc. cbn [app length]. f_equal. lia.
    + cbn [node_at children]. rewrite Es. exact E3.
Qed.

(** ** The whole tree *)

Lemma moved_0 c c' et : moved 0 c c' et = c'.
Proof. unfold moved, replace_pos. destruct (slice_end et); [|reflexivity]. rewrite shift_nodes_0. apply firstn_skipn. Qed.

Section Whole.
Variable l_eq : L -> L -> bool.
Hypothesis Heq : forall a, l_eq a a = true.

Definition start_at l cs (pos : nat) (hw : list sym) (ch : list L) : Prop :=
  (pos = 0 /\ hw = [] /\ ch = []) \/
  exists p t, p <> [] /\ node_at (Ctx l cs) p = Some (Tok t) /\ pos = k_end t /\ hw = upto l cs p t /\ ch = tl (lex_at (Ctx l cs) p).
Definition end_at off l cs (lexs : option (list L)) (pos : nat) (d : nat) (tw : list sym) : Prop :=
  (lexs <> None /\ off = 0%Z /\ tw = repeat Exit d) \/
  exists p t, p <> [] /\ node_at (Ctx l cs) p = Some (Tok t) /\ lexs = None /\ pos = k_pos t /\ d = length p - 1
    /\ tw = shiftw off (Leaf t :: post_word L A (Ctx l cs) p).

Lemma find_pass {T} (f : T -> bool) a x b : Forall (fun y => f y = false) a -> f x = true -> find f (a ++ x :: b) = Some x.
Proof. intros Ha Hx. induction Ha as [|y a Hy _ IH]; cbn [app find]; [rewrite Hx; reflexivity|rewrite Hy; exact IH]. Qed.
Lemma flat_at l cs p t : node_at (Ctx l cs) p = Some (Tok t) -> exists a b, flat cs = a ++ t :: b.
Proof. intros H. rewrite <- (flatten_ctx L A l cs). rewrite (pre_suf L A _ _ _ H). do 2 eexists. reflexivity. Qed.

Lemma left_trail l cs p t : wf_children cs -> node_at (Ctx l cs) p = Some (Tok t) -> trail_of (find_token_left_with_trail cs (k_end t)) = Some p.
Proof.
  intros Hwf Hat. pose proof (proj2 Hwf) as Ho. destruct (flat_at _ _ _ _ Hat) as (a & b & E). assert (Ho' := Ho). rewrite E in Ho'.
  pose proof (find_with_trail_spec L A (sel_last A (fun t' => k_pos t' <? k_end t)) (c_find_left (k_end t)) cs
                  (sel_last_ok A _) (fun cs H => c_find_left_pick L A (k_end t) cs H) Hwf) as Hs.
  assert (Ef : sel_last A (fun t' => k_pos t' <? k_end t) (flat cs) = Some t).
  { unfold sel_last, find_last. rewrite E, rev_app_distr. cbn [rev]. rewrite <- app_assoc. cbn [app]. apply find_pass.
    - apply Forall_forall. intros y Hy. apply in_rev in Hy. pose proof (in_order_after A a t b y Ho' Hy). lia.
    - assert (k_pos t < k_end t) by (apply (in_order_text _ _ _ Ho'); apply in_or_app; right; left; reflexivity). lia. }
  rewrite Ef in Hs. destruct Hs as (trail & Hf & _ & Hat'). unfold find_token_left_with_trail. rewrite Hf. cbn [trail_of]. rewrite nat_trail_nat.
  f_equal. rewrite <- (flatten_ctx L A l cs) in Ho. exact (path_unique L A (Ctx l cs) Ho _ _ _ (Hat' l) Hat).
Qed.
Lemma right_trail l cs p t : wf_children cs -> node_at (Ctx l cs) p = Some (Tok t) -> trail_of (find_token_with_trail cs (k_pos t)) = Some p.
Proof.
  intros Hwf Hat. pose proof (proj2 Hwf) as Ho. destruct (flat_at _ _ _ _ Hat) as (a & b & E). assert (Ho' := Ho). rewrite E in Ho'.
  pose proof (find_with_trail_spec L A (sel_first A (fun t' => k_end t' <=? k_pos t)) (c_find (k_pos t)) cs
                  (sel_first_ok A _) (fun cs H => c_find_pick L A (k_pos t) cs H) Hwf) as Hs.
  assert (Ef : sel_first A (fun t' => k_end t' <=? k_pos t) (flat cs) = Some t).
  { unfold sel_first. rewrite E. apply find_pass.
    - apply Forall_forall. intros y Hy. pose proof (in_order_before A a t b y Ho' Hy). lia.
    - assert (k_pos t < k_end t) by (apply (in_order_text _ _ _ Ho'); apply in_or_app; right; left; reflexivity). lia. }
  rewrite Ef in Hs. destruct Hs as (trail & Hf & _ & Hat'). unfold find_token_with_trail. rewrite Hf. cbn [trail_of]. rewrite nat_trail_nat.
  f_equal. rewrite <- (flatten_ctx L A l cs) in Ho. exact (path_unique L A (Ctx l cs) Ho _ _ _ (Hat' l) Hat).
Qed.

Lemma replace_at off l cs path l' c' (c2 : list node) et : wf_children cs -> node_at (Ctx l cs) path = Some (Ctx l' c') ->
  (path <> [] -> first_token (Ctx l' (moved off c' c2 et)) = first_token (Ctx l' c')) ->
  (if (off =? 0)%Z then Some (update_at (Ctx l cs) path (fun _ => c2))
   else shift_ancestors off (length path) path (update_at (Ctx l cs) path (fun _ =>
          match slice_end et with None => c2 | Some e => replace_pos off (length c2 - (length c' - e)) c2 end)))
  = Some (one_pass off (fun _ => moved off c' c2 et) path (Ctx l cs)).
Proof.
  intros Hwf Hat Hft. destruct (off =? 0)%Z eqn:E0.
  - assert (off = 0%Z) by lia. subst off. rewrite moved_0. rewrite (one_pass_0 _ _ _ _ _ Hat). reflexivity.
  - fold (moved off c' c2 et). exact (proj1 (around_ok off (fun _ => moved off c' c2 et) path (Ctx l cs) l' c' Hwf Hat Hft)).
Qed.

Lemma replace_words l cs ts start end_ off lexs hw ch d tw v lft : wf_children cs ->
  start_at l cs start hw ch -> end_at off l cs lexs end_ d tw -> (lexs = None -> start <= end_) ->
  words ts = map Enter ch ++ v ++ repeat Exit d ->
  exists cs', replace_tree l_eq (Ctx l cs) (BResult (Ctx l ts) start end_ off lexs lft) = Some (Ctx l cs') /\ words cs' = hw ++ v ++ tw.
Proof.
  intros Hwf Hs He Hse Hw. unfold replace_tree. cbn [r_tree r_start r_end r_lexicons r_offset]. rewrite Heq. cbn [negb].
  (* the trails *)
  assert (H1 : exists st, (if start =? 0 then Some [] else trail_of (find_token_left_with_trail cs start)) = Some st /\ start_spec l cs st hw ch
     /\ (st <> [] -> exists t, node_at (Ctx l cs) st = Some (Tok t) /\ start = k_end t)).
  { destruct Hs as [(-> & -> & ->)|(p & t & Hp & Hat & -> & -> & ->)].
    - exists []. split; [reflexivity|]. split; [constructor|congruence].
    - exists p. destruct (flat_at _ _ _ _ Hat) as (a & b & E). pose proof (proj2 Hwf) as Ho. rewrite E in Ho.
      assert (k_pos t < k_end t) by (apply (in_order_text _ _ _ Ho); apply in_or_app; right; left; reflexivity).
      replace (k_end t =? 0) with false by lia. rewrite (left_trail l cs p t Hwf Hat). split; [reflexivity|]. split; [constructor; assumption|eauto]. }
  assert (H2 : exists et, (match lexs with None => trail_of (find_token_with_trail cs end_) | Some _ => Some [] end) = Some et /\ end_spec off l cs et d tw
     /\ (et <> [] -> exists t, node_at (Ctx l cs) et = Some (Tok t) /\ end_ = k_pos t /\ lexs = None)).
  { destruct He as [(Hl & _ & ->)|(p & t & Hp & Hat & -> & -> & -> & ->)].
    - exists []. destruct lexs; [|congruence]. split; [reflexivity|]. split; [constructor|congruence].
    - exists p. rewrite (right_trail l cs p t Hwf Hat). split; [reflexivity|]. split; [constructor; assumption|eauto]. }
  destruct H1 as (st & -> & Hst & Hst'). destruct H2 as (et & -> & Het & Het').
  assert (Hcase : (st = [] \/ et = []) \/ (st <> [] /\ et <> [])).
  { destruct st; [auto|]. destruct et; [auto|]. right. split; discriminate. }
  destruct Hcase as [Hnil|[Hn1 Hn2]].
  - assert (E : rt_common 0 0 [] ts st et = ([], ts, 0)).
    { destruct Hnil as [->| ->]; [reflexivity|]. destruct st; reflexivity. }
    rewrite E. cbn [node_at skipn].
    destruct (inner_ok off l cs ts st hw ch et d tw v Hst Het) as (t1 & c' & E1 & E2 & E3 & E4); [|exact Hw|].
    { intros i j st' et' -> ->. destruct Hnil; discriminate. }
    rewrite E1, E2. pose proof (replace_at off l cs [] l cs c' et Hwf eq_refl ltac:(congruence)) as Hr. cbn [length] in Hr. cbn [length]. cbv zeta. rewrite Hr.
    cbn [one_pass]. eexists. split; [reflexivity|exact E3].
  - destruct (Hst' Hn1) as (t1 & A1 & ->). destruct (Het' Hn2) as (t2 & A2 & -> & ->). specialize (Hse eq_refl).
    pose proof (proj2 Hwf) as Ho. rewrite <- (flatten_ctx L A l cs) in Ho.
    assert (k_pos t1 < k_pos t2).
    { destruct (flat_at _ _ _ _ A1) as (a & b & E). pose proof (proj2 Hwf) as Ho'. rewrite E in Ho'.
      assert (k_pos t1 < k_end t1) by (apply (in_order_text _ _ _ Ho'); apply in_or_app; right; left; reflexivity). lia. }
    destruct (paths_fork L A (Ctx l cs) Ho st et t1 t2 A1 A2 ltac:(assumption)) as (q & i & j & r1 & r2 & -> & -> & Hij).
    inversion Hst as [Hx|st' t1' _ A1' Ex1 Ex2 Ex3]; [destruct q; discriminate|]. subst st'.
    rewrite A1 in A1'. injection A1' as <-. inversion Het as [d' Hx|et' t2' _ A2' Ey1 Ey2 Ey3]; [destruct q; discriminate|]. subst et'.
    rewrite A2 in A2'. injection A2' as <-. subst hw ch d tw.
    destruct (common_ok q 0 0 [] ts l cs i j r1 r2 t1 t2 v ltac:(lia) A1 A2 Hw) as (q1 & q2 & l' & c' & ts' & -> & Ec & Eat & Ew).
    rewrite Ec. cbn [app Nat.add]. rewrite <- !app_assoc in *. rewrite !(skipn_mid q1 _ _ eq_refl). rewrite Eat.
    assert (B1 : node_at (Ctx l' c') (q2 ++ i :: r1) = Some (Tok t1)) by (rewrite node_at_app, Eat in A1; exact A1).
    assert (B2 : node_at (Ctx l' c') (q2 ++ j :: r2) = Some (Tok t2)) by (rewrite node_at_app, Eat in A2; exact A2).
    assert (Nz1 : q2 ++ i :: r1 <> []) by (destruct q2; discriminate). assert (Nz2 : q2 ++ j :: r2 <> []) by (destruct q2; discriminate).
    destruct (inner_ok off l' c' ts' (q2 ++ i :: r1) _ _ (q2 ++ j :: r2) _ _ v (SS_tok l' c' _ t1 Nz1 B1) (ES_tok off l' c' _ t2 Nz2 B2)) as (u1 & c2 & E1 & E2 & E3 & E4); [|exact Ew|].
    { intros i' j' st' et' Ea Eb. destruct q2 as [|s q2].
      - injection Ea as <- _. injection Eb as <- _. left. exact Hij.
      - injection Ea as <- _. injection Eb as <- <-. right. split; [lia|]. destruct q2; discriminate. }
    rewrite E1, E2.
    rewrite (replace_at off l cs q1 l' c' c2 (q2 ++ j :: r2) Hwf Eat (fun _ => E4 Nz1)).
    destruct q1 as [|s q1].
    + injection Eat as <- <-. cbn [one_pass app]. eexists. split; [reflexivity|exact E3].
    + set (q := s :: q1) in *. pose proof (one_pass_word off (fun _ => moved off c' c2 (q2 ++ j :: r2)) q l cs l' c' Eat ltac:(discriminate)) as Hop.
      destruct (one_pass off (fun _ => moved off c' c2 (q2 ++ j :: r2)) q (Ctx l cs)) as [t|l3 c3] eqn:Eo; [discriminate|].
      assert (l3 = l) by (cbn [one_pass] in Eo; unfold q in Eo; injection Eo; auto). subst l3. cbn [children] in Hop. exists c3. split; [reflexivity|].
      rewrite Hop, E3. unfold upto. rewrite (pre_word_app L A (Ctx l cs) q _ _ Nz1 ltac:(discriminate) Eat), (post_word_app q (Ctx l cs) _ l' c' Nz2 ltac:(discriminate) Eat).
      cbn [shiftw map shift_sym]. rewrite map_app. cbn [map shift_sym]. unfold shiftw. lnorm. reflexivity.
Qed.
End Whole.
End Replace.
