(** The events that are read back from a tree are those it was built from. *)
From Verif Require Import Base BaseFacts TargetModel TargetSpec LexerModel LexerSpec TreeModel TreeSpec TreeProofs TreeWalkProofs
  TreeRangeProofs BuildModel BuildProofs TreeDeleteProofs ChangesModel RebuildModel RebuildTreeProofs.
From Coq Require Import ZArith ZifyBool.

Section Proofs.
Variables L A : Type.
Notation node := (node L A).
Notation tok := (tok A).
Notation handle := (handle A).
Notation event := (event L A).
Implicit Types (n c root : node) (cs : list node) (p q path : list nat) (f : factory L).

(** ** Words with paths *)

Inductive hsym := HE (l : L) | HX | HL (h : handle).
Definition erase (s : hsym) : sym L A := match s with HE l => Enter l | HX => Exit | HL h => Leaf (snd h) end.
Implicit Types (w : list hsym).

Fixpoint hword path n {struct n} : list hsym :=
  match n with
  | Tok t => [HL (path, t)]
  | Ctx l cs => HE l :: (fix go (i : nat) (cs : list node) : list hsym :=
                   match cs with [] => [] | c :: cs' => hword (path ++ [i]) c ++ go (S i) cs' end) 0 cs ++ [HX]
  end.
Fixpoint hwords path (i : nat) cs : list hsym :=
  match cs with [] => [] | c :: cs' => hword (path ++ [i]) c ++ hwords path (S i) cs' end.

Lemma hword_ctx path l cs : hword path (Ctx l cs) = HE l :: hwords path 0 cs ++ [HX].
Proof.
  cbn [hword]. do 2 f_equal. generalize 0. induction cs as [|c cs IH]; intros i; [reflexivity|]. cbn [hwords]. rewrite IH. reflexivity.
Qed.
Lemma hwords_app path a b i : hwords path i (a ++ b) = hwords path i a ++ hwords path (i + length a) b.
Proof.
  revert i; induction a as [|c a IH]; intros i; cbn [hwords app length]; [rewrite Nat.add_0_r; reflexivity|].
  rewrite IH, <- app_assoc. do 3 f_equal. lia.
Qed.

Lemma erase_hword n : forall path, map erase (hword path n) = word n.
Proof.
  induction n as [t|l cs IH] using node_ind'; intros path; [reflexivity|]. rewrite hword_ctx, word_ctx. cbn [map erase]. rewrite map_app. cbn [map erase].
  do 2 f_equal. generalize 0. induction IH as [|c cs Hc _ IHc]; intros i; [reflexivity|]. cbn [hwords]. rewrite map_app, Hc, IHc. reflexivity.
Qed.
Lemma erase_hwords cs : forall path i, map erase (hwords path i cs) = words cs.
Proof. induction cs as [|c cs IH]; intros path i; [reflexivity|]. cbn [hwords]. rewrite map_app, erase_hword, IH. reflexivity. Qed.

Definition hleaf (s : hsym) : list handle := match s with HL h => [h] | _ => [] end.
Definition hleaves w : list handle := concat (map hleaf w).
Lemma hleaves_app a b : hleaves (a ++ b) = hleaves a ++ hleaves b.
Proof. unfold hleaves. rewrite map_app, concat_app. reflexivity. Qed.
Lemma hleaves_word n : forall path, hleaves (hword path n) = ptoks path n.
Proof.
  induction n as [t|l cs IH] using node_ind'; intros path; [reflexivity|]. rewrite hword_ctx, ptoks_ctx.
  change (hleaves (HE l :: ?w)) with (hleaves w). change (HE l :: hwords path 0 cs ++ [HX]) with ([HE l] ++ hwords path 0 cs ++ [HX]).
  rewrite !hleaves_app. cbn [hleaves map hleaf concat app]. rewrite app_nil_r.
  generalize 0. induction IH as [|c cs Hc _ IHc]; intros i; [reflexivity|]. cbn [hwords ptoks_in]. rewrite hleaves_app, Hc, IHc. reflexivity.
Qed.
Lemma hleaves_words cs : forall path i, hleaves (hwords path i cs) = ptoks_in path i cs.
Proof. induction cs as [|c cs IH]; intros path i; [reflexivity|]. cbn [hwords ptoks_in]. rewrite hleaves_app, hleaves_word, IH. reflexivity. Qed.

(** ** Reading events from a word *)

Fixpoint ev_fold w (acc : list handle) f {struct w} : evs_out L A :=
  match w with
  | [] => match acc with [] => Some ([], f) | _ => ev_emit (rev acc) f (fun f => Some ([], f)) end
  | HX :: w => match acc with [] => ev_fold w [] (f_pops f 1) | _ => ev_emit (rev acc) f (fun f => ev_fold w [] (f_pops f 1)) end
  | HE l :: w => match acc with [] => ev_fold w [] (f_pushes f [l]) | _ => None end
  | HL h :: w => match acc with
                 | [] => match k_group (snd h) with
                         | None => ev_emit [h] f (ev_fold w [])
                         | Some _ => ev_fold w [h] f
                         end
                 | _ => match k_group (snd h) with
                        | None => None
                        | Some g => if (0 <? g)%Z then ev_fold w (h :: acc) f else ev_emit (rev (h :: acc)) f (ev_fold w [])
                        end
                 end
  end.

Lemma emit_ext hs f r1 r2 : (forall f, r1 f = r2 f) -> @ev_emit L A hs f r1 = ev_emit hs f r2.
Proof. intros H. unfold ev_emit. destruct (f_get f) as [t f']. rewrite H. reflexivity. Qed.

Definition out_app (o : evs_out L A) (k : factory L -> evs_out L A) : evs_out L A :=
  match o with None => None | Some (r, f) => match k f with None => None | Some (r', f) => Some (r ++ r', f) end end.

Lemma emit_out hs f r k : out_app (@ev_emit L A hs f r) k = ev_emit hs f (fun f => out_app (r f) k).
Proof.
  unfold ev_emit, out_app. destruct (f_get f) as [t f']. destruct (r f') as [[r1 f1]|]; [|reflexivity]. destruct (k f1) as [[r2 f2]|]; reflexivity.
Qed.
Lemma out_nil f k : out_app (Some ([], f)) k = k f.
Proof. unfold out_app. destruct (k f) as [[r f']|]; reflexivity. Qed.

Lemma fold_exit w1 w2 : forall acc f, ev_fold (w1 ++ HX :: w2) acc f = out_app (ev_fold w1 acc f) (fun f => ev_fold w2 [] (f_pops f 1)).
Proof.
  induction w1 as [|s w1 IH]; intros acc f.
  - cbn [app ev_fold]. destruct acc as [|h acc]; [rewrite out_nil; reflexivity|]. rewrite emit_out. apply emit_ext. intros f'. rewrite out_nil. reflexivity.
  - cbn [app ev_fold]. destruct s as [l| |h].
    + destruct acc; [apply IH|reflexivity].
    + destruct acc; [apply IH|]. rewrite emit_out. apply emit_ext. intros f'. apply IH.
    + destruct acc as [|h' acc].
      * destruct (k_group (snd h)); [apply IH|]. rewrite emit_out. apply emit_ext. intros f'. apply IH.
      * destruct (k_group (snd h)) as [g|]; [|reflexivity]. destruct (0 <? g)%Z; [apply IH|]. rewrite emit_out. apply emit_ext. intros f'. apply IH.
Qed.

Lemma emit_some hs f r o : @ev_emit L A hs f r = Some o ->
  exists r' f', r (snd (f_get f)) = Some (r', f') /\
    o = ((Event (fst (f_get f)) (map (fun h => Lexeme (k_pos (snd h)) (k_text (snd h)) (k_act (snd h))) hs), hs) :: r', f').
Proof.
  unfold ev_emit. destruct (f_get f) as [t f1]. cbn [fst snd]. destruct (r f1) as [[r' f']|] eqn:E; [|discriminate].
  intros H. injection H as <-. exists r', f'. auto.
Qed.
Lemma emit_intro hs f r r' f' : r (snd (f_get f)) = Some (r', f') ->
  @ev_emit L A hs f r = Some ((Event (fst (f_get f)) (map (fun h => Lexeme (k_pos (snd h)) (k_text (snd h)) (k_act (snd h))) hs), hs) :: r', f').
Proof. unfold ev_emit. destruct (f_get f) as [t f1]. cbn [fst snd]. intros ->. reflexivity. Qed.

Lemma fold_enter w1 l w2 : forall acc f o, ev_fold (w1 ++ HE l :: w2) acc f = Some o ->
  out_app (ev_fold w1 acc f) (fun f => ev_fold w2 [] (f_pushes f [l])) = Some o.
Proof.
  induction w1 as [|s w1 IH]; intros acc f o H.
  - cbn [app ev_fold] in *. destruct acc as [|h acc]; [rewrite out_nil; exact H|discriminate].
  - cbn [app ev_fold] in *.
    assert (Hem : forall hs r, ev_emit hs f r = Some o -> forall r', (forall f o, r f = Some o -> out_app (r' f) (fun f => ev_fold w2 [] (f_pushes f [l])) = Some o) ->
              out_app (ev_emit hs f r') (fun f => ev_fold w2 [] (f_pushes f [l])) = Some o).
    { intros hs r E r' Hr. apply emit_some in E as (r1 & f1 & E1 & ->). rewrite emit_out. apply emit_intro. apply Hr, E1. }
    destruct s as [l'| |h].
    + destruct acc; [apply IH, H|discriminate].
    + destruct acc; [apply IH, H|]. eapply Hem; [exact H|]. intros f' o' H'. apply IH, H'.
    + destruct acc as [|h' acc].
      * destruct (k_group (snd h)); [apply IH, H|]. eapply Hem; [exact H|]. intros f' o' H'. apply IH, H'.
      * destruct (k_group (snd h)) as [g|]; [|discriminate]. destruct (0 <? g)%Z; [apply IH, H|].
        eapply Hem; [exact H|]. intros f' o' H'. apply IH, H'.
Qed.

(** The recursion over nodes reads the same. *)
Lemma ev_list_fold cs : forall path i acc f, ev_list ev_node path cs i acc f = ev_fold (hwords path i cs) acc f.
Proof.
  assert (G : forall n path f, ev_node path n f = match n with Tok _ => Some ([], f) | Ctx l cs => ev_fold (hwords path 0 cs) [] f end).
  { induction n as [t|l cs0 IH] using node_ind'; intros path f; [reflexivity|]. cbn [ev_node].
    generalize 0, (@nil handle). revert f. induction IH as [|c cs' Hc _ IHc]; intros f i acc; [reflexivity|].
    destruct c as [t|l' cs1].
    - cbn [ev_list hwords hword app ev_fold fst snd]. destruct acc as [|h acc].
      + destruct (k_group t); [apply IHc|]. apply emit_ext. intros f'. apply IHc.
      + destruct (k_group t) as [g|]; [|reflexivity]. destruct (0 <? g)%Z; [apply IHc|]. apply emit_ext. intros f'. apply IHc.
    - cbn [ev_list hwords]. rewrite hword_ctx. cbn [app ev_fold]. destruct acc as [|h acc]; [|reflexivity].
      rewrite <- app_assoc. cbn [app]. rewrite fold_exit. rewrite (Hc (path ++ [i])). unfold out_app.
      destruct (ev_fold (hwords (path ++ [i]) 0 cs1) [] (f_pushes f [l'])) as [[r f1]|]; [|reflexivity].
      fold (@ev_list L A). rewrite <- IHc. reflexivity. }
  induction cs as [|c cs' IHc]; intros path i acc f; [reflexivity|].
  destruct c as [t|l' cs1].
  - cbn [ev_list hwords hword app ev_fold fst snd]. destruct acc as [|h acc].
    + destruct (k_group t); [apply IHc|]. apply emit_ext. intros f'. apply IHc.
    + destruct (k_group t) as [g|]; [|reflexivity]. destruct (0 <? g)%Z; [apply IHc|]. apply emit_ext. intros f'. apply IHc.
  - cbn [ev_list hwords]. rewrite hword_ctx. cbn [app ev_fold]. destruct acc as [|h acc]; [|reflexivity].
    rewrite <- app_assoc. cbn [app]. rewrite fold_exit. rewrite (G (Ctx l' cs1) (path ++ [i])). unfold out_app.
    destruct (ev_fold (hwords (path ++ [i]) 0 cs1) [] (f_pushes f [l'])) as [[r f1]|]; [|reflexivity].
    rewrite <- IHc. reflexivity.
Qed.

Ltac lnorm := repeat (progress (rewrite <- ?app_assoc; cbn [app]; rewrite ?app_nil_r)).

(** ** Slices *)

Notation sstep := (sstep L A).
Definition step_word (s : sstep) : list hsym :=
  match s with SPop => [HX] | SPush l => [HE l] | SNodes path i ns => hwords path i ns end.
Definition steps_word (ss : list sstep) : list hsym := concat (map step_word ss).
Lemma steps_word_app a b : steps_word (a ++ b) = steps_word a ++ steps_word b.
Proof. unfold steps_word. rewrite map_app, concat_app. reflexivity. Qed.

Definition is_nodes (s : sstep) : bool := match s with SNodes _ _ _ => true | _ => false end.
Fixpoint alt (ss : list sstep) : Prop :=
  match ss with
  | [] => True
  | s :: ss => (is_nodes s = true -> match ss with [] => True | s' :: _ => is_nodes s' = false end) /\ alt ss
  end.
Lemma alt_app a b : alt a -> alt b -> (match last_opt a, b with Some x, y :: _ => is_nodes x && is_nodes y = false | _, _ => True end) -> alt (a ++ b).
Proof.
  induction a as [|x a IH]; intros Ha Hb Hm; [exact Hb|]. cbn [app alt] in *. destruct Ha as [H1 H2]. split.
  - intros Hx. destruct a as [|y a]; [|exact (H1 Hx)]. cbn [app]. destruct b as [|y b]; [exact I|]. cbn in Hm. rewrite Hx in Hm. exact Hm.
  - apply IH; [exact H2|exact Hb|]. destruct a as [|y a]; [exact I|]. change (x :: y :: a) with ([x] ++ y :: a) in Hm. rewrite last_opt_app_r in Hm by discriminate. exact Hm.
Qed.

Lemma run_steps_fold ss : forall f r f', alt ss -> ev_fold (steps_word ss) [] f = Some (r, f') -> run_steps ss f = Some r.
Proof.
  induction ss as [|s ss IH]; intros f r f' Ha H.
  - cbn in H. injection H as <- _. reflexivity.
  - destruct Ha as [H1 H2]. cbn [steps_word map concat] in H. fold (steps_word ss) in H.
    destruct s as [|l|path i ns]; cbn [step_word app] in H; cbn [run_steps].
    + cbn [ev_fold] in H. eapply IH; eauto.
    + cbn [ev_fold] in H. eapply IH; eauto.
    + rewrite ev_list_fold. cbn [is_nodes] in H1. specialize (H1 eq_refl).
      destruct ss as [|s ss].
      * change (steps_word []) with (@nil hsym) in H. rewrite app_nil_r in H. rewrite H. cbn [run_steps]. rewrite app_nil_r. reflexivity.
      * destruct s as [|l|path' i' ns']; [| |discriminate].
        -- change (steps_word (SPop :: ss)) with (HX :: steps_word ss) in H. rewrite fold_exit in H. unfold out_app in H.
           destruct (ev_fold (hwords path i ns) [] f) as [[r1 f1]|]; [|discriminate].
           destruct (ev_fold (steps_word ss) [] (f_pops f1 1)) as [[r2 f2]|] eqn:E2; [|discriminate]. injection H as <- <-.
           rewrite (IH f1 r2 f2 H2); [reflexivity|]. exact E2.
        -- change (steps_word (SPush l :: ss)) with (HE l :: steps_word ss) in H. apply fold_enter in H. unfold out_app in H.
           destruct (ev_fold (hwords path i ns) [] f) as [[r1 f1]|]; [|discriminate].
           destruct (ev_fold (steps_word ss) [] (f_pushes f1 [l])) as [[r2 f2]|] eqn:E2; [|discriminate]. injection H as <- <-.
           rewrite (IH f1 r2 f2 H2); [reflexivity|]. exact E2.
Qed.

Lemma nth_len {T} (l : list T) i x : nth_error l i = Some x -> length (firstn i l) = i.
Proof. intros E. apply firstn_length_le, Nat.lt_le_incl, nth_error_Some. congruence. Qed.

Lemma skipn_nth {T} (l : list T) i x : nth_error l i = Some x -> skipn i l = x :: skipn (S i) l.
Proof. revert i; induction l as [|y l IH]; intros [|i] E; try discriminate; [injection E as ->; reflexivity|]. cbn [skipn]. apply IH, E. Qed.
Lemma firstn_nth {T} (l : list T) i x : nth_error l i = Some x -> firstn (S i) l = firstn i l ++ [x].
Proof. revert i; induction l as [|y l IH]; intros [|i] E; try discriminate; [injection E as ->; reflexivity|]. cbn [firstn app] in *. f_equal. apply IH, E. Qed.

Lemma hwords_split path cs i : i <= length cs -> hwords path 0 cs = hwords path 0 (firstn i cs) ++ hwords path i (skipn i cs).
Proof.
  intros Hi. rewrite <- (firstn_skipn i cs) at 1. rewrite hwords_app, firstn_length_le by exact Hi. reflexivity.
Qed.

Lemma start_steps_word trail : forall path l cs t, trail <> [] -> node_at (Ctx l cs) trail = Some (Tok t) ->
  exists ss X w, start_steps path (Ctx l cs) trail = Some ss /\ alt ss /\ ss <> []
    /\ (forall s, hd_error ss = Some s -> is_nodes s = true)
    /\ hwords path 0 cs = X ++ steps_word ss /\ steps_word ss = HL (path ++ trail, t) :: w.
Proof.
  induction trail as [|i trail IH]; intros path l cs t Hne H; [congruence|]. cbn [node_at children] in H.
  destruct (nth_error cs i) as [m|] eqn:E; [|discriminate]. pose proof (nth_len _ _ _ E) as Hlen.
  assert (Hi : S i <= length cs) by (apply nth_error_Some; congruence).
  destruct trail as [|j trail].
  - injection H as ->. cbn [start_steps children]. exists [SNodes path i (skipn i cs)], (hwords path 0 (firstn i cs)).
    exists (hwords path (S i) (skipn (S i) cs)).
    split; [reflexivity|]. split; [cbn; auto|]. split; [discriminate|]. split; [intros s Hs; injection Hs as <-; reflexivity|].
    unfold steps_word. cbn [map concat step_word]. rewrite app_nil_r. split; [apply hwords_split; lia|].
    rewrite (skipn_nth _ _ _ E). reflexivity.
  - destruct m as [t'|l' cs']; [destruct j; discriminate|]. destruct (IH (path ++ [i]) l' cs' t ltac:(discriminate) H) as (ss & X & w & E1 & Ha & Hn & Hh & E2 & E3).
    assert (Eq : start_steps path (Ctx l cs) (i :: j :: trail) = match nth_error cs i with None => None | Some m =>
       match start_steps (path ++ [i]) m (j :: trail) with None => None | Some r => Some (r ++ [SPop; SNodes path (S i) (skipn (S i) cs)]) end end) by reflexivity.
    rewrite Eq, E, E1.
    eexists. exists (hwords path 0 (firstn i cs) ++ HE l' :: X), (w ++ HX :: hwords path (S i) (skipn (S i) cs)). split; [reflexivity|].
    split; [|split; [|split; [|split]]].
    + apply alt_app; [exact Ha|cbn; auto|]. destruct (last_opt ss) as [s|]; [|exact I]. apply andb_false_r.
    + destruct ss; discriminate.
    + intros s. destruct ss as [|s0 ss]; [congruence|]. intros Hs. apply Hh. exact Hs.
    + rewrite (hwords_split path cs i) by lia. rewrite (skipn_nth _ _ _ E). cbn [hwords]. rewrite hword_ctx, E2, steps_word_app.
      unfold steps_word at 3. cbn [map concat step_word app]. lnorm. reflexivity.
    + rewrite steps_word_app, E3. unfold steps_word. cbn [map concat step_word app]. lnorm. reflexivity.
Qed.

Lemma end_steps_word trail : forall path l cs t, trail <> [] -> node_at (Ctx l cs) trail = Some (Tok t) ->
  exists ss w Y, end_steps path (Ctx l cs) trail = Some (SPush l :: ss) /\ alt ss
    /\ steps_word ss = w ++ [HL (path ++ trail, t)] /\ hwords path 0 cs = steps_word ss ++ Y.
Proof.
  induction trail as [|i trail IH]; intros path l cs t Hne H; [congruence|]. cbn [node_at children] in H.
  destruct (nth_error cs i) as [m|] eqn:E; [|discriminate]. pose proof (nth_len _ _ _ E) as Hlen.
  assert (Hi : S i <= length cs) by (apply nth_error_Some; congruence).
  destruct trail as [|j trail].
  - injection H as ->. cbn [end_steps]. exists [SNodes path 0 (firstn (S i) cs)], (hwords path 0 (firstn i cs)), (hwords path (S i) (skipn (S i) cs)).
    split; [reflexivity|]. split; [cbn; auto|]. unfold steps_word. cbn [map concat step_word]. rewrite app_nil_r.
    split; [|apply hwords_split; lia]. rewrite (firstn_nth _ _ _ E), hwords_app, Hlen. reflexivity.
  - destruct m as [t'|l' cs']; [destruct j; discriminate|]. destruct (IH (path ++ [i]) l' cs' t ltac:(discriminate) H) as (ss & w & Y & E1 & Ha & E2 & E3).
    assert (Eq : end_steps path (Ctx l cs) (i :: j :: trail) = match nth_error cs i with None => None | Some m =>
       match end_steps (path ++ [i]) m (j :: trail) with None => None | Some r => Some (SPush l :: SNodes path 0 (firstn i cs) :: r) end end) by reflexivity.
    rewrite Eq, E, E1.
    exists (SNodes path 0 (firstn i cs) :: SPush l' :: ss), (hwords path 0 (firstn i cs) ++ HE l' :: w), (Y ++ HX :: hwords path (S i) (skipn (S i) cs)).
    split; [reflexivity|]. split; [cbn; split; [auto|]; split; [discriminate|exact Ha]|].
    unfold steps_word in *. cbn [map concat step_word]. rewrite E2. split.
    + lnorm. reflexivity.
    + rewrite (hwords_split path cs i) by lia. rewrite (skipn_nth _ _ _ E). cbn [hwords]. rewrite hword_ctx, E3, E2. rewrite <- !app_assoc.
      lnorm. reflexivity.
Qed.

Lemma hwords_inside root q l cs : node_at root q = Some (Ctx l cs) -> forall path, exists X Y,
  hwords path 0 (children root) = X ++ hwords (path ++ q) 0 cs ++ Y.
Proof.
  revert root; induction q as [|i q IH]; intros root H path.
  - injection H as ->. exists [], []. cbn [app children]. rewrite !app_nil_r. reflexivity.
  - cbn [node_at] in H. destruct (nth_error (children root) i) as [m|] eqn:E; [|discriminate].
    destruct (IH m H (path ++ [i])) as (X & Y & E1).
    assert (Hi : S i <= length (children root)) by (apply nth_error_Some; congruence).
    rewrite (hwords_split path _ i) by lia. rewrite (skipn_nth _ _ _ E). cbn [hwords]. destruct m as [t|l' cs'].
    + destruct q; [discriminate|destruct n; discriminate].
    + rewrite hword_ctx. cbn [children] in E1. rewrite E1.
      exists (hwords path 0 (firstn i (children root)) ++ HE l' :: X), (Y ++ HX :: hwords path (S i) (skipn (S i) (children root))).
      lnorm. reflexivity.
Qed.

(** ** The common ancestor *)

Lemma path_eqb_spec a : forall b, path_eqb a b = true <-> a = b.
Proof.
  unfold path_eqb. intros b. apply list_eqb_spec. intros x y. apply Nat.eqb_eq.
Qed.

Lemma common_from_ok q : forall d s o i j s' o', s = q ++ i :: s' -> o = q ++ j :: o' -> i <> j -> length q < d ->
  common_from d s o = Some (length q).
Proof.
  induction d as [|d IH]; intros s o i j s' o' Es Eo Hij Hd; [lia|]. cbn [common_from].
  destruct (Nat.eq_dec d (length q)) as [->|Hne].
  - replace (length q <? length s) with true by (rewrite Es, app_length; cbn [length]; lia).
    rewrite Es, Eo, !firstn_app_len. cbn [andb]. rewrite (proj2 (path_eqb_spec q q) eq_refl). reflexivity.
  - replace ((d <? length s) && path_eqb (firstn d s) (firstn d o)) with false; [eapply IH; eauto; lia|].
    symmetry. apply andb_false_iff. destruct (path_eqb (firstn d s) (firstn d o)) eqn:E; [|right; reflexivity].
    exfalso. apply path_eqb_spec in E. assert (Hf : nth_error (firstn d s) (length q) = nth_error (firstn d o) (length q)) by congruence.
    rewrite Es, Eo, !firstn_app in Hf. rewrite !firstn_all2 in Hf by lia. rewrite !nth_error_app2 in Hf by lia.
    rewrite Nat.sub_diag in Hf. destruct (d - length q) eqn:Ed; [lia|]. cbn in Hf. congruence.
Qed.

(** Paths of two tokens, the first one before the other. *)
Lemma paths_fork n : in_order (flatten n) -> forall p1 p2 t1 t2, node_at n p1 = Some (Tok t1) -> node_at n p2 = Some (Tok t2) -> k_pos t1 < k_pos t2 ->
  exists q i j r1 r2, p1 = q ++ i :: r1 /\ p2 = q ++ j :: r2 /\ i < j.
Proof.
  intros Ho p1. revert n Ho. induction p1 as [|i p1 IH]; intros n Ho p2 t1 t2 H1 H2 Hlt.
  - injection H1 as ->. destruct p2 as [|[|j] p2]; [injection H2 as ->; lia|discriminate|discriminate].
  - destruct p2 as [|j p2]; [injection H2 as ->; destruct i; discriminate|].
    destruct (Nat.eq_dec i j) as [<-|Hne].
    + cbn [node_at] in H1, H2. destruct (nth_error (children n) i) as [c|] eqn:E; [|discriminate].
      destruct n as [t|l cs]; [destruct i; discriminate|]. cbn [children] in E. rewrite flatten_ctx, (nth_parts _ _ _ _ _ E), flat_app, flat_cons in Ho.
      apply in_order_app in Ho as (_ & Ho & _). apply in_order_app in Ho as (Ho & _ & _).
      destruct (IH c Ho p2 t1 t2 H1 H2 Hlt) as (q & a & b & r1 & r2 & -> & -> & Hab). exists (i :: q), a, b, r1, r2. auto.
    + exists [], i, j, p1, p2. cbn [app]. split; [reflexivity|]. split; [reflexivity|]. destruct (lt_dec i j) as [Hij|Hij]; [exact Hij|exfalso].
      assert (Hji : j < i) by lia. cbn [node_at] in H1, H2. destruct (nth_error (children n) i) as [c|] eqn:E; [|discriminate].
      destruct (nth_error (children n) j) as [d|] eqn:E'; [|discriminate]. destruct n as [t|l cs]; [destruct i; discriminate|]. cbn [children] in E, E'.
      destruct (nth_split2 _ _ _ _ _ _ _ Hji E' E) as (u & v & w & Ecs). rewrite flatten_ctx, Ecs, flat_app, flat_cons, flat_app, flat_cons in Ho.
      apply in_order_app in Ho as (_ & Ho & _). pose proof Ho as Ho'. apply in_order_app in Ho as (_ & _ & O2).
      assert (I1 : In t1 (flatten c)) by (rewrite (pre_suf _ _ c p1 _ H1); apply in_or_app; right; left; reflexivity).
      assert (I2 : In t2 (flatten d)) by (rewrite (pre_suf _ _ d p2 _ H2); apply in_or_app; right; left; reflexivity).
      specialize (O2 t2 t1 I2 ltac:(apply in_or_app; right; apply in_or_app; left; exact I1)).
      assert (k_pos t2 < k_end t2) by (eapply in_order_text; [exact Ho'|apply in_or_app; left; exact I2]). lia.
Qed.

(** The word from one token to another, and the events read from it. *)
Lemma events_word root p1 p2 t1 t2 : in_order (flatten root) -> p1 <> [] -> p2 <> [] ->
  node_at root p1 = Some (Tok t1) -> node_at root p2 = Some (Tok t2) -> (p1 = p2 \/ k_pos t1 < k_pos t2) ->
  exists X w w' Y, hwords [] 0 (children root) = X ++ w ++ Y
    /\ (exists v, w = HL (p1, t1) :: v) /\ w = w' ++ [HL (p2, t2)]
    /\ forall r f', let f := if h_is_first (p1, t1) && negb (length p1 =? 1) && (length (backward_h root p1) =? 0)
                              then f_pushes f_init (tl (lex_at root p1)) else f_init in
         ev_fold w [] f = Some (r, f') ->
         events_with_tokens root (p1, t1) (p2, t2) = Some r.
Proof.
  intros Ho Hn1 Hn2 H1 H2 Hle.
  assert (Hcase : (p1 = p2 /\ t1 = t2) \/ (exists q i j r1 r2, p1 = q ++ i :: r1 /\ p2 = q ++ j :: r2 /\ i < j /\ k_pos t1 < k_pos t2)).
  { destruct Hle as [->|Hlt]; [left; split; [reflexivity|congruence]|right].
    destruct (paths_fork root Ho p1 p2 t1 t2 H1 H2 Hlt) as (q & i & j & r1 & r2 & E1 & E2 & Hij). exists q, i, j, r1, r2. auto. }
  destruct Hcase as [[<- <-]|(q & i & j & r1 & r2 & E1 & E2 & Hij & Hlt)].
  - destruct (@exists_last _ p1 Hn1) as (q & i & ->). rewrite node_at_app in H1. destruct (node_at root q) as [m|] eqn:Em; [|discriminate].
    cbn [node_at] in H1. destruct (nth_error (children m) i) as [c|] eqn:E; [|discriminate]. injection H1 as ->.
    destruct m as [t|l cs]; [destruct i; discriminate|]. cbn [children] in E.
    destruct (hwords_inside root q l cs Em []) as (X & Y & EX). cbn [app] in EX.
    exists (X ++ hwords q 0 (firstn i cs)), [HL (q ++ [i], t1)], [], (hwords q (S i) (skipn (S i) cs) ++ Y).
    split; [|split; [eauto|split; [reflexivity|]]].
    + rewrite EX, (hwords_split q cs i), (skipn_nth _ _ _ E) by (apply Nat.lt_le_incl, nth_error_Some; congruence).
      cbn [hwords hword app]. lnorm. reflexivity.
    + intros r f' f Hf. unfold events_with_tokens, common_trails. cbn [fst snd]. rewrite (proj2 (path_eqb_spec _ _) eq_refl). fold f.
      rewrite app_length. cbn [length]. replace (length q + 1 - 1) with (length q) by lia. rewrite firstn_app_len, skipn_app, Nat.sub_diag.
      rewrite skipn_all. cbn [skipn app]. unfold range_steps. rewrite Em. cbn [children]. cbn [app].
      apply (run_steps_fold _ _ r f'); [cbn; auto|]. unfold steps_word. cbn [map concat step_word].
      unfold slice. rewrite (skipn_nth _ _ _ E). replace (S i - i) with 1 by lia. cbn [firstn hwords hword app]. exact Hf.
  - assert (Hn : exists l cs, node_at root q = Some (Ctx l cs)).
    { rewrite E1, node_at_app in H1. destruct (node_at root q) as [[t|l cs]|]; [destruct i; discriminate|eauto|discriminate]. }
    destruct Hn as (l & cs & Em). destruct (hwords_inside root q l cs Em []) as (X & Y & EX). cbn [app] in EX.
    rewrite E1, node_at_app, Em in H1. rewrite E2, node_at_app, Em in H2. cbn [node_at children] in H1, H2.
    destruct (nth_error cs i) as [c1|] eqn:Ec1; [|discriminate]. destruct (nth_error cs j) as [c2|] eqn:Ec2; [|discriminate].
    assert (Hj : S j <= length cs) by (apply nth_error_Some; congruence).
    (* the head *)
    assert (Hhead : exists r start X1 v, match i :: r1 with [] => Some ([], 0) | [i] => Some ([], i)
                       | i :: st => match nth_error cs i with None => None | Some m => match start_steps (q ++ [i]) m st with None => None | Some r => Some (r ++ [SPop], S i) end end end = Some (r, start)
               /\ alt r /\ (forall s, last_opt r = Some s -> is_nodes s = false) /\ start <= j
               /\ hwords q 0 (firstn j cs) = X1 ++ steps_word r ++ hwords q start (slice cs start j)
               /\ forall w, steps_word r ++ hwords q start (slice cs start j) ++ w = HL (p1, t1) :: v ++ w).
    { assert (Hspl : forall k, k <= j -> hwords q 0 (firstn j cs) = hwords q 0 (firstn k cs) ++ hwords q k (slice cs k j)).
      { intros k Hk. rewrite (hwords_split q (firstn j cs) k) by (rewrite firstn_length_le; lia). rewrite firstn_firstn.
        replace (Nat.min k j) with k by lia. f_equal. f_equal. unfold slice. rewrite firstn_skipn_comm. f_equal. f_equal. lia. }
      destruct r1 as [|i' r1].
      - injection H1 as ->. exists [], i, (hwords q 0 (firstn i cs)), (hwords q (S i) (slice cs (S i) j)).
        split; [reflexivity|]. split; [exact I|]. split; [discriminate|]. split; [lia|]. cbn [steps_word map concat app]. split; [apply Hspl; lia|].
        intros w. unfold slice. rewrite (skipn_nth _ _ _ Ec1). replace (j - i) with (S (j - S i)) by lia. cbn [firstn hwords hword app]. rewrite E1. reflexivity.
      - destruct c1 as [t|l1 cs1]; [destruct i'; discriminate|]. rewrite Ec1.
        destruct (start_steps_word (i' :: r1) (q ++ [i]) l1 cs1 t1 ltac:(discriminate) H1) as (ss & X2 & v & S1 & S2 & S3 & S4 & S5 & S6).
        rewrite S1. exists (ss ++ [SPop]), (S i), (hwords q 0 (firstn i cs) ++ HE l1 :: X2), (v ++ HX :: hwords q (S i) (slice cs (S i) j)).
        split; [reflexivity|]. split; [apply alt_app; [exact S2|cbn; auto|]; destruct (last_opt ss); [apply andb_false_r|exact I]|].
        split; [intros s Hs; rewrite last_opt_app in Hs; injection Hs as <-; reflexivity|]. split; [lia|].
        rewrite steps_word_app. cbn [steps_word map concat step_word app]. split.
        + rewrite (Hspl (S i)) by lia. rewrite (firstn_nth _ _ _ Ec1), hwords_app, (nth_len _ _ _ Ec1). cbn [hwords Nat.add]. rewrite hword_ctx, S5.
          lnorm. reflexivity.
        + intros w. rewrite S6. rewrite E1. replace ((q ++ [i]) ++ i' :: r1) with (q ++ i :: i' :: r1) by (rewrite <- app_assoc; reflexivity).
          lnorm. reflexivity. }
    destruct Hhead as (r & start & X1 & v1 & R1 & R2 & R3 & R4 & R5 & R6).
    (* the end *)
    assert (Hend : exists rest v2 Y1, match j :: r2 with [] => Some (r ++ [SNodes q start (skipn start cs)])
                      | [e] => Some (r ++ [SNodes q start (slice cs start (S e))])
                      | e :: et => match nth_error cs e with None => None | Some m => match end_steps (q ++ [e]) m et with None => None
                                   | Some q0 => Some (r ++ SNodes q start (slice cs start e) :: q0) end end end = Some (r ++ rest)
               /\ alt rest /\ steps_word rest = hwords q start (slice cs start j) ++ v2 ++ [HL (p2, t2)]
               /\ hwords q j (skipn j cs) = (v2 ++ [HL (p2, t2)]) ++ Y1).
    { destruct r2 as [|j' r2].
      - injection H2 as ->. exists [SNodes q start (slice cs start (S j))], [], (hwords q (S j) (skipn (S j) cs)). split; [reflexivity|]. split; [cbn; auto|].
        cbn [steps_word map concat step_word app]. rewrite app_nil_r. split.
        + assert (Esl : slice cs start (S j) = slice cs start j ++ [Tok t2]).
          { rewrite <- (slice_app_slice cs start j (S j)) by lia. f_equal. unfold slice. rewrite (skipn_nth _ _ _ Ec2). replace (S j - j) with 1 by lia. reflexivity. }
          rewrite Esl, hwords_app. rewrite slice_length. replace (start + Nat.min (j - start) (length cs - start)) with j by lia.
          cbn [hwords hword app]. rewrite E2. reflexivity.
        + rewrite (skipn_nth _ _ _ Ec2). cbn [hwords hword app]. rewrite E2. reflexivity.
      - destruct c2 as [t|l2 cs2]; [destruct j'; discriminate|]. rewrite Ec2.
        destruct (end_steps_word (j' :: r2) (q ++ [j]) l2 cs2 t2 ltac:(discriminate) H2) as (ss & w & Y2 & S1 & S2 & S3 & S4).
        rewrite S1. exists (SNodes q start (slice cs start j) :: SPush l2 :: ss), (HE l2 :: w), (Y2 ++ HX :: hwords q (S j) (skipn (S j) cs)).
        split; [reflexivity|]. split; [cbn; split; [auto|]; split; [discriminate|exact S2]|].
        replace ((q ++ [j]) ++ j' :: r2) with p2 in S3 by (rewrite E2, <- app_assoc; reflexivity).
        unfold steps_word in *. cbn [map concat step_word app]. rewrite S3. split; [reflexivity|].
        rewrite (skipn_nth _ _ _ Ec2). cbn [hwords]. rewrite hword_ctx, S4, S3. lnorm. reflexivity. }
    destruct Hend as (rest & v2 & Y1 & T1 & T2 & T3 & T4).
    exists (X ++ X1), (steps_word (r ++ rest)), (steps_word r ++ hwords q start (slice cs start j) ++ v2), (Y1 ++ Y).
    split; [|split; [|split]].
    + rewrite EX, (hwords_split q cs j) by lia. rewrite R5, T4, steps_word_app, T3. lnorm. reflexivity.
    + rewrite steps_word_app, T3, R6. eauto.
    + rewrite steps_word_app, T3. lnorm. reflexivity.
    + intros r0 f' f Hf. unfold events_with_tokens, common_trails. cbn [fst snd]. fold f.
      destruct (path_eqb p1 p2) eqn:Epp; [apply path_eqb_spec in Epp; rewrite E1, E2 in Epp; apply app_inv_head in Epp; injection Epp; lia|].
      replace (k_pos t1 <? k_pos t2) with true by lia. rewrite (common_from_ok q (length p2) p1 p2 i j r1 r2 E1 E2) by (rewrite ?E2, ?app_length; cbn [length]; lia).
      rewrite E1, E2. rewrite firstn_app_len, !skipn_app, !Nat.sub_diag, !skipn_all. cbn [skipn app].
      unfold range_steps. rewrite Em. cbn [children]. cbv zeta. rewrite R1, T1. apply (run_steps_fold _ _ r0 f'); [|exact Hf].
      apply alt_app; [exact R2|exact T2|]. destruct (last_opt r) as [s|] eqn:El; [|exact I]. destruct rest; [exact I|]. rewrite (R3 _ eq_refl). reflexivity.
Qed.

End Proofs.
