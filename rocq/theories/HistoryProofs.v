(** Proofs: a document follows its linear history. *)
From Verif Require Import Base BaseFacts MutableModel MutableSpec MutableProofs DocumentModel DocumentSpec DocumentProofs.
From Coq Require Import ZArith ZifyBool.

Implicit Types text : str.

(** The entries of a stack lead from [text] through the points, and know which one is marked. *)
Fixpoint stack_ok (text : str) (st : list entry) (pts : list (str * bool)) : Prop :=
  match st, pts with
  | [], [] => True
  | e :: st, p :: pts => leads text (fst e) (fst p) /\ snd e = negb (snd p) /\ stack_ok (fst p) st pts
  | _, _ => False
  end.

Definition marks (h : hist) : list (str * bool) := filter snd (h_now h :: h_past h ++ h_future h).

Definition hist_ok (s : dstate) (h : hist) : Prop :=
  d_m s = MState (fst (h_now h)) 0 [] /\ d_mod s = negb (snd (h_now h))
  /\ stack_ok (fst (h_now h)) (d_undo s) (h_past h) /\ stack_ok (fst (h_now h)) (d_redo s) (h_future h)
  /\ d_enabled s = true /\ length (marks h) <= 1.

Lemma stack_ok_all : forall st text pts, stack_ok text st pts -> stack_ok text (all_modified st) (unmarked pts).
Proof.
  induction st as [|e st IH]; intros text [|p pts] H; try exact H. destruct H as (H1 & H3 & H4).
  cbn [all_modified unmarked map stack_ok fst snd]. split; [exact H1|]. split; [reflexivity|].
  apply IH. exact H4.
Qed.

Lemma unmarked_id pts : filter snd pts = [] -> unmarked pts = pts.
Proof.
  induction pts as [|(t, [|]) pts IH]; cbn [filter snd unmarked map fst]; intros H; [reflexivity|discriminate|].
  f_equal. apply IH. exact H.
Qed.

Lemma filter_unmarked pts : filter snd (unmarked pts) = [].
Proof. induction pts as [|p pts IH]; [reflexivity|]. cbn [unmarked map filter snd]. exact IH. Qed.

Lemma marks_count n p f : length (marks (Hist p n f)) = (if snd n then 1 else 0) + length (filter snd p) + length (filter snd f).
Proof.
  unfold marks. cbn [h_now h_past h_future filter]. rewrite filter_app'. destruct (snd n); cbn [length]; rewrite app_length; lia.
Qed.

Lemma stack_ok_length : forall st text pts, stack_ok text st pts -> length st = length pts.
Proof.
  induction st as [|e st IH]; intros text [|p pts] H; try (destruct H; fail); [reflexivity|].
  cbn [length]. f_equal. destruct H as (_ & _ & H). exact (IH _ _ H).
Qed.

Lemma text_changes_app a b : text_changes (a ++ b) = text_changes a ++ text_changes b.
Proof. unfold text_changes. apply flat_map_app. Qed.

Lemma text_changes_check a b : text_changes (check_undo_state a b) = [].
Proof. unfold check_undo_state. destruct (Bool.eqb _ _), (Bool.eqb _ _); reflexivity. Qed.

Lemma text_changes_update m cs s : text_changes (snd (d_update_text m cs s)) = [].
Proof.
  unfold d_update_text. destruct (set_modified _ _ _) as [s3 evs] eqn:E. cbn [snd]. rewrite text_changes_app, text_changes_check, app_nil_r.
  unfold set_modified in E. destruct m; injection E as _ <-; [destruct (negb _)| |]; reflexivity.
Qed.

(** What the text change events say about the texts before and after. *)
Definition tells (evs : list devent) (old new : str) : Prop :=
  match text_changes evs with
  | [] => new = old
  | [(p, r, a)] => splice_of old new p r a
  | _ => False
  end.

(** A change of the text by an edit. *)
Lemma apply_hist s h text d es : hist_ok s h -> text = fst (h_now h) ->
  pending text d es -> (forall a b, In a es -> In b es -> ~ cuts a b) -> es <> [] ->
  exists s' evs, d_apply Normal (with_m s (MState text 0 d)) = (s', evs, false)
    /\ hist_ok s' (h_edit (edited text es) h) /\ tells evs text (edited text es).
Proof.
  intros (K1 & K2 & K3 & K4 & K5 & K6) Et Hp Hc Hes.
  destruct (d_apply_ok Normal (with_m s (MState text 0 d)) text 0 d es eq_refl Hp Hc Hes) as (cs & p & r & a & L & Hs & E).
  rewrite E. destruct (d_update_text Normal cs (with_m s (MState text 0 d))) as [s1 evs] eqn:Eu.
  do 2 eexists. split; [reflexivity|].
  pose proof (text_changes_update Normal cs (with_m s (MState text 0 d))) as Htc. rewrite Eu in Htc. cbn [snd] in Htc.
  split.
  - unfold d_update_text, with_m, store_undo, set_modified in Eu. cbn [d_m d_mod d_undo d_redo d_enabled d_rev m_text] in Eu.
    rewrite K5 in Eu. cbn [d_m d_mod d_undo d_redo d_enabled d_rev m_text] in Eu.
    injection Eu as <- _. unfold hist_ok, with_m. cbn [d_m d_mod d_undo d_redo d_enabled d_rev h_edit h_now h_past h_future fst snd].
    split; [reflexivity|]. split; [reflexivity|]. split; [|split; [exact I|split; [reflexivity|]]].
    + cbn [stack_ok fst snd]. split; [|split].
      * subst text. apply reverse_leads. exact L.
      * exact K2.
      * exact K3.
    + unfold h_edit. rewrite marks_count. destruct h as [hp hn hf]. rewrite marks_count in K6.
      cbn [h_now h_past h_future snd filter] in *. destruct (snd hn); cbn [length] in *; lia.
  - unfold tells. rewrite text_changes_app, Htc. exact Hs.
Qed.

Lemma no_cut_one (c : change) a b : In a [c] -> In b [c] -> ~ cuts a b.
Proof. intros [<-|[]] [<-|[]]. unfold cuts. lia. Qed.

Lemma with_m_same s m : d_m s = m -> with_m s m = s.
Proof. intros <-. destruct s; reflexivity. Qed.

(** [d[k] = t] outside an edit context. *)
Lemma setitem_hist s h k t : hist_ok s h ->
  let text := fst (h_now h) in
  let es := filter (does_something text) (edit_of text (Set_ k t)) in
  exists s' evs exc, d_setitem Normal s k t = (s', evs, exc)
    /\ hist_ok s' match es with [] => h | c :: l => h_edit (edited text (c :: l)) h end
    /\ tells evs text (fst (h_now match es with [] => h | c :: l => h_edit (edited text (c :: l)) h end)).
Proof.
  intros Hh text es. pose proof Hh as (K1 & _). unfold d_setitem. rewrite K1. cbn [m_text m_ctx m_pend].
  unfold es. cbn [edit_of]. fold text. rewrite key_piece_parse. destruct (parse_key (length text) k) as [(i, j)|] eqn:Ek.
  - pose proof (parse_key_ok text k i j t Ek) as Hin. rewrite (effective_does _ _ Hin). cbn [filter].
    destruct (does_something text (Change i j t)) eqn:Ed.
    + cbn [with_m d_m m_ctx Nat.eqb].
      destruct (apply_hist s h text (dict_add i j t []) [Change i j t] Hh eq_refl) as (s' & evs & E & H1 & H2); try assumption.
      * apply (pending_add text [] [] i j t (pending_nil text) Hin).
      * apply no_cut_one.
      * discriminate.
      * unfold with_m in E |- *. cbn [dict_add d_m m_text m_ctx m_pend d_mod d_undo d_redo d_enabled d_rev] in E |- *. rewrite E.
        do 3 eexists. split; [reflexivity|]. split; [exact H1|exact H2].
    + do 3 eexists. split; [reflexivity|]. split; [exact Hh|reflexivity].
  - do 3 eexists. split; [reflexivity|]. split; [exact Hh|reflexivity].
Qed.

(** Moving to a neighbouring point of the history. *)
Lemma undo_hist s h : hist_ok s h -> exists s' evs, d_undo_op s = (s', evs, false) /\ exists h', u_next h UUndo h'
  /\ hist_ok s' h' /\ tells evs (fst (h_now h)) (fst (h_now h')).
Proof.
  intros (K1 & K2 & K3 & K4 & K5 & K6). unfold d_undo_op. rewrite K1. cbn [m_ctx]. replace (0 <? 0) with false by reflexivity.
  destruct h as [hp [text sv] hf]. cbn [h_now h_past h_future fst snd] in *.   destruct s as [sm smod su sr sen srev]. cbn [d_m d_mod d_undo d_redo d_enabled d_rev] in *. subst sm smod sen.
  destruct su as [|e su], hp as [|[b bs] hp]; try (destruct K3; fail).
  { do 2 eexists. split; [reflexivity|]. eexists. split; [left; reflexivity|]. split; [|reflexivity]. repeat split; assumption. }
  destruct K3 as (L1 & L3 & L4). cbn [fst snd] in *.
  destruct (d_replay_ok InUndo e (DState (MState text 0 []) (negb sv) su sr true srev) text b eq_refl L1)
    as [(_ & -> & E)|(cs & p & r & a & L & Hs & _ & E)]; rewrite E; clear E; cbn [set_modified].
  { do 2 eexists. split; [reflexivity|]. exists (Hist hp (text, bs) hf). split; [right; do 2 eexists; repeat split|].
    split. 2:{ unfold tells. destruct (negb (Bool.eqb _ _)); reflexivity. }
    rewrite marks_count in K6. cbn [snd filter] in K6. unfold hist_ok. cbn [d_m d_mod d_undo d_redo d_enabled d_rev h_now h_past h_future fst snd].
    split; [reflexivity|]. split; [exact L3|]. rewrite L3. destruct bs; cbn [negb].
    - cbn [snd filter length] in K6. split; [|split; [|split; [reflexivity|]]].
      + rewrite <- (unmarked_id hp); [apply stack_ok_all; assumption|]. destruct (filter snd hp); [reflexivity|cbn [length] in K6; lia].
      + rewrite <- (unmarked_id hf); [apply stack_ok_all; assumption|]. destruct (filter snd hf); [reflexivity|cbn [length] in K6; lia].
      + rewrite marks_count. cbn [snd]. lia.
    - split; [assumption|]. split; [assumption|]. split; [reflexivity|]. rewrite marks_count. cbn [snd]. lia. }
  unfold d_update_text, with_m, store_undo, m_enter. cbn [d_m d_mod d_undo d_redo d_enabled d_rev m_text m_ctx m_pend set_modified].
  do 2 eexists. split; [reflexivity|]. eexists. split; [left; reflexivity|]. split.
  2:{ unfold tells. rewrite !text_changes_app, text_changes_check. cbn [u_hist h_undo h_redo h_now h_past h_future fst]. cbn [app text_changes flat_map].
      destruct (negb (Bool.eqb _ _)); exact Hs. }
  rewrite marks_count in K6. cbn [snd filter] in K6.
  assert (Hr : stack_ok b ((reverse_changes text cs, negb sv) :: sr) ((text, sv) :: hf)).
  { cbn [stack_ok fst snd]. split; [apply reverse_leads; exact L|]. split; [reflexivity|exact K4]. }
  unfold hist_ok. cbn [u_hist h_undo h_redo d_m d_mod d_undo d_redo d_enabled d_rev h_now h_past h_future fst snd].
  split; [reflexivity|]. split; [exact L3|]. rewrite L3. destruct bs; cbn [negb].
  - cbn [snd filter length] in K6. split; [|split; [|split; [reflexivity|]]].
    + rewrite <- (unmarked_id hp); [apply stack_ok_all; exact L4|]. destruct (filter snd hp); [reflexivity|cbn [length] in K6; lia].
    + rewrite <- (unmarked_id ((text, sv) :: hf)); [apply stack_ok_all; exact Hr|]. cbn [filter snd].
      destruct sv; [lia|]. destruct (filter snd hf); [reflexivity|cbn [length] in K6; lia].
    + rewrite marks_count. cbn [filter snd]. destruct sv; cbn [length]; lia.
  - split; [exact L4|]. split; [exact Hr|]. split; [reflexivity|]. rewrite marks_count. cbn [filter snd] in *. destruct sv; cbn [length] in *; lia.
Qed.

Lemma redo_hist s h : hist_ok s h -> exists s' evs, d_redo_op s = (s', evs, false) /\ exists h', u_next h URedo h'
  /\ hist_ok s' h' /\ tells evs (fst (h_now h)) (fst (h_now h')).
Proof.
  intros (K1 & K2 & K3 & K4 & K5 & K6). unfold d_redo_op. rewrite K1. cbn [m_ctx]. replace (0 <? 0) with false by reflexivity.
  destruct h as [hp [text sv] hf]. cbn [h_now h_past h_future fst snd] in *.   destruct s as [sm smod su sr sen srev]. cbn [d_m d_mod d_undo d_redo d_enabled d_rev] in *. subst sm smod sen.
  destruct sr as [|e sr], hf as [|[b bs] hf]; try (destruct K4; fail).
  { do 2 eexists. split; [reflexivity|]. eexists. split; [left; reflexivity|]. split; [|reflexivity]. repeat split; assumption. }
  destruct K4 as (L1 & L3 & L4). cbn [fst snd] in *.
  destruct (d_replay_ok InRedo e (DState (MState text 0 []) (negb sv) su sr true srev) text b eq_refl L1)
    as [(_ & -> & E)|(cs & p & r & a & L & Hs & _ & E)]; rewrite E; clear E; cbn [set_modified].
  { do 2 eexists. split; [reflexivity|]. exists (Hist hp (text, bs) hf). split; [right; do 2 eexists; repeat split|].
    split. 2:{ unfold tells. destruct (negb (Bool.eqb _ _)); reflexivity. }
    rewrite marks_count in K6. cbn [snd filter] in K6. unfold hist_ok. cbn [d_m d_mod d_undo d_redo d_enabled d_rev h_now h_past h_future fst snd].
    split; [reflexivity|]. split; [exact L3|]. rewrite L3. destruct bs; cbn [negb].
    - cbn [snd filter length] in K6. split; [|split; [|split; [reflexivity|]]].
      + rewrite <- (unmarked_id hp); [apply stack_ok_all; assumption|]. destruct (filter snd hp); [reflexivity|cbn [length] in K6; lia].
      + rewrite <- (unmarked_id hf); [apply stack_ok_all; assumption|]. destruct (filter snd hf); [reflexivity|cbn [length] in K6; lia].
      + rewrite marks_count. cbn [snd]. lia.
    - split; [assumption|]. split; [assumption|]. split; [reflexivity|]. rewrite marks_count. cbn [snd]. lia. }
  unfold d_update_text, with_m, store_undo, m_enter. cbn [d_m d_mod d_undo d_redo d_enabled d_rev m_text m_ctx m_pend set_modified].
  do 2 eexists. split; [reflexivity|]. eexists. split; [left; reflexivity|]. split.
  2:{ unfold tells. rewrite !text_changes_app, text_changes_check. cbn [u_hist h_undo h_redo h_now h_past h_future fst]. cbn [app text_changes flat_map].
      destruct (negb (Bool.eqb _ _)); exact Hs. }
  rewrite marks_count in K6. cbn [snd filter] in K6.
  assert (Hr : stack_ok b ((reverse_changes text cs, negb sv) :: su) ((text, sv) :: hp)).
  { cbn [stack_ok fst snd]. split; [apply reverse_leads; exact L|]. split; [reflexivity|exact K3]. }
  unfold hist_ok. cbn [u_hist h_undo h_redo d_m d_mod d_undo d_redo d_enabled d_rev h_now h_past h_future fst snd].
  split; [reflexivity|]. split; [exact L3|]. rewrite L3. destruct bs; cbn [negb].
  - cbn [snd filter length] in K6. split; [|split; [|split; [reflexivity|]]].
    + rewrite <- (unmarked_id ((text, sv) :: hp)); [apply stack_ok_all; exact Hr|]. cbn [filter snd].
      destruct sv; [lia|]. destruct (filter snd hp); [reflexivity|cbn [length] in K6; lia].
    + rewrite <- (unmarked_id hf); [apply stack_ok_all; exact L4|]. destruct (filter snd hf); [reflexivity|cbn [length] in K6; lia].
    + rewrite marks_count. cbn [filter snd]. destruct sv; cbn [length]; lia.
  - split; [exact Hr|]. split; [exact L4|]. split; [reflexivity|]. rewrite marks_count. cbn [filter snd] in *. destruct sv; cbn [length] in *; lia.
Qed.

Lemma modified_hist s h b : hist_ok s h ->
  hist_ok (fst (set_modified Normal b s)) (if b then h_unmark h else h_mark h).
Proof.
  intros (K1 & K2 & K3 & K4 & K5 & K6). cbn [set_modified fst]. destruct h as [hp [text sv] hf].
  unfold hist_ok. cbn [d_m d_mod d_undo d_redo d_enabled d_rev]. destruct b; cbn [h_unmark h_mark h_now h_past h_future fst snd] in *.
  - rewrite marks_count in K6. repeat (split; [assumption || reflexivity|]). unfold h_unmark. rewrite marks_count. cbn [h_now h_past h_future snd fst] in *.
    destruct sv; lia.
  - split; [exact K1|]. split; [reflexivity|]. split; [apply stack_ok_all; exact K3|]. split; [apply stack_ok_all; exact K4|].
    split; [exact K5|]. unfold h_mark. rewrite marks_count. cbn [h_now h_past h_future snd fst]. rewrite !filter_unmarked. cbn [length]. lia.
Qed.

(** One user action. *)
Lemma u_step s h u : hist_ok s h -> u_fits (fst (h_now h)) u ->
  exists h', u_next h u h' /\ hist_ok (after s (u_ops u)) h'
  /\ tells (events s (u_ops u)) (fst (h_now h)) (fst (h_now h'))
  /\ (u = UUndo \/ u = URedo -> raised s (u_ops u) = false).
Proof.
  intros Hh Hf. unfold after, events, raised. pose proof Hh as (K1 & K2 & K3 & K4 & K5 & K6). destruct u as [ops|k t|t| | |b| ].
  - destruct Hf as (Hi & Hc). set (text := fst (h_now h)) in *. exists (u_hist h (UBatch ops)). split; [left; reflexivity|].
    cbn [u_hist u_ops]. fold text.
    change (u_edits text (UBatch ops)) with (batch text ops) in *.
    destruct (d_batch s text ops K1 Hi Hc) as (d & exc & Hp & E). rewrite E. clear E.
    destruct (batch text ops) as [|c es] eqn:Eb.
    + assert (d = []) by (apply Hp; reflexivity). subst d. unfold d_apply. cbn [with_m d_m m_pend].
      rewrite (with_m_same s _ K1). cbn [fst snd]. split; [exact Hh|]. split; [reflexivity|intros [E|E]; discriminate].
    + destruct (apply_hist s h text d (c :: es) Hh eq_refl Hp Hc ltac:(discriminate)) as (s' & evs & E & H1 & H2).
      rewrite E. cbn [fst snd]. split; [exact H1|]. split; [exact H2|intros [E'|E']; discriminate].
  - exists (u_hist h (UEdit k t)). split; [left; reflexivity|].
    destruct (setitem_hist s h k t Hh) as (s' & evs & exc & E & H1 & H2).
    cbn [u_ops d_run d_op u_hist]. rewrite E. cbn [fst snd]. rewrite app_nil_r. unfold u_edits.
    split; [exact H1|]. split; [exact H2|intros [E'|E']; discriminate].
  - exists (u_hist h (UText t)). split; [left; reflexivity|].
    destruct (setitem_hist s h (KSlice None None) t Hh) as (s' & evs & exc & E & H1 & H2).
    cbn [u_ops d_run d_op u_hist]. rewrite K1. cbn [m_ctx Nat.eqb]. rewrite E. cbn [fst snd]. rewrite app_nil_r. unfold u_edits.
    assert (Ek : edit_of (fst (h_now h)) (Set_ (KSlice None None) t) = [Change 0 (length (fst (h_now h))) t]).
    { cbn [edit_of]. rewrite key_piece_parse. cbn [parse_key]. destruct (0 <? length (fst (h_now h))) eqn:El; [reflexivity|f_equal; f_equal; lia]. }
    rewrite Ek in H1, H2. split; [exact H1|]. split; [exact H2|intros [E'|E']; discriminate].
  - destruct (undo_hist s h Hh) as (s' & evs & E & h' & H0 & H1 & H2). exists h'. split; [exact H0|].
    cbn [u_ops d_run d_op]. rewrite E. cbn [fst snd]. rewrite app_nil_r. auto.
  - destruct (redo_hist s h Hh) as (s' & evs & E & h' & H0 & H1 & H2). exists h'. split; [exact H0|].
    cbn [u_ops d_run d_op]. rewrite E. cbn [fst snd]. rewrite app_nil_r. auto.
  - exists (u_hist h (UModified b)). split; [left; reflexivity|].
    pose proof (modified_hist s h b Hh) as H1. cbn [u_ops d_run d_op u_hist]. destruct (set_modified Normal b s) as [s' evs] eqn:E.
    cbn [fst snd] in *. rewrite app_nil_r. split; [destruct b; exact H1|]. split; [|intros [E'|E']; discriminate].
    cbn [set_modified] in E. injection E as _ <-. unfold tells. destruct (negb (Bool.eqb _ _)), b; cbn; reflexivity.
  - exists (u_hist h UClear). split; [left; reflexivity|].
    cbn [u_ops d_run d_op u_hist]. unfold d_clear. cbn [fst snd]. rewrite app_nil_r. split; [|split; [|intros [E'|E']; discriminate]].
    + unfold hist_ok, h_clear. cbn [d_m d_mod d_undo d_redo d_enabled d_rev h_now h_past h_future].
      repeat (split; [assumption || exact I|]). rewrite marks_count. cbn [filter length]. destruct (snd (h_now h)); lia.
    + unfold tells. rewrite text_changes_check. reflexivity.
Qed.

Lemma after_app s a b : after s (a ++ b) = after (after s a) b.
Proof.
  unfold after. rewrite d_run_app. destruct (d_run s a) as [[s1 e1] x1]. cbn [fst]. destruct (d_run s1 b) as [[? ?] ?]. reflexivity.
Qed.

Lemma u_steps : forall us s h, hist_ok s h -> u_all u_fits s us ->
  exists h', u_walk h us h' /\ hist_ok (after s (flat_map u_ops us)) h'.
Proof.
  induction us as [|u us IH]; intros s h Hh Hf; [exists h; split; [constructor|exact Hh]|]. destruct Hf as [Hf Hfs].
  assert (Et : text_of s = fst (h_now h)) by (destruct Hh as (K1 & _); unfold text_of; rewrite K1; reflexivity).
  rewrite Et in Hf. destruct (u_step s h u Hh Hf) as (h1 & W1 & H1 & _).
  destruct (IH _ _ H1 Hfs) as (h2 & W2 & H2). exists h2. split; [econstructor; eassumption|].
  cbn [flat_map]. rewrite after_app. exact H2.
Qed.

Lemma init_hist text : hist_ok (d_init text) (h_init text).
Proof. unfold hist_ok, d_init, h_init, marks. cbn. repeat split; lia. Qed.

(** ** Histories in which neighbours differ *)

Fixpoint differ (text : str) (pts : list (str * bool)) : Prop :=
  match pts with [] => True | p :: pts => fst p <> text /\ differ (fst p) pts end.
Definition distinct_steps (h : hist) : Prop :=
  differ (fst (h_now h)) (h_past h) /\ differ (fst (h_now h)) (h_future h).

Lemma differ_unmarked : forall pts text, differ text pts -> differ text (unmarked pts).
Proof. induction pts as [|p pts IH]; intros text H; [exact I|]. destruct H as [H1 H2]. split; [exact H1|apply IH; exact H2]. Qed.

Lemma next_distinct h u h' : distinct_steps h -> u_changes (fst (h_now h)) u -> u_next h u h' ->
  h' = u_hist h u /\ distinct_steps h'.
Proof.
  intros [D1 D2] Hc Hn. assert (E : h' = u_hist h u).
  { destruct Hn as [E|E]; [exact E|]. destruct u; try (destruct E; fail);
      destruct E as (p & ps & E1 & E2 & _); rewrite E1 in *; [destruct D1|destruct D2]; congruence. }
  split; [exact E|]. subst h'. destruct h as [hp hn hf]. unfold u_changes in Hc. cbn [h_now h_past h_future] in *.
  assert (He : forall es, (es <> [] -> edited (fst hn) es <> fst hn) ->
    distinct_steps match es with [] => Hist hp hn hf | c :: l => h_edit (edited (fst hn) (c :: l)) (Hist hp hn hf) end).
  { intros [|c l] H; [split; assumption|]. split; cbn [h_edit h_now h_past h_future fst differ]; [|exact I].
    split; [|exact D1]. intros E. symmetry in E. apply H in E; [exact E|discriminate]. }
  destruct u as [ops|k t|t| | |b| ]; cbn [u_hist h_now]; try (apply He; exact Hc).
  - unfold h_undo. cbn [h_past h_now h_future]. destruct hp as [|p ps]; [split; assumption|]. destruct D1 as [D0 D1].
    split; cbn [h_now h_past h_future]; [exact D1|]. split; [congruence|exact D2].
  - unfold h_redo. cbn [h_past h_now h_future]. destruct hf as [|p ps]; [split; assumption|]. destruct D2 as [D0 D2].
    split; cbn [h_now h_past h_future]; [|exact D2]. split; [congruence|exact D1].
  - destruct b; split; cbn [h_unmark h_mark h_now h_past h_future fst]; auto using differ_unmarked.
  - split; exact I.
Qed.

Lemma u_steps_distinct : forall us s h, hist_ok s h -> distinct_steps h -> u_all u_fits s us -> u_all u_changes s us ->
  hist_ok (after s (flat_map u_ops us)) (u_hists h us).
Proof.
  induction us as [|u us IH]; intros s h Hh Hd Hf Hc; [exact Hh|]. destruct Hf as [Hf Hfs], Hc as [Hc Hcs].
  assert (Et : text_of s = fst (h_now h)) by (destruct Hh as (K1 & _); unfold text_of; rewrite K1; reflexivity).
  rewrite Et in Hf, Hc. destruct (u_step s h u Hh Hf) as (h1 & W1 & H1 & _).
  destruct (next_distinct _ _ _ Hd Hc W1) as [-> Hd'].
  cbn [flat_map u_hists fold_left]. rewrite after_app. apply IH; assumption.
Qed.

Lemma edited_one text c : in_text text c -> does_something text c = true ->
  (forall a b, In a [c] -> In b [c] -> ~ cuts a b) /\ edited text [c] <> text.
Proof.
  intros [H1 H2] Hd. split.
  - intros a b [<-|[]] [<-|[]]. unfold cuts. lia.
  - rewrite <- update_text_edited.
    + unfold update_text. cbn [generate_text]. rewrite gen_pre, slice_0. intros E.
      assert (E1 : text = firstn (g_start c) text ++ skipn (g_start c) text) by (symmetry; apply firstn_skipn).
      rewrite E1 in E at 3. apply app_inv_head in E.
      assert (E2 : skipn (g_start c) text = slice text (g_start c) (g_end c) ++ from text (g_end c)).
      { unfold from. rewrite slice_app_from by lia. reflexivity. }
      rewrite E2 in E. apply app_inv_tail in E. unfold does_something in Hd. rewrite <- E in Hd.
      rewrite str_eqb_refl in Hd. discriminate.
    + cbn [ordered]. repeat split; lia.
    + intros x [<-|[]]. exact H2.
Qed.


(** Only batches can fail to change anything. *)
Lemma single_changes text u : (forall ops, u <> UBatch ops) -> u_changes text u.
Proof.
  intros Hb. unfold u_changes, u_edits.
  assert (H1 : forall c, in_text text c -> filter (does_something text) [c] <> [] ->
                         edited text (filter (does_something text) [c]) <> text).
  { intros c Hin. cbn [filter]. destruct (does_something text c) eqn:E; [|congruence]. intros _. apply edited_one; assumption. }
  destruct u as [ops|k t|t| | |b| ]; try (cbn [filter]; congruence).
  - destruct (Hb ops eq_refl).
  - cbn [edit_of]. rewrite key_piece_parse. destruct (parse_key (length text) k) as [(i, j)|] eqn:Ek; [|cbn [filter]; congruence].
    apply H1. exact (parse_key_ok text k i j t Ek).
  - apply H1. split; cbn [g_start g_end]; lia.
Qed.
