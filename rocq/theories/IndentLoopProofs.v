(** Proofs about [indent] and [auto_indent]. *)
From Verif Require Import Base BaseFacts MutableModel MutableSpec MutableProofs CursorModel BlockModel BlockSpec BlockProofs
  StripModel ReplaceProofs Prop_Block IndentModel IndentSpec IndentProofs IndentMoreProofs.
From Coq Require Import ZArith ZifyBool.

(** ** The loop as one edit for each line *)

Section Loop.
Variables (text sep : str) (space : nat -> bool) (ind : str) (ibl : bool) (events : nat * nat -> list str -> list event).
Notation info_of := (indent_info text space events).

(** What happens to the list of indents before a line is looked at, and what the line may do. *)
Definition entering (b : nat * nat) (prev : list (option str)) (indents : list str) : list str :=
  pop_indents (i_dedents_start (info_of b indents)) (indents ++ push_indents ind (last indents []) prev).
Definition changeable (i : info) : bool := allow_indent i && (ibl || negb (i_blank i)).
Definition cur (i : info) : str := match i_indent i with Some s => s | None => [] end.

Definition line_step (c : cursor) (b : nat * nat) (prev : list (option str)) (indents : list str) : ledit * list str :=
  let i := info_of b indents in
  let inds := entering b prev indents in
  if changeable i then
    if fst b <? c_pos c then (None, match i_prefer i with None => removelast inds ++ [cur i] | Some _ => inds end)
    else let new := match i_prefer i with Some s => s | None => last inds [] end in
         ((if str_eqb new (cur i) then None else Some (0, length (cur i), new)), inds)
  else (None, inds).
Definition stop (c : cursor) (b : nat * nat) : bool := match c_end c with Some e => e <=? snd b | None => false end.

Fixpoint indent_edits (c : cursor) (prev : list (option str)) (indents : list str) (bs : list (nat * nat)) : list ledit :=
  match bs with
  | [] => []
  | b :: bs =>
      let i := info_of b indents in
      fst (line_step c b prev indents)
      :: (if stop c b then map (fun _ => None) bs
          else indent_edits c (i_indents i) (pop_indents (i_dedents_end i) (snd (line_step c b prev indents))) bs)
  end.

Lemma indent_edits_length c : forall bs prev indents, length (indent_edits c prev indents bs) = length bs.
Proof.
  induction bs as [|b bs IH]; intros prev indents; [reflexivity|]. cbn [indent_edits length]. f_equal.
  destruct (stop c b); [apply map_length|apply IH].
Qed.

Lemma indent_loop_edits c : forall bs prev indents,
  indent_loop text space ind ibl events c prev indents bs
  = flat_map (fun be => op_at (fst (fst be)) (snd be)) (combine bs (indent_edits c prev indents bs)).
Proof.
  induction bs as [|b bs IH]; intros prev indents; [reflexivity|].
  cbn [indent_loop indent_edits combine flat_map fst snd].
  fold (entering b prev indents). fold (changeable (info_of b indents)). fold (cur (info_of b indents)). fold (stop c b).
  assert (R : (if stop c b then [] else @nil mop) = []) by (destruct (stop c b); reflexivity).
  assert (G : forall prev' indents',
     (if stop c b then [] else indent_loop text space ind ibl events c prev' indents' bs)
     = flat_map (fun be => op_at (fst (fst be)) (snd be)) (combine bs (if stop c b then map (fun _ => None) bs else indent_edits c prev' indents' bs))).
  { intros prev' indents'. destruct (stop c b); [|apply IH]. clear. induction bs as [|x bs IH]; [reflexivity|]. exact IH. }
  unfold line_step. cbv zeta. destruct (changeable (info_of b indents)); [|cbn [fst snd op_at app]; apply G].
  destruct (fst b <? c_pos c); cbn [fst snd op_at app]; [apply G|].
  rewrite G. f_equal. destruct (str_eqb _ _); cbn [op_at]; [reflexivity|]. rewrite Nat.add_0_r. reflexivity.
Qed.
End Loop.

(** A list of edits as a function of the places. *)
Definition lookup (bes : list ((nat * nat) * ledit)) (b : nat * nat) : ledit :=
  match find (fun be => fst (fst be) =? fst b) bes with Some be => snd be | None => None end.

Lemma lookup_ok : forall bs es, NoDup (map fst bs) -> length es = length bs -> map (lookup (combine bs es)) bs = es.
Proof.
  induction bs as [|b bs IH]; intros es Hn Hl; destruct es as [|e es]; try discriminate; [reflexivity|]. cbn [combine map]. inversion Hn as [|x y H1 H2]; subst.
  unfold lookup at 1. cbn [find fst]. rewrite Nat.eqb_refl. cbn [snd]. f_equal. rewrite <- (IH es H2) at 2 by (injection Hl; auto).
  apply map_ext_in. intros b' Hb'. unfold lookup. cbn [find fst]. replace (fst b =? fst b') with false; [reflexivity|].
  symmetry. apply Nat.eqb_neq. intros E. apply H1. rewrite E. apply in_map. exact Hb'.
Qed.

Lemma spans_nodup sep : sep <> [] -> forall lines pos, NoDup (map fst (spans sep pos lines)).
Proof.
  intros Hs. induction lines as [|l lines IH]; intros pos; [constructor|]. cbn [spans map fst]. constructor; [|apply IH].
  intros H. apply in_map_iff in H as (b & E & Hb). apply spans_after in Hb. destruct sep; [congruence|]. cbn [length] in Hb. lia.
Qed.

Definition edit_lines (lines : list str) (es : list ledit) : list str := map (fun le => edit1 (fst le) (snd le)) (combine lines es).

Lemma edited_by sep lines text es : sep <> [] -> join sep lines = text -> length es = length lines ->
  Forall (fun le => ok_edit (fst le) (snd le)) (combine lines es) ->
  edited_text text (flat_map (fun be => op_at (fst (fst be)) (snd be)) (combine (spans sep 0 lines) es)) = join sep (edit_lines lines es).
Proof.
  intros Hs Ht Hlen Hok. set (f := lookup (combine (spans sep 0 lines) es)).
  assert (Em : map f (spans sep 0 lines) = es).
  { apply lookup_ok; [apply spans_nodup; exact Hs|]. rewrite spans_length. exact Hlen. }
  assert (E1 : flat_map (fun be => op_at (fst (fst be)) (snd be)) (combine (spans sep 0 lines) es) = flat_map (fun b => op_at (fst b) (f b)) (spans sep 0 lines)).
  { rewrite <- Em at 1. generalize (spans sep 0 lines) as bs. clear. induction bs as [|b bs IH]; [reflexivity|]. cbn [map combine flat_map fst snd]. rewrite IH. reflexivity. }
  assert (Ec : combine lines es = map (fun bl => (snd bl, f (fst bl))) (combine (spans sep 0 lines) lines)).
  { rewrite <- Em at 1. generalize f. generalize 0. clear. induction lines as [|l lines IH]; intros n f; [reflexivity|]. cbn [spans map combine fst snd]. f_equal. apply IH. }
  rewrite E1, (edited_lines sep f lines text Ht).
  - unfold edit_lines, new_lines. rewrite Ec, map_map. reflexivity.
  - unfold ok_lines. rewrite Ec in Hok. rewrite Forall_map in Hok. exact Hok.
Qed.

(** [indent] on the lines, if the reported indents are in the lines. *)
Lemma indent_lines text sep space ind ibl events lines c : no_overlap sep -> is_lines text sep lines ->
  let es := indent_edits text space ind ibl events c [] [[]] (spans sep 0 lines) in
  Forall (fun le => ok_edit (fst le) (snd le)) (combine lines es) ->
  indent text sep space ind ibl events c = join sep (edit_lines lines es).
Proof.
  intros Hno Hl es Hok. unfold indent, indent_ops. rewrite (all_blocks_ok text sep lines Hno Hl), indent_loop_edits. fold es.
  apply edited_by; [apply Hno|apply Hl| |exact Hok]. unfold es. rewrite indent_edits_length. apply spans_length.
Qed.

(** ** Levels *)

Definition rel (s : info * bool) (D cur : nat) : Prop :=
  exists n, i_indents (fst s) = repeat None n /\ cur = D - i_dedents_start (fst s) - i_dedents_end (fst s) + n
    /\ (snd s = true -> n = 0 /\ i_dedents_end (fst s) = 0).

Lemma repeat_snoc {A} (x : A) n : repeat x n ++ [x] = repeat x (S n).
Proof. rewrite <- repeat_cons. reflexivity. Qed.
Lemma removelast_repeat {A} (x : A) n : removelast (repeat x (S n)) = repeat x n.
Proof. rewrite <- repeat_snoc. apply removelast_last. Qed.

Lemma fold_rel : forall es s D cur, Forall plain es -> rel s D cur -> rel (fold_left handle_event es s) D (fold_left deeper es cur).
Proof.
  induction es as [|e es IH]; intros s D cur0 Hp Hr; [exact Hr|]. inversion Hp as [|x y H1 H2]; subst. cbn [fold_left]. apply IH; [exact H2|].
  destruct s as [[indl ds de cr pre bl ns ni] f]. destruct Hr as (n & R1 & R2 & R3). cbn [fst snd i_indents i_dedents_start i_dedents_end] in *. subst indl.
  destruct e; cbn [plain] in H1; try contradiction; cbn [handle_event deeper].
  - exists (S n). cbn [fst snd i_indents i_dedents_start i_dedents_end]. split; [apply repeat_snoc|]. split; [lia|discriminate].
  - destruct f.
    + destruct (R3 eq_refl) as [-> ->]. exists 0. cbn [fst snd i_indents i_dedents_start i_dedents_end]. split; [reflexivity|]. split; [lia|auto].
    + destruct n as [|n].
      * exists 0. cbn [repeat fst snd i_indents i_dedents_start i_dedents_end]. split; [reflexivity|]. split; [lia|discriminate].
      * exists n. change (repeat None (S n)) with (None :: repeat (@None str) n). cbv iota. change (None :: repeat (@None str) n) with (repeat (@None str) (S n)).
        cbn [fst snd i_indents i_dedents_start i_dedents_end]. split; [apply removelast_repeat|]. split; [lia|discriminate].
  - exists n. cbn [fst snd i_indents i_dedents_start i_dedents_end]. auto using eq_refl. split; [reflexivity|]. split; [exact R2|discriminate].
  - exists n. auto.
  - exists n. auto.
  - exists n. auto.
Qed.

Lemma fold_start_fixed : forall es i, i_dedents_start (fst (fold_left handle_event es (i, false))) = i_dedents_start i.
Proof.
  induction es as [|e es IH]; intros i; [reflexivity|]. cbn [fold_left]. destruct i as [indl ds de cr pre bl ns ni].
  destruct e; cbn [handle_event fst]; try (rewrite IH; reflexivity). destruct indl; rewrite IH; reflexivity.
Qed.

Lemma own_level_ok : forall es i D, Forall plain es ->
  own_level (D - i_dedents_start i) es = D - i_dedents_start (fst (fold_left handle_event es (i, true))).
Proof.
  induction es as [|e es IH]; intros i D Hp; [reflexivity|]. inversion Hp as [|x y H1 H2]; subst. cbn [fold_left]. destruct i as [indl ds de cr pre bl ns ni].
  destruct e; cbn [plain] in H1; try contradiction; cbn [handle_event own_level fst deeper].
  - rewrite fold_start_fixed. reflexivity.
  - rewrite <- (IH _ D H2). cbn [i_dedents_start]. f_equal. lia.
  - rewrite fold_start_fixed. reflexivity.
  - rewrite <- (IH _ D H2). reflexivity.
  - rewrite <- (IH _ D H2). reflexivity.
  - rewrite <- (IH _ D H2). reflexivity.
Qed.

(** The list of indents [d] levels deep. *)
Definition stack (ind : str) (d : nat) : list str := map (fun i => times i ind) (seq 0 (S d)).

Lemma stack_pop ind d n : pop_indents n (stack ind d) = stack ind (d - n).
Proof.
  unfold pop_indents, stack. rewrite map_length, seq_length, firstn_map. f_equal.
  replace (Nat.max 1 (S d - n)) with (S (d - n)) by lia. replace (S d) with (S (d - n) + (d - (d - n))) by lia.
  rewrite seq_app, firstn_app, seq_length, Nat.sub_diag, firstn_all2 by (rewrite seq_length; lia). cbn [firstn]. apply app_nil_r.
Qed.
Lemma stack_last ind d : last (stack ind d) [] = times d ind.
Proof. unfold stack. rewrite seq_S, map_app. cbn [map]. apply last_last. Qed.
Lemma times_S ind n : times (S n) ind = times n ind ++ ind.
Proof. unfold times. rewrite <- repeat_snoc, concat_app. cbn [concat]. rewrite app_nil_r. reflexivity. Qed.
Lemma stack_push ind d n : stack ind d ++ push_indents ind (times d ind) (repeat None n) = stack ind (d + n).
Proof.
  revert d. induction n as [|n IH]; intros d; cbn [repeat push_indents]; [rewrite app_nil_r, Nat.add_0_r; reflexivity|].
  rewrite <- times_S. specialize (IH (S d)). replace (d + S n) with (S d + n) by lia. rewrite <- IH.
  unfold stack at 2. rewrite (seq_S (S d)), map_app, <- app_assoc. reflexivity.
Qed.

Section Levels.
Variables (text sep : str) (space : nat -> bool) (ind : str) (ibl : bool) (events : nat * nat -> list str -> list event).
(** The events do not depend on the indents, and are plain. *)
Variable evs : nat * nat -> list event.
Hypothesis Hev : forall b prev, events b prev = evs b.
Hypothesis Hplain : forall b, Forall plain (evs b).
Notation info_of := (indent_info text space events).
Notation whole := (Cursor 0 None).

Lemma plain_no_current es : Forall plain es -> existsb is_current es = false.
Proof. induction 1 as [|e es He _ IH]; [reflexivity|]. cbn [existsb]. rewrite IH. destruct e; try reflexivity. destruct He. Qed.
Lemma plain_no_prefer es : Forall plain es -> flat_map prefer_of es = [].
Proof. induction 1 as [|e es He _ IH]; [reflexivity|]. cbn [flat_map]. rewrite IH. destruct e; try reflexivity. destruct He. Qed.

Lemma plain_info b prev D : exists n, i_indents (info_of b prev) = repeat None n
  /\ own_level D (evs b) = D - i_dedents_start (info_of b prev)
  /\ fold_left deeper (evs b) D = D - i_dedents_start (info_of b prev) - i_dedents_end (info_of b prev) + n.
Proof.
  destruct (info_counts text space events b prev) as (-> & -> & ->). unfold raw. rewrite Hev.
  destruct (fold_rel (evs b) (empty_info, true) D D (Hplain b)) as (n & H1 & H2 & _).
  { exists 0. cbn. split; [reflexivity|]. split; [lia|auto]. }
  exists n. split; [exact H1|]. split; [|exact H2].
  rewrite <- (own_level_ok (evs b) empty_info D (Hplain b)). cbn [empty_info i_dedents_start]. rewrite Nat.sub_0_r. reflexivity.
Qed.

(** What [indent] should do with a line at level [d]. *)
Definition leveled (b : nat * nat) (d : nat) (l : str) : str :=
  if may_indent (evs b) && (ibl || negb (existsb is_blank (evs b)))
  then times d ind ++ skipn (length (indent_of space (evs b) l)) l else l.

Lemma step_leveled b l prev n d indents : block_text text b = l -> prev = repeat None n -> indents = stack ind d ->
  edit1 l (fst (line_step text space ind ibl events whole b prev indents)) = leveled b (own_level (d + n) (evs b)) l
  /\ ok_edit l (fst (line_step text space ind ibl events whole b prev indents))
  /\ exists n' d', i_indents (info_of b indents) = repeat None n'
       /\ pop_indents (i_dedents_end (info_of b indents)) (snd (line_step text space ind ibl events whole b prev indents)) = stack ind d'
       /\ d' + n' = fold_left deeper (evs b) (d + n).
Proof.
  intros Hb -> ->. destruct (plain_info b (stack ind d) (d + n)) as (n' & P1 & P2 & P3).
  assert (Een : entering text space ind events b (repeat None n) (stack ind d) = stack ind (own_level (d + n) (evs b))).
  { unfold entering. rewrite stack_last, stack_push, stack_pop, P2. reflexivity. }
  assert (Epop : pop_indents (i_dedents_end (info_of b (stack ind d))) (stack ind (own_level (d + n) (evs b)))
                 = stack ind (d + n - i_dedents_start (info_of b (stack ind d)) - i_dedents_end (info_of b (stack ind d)))).
  { rewrite stack_pop, P2. reflexivity. }
  unfold line_step. cbv zeta. rewrite Een. unfold changeable, leveled. rewrite info_allow, info_blank, Hev.
  destruct (may_indent (evs b) && (ibl || negb (existsb is_blank (evs b)))) eqn:Em.
  - cbn [c_pos]. replace (fst b <? 0) with false by lia. rewrite info_prefer, Hev, (plain_no_prefer _ (Hplain b)). rewrite stack_last. cbn [fst snd].
    apply andb_prop in Em as [Em _]. assert (Ec : cur (info_of b (stack ind d)) = indent_of space (evs b) l).
    { unfold cur. rewrite info_indent by (rewrite Hev; exact Em). rewrite Hev, Hb. reflexivity. }
    rewrite Ec. assert (Hp : exists r, l = indent_of space (evs b) l ++ r).
    { rewrite (no_current _ l space (plain_no_current _ (Hplain b))). destruct (blank space l); [exists l; reflexivity|]. exists (py_lstrip space l). apply lstrip_leading. }
    destruct Hp as [r Hr]. split; [|split].
    + destruct (str_eqb _ _) eqn:E; cbn [edit1 firstn app]; [|reflexivity]. apply str_eqb_spec in E. rewrite E.
      assert (G : forall i, l = i ++ r -> l = i ++ skipn (length i) l).
      { clear. intros i ->. rewrite skipn_app, skipn_all, Nat.sub_diag. reflexivity. }
      apply G. exact Hr.
    + destruct (str_eqb _ _); cbn [ok_edit]; [exact I|]. pose proof (f_equal (@length nat) Hr) as Hlen. rewrite app_length in Hlen. lia.
    + exists n', (d + n - i_dedents_start (info_of b (stack ind d)) - i_dedents_end (info_of b (stack ind d))). split; [exact P1|]. split; [exact Epop|]. rewrite P3. lia.
  - cbn [fst snd edit1 ok_edit]. split; [reflexivity|]. split; [exact I|].
    exists n', (d + n - i_dedents_start (info_of b (stack ind d)) - i_dedents_end (info_of b (stack ind d))). split; [exact P1|]. split; [exact Epop|]. rewrite P3. lia.
Qed.

Lemma edits_leveled : forall bs lines n d, Forall2 (fun b l => block_text text b = l) bs lines ->
  let es := indent_edits text space ind ibl events whole (repeat None n) (stack ind d) bs in
  Forall (fun le => ok_edit (fst le) (snd le)) (combine lines es)
  /\ edit_lines lines es = map (fun k => leveled (nth k bs (0, 0)) (own_level (fold_left deeper (concat (firstn k (map evs bs))) (d + n)) (nth k (map evs bs) [])) (nth k lines []))
                               (seq 0 (length lines)).
Proof.
  induction bs as [|b bs IH]; intros lines n d H; inversion H as [|x l y ls H1 H2]; subst.
  - split; [constructor|reflexivity].
  - cbv zeta. cbn [indent_edits]. destruct (step_leveled b (block_text text b) (repeat None n) n d (stack ind d) eq_refl eq_refl eq_refl) as (S1 & S2 & n' & d' & S3 & S4 & S5).
    unfold stop. cbn [c_end]. rewrite S3, S4. destruct (IH ls n' d' H2) as [I1 I2].
    split; [cbn [combine]; constructor; [exact S2|exact I1]|].
    unfold edit_lines in *. cbn [combine map length seq fst snd]. rewrite S1. cbn [nth map firstn concat fold_left]. f_equal.
    rewrite I2, <- seq_shift, map_map. apply map_ext. intros k. cbn [nth firstn concat]. rewrite fold_left_app, <- S5. reflexivity.
Qed.
End Levels.

(** ** What goes into the text *)

Definition all_some (Q : str -> Prop) (l : list (option str)) : Prop := Forall (fun x => match x with Some a => Q a | None => True end) l.

Lemma strings_current Q es : Forall (strings Q) es -> existsb is_current es = false.
Proof. induction 1 as [|e es He _ IH]; [reflexivity|]. cbn [existsb]. rewrite IH. destruct e; try reflexivity. destruct He. Qed.

Lemma last_opt_removelast {A} (l : list A) x : last_opt l = Some x -> l = removelast l ++ [x].
Proof.
  destruct l as [|y l _] using rev_ind; [discriminate|]. intros H. unfold last_opt in H. rewrite rev_app_distr in H. cbn in H. injection H as ->.
  rewrite removelast_last. reflexivity.
Qed.

Lemma Forall_removelast {A} (P : A -> Prop) l : Forall P l -> Forall P (removelast l).
Proof. destruct l as [|x l _] using rev_ind; [constructor|]. rewrite removelast_last. intros H. apply Forall_app in H. apply H. Qed.

Lemma fold_strings Q : forall es s, Forall (strings Q) es ->
  all_some Q (i_indents (fst s)) -> all_some Q [i_prefer (fst s)] ->
  all_some Q (i_indents (fst (fold_left handle_event es s))) /\ all_some Q [i_prefer (fst (fold_left handle_event es s))].
Proof.
  induction es as [|e es IH]; intros s He H1 H2; [auto|]. inversion He as [|x y E1 E2]; subst. cbn [fold_left].
  destruct s as [[indl ds de cr pre bl ns ni] f]. cbn [fst i_indents i_prefer] in *.
  destruct e; cbn [strings] in E1; cbn [handle_event]; apply IH; try exact E2; cbn [fst i_indents i_prefer]; try assumption.
  - apply Forall_app. split; [exact H1|]. repeat constructor.
  - destruct f, indl; cbn [fst i_indents]; try assumption. apply (Forall_removelast _ (o :: indl)). exact H1.
  - destruct f, indl; assumption.
  - repeat constructor. exact E1.
  - unfold align_last. destruct (last_opt indl) as [[a|]|] eqn:El; try assumption. apply Forall_app. split; [apply Forall_removelast; exact H1|]. repeat constructor. exact E1.
Qed.

Lemma Forall_firstn {A} (P : A -> Prop) n l : Forall P l -> Forall P (firstn n l).
Proof. intros H. rewrite <- (firstn_skipn n l) in H. apply Forall_app in H. apply H. Qed.

Section White.
Variables (text sep : str) (space : nat -> bool) (ind : str) (ibl : bool) (events : nat * nat -> list str -> list event) (c : cursor).
Variable Q : str -> Prop.
Hypothesis Qnil : Q [].
Hypothesis Qapp : forall a b, Q a -> Q b -> Q (a ++ b).
Hypothesis Qind : Q ind.
Notation info_of := (indent_info text space events).

Lemma info_strings b prev : Forall (strings Q) (events b prev) ->
  all_some Q (i_indents (info_of b prev)) /\ all_some Q [i_prefer (info_of b prev)].
Proof.
  intros H. destruct (fold_strings Q (events b prev) (empty_info, true) H) as [H1 H2]; [constructor|repeat constructor|].
  fold (raw events b prev) in H1, H2. destruct (info_raw text space events b prev) as [->| ->]; auto.
Qed.

Lemma push_Q : forall l a, Q a -> all_some Q l -> Forall Q (push_indents ind a l).
Proof.
  induction l as [|x l IH]; intros a Ha H; [constructor|]. inversion H as [|y z H1 H2]; subst. cbn [push_indents].
  assert (Hn : Q (a ++ match x with Some (y :: s) => y :: s | _ => ind end)) by (apply Qapp; [exact Ha|]; destruct x as [[|y s]|]; assumption).
  constructor; [exact Hn|]. apply IH; assumption.
Qed.

Lemma last_Q l : Forall Q l -> Q (last l []).
Proof. induction 1 as [|x l Hx _ IH]; [exact Qnil|]. destruct l; [exact Hx|exact IH]. Qed.

Lemma entering_Q b prev indents : Forall Q indents -> all_some Q prev -> Forall Q (entering text space ind events b prev indents).
Proof.
  intros H1 H2. unfold entering, pop_indents. apply Forall_firstn, Forall_app. split; [exact H1|]. apply push_Q; [apply last_Q; exact H1|exact H2].
Qed.

Definition edit_Q (e : ledit) : Prop := match e with Some (_, _, new) => Q new | None => True end.

Lemma step_Q b prev indents : Forall Q indents -> all_some Q prev -> Forall (strings Q) (events b indents) ->
  (fst b < c_pos c -> Q (cur (info_of b indents))) ->
  edit_Q (fst (line_step text space ind ibl events c b prev indents))
  /\ Forall Q (snd (line_step text space ind ibl events c b prev indents))
  /\ Forall Q (pop_indents (i_dedents_end (info_of b indents)) (snd (line_step text space ind ibl events c b prev indents)))
  /\ all_some Q (i_indents (info_of b indents)).
Proof.
  intros H1 H2 H3 H4. destruct (info_strings b indents H3) as [I1 I2]. pose proof (entering_Q b prev indents H1 H2) as He.
  assert (G : edit_Q (fst (line_step text space ind ibl events c b prev indents)) /\ Forall Q (snd (line_step text space ind ibl events c b prev indents))).
  { unfold line_step. cbv zeta. destruct (changeable ibl (info_of b indents)); [|split; [exact I|exact He]].
    inversion I2 as [|x y P1 P2]; subst.
    destruct (fst b <? c_pos c) eqn:E; cbn [fst snd].
    - split; [exact I|]. destruct (i_prefer (info_of b indents)); [exact He|]. apply Forall_app. split; [apply Forall_removelast; exact He|]. repeat constructor. apply H4. lia.
    - split; [|exact He]. destruct (str_eqb _ _); cbn [edit_Q]; [exact I|]. destruct (i_prefer (info_of b indents)); [exact P1|apply last_Q; exact He]. }
  destruct G as [G1 G2]. split; [exact G1|]. split; [exact G2|]. split; [apply Forall_firstn; exact G2|exact I1].
Qed.

(** A line that is edited gets another beginning for its own one. *)
Definition reindented (l : str) (e : ledit) (es : list event) : Prop :=
  match e with None => True | Some (i, j, new) => i = 0 /\ j = length (indent_of space es l) /\ new <> indent_of space es l end.

Lemma step_reindented b l prev indents : block_text text b = l ->
  reindented l (fst (line_step text space ind ibl events c b prev indents)) (events b indents).
Proof.
  intros Hb. unfold line_step. cbv zeta. destruct (changeable ibl (info_of b indents)) eqn:Ec; [|exact I]. destruct (fst b <? c_pos c); [exact I|].
  cbn [fst]. apply andb_prop in Ec as [Ec _]. rewrite info_allow in Ec. unfold cur. rewrite (info_indent _ _ _ _ _ Ec), Hb.
  destruct (str_eqb _ _) eqn:E; cbn [reindented]; [exact I|]. split; [reflexivity|]. split; [reflexivity|]. intros H. apply str_eqb_spec in H. congruence.
Qed.
End White.

Lemma indent_of_prefix space es l : existsb is_current es = false -> exists r, l = indent_of space es l ++ r.
Proof.
  intros H. rewrite (no_current _ l space H). destruct (blank space l); [exists l; reflexivity|]. exists (py_lstrip space l). apply lstrip_leading.
Qed.

(** All lines. *)
Section AllLines.
Variables (text sep : str) (space : nat -> bool) (ind : str) (ibl : bool) (events : nat * nat -> list str -> list event) (c : cursor).
Variable Q : str -> Prop.
Hypothesis Qnil : Q [].
Hypothesis Qapp : forall a b, Q a -> Q b -> Q (a ++ b).
Hypothesis Qind : Q ind.
Notation info_of := (indent_info text space events).
Notation edits := (indent_edits text space ind ibl events).

Lemma edits_ok : forall bs lines prev indents, Forall2 (fun b l => block_text text b = l) bs lines ->
  Forall Q indents -> all_some Q prev -> (forall b p, In b bs -> Forall (strings Q) (events b p)) ->
  (forall l, In l lines -> Q (leading space l)) ->
  Forall2 (fun l e => exists es, Forall (strings Q) es /\ reindented space l e es /\ edit_Q Q e) lines (edits c prev indents bs).
Proof.
  induction bs as [|b bs IH]; intros lines prev indents HF H1 H2 H3 H4; inversion HF as [|x l y ls F1 F2]; subst; cbn [indent_edits]; [constructor|].
  assert (Hb3 : Forall (strings Q) (events b indents)) by (apply H3; left; reflexivity).
  destruct (step_Q text space ind ibl events c Q Qnil Qapp Qind b prev indents H1 H2 Hb3) as (S1 & S2 & S3 & S4).
  { intros _. unfold cur. destruct (may_indent (events b indents)) eqn:Em.
    - rewrite (info_indent _ _ _ _ _ Em), (no_current _ _ _ (strings_current Q _ Hb3)). destruct (blank space _); [exact Qnil|]. apply H4. left; reflexivity.
    - assert (En : i_indent (info_of b indents) = None); [|rewrite En; exact Qnil].
      unfold indent_info. fold (raw events b indents). pose proof (info_allow text space events b indents) as Ea. rewrite Em in Ea. unfold indent_info in Ea. fold (raw events b indents) in Ea.
      pose proof (fold_current (events b indents) (empty_info, true)) as Ef. fold (raw events b indents) in Ef. cbn [empty_info fst i_indent] in Ef.
      replace (flat_map current_of (events b indents)) with (@nil str) in Ef.
      + rewrite Ef in *. destruct (allow_indent (raw events b indents)) eqn:Er; [|exact Ef]. unfold allow_indent in Ea. cbn [i_no_indent] in Ea. fold (allow_indent (raw events b indents)) in Ea. congruence.
      + pose proof (strings_current Q _ Hb3) as Hcur. clear - Hcur. induction (events b indents) as [|e es IH]; [reflexivity|]. cbn [existsb] in Hcur. apply orb_false_elim in Hcur as [Hc1 Hc2].
        cbn [flat_map]. rewrite <- IH by exact Hc2. destruct e; try reflexivity. discriminate. }
  constructor.
  - exists (events b indents). split; [exact Hb3|]. split; [apply step_reindented; reflexivity|exact S1].
  - destruct (stop c b).
    + clear - F2. induction F2 as [|b' l' bs ls F1 F2 IH]; [constructor|]. cbn [map]. constructor; [exists []; repeat constructor|exact IH].
    + apply IH; try assumption; [intros b' p Hb'; apply H3; right; exact Hb'|intros l' Hl'; apply H4; right; exact Hl'].
Qed.

Lemma edits_ok_edit lines es : Forall2 (fun l e => exists ev, Forall (strings Q) ev /\ reindented space l e ev /\ edit_Q Q e) lines es ->
  Forall (fun le => ok_edit (fst le) (snd le)) (combine lines es).
Proof.
  induction 1 as [|l e lines es H _ IH]; [constructor|]. cbn [combine]. constructor; [|exact IH]. cbn [fst snd].
  destruct H as (ev & E1 & E2 & _). destruct e as [[[i j] new]|]; [|exact I]. cbn [reindented ok_edit] in *. destruct E2 as (-> & -> & _).
  destruct (indent_of_prefix space ev l (strings_current Q _ E1)) as [r Hr]. pose proof (f_equal (@length nat) Hr) as Hlen. rewrite app_length in Hlen. lia.
Qed.

(** No edit: the line stays the same. *)
Lemma edit1_same l e ev : existsb is_current ev = false -> reindented space l e ev -> edit1 l e = l -> e = None.
Proof.
  intros H1 H2 H3. destruct e as [[[i j] new]|]; [|reflexivity]. cbn [reindented edit1] in *. destruct H2 as (-> & -> & H2). exfalso. apply H2.
  destruct (indent_of_prefix space ev l H1) as [r Hr]. cbn [firstn app] in H3.
  assert (G : forall a (b : str), l = a ++ r -> b ++ skipn (length a) l = l -> b = a).
  { intros a b E1 E2. rewrite E1 in E2 at 1. rewrite skipn_app, skipn_all, Nat.sub_diag in E2. cbn [skipn app] in E2. rewrite E1 in E2. apply app_inv_tail in E2. exact E2. }
  apply (G _ _ Hr H3).
Qed.

(** Nothing to do for the whole text: nothing to do for a part. *)
Lemma edits_none_part : forall bs prev indents, indents <> [] ->
  Forall (fun e => e = None) (edits (Cursor 0 None) prev indents bs) -> Forall (fun e => e = None) (edits c prev indents bs).
Proof.
  induction bs as [|b bs IH]; intros prev indents Hn H; [constructor|]. cbn [indent_edits] in *. inversion H as [|x y H1 H2]; subst. unfold stop in H2. cbn [c_end] in H2.
  assert (Hne : entering text space ind events b prev indents <> []).
  { unfold entering, pop_indents. destruct indents as [|a l]; [congruence|]. cbn [app length]. destruct (Nat.max 1 _) eqn:E; [lia|]. discriminate. }
  assert (Es : fst (line_step text space ind ibl events c b prev indents) = None
               /\ snd (line_step text space ind ibl events c b prev indents) = snd (line_step text space ind ibl events (Cursor 0 None) b prev indents)).
  { unfold line_step in *. cbv zeta in *. destruct (changeable ibl (info_of b indents)); [|split; reflexivity]. cbn [c_pos] in *. replace (fst b <? 0) with false in * by lia.
    cbn [fst snd] in *. destruct (fst b <? c_pos c); [|split; [exact H1|reflexivity]]. cbn [fst snd]. split; [reflexivity|].
    destruct (i_prefer (info_of b indents)) as [p|]; [reflexivity|]. destruct (str_eqb _ _) eqn:E; [|discriminate]. apply str_eqb_spec in E. rewrite <- E.
    symmetry. apply app_removelast_last. exact Hne. }
  destruct Es as [Es1 Es2]. constructor; [exact Es1|]. destruct (stop c b); [clear; induction bs; constructor; [reflexivity|assumption]|].
  rewrite Es2. apply IH; [|exact H2]. intros E. unfold pop_indents in E.
  set (r := snd (line_step text space ind ibl events (Cursor 0 None) b prev indents)) in *.
  assert (Hr : r <> []).
  { unfold r, line_step. cbv zeta. destruct (changeable ibl (info_of b indents)); [|exact Hne]. cbn [c_pos]. replace (fst b <? 0) with false by lia. exact Hne. }
  destruct r as [|a r']; [congruence|]. destruct (Nat.max 1 (length (a :: r') - i_dedents_end (info_of b indents))) eqn:E2; [lia|discriminate].
Qed.
End AllLines.
