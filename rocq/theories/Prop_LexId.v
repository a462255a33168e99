(** C129, C130: lexicons as objects, and their parse functions. *)
From Verif Require Import Base LexIdModel LexIdSpec LexIdProofs.
From Coq Require Import Arith Lia.

(** C129.  Whatever lexicons are asked for, from classes and by calling lexicons that were returned before, with or without an argument: every step returns a lexicon of the
    class and the descriptor that were asked for, with an equal argument, and two steps return the same object just if they asked for the same descriptor and class, and for
    equal arguments.  [==] is true just if the descriptor and class are the same, and [!=] is its opposite. *)
Theorem C129_same_lexicon_partial (A : Type) (aeq : A -> A -> bool) :
  (forall a, aeq a a = true) -> (forall a b, aeq a b = true -> aeq b a = true) -> (forall a b c, aeq a b = true -> aeq b c = true -> aeq a c = true) ->
  forall ops ws, all_wants [] ops = Some ws ->
  exists h res, history A aeq h_empty [] ops = Some (h, res) /\ length res = length ops /\
    (forall i x w, nth_error res i = Some x -> nth_error ws i = Some w ->
       exists o, nth_error (h_objs h) x = Some o /\ (x_desc o, x_lang o) = fst w /\ same_arg aeq (x_arg o) (snd w)) /\
    (forall i j x y w w', nth_error res i = Some x -> nth_error res j = Some y -> nth_error ws i = Some w -> nth_error ws j = Some w' -> (x = y <-> same_want aeq w w')) /\
    (forall o1 o2 : lexi A, (lex_eq o1 o2 = true <-> (x_desc o1, x_lang o1) = (x_desc o2, x_lang o2)) /\ lex_ne o1 o2 = negb (lex_eq o1 o2)).
Proof.
  intros H1 H2 H3 ops ws Hw. destruct (history_same A aeq H1 H2 H3 ops ws Hw) as (h & res & R1 & R2 & R3 & R4). exists h, res. split; [exact R1 |]. split; [exact R2 |]. split; [exact R3 |]. split; [exact R4 |].
  intros o1 o2. unfold lex_eq, lex_ne. split.
  - rewrite Bool.andb_true_iff, !Nat.eqb_eq. split; [now intros [-> ->] | intros E; now injection E].
  - now rewrite Bool.negb_andb.
Qed.
Print Assumptions C129_same_lexicon_partial.

(** A language 7 with a lexicon 3: the lexicon, derived with 5, derived from that with 6, again with 5 from that, and called with nothing. *)
Example C129_case :
  let ops := [LGet 3 7; LCall 0 (Some 5); LCall 1 (Some 6); LCall 2 (Some 5); LCall 3 None; LGet 3 8] in
  all_wants [] ops = Some [(3, 7, None); (3, 7, Some 5); (3, 7, Some 6); (3, 7, Some 5); (3, 7, Some 5); (3, 8, None)] /\
  option_map snd (history nat Nat.eqb h_empty [] ops) = Some [0; 1; 2; 1; 1; 3].
Proof. split; reflexivity. Qed.

(** Not so: that the argument of the returned lexicon is the one it was called with.  Arguments are numbers and booleans here; True equals 1. *)
Definition py_eq (a b : nat + bool) : bool :=
  let num x := match x with inl n => n | inr true => 1 | inr false => 0 end in num a =? num b.
Theorem C129_exact_argument_refuted :
  (forall a, py_eq a a = true) /\ (forall a b, py_eq a b = true -> py_eq b a = true) /\ (forall a b c, py_eq a b = true -> py_eq b c = true -> py_eq a c = true) /\
  exists h res x o, history _ py_eq h_empty [] [LGet 0 0; LCall 0 (Some (inl 1)); LCall 0 (Some (inr true))] = Some (h, res) /\
    nth_error res 2 = Some x /\ nth_error (h_objs h) x = Some o /\ x_arg o = Some (inl 1).
Proof.
  unfold py_eq. split; [intros a; apply Nat.eqb_refl |]. split; [intros a b H; now rewrite Nat.eqb_sym |].
  split; [intros a b c H1 H2; apply Nat.eqb_eq in H1, H2; apply Nat.eqb_eq; congruence |].
  do 4 eexists. split; [reflexivity |]. split; [reflexivity |]. split; reflexivity.
Qed.
Print Assumptions C129_exact_argument_refuted.

(** C130.  Any number of threads that ask a lexicon for its parse function, in any order of their steps, where building the function works or fails:
    it is built successfully at most once, all threads that get a function get the same one, an exception is only seen by a thread whose own build failed,
    as long as some thread is not done one can go on, and there are at most six steps for each thread, so all get done. *)
Theorem C130_parse_function n l s : p_run (p_init n) l s ->
  p_builds s <= 1 /\
  (forall i j f g, nth_error (p_threads s) i = Some (PDone (Some f)) -> nth_error (p_threads s) j = Some (PDone (Some g)) -> f = g) /\
  (forall i f, nth_error (p_threads s) i = Some (PDone (Some f)) -> p_parse s = Some f /\ p_builds s = 1) /\
  (forall i, nth_error (p_threads s) i = Some (PDone None) -> In (i, false) l) /\
  (forall ok, (exists i pc, nth_error (p_threads s) i = Some pc /\ forall r, pc <> PDone r) -> exists i s', p_step ok i s = Some s') /\
  length l <= 6 * n.
Proof.
  intros R. pose proof (pinv_run _ _ _ (pinv_init n) R) as V.
  assert (G : forall i f, nth_error (p_threads s) i = Some (PDone (Some f)) -> p_parse s = Some f /\ p_builds s = 1).
  { intros i f H. pose proof (v_pc s V _ _ H) as P. cbn in P. split; [exact P |]. now destruct (v_some s V _ P). }
  split; [destruct (p_parse s) as [f |] eqn:E; [destruct (v_some s V _ E); lia | rewrite (v_none s V E); lia] |].
  split; [intros i j f g H1 H2; apply G in H1, H2; destruct H1, H2; congruence |]. split; [exact G |]. split; [| split].
  - intros i H. destruct (own_failure _ _ _ _ R H (pinv_init n)) as [H0 | H0]; [| exact H0]. cbn in H0. apply nth_error_In, repeat_spec in H0. discriminate.
  - intros ok H. exact (progress s ok V H).
  - pose proof (run_length _ _ _ R) as L. assert (E : ranks (p_threads (p_init n)) = 6 * n); [| lia]. cbn [p_init p_threads]. clear. unfold ranks. induction n as [| n IH]; [reflexivity |]. cbn [repeat map list_sum fold_right] in *. unfold list_sum in IH. rewrite IH. cbn [rank]. lia.
Qed.
Print Assumptions C130_parse_function.

(** Two threads that both find no function; the build of the first fails, the second builds it. *)
Example C130_case : exists s, p_run (p_init 3) [(0, true); (1, true); (0, true); (0, true); (0, false); (1, true); (1, true); (1, true); (2, true); (1, true); (1, true)] s /\
  p_threads s = [PDone None; PDone (Some 0); PDone (Some 0)].
Proof. eexists. split; [repeat (eapply PRCons; [cbv; reflexivity |]); apply PRNil | reflexivity]. Qed.
