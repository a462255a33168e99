(** C148: a handler that is connected for one call, when handlers raise exceptions or emit the event themselves. *)
From Coq Require Import List Arith Bool Lia.
From Verif Require Import OnceModel OnceProofs.
Import ListNotations.

(** The full claim: a handler connected for one call is called at most once, whatever the handlers do. *)
Definition one_call : Prop := forall behave n depth fuel s s' k f,
  NoDup (map h_func (slots s)) -> In (Handler f true) (slots s) ->
  emits behave n depth fuel s = Some (s', k) -> calls f (log s') <= calls f (log s) + 1.

(** It is false: function 0 is for one call; function 1, which is called after it, raises an exception the first time. *)
Definition raises_first (f n : nat) : act := match f, n with 1, 0 => Raise | _, _ => Return end.
Definition two : state := St [Handler 0 true; Handler 1 false] [].
Theorem C148_raise_refuted : ~ one_call.
Proof.
  intro C. assert (E : emits raises_first 2 1 3 two = Some (St [Handler 1 false] [0; 1; 0; 1], 1)) by reflexivity.
  specialize (C raises_first 2 1 3 two _ 1 0 ltac:(cbn; repeat (apply NoDup_cons; [cbn; lia|]); apply NoDup_nil) (or_introl eq_refl) E). cbn in C. lia.
Qed.

(** Also without any exception from a handler: function 1 emits the event again, the first time. The handler for one call is called twice, and with it another handler,
    that is not for one call, is disconnected: function 1. *)
Definition emits_first (f n : nat) : act := match f, n with 1, 0 => EmitAgain | _, _ => Return end.
Theorem C148_nested_refuted : exists behave s s', (forall f n, behave f n <> Raise) /\ NoDup (map h_func (slots s)) /\ In (Handler 0 true) (slots s) /\
  In (Handler 1 false) (slots s) /\ emits behave 1 2 3 s = Some (s', 0) /\ calls 0 (log s') = calls 0 (log s) + 2 /\ ~ In (Handler 1 false) (slots s').
Proof.
  exists emits_first, two, (St [] [0; 1; 0; 1]). split; [intros [|[|f]] [|n]; discriminate|]. split; [cbn; repeat (apply NoDup_cons; [cbn; lia|]); apply NoDup_nil|].
  split; [now left|]. split; [right; now left|]. split; [reflexivity|]. split; [reflexivity|]. now intros [].
Qed.

(** When no handler emits the event itself: over any number of emits, one call, and one more for every emit in which an exception was raised. So exactly the claim, when no
    handler raises. *)
Theorem C148_once_partial : forall behave n depth fuel s s' k f, (forall f n, behave f n <> EmitAgain) ->
  NoDup (map h_func (slots s)) -> In (Handler f true) (slots s) ->
  emits behave n depth fuel s = Some (s', k) -> calls f (log s') <= calls f (log s) + 1 + k.
Proof.
  intros behave n depth fuel s s' k f F D I E.
  assert (O : forall h, In h (slots s) -> h_func h = f -> h_once h = true).
  { intros h Ih Eh. clear E. induction (slots s) as [|x l IHl]; [contradiction|]. cbn [map] in D. inversion D as [|y z N D' Ey]. subst y z.
    destruct I as [I|I], Ih as [Ih|Ih].
    - subst x. now subst h.
    - exfalso. apply N. subst x. cbn [h_func]. rewrite <- Eh. now apply in_map.
    - exfalso. apply N. subst x. rewrite Eh. change f with (h_func (Handler f true)). now apply in_map.
    - now apply IHl. }
  pose proof (emits_once behave F f n depth fuel s s' k D O E) as L. destruct (in_dec _ _ _); lia.
Qed.

(** One emit: without an exception every handler is called, in order, and those for one call are disconnected, no others. With an exception the handlers up to and including
    the one that raised are called, and they all stay connected. *)
Theorem C148_emit_partial : forall behave depth fuel s s' exc, (forall f n, behave f n <> EmitAgain) ->
  emit behave depth fuel s = Some (s', exc) ->
  (exc = false /\ slots s' = filter (fun h => negb (h_once h)) (slots s) /\ log s' = log s ++ map h_func (slots s)) \/
  (exc = true /\ slots s' = slots s /\ exists a h b, slots s = a ++ h :: b /\ log s' = log s ++ map h_func (a ++ [h])).
Proof. intros behave depth fuel s s' exc F. exact (emit_flat behave F depth fuel s s' exc). Qed.

(** An emit always comes to an end, and an exception comes out exactly when one of the handlers raises. *)
Theorem C148_exception_partial : forall behave depth fuel s, (forall f n, behave f n <> EmitAgain) ->
  length (slots s) < fuel -> NoDup (map h_func (slots s)) ->
  exists s' exc, emit behave (S depth) fuel s = Some (s', exc) /\
    (exc = true <-> exists h, In h (slots s) /\ behave (h_func h) (calls (h_func h) (log s)) = Raise).
Proof.
  intros behave depth fuel s F L D. destruct (emit_exc behave F depth fuel s L D) as (s' & E). exists s', (existsb (fun h => raises behave h (log s)) (slots s)).
  split; [exact E|]. rewrite existsb_exists. unfold raises. split; intros (h & I & R); exists h; (split; [exact I|]); destruct (behave _ _); congruence.
Qed.

(** With an exception it is the first handler that raises, after which no other one is called. *)
Theorem C148_first_partial : forall behave depth fuel s a h b, (forall f n, behave f n <> EmitAgain) ->
  slots s = a ++ h :: b -> length (slots s) < fuel -> NoDup (map h_func (slots s)) ->
  (forall x, In x a -> behave (h_func x) (calls (h_func x) (log s)) <> Raise) -> behave (h_func h) (calls (h_func h) (log s)) = Raise ->
  emit behave (S depth) fuel s = Some (St (slots s) (log s ++ map h_func a ++ [h_func h]), true).
Proof.
  intros behave depth fuel s a h b F S L D Na Rh. cbn [emit].
  assert (La : length a < fuel) by (rewrite S, app_length in L; cbn [length] in L; lia).
  assert (Da : NoDup (map h_func (a ++ [h]))).
  { rewrite S in D. replace (a ++ h :: b) with ((a ++ [h]) ++ b) in D by (now rewrite <- app_assoc). rewrite map_app in D. clear -D.
    induction (map h_func (a ++ [h])) as [|x l IH]; [constructor|]. cbn [app] in D. inversion D as [|y z N D' Ey]. subst y z. constructor; [|now apply IH].
    intro I. apply N, in_or_app. now left. }
  destruct (loop_first behave F (emit behave depth fuel) h b a fuel [] [] s S La Da) as (dis & E).
  - intros x I. specialize (Na x I). unfold raises. destruct (behave _ _); congruence.
  - unfold raises. now rewrite Rh.
  - cbn [length] in E. rewrite E, map_app. reflexivity.
Qed.

(** Three handlers, one of them for one call, two emits, of which the first one fails. *)
Definition three : state := St [Handler 0 true; Handler 1 false; Handler 2 true] [].
Example once_example : (forall f n, raises_first f n <> EmitAgain) /\ NoDup (map h_func (slots three)) /\ In (Handler 0 true) (slots three) /\
  emits raises_first 3 1 4 three = Some (St [Handler 1 false] [0; 1; 0; 1; 2; 1], 1).
Proof. split; [intros [|[|f]] [|n]; discriminate|]. split; [cbn; repeat (apply NoDup_cons; [cbn; lia|]); apply NoDup_nil|]. split; [now left|reflexivity]. Qed.
Example once_exception_example : length (slots three) < 4 /\ emit raises_first 1 4 three = Some (St (slots three) [0; 1], true).
Proof. split; [cbn; lia|reflexivity]. Qed.

Print Assumptions C148_raise_refuted.
Print Assumptions C148_nested_refuted.
Print Assumptions C148_once_partial.
Print Assumptions C148_emit_partial.
Print Assumptions C148_exception_partial.
Print Assumptions C148_first_partial.
