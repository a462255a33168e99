(** Property C101: queries that go to the tokens before and after a node, and slices. *)
From Verif Require Import Base LexerModel TreeModel TreeSpec QueryModel QuerySpec QueryProofs QueryNavModel QueryNavProofs QuerySliceProofs.
From Coq Require Import ZArith.

(** From any node of a well formed tree: [forward] yields exactly the tokens that come after the node in document order (and are not
    below it), in that order; [backward] exactly those that come before it, the nearest first; [next] and [previous] the first of
    these, or nothing if there is none. No exception is raised. *)
Theorem C101_forward_backward : forall (L A : Type) (root : node L A) n, wf_children (children root) -> valid root n ->
  exists f b, q_forward root [n] = Some f /\ q_backward root [n] = Some b /\
    StronglySorted before f /\ StronglySorted (fun x y => before y x) b /\
    (forall q, In q f <-> (exists t, node_at root q = Some (Tok t)) /\ before n q /\ ~ below n q) /\
    (forall q, In q b <-> (exists t, node_at root q = Some (Tok t)) /\ before q n) /\
    q_next root [n] = Some (firstn 1 f) /\ q_previous root [n] = Some (firstn 1 b).
Proof. exact nav_ok. Qed.
Print Assumptions C101_forward_backward.

(** For several nodes the results are yielded one after the other. *)
Theorem C101_each : forall (L A : Type) (root : node L A) a b f,
  In f [q_forward root; q_backward root; q_next root; q_previous root] \/ (exists start stop step, f = q_slice root start stop step) ->
  f (a ++ b) = match f a, f b with Some x, Some y => Some (x ++ y) | _, _ => None end.
Proof.
  intros L A root a b f [[<- | [<- | [<- | [<- | []]]]] | [start [stop [step ->]]]]; apply each_app.
Qed.
Print Assumptions C101_each.

(** Slices of a context with [k] children: [:], [::-1], [:i] and [i:] together, [i:j], [-i:], [:-i] and [i:j:s] are what they are for Python
    lists; a step of zero raises. *)
Theorem C101_slices : forall (L A : Type) (root : node L A) n l cs, node_at root n = Some (Ctx l cs) ->
  let child i := n ++ [i] in let k := length cs in
  q_slice root None None None [n] = Some (map child (seq 0 k)) /\
  q_slice root None None (Some (-1)%Z) [n] = Some (rev (map child (seq 0 k))) /\
  (forall i, exists a b, q_slice root None (Some i) None [n] = Some a /\ q_slice root (Some i) None None [n] = Some b /\
     a ++ b = map child (seq 0 k)) /\
  (forall i j, i <= j <= k -> q_slice root (Some (Z.of_nat i)) (Some (Z.of_nat j)) None [n] = Some (map child (seq i (j - i)))) /\
  (forall i, 0 < i <= k -> q_slice root (Some (- Z.of_nat i)%Z) None None [n] = Some (map child (seq (k - i) i)) /\
                           q_slice root None (Some (- Z.of_nat i)%Z) None [n] = Some (map child (seq 0 (k - i)))) /\
  (forall i j s, 0 < s -> q_slice root (Some (Z.of_nat i)) (Some (Z.of_nat j)) (Some (Z.of_nat s)) [n] =
     Some (map child (filter (fun c => (i <=? c) && (c <? j) && ((c - i) mod s =? 0)) (seq 0 k)))) /\
  (forall i j, q_slice root i j (Some 0%Z) [n] = None).
Proof.
  intros L A root n l cs E child k.
  assert (S1 : forall a b c, q_slice root a b c [n] = option_map (map child) (slice_indices k a b c)).
  { intros a b c. unfold q_slice. cbn [each]. rewrite (is_context_at _ _ _ _ _ E), (len_at _ _ _ _ _ E). cbn [children].
    fold k. destruct (slice_indices k a b c); cbn [option_map]; [now rewrite app_nil_r | reflexivity]. }
  destruct (slices_ok k) as [H1 [H2 [H3 [H4 [H5 [H6 H7]]]]]].
  split; [now rewrite S1, H1 |]. split; [rewrite S1, H2; cbn; now rewrite map_rev |].
  split; [| split; [| split; [| split]]].
  - intros i. destruct (H3 i) as [a [b [Ea [Eb Eab]]]]. exists (map child a), (map child b). rewrite !S1, Ea, Eb. cbn. rewrite <- map_app, Eab. now split.
  - intros i j H. now rewrite S1, H4.
  - intros i H. rewrite !S1. destruct (H5 i H) as [-> ->]. now split.
  - intros i j s H. now rewrite S1, H6.
  - intros i j. now rewrite S1, H7.
Qed.
Print Assumptions C101_slices.

(** [slice(start, stop, step)] keeps, of the whole selection, the nodes with a number from [start] up to [stop], in steps. *)
Theorem C101_islice : forall start stop step ns, 0 < step ->
  q_islice start stop step ns =
  map snd (filter (fun x => (start <=? fst x) && ((fst x - start) mod step =? 0) && match stop with Some m => fst x <? m | None => true end)
    (combine (seq 0 (length ns)) ns)).
Proof. intros start stop step ns H. exact (islice_ok step H ns start stop 0). Qed.
Print Assumptions C101_islice.

(** The tree of the examples: a token, a context with a token and a context with two tokens, and a token. *)
Definition nt (i : nat) : tok nat := Token i [97] 7 None.
Definition ex_nav : node nat nat := Ctx 0 [Tok (nt 0); Ctx 1 [Tok (nt 1); Ctx 2 [Tok (nt 3); Tok (nt 4)]]; Tok (nt 6)].
Example C101_example : wf_children (children ex_nav) /\ valid ex_nav [1; 0] /\
  q_forward ex_nav [[1; 0]] = Some [[1; 1; 0]; [1; 1; 1]; [2]] /\ q_backward ex_nav [[2]] = Some [[1; 1; 1]; [1; 1; 0]; [1; 0]; [0]] /\
  q_next ex_nav [[1]; [2]; [0]] = Some [[2]; [1; 0]] /\ q_previous ex_nav [[1; 1]; []] = Some [[1; 0]] /\
  q_slice ex_nav (Some (-2)%Z) None None [[]; [0]; [1; 1]] = Some [[1]; [2]; [1; 1; 0]; [1; 1; 1]] /\
  q_slice ex_nav None None (Some (-2)%Z) [[]] = Some [[2]; [0]] /\
  q_islice 1 (Some 5) 2 [[0]; [1]; [2]; [3]; [4]; [5]] = [[1]; [3]].
Proof.
  split; [split; [| split]; repeat (constructor; try discriminate); cbn; lia |]. split; [discriminate |]. repeat split.
Qed.
