(** Handlers that do not emit the event themselves. *)
From Coq Require Import List Arith Bool Lia.
From Verif Require Import OnceModel.
Import ListNotations.

Section Proofs.
Variable behave : nat -> nat -> act.
Hypothesis flat : forall f n, behave f n <> EmitAgain.

(** The indices of the one-time handlers, the last one first. *)
Fixpoint once_from (i : nat) (l : list handler) : list nat :=
  match l with [] => [] | h :: l => once_from (S i) l ++ (if h_once h then [i] else []) end.

Lemma del_app a x b : del (length a) (a ++ x :: b) = Some (a ++ b).
Proof. induction a as [|y a IH]; [reflexivity|]. cbn. now rewrite IH. Qed.
Lemma del_all_app is js l : del_all (is ++ js) l = (let (l', exc) := del_all is l in if exc then (l', true) else del_all js l').
Proof.
  revert l. induction is as [|i is IH]; intro l; [cbn; destruct (del_all js l); reflexivity|]. cbn. destruct (del i l); [apply IH|reflexivity].
Qed.
Lemma del_once : forall l a, del_all (once_from (length a) l) (a ++ l) = (a ++ filter (fun h => negb (h_once h)) l, false).
Proof.
  induction l as [|h l IH]; intro a; [reflexivity|]. cbn [once_from filter]. rewrite del_all_app.
  specialize (IH (a ++ [h])). rewrite app_length in IH. cbn [length] in IH. rewrite Nat.add_1_r, <- app_assoc in IH. cbn [app] in IH. rewrite IH.
  destruct (h_once h); cbn [del_all negb].
  - rewrite <- app_assoc. cbn [app]. now rewrite del_app.
  - now rewrite <- app_assoc.
Qed.

(** The loop without emitting inside: a run over the rest of the list. *)
Inductive outcome (s : state) (rest : list handler) : state -> bool -> Prop :=
| o_all : outcome s rest (St (slots s) (log s ++ map h_func rest)) false
| o_raise a h b : rest = a ++ h :: b -> outcome s rest (St (slots s) (log s ++ map h_func (a ++ [h]))) true.

Lemma loop_flat again : forall fuel rest a dis s r, slots s = a ++ rest -> loop behave again fuel (length a) dis s = Some r ->
  exists s' dis' exc, r = (s', dis', exc) /\ outcome s rest s' exc /\ (exc = false -> dis' = once_from (length a) rest ++ dis).
Proof.
  induction fuel as [|fuel IH]; intros rest a dis s r S E; [discriminate E|]. cbn [loop] in E. rewrite S in E.
  destruct rest as [|h rest].
  - rewrite app_nil_r in *. assert (N : nth_error a (length a) = None) by (apply nth_error_None; lia). rewrite N in E. injection E as <-.
    exists s, dis, false. split; [reflexivity|]. split; [|reflexivity]. pose proof (o_all s []) as K. cbn in K. rewrite app_nil_r in K. destruct s; exact K.
  - rewrite nth_error_app2 in E by lia. rewrite Nat.sub_diag in E. cbn [nth_error] in E. destruct (behave _ _) eqn:B; [| |now contradict B].
    + assert (S' : slots (St (a ++ h :: rest) (log s ++ [h_func h])) = (a ++ [h]) ++ rest) by (cbn; now rewrite <- app_assoc).
      specialize (IH rest (a ++ [h]) (if h_once h then length a :: dis else dis) _ r S'). rewrite app_length in IH. cbn [length] in IH. rewrite Nat.add_1_r in IH.
      destruct (IH E) as (s' & dis' & exc & -> & O & D). exists s', dis', exc. split; [reflexivity|]. split.
      * inversion O as [E1 E2|a' h' b' R E1 E2]; subst; cbn [slots log].
        -- pose proof (o_all s (h :: rest)) as K. cbn [map] in K. rewrite S in K. now rewrite <- app_assoc.
        -- pose proof (o_raise s (h :: a' ++ h' :: b') (h :: a') h' b' eq_refl) as K. cbn [app map] in K. rewrite S in K. now rewrite <- app_assoc.
      * intro Q. rewrite (D Q). cbn [once_from]. rewrite <- app_assoc. destruct (h_once h); reflexivity.
    + injection E as <-. exists (St (a ++ h :: rest) (log s ++ [h_func h])), dis, true. split; [reflexivity|]. split; [|discriminate].
      pose proof (o_raise s (h :: rest) [] h rest eq_refl) as K. cbn [app map] in K. now rewrite S in K.
Qed.

Lemma emit_flat depth fuel s s' exc : emit behave depth fuel s = Some (s', exc) ->
  (exc = false /\ slots s' = filter (fun h => negb (h_once h)) (slots s) /\ log s' = log s ++ map h_func (slots s)) \/
  (exc = true /\ slots s' = slots s /\ exists a h b, slots s = a ++ h :: b /\ log s' = log s ++ map h_func (a ++ [h])).
Proof.
  destruct depth as [|depth]; [discriminate|]. cbn [emit]. destruct (loop behave (emit behave depth fuel) fuel 0 [] s) as [r|] eqn:E; [|discriminate].
  destruct (loop_flat _ fuel (slots s) [] [] s r eq_refl E) as (s1 & dis & x & -> & O & D). intro R. destruct x.
  - injection R as <- <-. right. split; [reflexivity|]. inversion O as [|a h b Q E1 E2]; subst. split; [reflexivity|]. exists a, h, b. now split.
  - rewrite (D eq_refl), app_nil_r in R. inversion O as [E1 E2|]; subst. cbn [slots log length] in R.
    pose proof (del_once (slots s) []) as K. cbn [length app] in K. rewrite K in R. injection R as <- <-. left. now split.
Qed.

Lemma calls_app f a b : calls f (a ++ b) = calls f a + calls f b.
Proof. apply count_occ_app. Qed.
Lemma calls_once f l : (forall h, In h l -> h_func h = f -> h_once h = true) -> calls f (map h_func (filter (fun h => negb (h_once h)) l)) = 0.
Proof.
  intro O. apply count_occ_not_In. intro I. apply in_map_iff in I. destruct I as (h & E & I). apply filter_In in I. destruct I as [I N]. rewrite (O h I E) in N. discriminate N.
Qed.

(** [NoDup]: a function is connected only once (util.py:319). *)
Lemma emits_once f : forall n depth fuel s s' k, NoDup (map h_func (slots s)) -> (forall h, In h (slots s) -> h_func h = f -> h_once h = true) ->
  emits behave n depth fuel s = Some (s', k) ->
  calls f (log s') <= calls f (log s) + (if in_dec Nat.eq_dec f (map h_func (slots s)) then S k else 0).
Proof.
  induction n as [|n IH]; intros depth fuel s s' k D O E; cbn [emits] in E; [injection E as <- <-; lia|].
  destruct (emit behave depth fuel s) as [[s1 exc]|] eqn:E1; [|discriminate E]. destruct (emits behave n depth fuel s1) as [[s2 k1]|] eqn:E2; [|discriminate E].
  injection E as <- <-.
  assert (Le : forall l, NoDup l -> calls f l <= if in_dec Nat.eq_dec f l then 1 else 0).
  { intros l Dl. unfold calls. destruct (in_dec Nat.eq_dec f l) as [I|N]; [apply NoDup_count_occ; exact Dl|]. rewrite (proj1 (count_occ_not_In Nat.eq_dec l f) N). lia. }
  destruct (emit_flat depth fuel s s1 exc E1) as [(-> & S1 & L1) | (-> & S1 & a & h & b & S0 & L1)].
  - assert (Dn : NoDup (map h_func (slots s1))).
    { rewrite S1. clear -D. induction (slots s) as [|x l IHl]; [constructor|]. cbn [map] in D. inversion D as [|y z N D' Ey]. subst. cbn [filter]. destruct (negb _); [|now apply IHl].
      cbn [map]. constructor; [|now apply IHl]. intro I. apply N. apply in_map_iff in I. destruct I as (w & Ew & Iw). apply filter_In in Iw. rewrite <- Ew. apply in_map. tauto. }
    assert (On : forall h, In h (slots s1) -> h_func h = f -> h_once h = true) by (intros h I; rewrite S1 in I; apply filter_In in I; apply O; tauto).
    specialize (IH depth fuel s1 s2 k1 Dn On E2). rewrite L1, calls_app in IH. specialize (Le _ D).
    destruct (in_dec Nat.eq_dec f (map h_func (slots s1))) as [I|N].
    + exfalso. rewrite S1 in I. apply (count_occ_In Nat.eq_dec) in I. fold (calls f (map h_func (filter (fun h => negb (h_once h)) (slots s)))) in I.
      rewrite (calls_once f (slots s) O) in I. lia.
    + destruct (in_dec Nat.eq_dec f (map h_func (slots s))); lia.
  - rewrite <- S1 in D, O. specialize (IH depth fuel s1 s2 k1 D O E2). rewrite L1, calls_app in IH. rewrite S1 in IH, D.
    assert (Da : calls f (map h_func (a ++ [h])) <= if in_dec Nat.eq_dec f (map h_func (slots s)) then 1 else 0).
    { specialize (Le _ D). rewrite S0 in Le |- *. replace (a ++ h :: b) with ((a ++ [h]) ++ b) in * by (now rewrite <- app_assoc). rewrite map_app in Le at 1. rewrite calls_app in Le. lia. }
    destruct (in_dec Nat.eq_dec f (map h_func (slots s))); lia.
Qed.

Definition raises (h : handler) (l : list nat) : bool := match behave (h_func h) (calls (h_func h) l) with Raise => true | _ => false end.
Lemma raises_other h l f : h_func h <> f -> raises h (l ++ [f]) = raises h l.
Proof. intro N. unfold raises. rewrite calls_app. unfold calls at 2. cbn [count_occ]. destruct (Nat.eq_dec f (h_func h)); [congruence|]. now rewrite Nat.add_0_r. Qed.
Lemma loop_exc again : forall rest fuel a dis s, slots s = a ++ rest -> length rest < fuel -> NoDup (map h_func rest) ->
  exists s' dis', loop behave again fuel (length a) dis s = Some (s', dis', existsb (fun h => raises h (log s)) rest).
Proof.
  induction rest as [|h rest IH]; intros [|fuel] a dis s S L D; cbn [length] in L; try lia; cbn [loop]; rewrite S.
  - rewrite app_nil_r in *. assert (N : nth_error a (length a) = None) by (apply nth_error_None; lia). rewrite N. now exists s, dis.
  - rewrite nth_error_app2 by lia. rewrite Nat.sub_diag. cbn [nth_error existsb]. unfold raises at 1. destruct (behave _ _) eqn:B; [| |now contradict B].
    + cbn [map] in D. inversion D as [|y z N D' Ey]. subst y z.
      specialize (IH fuel (a ++ [h]) (if h_once h then length a :: dis else dis) (St (a ++ h :: rest) (log s ++ [h_func h]))). cbn [slots log] in IH.
      rewrite app_length in IH. cbn [length] in IH. rewrite Nat.add_1_r, <- app_assoc in IH. destruct (IH eq_refl ltac:(lia) D') as (s' & dis' & E). exists s', dis'. rewrite E.
      cbn [orb]. do 2 f_equal. clear -N. induction rest as [|x l IHl]; [reflexivity|]. cbn [existsb map In] in *. rewrite raises_other, IHl; tauto.
    + eexists _, _. reflexivity.
Qed.
Lemma emit_exc depth fuel s : length (slots s) < fuel -> NoDup (map h_func (slots s)) ->
  exists s', emit behave (S depth) fuel s = Some (s', existsb (fun h => raises h (log s)) (slots s)).
Proof.
  intros L D. destruct (loop_exc (emit behave depth fuel) (slots s) fuel [] [] s eq_refl L D) as (s1 & dis & E). cbn [length] in E. cbn [emit]. rewrite E.
  destruct (loop_flat _ fuel (slots s) [] [] s _ eq_refl E) as (s2 & dis2 & x & Q & O & Ds). injection Q as <- <- Qx. rewrite Qx. destruct x; [eexists; reflexivity|].
  rewrite (Ds eq_refl), app_nil_r. inversion O as [E1 E2|]; subst. cbn [slots log length].
  pose proof (del_once (slots s) []) as K. cbn [length app] in K. rewrite K. eexists. reflexivity.
Qed.
Lemma loop_first again h b : forall a fuel p dis s, slots s = p ++ a ++ h :: b -> length a < fuel -> NoDup (map h_func (a ++ [h])) ->
  (forall x, In x a -> raises x (log s) = false) -> raises h (log s) = true ->
  exists dis', loop behave again fuel (length p) dis s = Some (St (slots s) (log s ++ map h_func (a ++ [h])), dis', true).
Proof.
  induction a as [|x a IH]; intros [|fuel] p dis s S L D Na Rh; cbn [length] in L; try lia; cbn [loop]; rewrite S; cbn [app]; rewrite nth_error_app2 by lia; rewrite Nat.sub_diag; cbn [nth_error].
  - unfold raises in Rh. destruct (behave _ _); try discriminate Rh. now exists dis.
  - pose proof (Na x (or_introl eq_refl)) as Nx. unfold raises in Nx. destruct (behave _ _) eqn:B; [|discriminate Nx|now contradict B].
    cbn [app map] in D. inversion D as [|y z N D' Ey]. subst y z.
    specialize (IH fuel (p ++ [x]) (if h_once x then length p :: dis else dis) (St (p ++ x :: a ++ h :: b) (log s ++ [h_func x]))). cbn [slots log] in IH.
    rewrite app_length in IH. cbn [length] in IH. rewrite Nat.add_1_r, <- !app_assoc in IH. cbn [app] in IH. cbn [app map].
    apply IH; [reflexivity|lia|exact D'| |].
    + intros y Iy. rewrite raises_other; [apply Na; now right|]. intro Q. apply N. rewrite <- Q. apply in_map, in_or_app. now left.
    + rewrite raises_other; [exact Rh|]. intro Q. apply N. rewrite <- Q. apply in_map, in_or_app. right. now left.
Qed.
End Proofs.
