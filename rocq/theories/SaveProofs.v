(** Induction over the pieces that are written. *)
From Coq Require Import List Arith Bool Lia.
From Verif Require Import SaveModel SaveSpec.
Import ListNotations.

Section Proofs.
Variables Text Url Enc Path Byte : Type.
Variable path_eqb : Path -> Path -> bool.
Hypothesis path_spec : forall p q, path_eqb p q = true <-> p = q.
Variable encode : Text -> option Enc -> option (list Byte).
Variable localfile : Url -> option Path.
Notation state := (state Text Url Enc Path Byte).

Lemma set_same (fs : Path -> option (list Byte)) p v : set_file path_eqb fs p v p = Some v.
Proof. unfold set_file. destruct (path_eqb p p) eqn:E; [reflexivity|]. assert (path_eqb p p = true) by now apply path_spec. congruence. Qed.
Lemma set_other (fs : Path -> option (list Byte)) p q v : q <> p -> set_file path_eqb fs p v q = fs q.
Proof. intro N. unfold set_file. destruct (path_eqb q p) eqn:E; [|reflexivity]. apply path_spec in E. contradiction. Qed.

(** What all states while writing have in common. *)
Definition writing (s0 : state) (p : Path) (data : list Byte) (s : state) : Prop :=
  d_text s = d_text s0 /\ d_url s = d_url s0 /\ d_enc s = d_enc s0 /\ d_modified s = d_modified s0 /\
  (forall q, q <> p -> files s q = files s0 q) /\ exists a b, data = a ++ b /\ files s p = Some a.

Lemma write_ok s0 p data : forall ks s done rest l ok, writing s0 p data s -> data = done ++ rest -> files s p = Some done ->
  write path_eqb s p done rest ks = (l, ok) ->
  Forall (writing s0 p data) l /\ (ok = true -> files (last l s) p = Some data) /\ writing s0 p data (last l s).
Proof.
  induction ks as [|k ks IH]; intros s done rest l ok W D F E.
  - destruct rest as [|b rest]; cbn [write] in E; injection E as <- <-; (split; [constructor|]); (split; [|exact W]); intro K; [|discriminate K].
    rewrite app_nil_r in D. now rewrite D.
  - destruct rest as [|b rest].
    + cbn [write] in E. injection E as <- <-. split; [constructor|]. split; [|exact W]. intros _. rewrite app_nil_r in D. now rewrite D.
    + cbn [write] in E. set (r := b :: rest) in *. set (s' := St _ _ _ _ _) in E.
      destruct (write path_eqb s' p (done ++ firstn k r) (skipn k r) ks) as [l' ok'] eqn:E'. injection E as <- <-.
      assert (F' : files s' p = Some (done ++ firstn k r)) by apply set_same.
      assert (D' : data = (done ++ firstn k r) ++ skipn k r) by now rewrite <- app_assoc, firstn_skipn.
      assert (W' : writing s0 p data s').
      { destruct W as (W1 & W2 & W3 & W4 & W5 & _). repeat split; try assumption.
        - intros q N. cbn. rewrite set_other by exact N. now apply W5.
        - exists (done ++ firstn k r), (skipn k r). now split. }
      destruct (IH s' _ _ l' ok' W' D' F' E') as (H1 & H2 & H3). split; [now constructor|].
      assert (L : last (s' :: l') s = last l' s').
      { clear. destruct l' as [|a l']; [reflexivity|]. change (last (s' :: a :: l') s) with (last (a :: l') s).
        revert a. induction l' as [|c l' IHl]; intro a; [reflexivity|]. exact (IHl c). }
      rewrite L. now split.
Qed.

Lemma save_states sys s0 url enc l ok : save path_eqb encode localfile sys s0 url enc = (l, ok) ->
  forall s, In s l ->
  (d_text s = d_text s0) /\
  ((files s = files s0 /\ d_modified s = d_modified s0) \/
   exists p data, target localfile s0 url = Some p /\ to_save encode s0 enc = Some data /\ can_open sys p = true /\
     (forall q, q <> p -> files s q = files s0 q) /\ (exists a b, data = a ++ b /\ files s p = Some a) /\
     (d_modified s = d_modified s0 \/ (ok = true /\ d_modified s = false /\ files s p = Some data))).
Proof.
  intros E s I. unfold save in E.
  set (s1 := match url with Some u => _ | None => s0 end) in E.
  set (s2 := match enc with Some e => St _ _ (Some e) _ _ | None => s1 end) in E.
  assert (A1 : d_text s1 = d_text s0 /\ files s1 = files s0 /\ d_modified s1 = d_modified s0 /\ d_url s1 = first_of url (d_url s0) /\ d_enc s1 = d_enc s0)
    by (subst s1; destruct url; cbn; repeat split).
  assert (A2 : d_text s2 = d_text s0 /\ files s2 = files s0 /\ d_modified s2 = d_modified s0 /\ d_url s2 = first_of url (d_url s0) /\ d_enc s2 = first_of enc (d_enc s0)).
  { destruct A1 as (B1 & B2 & B3 & B4 & B5). subst s2; destruct enc; cbn; repeat split; assumption. }
  assert (St0 : forall x, In x [s0; s1; s2] -> d_text x = d_text s0 /\ files x = files s0 /\ d_modified x = d_modified s0).
  { intros x [<- | [<- | [<- | []]]]; tauto. }
  destruct A2 as (B1 & B2 & B3 & B4 & B5).
  assert (Ed : encode (d_text s2) (match enc with Some e => Some e | None => d_enc s2 end) = to_save encode s0 enc).
  { unfold to_save. rewrite B1, B5. unfold first_of. destruct enc; reflexivity. }
  assert (Et : match d_url s2 with Some u => localfile u | None => None end = target localfile s0 url) by (unfold target; now rewrite B4).
  rewrite Ed, Et in E.
  assert (Easy : In s [s0; s1; s2] -> d_text s = d_text s0 /\ (files s = files s0 /\ d_modified s = d_modified s0)) by (intro K; apply St0 in K; tauto).
  destruct (to_save encode s0 enc) as [data|] eqn:ES; [|injection E as <- <-; specialize (Easy I); tauto].
  destruct (target localfile s0 url) as [p|] eqn:ET; [|injection E as <- <-; specialize (Easy I); tauto].
  destruct (can_open sys p) eqn:EO; [|injection E as <- <-; specialize (Easy I); tauto].
  set (s3 := St (d_text s2) (d_url s2) (d_enc s2) (d_modified s2) (set_file path_eqb (files s2) p [])) in *.
  assert (W3 : writing s2 p data s3).
  { repeat split; try reflexivity. - intros q N. cbn. now apply set_other. - exists [], data. split; [reflexivity|]. cbn. apply set_same. }
  destruct (write path_eqb s3 p [] data (pieces sys)) as [lw okw] eqn:EW.
  destruct (write_ok s2 p data (pieces sys) s3 [] data lw okw W3 eq_refl (set_same _ _ _) EW) as (H1 & H2 & H3).
  assert (Conv : forall x, writing s2 p data x -> d_text x = d_text s0 /\ d_modified x = d_modified s0 /\ (forall q, q <> p -> files x q = files s0 q) /\
     exists a b, data = a ++ b /\ files x p = Some a).
  { intros x (C1 & _ & _ & C4 & C5 & C6). rewrite B1 in C1. rewrite B3 in C4. rewrite B2 in C5. tauto. }
  assert (Mid : In s (s3 :: lw) -> d_text s = d_text s0 /\ d_modified s = d_modified s0 /\ (forall q, q <> p -> files s q = files s0 q) /\
     exists a b, data = a ++ b /\ files s p = Some a).
  { intros [<- | K]; [now apply Conv|]. apply Conv. rewrite Forall_forall in H1. now apply H1. }
  destruct okw.
  - injection E as <- <-. set (z := St (d_text (last lw s3)) (d_url (last lw s3)) (d_enc (last lw s3)) false (files (last lw s3))) in I.
    assert (I' : In s [s0; s1; s2] \/ In s (s3 :: lw) \/ s = z).
    { change (In s ([s0; s1; s2] ++ (s3 :: lw) ++ [z])) in I. apply in_app_or in I. destruct I as [I | I]; [tauto|].
      apply in_app_or in I. destruct I as [I | [I | []]]; [tauto|]. right. right. now symmetry. }
    destruct I' as [K | [K | ->]]; [apply Easy in K; tauto| |].
    + apply Mid in K. destruct K as (K1 & K2 & K3 & K4). split; [exact K1|]. right. exists p, data. tauto.
    + destruct (Conv _ H3) as (K1 & K2 & K3 & K4). subst z. cbn [d_text d_modified files]. split; [exact K1|]. right. exists p, data. specialize (H2 eq_refl). tauto.
  - injection E as <- <-. assert (I' : In s [s0; s1; s2] \/ In s (s3 :: lw)) by (change (In s ([s0; s1; s2] ++ (s3 :: lw))) in I; now apply in_app_or in I).
    destruct I' as [K | K]; [apply Easy in K; tauto|]. apply Mid in K. destruct K as (K1 & K2 & K3 & K4). split; [exact K1|]. right. exists p, data. tauto.
Qed.

Lemma write_all p : forall ks (s : state) done rest, length rest <= list_sum ks -> snd (write path_eqb s p done rest ks) = true.
Proof.
  induction ks as [|k ks IH]; intros s done rest L.
  - destruct rest; [reflexivity|cbn in L; lia].
  - destruct rest as [|b rest]; [reflexivity|]. cbn [write]. set (s' := St _ _ _ _ _).
    specialize (IH s' (done ++ firstn k (b :: rest)) (skipn k (b :: rest))).
    destruct (write path_eqb s' p (done ++ firstn k (b :: rest)) (skipn k (b :: rest)) ks) as [l ok]. apply IH.
    rewrite skipn_length. cbn [list_sum fold_right] in L. change (fold_right Init.Nat.add 0 ks) with (list_sum ks) in L. lia.
Qed.
Lemma save_succeeds sys s0 url enc p data : target localfile s0 url = Some p -> to_save encode s0 enc = Some data -> can_open sys p = true ->
  length data <= list_sum (pieces sys) -> snd (save path_eqb encode localfile sys s0 url enc) = true.
Proof.
  intros T D C L. unfold save, target, to_save, first_of in *.
  assert (W : forall s : state, snd (write path_eqb s p [] data (pieces sys)) = true) by (intro s; now apply write_all).
  destruct url as [u|], enc as [e|]; cbn [d_text d_url d_enc d_modified files]; rewrite D, T, C;
  match goal with |- context[write path_eqb ?s p [] data (pieces sys)] => specialize (W s); destruct (write path_eqb s p [] data (pieces sys)) as [lw okw] end;
  cbn [snd] in W; subst okw; reflexivity.
Qed.

Lemma save_end sys s0 url enc l : save path_eqb encode localfile sys s0 url enc = (l, true) ->
  exists p data l' s, l = l' ++ [s] /\ target localfile s0 url = Some p /\ to_save encode s0 enc = Some data /\ can_open sys p = true /\ files s p = Some data /\ d_modified s = false /\
    d_url s = first_of url (d_url s0) /\ d_enc s = first_of enc (d_enc s0).
Proof.
  intro E. unfold save in E.
  set (s1 := match url with Some u => _ | None => s0 end) in E.
  set (s2 := match enc with Some e => St _ _ (Some e) _ _ | None => s1 end) in E.
  assert (A1 : d_text s1 = d_text s0 /\ d_url s1 = first_of url (d_url s0) /\ d_enc s1 = d_enc s0)
    by (subst s1; destruct url; cbn; repeat split).
  assert (A2 : d_text s2 = d_text s0 /\ d_url s2 = first_of url (d_url s0) /\ d_enc s2 = first_of enc (d_enc s0)).
  { destruct A1 as (B1 & B4 & B5). subst s2; destruct enc; cbn; repeat split; assumption. }
  destruct A2 as (B1 & B4 & B5).
  assert (Ed : encode (d_text s2) (match enc with Some e => Some e | None => d_enc s2 end) = to_save encode s0 enc).
  { unfold to_save. rewrite B1, B5. unfold first_of. destruct enc; reflexivity. }
  assert (Et : match d_url s2 with Some u => localfile u | None => None end = target localfile s0 url) by (unfold target; now rewrite B4).
  rewrite Ed, Et in E.
  destruct (to_save encode s0 enc) as [data|] eqn:ES; [|discriminate E].
  destruct (target localfile s0 url) as [p|] eqn:ET; [|discriminate E].
  destruct (can_open sys p) eqn:EO; [|discriminate E].
  set (s3 := St (d_text s2) (d_url s2) (d_enc s2) (d_modified s2) (set_file path_eqb (files s2) p [])) in *.
  assert (W3 : writing s2 p data s3).
  { repeat split; try reflexivity. - intros q N. cbn. now apply set_other. - exists [], data. split; [reflexivity|]. cbn. apply set_same. }
  destruct (write path_eqb s3 p [] data (pieces sys)) as [lw okw] eqn:EW.
  destruct (write_ok s2 p data (pieces sys) s3 [] data lw okw W3 eq_refl (set_same _ _ _) EW) as (H1 & H2 & H3).
  destruct okw; [|discriminate E]. specialize (H2 eq_refl). destruct H3 as (C1 & C2 & C3 & _).
  injection E as <-. exists p, data, ([s0; s1; s2] ++ s3 :: lw), (St (d_text (last lw s3)) (d_url (last lw s3)) (d_enc (last lw s3)) false (files (last lw s3))).
  split; [reflexivity|]. cbn [files d_modified d_url d_enc]. rewrite C2, C3, B4, B5. repeat split; assumption || reflexivity.
Qed.
End Proofs.
