(** C141: which transform is used for a language. *)
From Coq Require Import List Arith Bool.
From Verif Require Import TfcacheModel TfcacheSpec TfcacheProofs.
Import ListNotations.

(** For any number of threads, any schedule, and whatever class belongs to a language: as long as no transform is added for a
    language while another thread is asking for it, every call of [get_transform] returns the transform that was added last before
    the call, or else the one that was returned before, or else a new instance of the class that belongs to the language.
    Missing: adding a transform while another thread is asking, see [C141_race_refuted]. *)
Theorem C141_transforms_partial : forall sister steps,
  calm (hist (runs sister steps)) -> lawful sister (hist (runs sister steps)).
Proof. intros sister steps C. exact (runs_lawful sister steps C). Qed.
Print Assumptions C141_transforms_partial.

(** So if none was added for a language, all threads get one and the same. *)
Theorem C141_same_partial : forall sister steps l t t' v v', let h := hist (runs sister steps) in
  calm h -> last_added l h = None -> In (Returned t l v) h -> In (Returned t' l v') h -> v = v'.
Proof. intros sister steps l t t' v v' h C A H1 H2. exact (runs_same sister steps l t t' v v' C A H1 H2). Qed.
Print Assumptions C141_same_partial.

(** Two threads; the second has to wait, both get the same instance; then another transform is added, for another language while the
    second thread is asking. *)
Definition steps1 : list step :=
  [SEnter 0 7; SRun; SEnter 1 7; SRun; SRun; SRun; SEnter 1 7; SRun; SAdd 8 None; SRun; SAdd 7 (Some (Given 5)); SEnter 0 7; SRun; SRun; SEnter 1 8; SRun; SRun].
Example C141_example : calm (hist (runs (fun l => Some l) steps1))
  /\ hist (runs (fun l => Some l) steps1) =
     [Returned 1 8 None; Called 1 8; Returned 0 7 (Some (Given 5)); Called 0 7; Added 7 (Some (Given 5));
      Returned 1 7 (Some (Made 7 0)); Added 8 None; Called 1 7; Returned 0 7 (Some (Made 7 0)); Called 0 7].
Proof. split; [cbn; repeat split; discriminate|reflexivity]. Qed.

(** Finding: [add_transform] does not take the lock of the dictionary, and so a transform that is added while another thread is looking for
    one is lost: that thread overwrites it, and all later calls, by every thread, return the other one. *)
Theorem C141_race_refuted : forall (sister : nat -> option nat) (l c : nat), sister l = Some c -> exists steps,
  let h := hist (runs sister steps) in
  exists h', h = Returned 1 l (Some (Made c 0)) :: h' /\ settled l (before_call h') = Some (Some (Given 1)) /\ ~ lawful sister h.
Proof.
  intros sister l c H. exists [SEnter 0 l; SRun; SRun; SAdd l (Some (Given 1)); SRun; SRun; SEnter 1 l; SRun; SRun].
  cbv zeta. unfold runs, run, find_transform. cbn [fold_left start cache holder next_id hist lookup]. rewrite H. cbn [lookup]. rewrite Nat.eqb_refl.
  eexists. split; [reflexivity|]. assert (E : settled l (before_call [Called 1 l; Returned 0 l (Some (Made c 0)); Added l (Some (Given 1)); Called 0 l]) = Some (Some (Given 1))).
  { unfold settled. cbn [before_call last_added]. rewrite Nat.eqb_refl. reflexivity. }
  split; [exact E|]. intros F. cbn [lawful before_call] in F. destruct F as [F _]. 
  rewrite E in F. discriminate F.
Qed.
Print Assumptions C141_race_refuted.
