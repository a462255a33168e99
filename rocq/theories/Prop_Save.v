(** C145: saving a document when something fails, or when the program is stopped. *)
From Coq Require Import List Arith Bool Lia.
From Verif Require Import SaveModel SaveSpec SaveProofs.
Import ListNotations.

(** At every moment (wherever the program is stopped, and whatever fails): the text of the document is untouched, other files are untouched, and the file is as it was, or contains a
    beginning of the new data. Missing: that it is as it was or contains all the new data, see [C145_crash_refuted]. *)
Theorem C145_files_partial : forall Text Url Enc Path Byte path_eqb, (forall p q : Path, path_eqb p q = true <-> p = q) ->
  forall (encode : Text -> option Enc -> option (list Byte)) (localfile : Url -> option Path) sys s0 url enc l ok,
  save path_eqb encode localfile sys s0 url enc = (l, ok) -> forall s, In s l -> d_text s = d_text s0 /\
  forall q, files s q = files s0 q \/
    (target localfile s0 url = Some q /\ can_open sys q = true /\ exists a b, to_save encode s0 enc = Some (a ++ b) /\ files s q = Some a).
Proof.
  intros Text Url Enc Path Byte peq PS encode localfile sys s0 url enc l ok E s I.
  destruct (save_states Text Url Enc Path Byte peq PS encode localfile sys s0 url enc l ok E s I) as (T & [(F & _) | (p & data & H1 & H2 & H3 & H4 & (a & b & H5 & H6) & _)]).
  - split; [exact T|]. intro q. left. now rewrite F.
  - split; [exact T|]. intro q. destruct (peq q p) eqn:Eq.
    + apply PS in Eq. subst q. right. split; [exact H1|]. split; [exact H3|]. exists a, b. now rewrite <- H5.
    + left. apply H4. intros ->. assert (peq p p = true) by now apply PS. congruence.
Qed.
Print Assumptions C145_files_partial.

(** If the text cannot be encoded, if there is no file to write to, or if it cannot be opened, then no file is touched and [save] raises an exception. *)
Theorem C145_untouched : forall Text Url Enc Path Byte path_eqb, (forall p q : Path, path_eqb p q = true <-> p = q) ->
  forall (encode : Text -> option Enc -> option (list Byte)) (localfile : Url -> option Path) sys s0 url enc l ok,
  save path_eqb encode localfile sys s0 url enc = (l, ok) ->
  to_save encode s0 enc = None \/ target localfile s0 url = None \/ (exists p, target localfile s0 url = Some p /\ can_open sys p = false) ->
  ok = false /\ forall s, In s l -> files s = files s0 /\ d_modified s = d_modified s0.
Proof.
  intros Text Url Enc Path Byte peq PS encode localfile sys s0 url enc l ok E K. split.
  - destruct ok; [|reflexivity]. exfalso.
    destruct (save_end Text Url Enc Path Byte peq PS encode localfile sys s0 url enc l E) as (p & data & l' & s & _ & H1 & H2 & H3 & _).
    destruct K as [K | [K | (p' & K1 & K2)]]; congruence.
  - intros s I. destruct (save_states Text Url Enc Path Byte peq PS encode localfile sys s0 url enc l ok E s I) as (_ & [H | (p & data & H1 & H2 & H3 & _)]); [exact H|].
    exfalso. destruct K as [K | [K | (p' & K1 & K2)]]; congruence.
Qed.
Print Assumptions C145_untouched.

(** The document is only marked as not modified when the file has all its data. *)
Theorem C145_modified : forall Text Url Enc Path Byte path_eqb, (forall p q : Path, path_eqb p q = true <-> p = q) ->
  forall (encode : Text -> option Enc -> option (list Byte)) (localfile : Url -> option Path) sys s0 url enc l ok,
  save path_eqb encode localfile sys s0 url enc = (l, ok) -> forall s, In s l -> d_modified s0 = true -> d_modified s = false ->
  exists p data, target localfile s0 url = Some p /\ to_save encode s0 enc = Some data /\ files s p = Some data.
Proof.
  intros Text Url Enc Path Byte peq PS encode localfile sys s0 url enc l ok E s I M0 M.
  destruct (save_states Text Url Enc Path Byte peq PS encode localfile sys s0 url enc l ok E s I) as (_ & [(_ & H) | (p & data & H1 & H2 & _ & _ & _ & [H | (_ & _ & H)])]); [congruence|congruence|].
  exists p, data. tauto.
Qed.
Print Assumptions C145_modified.

(** When [save] returns, the file has the data of the text, the document is not modified, and has the file and encoding that were given. *)
Theorem C145_saved : forall Text Url Enc Path Byte path_eqb, (forall p q : Path, path_eqb p q = true <-> p = q) ->
  forall (encode : Text -> option Enc -> option (list Byte)) (localfile : Url -> option Path) sys s0 url enc l,
  save path_eqb encode localfile sys s0 url enc = (l, true) ->
  exists p data l' s, l = l' ++ [s] /\ target localfile s0 url = Some p /\ to_save encode s0 enc = Some data /\ can_open sys p = true /\ files s p = Some data /\ d_modified s = false /\
    d_url s = first_of url (d_url s0) /\ d_enc s = first_of enc (d_enc s0).
Proof.
  intros Text Url Enc Path Byte peq PS encode localfile sys s0 url enc l E. exact (save_end Text Url Enc Path Byte peq PS encode localfile sys s0 url enc l E).
Qed.
Print Assumptions C145_saved.

(** And it does return if the text can be encoded, the file can be opened, and there is room for the data. *)
Theorem C145_succeeds : forall Text Url Enc Path Byte path_eqb
  (encode : Text -> option Enc -> option (list Byte)) (localfile : Url -> option Path) sys s0 url enc p data,
  target localfile s0 url = Some p -> to_save encode s0 enc = Some data -> can_open sys p = true -> length data <= list_sum (pieces sys) ->
  snd (save path_eqb encode localfile sys s0 url enc) = true.
Proof. intros Text Url Enc Path Byte peq encode localfile sys s0 url enc p data. exact (save_succeeds Text Url Enc Path Byte peq encode localfile sys s0 url enc p data). Qed.
Print Assumptions C145_succeeds.

(** Example: numbers for everything; only numbers below 128 can be encoded in encoding 1. *)
Definition enc1 (text : list nat) (e : option nat) : option (list nat) :=
  match e with Some 1 => if forallb (fun c => c <? 128) text then Some text else None | _ => Some (flat_map (fun c => [c; 0]) text) end.
Definition doc1 : state (list nat) nat nat nat nat := St [104; 233; 105] (Some 7) None true (fun p => if p =? 7 then Some [1; 2; 3] else None).
Definition after (p : nat) (r : list (state (list nat) nat nat nat nat) * bool) : list (option (list nat) * bool) * bool :=
  (map (fun s => (files s p, d_modified s)) (fst r), snd r).
Example C145_example :
  after 7 (save Nat.eqb enc1 (fun u => Some u) (Sys (fun _ => true) [4; 9]) doc1 None None) =
    ([(Some [1; 2; 3], true); (Some [1; 2; 3], true); (Some [1; 2; 3], true); (Some [], true); (Some [104; 0; 233; 0], true); (Some [104; 0; 233; 0; 105; 0], true);
      (Some [104; 0; 233; 0; 105; 0], false)], true) /\
  snd (save Nat.eqb enc1 (fun u => Some u) (Sys (fun _ => true) [4; 9]) doc1 None (Some 1)) = false.
Proof. split; vm_compute; reflexivity. Qed.

(** Finding: the file is made empty before it is written: when the program is stopped then, or the disk is full, both the old and the new contents are lost. *)
Theorem C145_crash_refuted : forall sys, can_open sys 7 = true ->
  exists l ok s, save Nat.eqb enc1 (fun u => Some u) sys doc1 None None = (l, ok) /\ In s l /\ files s 7 <> files doc1 7 /\ files s 7 <> to_save enc1 doc1 None.
Proof.
  intros sys C. unfold save. cbn [d_url doc1 d_text d_enc d_modified files]. rewrite C. cbn [enc1].
  set (s3 := St _ _ _ _ (set_file _ _ _ _)). destruct (write _ _ _ _ _ _) as [lw [|]].
  - exists (([doc1; doc1; doc1] ++ s3 :: lw ++ [St (d_text (last lw s3)) (d_url (last lw s3)) (d_enc (last lw s3)) false (files (last lw s3))])), true, s3.
    split; [reflexivity|]. split; [cbn; tauto|]. split; cbn; discriminate.
  - exists ([doc1; doc1; doc1] ++ s3 :: lw), false, s3. split; [reflexivity|]. split; [cbn; tauto|]. split; cbn; discriminate.
Qed.
Print Assumptions C145_crash_refuted.

(** Finding: an encoding that cannot be used for the text stays in the document: saving it again, without arguments, fails as well, even if it could be saved before. *)
Theorem C145_encoding_refuted : exists l s, snd (save Nat.eqb enc1 (fun u => Some u) (Sys (fun _ => true) [100]) doc1 None None) = true /\
  save Nat.eqb enc1 (fun u => Some u) (Sys (fun _ => true) [100]) doc1 None (Some 1) = (l ++ [s], false) /\
  forall sys, snd (save Nat.eqb enc1 (fun u => Some u) sys s None None) = false.
Proof.
  exists [doc1; doc1], (St [104; 233; 105] (Some 7) (Some 1) true (fun p => if p =? 7 then Some [1; 2; 3] else None)).
  split; [reflexivity|]. split; [reflexivity|]. intro sys. reflexivity.
Qed.
Print Assumptions C145_encoding_refuted.
