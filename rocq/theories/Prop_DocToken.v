(** Properties C120 and C121: the token at a position of a document, and the tokens of a text range. *)
From Verif Require Import Base BaseFacts TargetModel LexerModel TreeModel TreeSpec TreeProofs BlockModel BlockSpec BlockProofs DocTokenModel TreeRangeProofs DocTokenProofs.
From Coq Require Import ZArith ZifyBool.

(** C120. The token that a position is in is returned. Otherwise a token that ends there, if there is a token further on; otherwise the first token further on, if it is on the
    same line. If there is no token further on, nothing is returned: that is what is missing, see below. *)
Theorem C120_token_at_position_partial :
  forall (L A : Type) (l : L) (cs : list (node L A)) (text sep : str) (pos : nat),
    wf_children cs ->
    (forall t, In t (flat cs) -> k_pos t <= pos < k_end t -> doc_token text sep l cs pos = Some (Some t))
    /\ ((forall t, In t (flat cs) -> ~ k_pos t <= pos < k_end t) ->
        (forall u v, In u (flat cs) -> In v (flat cs) -> k_end u = pos -> pos < k_pos v -> doc_token text sep l cs pos = Some (Some u))
        /\ (forall v, (forall u, In u (flat cs) -> k_end u <> pos) -> find (fun t => pos <? k_pos t) (flat cs) = Some v ->
              ((exists x y, slice text pos (k_pos v) = x ++ sep ++ y) -> doc_token text sep l cs pos = Some None)
              /\ (~ (exists x y, slice text pos (k_pos v) = x ++ sep ++ y) -> doc_token text sep l cs pos = Some (Some v)))
        /\ ((forall v, In v (flat cs) -> k_pos v <= pos) -> doc_token text sep l cs pos = Some None)).
Proof.
  intros L A l cs text sep pos Hwf. pose proof (doc_token_ok L A l cs Hwf text sep pos) as H. pose proof (proj2 Hwf) as HO.
  destruct (find (fun t => pos <? k_end t) (flat cs)) as [t |] eqn:E.
  - destruct (find_split _ _ _ E) as (a & b & Eab & Ht & Ha). apply Nat.ltb_lt in Ht. destruct H as [H1 H2]. assert (Hin : In t (flat cs)) by (rewrite Eab; apply in_or_app; right; now left).
    assert (Hfirst : forall v, In v (flat cs) -> pos < k_end v -> v = t \/ k_end t <= k_pos v).
    { intros v Hv Hlt. rewrite Eab in Hv, HO. apply in_app_or in Hv as [Hv | [<- | Hv]]; [| now left | right; now apply (in_order_after _ _ _ _ _ HO)]. rewrite Forall_forall in Ha. specialize (Ha v Hv). apply Nat.ltb_ge in Ha. lia. }
    split.
    + intros v Hv Hc. destruct (Hfirst v Hv ltac:(lia)) as [-> | G]; [apply H1; lia |]. lia.
    + intros Hno. assert (Hp : pos < k_pos t) by (specialize (Hno t Hin); lia). destruct (H2 Hp) as [H3 H4]. split; [intros u v Hu _ Eu _; now apply H3 |]. split.
      * intros v Hu Hv. assert (v = t) as ->.
        { destruct (find_split _ _ _ Hv) as (a' & b' & Eab' & Hv1 & Ha'). apply Nat.ltb_lt in Hv1. assert (Hvin : In v (flat cs)) by (rewrite Eab'; apply in_or_app; right; now left).
          destruct (Hfirst v Hvin) as [G | G]; [unfold k_end; lia | exact G |]. exfalso. rewrite Eab' in Hin. pose proof HO as HO'. rewrite Eab' in HO'. apply in_app_or in Hin as [Hin | [<- | Hin]].
          - rewrite Forall_forall in Ha'. specialize (Ha' t Hin). apply Nat.ltb_ge in Ha'. lia.
          - assert (Hx : k_text v <> []) by (destruct HO as [_ HO]; rewrite Forall_forall in HO; exact (HO v Hvin)). unfold k_end in *. destruct (k_text v); [congruence |]. cbn in *. lia.
          - pose proof (in_order_after _ _ _ _ _ HO' Hin) as G2. assert (Hx : k_text v <> []) by (destruct HO as [_ HO]; rewrite Forall_forall in HO; exact (HO v Hvin)). unfold k_end in *. destruct (k_text v); [congruence |]. cbn in *. lia. }
        specialize (H4 Hu). split; intros Hs.
        -- apply sep_in in Hs. destruct (py_find sep (slice text pos (k_pos t)) 0); [exact H4 | congruence].
        -- destruct (py_find sep (slice text pos (k_pos t)) 0) as [i |] eqn:Ei; [| exact H4]. exfalso. apply Hs, sep_in. congruence.
      * intros Hall. specialize (Hall t Hin). lia.
  - assert (Hall : forall v, In v (flat cs) -> k_end v <= pos) by (intros v Hv; pose proof (find_none _ _ E v Hv) as G; cbv beta in G; apply Nat.ltb_ge in G; exact G). split; [intros t Ht Hc; specialize (Hall t Ht); lia |]. intros Hno.
    split; [intros u v _ Hv _ Hlt; specialize (Hall v Hv); unfold k_end in Hall; lia |]. split; [| intros _; exact H]. intros v _ Hv. apply find_some in Hv as [Hv Hlt]. apply Nat.ltb_lt in Hlt. specialize (Hall v Hv). unfold k_end in Hall. lia.
Qed.
Print Assumptions C120_token_at_position_partial.

(** "Otherwise, if a token ends at position, it is returned": not at the end of the text, and not after the last token.  In the text "ab", which is one token, there is a token that
    ends at 2, but none is returned. *)
Definition one_token : list (node nat nat) := [Tok (Token 0 [97; 98] 1 None)].
Theorem C120_end_of_text_refuted :
  exists text sep pos t, wf_children one_token /\ In t (flat one_token) /\ k_end t = pos /\ pos = length text /\ doc_token text sep 0 one_token pos = Some None.
Proof.
  exists [97; 98], [10], 2. eexists. split; [| split; [now left | repeat split]]. split; [repeat constructor; discriminate |]. split; cbn; repeat constructor; discriminate.
Qed.
Print Assumptions C120_end_of_text_refuted.

(** "Will not return a token that is in a different block": it does, if the token that ends at the position ends with the line separator.  In the text "#a\n b", where the first token
    is "#a\n" and the second one is "b", the token at position 3 is the first one, although the line that starts there has a token. *)
Definition two_lines : list (node nat nat) := [Tok (Token 0 [35; 97; 10] 1 None); Tok (Token 4 [98] 2 None)].
Theorem C120_other_block_refuted :
  exists text sep pos t, wf_children two_lines /\ doc_token text sep 0 two_lines pos = Some (Some t)
    /\ sep = [10] /\ b_pos (find_block text sep pos) = 3 /\ b_end (find_block text sep pos) = 5 /\ k_end t <= 3 /\ exists u, In u (flat two_lines) /\ 3 <= k_pos u /\ k_end u <= 5.
Proof.
  exists [35; 97; 10; 32; 98], [10], 3. eexists. split; [| split; [vm_compute; reflexivity |]].
  - split; [repeat constructor; discriminate |]. split; cbn; repeat constructor; unfold k_end; cbn; try lia; discriminate.
  - split; [reflexivity |]. split; [reflexivity |]. split; [reflexivity |]. split; [unfold k_end; cbn; lia |]. exists (Token 4 [98] 2 None). split; [cbn; tauto | unfold k_end; cbn; lia].
Qed.
Print Assumptions C120_other_block_refuted.

Example C120_example : doc_token [35; 97; 10; 32; 98] [10] 0 two_lines 1 = Some (Some (Token 0 [35; 97; 10] 1 None))
  /\ doc_token [32; 98; 10; 98] [10] 0 [Tok (Token 3 [98] 2 None)] 1 = Some None
  /\ doc_token [32; 32; 32; 98] [10] 0 [Tok (Token 3 [98] 2 None)] 1 = Some (Some (Token 3 [98] 2 None)).
Proof. repeat split. Qed.

(** C121. A cursor or block gives the tokens that overlap its range, if there is one, or if the range is empty or after the last token. *)
Theorem C121_tokens_of_range_partial :
  forall (L A : Type) (l : L) (cs : list (node L A)) (pos : nat) (end_ : option nat),
    let overlap t := (pos <? k_end t) && match end_ with None => true | Some e => k_pos t <? e end in
    wf_children cs ->
    (match end_ with None => True | Some e => pos < e end -> (exists t, In t (flat cs) /\ overlap t = true) -> range_of_tokens l cs pos end_ = Some (filter overlap (flat cs)))
    /\ (match end_ with None => False | Some e => e <= pos end \/ (forall t, In t (flat cs) -> k_end t <= pos) -> range_of_tokens l cs pos end_ = Some []).
Proof. intros L A l cs pos end_ overlap Hwf. split; [exact (tokens_after L A l cs Hwf pos end_) | exact (tokens_none L A l cs Hwf pos end_)]. Qed.
Print Assumptions C121_tokens_of_range_partial.

(** For a line without tokens between contexts the tokens of other lines are given.  In the text "a b\n  \nc", with "a" and "b" in one context and "c" in another one, the second line has
    the three tokens, the last one first. *)
Definition three_lines : list (node nat nat) := [Ctx 1 [Tok (Token 0 [97] 1 None); Tok (Token 2 [98] 1 None)]; Ctx 1 [Tok (Token 7 [99] 1 None)]].
Theorem C121_empty_line_refuted :
  exists text sep b ts, wf_children three_lines /\ nth_error (blocks text sep 0 None) 1 = Some b
    /\ range_of_tokens 0 three_lines (b_pos b) (Some (b_end b)) = Some ts /\ filter (fun t => (b_pos b <? k_end t) && (k_pos t <? b_end b)) (flat three_lines) = [] /\ map k_pos ts = [7; 0; 2].
Proof.
  exists [97; 32; 98; 10; 32; 32; 10; 99], [10]. do 2 eexists. split; [| split; [vm_compute; reflexivity |]].
  - split; [repeat constructor; discriminate |]. split; cbn; repeat constructor; unfold k_end; cbn; try lia; discriminate.
  - split; [vm_compute; reflexivity |]. split; reflexivity.
Qed.
Print Assumptions C121_empty_line_refuted.

Example C121_example : exists ts, range_of_tokens 0 three_lines 1 (Some 3) = Some ts /\ map k_pos ts = [2].
Proof. eexists. split; reflexivity. Qed.
