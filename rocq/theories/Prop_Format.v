(** C47, C48, C49, C76: formatting a text with themes, HTML. *)
From Verif Require Import Base BaseFacts TreeModel TreeSpec TreeProofs TreeRangeProofs UtilModel UtilSpec FormatModel FormatSpec FormatProofs.
From Coq Require Import ZArith ZifyBool.

(** C47 is false if the region lies between two contexts: pieces are repeated, and pieces outside of the region are there. *)
Definition gap_tree : node nat nat := Ctx 0 [Ctx 1 [Tok (Token 0 [1] 0 None); Tok (Token 1 [2] 0 None)]; Ctx 1 [Tok (Token 9 [3] 0 None)]].
Definition one_theme : caches nat nat nat := Caches (Some (FCache (fun a => Some a) None None)) [].
Theorem C47_gap_refuted : exists (cs : list (node nat nat)) (text : str) (start end_ : nat) pieces,
  wf_children cs /\ start < end_ /\ end_ <= length text
  /\ format_text (fun l => l) Nat.eqb Nat.eqb one_theme text (Ctx 0 cs) start (Some end_) = Some pieces
  /\ concat (map fst pieces) <> slice text start end_
  /\ map fst pieces = [[14; 15; 16; 17; 18]; []; [12; 13; 14; 15]].
Proof.
  exists (children gap_tree), [10; 11; 12; 13; 14; 15; 16; 17; 18; 19], 4, 6. eexists. split.
  { split; [repeat constructor; discriminate|]. split; simpl; repeat constructor; unfold k_end; simpl; try lia; discriminate. }
  split; [lia|]. split; [simpl; lia|]. split; [vm_compute; reflexivity|]. split; [discriminate|reflexivity].
Qed.
Print Assumptions C47_gap_refuted.

(** What holds with at most one theme: if there is a token in the region, or the region lies before the first token or after
    the last one, the pieces are exactly the text of the region. Missing for the full claim: regions between two tokens (see
    above), and several themes (see C48). *)
Theorem C47_partial : forall (L A F Lang : Type) (lang_of : L -> Lang) (lang_eqb : Lang -> Lang -> bool) (fmt_eqb : F -> F -> bool)
    (themes : caches A F Lang) (l : L) (cs : list (node L A)) (text : str) (start : nat) (end_ : option nat),
  (forall a b, fmt_eqb a b = true <-> a = b) ->
  fc_langs themes = [] -> wf_children cs ->
  (exists t, In t (flat cs) /\ start < k_pos t + length (k_text t) /\ (forall e, end_ = Some e -> start < e /\ k_pos t < e))
  \/ Forall (fun t => k_pos t + length (k_text t) <= start) (flat cs)
  \/ (exists e, end_ = Some e /\ (e <= start \/ Forall (fun t => e <= k_pos t) (flat cs))) ->
  exists pieces, format_text lang_of lang_eqb fmt_eqb themes text (Ctx l cs) start end_ = Some pieces
    /\ concat (map fst pieces) = slice text start (match end_ with Some e => e | None => length text end).
Proof.
  intros L A F Lang lang_of lang_eqb fmt_eqb themes l cs text start end_ Hfmt Hone Hwf [(t & Ht & Hov & He)|Hnone].
  - assert (Hlt : match end_ with None => True | Some e => start < e end) by (destruct end_ as [e|]; [apply (He e eq_refl)|exact I]).
    destruct (range_ok L A l cs start end_ Hwf Hlt) as (r & Hr & Hts).
    { exists t. split; [exact Ht|]. apply andb_true_iff. split; [unfold k_end; lia|]. destruct end_ as [e|]; [|reflexivity]. specialize (He e eq_refl). lia. }
    assert (Htok : exists ts last, format_tokens lang_of lang_eqb themes (Ctx l cs) r = Some (ts, last)
        /\ in_order (map snd ts) /\ Forall (fun x => overlaps start end_ (Item (k_pos (snd x)) (k_end (snd x)) tt)) ts).
    { unfold format_tokens. destruct (fc_default themes) as [fc|].
      - rewrite Hone, Hts. cbn [option_map]. eexists. eexists. split; [reflexivity|]. rewrite map_map. cbn [snd]. rewrite map_id. split.
        + apply in_order_filter. apply Hwf.
        + apply Forall_forall. intros x Hx. apply in_map_iff in Hx as (u & <- & Hu). apply filter_In in Hu as [_ Hu]. unfold TreeRangeProofs.overlaps in Hu. cbn [snd].
          split; cbn [i_pos i_end]; [lia|]. destruct end_; [lia|exact I].
      - eexists. eexists. split; [reflexivity|]. split; [split; constructor|constructor]. }
    destruct Htok as (ts & last & Htok & Ho & Hf).
    unfold format_text. rewrite (format_ranges_some _ _ _ _ _ _ _ _ _ _ _ _ _ _ Hr Htok). cbn [option_map]. eexists. split; [reflexivity|].
    assert (Hw : forall e, end_ = Some e -> start < e) by (intros e ->; exact Hlt).
    destruct (ranges_of_ok A F fmt_eqb Hfmt (match fc_default themes with Some fc => fc_unparsed fc | None => None end) last ts start end_ text Hw Ho Hf) as (_ & _ & _ & _ & H).
    rewrite <- per_char_text, H, map_map. cbn [fst]. apply (map_nth_seq F).
  - unfold format_text, format_ranges. rewrite range_none; [|exact Hwf|exact Hnone]. cbn [option_map text_pieces]. eexists. split; [reflexivity|].
    set (e := match end_ with Some e => e | None => length text end). destruct (start <? e) eqn:E; cbn [map concat fst].
    + apply app_nil_r.
    + symmetry. apply slice_nil. lia.
Qed.
Print Assumptions C47_partial.

(** Which format every character gets, with one theme: that of its token; between tokens and at the end that for unparsed
    text or the base format, as [format_at] describes. *)
Theorem C47_formats : forall (L A F Lang : Type) (lang_of : L -> Lang) (lang_eqb : Lang -> Lang -> bool) (fmt_eqb : F -> F -> bool)
    (theme : fcache A F) (l : L) (cs : list (node L A)) (text : str) (start : nat) (end_ : option nat),
  (forall a b, fmt_eqb a b = true <-> a = b) -> wf_children cs ->
  let overlap t := (start <? k_pos t + length (k_text t)) && match end_ with None => true | Some e => k_pos t <? e end in
  (forall e, end_ = Some e -> start < e) -> (exists t, In t (flat cs) /\ overlap t = true) ->
  let ts := map (pair theme) (filter overlap (flat cs)) in
  let fmt := format_at (fc_unparsed theme) theme end_ ts in
  exists ranges pieces, format_ranges lang_of lang_eqb fmt_eqb (Caches (Some theme) []) (Ctx l cs) start end_ = Some ranges
    /\ format_text lang_of lang_eqb fmt_eqb (Caches (Some theme) []) text (Ctx l cs) start end_ = Some pieces
    /\ ordered ranges /\ no_mergeable ranges /\ Forall (inside start end_) ranges
    /\ (forall p, in_window start end_ p -> cover ranges p = fmt p)
    /\ per_char pieces = map (fun p => (nth p text 0, fmt p))
         (seq start (Nat.min (match end_ with Some e => e | None => length text end) (length text) - start)).
Proof.
  intros L A F Lang lang_of lang_eqb fmt_eqb theme l cs text start end_ Hfmt Hwf overlap Hlt Hex ts fmt.
  destruct (range_ok L A l cs start end_ Hwf) as (r & Hr & Hts).
  { destruct end_ as [e|]; [apply Hlt; reflexivity|exact I]. }
  { exact Hex. }
  assert (Htok : format_tokens lang_of lang_eqb (Caches (Some theme) []) (Ctx l cs) r = Some (ts, theme)).
  { unfold format_tokens. cbn [fc_default fc_langs]. rewrite Hts. reflexivity. }
  assert (Ho : in_order (map snd ts)) by (unfold ts; rewrite map_map; cbn [snd]; rewrite map_id; apply in_order_filter; apply Hwf).
  assert (Hf : Forall (fun x => overlaps start end_ (Item (k_pos (snd x)) (k_end (snd x)) tt)) ts).
  { apply Forall_forall. intros x Hx. apply in_map_iff in Hx as (u & <- & Hu). apply filter_In in Hu as [_ Hu]. unfold overlap in Hu. cbn [snd].
    split; cbn [i_pos i_end]; [unfold k_end; lia|]. destruct end_; [lia|exact I]. }
  destruct (ranges_of_ok A F fmt_eqb Hfmt (fc_unparsed theme) theme ts start end_ text Hlt Ho Hf) as (H1 & H2 & H3 & H4 & H5).
  eexists. eexists. split; [exact (format_ranges_some _ _ _ _ _ _ _ _ _ _ _ _ _ _ Hr Htok)|]. split.
  - unfold format_text. rewrite (format_ranges_some _ _ _ _ _ _ _ _ _ _ _ _ _ _ Hr Htok). reflexivity.
  - auto.
Qed.
Print Assumptions C47_formats.

Definition format_tree : node nat nat :=
  Ctx 0 [Tok (Token 1 [101] 7 None); Tok (Token 2 [102] 7 None); Ctx 1 [Tok (Token 5 [105; 106] 8 None)]; Tok (Token 7 [107; 108] 9 None)].
Definition format_theme : fcache nat nat := FCache (fun a => if a =? 9 then None else Some a) None (Some 0).
Definition format_sample : str := [100; 101; 102; 103; 104; 105; 106; 107; 108].
Example C47_example : wf_children (children format_tree)
  /\ format_text (fun l => l) Nat.eqb Nat.eqb (Caches (Some format_theme) []) format_sample format_tree 0 (Some 8)
     = Some [([100], Some 0); ([101; 102], Some 7); ([103; 104], Some 0); ([105; 106], Some 8); ([107], None)].
Proof.
  split; [|vm_compute; reflexivity].
  split; [repeat constructor; discriminate|]. split; simpl; repeat constructor; unfold k_end; simpl; try lia; discriminate.
Qed.

(** C48 is false for a region that starts or ends inside a context that has contexts: tokens are repeated, and tokens after
    the region are there too. *)
Definition lang_tree : node nat nat :=
  Ctx 0 [Tok (Token 0 [100] 4 None); Tok (Token 1 [101] 5 None);
         Ctx 1 [Tok (Token 2 [102] 6 None); Tok (Token 3 [103] 7 None)]; Tok (Token 4 [104] 8 None); Tok (Token 5 [105] 9 None)].
Definition two_themes : caches nat nat nat := Caches (Some (FCache (fun a => Some a) None None)) [(1, FCache (fun a => Some (10 + a)) None None)].
Theorem C48_refuted : exists (cs : list (node nat nat)) (text : str) pieces, wf_children cs
  /\ text = [100; 101; 102; 103; 104; 105]
  /\ format_text (fun l => l) Nat.eqb Nat.eqb two_themes text (Ctx 0 cs) 1 (Some 5) = Some pieces
  /\ pieces = [([101], Some 5); ([102], Some 16); ([103], Some 17); ([102], Some 16); ([103], Some 17); ([104], Some 8); ([], Some 9)].
Proof.
  exists (children lang_tree). eexists. eexists. split.
  { split; [repeat constructor; discriminate|]. split; simpl; repeat constructor; unfold k_end; simpl; try lia; discriminate. }
  split; [reflexivity|]. split; [vm_compute; reflexivity|reflexivity].
Qed.
Print Assumptions C48_refuted.

(** What holds: formatting the whole text. All text is there, in order, and every token has the format that the theme for
    the language of its context gives it. Missing for the full claim: regions, see above. *)
Theorem C48_partial : forall (L A F Lang : Type) (lang_of : L -> Lang) (lang_eqb : Lang -> Lang -> bool) (fmt_eqb : F -> F -> bool)
    (default : fcache A F) (langs : list (Lang * fcache A F)) (theme : Lang -> fcache A F) (l : L) (cs : list (node L A)) (text : str) (end_ : option nat),
  (forall a b, fmt_eqb a b = true <-> a = b) -> (forall a b, lang_eqb a b = true <-> a = b) ->
  (forall lang fc, In (lang, fc) langs -> theme lang = fc) -> (forall lang, ~ In lang (map fst langs) -> theme lang = default) ->
  wf_children cs -> (forall e t, end_ = Some e -> In t (flat cs) -> k_pos t + length (k_text t) <= e) ->
  exists pieces, format_text lang_of lang_eqb fmt_eqb (Caches (Some default) langs) text (Ctx l cs) 0 end_ = Some pieces
    /\ concat (map fst pieces) = slice text 0 (match end_ with Some e => e | None => length text end)
    /\ forall lex t p, In (lex, t) (ctx_leaves l (Ctx l cs)) -> k_pos t <= p < k_pos t + length (k_text t) -> p < length text ->
         nth_error (per_char pieces) p = Some (nth p text 0, token_format (fc_unparsed default) (theme (lang_of lex)) t).
Proof.
  intros L A F Lang lang_of lang_eqb fmt_eqb default langs theme l cs text end_ Hfmt Hlang Hth1 Hth2 Hwf Hend.
  set (E := match end_ with Some e => e | None => length text end).
  destruct cs as [|c0 cs0] eqn:Ecs.
  { unfold format_text, format_ranges. cbn [range_from_tree children option_map text_pieces]. fold E. eexists. split; [reflexivity|]. split; [|intros lex t p []].
    destruct (0 <? E) eqn:H; cbn [map concat fst]; [apply app_nil_r|]. replace E with 0 by lia. reflexivity. }
  rewrite <- Ecs in *. assert (Hne : cs <> []) by (rewrite Ecs; discriminate).
  assert (Hr : range_from_tree (Ctx l cs) 0 end_ = Some (Some (Range [] [] []))).
  { unfold range_from_tree. cbn [children]. rewrite Ecs, <- Ecs. destruct end_ as [e|]; [|reflexivity].
    assert (Hfull : full (Ctx l cs)) by (constructor; [assumption|apply Hwf]).
    destruct (n_end_last _ _ _ Hfull) as (tl & ts' & Etl & Hn). rewrite flatten_ctx in Etl.
    assert (Htl : In tl (flat cs)) by (rewrite Etl; apply in_or_app; right; left; reflexivity).
    specialize (Hend e tl eq_refl Htl). unfold k_end in Hn. replace (e <? n_end (Ctx l cs)) with false by lia. reflexivity. }
  clear c0 cs0 Ecs.
  set (get := fun lex => theme (lang_of lex)).
  assert (Hget : forall lex, cache_get lang_eqb langs default (lang_of lex) = get lex).
  { intros lex. unfold cache_get, get. destruct (find _ langs) as [[la fc]|] eqn:Ef.
    - apply find_some in Ef as [Hin Hq]. apply Hlang in Hq. cbn [fst] in Hq. subst la. symmetry. apply Hth1. exact Hin.
    - symmetry. apply Hth2. intros Hin. apply in_map_iff in Hin as ([la fc] & Hla & Hin). cbn [fst] in Hla. subst la.
      apply find_none with (x := (lang_of lex, fc)) in Ef; [|exact Hin]. cbn [fst] in Ef. assert (lang_eqb (lang_of lex) (lang_of lex) = true) by (apply Hlang; reflexivity). congruence. }
  set (ts := map (fun x : L * tok A => (get (fst x), snd x)) (ctx_leaves l (Ctx l cs))).
  assert (Htok : exists last, format_tokens lang_of lang_eqb (Caches (Some default) langs) (Ctx l cs) (Range [] [] []) = Some (ts, last)).
  { unfold format_tokens. cbn [fc_default fc_langs]. destruct langs as [|la langs'] eqn:El.
    - exists default. unfold range_tokens, range_slices. cbn [r_path r_start r_end node_at start_slices children app skipn]. rewrite u_tokens_slices.
      cbn [concat option_map app]. rewrite app_nil_r. f_equal. f_equal. unfold ts. rewrite <- flatten_ctx with (l := l), <- leaves_flatten with (l := l), map_map.
      apply map_ext. intros [lex t]. cbn [fst snd]. f_equal. symmetry. unfold get. apply Hth2. intros [].
    - rewrite <- El in *. exists (get l). unfold range_ctx_slices. cbn [r_path r_start r_end node_at start_ctx_slices children app skipn lang_tokens].
      assert (Eg : lang_loop (fun lex => cache_get lang_eqb langs default (lang_of lex)) (4 * size (Ctx l cs) + 2 * list_sum (map size cs))
                     (cache_get lang_eqb langs default (lang_of l)) [] (Ctx l cs) cs 0
                   = Some (map (fun x => (cache_get lang_eqb langs default (lang_of (fst x)), snd x)) (rest_leaves L A (Ctx l cs) 0 ++ []), cache_get lang_eqb langs default (lang_of l))).
      { apply (lang_loop_ok L A F (fun lex => cache_get lang_eqb langs default (lang_of lex)) l l); [constructor|reflexivity|].
        cbn [skipn]. pose proof (TreeWalkProofs.cost_ctx L A l cs) as Hc. unfold lcost. cbn [map list_sum fold_right]. lia. }
      rewrite Eg. cbn [option_map fst snd]. rewrite app_nil_r, app_nil_r. cbn [rest_leaves skipn]. rewrite Hget. f_equal. f_equal.
      unfold ts. rewrite <- ctx_leaves_ctx with (l := l). apply map_ext. intros [lex t]. cbn [fst snd]. rewrite Hget. reflexivity. }
  destruct Htok as (last & Htok).
  assert (Hsnd : map snd ts = flat cs).
  { unfold ts. rewrite map_map. cbn [snd]. rewrite leaves_flatten. apply flatten_ctx. }
  assert (Ho : in_order (map snd ts)) by (rewrite Hsnd; apply Hwf).
  assert (Hlt : forall e, end_ = Some e -> 0 < e).
  { intros e He. assert (Hfull : full (Ctx l cs)) by (constructor; [assumption|apply Hwf]).
    destruct (n_end_last _ _ _ Hfull) as (tl & ts' & Etl & Hn). rewrite flatten_ctx in Etl.
    assert (Htl : In tl (flat cs)) by (rewrite Etl; apply in_or_app; right; left; reflexivity).
    specialize (Hend e tl He Htl). pose proof (in_order_text _ _ _ (proj2 Hwf) Htl). unfold k_end in H. lia. }
  assert (Hf : Forall (fun x => overlaps 0 end_ (Item (k_pos (snd x)) (k_end (snd x)) tt)) ts).
  { apply Forall_forall. intros x Hx. assert (Hin : In (snd x) (flat cs)) by (rewrite <- Hsnd; apply in_map; exact Hx).
    pose proof (in_order_text _ _ _ (proj2 Hwf) Hin) as Hlen. split; cbn [i_pos i_end]; [lia|]. destruct end_ as [e|]; [|exact I].
    specialize (Hend e (snd x) eq_refl Hin). unfold k_end in Hlen. lia. }
  destruct (ranges_of_ok A F fmt_eqb Hfmt (fc_unparsed default) last ts 0 end_ text Hlt Ho Hf) as (_ & _ & _ & _ & H).
  unfold format_text. rewrite (format_ranges_some _ _ _ _ _ _ _ _ _ _ _ _ _ _ Hr Htok). cbn [option_map fc_default]. eexists. split; [reflexivity|].
  split; [rewrite <- per_char_text, H, map_map; cbn [fst]; apply (map_nth_seq F)|].
  intros lex t p Hin Hp Hlen. rewrite H. fold E.
  assert (Hint : In t (flat cs)).
  { rewrite <- Hsnd. unfold ts. rewrite map_map. cbn [snd]. change t with (snd (lex, t)). apply in_map. exact Hin. }
  assert (HE : p < Nat.min E (length text) - 0).
  { unfold E. destruct end_ as [e|]; [specialize (Hend e t eq_refl Hint); lia|lia]. }
  rewrite nth_error_map, nth_error_nth' with (d := 0) by (rewrite seq_length; exact HE). rewrite seq_nth by exact HE. cbn [option_map]. rewrite Nat.add_0_l. f_equal. f_equal.
  unfold format_at. assert (Hinx : In (get lex, t) ts).
  { unfold ts. apply in_map_iff. exists (lex, t). split; [reflexivity|exact Hin]. }
  destruct (find (tok_at p) ts) as [[fc u]|] eqn:Ef.
  - apply find_some in Ef as [Hinu Hu]. unfold tok_at in Hu. cbn [snd] in Hu.
    assert (Eq : (fc, u) = (get lex, t)); [|injection Eq as -> ->; reflexivity].
    clear -Ho Hinx Hinu Hu Hp. destruct Ho as [Ho _]. induction ts as [|x ts IH]; [destruct Hinx|].
    cbn [map] in Ho. inversion Ho as [|? ? S1 S2]; subst. rewrite Forall_forall in S2. destruct Hinx as [->|Hinx], Hinu as [->|Hinu].
    + reflexivity.
    + specialize (S2 u (in_map snd _ _ Hinu)). cbn [snd] in S2. unfold k_end in *. lia.
    + specialize (S2 t (in_map snd _ _ Hinx)). cbn [snd] in S2. unfold k_end in *. lia.
    + apply IH; assumption.
  - apply find_none with (x := (get lex, t)) in Ef; [|exact Hinx]. unfold tok_at in Ef. cbn [snd] in Ef. unfold k_end in Ef. lia.
Qed.
Print Assumptions C48_partial.

Example C48_example : wf_children (children lang_tree)
  /\ format_text (fun l => l) Nat.eqb Nat.eqb two_themes [100; 101; 102; 103; 104; 105] lang_tree 0 None
     = Some [([100], Some 4); ([101], Some 5); ([102], Some 16); ([103], Some 17); ([104], Some 8); ([105], Some 9)].
Proof.
  split; [|vm_compute; reflexivity].
  split; [repeat constructor; discriminate|]. split; simpl; repeat constructor; unfold k_end; simpl; try lia; discriminate.
Qed.

(** C49: in escaped text there is no <, > (and, for attributes, no quote), and any reader of HTML gets the text back. *)
Theorem C49_escape : forall (entity : str -> option str) (text : str), knows_entities entity ->
  ~ In 60 (escape text) /\ ~ In 62 (escape text) /\ read_html entity InText (escape text) = Some (map Char text).
Proof.
  intros entity text Hk. split; [|split].
  - rewrite escape_chars. intros H. apply in_flat_map in H as (c & _ & H). unfold esc_char in H.
    destruct (c =? 38) eqn:E1; [cbn in H; intuition discriminate|]. destruct (c =? 60) eqn:E2; [cbn in H; intuition discriminate|].
    destruct (c =? 62) eqn:E3; [cbn in H; intuition discriminate|]. destruct H as [->|[]]. discriminate.
  - rewrite escape_chars. intros H. apply in_flat_map in H as (c & _ & H). unfold esc_char in H.
    destruct (c =? 38) eqn:E1; [cbn in H; intuition discriminate|]. destruct (c =? 60) eqn:E2; [cbn in H; intuition discriminate|].
    destruct (c =? 62) eqn:E3; [cbn in H; intuition discriminate|]. destruct H as [->|[]]. discriminate.
  - rewrite <- (app_nil_r (escape text)), read_escaped by exact Hk. cbn. rewrite app_nil_r. reflexivity.
Qed.
Print Assumptions C49_escape.

Theorem C49_attrescape : forall (entity : str -> option str) (text name rest : str), knows_entities entity ->
  ~ In 34 (attrescape text) /\ ~ In 60 (attrescape text) /\ ~ In 62 (attrescape text)
  /\ read_html entity (InValue name []) (attrescape text ++ [34] ++ rest) = read_html entity (InTag name (Some text)) rest.
Proof.
  intros entity text name rest Hk.
  assert (Hno : forall x, x = 34 \/ x = 60 \/ x = 62 -> ~ In x (attrescape text)).
  { intros x Hx H. rewrite attrescape_chars in H. apply in_flat_map in H as (c & _ & H). unfold attr_char, esc_char in H.
    destruct (c =? 34) eqn:E0; [cbn in H; intuition congruence|].
    destruct (c =? 38) eqn:E1; [cbn in H; intuition congruence|]. destruct (c =? 60) eqn:E2; [cbn in H; intuition congruence|].
    destruct (c =? 62) eqn:E3; [cbn in H; intuition congruence|]. destruct H as [->|[]]. lia. }
  split; [apply Hno; auto|]. split; [apply Hno; auto|]. split; [apply Hno; auto|].
  rewrite read_attr by exact Hk. reflexivity.
Qed.
Print Assumptions C49_attrescape.

(** C76: reading the HTML gives the text of every piece, with the format of the piece as the value of the attribute of a
    span tag around it. *)
Theorem C76_html : forall (entity : str -> option str) (attr : str) (pieces : list (str * option str)),
  knows_entities entity -> ~ In 62 attr -> ~ In 34 attr ->
  read_html entity InText (html attr pieces)
  = Some (flat_map (fun '(text, fmt) =>
      match fmt with
      | Some (c :: f) => [Tag ([115; 112; 97; 110; 32] ++ attr ++ [61]) (Some (c :: f))] ++ map Char text ++ [Tag [47; 115; 112; 97; 110] None]
      | _ => map Char text
      end) pieces).
Proof.
  intros entity attr pieces Hk H1 H2. induction pieces as [|[text fmt] pieces IH]; [reflexivity|]. unfold html in *. cbn [flat_map].
  match type of IH with read_html _ _ ?t = Some ?r => revert IH; generalize r; generalize t end. intros T R IH.
  assert (Hplain : read_html entity InText (escape text ++ T) = Some (map Char text ++ R)).
  { rewrite read_escaped by exact Hk. rewrite IH. reflexivity. }
  destruct fmt as [[|c f]|]; [exact Hplain| |exact Hplain]. clear Hplain.
  rewrite <- !app_assoc. cbn [app]. cbn [read_html Nat.eqb app]. rewrite read_tag_name by assumption. cbn [read_html Nat.eqb app].
  rewrite read_attr by exact Hk. cbn [app read_html Nat.eqb]. rewrite read_escaped by exact Hk. cbn [app read_html Nat.eqb]. rewrite IH. cbn [option_map].
  reflexivity.
Qed.
Print Assumptions C76_html.

Definition known_entities (s : str) : option str :=
  if str_eqb s [97; 109; 112] then Some [38] else if str_eqb s [108; 116] then Some [60] else if str_eqb s [103; 116] then Some [62]
  else if str_eqb s [113; 117; 111; 116] then Some [34] else None.
Example C76_example : knows_entities known_entities
  /\ html [115] [([60; 120], Some [34; 38]); ([38; 108; 116; 59], None)]
     = [60; 115; 112; 97; 110; 32; 115; 61; 34; 38; 113; 117; 111; 116; 59; 38; 97; 109; 112; 59; 34; 62; 38; 108; 116; 59; 120; 60; 47; 115; 112; 97; 110; 62;
        38; 97; 109; 112; 59; 108; 116; 59]
  /\ read_html known_entities InText (html [115] [([60; 120], Some [34; 38]); ([38; 108; 116; 59], None)])
     = Some [Tag [115; 112; 97; 110; 32; 115; 61] (Some [34; 38]); Char 60; Char 120; Tag [47; 115; 112; 97; 110] None; Char 38; Char 108; Char 116; Char 59].
Proof. split; [repeat split|]. split; reflexivity. Qed.
