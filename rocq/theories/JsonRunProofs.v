(** Runs of the lexer over JSON texts, and the values of the trees that are built. *)
From Verif Require Import Base BaseFacts TargetModel TargetSpec LexerModel LexerSpec LexiconModel LexiconSpec TreeModel TreeSpec TreeProofs BuildModel BuildProofs
  TransformModel TransformSpec ItemListModel MachineProofs GeneratorProofs JsonModel JsonSpec JsonStepProofs.
From Coq Require Import ZArith ZifyBool Permutation.

Section Runs.
Variables udigit uword uspace : nat -> bool.
Variable F : Type.
Variable float_of : str -> option F.
Variable is_integer : F -> option Z.
Hypothesis Hfloat : forall n, number n -> float_of n <> None.
Variable text : str.
Notation is_digit := (is_digit udigit).
Notation p_number := (p_number udigit).
Notation j_rules := (j_rules udigit uword uspace).
Notation j_parse := (j_parse udigit uword uspace).
Notation reach := (reach j_consume j_parse text).
Notation found := (found udigit uword uspace).
Notation pv := (pv F).
Notation titem := (TransformModel.titem jlex jact (option pv) jlex).
Notation methods := (j_methods F float_of is_integer).
Notation all_values := (all_values F float_of is_integer).
Notation first_value := (first_value F float_of is_integer).
Notation same := (same float_of is_integer).
Notation raised := (raised F).
Definition items (ns : list (node jlex jact)) : list titem :=
  concat (map (items_of (fun _ => tt) (fun l => l) (fun _ => tt) (fun _ : unit => methods) false) ns).

Lemma items_app a b : items (a ++ b) = items a ++ items b.
Proof. unfold items. now rewrite map_app, concat_app. Qed.
Lemma items_toks ts : items (map Tok ts) = map IToken ts.
Proof. unfold items. rewrite map_map. cbn. induction ts as [| t ts IH]; [reflexivity |]. cbn. now rewrite IH. Qed.

Lemma reach_eq a b c : reach a b -> b = c -> reach a c.
Proof. intros H <-. exact H. Qed.
Lemma reach_then a a' b c : reach a' b -> a = a' -> reach b c -> reach a c.
Proof. intros H -> H'. eapply reach_trans; eassumption. Qed.
Lemma reach_last a a' b b' : reach a' b' -> a = a' -> b' = b -> reach a b.
Proof. intros H -> <-. exact H. Qed.
Ltac norm := repeat (progress (rewrite ?map_app, ?app_nil_r; cbn [map app repeat length]; rewrite <- ?app_assoc; cbn [app])); reflexivity.
Ltac chain H := eapply reach_then; [exact H | f_equal; norm |].
Ltac finish H := eapply reach_last; [exact H | f_equal; norm | f_equal; norm].

(** ** Numbers *)

Definition head_not (P : nat -> Prop) (s : str) : Prop := match s with [] => True | c :: _ => ~ P c end.
Lemma span_digits d r : Forall digit d -> head_not (fun c => is_digit c = true) r -> span is_digit (d ++ r) = length d.
Proof.
  induction 1 as [| c d Hc Hd IH]; intros Hr; cbn [app length].
  - destruct r as [| c r]; [reflexivity |]. cbn in Hr |- *. destruct (is_digit c); [congruence | reflexivity].
  - cbn [span]. unfold digit in Hc. assert (E : is_digit c = true) by (unfold JsonModel.is_digit; destruct (Nat.ltb_spec c 128); lia). rewrite E. now rewrite (IH Hr).
Qed.
Definition follow (s : str) : Prop := match s with [] => True | c :: _ => In c [9; 10; 13; 32; 44; 93; 125] end.
Definition prevok (pre : str) : Prop := match last_opt pre with None => True | Some c => In c [9; 10; 13; 32; 44; 58; 91] end.

Lemma frac_not s : head_not (eq 46) s -> n_frac udigit s = 0.
Proof. destruct s as [| c s]; [reflexivity |]. cbn [head_not]. intros H. unfold n_frac. do 47 (destruct c as [| c]; [first [reflexivity | congruence] |]). reflexivity. Qed.
Lemma exp_not s : head_not (fun c => c = 69 \/ c = 101) s -> n_exp udigit s = 0.
Proof.
  destruct s as [| c s]; [reflexivity |]. cbn [head_not]. intros H. unfold n_exp. do 102 (destruct c as [| c]; [first [reflexivity | exfalso; apply H; auto] |]). reflexivity.
Qed.
Lemma minus_not s : head_not (eq 45) s -> n_minus s = 0.
Proof. destruct s as [| c s]; [reflexivity |]. cbn [head_not]. intros H. unfold n_minus. do 46 (destruct c as [| c]; [first [reflexivity | congruence] |]). reflexivity. Qed.
Lemma sign_not s : head_not (fun c => c = 43 \/ c = 45) s -> n_sign s = 0.
Proof.
  destruct s as [| c s]; [reflexivity |]. cbn [head_not]. intros H. unfold n_sign. do 46 (destruct c as [| c]; [first [reflexivity | exfalso; apply H; auto] |]). reflexivity.
Qed.
Lemma digits_head d r (P : nat -> Prop) : digits d -> (forall c, digit c -> ~ P c) -> head_not P (d ++ r).
Proof. intros [Hne Hd] H. destruct d as [| c d]; [congruence |]. inversion Hd; subst. cbn. auto. Qed.
Lemma follow_not s (P : nat -> Prop) : follow s -> (forall c, In c [9; 10; 13; 32; 44; 93; 125] -> ~ P c) -> head_not P s.
Proof. destruct s as [| c s]; cbn [follow head_not]; auto. Qed.
Ltac sepcase := let c := fresh in let H := fresh in intros c H; cbn in H; repeat (destruct H as [<- | H]; [cbn; try (intros [? | ?]; discriminate); discriminate |]); contradiction.

Lemma exp_is d r : exp_part d -> follow r -> n_exp udigit (d ++ r) = length d.
Proof.
  intros [-> | (e & sign & d0 & -> & He & Hs & Hd)] Hr; cbn [app length].
  - apply exp_not. apply follow_not; [exact Hr | sepcase].
  - assert (Hsig : n_sign ((sign ++ d0) ++ r) = length sign).
    { destruct Hs as [-> | [-> | ->]]; [| reflexivity | reflexivity]. apply sign_not. apply (digits_head d0 r); [exact Hd |].
      unfold digit. intros c Hc [-> | ->]; lia. }
    assert (Hsp : span is_digit (skipn (length sign) ((sign ++ d0) ++ r)) = length d0).
    { rewrite <- app_assoc, skipn_pre. apply span_digits; [apply Hd |]. apply follow_not; [exact Hr | sepcase]. }
    assert (Hne : length d0 <> 0) by (destruct Hd as [Hd _]; destruct d0; [congruence | discriminate]).
    destruct He as [-> | ->]; unfold n_exp; rewrite Hsig, Hsp; rewrite app_length; destruct (length d0); (lia || congruence).
Qed.
Lemma exp_head d r (P : nat -> Prop) : exp_part d -> follow r -> ~ P 69 -> ~ P 101 -> (forall c, In c [9; 10; 13; 32; 44; 93; 125] -> ~ P c) -> head_not P (d ++ r).
Proof.
  intros [-> | (e & sign & d0 & -> & He & Hs & Hd)] Hr H1 H2 H3; cbn [app]; [now apply follow_not |].
  cbn. destruct He as [-> | ->]; assumption.
Qed.
Lemma frac_is c d r : frac_part c -> exp_part d -> follow r -> n_frac udigit (c ++ d ++ r) = length c.
Proof.
  intros [-> | (c0 & -> & Hc)] Hd Hr; cbn [app length].
  - apply frac_not. apply exp_head; try assumption; try discriminate. sepcase.
  - unfold n_frac. rewrite span_digits; [| apply Hc |].
    + destruct Hc as [Hc _]. destruct c0; [congruence | reflexivity].
    + apply exp_head; try assumption; try (cbn; discriminate). sepcase.
Qed.
Lemma number_is prev n r : number n -> follow r -> p_number prev (n ++ r) = Some (length n).
Proof.
  intros (a & b & c & d & -> & Ha & [Hb _] & Hc & Hd) Hr. unfold JsonModel.p_number.
  assert (Hm : n_minus ((a ++ b ++ c ++ d) ++ r) = length a).
  { destruct Ha as [-> | ->]; [| reflexivity]. cbn [app length]. rewrite <- app_assoc. apply minus_not. apply digits_head; [exact Hb |].
    unfold digit. intros x Hx <-. lia. }
  rewrite Hm. assert (E : (a ++ b ++ c ++ d) ++ r = a ++ b ++ c ++ d ++ r) by now rewrite <- !app_assoc. rewrite E, skipn_pre.
  assert (Hs : span is_digit (b ++ c ++ d ++ r) = length b).
  { apply span_digits; [apply Hb |]. destruct Hc as [-> | (c0 & -> & _)]; [| cbn; discriminate]. cbn [app].
    apply exp_head; try assumption; try (cbn; discriminate). sepcase. }
  rewrite Hs. assert (Hne : length b <> 0) by (destruct Hb as [Hb _]; destruct b; [congruence | discriminate]).
  destruct (length b) as [| lb] eqn:Eb; [congruence |]. rewrite <- Eb.
  replace (length a + length b) with (length (a ++ b)) by apply app_length.
  replace (a ++ b ++ c ++ d ++ r) with ((a ++ b) ++ c ++ d ++ r) by now rewrite <- app_assoc.
  rewrite skipn_pre, (frac_is c d r Hc Hd Hr).
  replace (length (a ++ b) + length c) with (length ((a ++ b) ++ c)) by apply app_length.
  replace ((a ++ b) ++ c ++ d ++ r) with (((a ++ b) ++ c) ++ d ++ r) by now rewrite <- app_assoc.
  rewrite skipn_pre, (exp_is d r Hd Hr). rewrite !app_length. f_equal. lia.
Qed.

(** ** Strings *)

Definition raw (c : nat) : Prop := c <> 34 /\ c <> 92.
Lemma escape_not prev c s : c <> 92 -> p_escape prev (c :: s) = None.
Proof. intros H. destruct s as [| d s]; unfold p_escape; do 93 (destruct c as [| c]; [first [reflexivity | congruence] |]); reflexivity. Qed.
Lemma found_raw pre c s : raw c -> found JString pre (c :: s) = None.
Proof.
  intros [H1 H2]. unfold JsonStepProofs.found, JsonModel.j_rules, std. cbn [map fst pick]. unfold p_char at 1.
  destruct (Nat.eqb_spec c 34); [congruence |]. now rewrite escape_not.
Qed.
Lemma gap_opt up pre r c s w new circ : text = pre ++ r ++ c :: s -> Forall raw r -> found JString (pre ++ r) (c :: s) <> None ->
  exists ts new', pieces F (map IToken ts) = Some r /\
    reach (Cfg (up ++ [JString]) w new circ (length pre)) (Cfg (up ++ [JString]) (w ++ map Leaf ts) new' circ (length (pre ++ r))).
Proof.
  intros E Hr Hc. destruct r as [| x r].
  - exists [], new. split; [reflexivity |]. cbn [map]. rewrite !app_nil_r. apply reach_refl.
  - exists [Token (length pre) (x :: r) AString None], 0. split; [cbn; now rewrite app_nil_r |].
    apply (step_gap udigit uword uspace text up pre (x :: r) c s w new circ E ltac:(discriminate)); [| exact Hc].
    intros a y b Eq. apply found_raw. rewrite Eq in Hr. apply Forall_app in Hr as [_ Hr]. now inversion Hr.
Qed.
Lemma hex_is c n : hex c n -> JsonModel.hex_digit c = n /\ is_hex c = true.
Proof. unfold JsonModel.hex_digit, is_hex. intros [k H | k H | k H]; (do 10 (destruct k as [| k]; [first [lia | split; reflexivity] |])); lia. Qed.
Lemma pieces_app a b x y : pieces F a = Some x -> pieces F b = Some y -> pieces F (a ++ b) = Some (x ++ y).
Proof.
  revert x. induction a as [| i a IH]; intros x Hx Hy; cbn [pieces app] in *; [injection Hx as <-; exact Hy |].
  destruct (piece_of F i) as [s |]; [| discriminate]. destruct (pieces F a) as [z |]; [| discriminate]. cbn in Hx. injection Hx as <-.
  rewrite (IH z eq_refl Hy). cbn. now rewrite app_assoc.
Qed.

Lemma string_run t s : string_text false t s -> forall r up l pre rest w new, Forall raw r -> text = pre ++ r ++ t ++ 34 :: rest ->
  exists ts, pieces F (map IToken ts) = Some (r ++ s) /\
    reach (Cfg (up ++ [l; JString]) w new [] (length pre))
      (Cfg (up ++ [l]) (w ++ map Leaf ts ++ [Leaf (Token (length (pre ++ r ++ t)) [34] AStringEnd None); Exit]) 0 [] (length (pre ++ r ++ t ++ [34]))).
Proof.
  induction 1 as [| c t s H1 H2 H3 Hst IH | c d t s Hin Hst IH | u n t s Hu Hn Hst IH | u n v m c t s Hp]; intros r up l pre rest w new Hr E; [| | | | discriminate].
  - cbn [app] in *. destruct (gap_opt (up ++ [l]) pre r 34 rest w new [] E Hr ltac:(discriminate)) as (ts & new' & Hts & Hgap). exists ts. rewrite app_nil_r. split; [exact Hts |].
    chain Hgap.
    pose proof (step_target udigit uword uspace text (up ++ [l]) JString (pre ++ r) [34] rest 0 (p_char 34) AStringEnd [RInt (-1)] 1 [] (w ++ map Leaf ts) new' []
      ltac:(rewrite E, <- app_assoc; reflexivity) eq_refl eq_refl eq_refl ltac:(rewrite app_length; cbn; lia)) as H.
    rewrite drop_last_app in H by (cbn; lia). change (drop_last 1 [JString]) with (@nil jlex) in H. finish H.
  - destruct (IH (r ++ [c]) up l pre rest w new) as (ts & Hts & Hrun).
    { apply Forall_app. split; [exact Hr |]. repeat constructor; assumption. }
    { rewrite E, <- app_assoc. reflexivity. }
    exists ts. rewrite <- !app_assoc in Hts. split; [exact Hts |]. rewrite <- !app_assoc in Hrun. exact Hrun.
  - assert (Hesc : forall pre', found JString pre' (92 :: c :: t ++ 34 :: rest) = Some (1, 2) /\ piece_of F (IToken (Token (length pre') [92; c] AStringEscape None)) = Some [d]).
    { intros pre'. cbn in Hin. repeat (destruct Hin as [Hin | Hin]; [injection Hin as <- <-; split; reflexivity |]). contradiction. }
    destruct (gap_opt (up ++ [l]) pre r 92 (c :: t ++ 34 :: rest) w new [] E Hr ltac:(rewrite (proj1 (Hesc (pre ++ r))); discriminate)) as (ts & new' & Hts & Hgap).
    pose proof (step_item udigit uword uspace text (up ++ [l]) JString (pre ++ r) [92; c] (t ++ 34 :: rest) 1 p_escape AStringEscape (w ++ map Leaf ts) new' []
      ltac:(rewrite E, <- app_assoc; reflexivity) (proj1 (Hesc (pre ++ r))) eq_refl) as Hitem.
    destruct (IH [] up l ((pre ++ r) ++ [92; c]) rest ((w ++ map Leaf ts) ++ [Leaf (Token (length (pre ++ r)) [92; c] AStringEscape None)]) 0 (Forall_nil _)) as (ts' & Hts' & Hrun).
    { rewrite E, <- !app_assoc. reflexivity. }
    exists (ts ++ Token (length (pre ++ r)) [92; c] AStringEscape None :: ts'). split.
    + rewrite map_app. cbn [map]. apply pieces_app; [exact Hts |]. cbn [pieces]. rewrite (proj2 (Hesc (pre ++ r))). cbn [app] in Hts'. rewrite Hts'. reflexivity.
    + chain Hgap. chain Hitem. finish Hrun.
  - destruct Hu as (a & b & c & d & x & y & z & v & -> & Ha & Hb & Hc & Hd & Hv). apply hex_is in Ha as [Ha Ha'], Hb as [Hb Hb'], Hc as [Hc Hc'], Hd as [Hd Hd'].
    set (u := [92; 117; a; b; c; d]) in *.
    assert (Hesc : forall pre', found JString pre' (u ++ t ++ 34 :: rest) = Some (1, 6) /\ piece_of F (IToken (Token (length pre') u AStringEscape None)) = Some [n]).
    { intros pre'. split.
      - unfold JsonStepProofs.found, JsonModel.j_rules, std, u. cbn [map fst pick app]. unfold p_char, p_escape. cbn -[is_hex]. now rewrite Ha', Hb', Hc', Hd'.
      - unfold piece_of, u. cbn [k_act k_text nth_error skipn length Nat.eqb negb andb forallb]. rewrite Ha', Hb', Hc', Hd'. cbn [andb]. unfold int16. cbn [fold_left]. rewrite Ha, Hb, Hc, Hd, Hv. reflexivity. }
    destruct (gap_opt (up ++ [l]) pre r 92 (117 :: a :: b :: c :: d :: t ++ 34 :: rest) w new [] E Hr ltac:(pose proof (proj1 (Hesc (pre ++ r))) as Hf; cbn [u app] in Hf; rewrite Hf; discriminate)) as (ts & new' & Hts & Hgap).
    pose proof (step_item udigit uword uspace text (up ++ [l]) JString (pre ++ r) u (t ++ 34 :: rest) 1 p_escape AStringEscape (w ++ map Leaf ts) new' []
      ltac:(rewrite E, <- !app_assoc; reflexivity) (proj1 (Hesc (pre ++ r))) eq_refl) as Hitem.
    destruct (IH [] up l ((pre ++ r) ++ u) rest ((w ++ map Leaf ts) ++ [Leaf (Token (length (pre ++ r)) u AStringEscape None)]) 0 (Forall_nil _)) as (ts' & Hts' & Hrun).
    { rewrite E, <- !app_assoc. reflexivity. }
    exists (ts ++ Token (length (pre ++ r)) u AStringEscape None :: ts'). split.
    + rewrite map_app. cbn [map]. apply pieces_app; [exact Hts |]. cbn [pieces]. rewrite (proj2 (Hesc (pre ++ r))). cbn [app] in Hts'. rewrite Hts'. reflexivity.
    + chain Hgap. chain Hitem. finish Hrun.
Qed.


(** ** White space *)

Definition valuelex (l : jlex) : Prop := l = JRoot \/ l = JValue \/ l = JArray.
Lemma found_ws l pre c s : plain l -> In c [9; 10; 13; 32] -> found l pre (c :: s) = None.
Proof.
  intros Hl Hc. unfold JsonStepProofs.found.
  unfold JsonModel.j_rules, values_rules, std.
  destruct Hl as [-> | [-> | [-> | ->]]]; cbn [map fst app pick]; cbn in Hc; destruct Hc as [<- | [<- | [<- | [<- | []]]]];
    try reflexivity; unfold p_constant; cbn -[at_bound]; destruct (at_bound _ _ _); reflexivity.
Qed.
Lemma ws_run up l a : plain l -> ws a -> forall pre s w new circ, text = pre ++ a ++ s ->
  reach (Cfg (up ++ [l]) w new circ (length pre)) (Cfg (up ++ [l]) w new circ (length (pre ++ a))).
Proof.
  intros Hl. induction 1 as [| c a Hc Ha IH]; intros pre s w new circ E; [rewrite app_nil_r; apply reach_refl |].
  pose proof (step_pass udigit uword uspace text up l pre c (a ++ s) w new circ Hl E (found_ws l pre c _ Hl Hc)) as H. chain H.
  assert (E' : text = (pre ++ [c]) ++ a ++ s) by (rewrite E, <- app_assoc; reflexivity). finish (IH (pre ++ [c]) s w new circ E').
Qed.
Lemma span_ws a c s : ws a -> is_space uspace c = false -> span (is_space uspace) (a ++ c :: s) = length a.
Proof.
  intros Ha Hc. induction Ha as [| x a Hx Ha IH]; cbn [app span length]; [now rewrite Hc |].
  assert (E : is_space uspace x = true) by (cbn in Hx; repeat (destruct Hx as [<- | Hx]; [reflexivity |]); contradiction). now rewrite E, IH.
Qed.
Lemma obj_ws_run up a : ws a -> forall pre c s w new circ, text = pre ++ a ++ c :: s -> is_space uspace c = false ->
  reach (Cfg (up ++ [JObject]) w new circ (length pre)) (Cfg (up ++ [JObject]) w new circ (length (pre ++ a))).
Proof.
  intros Ha pre c s w new circ E Hc. destruct a as [| x a]; [rewrite app_nil_r; apply reach_refl |].
  apply (step_skip udigit uword uspace text up JObject pre (x :: a) (c :: s) 1 (p_spaces uspace)); [exact E | | reflexivity].
  unfold JsonStepProofs.found, JsonModel.j_rules, std. cbn [map fst pick]. pose proof (span_ws (x :: a) c s Ha Hc) as Hs. unfold p_spaces. rewrite Hs.
  inversion Ha as [| ? ? Hx _]; subst. unfold p_char. cbn [app length]. destruct (Nat.eqb_spec x 125) as [-> | _]; [cbn in Hx; lia | reflexivity].
Qed.

(** ** The values of nodes *)

Definition good (its : list titem) (vs : list pv) : Prop := existsb raised its = false /\ all_values its = Some vs.
Lemma good_app a b vs ws : good a vs -> good b ws -> good (a ++ b) (vs ++ ws).
Proof.
  intros [A1 A2] [B1 B2]. split; [now rewrite existsb_app, A1, B1 |]. clear A1 B1. revert vs A2.
  induction a as [| i a IH]; intros vs A2; cbn [JsonModel.all_values app] in *; [injection A2 as <-; exact B2 |].
  destruct (value_of _ _ _ i) as [[v |] |]; [| discriminate | auto]. destruct (all_values a) as [vs' |]; [| discriminate]. cbn in A2. injection A2 as <-.
  rewrite (IH vs' eq_refl). reflexivity.
Qed.
Lemma first_of its v vs : all_values its = Some (v :: vs) -> first_value its = Some v.
Proof.
  induction its as [| i its IH]; cbn [JsonModel.all_values JsonModel.first_value]; [discriminate |].
  destruct (value_of _ _ _ i) as [[u |] |]; [| discriminate | exact IH]. destruct (all_values its); [| discriminate]. cbn. injection 1 as <- _. reflexivity.
Qed.
Definition mcall (l : jlex) (its : list titem) : option pv :=
  match methods l with Some m => m_call m (ItemList tt its) | None => None end.
Lemma items_ctx l cs : items [Ctx l cs] = [IObj l (mcall l (items cs))].
Proof. reflexivity. Qed.
Lemma good_ctx l cs v : mcall l (items cs) = Some v -> good (items [Ctx l cs]) [v].
Proof. intros H. rewrite items_ctx, H. split; reflexivity. Qed.
Lemma good_delim p t : good (items [Tok (Token p t ADelimiter None)]) [].
Proof. split; reflexivity. Qed.
Lemma good_start p t : good (items [Tok (Token p t AStringStart None)]) [].
Proof. split; reflexivity. Qed.

Lemma peek_end (l : list (entry jlex jact pv)) : peek jlex_eqb jact_eqb (l ++ [EToken AStringEnd]) (-1) [VAct AStringEnd] = true.
Proof.
  unfold peek. cbn [Z.ltb Z.compare]. rewrite app_length. cbn [length].
  destruct (Z.ltb_spec (-1 + Z.of_nat (length l + 1)) 0) as [H | H]; [lia |].
  replace (Z.to_nat (-1 + Z.of_nat (length l + 1))) with (length l) by lia.
  destruct (Nat.ltb_spec (length l + 1) (length l + 1)); [lia |]. replace (length l + 1 - length l) with 1 by lia.
  rewrite skipn_pre. reflexivity.
Qed.
Lemma string_value ts p s : pieces F (map IToken ts) = Some s -> mcall JString (items (map Tok (ts ++ [Token p [34] AStringEnd None]))) = Some (PStr s).
Proof.
  intros H. unfold mcall, j_methods. cbn [m_call]. unfold call. cbn [TransformModel.il_items]. rewrite items_toks.
  assert (E : existsb raised (map IToken (ts ++ [Token p [34] AStringEnd None])) = false).
  { generalize (ts ++ [Token p [34] AStringEnd None]). intros l. induction l as [| x l IH]; [reflexivity | exact IH]. }
  rewrite E. unfold m_string. rewrite map_map, map_app. cbn [map entry_of k_act]. rewrite peek_end, map_app; cbn [map]; rewrite removelast_last, H. reflexivity.
Qed.
Lemma words_end ts p (l : jlex) : words [Ctx l (map Tok (ts ++ [Token p [34] AStringEnd None]))] =
  Enter l :: map Leaf ts ++ [Leaf (Token p [34] AStringEnd None); Exit].
Proof. rewrite words_cons, word_ctx, words_toks, map_app. cbn [map words concat app]. rewrite <- !app_assoc, app_nil_r. reflexivity. Qed.

(** A string between its quotes. *)
Lemma quoted_run t s : string_text false t s -> forall up l pre rest w new circ, l = JKey \/ valuelex l -> text = pre ++ (34 :: t ++ [34]) ++ rest ->
  exists cs, mcall JString (items cs) = Some (PStr s) /\
    reach (Cfg (up ++ [l]) w new circ (length pre))
      (Cfg (up ++ [l]) (w ++ words [Tok (Token (length pre) [34] AStringStart None); Ctx JString cs]) 0 [] (length (pre ++ 34 :: t ++ [34]))).
Proof.
  intros Hst up l pre rest w new circ Hl E.
  assert (Hopen : exists i, found l pre ([34] ++ t ++ [34] ++ rest) = Some (i, 1) /\ exists p, nth_error (j_rules l) i = Some (p, SRule (AStd AStringStart) [RLex JString])).
  { destruct Hl as [-> | [-> | [-> | ->]]]; eexists; (split; [reflexivity | eexists; reflexivity]). }
  destruct Hopen as (i & Hf & p & Hi).
  assert (E1 : text = pre ++ [34] ++ t ++ [34] ++ rest) by (rewrite E; cbn [app]; now rewrite <- !app_assoc).
  pose proof (step_target udigit uword uspace text up l pre [34] _ i p AStringStart [RLex JString] 0 [JString] w new circ E1 Hf Hi eq_refl ltac:(lia)) as H1.
  rewrite drop_last_0 in H1.
  destruct (string_run t s Hst [] up l (pre ++ [34]) rest (w ++ [Leaf (Token (length pre) [34] AStringStart None); Enter JString]) 1 (Forall_nil _)) as (ts & Hts & H2).
  { rewrite E1. now rewrite <- !app_assoc. }
  eexists. split; [apply (string_value ts (length ((pre ++ [34]) ++ [] ++ t)) s Hts) |]. rewrite words_cons. cbn [word]. rewrite (words_end ts). chain H1. finish H2.
Qed.

(** ** Values *)

Lemma prevok_ws pre a : prevok pre -> ws a -> prevok (pre ++ a).
Proof.
  intros Hp Ha. destruct a as [| x a _] using rev_ind; [now rewrite app_nil_r |]. apply Forall_app in Ha as [_ Ha]. inversion Ha as [| ? ? Hx _]; subst.
  unfold prevok. rewrite app_assoc, last_opt_app. cbn in *. tauto.
Qed.
Lemma prevok_char pre c : In c [44; 58; 91] -> prevok (pre ++ [c]).
Proof. intros H. unfold prevok. rewrite last_opt_app. cbn in *. tauto. Qed.
Lemma follow_ws a s : ws a -> follow s -> follow (a ++ s).
Proof. intros [| c a' Hc _]; [auto |]. intros _. cbn in *. tauto. Qed.

Lemma found_constant l pre w rest : valuelex l -> In w [w_true; w_false; w_null] -> prevok pre -> follow rest -> found l pre (w ++ rest) = Some (4, length w).
Proof.
  intros Hl Hw Hp Hr. unfold JsonStepProofs.found, JsonModel.j_rules, values_rules, std.
  assert (E : p_constant uword (last_opt pre) (w ++ rest) = Some (length w)).
  { unfold p_constant.
    assert (B1 : at_bound uword (last_opt pre) (hd_error (w ++ rest)) = true).
    { unfold prevok in Hp. destruct (last_opt pre) as [c |].
      - cbn in Hw, Hp. destruct Hw as [<- | [<- | [<- | []]]]; repeat (destruct Hp as [<- | Hp]; [reflexivity |]); contradiction.
      - cbn in Hw. destruct Hw as [<- | [<- | [<- | []]]]; reflexivity. }
    rewrite B1. destruct rest as [| c rest].
    - cbn in Hw. destruct Hw as [<- | [<- | [<- | []]]]; reflexivity.
    - cbn in Hw, Hr. destruct Hw as [<- | [<- | [<- | []]]]; repeat (destruct Hr as [<- | Hr]; [reflexivity |]); contradiction. }
  assert (N : p_number (last_opt pre) (w ++ rest) = None).
  { cbn in Hw. destruct Hw as [<- | [<- | [<- | []]]]; reflexivity. }
  assert (C : forall c, In c [123; 91; 34] -> p_char c (last_opt pre) (w ++ rest) = None).
  { intros c Hc. cbn in Hw, Hc. destruct Hw as [<- | [<- | [<- | []]]]; repeat (destruct Hc as [<- | Hc]; [reflexivity |]); contradiction. }
  destruct Hl as [-> | [-> | ->]]; cbn [map fst app pick]; rewrite !C by (cbn; auto); rewrite N, E; reflexivity.
Qed.
Lemma number_head n : number n -> exists c t, n = c :: t /\ (c = 45 \/ digit c).
Proof.
  intros (a & b & c & d & -> & Ha & [[Hb Hd] _] & _). destruct Ha as [-> | ->]; [| eexists _, _; split; [reflexivity | now left]].
  destruct b as [| x b]; [congruence |]. inversion Hd; subst. eexists _, _. split; [reflexivity | now right].
Qed.
Lemma found_number l pre n rest : valuelex l -> number n -> follow rest -> found l pre (n ++ rest) = Some (3, length n).
Proof.
  intros Hl Hn Hr. unfold JsonStepProofs.found, JsonModel.j_rules, values_rules, std. pose proof (number_is (last_opt pre) n rest Hn Hr) as E.
  assert (C : forall c, In c [123; 91; 34] -> p_char c (last_opt pre) (n ++ rest) = None).
  { intros c Hc. destruct (number_head n Hn) as (x & t & -> & Hx). cbn [app p_char]. unfold digit in Hx. destruct (Nat.eqb_spec x c) as [-> | _]; [| reflexivity].
    cbn in Hc. lia. }
  destruct Hl as [-> | [-> | ->]]; cbn [map fst app pick]; rewrite !C by (cbn; auto); rewrite E; reflexivity.
Qed.

Definition value_spec (v : json) (t : str) : Prop := forall up l pre rest w new, valuelex l -> text = pre ++ t ++ rest -> prevok pre -> follow rest ->
  exists ns pyv, same v pyv /\ good (items ns) [pyv] /\
    reach (Cfg (up ++ [l]) w new [] (length pre)) (Cfg (up ++ [l]) (w ++ words ns) 0 [] (length (pre ++ t))).
Definition items_spec (l : list json) (t : str) : Prop := forall up pre rest w new, text = pre ++ t ++ 93 :: rest -> prevok pre ->
  exists ns vs, Forall2 same l vs /\ good (items ns) vs /\
    reach (Cfg (up ++ [JArray]) w new [] (length pre)) (Cfg (up ++ [JArray]) (w ++ words ns) 0 [] (length (pre ++ t))).
(** The members of an object up to the closing brace. *)
Definition pairs_of (ps : list (pv * pv)) : list (jlex * pv) := flat_map (fun p => [(JKey, fst p); (JValue, snd p)]) ps.
Definition members_spec (l : list (str * json)) (t : str) : Prop := forall up u pre rest w new, text = pre ++ t ++ 125 :: rest ->
  exists ns ps, Forall2 (fun x p => fst p = PStr (fst x) /\ same (snd x) (snd p)) l ps /\ existsb raised (items ns) = false /\
    ItemListModel.il_items (map (entry_of F) (items ns)) = pairs_of ps /\
    reach (Cfg (up ++ [u; JObject]) w new [] (length pre)) (Cfg (up ++ [u]) (w ++ words ns ++ [Exit]) 0 [] (length (pre ++ t ++ [125]))).

Lemma const_run v pyv t : same v pyv -> In t [w_true; w_false; w_null] -> constant_of F t = Some pyv -> value_spec v t.
Proof.
  intros Hs Ht Hc up l pre rest w new Hl E Hp Hr. exists [Tok (Token (length pre) t AConstant None)], pyv. split; [exact Hs |]. split.
  - split; [reflexivity |]. cbn. now rewrite Hc.
  - cbn [words map concat word app].
    assert (Hi : exists p, nth_error (j_rules l) 4 = Some (p, SRule (AStd AConstant) [])) by (destruct Hl as [-> | [-> | ->]]; eexists; reflexivity).
    destruct Hi as [p Hi]. exact (step_item udigit uword uspace text up l pre t rest 4 p AConstant w new [] E (found_constant l pre t rest Hl Ht Hp Hr) Hi).
Qed.
Lemma num_run n : number n -> value_spec (JNum n) n.
Proof.
  intros Hn up l pre rest w new Hl E Hp Hr. pose proof (Hfloat n Hn) as Hf. destruct (float_of n) as [f |] eqn:Ef; [| congruence].
  exists [Tok (Token (length pre) n ANumber None)], (PNum (match is_integer f with Some z => NInt z | None => NFloat f end)). split; [| split].
  - destruct (is_integer f) eqn:Ei; [eapply same_int | eapply same_float]; eassumption.
  - split; [reflexivity |]. cbn. unfold number_of. rewrite Ef. reflexivity.
  - cbn [words map concat word app].
    assert (Hi : exists p, nth_error (j_rules l) 3 = Some (p, SRule (AStd ANumber) [])) by (destruct Hl as [-> | [-> | ->]]; eexists; reflexivity).
    destruct Hi as [p Hi]. exact (step_item udigit uword uspace text up l pre n rest 3 p ANumber w new [] E (found_number l pre n rest Hl Hn Hr) Hi).
Qed.

Lemma grouped_pairs ps : forall k v, grouped_loop jlex_eqb [JKey; JValue] [Some k; Some v] (Some 1) (pairs_of ps) =
  [Some k; Some v] :: map (fun p => [Some (fst p); Some (snd p)]) ps.
Proof. induction ps as [| [k' v'] ps IH]; intros k v; [reflexivity |]. cbn. now rewrite IH. Qed.
Lemma grouped_is ps (its : list titem) : ItemListModel.il_items (map (entry_of F) its) = pairs_of ps ->
  map (pair_of F) (grouped_objects jlex_eqb [JKey; JValue] (map (entry_of F) its)) = ps.
Proof.
  intros H. unfold grouped_objects. rewrite H. destruct ps as [| [k v] ps]; [reflexivity |]. cbn. rewrite grouped_pairs. cbn. f_equal. rewrite map_map. cbn.
  clear. induction ps as [| [k v] ps IH]; [reflexivity |]. cbn. now rewrite IH.
Qed.

(** Dictionaries *)
Definition strkey (k : pv) : Prop := exists s, k = PStr s.
Lemma key_eqb_spec k k' : strkey k -> strkey k' -> key_eqb F k k' = true <-> k = k'.
Proof. intros [s ->] [t ->]. cbn. rewrite str_eqb_spec. split; [intros ->; reflexivity | congruence]. Qed.
Lemma dict_set_keys d k v : strkey k -> Forall strkey (map fst d) -> (In k (map fst d) -> map fst (dict_set F d k v) = map fst d) /\
  (~ In k (map fst d) -> dict_set F d k v = d ++ [(k, v)]).
Proof.
  intros Hk. induction d as [| [k' v'] d IH]; intros Hd; cbn [map fst dict_set] in *; [split; [intros [] | reflexivity] |].
  inversion Hd as [| ? ? H1 H2]; subst. pose proof (key_eqb_spec k k' Hk H1) as Hs. destruct (key_eqb F k k').
  - assert (k = k') as -> by now apply Hs. split; [reflexivity |]. intros H. exfalso. apply H. now left.
  - assert (k <> k') by (intros Eq; apply Hs in Eq; discriminate). destruct (IH H2) as [I1 I2]. split.
    + intros [Eq | Hin]; [congruence |]. cbn. now rewrite I1.
    + intros H'. cbn. rewrite I2; [reflexivity |]. intros Hin. apply H'. now right.
Qed.
Lemma dict_set_in d k v : strkey k -> Forall strkey (map fst d) -> NoDup (map fst d) ->
  forall k' v', In (k', v') (dict_set F d k v) <-> (k' = k /\ v' = v) \/ (k' <> k /\ In (k', v') d).
Proof.
  intros Hk. induction d as [| [k0 v0] d IH]; intros Hd Hnd k' v'; cbn [map fst dict_set] in *.
  - cbn. split; [intros [H | []]; injection H as <- <-; now left | intros [[-> ->] | [_ []]]; now left].
  - inversion Hd as [| ? ? H1 H2]; subst. inversion Hnd as [| ? ? N1 N2]; subst. pose proof (key_eqb_spec k k0 Hk H1) as Hs. destruct (key_eqb F k k0).
    + assert (k = k0) as -> by now apply Hs. cbn. split.
      * intros [H | H]; [injection H as <- <-; now left |]. right. split; [| now right]. intros ->. apply N1. apply (in_map fst) in H. exact H.
      * intros [[-> ->] | [Hne [H | H]]]; [now left | injection H as <- <-; congruence | now right].
    + assert (k <> k0) by (intros Eq; apply Hs in Eq; discriminate). cbn. rewrite (IH H2 N2). split.
      * intros [H' | [H' | [H' H'']]]; [injection H' as <- <-; right; split; [congruence | now left] | now left | right; split; [exact H' | now right]].
      * intros [H' | [H' [H'' | H'']]]; [right; now left | now left | right; right; split; assumption].
Qed.
Lemma NoDup_app_one {X} (l : list X) x : NoDup l -> ~ In x l -> NoDup (l ++ [x]).
Proof. intros H Hn. apply (Permutation.Permutation_NoDup (l := x :: l)); [apply Permutation.Permutation_cons_append | now constructor]. Qed.
Lemma in_dec_keys k ks : strkey k -> Forall strkey ks -> In k ks \/ ~ In k ks.
Proof.
  intros Hk. induction 1 as [| x ks Hx Hks [IH | IH]]; [now right | left; now right |]. pose proof (key_eqb_spec k x Hk Hx) as Hs.
  destruct (key_eqb F k x); [left; left; symmetry; now apply Hs |]. right. intros [-> | H]; [| auto]. assert (false = true) by (apply Hs; reflexivity). discriminate.
Qed.
Lemma first_keys_nodup l ks : @first_keys F l ks -> NoDup ks /\ (forall k, In k ks <-> In k l).
Proof.
  induction 1 as [| l ks k H [IH1 IH2] Hn | l ks k H [IH1 IH2] Hn].
  - split; [constructor | tauto].
  - split.
    + apply NoDup_app_one; assumption.
    + intros x. rewrite !in_app_iff, IH2. tauto.
  - split; [exact IH1 |]. intros x. rewrite in_app_iff, IH2. cbn. split; [tauto |]. intros [Hx | [<- | []]]; [exact Hx | now apply IH2].
Qed.
Lemma dict_is l : forall done d, as_dict done d -> Forall strkey (map fst done) -> Forall strkey (map fst l) -> exists d', dict_from F d l = Some d' /\ as_dict (done ++ l) d'.
Proof.
  induction l as [| [k v] l IH]; intros done d Hd Hs Hl; [exists d; rewrite app_nil_r; split; [reflexivity | exact Hd] |].
  cbn [map fst] in Hl. inversion Hl as [| ? ? Hk Hl']; subst. cbn [dict_from]. assert (Hh : hashable F k = true) by (destruct Hk as [s ->]; reflexivity). rewrite Hh.
  destruct Hd as [Hf Hin]. pose proof (first_keys_nodup _ _ Hf) as [Hnd Hsame].
  assert (Hds : Forall strkey (map fst d)). { apply Forall_forall. intros x Hx. apply Hsame in Hx. rewrite Forall_forall in Hs. auto. }
  destruct (IH (done ++ [(k, v)]) (dict_set F d k v)) as (d' & E & H').
  - split.
    + rewrite map_app. cbn [map fst]. destruct (dict_set_keys d k v Hk Hds) as [K1 K2].
      destruct (in_dec_keys k (map fst d) Hk Hds) as [Hi | Hi].
      * rewrite (K1 Hi). now apply fk_old.
      * rewrite (K2 Hi), map_app. now apply fk_new.
    + intros k' v'. rewrite (dict_set_in d k v Hk Hds Hnd), Hin. split.
      * intros [[-> ->] | [Hne (a & b & -> & Hb)]]; [exists done, []; split; [reflexivity | intros []] |].
        exists a, (b ++ [(k, v)]). split; [now rewrite <- app_assoc |]. rewrite map_app, in_app_iff. cbn. intros [H | [H | []]]; [auto | congruence].
      * intros (a & b & Eq & Hb). destruct b as [| x b _] using rev_ind.
        -- apply app_inj_tail in Eq as [-> Eq]. injection Eq as -> ->. now left.
        -- rewrite app_comm_cons, app_assoc in Eq. apply app_inj_tail in Eq as [-> <-]. rewrite map_app, in_app_iff in Hb. cbn in Hb. right. split; [intros ->; tauto |].
           exists a, b. split; [reflexivity | tauto].
  - rewrite map_app. apply Forall_app. split; [exact Hs | repeat constructor; exact Hk].
  - exact Hl'.
  - exists d'. split; [exact E |]. rewrite <- app_assoc in H'. exact H'.
Qed.

(** ** The induction *)
Ltac assoc := repeat (progress (rewrite <- ?app_assoc; cbn [app])); reflexivity.

Lemma arr_value ns vs p : good (items ns) vs -> mcall JArray (items (ns ++ [Tok (Token p [93] ADelimiter None)])) = Some (PList vs).
Proof.
  intros H. rewrite items_app. pose proof (good_app _ _ _ _ H (good_delim p [93])) as [G1 G2]. rewrite app_nil_r in G2.
  unfold mcall, j_methods. cbn [m_call]. unfold call. cbn [TransformModel.il_items]. rewrite G1. unfold m_array. now rewrite G2.
Qed.
Lemma words_ctx1 (l : jlex) ns (t : tok jact) : words [Ctx l (ns ++ [Tok t])] = Enter l :: words ns ++ [Leaf t; Exit].
Proof. rewrite words_cons, word_ctx, words_app. cbn [words map concat word app]. rewrite <- !app_assoc, app_nil_r. reflexivity. Qed.

(** An opening character in the lexicon of a value. *)
Lemma open_run up l pre c lx i rest w new : valuelex l -> text = pre ++ c :: rest -> (i, c, lx) = (0, 123, JObject) \/ (i, c, lx) = (1, 91, JArray) ->
  reach (Cfg (up ++ [l]) w new [] (length pre))
    (Cfg (up ++ [l; lx]) (w ++ [Leaf (Token (length pre) [c] ADelimiter None); Enter lx]) 1 [] (length (pre ++ [c]))).
Proof.
  intros Hl E Hc.
  assert (Hf : found l pre ([c] ++ rest) = Some (i, 1) /\ exists p, nth_error (j_rules l) i = Some (p, SRule (AStd ADelimiter) [RLex lx])).
  { destruct Hc as [Hc | Hc]; injection Hc as -> -> ->; destruct Hl as [-> | [-> | ->]]; (split; [reflexivity | eexists; reflexivity]). }
  destruct Hf as (Hf & p & Hi).
  pose proof (step_target udigit uword uspace text up l pre [c] rest i p ADelimiter [RLex lx] 0 [lx] w new [] E Hf Hi eq_refl ltac:(lia)) as H.
  rewrite drop_last_0 in H. finish H.
Qed.
Lemma close_arr up l pre rest w new : text = pre ++ 93 :: rest ->
  reach (Cfg (up ++ [l; JArray]) w new [] (length pre)) (Cfg (up ++ [l]) (w ++ [Leaf (Token (length pre) [93] ADelimiter None); Exit]) 0 [] (length (pre ++ [93]))).
Proof.
  intros E.
  assert (Hf : found JArray pre ([93] ++ rest) = Some (6, 1)).
  { unfold JsonStepProofs.found, JsonModel.j_rules, values_rules, std. cbn [map fst app pick]. unfold p_constant. cbn -[at_bound]. destruct (at_bound _ _ _); reflexivity. }
  pose proof (step_target udigit uword uspace text (up ++ [l]) JArray pre [93] rest 6 (p_char 93) ADelimiter [RInt (-1)] 1 [] w new [] E Hf eq_refl eq_refl ltac:(rewrite app_length; cbn; lia)) as H.
  rewrite drop_last_app in H by (cbn; lia). change (drop_last 1 [JArray]) with (@nil jlex) in H. finish H.
Qed.
Lemma close_value up l pre rest w new : text = pre ++ 125 :: rest ->
  reach (Cfg (up ++ [l; JObject; JValue]) w new [] (length pre)) (Cfg (up ++ [l]) (w ++ [Leaf (Token (length pre) [125] ADelimiter None); Exit; Exit]) 0 [] (length (pre ++ [125]))).
Proof.
  intros E.
  assert (Hf : found JValue pre ([125] ++ rest) = Some (6, 1)).
  { unfold JsonStepProofs.found, JsonModel.j_rules, values_rules, std. cbn [map fst app pick]. unfold p_constant. cbn -[at_bound]. destruct (at_bound _ _ _); reflexivity. }
  pose proof (step_target udigit uword uspace text (up ++ [l; JObject]) JValue pre [125] rest 6 (p_char 125) ADelimiter [RInt (-2)] 2 [] w new [] E Hf eq_refl eq_refl ltac:(rewrite app_length; cbn; lia)) as H.
  replace ((up ++ [l; JObject]) ++ [JValue]) with ((up ++ [l]) ++ [JObject; JValue]) in H by now rewrite <- !app_assoc.
  rewrite drop_last_app in H by (cbn; lia). change (drop_last 2 [JObject; JValue]) with (@nil jlex) in H. finish H.
Qed.
Lemma next_value up pre rest w new : text = pre ++ 44 :: rest ->
  reach (Cfg (up ++ [JObject; JValue]) w new [] (length pre)) (Cfg (up ++ [JObject]) (w ++ [Leaf (Token (length pre) [44] ADelimiter None); Exit]) 0 [] (length (pre ++ [44]))).
Proof.
  intros E.
  assert (Hf : found JValue pre ([44] ++ rest) = Some (5, 1)).
  { unfold JsonStepProofs.found, JsonModel.j_rules, values_rules, std. cbn [map fst app pick]. unfold p_constant. cbn -[at_bound]. destruct (at_bound _ _ _); reflexivity. }
  pose proof (step_target udigit uword uspace text (up ++ [JObject]) JValue pre [44] rest 5 (p_char 44) ADelimiter [RInt (-1)] 1 [] w new [] E Hf eq_refl eq_refl ltac:(rewrite app_length; cbn; lia)) as H.
  rewrite drop_last_app in H by (cbn; lia). change (drop_last 1 [JValue]) with (@nil jlex) in H. finish H.
Qed.
Lemma next_item up pre rest w new : text = pre ++ 44 :: rest ->
  reach (Cfg (up ++ [JArray]) w new [] (length pre)) (Cfg (up ++ [JArray]) (w ++ [Leaf (Token (length pre) [44] ADelimiter None)]) 0 [] (length (pre ++ [44]))).
Proof.
  intros E.
  assert (Hf : found JArray pre ([44] ++ rest) = Some (5, 1)).
  { unfold JsonStepProofs.found, JsonModel.j_rules, values_rules, std. cbn [map fst app pick]. unfold p_constant. cbn -[at_bound]. destruct (at_bound _ _ _); reflexivity. }
  exact (step_item udigit uword uspace text up JArray pre [44] rest 5 (p_char 44) ADelimiter w new [] E Hf eq_refl).
Qed.
Lemma close_obj up l pre rest w new : text = pre ++ 125 :: rest ->
  reach (Cfg (up ++ [l; JObject]) w new [] (length pre)) (Cfg (up ++ [l]) (w ++ [Leaf (Token (length pre) [125] ADelimiter None); Exit]) 0 [] (length (pre ++ [125]))).
Proof.
  intros E.
  pose proof (step_target udigit uword uspace text (up ++ [l]) JObject pre [125] rest 0 (p_char 125) ADelimiter [RInt (-1)] 1 [] w new [] E eq_refl eq_refl eq_refl ltac:(rewrite app_length; cbn; lia)) as H.
  rewrite drop_last_app in H by (cbn; lia). change (drop_last 1 [JObject]) with (@nil jlex) in H. finish H.
Qed.

(** One member, without what follows its value. *)
Lemma member_run k kt v t : string_text false kt k -> value_spec v t -> forall a b c d, ws a -> ws b -> ws c -> ws d -> forall up pre e rest w new, In e [44; 125] ->
  text = pre ++ (a ++ (34 :: kt ++ [34]) ++ b ++ 58 :: c ++ t ++ d) ++ e :: rest ->
  exists kns vns pyv, same v pyv /\ mcall JKey (items kns) = Some (PStr k) /\ good (items vns) [pyv] /\
    reach (Cfg (up ++ [JObject]) w new [] (length pre))
      (Cfg (up ++ [JObject; JValue]) (w ++ word (Ctx JKey kns) ++ Enter JValue :: words vns) 0 [] (length (pre ++ (a ++ (34 :: kt ++ [34]) ++ b ++ 58 :: c ++ t ++ d)))).
Proof.
  intros Hk Hv a b c d Ha Hb Hc Hd up pre e rest w new He E.
  set (q := 34 :: kt ++ [34]) in *. set (r5 := d ++ e :: rest). set (r4 := t ++ r5). set (r3 := c ++ r4). set (r2 := 58 :: r3). set (r1 := b ++ r2).
  assert (E1 : text = pre ++ a ++ 34 :: (kt ++ [34]) ++ r1).
  { rewrite E. unfold r1, r2, r3, r4, r5, q. repeat (rewrite <- ?app_assoc; cbn [app]). reflexivity. }
  pose proof (obj_ws_run up a Ha pre 34 _ w new [] E1 eq_refl) as H1.
  assert (E2 : text = (pre ++ a) ++ 34 :: (kt ++ [34]) ++ r1) by (rewrite E1; assoc).
  destruct (step_default udigit uword uspace text up (pre ++ a) 34 _ w new E2 eq_refl) as (circ & H2).
  assert (E3 : text = (pre ++ a) ++ q ++ r1) by exact E2.
  destruct (quoted_run kt k Hk (up ++ [JObject]) JKey (pre ++ a) r1 (w ++ [Enter JKey]) (new + 1) circ (or_introl eq_refl) E3) as (cs & Hcs & H3). fold q in H3.
  set (w3 := (w ++ [Enter JKey]) ++ words [Tok (Token (length (pre ++ a)) [34] AStringStart None); Ctx JString cs]) in *.
  assert (E4 : text = ((pre ++ a) ++ q) ++ b ++ r2) by (rewrite E3; assoc).
  pose proof (ws_run (up ++ [JObject]) JKey b (or_intror (or_introl eq_refl)) Hb _ _ w3 0 [] E4) as H4.
  assert (E5 : text = (((pre ++ a) ++ q) ++ b) ++ [58] ++ r3) by (rewrite E4; assoc).
  pose proof (step_target udigit uword uspace text (up ++ [JObject]) JKey (((pre ++ a) ++ q) ++ b) [58] r3 1 (p_char 58) ADelimiter [RInt (-1); RLex JValue] 1 [JValue] w3 0 [] E5 eq_refl eq_refl eq_refl
    ltac:(rewrite app_length; cbn; lia)) as H5.
  rewrite drop_last_app in H5 by (cbn; lia). change (drop_last 1 [JKey]) with (@nil jlex) in H5. rewrite app_nil_r in H5.
  set (p5 := (((pre ++ a) ++ q) ++ b) ++ [58]) in *. set (w5 := w3 ++ _) in H5.
  assert (E6 : text = p5 ++ c ++ r4) by (rewrite E5; unfold p5; assoc).
  pose proof (ws_run (up ++ [JObject]) JValue c (or_intror (or_intror (or_introl eq_refl))) Hc _ _ w5 1 [] E6) as H6.
  assert (E7 : text = (p5 ++ c) ++ t ++ r5) by (rewrite E6; assoc).
  destruct (Hv (up ++ [JObject]) JValue (p5 ++ c) r5 w5 1 (or_intror (or_introl eq_refl)) E7) as (vns & pyv & Hsame & Hgood & H7).
  { apply prevok_ws; [apply prevok_char; cbn; auto | exact Hc]. }
  { apply follow_ws; [exact Hd |]. cbn in *. tauto. }
  assert (E8 : text = ((p5 ++ c) ++ t) ++ d ++ e :: rest) by (rewrite E7; assoc).
  pose proof (ws_run (up ++ [JObject]) JValue d (or_intror (or_intror (or_introl eq_refl))) Hd _ _ (w5 ++ words vns) 0 [] E8) as H8.
  exists [Tok (Token (length (pre ++ a)) [34] AStringStart None); Ctx JString cs; Tok (Token (length (((pre ++ a) ++ q) ++ b)) [58] ADelimiter None)], vns, pyv.
  split; [exact Hsame |]. split; [| split; [exact Hgood |]].
  - match goal with |- mcall JKey ?x = _ => change x with (items [Tok (Token (length (pre ++ a)) [34] AStringStart None)] ++ items [Ctx JString cs] ++
      items [Tok (Token (length (((pre ++ a) ++ q) ++ b)) [58] ADelimiter None)]) end. rewrite items_ctx, Hcs. reflexivity.
  - chain H1. chain H2. chain H3. chain H4. chain H5. chain H6. chain H7. eapply reach_last; [exact H8 | f_equal; norm |]. f_equal.
    + now rewrite <- app_assoc.
    + unfold w5, w3. rewrite word_ctx, !words_cons. cbn [word words map concat repeat]. repeat (rewrite <- ?app_assoc, ?app_nil_r; cbn [app map]). reflexivity.
    + f_equal. unfold p5. repeat (rewrite <- ?app_assoc; cbn [app]). reflexivity.
Qed.

Lemma key_item kns k : mcall JKey (items kns) = Some (PStr k) -> items [Ctx JKey kns] = [IObj JKey (Some (PStr k))].
Proof. intros H. now rewrite items_ctx, H. Qed.
Lemma value_item vns pyv p t : good (items vns) [pyv] -> items [Ctx JValue (vns ++ [Tok (Token p t ADelimiter None)])] = [IObj JValue (Some pyv)].
Proof.
  intros H. rewrite items_ctx, items_app. pose proof (good_app _ _ _ _ H (good_delim p t)) as [G1 G2]. cbn [app] in G2.
  unfold mcall, j_methods. cbn [m_call]. unfold call. cbn [TransformModel.il_items]. rewrite G1, (first_of _ _ _ G2). reflexivity.
Qed.

Theorem json_runs : (forall v t, json_text false v t -> value_spec v t) /\ (forall l t, json_items false l t -> items_spec l t) /\
  (forall l t, json_members false l t -> members_spec l t).
Proof.
  apply (json_all_ind false (fun v t _ => value_spec v t) (fun l t _ => items_spec l t) (fun l t _ => members_spec l t)).
  - apply (const_run JNull PNone); [constructor | cbn; auto | reflexivity].
  - apply (const_run (JBool true) (PBool true)); [constructor | cbn; auto | reflexivity].
  - apply (const_run (JBool false) (PBool false)); [constructor | cbn; auto | reflexivity].
  - intros n Hn. now apply num_run.
  - intros s t Hst up l pre rest w new Hl E Hp Hr.
    destruct (quoted_run t s Hst up l pre rest w new [] (or_intror Hl) E) as (cs & Hcs & H). exists [Tok (Token (length pre) [34] AStringStart None); Ctx JString cs], (PStr s).
    split; [constructor |]. split; [| exact H]. apply (good_app (items [Tok (Token (length pre) [34] AStringStart None)]) (items [Ctx JString cs]) [] [PStr s]); [apply good_start | now apply good_ctx].
  - intros a Ha up l pre rest w new Hl E Hp Hr.
    assert (E1 : text = pre ++ 91 :: (a ++ [93]) ++ rest) by exact E.
    pose proof (open_run up l pre 91 JArray 1 _ w new Hl E1 (or_intror eq_refl)) as H1.
    assert (E2 : text = (pre ++ [91]) ++ a ++ 93 :: rest) by (rewrite E1; assoc).
    pose proof (ws_run (up ++ [l]) JArray a (or_intror (or_intror (or_intror eq_refl))) Ha _ _ (w ++ [Leaf (Token (length pre) [91] ADelimiter None); Enter JArray]) 1 [] E2) as H2.
    assert (E3 : text = ((pre ++ [91]) ++ a) ++ 93 :: rest) by (rewrite E2; assoc).
    pose proof (close_arr up l _ _ (w ++ [Leaf (Token (length pre) [91] ADelimiter None); Enter JArray]) 1 E3) as H3.
    exists [Tok (Token (length pre) [91] ADelimiter None); Ctx JArray ([] ++ [Tok (Token (length ((pre ++ [91]) ++ a)) [93] ADelimiter None)])], (PList []).
    split; [repeat constructor |]. split.
    + apply (good_app (items [Tok _]) (items [Ctx JArray _]) [] [PList []]); [apply good_delim | apply good_ctx, arr_value; split; reflexivity].
    + chain H1. chain H2. eapply reach_last; [exact H3 | f_equal; norm |]. f_equal; [| f_equal; norm]. rewrite words_cons, words_ctx1. cbn [word words map concat]. norm.
  - intros ls t _ IH up l pre rest w new Hl E Hp Hr.
    assert (E1 : text = pre ++ 91 :: (t ++ [93]) ++ rest) by exact E.
    pose proof (open_run up l pre 91 JArray 1 _ w new Hl E1 (or_intror eq_refl)) as H1. set (w1 := w ++ [_; _]) in H1.
    assert (E2 : text = (pre ++ [91]) ++ t ++ 93 :: rest) by (rewrite E1; assoc).
    destruct (IH (up ++ [l]) (pre ++ [91]) rest w1 1 E2 (prevok_char _ _ ltac:(cbn; auto))) as (ns & vs & Hs & Hg & H2).
    assert (E3 : text = ((pre ++ [91]) ++ t) ++ 93 :: rest) by (rewrite E2; assoc).
    pose proof (close_arr up l _ _ (w1 ++ words ns) 0 E3) as H3.
    exists [Tok (Token (length pre) [91] ADelimiter None); Ctx JArray (ns ++ [Tok (Token (length ((pre ++ [91]) ++ t)) [93] ADelimiter None)])], (PList vs).
    split; [now constructor |]. split.
    + apply (good_app (items [Tok _]) (items [Ctx JArray _]) [] [PList vs]); [apply good_delim | apply good_ctx, arr_value; exact Hg].
    + chain H1. chain H2. eapply reach_last; [exact H3 | f_equal; norm |]. f_equal; [| f_equal; norm]. rewrite words_cons, words_ctx1. unfold w1. cbn [word]. norm.
  - intros a Ha up l pre rest w new Hl E Hp Hr.
    assert (E1 : text = pre ++ 123 :: (a ++ [125]) ++ rest) by exact E.
    pose proof (open_run up l pre 123 JObject 0 _ w new Hl E1 (or_introl eq_refl)) as H1. set (w1 := w ++ [_; _]) in H1.
    assert (E2 : text = (pre ++ [123]) ++ a ++ 125 :: rest) by (rewrite E1; assoc).
    pose proof (obj_ws_run (up ++ [l]) a Ha _ _ _ w1 1 [] E2 eq_refl) as H2.
    assert (E3 : text = ((pre ++ [123]) ++ a) ++ 125 :: rest) by (rewrite E2; assoc).
    pose proof (close_obj up l _ _ w1 1 E3) as H3.
    exists [Tok (Token (length pre) [123] ADelimiter None); Ctx JObject ([] ++ [Tok (Token (length ((pre ++ [123]) ++ a)) [125] ADelimiter None)])], (PDict []).
    split.
    { apply (same_obj F float_of is_integer [] [] []); [constructor |]. split; [constructor |]. intros k v. split; [intros [] |]. intros (x & y & Eq & _). destruct x; discriminate. }
    split.
    + apply (good_app (items [Tok _]) (items [Ctx JObject _]) [] [PDict []]); [apply good_delim | apply good_ctx; reflexivity].
    + chain H1. chain H2. eapply reach_last; [exact H3 | f_equal; norm |]. f_equal; [| f_equal; norm]. rewrite words_cons, words_ctx1. unfold w1. cbn [word words map concat]. norm.
  - intros ms t _ IH up l pre rest w new Hl E Hp Hr.
    assert (E1 : text = pre ++ 123 :: (t ++ [125]) ++ rest) by exact E.
    pose proof (open_run up l pre 123 JObject 0 _ w new Hl E1 (or_introl eq_refl)) as H1. set (w1 := w ++ [_; _]) in H1.
    assert (E2 : text = (pre ++ [123]) ++ t ++ 125 :: rest) by (rewrite E1; assoc).
    destruct (IH up l (pre ++ [123]) rest w1 1 E2) as (ns & ps & Hs & Hr' & Hi & H2).
    destruct (dict_is ps [] []) as (d & Hd & Has).
    { split; [constructor |]. intros k v. split; [intros [] |]. intros (x & y & Eq & _). destruct x; discriminate. }
    { constructor. }
    { clear - Hs. induction Hs as [| x p ms ps [Hk _] _ IHs]; constructor; [eexists; exact Hk | exact IHs]. }
    exists [Tok (Token (length pre) [123] ADelimiter None); Ctx JObject ns], (PDict d). split; [eapply same_obj; eassumption |]. split.
    + apply (good_app (items [Tok _]) (items [Ctx JObject _]) [] [PDict d]); [apply good_delim | apply good_ctx].
      unfold mcall, j_methods. cbn [m_call]. unfold call. cbn [TransformModel.il_items]. rewrite Hr'. unfold m_object. rewrite (grouped_is ps _ Hi), Hd. reflexivity.
    + chain H1. eapply reach_last; [exact H2 | f_equal; norm |]. f_equal; [| f_equal; norm]. rewrite !words_cons, word_ctx. unfold w1. cbn [word words map concat]. norm.
  - intros v a t b Ha _ IH Hb up pre rest w new E Hp.
    assert (E1 : text = pre ++ a ++ t ++ b ++ 93 :: rest) by (rewrite E; assoc).
    pose proof (ws_run up JArray a (or_intror (or_intror (or_intror eq_refl))) Ha _ _ w new [] E1) as H1.
    assert (E2 : text = (pre ++ a) ++ t ++ b ++ 93 :: rest) by (rewrite E1; assoc).
    destruct (IH up JArray (pre ++ a) _ w new (or_intror (or_intror eq_refl)) E2 (prevok_ws _ _ Hp Ha)) as (ns & pyv & Hs & Hg & H2).
    { apply follow_ws; [exact Hb |]. cbn. tauto. }
    assert (E3 : text = ((pre ++ a) ++ t) ++ b ++ 93 :: rest) by (rewrite E2; assoc).
    pose proof (ws_run up JArray b (or_intror (or_intror (or_intror eq_refl))) Hb _ _ (w ++ words ns) 0 [] E3) as H3.
    exists ns, [pyv]. split; [repeat constructor; exact Hs |]. split; [exact Hg |]. chain H1. chain H2. finish H3.
  - intros v a t b l u Ha _ IH Hb _ IHl up pre rest w new E Hp.
    assert (E1 : text = pre ++ a ++ t ++ b ++ 44 :: u ++ 93 :: rest) by (rewrite E; assoc).
    pose proof (ws_run up JArray a (or_intror (or_intror (or_intror eq_refl))) Ha _ _ w new [] E1) as H1.
    assert (E2 : text = (pre ++ a) ++ t ++ b ++ 44 :: u ++ 93 :: rest) by (rewrite E1; assoc).
    destruct (IH up JArray (pre ++ a) _ w new (or_intror (or_intror eq_refl)) E2 (prevok_ws _ _ Hp Ha)) as (ns & pyv & Hs & Hg & H2).
    { apply follow_ws; [exact Hb |]. cbn. tauto. }
    assert (E3 : text = ((pre ++ a) ++ t) ++ b ++ 44 :: u ++ 93 :: rest) by (rewrite E2; assoc).
    pose proof (ws_run up JArray b (or_intror (or_intror (or_intror eq_refl))) Hb _ _ (w ++ words ns) 0 [] E3) as H3.
    assert (E4 : text = (((pre ++ a) ++ t) ++ b) ++ 44 :: u ++ 93 :: rest) by (rewrite E3; assoc).
    pose proof (next_item up _ _ (w ++ words ns) 0 E4) as H4. set (p4 := ((pre ++ a) ++ t) ++ b) in *.
    assert (E5 : text = (p4 ++ [44]) ++ u ++ 93 :: rest) by (rewrite E4; assoc).
    destruct (IHl up (p4 ++ [44]) rest ((w ++ words ns) ++ [Leaf (Token (length p4) [44] ADelimiter None)]) 0 E5 (prevok_char p4 44 (or_introl eq_refl))) as (ns' & vs & Hs' & Hg' & H5).
    exists (ns ++ [Tok (Token (length p4) [44] ADelimiter None)] ++ ns'), (pyv :: vs). split; [now constructor |]. split.
    + rewrite !items_app. apply (good_app _ _ [pyv] vs Hg). apply (good_app _ _ [] vs (good_delim _ _) Hg').
    + chain H1. chain H2. chain H3. chain H4. eapply reach_last; [exact H5 | f_equal; norm |]. f_equal; [| unfold p4; f_equal; norm].
      rewrite !words_app. cbn [words map concat word]. norm.
  - intros k a kt b v c t d Ha Hk Hb Hc _ IH Hd up u pre rest w new E.
    destruct (member_run k kt v t Hk IH a b c d Ha Hb Hc Hd (up ++ [u]) pre 125 rest w new ltac:(cbn; auto) E) as (kns & vns & pyv & Hs & Hkv & Hg & H1).
    set (m := a ++ _) in *.
    assert (E2 : text = (pre ++ m) ++ 125 :: rest) by (rewrite E; assoc).
    pose proof (close_value up u _ _ (w ++ word (Ctx JKey kns) ++ Enter JValue :: words vns) 0 E2) as H2.
    exists [Ctx JKey kns; Ctx JValue (vns ++ [Tok (Token (length (pre ++ m)) [125] ADelimiter None)])], [(PStr k, pyv)].
    split; [repeat constructor; exact Hs |].
    pose proof (items_app [Ctx JKey kns] [Ctx JValue (vns ++ [Tok (Token (length (pre ++ m)) [125] ADelimiter None)])]) as Ei. cbn [app] in Ei.
    rewrite Ei, (key_item _ _ Hkv), (value_item _ _ _ _ Hg). split; [reflexivity |]. split; [reflexivity |].
    chain H1. eapply reach_last; [exact H2 | f_equal; norm |]. f_equal; [| f_equal; norm].
    rewrite words_cons, words_ctx1. norm.
  - intros k a kt b v c t d l u' Ha Hk Hb Hc _ IH Hd _ IHl up u pre rest w new E.
    assert (E0 : text = pre ++ (a ++ (34 :: kt ++ [34]) ++ b ++ 58 :: c ++ t ++ d) ++ 44 :: u' ++ 125 :: rest) by (rewrite E; assoc).
    destruct (member_run k kt v t Hk IH a b c d Ha Hb Hc Hd (up ++ [u]) pre 44 _ w new ltac:(cbn; auto) E0) as (kns & vns & pyv & Hs & Hkv & Hg & H1).
    assert (Em : forall x, a ++ (34 :: kt ++ [34]) ++ b ++ 58 :: c ++ t ++ d ++ 44 :: x = (a ++ (34 :: kt ++ [34]) ++ b ++ 58 :: c ++ t ++ d) ++ 44 :: x)
      by (intros x; assoc).
    rewrite Em in *. set (m := a ++ (34 :: kt ++ [34]) ++ b ++ 58 :: c ++ t ++ d) in *.
    assert (E2 : text = (pre ++ m) ++ 44 :: u' ++ 125 :: rest) by (rewrite E0; assoc).
    pose proof (next_value (up ++ [u]) _ _ (w ++ word (Ctx JKey kns) ++ Enter JValue :: words vns) 0 E2) as H2.
    set (w2 := (w ++ word (Ctx JKey kns) ++ Enter JValue :: words vns) ++ [_; _]) in H2.
    assert (E3 : text = ((pre ++ m) ++ [44]) ++ u' ++ 125 :: rest) by (rewrite E2; assoc).
    destruct (IHl up u ((pre ++ m) ++ [44]) rest w2 0 E3) as (ns & ps & Hs' & Hr' & Hi & H3).
    exists ([Ctx JKey kns] ++ [Ctx JValue (vns ++ [Tok (Token (length (pre ++ m)) [44] ADelimiter None)])] ++ ns), ((PStr k, pyv) :: ps).
    split; [constructor; [split; [reflexivity | exact Hs] | exact Hs'] |].
    rewrite !items_app, (key_item _ _ Hkv), (value_item _ _ _ _ Hg). cbn [app]. split; [exact Hr' |]. split; [transitivity ((JKey, PStr k) :: (JValue, pyv) :: ItemListModel.il_items (map (entry_of F) (items ns))); [reflexivity | now rewrite Hi] |].
    chain H1. chain H2. eapply reach_last; [exact H3 | f_equal; norm |]. f_equal; [| f_equal; norm].
    cbn [app]. rewrite words_cons. change (Ctx JValue (vns ++ [Tok (Token (length (pre ++ m)) [44] ADelimiter None)]) :: ns) with ([Ctx JValue (vns ++ [Tok (Token (length (pre ++ m)) [44] ADelimiter None)])] ++ ns).
    rewrite words_app, words_ctx1. unfold w2. norm.
Qed.
End Runs.
