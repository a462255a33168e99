(** Proofs about numbers in Scheme. *)
From Coq Require Import ZArith ZifyBool QArith Qpower.
From Verif Require Import Base BaseFacts SchemeModel SchemeSpec.
Local Open Scope nat_scope.

(** ** Digits *)
Lemma digit_val_char d : d_val d < 16 -> digit_val (d_char d) = Some (d_val d).
Proof.
  intros H. unfold digit_val, d_char. destruct (d_val d <? 10) eqn:E.
  - replace ((48 <=? 48 + d_val d) && (48 + d_val d <=? 57)) with true by lia. f_equal. lia.
  - destruct (d_upper d).
    + replace ((48 <=? 55 + d_val d) && (55 + d_val d <=? 57)) with false by lia. replace ((97 <=? 55 + d_val d) && (55 + d_val d <=? 102)) with false by lia.
      replace ((65 <=? 55 + d_val d) && (55 + d_val d <=? 70)) with true by lia. f_equal. lia.
    + replace ((48 <=? 87 + d_val d) && (87 + d_val d <=? 57)) with false by lia. replace ((97 <=? 87 + d_val d) && (87 + d_val d <=? 102)) with true by lia. f_equal. lia.
Qed.
Lemma is_digit_char r d : r <= 16 -> d_val d < r -> is_digit r (d_char d) = true.
Proof. intros H1 H2. unfold is_digit. rewrite digit_val_char by lia. lia. Qed.
(** A digit is none of the other characters. *)
Lemma is_digit_range r c : is_digit r c = true -> 48 <= c <= 57 \/ 65 <= c <= 70 \/ 97 <= c <= 102.
Proof.
  unfold is_digit, digit_val. destruct ((48 <=? c) && (c <=? 57)) eqn:E1; [lia|]. destruct ((97 <=? c) && (c <=? 102)) eqn:E2; [lia|].
  destruct ((65 <=? c) && (c <=? 70)) eqn:E3; [lia|discriminate].
Qed.
Lemma is_digit10 c : is_digit 10 c = (48 <=? c) && (c <=? 57).
Proof.
  unfold is_digit, digit_val. destruct ((48 <=? c) && (c <=? 57)) eqn:E1; [lia|]. destruct ((97 <=? c) && (c <=? 102)) eqn:E2; [lia|].
  destruct ((65 <=? c) && (c <=? 70)) eqn:E3; [lia|reflexivity].
Qed.

Lemma digits_val_text r : r <= 16 -> forall ds acc, digits_of r ds -> digits_val r acc (text ds) = Some (acc * Z.of_nat r ^ Z.of_nat (length ds) + val r ds)%Z.
Proof.
  intros Hr. induction ds as [|d ds IH]; intros acc H; [cbn; f_equal; lia|]. inversion H as [|? ? H1 H2]; subst.
  cbn [text map digits_val]. rewrite digit_val_char by lia. replace (d_val d <? r) with true by lia. fold (text ds). rewrite IH by exact H2. f_equal.
  cbn [length val]. rewrite Nat2Z.inj_succ, Z.pow_succ_r by lia. lia.
Qed.
Lemma py_int_text r ds : r <= 16 -> ds <> [] -> digits_of r ds -> py_int r (text ds) = Some (val r ds).
Proof.
  intros Hr Hn H. unfold py_int. destruct ds as [|d ds]; [congruence|]. cbn [text map]. change (d_char d :: map d_char ds) with (text (d :: ds)).
  rewrite digits_val_text by assumption. reflexivity.
Qed.

Lemma span_app p (a b : str) : Forall (fun c => p c = true) a -> match b with [] => True | c :: _ => p c = false end -> span p (a ++ b) = length a.
Proof.
  intros Ha Hb. induction Ha as [|c a Hc Ha IH]; cbn [app length span].
  - destruct b as [|c b]; [reflexivity|]. cbn [span]. rewrite Hb. reflexivity.
  - rewrite Hc. f_equal. exact IH.
Qed.
Lemma text_digits r ds : r <= 16 -> digits_of r ds -> Forall (fun c => is_digit r c = true) (text ds).
Proof. intros Hr H. unfold text. apply Forall_map. eapply Forall_impl; [|exact H]. intros d Hd. apply is_digit_char; assumption. Qed.
Lemma text_length ds : length (text ds) = length ds.
Proof. apply map_length. Qed.
Lemma text_nil ds : text ds = [] -> ds = [].
Proof. destruct ds; [reflexivity|discriminate]. Qed.

(** ** Lexing *)
Definition lexn (r : nat) (s : str) : list tok := num_lex (length s) r s.

Lemma step_pos r s ts k : num_step r s = Some (ts, k) -> 0 < k.
Proof.
  unfold num_step. destruct s as [|c s']; [discriminate|]. cbv zeta.
  repeat match goal with
  | |- (if ?b then _ else _) = _ -> _ => destruct b eqn:?
  | |- match ?x with _ => _ end = _ -> _ => destruct x eqn:?
  end; intros E; try discriminate; injection E as _ <-; try lia.
  all: match goal with H : (0 <? _) = true |- _ => apply Nat.ltb_lt in H; exact H end.
Qed.
Lemma fuel_irrelevant r : forall f g s, length s <= f -> length s <= g -> num_lex f r s = num_lex g r s.
Proof.
  induction f as [|f IH]; intros g s Hf Hg.
  - destruct s; [|cbn in Hf; lia]. destruct g; reflexivity.
  - destruct s as [|c s']; [destruct g; reflexivity|]. destruct g as [|g]; [cbn in Hg; lia|]. cbn [num_lex]. cbn [length] in Hf, Hg.
    destruct (right_bound (c :: s')); [reflexivity|]. destruct (num_step r (c :: s')) as [(ts, k)|] eqn:E.
    + apply step_pos in E. f_equal. apply IH; rewrite skipn_length; cbn [length]; lia.
    + f_equal. apply IH; lia.
Qed.
Lemma lexn_step r s ts k : right_bound s = false -> num_step r s = Some (ts, k) -> lexn r s = ts ++ lexn r (skipn k s).
Proof.
  intros Hb E. unfold lexn at 1. destruct s as [|c s']; [discriminate|]. cbn [length num_lex]. rewrite Hb, E. f_equal.
  apply step_pos in E. apply fuel_irrelevant; rewrite skipn_length; cbn [length]; lia.
Qed.
Lemma lexn_bound r s : right_bound s = true -> lexn r s = [].
Proof. intros H. unfold lexn. destruct s as [|c s]; [reflexivity|]. cbn [length num_lex]. rewrite H. reflexivity. Qed.

Lemma delimited_bound after : delimited after -> right_bound after = true.
Proof. destruct after as [|c after]; [reflexivity|]. cbn. unfold is_space. intros H. repeat destruct H as [<- | H]; try reflexivity. destruct H. Qed.
Lemma delimited_no after p : delimited after -> (forall c, In c [32; 9; 10; 13; 40; 41; 59] -> p c = false) -> match after with [] => True | c :: _ => p c = false end.
Proof. destruct after as [|c after]; [auto|]. cbn. auto. Qed.

Lemma no_bound c s : 43 <= c <= 57 \/ 64 <= c <= 122 -> right_bound (c :: s) = false.
Proof.
  intros H. unfold right_bound, is_one_of, is_space, is_one_of. cbn [existsb].
  replace (c =? 40) with false by lia. replace (c =? 41) with false by lia. replace (c =? 59) with false by lia. replace (c =? 35) with false by lia. cbn. lia.
Qed.

Definition dig (r : nat) (ds : list digit) (g : bool) : tok := Tok (ADigits r) (text ds) g.

Lemma lex_digits r ds rest : r <= 16 -> ds <> [] -> digits_of r ds -> match rest with [] => True | c :: _ => is_digit r c = false end ->
  lexn r (text ds ++ rest) = dig r ds false :: lexn r rest.
Proof.
  intros Hr Hn Hd Hrest. pose proof (text_digits r ds Hr Hd) as F. pose proof (span_app (is_digit r) (text ds) rest F Hrest) as Es.
  destruct (text ds) as [|c t] eqn:Et; [apply text_nil in Et; congruence|].
  assert (Hc : is_digit r c = true) by (inversion F; assumption). pose proof (is_digit_range r c Hc) as Hrg.
  assert (E : num_step r ((c :: t) ++ rest) = Some ([dig r ds false], length (c :: t))).
  { cbn [app]. unfold num_step. change (c :: t ++ rest) with ((c :: t) ++ rest). rewrite Es. cbv zeta. replace (0 <? length (c :: t)) with true by (cbn [length]; lia).
    rewrite firstn_app, Nat.sub_diag, firstn_O, app_nil_r, firstn_all. unfold dig. rewrite Et. reflexivity. }
  assert (Hb : right_bound ((c :: t) ++ rest) = false) by (cbn [app]; apply no_bound; lia).
  rewrite (lexn_step r _ _ _ Hb E).
  rewrite skipn_app, skipn_all, Nat.sub_diag. reflexivity.
Qed.

Lemma lex_one r c rest a : num_step r (c :: rest) = Some ([Tok a [c] false], 1) -> right_bound (c :: rest) = false -> lexn r (c :: rest) = Tok a [c] false :: lexn r rest.
Proof. intros E H. rewrite (lexn_step r _ _ _ H E). reflexivity. Qed.

Lemma special_no w f c s : ~ In c [43; 45] -> special w f (c :: s) = false.
Proof.
  intros H. unfold special. destruct s as [|a [|b [|d [|x [|z s]]]]]; try reflexivity. unfold is_one_of. cbn [existsb].
  replace (c =? 43) with false by (cbn in H; lia). replace (c =? 45) with false by (cbn in H; lia). reflexivity.
Qed.

(** A sign before a digit or a dot. *)
Lemma special_sign w f c d s : (forall x y, w = x :: y -> 103 <= x) -> w <> [] -> (48 <= d <= 57 \/ d = 46 \/ 65 <= d <= 70 \/ 97 <= d <= 102) -> special w f (c :: d :: s) = false.
Proof.
  intros Hw Hn Hd. unfold special. destruct s as [|b [|e [|x [|z s]]]]; try reflexivity. destruct w as [|w0 w]; [congruence|]. specialize (Hw _ _ eq_refl).
  assert (E : str_eqb (if f then map lower [d; b; e] else [d; b; e]) (w0 :: w) = false).
  { destruct f; cbn [map str_eqb list_eqb]; unfold str_eqb; cbn [list_eqb].
    - unfold lower at 1. destruct ((65 <=? d) && (d <=? 90)) eqn:E; (replace (Nat.eqb _ w0) with false by lia); reflexivity.
    - replace (d =? w0) with false by lia. reflexivity. }
  rewrite E. rewrite andb_false_r. reflexivity.
Qed.

(** *** The pieces of a number *)
Definition radices (r : nat) : Prop := r = 2 \/ r = 8 \/ r = 10 \/ r = 16.

Lemma lex_slash r rest : lexn r (47 :: rest) = Tok AFrac [47] false :: lexn r rest.
Proof.
  apply lex_one; [|apply no_bound; lia]. unfold num_step. cbn [span is_digit digit_val Nat.leb andb Nat.ltb]. rewrite !special_no by (cbn; lia).
  cbv zeta. cbn -[special span Nat.eqb]. rewrite !andb_false_r. reflexivity.
Qed.
Lemma lex_dot rest : lexn 10 (46 :: rest) = Tok ADot [46] false :: lexn 10 rest.
Proof.
  apply lex_one; [|apply no_bound; lia]. unfold num_step. cbn [span is_digit digit_val Nat.leb andb Nat.ltb]. rewrite !special_no by (cbn; lia). reflexivity.
Qed.
Lemma exp_char m : In (lower m) [101; 115; 102; 100; 108] -> (100 <= m <= 115 /\ m <> 105) \/ (68 <= m <= 83 /\ m <> 73).
Proof. unfold lower. destruct ((65 <=? m) && (m <=? 90)) eqn:E; cbn; lia. Qed.
Definition exp_toks (m : nat) (s : option sign) : list tok :=
  match s with None => [Tok AExp [m] false] | _ => [Tok AExp [m] true; Tok ASign (sign_text s) true] end.
Lemma lex_exp m s e rest : In (lower m) [101; 115; 102; 100; 108] -> e <> [] -> digits_of 10 e ->
  lexn 10 (m :: sign_text s ++ text e ++ rest) = exp_toks m s ++ lexn 10 (text e ++ rest).
Proof.
  intros Hm Hn He. pose proof (exp_char m Hm) as Hc.
  destruct (text e) as [|c t] eqn:Et; [apply text_nil in Et; congruence|].
  pose proof (text_digits 10 e ltac:(lia) He) as F. rewrite Et in F. inversion F as [|? ? F1 _]; subst. rewrite is_digit10 in F1.
  assert (Hb : right_bound (m :: sign_text s ++ (c :: t) ++ rest) = false) by (apply no_bound; lia).
  assert (E : num_step 10 (m :: sign_text s ++ (c :: t) ++ rest) = Some (exp_toks m s, match s with None => 1 | _ => 2 end)).
  { unfold num_step. cbn [span]. rewrite is_digit10. replace ((48 <=? m) && (m <=? 57)) with false by lia. cbn [Nat.ltb Nat.leb].
    rewrite !special_no by (cbn; lia). unfold is_one_of at 1. cbn [existsb]. replace (m =? 43) with false by lia. replace (m =? 45) with false by lia. cbn [orb].
    assert (Hi : lower m =? 105 = false) by (cbn in Hm; lia). rewrite Hi.
    assert (Hx : is_one_of [101; 115; 102; 100; 108] (lower m) = true) by (unfold is_one_of; apply existsb_exists; exists (lower m); split; [exact Hm|apply Nat.eqb_refl]).
    rewrite Hx. cbn [Nat.eqb andb]. destruct s as [[|]|]; cbn [sign_text app is_one_of existsb Nat.eqb orb]; [reflexivity|reflexivity|].
    replace (c =? 43) with false by lia. replace (c =? 45) with false by lia. reflexivity. }
  rewrite (lexn_step 10 _ _ _ Hb E). f_equal. destruct s as [[|]|]; reflexivity.
Qed.

(** The tokens of a number without prefix and sign; [g]: the first tokens are a group. *)
Definition body_toks (g : bool) (r : nat) (b : body) : list tok :=
  match b with
  | BInt ds _ => [dig r ds false]
  | BRatio n d _ _ => [dig r n false; Tok AFrac [47] false; dig r d false]
  | BDec ds frac exp =>
      match ds with [] => [] | _ => [dig r ds false] end
      ++ match frac with
         | Some f => let g := match ds with [] => g | _ => false end in Tok ADot [46] g :: match f with [] => [] | _ => [dig r f g] end
         | None => []
         end
      ++ match exp with Some (m, s, e) => exp_toks m s ++ [dig r e false] | None => [] end
  end.

Definition stop (r : nat) (rest : str) : Prop := match rest with [] => True | c :: _ => is_digit r c = false end.
Lemma delimited_stop r after : delimited after -> stop r after.
Proof.
  intros Ha. apply (delimited_no after (is_digit r) Ha). intros c Hc. destruct (is_digit r c) eqn:E; [|reflexivity]. apply is_digit_range in E. cbn in Hc. lia.
Qed.
Lemma exp_part_head exp rest : (match exp with Some (m, _, e) => In (lower m) [101; 115; 102; 100; 108] /\ e <> [] /\ digits_of 10 e | None => True end) -> stop 10 rest ->
  stop 10 (match exp with Some (m, s, e) => m :: sign_text s ++ text e | None => [] end ++ rest).
Proof.
  intros He Ha. destruct exp as [((m, s), e)|]; cbn [app]; [|exact Ha].
  destruct He as (Hm & _ & _). apply exp_char in Hm. unfold stop. rewrite is_digit10. lia.
Qed.
Lemma lex_exp_part exp rest : (match exp with Some (m, _, e) => In (lower m) [101; 115; 102; 100; 108] /\ e <> [] /\ digits_of 10 e | None => True end) -> stop 10 rest ->
  lexn 10 (match exp with Some (m, s, e) => m :: sign_text s ++ text e | None => [] end ++ rest)
  = match exp with Some (m, s, e) => exp_toks m s ++ [dig 10 e false] | None => [] end ++ lexn 10 rest.
Proof.
  intros He Ha. destruct exp as [((m, s), e)|]; cbn [app]; [|reflexivity].
  destruct He as (Hm & Hn & Hd). rewrite <- !app_assoc. rewrite lex_exp by assumption. f_equal.
  rewrite lex_digits; [reflexivity|lia|assumption|assumption|exact Ha].
Qed.

Lemma lex_body r b rest : radices r -> body_ok r b -> no_unknown b -> stop r rest -> lexn r (body_text b ++ rest) = body_toks false r b ++ lexn r rest.
Proof.
  intros Hr Hb Hu Ha. assert (Hr16 : r <= 16) by (unfold radices in Hr; lia).
  destruct b as [ds k|n d k l|ds frac exp]; cbn [body_ok no_unknown body_text body_toks] in *.
  - subst k. cbn [hashes repeat]. rewrite app_nil_r. destruct Hb as [Hn Hd]. rewrite lex_digits; [reflexivity|assumption|assumption|assumption|exact Ha].
  - destruct Hu as [-> ->]. cbn [hashes repeat app]. rewrite app_nil_r. destruct Hb as (Hn & Hdn & Hd & Hdd & _). rewrite <- app_assoc. cbn [app].
    rewrite lex_digits; [|assumption|assumption|assumption|].
    + rewrite lex_slash. rewrite lex_digits; [|assumption|assumption|assumption|exact Ha]. reflexivity.
    + destruct (is_digit r 47) eqn:E; [|reflexivity]. apply is_digit_range in E. lia.
  - destruct Hb as (-> & Hds & Hf & He). rewrite <- !app_assoc.
    set (ex := match exp with Some (m, s, e) => m :: sign_text s ++ text e | None => [] end).
    assert (Hfrac : lexn 10 (match frac with Some f => 46 :: text f | None => [] end ++ ex ++ rest)
       = match frac with Some f => Tok ADot [46] false :: match f with [] => [] | _ => [dig 10 f false] end | None => [] end
         ++ match exp with Some (m, s, e) => exp_toks m s ++ [dig 10 e false] | None => [] end ++ lexn 10 rest).
    { destruct frac as [f|]; cbn [app]; [|apply lex_exp_part; assumption]. rewrite lex_dot. f_equal. destruct Hf as [Hf _].
      destruct f as [|x f]; [apply lex_exp_part; assumption|]. rewrite lex_digits; [|lia|discriminate|assumption|apply exp_part_head; assumption].
      cbn [app]. f_equal. apply lex_exp_part; assumption. }
    destruct ds as [|x ds].
    + cbn [text map app]. exact Hfrac.
    + rewrite lex_digits; [|lia|discriminate|assumption|].
      * cbn [app]. f_equal. exact Hfrac.
      * destruct frac as [f|]; [reflexivity|]. apply exp_part_head; assumption.
Qed.

(** ** The start of a number *)
Lemma digits_head r ds : r <= 16 -> ds <> [] -> digits_of r ds -> exists c t, text ds = c :: t /\ is_digit r c = true.
Proof.
  intros Hr Hn H. destruct ds as [|d ds]; [congruence|]. exists (d_char d), (text ds). split; [reflexivity|]. inversion H; subst. apply is_digit_char; lia.
Qed.
Lemma body_head r b after : radices r -> body_ok r b ->
  exists c t, body_text b ++ after = c :: t /\ (is_digit r c = true \/ c = 46 /\ exists f e, b = BDec [] (Some f) e).
Proof.
  intros Hr Hb. assert (Hr16 : r <= 16) by (unfold radices in Hr; lia). destruct b as [ds k|n d k l|ds frac exp]; cbn [body_ok body_text] in *.
  - destruct (digits_head r ds Hr16 (proj1 Hb) (proj2 Hb)) as (c & t & E & Hc). rewrite E. eexists _, _. split; [reflexivity|now left].
  - destruct Hb as (H1 & H2 & _). destruct (digits_head r n Hr16 H1 H2) as (c & t & E & Hc). rewrite E. eexists _, _. split; [reflexivity|now left].
  - destruct Hb as (-> & H1 & H2 & _). destruct ds as [|d ds].
    + destruct frac as [f|]; [|destruct H2; congruence]. eexists _, _. split; [reflexivity|]. right. split; [reflexivity|]. now exists f, exp.
    + destruct (digits_head 10 (d :: ds) ltac:(lia) ltac:(discriminate) H1) as (c & t & E & Hc). rewrite E. eexists _, _. split; [reflexivity|now left].
Qed.
Lemma body_head_range r b after : radices r -> body_ok r b ->
  exists c t, body_text b ++ after = c :: t /\ (48 <= c <= 57 \/ c = 46 \/ 65 <= c <= 70 \/ 97 <= c <= 102).
Proof.
  intros Hr Hb. destruct (body_head r b after Hr Hb) as (c & t & E & [H | [H _]]); exists c, t; (split; [exact E|]); [apply is_digit_range in H|]; lia.
Qed.

Definition sign_toks (s : option sign) : list tok := match s with None => [] | _ => [Tok ASign (sign_text s) false] end.
Lemma special_inf f c d s : (48 <= d <= 57 \/ d = 46 \/ 65 <= d <= 70 \/ 97 <= d <= 102) -> special inf_word f (c :: d :: s) = false.
Proof. intros H. apply special_sign; [intros x y E; injection E; intros; subst; lia|discriminate|exact H]. Qed.
Lemma special_nan f c d s : (48 <= d <= 57 \/ d = 46 \/ 65 <= d <= 70 \/ 97 <= d <= 102) -> special nan_word f (c :: d :: s) = false.
Proof. intros H. apply special_sign; [intros x y E; injection E; intros; subst; lia|discriminate|exact H]. Qed.
Lemma lex_sign r s b after : radices r -> body_ok r b -> no_unknown b -> stop r after ->
  lexn r (sign_text s ++ body_text b ++ after) = sign_toks s ++ body_toks false r b ++ lexn r after.
Proof.
  intros Hr Hb Hu Ha. destruct s as [s|]; [|apply lex_body; assumption].
  rewrite <- (lex_body r b after Hr Hb Hu Ha). destruct (body_head_range r b after Hr Hb) as (c & t & -> & Hc).
  destruct s; cbn [sign_text sign_toks app]; (apply lex_one; [|apply no_bound; lia]); unfold num_step; cbn [span];
    rewrite special_inf, special_nan by exact Hc; reflexivity.
Qed.

Lemma exact_prefix_none c s : c <> 35 -> exact_prefix (c :: s) = None.
Proof. intros H. unfold exact_prefix. do 35 (destruct c as [|c]; [reflexivity|]). destruct c; [congruence|reflexivity]. Qed.
Lemma radix_prefix_none c s : c <> 35 -> radix_prefix (c :: s) = None.
Proof. intros H. unfold radix_prefix. do 35 (destruct c as [|c]; [reflexivity|]). destruct c; [congruence|reflexivity]. Qed.

Lemma lex_number_digit c s : is_digit 10 c = true -> lex_number (c :: s) = Some (lexn 10 (c :: s)).
Proof.
  intros H. pose proof (is_digit_range _ _ H) as Hr. assert (Hb : right_bound (c :: s) = false) by (apply no_bound; lia).
  assert (E : num_step 10 (c :: s) = Some ([Tok (ADigits 10) (firstn (span (is_digit 10) (c :: s)) (c :: s)) false], span (is_digit 10) (c :: s))).
  { unfold num_step. replace (0 <? span (is_digit 10) (c :: s)) with true by (cbn [span]; rewrite H; reflexivity). reflexivity. }
  rewrite (lexn_step 10 _ _ _ Hb E). unfold lex_number. rewrite exact_prefix_none, radix_prefix_none by lia.
  rewrite is_digit10 in H. rewrite !special_no by (cbn; lia). unfold is_one_of. cbn [existsb]. replace (c =? 43) with false by lia. replace (c =? 45) with false by lia.
  replace (c =? 46) with false by lia. cbn [orb]. cbv zeta.
  replace (0 <? span (is_digit 10) (c :: s)) with true by (cbn [span]; rewrite is_digit10, H; reflexivity). reflexivity.
Qed.

Lemma lex_number_bare s b after : body_ok 10 b -> no_unknown b -> stop 10 after ->
  lex_number (sign_text s ++ body_text b ++ after) = Some (sign_toks s ++ body_toks (match s with None => true | _ => false end) 10 b ++ lexn 10 after).
Proof.
  intros Hb Hu Ha. assert (Hr : radices 10) by (unfold radices; lia). destruct s as [s|].
  - rewrite <- (lex_body 10 b after Hr Hb Hu Ha). destruct (body_head_range 10 b after Hr Hb) as (c & t & -> & Hc).
    assert (Hn : right_bound (c :: t) = false) by (apply no_bound; lia).
    unfold lex_number. destruct s; cbn [sign_text sign_toks app]; rewrite exact_prefix_none, radix_prefix_none by lia;
      rewrite special_inf, special_nan by exact Hc; cbn [is_one_of existsb Nat.eqb orb]; rewrite Hn; reflexivity.
  - cbn [sign_text sign_toks app]. destruct (body_head 10 b after Hr Hb) as (c & t & E & [H | [-> (f & e & ->)]]).
    + rewrite E. rewrite lex_number_digit by exact H. rewrite <- E. rewrite (lex_body 10 b after Hr Hb Hu Ha). f_equal. f_equal.
      destruct b as [| |ds frac exp]; try reflexivity. destruct ds; [|reflexivity]. exfalso. cbn [body_ok body_text] in Hb, E. destruct Hb as (_ & _ & Hb & _).
      destruct frac as [f|]; [|destruct Hb; congruence]. cbn in E. injection E; intros _ <-. discriminate H.
    + cbn [body_ok] in Hb. destruct Hb as (_ & _ & [Hf Hn] & He). cbn [app] in Hn.
      cbn [body_text text map app]. unfold lex_number. rewrite exact_prefix_none, radix_prefix_none by lia. rewrite !special_no by (cbn; lia).
      cbn [is_one_of existsb Nat.eqb orb]. cbv zeta.
      pose proof (text_digits 10 f ltac:(lia) Hf) as HF. pose proof (exp_part_head e after He Ha) as Hh. pose proof (lex_exp_part e after He Ha) as Hl.
      set (ex := match e with Some (m, s, e0) => m :: sign_text s ++ text e0 | None => [] end) in *.
      change (map d_char f) with (text f). rewrite <- app_assoc. rewrite (span_app (is_digit 10) (text f) (ex ++ after) HF Hh).
      destruct f as [|x f]; [congruence|]. replace (0 <? length (text (x :: f))) with true by reflexivity.
      rewrite firstn_app, Nat.sub_diag, firstn_all, firstn_O, app_nil_r. rewrite skipn_app, Nat.sub_diag, skipn_all. cbn [skipn app].
      fold (lexn 10 (ex ++ after)). rewrite Hl. reflexivity.
Qed.

Lemma is_exactness_one_of c b : is_exactness c b -> is_one_of [101; 105] (lower c) = true.
Proof. unfold is_exactness. intros ->. destruct b; reflexivity. Qed.
Lemma is_radix_of c r : is_radix c r -> radix_of c = Some r.
Proof. unfold is_radix, radix_of. cbn. intros [H | [H | [H | [H | []]]]]; injection H; intros <- <-; reflexivity. Qed.
Lemma is_radix_radices c r : is_radix c r -> radices r.
Proof. unfold is_radix, radices. cbn. intros [H | [H | [H | [H | []]]]]; injection H; intros <- _; tauto. Qed.
Lemma is_radix_not c r : is_radix c r -> is_one_of [101; 105] (lower c) = false.
Proof. unfold is_radix. cbn. intros [H | [H | [H | [H | []]]]]; injection H; intros _ <-; reflexivity. Qed.
Lemma is_exactness_not c b : is_exactness c b -> radix_of c = None.
Proof. unfold is_exactness, radix_of. intros ->. destruct b; reflexivity. Qed.

(** The tokens of the prefix. *)
Definition prefix_toks (p : prefix) : list tok :=
  match p with
  | PNone => []
  | PExact c | PRadix c => [Tok APrefix [35; c] false]
  | PBoth true e r => [Tok APrefix [35; e] true; Tok APrefix [35; r] true]
  | PBoth false e r => [Tok APrefix [35; r] true; Tok APrefix [35; e] true]
  end.
Definition first_group (p : prefix) (s : option sign) : bool := match p, s with PNone, None => true | _, _ => false end.
Lemma means_radices p r exact : prefix_means p r exact -> radices r.
Proof. destruct p; cbn [prefix_means]; intros [H _]; [unfold radices; lia|unfold radices; lia|eapply is_radix_radices; eassumption|eapply is_radix_radices; eassumption]. Qed.
Lemma number_head_not_hash r s b after : radices r -> body_ok r b -> exists c t, sign_text s ++ body_text b ++ after = c :: t /\ c <> 35.
Proof.
  intros Hr Hb. destruct (body_head_range r b after Hr Hb) as (c & t & -> & Hc). destruct s as [[|]|]; cbn [sign_text app]; eexists _, _; (split; [reflexivity|lia]).
Qed.
Lemma lex_all p r exact s b after : prefix_means p r exact -> body_ok r b -> no_unknown b -> stop r after ->
  lex_number (prefix_text p ++ sign_text s ++ body_text b ++ after) = Some (prefix_toks p ++ sign_toks s ++ body_toks (first_group p s) r b ++ lexn r after).
Proof.
  intros Hp Hb Hu Ha. pose proof (means_radices _ _ _ Hp) as Hr. destruct p as [|c|c|ef e c].
  - destruct Hp as [-> _]. cbn [prefix_text prefix_toks app first_group]. apply lex_number_bare; assumption.
  - destruct Hp as (-> & x & _ & Hx). pose proof (lex_sign 10 s b after Hr Hb Hu Ha) as HL. cbn [prefix_text prefix_toks first_group].
    destruct (number_head_not_hash 10 s b after Hr Hb) as (d & t & E & Hd). rewrite E in *. cbn [app]. unfold lex_number. cbn [exact_prefix]. rewrite (is_exactness_one_of c x Hx).
    rewrite radix_prefix_none by exact Hd. fold (lexn 10 (d :: t)). rewrite HL. destruct s; reflexivity.
  - destruct Hp as (Hc & _). pose proof (lex_sign r s b after Hr Hb Hu Ha) as HL. cbn [prefix_text prefix_toks first_group].
    destruct (number_head_not_hash r s b after Hr Hb) as (d & t & E & Hd). rewrite E in *. cbn [app]. unfold lex_number. cbn [exact_prefix]. rewrite (is_radix_not c r Hc).
    cbn [radix_prefix]. rewrite (is_radix_of c r Hc). rewrite exact_prefix_none by exact Hd. fold (lexn r (d :: t)). rewrite HL. reflexivity.
  - destruct Hp as (Hc & x & _ & Hx). pose proof (lex_sign r s b after Hr Hb Hu Ha) as HL. cbn [prefix_text prefix_toks first_group].
    destruct (number_head_not_hash r s b after Hr Hb) as (d & t & E & Hd). rewrite E in *. destruct ef; cbn [app]; unfold lex_number; cbn [exact_prefix].
    + rewrite (is_exactness_one_of e x Hx). cbn [radix_prefix]. rewrite (is_radix_of c r Hc). rewrite exact_prefix_none by exact Hd. fold (lexn r (d :: t)). rewrite HL. reflexivity.
    + rewrite (is_radix_not c r Hc). cbn [radix_prefix]. rewrite (is_radix_of c r Hc). cbn [exact_prefix]. rewrite (is_exactness_one_of e x Hx). fold (lexn r (d :: t)). rewrite HL. reflexivity.
Qed.

(** ** The value *)
Lemma str_eqb_ok (a b : str) : reflect (a = b) (str_eqb a b).
Proof. apply iff_reflect. symmetry. apply str_eqb_spec. Qed.
Definition plain (sep : nat) (t : tok) : Prop := str_eqb (t_text t) [sep] = false.
Lemma split_none sep l : Forall (plain sep) l -> split_two sep l = (l, None).
Proof.
  intros H. unfold split_two. assert (E : split_first sep l = (l, None)).
  { induction H as [|t l Ht _ IH]; [reflexivity|]. cbn [split_first]. rewrite Ht, IH. reflexivity. }
  rewrite E. reflexivity.
Qed.
Lemma plain_dig sep r ds g : r <= 16 -> digits_of r ds -> (sep = 47 \/ sep = 64 \/ sep = 46 \/ sep = 45) -> plain sep (dig r ds g).
Proof.
  intros Hr H Hs. unfold plain, dig. cbn [t_text]. destruct (str_eqb_ok (text ds) [sep]) as [E | E]; [exfalso|reflexivity].
  destruct ds as [|d [|? ?]]; try discriminate E. injection E; intros E'. inversion H as [|? ? H1 _]; subst.
  pose proof (is_digit_char r d Hr H1) as Hd. apply is_digit_range in Hd. lia.
Qed.
Definition no_i (t : tok) : Prop := str_eqb (map lower (t_text t)) [105] = false.
Lemma no_i_dig r ds g : r <= 16 -> digits_of r ds -> no_i (dig r ds g).
Proof.
  intros Hr H. unfold no_i, dig. cbn [t_text]. destruct (str_eqb_ok (map lower (text ds)) [105]) as [E | E]; [exfalso|reflexivity].
  destruct ds as [|d [|? ?]]; try discriminate E. injection E; intros E'. inversion H as [|? ? H1 _]; subst.
  pose proof (is_digit_char r d Hr H1) as Hd. apply is_digit_range in Hd. unfold lower in E'. destruct ((65 <=? d_char d) && (d_char d <=? 90)) eqn:E1; lia.
Qed.
Definition calm (t : tok) : Prop := plain 64 t /\ no_i t.
Lemma calm_dig r ds g : r <= 16 -> digits_of r ds -> calm (dig r ds g).
Proof. intros Hr H. split; [apply (plain_dig 64 r ds g); [assumption|assumption|lia]|apply no_i_dig; assumption]. Qed.
Lemma calm_exp m s : In (lower m) [101; 115; 102; 100; 108] -> Forall (fun t => calm t /\ plain 47 t) (exp_toks m s).
Proof.
  intros Hm. pose proof (exp_char m Hm) as Hc.
  assert (H : forall g, calm (Tok AExp [m] g) /\ plain 47 (Tok AExp [m] g)).
  { intros g. unfold calm, plain, no_i. cbn [t_text map].
    repeat split; match goal with |- str_eqb ?a ?b = false => destruct (str_eqb_ok a b) as [E | E]; [exfalso; injection E; intros E'|reflexivity] end; try lia.
    rewrite E' in Hm. cbn in Hm. lia. }
  destruct s as [[|]|]; cbn [exp_toks]; repeat constructor; try apply H; reflexivity.
Qed.
Lemma calm_body g r b : radices r -> body_ok r b -> no_unknown b -> Forall calm (body_toks g r b).
Proof.
  intros Hr Hb Hu. assert (Hr16 : r <= 16) by (unfold radices in Hr; lia). destruct b as [ds k|n d k l|ds frac exp]; cbn [body_ok body_toks] in *.
  - constructor; [|constructor]. apply calm_dig; tauto.
  - repeat constructor; try reflexivity; apply calm_dig; tauto.
  - destruct Hb as (-> & H1 & H2 & H3). rewrite !Forall_app. split; [|split].
    + destruct ds; constructor; [|constructor]. apply calm_dig; assumption.
    + destruct frac as [f|]; [|constructor]. destruct H2 as [H2 _]. constructor; [split; reflexivity|]. destruct f; constructor; [|constructor]. apply calm_dig; assumption.
    + destruct exp as [((m, s), e)|]; [|constructor]. destruct H3 as (Hm & Hn & He). apply Forall_app. split.
      * eapply Forall_impl; [|apply calm_exp; exact Hm]. intros t Ht. apply Ht.
      * constructor; [|constructor]. apply calm_dig; [lia|assumption].
Qed.

Lemma get_uint_dig r exact ds g : r <= 16 -> ds <> [] -> digits_of r ds -> get_uint r exact [dig r ds g] = Some (NInt (val r ds)).
Proof.
  intros Hr Hn H. unfold get_uint, dig. cbn [get_uint_loop t_act t_text]. rewrite Nat.eqb_refl, py_int_text by assumption. reflexivity.
Qed.

(** The text of a decimal number with [e] as marker. *)
Definition frac_text (frac : option (list digit)) : str := match frac with Some f => 46 :: text f | None => [] end.
Definition exp_text (exp : option (nat * option sign * list digit)) : str := match exp with Some (_, s, e) => 101 :: sign_text s ++ text e | None => [] end.
Definition dec_text (ds : list digit) frac exp : str := text ds ++ frac_text frac ++ exp_text exp.

Lemma exp_loop m s e g : digits_of 10 e -> get_decimal10_loop g (exp_toks m s ++ [dig 10 e false]) = Some (101 :: sign_text s ++ text e, false).
Proof. intros _. destruct s as [[|]|]; reflexivity. Qed.
Lemma dec_loop g ds frac exp : body_ok 10 (BDec ds frac exp) -> get_decimal10_loop true (body_toks g 10 (BDec ds frac exp)) = Some (dec_text ds frac exp, false).
Proof.
  intros (_ & _ & Hf & He). unfold dec_text, frac_text, exp_text. cbn [body_toks].
  assert (E : forall x, exp <> None \/ x = false -> get_decimal10_loop x match exp with Some (m, s, e) => exp_toks m s ++ [dig 10 e false] | None => [] end
                        = Some (match exp with Some (_, s, e) => 101 :: sign_text s ++ text e | None => [] end, false)).
  { intros x Hx. destruct exp as [((m, s), e)|]; [apply exp_loop; tauto|]. destruct Hx as [Hx | ->]; [congruence|reflexivity]. }
  assert (E2 : get_decimal10_loop true (match frac with
         | Some f => let g := match ds with [] => g | _ => false end in Tok ADot [46] g :: match f with [] => [] | _ => [dig 10 f g] end
         | None => []
         end ++ match exp with Some (m, s, e) => exp_toks m s ++ [dig 10 e false] | None => [] end)
    = Some (match frac with Some f => 46 :: text f | None => [] end ++ match exp with Some (_, s, e) => 101 :: sign_text s ++ text e | None => [] end, false)).
  { destruct frac as [f|].
    - cbv zeta. cbn [app get_decimal10_loop t_act]. destruct f as [|x f]; cbn [app get_decimal10_loop t_act dig t_text]; rewrite E by tauto; reflexivity.
    - cbn [app]. apply E. left. apply Hf. }
  destruct ds as [|d ds]; [exact E2|]. cbv zeta in E2 |- *. cbn [app get_decimal10_loop t_act]. unfold dig at 1. cbn [t_act t_text]. rewrite E2. reflexivity.
Qed.

Lemma py_int_signed s e : e <> [] -> digits_of 10 e ->
  (let '(sg, t) := match sign_text s ++ text e with 43 :: t => (1%Z, t) | 45 :: t => ((-1)%Z, t) | _ => (1%Z, sign_text s ++ text e) end in
   match py_int 10 t with Some x => Some (sg * x)%Z | None => None end) = Some (sign_val s * val 10 e)%Z.
Proof.
  intros Hn He. pose proof (py_int_text 10 e ltac:(lia) Hn He) as E.
  destruct s as [[|]|]; cbn [sign_text app sign_val]; [rewrite E; reflexivity|rewrite E; reflexivity|].
  destruct (digits_head 10 e ltac:(lia) Hn He) as (c & t & Et & Hc). rewrite Et in *. rewrite is_digit10 in Hc.
  assert (H : (match c :: t with 43 :: t' => (1%Z, t') | 45 :: t' => ((-1)%Z, t') | _ => (1%Z, c :: t) end) = (1%Z, c :: t)).
  { do 48 (destruct c as [|c]; [lia|]). reflexivity. }
  rewrite H, E. reflexivity.
Qed.
Lemma text_app a b : text a ++ text b = text (a ++ b).
Proof. symmetry. apply map_app. Qed.
Lemma py_decimal_dec ds frac exp : digits_of 10 ds -> (match frac with Some f => digits_of 10 f /\ ds ++ f <> [] | None => ds <> [] end) ->
  (match exp with Some (_, _, e) => e <> [] /\ digits_of 10 e | None => True end) ->
  py_decimal (dec_text ds frac exp) = Some (val 10 (ds ++ match frac with Some f => f | None => [] end),
                                            (match exp with Some (_, s, e) => sign_val s * val 10 e | None => 0 end - Z.of_nat (length match frac with Some f => f | None => [] end))%Z).
Proof.
  intros Hds Hf He. set (f := match frac with Some f => f | None => [] end).
  assert (Hff : digits_of 10 f) by (unfold f; destruct frac; [apply Hf|constructor]).
  assert (Hall : ds ++ f <> []) by (unfold f; destruct frac; [apply Hf|]; rewrite app_nil_r; apply Hf).
  assert (Hint : py_int 10 (text (ds ++ f)) = Some (val 10 (ds ++ f))) by (apply py_int_text; [lia|assumption|apply Forall_app; split; assumption]).
  unfold py_decimal, dec_text. 
  assert (Hx : match exp_text exp with [] => True | c :: _ => is_digit 10 c = false end) by (unfold exp_text; destruct exp as [((m, s), e)|]; [reflexivity|exact I]).
  assert (Hfx : match frac_text frac ++ exp_text exp with [] => True | c :: _ => is_digit 10 c = false end) by (unfold frac_text; destruct frac; [reflexivity|exact Hx]).
  rewrite (span_app _ _ _ (text_digits 10 ds ltac:(lia) Hds) Hfx).
  rewrite firstn_app, Nat.sub_diag, firstn_all, firstn_O, app_nil_r, skipn_app, Nat.sub_diag, skipn_all. cbn [skipn app].
  assert (Hs : (match frac_text frac ++ exp_text exp with 46 :: s => let n := span (is_digit 10) s in (firstn n s, skipn n s) | _ => ([], frac_text frac ++ exp_text exp) end)
               = (text f, exp_text exp)).
  { unfold frac_text, f. destruct frac as [f'|]; cbn [app].
    - cbv zeta. rewrite (span_app _ _ _ (text_digits 10 f' ltac:(lia) (proj1 Hf)) Hx).
      rewrite firstn_app, Nat.sub_diag, firstn_all, firstn_O, app_nil_r, skipn_app, Nat.sub_diag, skipn_all. reflexivity.
    - unfold exp_text. destruct exp as [((m, s), e)|]; reflexivity. }
  cbv zeta in Hs |- *. rewrite Hs, text_app, Hint, text_length. unfold exp_text. destruct exp as [((m, s), e)|]; [|f_equal; f_equal; lia].
  destruct He as (Hn & He). pose proof (py_int_signed s e Hn He) as P. cbv zeta.
  destruct (match sign_text s ++ text e with 43 :: t => (1%Z, t) | 45 :: t => ((-1)%Z, t) | _ => (1%Z, sign_text s ++ text e) end) as [sg t].
  destruct (py_int 10 t) as [x|]; [|discriminate P]. injection P; intros ->. f_equal. 
Qed.

Lemma times_sign_denotes sg v q : denotes v q -> denotes (times_sign sg v) (inject_Z sg * q)%Q /\ is_exact (times_sign sg v) = is_exact v.
Proof.
  intros H. destruct v; cbn [times_sign denotes is_exact] in *; (split; [|reflexivity]); try contradiction.
  - rewrite H, inject_Z_mult. reflexivity.
  - destruct H as [Hd H]. split; [exact Hd|]. rewrite H, inject_Z_mult. unfold Qdiv. ring.
  - destruct H as (m & e & H1 & H2). exists q. split; [exists m, e; tauto|reflexivity].
  - exists q. split; [exact H|reflexivity].
  - exists q. split; [exact H|reflexivity].
  - exists q. split; [exact H|reflexivity].
Qed.
Lemma inject_Z_nonzero z : z <> 0%Z -> ~ (inject_Z z == 0)%Q.
Proof. intros H E. apply H. unfold Qeq in E. cbn in E. lia. Qed.

Lemma get_real_rest r exact sg t l : (exists x, t_act t = ADigits x) \/ t_act t = ADot ->
  get_real r exact sg (t :: l) = let '(a, fract) := split_two 47 (t :: l) in
    option_map (times_sign sg)
      match fract with
      | Some b => match get_uint r exact a, get_uint r exact b with Some n, Some d => ratio exact n d | _, _ => None end
      | None => if r =? 10 then get_decimal10 exact a else get_uint r exact a
      end.
Proof. intros H. cbn [get_real]. destruct H as [[x ->] | ->]; reflexivity. Qed.
Lemma body_toks_head g r b : body_ok r b -> exists t l, body_toks g r b = t :: l /\ ((exists x, t_act t = ADigits x) \/ t_act t = ADot).
Proof.
  intros Hb. destruct b as [ds k|n d k l|ds frac exp]; cbn [body_toks body_ok] in *.
  - eexists _, _. split; [reflexivity|]. left. eexists. reflexivity.
  - eexists _, _. split; [reflexivity|]. left. eexists. reflexivity.
  - destruct ds; cbn [app].
    + destruct frac; [|destruct Hb as (_ & _ & (Hb & _) & _); congruence]. eexists _, _. split; [reflexivity|]. now right.
    + eexists _, _. split; [reflexivity|]. left. eexists. reflexivity.
Qed.

(** What the code cannot read properly: an integer with prefixes for a radix and for inexactness. *)
Definition inexact_radix (exact : option bool) (r : nat) (b : body) : Prop := exact = Some false /\ r <> 10 /\ exists ds k, b = BInt ds k.

Lemma power_nonneg e : (0 <= e)%Z -> (inject_Z 10 ^ e == inject_Z (10 ^ e))%Q.
Proof. intros H. rewrite Zpower_Qpower by exact H. reflexivity. Qed.
Lemma fraction_denotes m e : denotes (if (0 <=? e)%Z then NFrac (m * 10 ^ e) 1 else NFrac m (10 ^ (- e))) (inject_Z m * inject_Z 10 ^ e)%Q.
Proof.
  destruct (0 <=? e)%Z eqn:E; cbn [denotes].
  - split; [lia|]. rewrite power_nonneg by lia. rewrite inject_Z_mult. unfold Qdiv. change (/ inject_Z 1)%Q with 1%Q. ring.
  - split; [apply Z.pow_nonzero; lia|]. rewrite <- power_nonneg by lia. unfold Qdiv. rewrite Qpower_opp. rewrite Qinv_involutive. reflexivity.
Qed.

Lemma get_real_body r exact sg g b : radices r -> body_ok r b -> no_unknown b ->
  exists v, get_real r exact sg (body_toks g r b) = Some v /\ denotes v (inject_Z sg * body_val r b)%Q /\ (~ inexact_radix exact r b -> is_exact v = should_be_exact exact b).
Proof.
  intros Hr Hb Hu. assert (Hr16 : r <= 16) by (unfold radices in Hr; lia).
  assert (H : exists v, (let '(a, fract) := split_two 47 (body_toks g r b) in
      match fract with
      | Some b => match get_uint r exact a, get_uint r exact b with Some n, Some d => ratio exact n d | _, _ => None end
      | None => if r =? 10 then get_decimal10 exact a else get_uint r exact a
      end) = Some v /\ denotes v (body_val r b) /\ (~ inexact_radix exact r b -> is_exact v = should_be_exact exact b)).
  { destruct b as [ds k|n d k l|ds frac exp].
    - cbn [no_unknown body_ok] in Hu, Hb. subst k. destruct Hb as [Hn Hd]. cbn [body_toks body_val]. rewrite Z.pow_0_r, Z.mul_1_r.
      rewrite split_none by (constructor; [apply (plain_dig 47 r ds false); [assumption|assumption|lia]|constructor]).
      destruct (r =? 10) eqn:E10.
      + assert (r = 10) by lia. subst r. unfold get_decimal10, dig. cbn [get_decimal10_loop t_act t_text option_map]. rewrite app_nil_r.
        destruct (text ds) as [|c t] eqn:Et; [apply text_nil in Et; congruence|]. rewrite <- Et. rewrite py_int_text by assumption.
        destruct exact as [[|]|]; cbn [option_map should_be_exact Nat.eqb].
        * exists (NInt (val 10 ds)). repeat split; reflexivity.
        * unfold py_float. pose proof (py_decimal_dec ds None None Hd Hn I) as P. unfold dec_text, frac_text, exp_text in P. rewrite !app_nil_r in P. rewrite P.
          exists (NText (text ds)). split; [reflexivity|]. split; [|intros _; reflexivity]. cbn [denotes]. eexists _, _. split; [exact P|]. cbn. ring.
        * exists (NInt (val 10 ds)). repeat split; reflexivity.
      + rewrite get_uint_dig by assumption. exists (NInt (val r ds)). split; [reflexivity|]. split; [reflexivity|]. intros Hx.
        destruct exact as [[|]|]; try reflexivity. exfalso. apply Hx. split; [reflexivity|]. split; [lia|]. now exists ds, 0.
    - cbn [no_unknown body_ok] in Hu, Hb. destruct Hu as [-> ->]. destruct Hb as (Hn & Hdn & Hd & Hdd & H0). cbn [body_toks body_val]. rewrite Z.pow_0_r, !Z.mul_1_r.
      unfold split_two. cbn [split_first]. rewrite (plain_dig 47 r n false) by (try assumption; lia). cbn [t_text str_eqb Nat.eqb andb option_map].
      cbn [split_first]. rewrite (plain_dig 47 r d false) by (try assumption; lia). cbn [fst].
      rewrite str_eqb_refl. cbn [option_map fst split_first]. rewrite (plain_dig 47 r d false) by (try assumption; lia). cbn [fst]. rewrite !get_uint_dig by assumption.
      unfold ratio. cbn [is_zero]. replace (val r d =? 0)%Z with false by lia. destruct exact as [[|]|]; (eexists; split; [reflexivity|]; split; [|intros _; reflexivity]); cbn [denotes].
      + split; [assumption|reflexivity].
      + eexists _, _. split; [reflexivity|]. split; [reflexivity|]. split; [apply inject_Z_nonzero, H0|reflexivity].
      + split; [assumption|reflexivity].
    - pose proof Hb as Hb'. destruct Hb' as (-> & Hds & Hf & He).
      assert (Hp : Forall (plain 47) (body_toks g 10 (BDec ds frac exp))).
      { cbn [body_toks]. rewrite !Forall_app. split; [|split].
        - destruct ds; constructor; [|constructor]. apply plain_dig; [lia|assumption|lia].
        - destruct frac as [f|]; [|constructor]. destruct Hf as [Hf _]. constructor; [reflexivity|]. destruct f; constructor; [|constructor]. apply plain_dig; [lia|assumption|lia].
        - destruct exp as [((m, s), e)|]; [|constructor]. destruct He as (Hm & Hn & He). apply Forall_app. split.
          + eapply Forall_impl; [|apply calm_exp; exact Hm]. intros t Ht. apply Ht.
          + constructor; [|constructor]. apply plain_dig; [lia|assumption|lia]. }
      rewrite split_none by exact Hp. cbn [Nat.eqb]. unfold get_decimal10. rewrite dec_loop by exact Hb.
      assert (P : py_decimal (dec_text ds frac exp) = _) by (apply py_decimal_dec; [exact Hds|destruct frac; [exact Hf|apply Hf]|destruct exp as [((? & ?) & ?)|]; [apply He|exact I]]).
      destruct (dec_text ds frac exp) as [|c t] eqn:Et; [discriminate P|].
      assert (V : body_val 10 (BDec ds frac exp) = (inject_Z (val 10 (ds ++ match frac with Some f => f | None => [] end)) * inject_Z 10 ^ (match exp with Some (_, s, e) => sign_val s * val 10 e | None => 0 end - Z.of_nat (length match frac with Some f => f | None => [] end)))%Q) by reflexivity.
      rewrite V. destruct exact as [[|]|]; cbn [should_be_exact].
      + unfold py_fraction. rewrite P. eexists. split; [reflexivity|]. split; [apply fraction_denotes|]. intros _. destruct (0 <=? _)%Z; reflexivity.
      + unfold py_float. rewrite P. eexists. split; [reflexivity|]. split; [|intros _; reflexivity]. cbn [denotes]. eexists _, _. split; [exact P|reflexivity].
      + unfold py_float. rewrite P. eexists. split; [reflexivity|]. split; [|intros _; reflexivity]. cbn [denotes]. eexists _, _. split; [exact P|reflexivity]. }
  destruct (body_toks_head g r b Hb) as (t & l & Et & Ht). rewrite Et in *. rewrite get_real_rest by exact Ht.
  destruct (split_two 47 (t :: l)) as [a fract]. destruct H as (v & -> & Hv & He). cbn [option_map].
  exists (times_sign sg v). split; [reflexivity|]. destruct (times_sign_denotes sg v _ Hv) as [H1 H2]. split; [exact H1|]. rewrite H2. exact He.
Qed.

Lemma get_real_sign r exact s l : get_real r exact 1 (sign_toks s ++ l) = get_real r exact (sign_val s) l.
Proof. destruct s as [[|]|]; reflexivity. Qed.

Lemma scheme_number_real r exact s g b : radices r -> body_ok r b -> no_unknown b ->
  scheme_number r exact (sign_toks s ++ body_toks g r b) = get_real r exact (sign_val s) (body_toks g r b).
Proof.
  intros Hr Hb Hu. rewrite <- get_real_sign.
  assert (Hc : Forall calm (sign_toks s ++ body_toks g r b)).
  { apply Forall_app. split; [|apply calm_body; assumption]. destruct s as [[|]|]; cbn; repeat constructor. }
  assert (Hh : exists t l, sign_toks s ++ body_toks g r b = t :: l /\ t_act t <> APrefix).
  { destruct (body_toks_head g r b Hb) as (t & l & Et & Ht). rewrite Et. destruct s as [s|]; cbn [sign_toks app]; eexists _, _; (split; [reflexivity|]).
    - discriminate.
    - destruct Ht as [[x ->] | ->]; discriminate. }
  assert (Hp : Forall (plain 64) (sign_toks s ++ body_toks g r b)) by (eapply Forall_impl; [|exact Hc]; intros ? [? _]; assumption).
  pose proof (split_none 64 _ Hp) as Hs. apply Forall_rev in Hc.
  destruct Hh as (t & l & E & Ht). rewrite E in *. cbn [scheme_number]. rewrite Hs.
  assert (H : match rev (t :: l) with
              | t0 :: _ => if str_eqb (map lower (t_text t0)) [105] then get_complex r exact (t :: l) else get_real r exact 1 (t :: l)
              | [] => get_real r exact 1 (t :: l) end = get_real r exact 1 (t :: l)).
  { destruct (rev (t :: l)) as [|x y]; [reflexivity|]. inversion Hc as [|? ? [_ Hi] _]; subst. rewrite Hi. reflexivity. }
  rewrite H. destruct (t_act t); try reflexivity. congruence.
Qed.

Lemma scheme_number_prefix p r exact l : prefix_means p r exact -> scheme_number 10 None (prefix_toks p ++ l) = scheme_number r exact l.
Proof.
  assert (Hx : forall e x r0 ex0 l g, is_exactness e x -> scheme_number r0 ex0 (Tok APrefix [35; e] g :: l) = scheme_number r0 (Some x) l).
  { intros e x r0 ex0 l0 g H. unfold is_exactness in H. cbn [scheme_number t_act t_text]. rewrite H. destruct x; reflexivity. }
  assert (Hr : forall c x r0 ex0 l g, is_radix c x -> scheme_number r0 ex0 (Tok APrefix [35; c] g :: l) = scheme_number x ex0 l).
  { intros c x r0 ex0 l0 g H. cbn [scheme_number t_act t_text]. rewrite (is_radix_of c x H). pose proof (is_radix_not c x H) as N. unfold is_one_of in N. cbn [existsb] in N.
    replace (lower c =? 105) with false by lia. replace (lower c =? 101) with false by lia. reflexivity. }
  intros Hp. destruct p as [|c|c|[|] e c]; cbn [prefix_means prefix_toks app] in *.
  - destruct Hp as [-> ->]. reflexivity.
  - destruct Hp as (-> & x & -> & H). exact (Hx c x 10 None l false H).
  - destruct Hp as (H & ->). exact (Hr c r 10 None l false H).
  - destruct Hp as (H & x & -> & H'). rewrite (Hx e x _ _ _ _ H'). exact (Hr c r 10 (Some x) l true H).
  - destruct Hp as (H & x & -> & H'). rewrite (Hr c r _ _ _ _ H). exact (Hx e x r None l true H').
Qed.

Theorem numbers_read p r exact s b after :
  prefix_means p r exact -> body_ok r b -> no_unknown b -> delimited after -> ~ inexact_radix exact r b ->
  exists v, scheme_number_from_text (prefix_text p ++ sign_text s ++ body_text b ++ after) = Some v
            /\ denotes v (inject_Z (sign_val s) * body_val r b)%Q /\ is_exact v = should_be_exact exact b.
Proof.
  intros Hp Hb Hu Ha Hx. pose proof (means_radices _ _ _ Hp) as Hr. unfold scheme_number_from_text.
  rewrite (lex_all p r exact s b after Hp Hb Hu (delimited_stop r after Ha)). rewrite (lexn_bound r after (delimited_bound after Ha)), app_nil_r. rewrite (scheme_number_prefix p r exact _ Hp). rewrite scheme_number_real by assumption.
  destruct (get_real_body r exact (sign_val s) (first_group p s) b Hr Hb Hu) as (v & H1 & H2 & H3). exists v. split; [exact H1|]. split; [exact H2|exact (H3 Hx)].
Qed.

(** ** Complex numbers *)
Lemma lex_prefix p r exact rest : prefix_means p r exact -> p <> PNone -> (exists c t, rest = c :: t /\ c <> 35) ->
  lex_number (prefix_text p ++ rest) = Some (prefix_toks p ++ lexn r rest).
Proof.
  intros Hp Hn (d & t & -> & Hd). destruct p as [|c|c|ef e c]; [congruence| | |]; cbn [prefix_text prefix_toks].
  - destruct Hp as (-> & x & _ & Hx). cbn [app]. unfold lex_number. cbn [exact_prefix]. rewrite (is_exactness_one_of c x Hx). rewrite radix_prefix_none by exact Hd. reflexivity.
  - destruct Hp as (Hc & _). cbn [app]. unfold lex_number. cbn [exact_prefix]. rewrite (is_radix_not c r Hc). cbn [radix_prefix]. rewrite (is_radix_of c r Hc).
    rewrite exact_prefix_none by exact Hd. reflexivity.
  - destruct Hp as (Hc & x & _ & Hx). destruct ef; cbn [app]; unfold lex_number; cbn [exact_prefix].
    + rewrite (is_exactness_one_of e x Hx). cbn [radix_prefix]. rewrite (is_radix_of c r Hc). rewrite exact_prefix_none by exact Hd. reflexivity.
    + rewrite (is_radix_not c r Hc). cbn [radix_prefix]. rewrite (is_radix_of c r Hc). cbn [exact_prefix]. rewrite (is_exactness_one_of e x Hx). reflexivity.
Qed.
Lemma i_char i : lower i = 105 -> i = 105 \/ i = 73.
Proof. unfold lower. destruct ((65 <=? i) && (i <=? 90)) eqn:E; lia. Qed.
Lemma i_stop r i rest : lower i = 105 -> stop r (i :: rest).
Proof. intros H. apply i_char in H. unfold stop. destruct (is_digit r i) eqn:E; [|reflexivity]. apply is_digit_range in E. lia. Qed.
Lemma lex_i r i after : lower i = 105 -> delimited after -> lexn r (i :: after) = [Tok AImag [i] false].
Proof.
  intros Hi Ha. pose proof (i_stop r i after Hi) as Hs. cbn [stop] in Hs. pose proof (i_char i Hi) as Hc.
  rewrite (lex_one r i after AImag).
  - rewrite lexn_bound by now apply delimited_bound. reflexivity.
  - unfold num_step. cbn [span]. rewrite Hs. cbn [Nat.ltb Nat.leb]. rewrite !special_no by (cbn; lia). unfold is_one_of at 1. cbn [existsb].
    replace (i =? 43) with false by lia. replace (i =? 45) with false by lia. cbn [orb]. rewrite Hi. reflexivity.
  - apply no_bound. lia.
Qed.
Lemma special_i w f c i after : In w [inf_word; nan_word] -> lower i = 105 -> delimited after -> special w f (c :: i :: after) = false.
Proof.
  intros Hw Hi Ha. unfold special. destruct after as [|x [|y [|z [|z' after]]]]; try reflexivity. cbn [delimited] in Ha. cbn in Hw.
  assert (Hx : lower x <> 110 /\ x <> 110) by (cbn in Ha; decompose [or] Ha; try contradiction; subst x; cbn; lia).
  assert (E : str_eqb (if f then map lower [i; x; y] else [i; x; y]) w = false).
  { destruct (str_eqb_ok (if f then map lower [i; x; y] else [i; x; y]) w) as [E | E]; [exfalso|reflexivity].
    pose proof (i_char i Hi) as Hc. destruct Hw as [<- | [<- | []]]; destruct f; cbn [map] in E; injection E; lia. }
  rewrite E, andb_false_r. reflexivity.
Qed.
Lemma lex_sign_i r s i after : radices r -> lower i = 105 -> delimited after -> lexn r (sign_text (Some s) ++ i :: after) = sign_toks (Some s) ++ [Tok AImag [i] false].
Proof.
  intros Hr Hi Ha. rewrite <- (lex_i r i after Hi Ha). pose proof (i_char i Hi) as Hc.
  destruct s; cbn [sign_text sign_toks app]; (apply lex_one; [|apply no_bound; lia]); unfold num_step; cbn [span];
    rewrite !special_i by (try assumption; cbn; tauto); reflexivity.
Qed.
Lemma lex_number_sign_i s i after : lower i = 105 -> delimited after -> lex_number (sign_text (Some s) ++ i :: after) = Some (sign_toks (Some s) ++ [Tok AImag [i] false]).
Proof.
  intros Hi Ha. rewrite <- (lex_i 10 i after Hi Ha). pose proof (i_char i Hi) as Hc. assert (Hb : right_bound (i :: after) = false) by (apply no_bound; lia).
  unfold lex_number. destruct s; cbn [sign_text sign_toks app]; rewrite exact_prefix_none, radix_prefix_none by lia;
    rewrite !special_i by (try assumption; cbn; tauto); cbn [is_one_of existsb Nat.eqb orb]; rewrite Hb; reflexivity.
Qed.

Definition re_toks (p : prefix) (r : nat) (re : option (option sign * body)) : list tok :=
  match re with Some (s, b) => sign_toks s ++ body_toks (first_group p s) r b | None => [] end.
Definition im_toks (r : nat) (im : option body) : list tok := match im with Some b => body_toks false r b | None => [] end.

Lemma sign_stop r s rest : stop r (sign_text (Some s) ++ rest).
Proof. destruct s; reflexivity. Qed.
Lemma lex_rect p r exact re s im i after : prefix_means p r exact -> complex_ok r (CRect re s im i) -> delimited after ->
  lex_number (prefix_text p ++ complex_text (CRect re s im i) ++ after) = Some (prefix_toks p ++ re_toks p r re ++ sign_toks (Some s) ++ im_toks r im ++ [Tok AImag [i] false]).
Proof.
  intros Hp (Hre & Him & Hi) Ha. pose proof (means_radices _ _ _ Hp) as Hr.
  assert (HL : lexn r (sign_text (Some s) ++ match im with Some b => body_text b | None => [] end ++ i :: after) = sign_toks (Some s) ++ im_toks r im ++ [Tok AImag [i] false]).
  { destruct im as [b|]; cbn [im_toks app].
    - rewrite lex_sign; [|exact Hr|apply Him|apply Him|apply i_stop, Hi]. rewrite lex_i by assumption. reflexivity.
    - apply lex_sign_i; assumption. }
  cbn [complex_text]. rewrite <- !app_assoc. cbn [app]. destruct re as [(s0, b0)|]; cbn [re_toks].
  - destruct Hre as [Hb Hu]. rewrite <- !app_assoc. rewrite (lex_all p r exact s0 b0 _ Hp Hb Hu (sign_stop r s _)). rewrite HL. reflexivity.
  - cbn [app]. destruct p.
    + destruct Hp as [-> _]. cbn [prefix_text prefix_toks app]. destruct im as [b|]; cbn [im_toks app].
      * rewrite lex_number_bare; [|apply Him|apply Him|apply i_stop, Hi]. rewrite lex_i by assumption. reflexivity.
      * apply lex_number_sign_i; assumption.
    + rewrite (lex_prefix _ r exact _ Hp); [rewrite HL; reflexivity|discriminate|]. destruct s; eexists _, _; (split; [reflexivity|lia]).
    + rewrite (lex_prefix _ r exact _ Hp); [rewrite HL; reflexivity|discriminate|]. destruct s; eexists _, _; (split; [reflexivity|lia]).
    + rewrite (lex_prefix _ r exact _ Hp); [rewrite HL; reflexivity|discriminate|]. destruct s; eexists _, _; (split; [reflexivity|lia]).
Qed.

Definition quiet (t : tok) : Prop := match t_act t, t_group t with AInf, _ | ANan, _ | ASign, false => False | _, _ => True end.
Lemma quiet_body g r b : Forall quiet (body_toks g r b).
Proof.
  destruct b as [ds k|n d k l|ds frac exp]; cbn [body_toks]; [repeat constructor|repeat constructor|]. rewrite !Forall_app. split; [|split].
  - destruct ds; repeat constructor.
  - destruct frac as [f|]; [|constructor]. destruct ds; destruct f; repeat constructor.
  - destruct exp as [((m, s), e)|]; [|constructor]. destruct s as [[|]|]; repeat constructor.
Qed.
Lemma find_imag_skip r exact before : forall l part one, Forall quiet l ->
  find_imag r exact (l ++ before) part one = find_imag r exact before (rev l ++ part) (match l with [] => one | _ => false end).
Proof.
  induction l as [|t l IH]; intros part one H; [reflexivity|]. inversion H as [|? ? Ht Hl]; subst. cbn [app find_imag rev].
  replace ((rev l ++ [t]) ++ part) with (rev l ++ t :: part) by now rewrite <- app_assoc.
  pose proof (IH (t :: part) false Hl) as E. unfold quiet in Ht.
  assert (E' : find_imag r exact (l ++ before) (t :: part) false = find_imag r exact before (rev l ++ t :: part) false) by (rewrite E; destruct l; reflexivity).
  destruct (t_act t), (t_group t); try exact E'; contradiction.
Qed.

Lemma rect_value r exact p re s im i : radices r -> complex_ok r (CRect re s im i) ->
  exists v, scheme_number r exact (re_toks p r re ++ sign_toks (Some s) ++ im_toks r im ++ [Tok AImag [i] false]) = Some v /\ complex_denotes v r (CRect re s im i).
Proof.
  intros Hr (Hre & Him & Hi). set (T := re_toks p r re ++ sign_toks (Some s) ++ im_toks r im ++ [Tok AImag [i] false]).
  set (sg := Tok ASign (sign_text (Some s)) false).
  assert (ET : T = (re_toks p r re ++ sg :: im_toks r im) ++ [Tok AImag [i] false]) by (unfold T; rewrite <- app_assoc; reflexivity).
  assert (Hcre : Forall calm (re_toks p r re)).
  { destruct re as [(s0, b0)|]; [|constructor]. cbn [re_toks]. apply Forall_app. split; [destruct s0 as [[|]|]; repeat constructor|apply calm_body; [exact Hr|apply Hre|apply Hre]]. }
  assert (Hp : Forall (plain 64) T).
  { rewrite ET. rewrite !Forall_app. split; [split|].
    - eapply Forall_impl; [|exact Hcre]. intros ? [? _]. assumption.
    - constructor; [unfold sg; destruct s; reflexivity|]. destruct im as [b|]; [|constructor]. eapply Forall_impl; [|apply (calm_body false r b); [exact Hr|apply Him|apply Him]]. intros ? [? _]. assumption.
    - constructor; [|constructor]. unfold plain. cbn [t_text]. destruct (str_eqb_ok [i] [64]) as [E | E]; [|reflexivity]. apply i_char in Hi. injection E. lia. }
  pose proof (split_none 64 T Hp) as Hs.
  assert (Hh : exists t l, T = t :: l /\ t_act t <> APrefix).
  { unfold T. destruct re as [(s0, b0)|]; cbn [re_toks app sign_toks].
    - destruct s0 as [s0|]; cbn [sign_toks app]; [eexists _, _; split; [reflexivity|discriminate]|].
      destruct (body_toks_head (first_group p None) r b0 (proj1 Hre)) as (t & l & -> & Ht). cbn [app]. eexists _, _. split; [reflexivity|]. destruct Ht as [[x ->] | ->]; discriminate.
    - eexists _, _; split; [reflexivity|discriminate]. }
  assert (Hn : scheme_number r exact T = get_complex r exact T).
  { destruct Hh as (t & l & E & Ht). rewrite E. cbn [scheme_number]. rewrite <- E. rewrite Hs.
    assert (Hrev : exists y, rev T = Tok AImag [i] false :: y) by (rewrite ET, rev_app_distr; eexists; reflexivity). destruct Hrev as [y Hrev]. rewrite Hrev. cbn [t_text map]. rewrite Hi. cbn [str_eqb Nat.eqb andb].
    destruct (t_act t); try reflexivity. congruence. }
  rewrite Hn. clear Hn Hh Hs Hp. unfold get_complex. rewrite ET, removelast_last, rev_app_distr. cbn [rev]. rewrite <- app_assoc. cbn [app].
  assert (Hq : Forall quiet (rev (im_toks r im))) by (apply Forall_rev; destruct im; [apply quiet_body|constructor]).
  rewrite (find_imag_skip r exact _ _ _ _ Hq). rewrite rev_involutive, app_nil_r. unfold sg at 1. cbn [find_imag t_act t_group t_text].
  assert (Him' : exists w, (if match rev (im_toks r im) with [] => true | _ => false end then Some (rev (rev (re_toks p r re)), NInt (if str_eqb (sign_text (Some s)) [43] then 1 else -1))
                   else option_map (fun v => (rev (rev (re_toks p r re)), v)) (get_real r exact 1 (Tok ASign (sign_text (Some s)) false :: im_toks r im)))
                   = Some (re_toks p r re, w) /\ denotes w (inject_Z (sign_val (Some s)) * match im with Some b => body_val r b | None => 1 end)%Q).
  { rewrite rev_involutive. destruct im as [b|]; cbn [im_toks].
    - destruct (get_real_body r exact (sign_val (Some s)) false b Hr (proj1 Him) (proj2 Him)) as (w & H1 & H2 & _). exists w. split; [|exact H2].
      destruct (body_toks_head false r b (proj1 Him)) as (t & l & E & _). destruct (rev (body_toks false r b)) as [|x y] eqn:Er.
      { apply (f_equal (@rev tok)) in Er. rewrite rev_involutive, E in Er. discriminate Er. }
      change (Tok ASign (sign_text (Some s)) false :: body_toks false r b) with (sign_toks (Some s) ++ body_toks false r b). rewrite get_real_sign, H1. reflexivity.
    - cbn [rev]. eexists. split; [reflexivity|]. destruct s; cbn [sign_text str_eqb Nat.eqb andb denotes sign_val]; reflexivity. }
  destruct Him' as (w & Ew & Hw). rewrite Ew. destruct re as [(s0, b0)|]; cbn [re_toks].
  - destruct (get_real_body r exact (sign_val s0) (first_group p s0) b0 Hr (proj1 Hre) (proj2 Hre)) as (v & H1 & H2 & _).
    pose proof (get_real_sign r exact s0 (body_toks (first_group p s0) r b0)) as E. rewrite H1 in E.
    destruct (sign_toks s0 ++ body_toks (first_group p s0) r b0) as [|t l] eqn:El.
    { exfalso. destruct (body_toks_head (first_group p s0) r b0 (proj1 Hre)) as (t & l & E' & _). rewrite E' in El. destruct s0; discriminate El. }
    rewrite E. cbn [option_map]. exists (NComplex v w). split; [reflexivity|]. exists v, w. split; [reflexivity|]. split; [exact H2|exact Hw].
  - exists (NComplex (NInt 0) w). split; [reflexivity|]. exists (NInt 0), w. split; [reflexivity|]. split; [reflexivity|exact Hw].
Qed.

Lemma lex_at r rest : lexn r (64 :: rest) = Tok APolar [64] false :: lexn r rest.
Proof.
  apply lex_one; [|apply no_bound; lia]. unfold num_step. cbn [span is_digit digit_val Nat.leb andb Nat.ltb]. rewrite !special_no by (cbn; lia).
  cbv zeta. cbn -[special span Nat.eqb]. rewrite !andb_false_r. reflexivity.
Qed.
Lemma lex_polar p r exact s b s' b' after : prefix_means p r exact -> complex_ok r (CPolar s b s' b') -> delimited after ->
  lex_number (prefix_text p ++ complex_text (CPolar s b s' b') ++ after)
  = Some (prefix_toks p ++ (sign_toks s ++ body_toks (first_group p s) r b) ++ Tok APolar [64] false :: sign_toks s' ++ body_toks false r b').
Proof.
  intros Hp ([Hb Hu] & [Hb' Hu']) Ha. pose proof (means_radices _ _ _ Hp) as Hr. cbn [complex_text]. rewrite <- !app_assoc. cbn [app]. rewrite <- !app_assoc.
  assert (Hs : stop r (64 :: sign_text s' ++ body_text b' ++ after)) by (unfold stop; destruct (is_digit r 64) eqn:E; [apply is_digit_range in E; lia|reflexivity]).
  rewrite (lex_all p r exact s b _ Hp Hb Hu Hs). rewrite lex_at. rewrite lex_sign; [|exact Hr|exact Hb'|exact Hu'|apply delimited_stop, Ha].
  rewrite (lexn_bound r after (delimited_bound after Ha)), app_nil_r. reflexivity.
Qed.
Lemma split_first_at sep A t C : Forall (plain sep) A -> t_text t = [sep] -> split_first sep (A ++ t :: C) = (A, Some C).
Proof.
  intros H Ht. induction H as [|x A Hx _ IH]; cbn [app split_first].
  - rewrite Ht, str_eqb_refl. reflexivity.
  - rewrite Hx, IH. reflexivity.
Qed.
Lemma polar_value r exact g s b s' b' : radices r -> complex_ok r (CPolar s b s' b') ->
  exists v, scheme_number r exact ((sign_toks s ++ body_toks g r b) ++ Tok APolar [64] false :: sign_toks s' ++ body_toks false r b') = Some v /\ complex_denotes v r (CPolar s b s' b').
Proof.
  intros Hr ([Hb Hu] & [Hb' Hu']).
  assert (Hp : forall g s b, body_ok r b -> no_unknown b -> Forall (plain 64) (sign_toks s ++ body_toks g r b)).
  { intros g0 s0 b0 H1 H2. apply Forall_app. split; [destruct s0 as [[|]|]; repeat constructor|]. eapply Forall_impl; [|apply (calm_body g0 r b0 Hr H1 H2)]. intros ? [? _]. assumption. }
  pose proof (split_first_at 64 _ (Tok APolar [64] false) (sign_toks s' ++ body_toks false r b') (Hp g s b Hb Hu) eq_refl) as E1.
  pose proof (split_none 64 _ (Hp false s' b' Hb' Hu')) as E2. unfold split_two in E2.
  assert (E : split_two 64 ((sign_toks s ++ body_toks g r b) ++ Tok APolar [64] false :: sign_toks s' ++ body_toks false r b') = (sign_toks s ++ body_toks g r b, Some (sign_toks s' ++ body_toks false r b'))).
  { unfold split_two. rewrite E1. cbn [option_map]. destruct (split_first 64 (sign_toks s' ++ body_toks false r b')) as [x y]. injection E2; intros _ ->. reflexivity. }
  assert (Hh : exists t l, (sign_toks s ++ body_toks g r b) ++ Tok APolar [64] false :: sign_toks s' ++ body_toks false r b' = t :: l /\ t_act t <> APrefix).
  { destruct s as [s|]; cbn [sign_toks app]; [eexists _, _; split; [reflexivity|discriminate]|].
    destruct (body_toks_head g r b Hb) as (t & l & -> & Ht). cbn [app]. eexists _, _. split; [reflexivity|]. destruct Ht as [[x ->] | ->]; discriminate. }
  destruct (get_real_body r exact (sign_val s) g b Hr Hb Hu) as (v & H1 & H2 & _). destruct (get_real_body r exact (sign_val s') false b' Hr Hb' Hu') as (w & H3 & H4 & _).
  exists (NRect v w). split; [|exists v, w; split; [reflexivity|]; split; [exact H2|exact H4]].
  destruct Hh as (t & l & El & Ht). rewrite El in E |- *. cbn [scheme_number]. rewrite E. rewrite !get_real_sign, H1, H3. destruct (t_act t); try reflexivity. congruence.
Qed.

Theorem complex_read p r exact c after : prefix_means p r exact -> complex_ok r c -> delimited after ->
  exists v, scheme_number_from_text (prefix_text p ++ complex_text c ++ after) = Some v /\ complex_denotes v r c.
Proof.
  intros Hp Hc Ha. pose proof (means_radices _ _ _ Hp) as Hr. unfold scheme_number_from_text. destruct c as [re s im i|s b s' b'].
  - rewrite (lex_rect p r exact re s im i after Hp Hc Ha). rewrite (scheme_number_prefix p r exact _ Hp). exact (rect_value r exact p re s im i Hr Hc).
  - rewrite (lex_polar p r exact s b s' b' after Hp Hc Ha). rewrite (scheme_number_prefix p r exact _ Hp). exact (polar_value r exact (first_group p s) s b s' b' Hr Hc).
Qed.
