(** C52, C53, C78, C79: the registry of languages. *)
From Verif Require Import Base BaseFacts RegistryModel RegistrySpec RegistryProofs.
From Coq Require Import Permutation Sorted.

(** C52. A language is found by its name, else by an alias, else by one of these in another case, else by its class name in any
    case; the first registered one of those. None is returned only if there is no such language. *)
Theorem C52_qualname : forall (lower : str -> str) (reg : registry) (name : str),
  Forall (fun x => is_qualified (fst x)) reg ->
  exists r, qualname lower reg name = Some r
    /\ match r with
       | None => forall x h, In x reg -> ~ matches lower name h x
       | Some q => exists before e after h, reg = before ++ (q, e) :: after /\ matches lower name h (q, e)
                     /\ (forall y, In y before -> ~ matches lower name h y)
                     /\ (forall y h', In y reg -> rank h' < rank h -> ~ matches lower name h' y)
       end.
Proof.
  intros lower reg name Hq. unfold qualname. rewrite qualname_loop_eq by exact Hq. cbn [app]. rewrite find_first.
  assert (Hc : forall y, In y reg -> (f_class lower name y = true <-> matches lower name ByClass y)) by (intros y Hy; apply f_class_ok; rewrite Forall_forall in Hq; apply Hq, Hy).
  pose proof (filter_first (f_exact name) reg) as H0. pose proof (filter_first (f_alias name) reg) as H1.
  pose proof (filter_first (f_nocase lower name) reg) as H2. pose proof (filter_first (f_class lower name) reg) as H3.
  assert (No : forall (f : str * entry -> bool) (P : str * entry -> Prop) y, (f y = true <-> P y) -> f y = false -> ~ P y).
  { intros f P y E Hf HP. apply E in HP. congruence. }
  destruct (filter (f_exact name) reg) as [|[q e] r0]; cbn [hd_error].
  2:{ eexists. split; [reflexivity|]. destruct H0 as (l1 & l2 & E & Hm & Hn). exists l1, e, l2, ByName. split; [exact E|]. split; [apply f_exact_ok; exact Hm|]. split.
      - intros y Hy. apply (No _ _ y (f_exact_ok lower name y)), Hn, Hy.
      - intros y h' _ Hr. cbn [rank] in Hr. lia. }
  assert (N0 : forall y, In y reg -> ~ matches lower name ByName y) by (intros y Hy; apply (No _ _ y (f_exact_ok lower name y)), H0, Hy).
  eexists. split; [reflexivity|].
  destruct (filter (f_alias name) reg) as [|[q e] r1]; cbn [map app hd_error fst].
  2:{ destruct H1 as (l1 & l2 & E & Hm & Hn). exists l1, e, l2, ByAlias. split; [exact E|]. split; [apply (f_alias_ok lower); exact Hm|]. split.
      - intros y Hy. apply (No _ _ y (f_alias_ok lower name y)), Hn, Hy.
      - intros y h' Hy Hr. destruct h'; cbn [rank] in Hr; try lia. auto. }
  assert (N1 : forall y, In y reg -> ~ matches lower name ByAlias y) by (intros y Hy; apply (No _ _ y (f_alias_ok lower name y)), H1, Hy).
  destruct (filter (f_nocase lower name) reg) as [|[q e] r2]; cbn [map app hd_error fst].
  2:{ destruct H2 as (l1 & l2 & E & Hm & Hn). exists l1, e, l2, ByCase. split; [exact E|]. split; [apply f_nocase_ok; exact Hm|]. split.
      - intros y Hy. apply (No _ _ y (f_nocase_ok lower name y)), Hn, Hy.
      - intros y h' Hy Hr. destruct h'; cbn [rank] in Hr; try lia; auto. }
  assert (N2 : forall y, In y reg -> ~ matches lower name ByCase y) by (intros y Hy; apply (No _ _ y (f_nocase_ok lower name y)), H2, Hy).
  destruct (filter (f_class lower name) reg) as [|[q e] r3]; cbn [map app hd_error fst].
  - intros x h Hx. destruct h; auto. apply (No _ _ x (Hc x Hx)), H3, Hx.
  - destruct H3 as (l1 & l2 & E & Hm & Hn). assert (Hin : forall y, In y ((q, e) :: l1) -> In y reg) by (intros y [<-|Hy]; rewrite E; apply in_or_app; [right; left; reflexivity|left; exact Hy]).
    exists l1, e, l2, ByClass. split; [exact E|]. split; [apply Hc; [apply Hin; left; reflexivity|exact Hm]|]. split.
    + intros y Hy. apply (No _ _ y (Hc y (Hin y (or_intror Hy)))), Hn, Hy.
    + intros y h' Hy Hr. destruct h'; cbn [rank] in Hr; try lia; auto.
Qed.
Print Assumptions C52_qualname.

(** Strings in the examples: "c" is the entry's name; lower case is 32 more. *)
Definition up_lower (s : str) : str := map (fun c => if (65 <=? c) && (c <=? 90) then c + 32 else c) s.
Definition lang (name : str) (aliases : list str) : entry := Entry name name [] [] aliases [] [] [].
(** m.Css.root ("X"), m.Tex.root ("css" with alias "Y") *)
Definition css_reg : registry :=
  [([109; 46; 67; 115; 115; 46; 114], lang [88] []); ([109; 46; 84; 46; 114], lang [99; 115; 115] [[89]])].
Example C52_example : Forall (fun x => is_qualified (fst x)) css_reg
  /\ qualname up_lower css_reg [67; 83; 83] = Some (Some [109; 46; 84; 46; 114])          (* CSS: other case before class *)
  /\ qualname up_lower css_reg [120] = Some (Some [109; 46; 67; 115; 115; 46; 114])       (* x *)
  /\ qualname up_lower css_reg [116] = Some (Some [109; 46; 84; 46; 114])                 (* t: class T *)
  /\ qualname up_lower css_reg [122] = Some None.
Proof.
  split; [|repeat split; reflexivity]. repeat constructor; cbn [fst].
  - exists [109], [67; 115; 115], [114]. repeat split; cbn; intros H; repeat destruct H as [H|H]; try discriminate; exact H.
  - exists [109], [84], [114]. repeat split; cbn; intros H; repeat destruct H as [H|H]; try discriminate; exact H.
Qed.

(** A class name in the right case does not come before one in another case, although a name in the right case comes before
    one in another case: classes CSS and Css, looking for Css. *)
Theorem C52_class_case_refuted : exists (reg : registry) (name q m r : str),
  Forall (fun x => is_qualified (fst x)) reg /\ In (q, lang [90] []) reg /\ qualified q m name r
  /\ exists q', qualname up_lower reg name = Some (Some q') /\ forall m' r', ~ qualified q' m' name r'.
Proof.
  exists [([109; 46; 67; 83; 83; 46; 114], lang [88] []); ([109; 46; 67; 115; 115; 46; 114], lang [90] [])], [67; 115; 115], [109; 46; 67; 115; 115; 46; 114], [109], [114].
  assert (Q1 : qualified [109; 46; 67; 83; 83; 46; 114] [109] [67; 83; 83] [114]) by (apply rsplit2_qualified; reflexivity).
  assert (Q2 : qualified [109; 46; 67; 115; 115; 46; 114] [109] [67; 115; 115] [114]) by (apply rsplit2_qualified; reflexivity).
  split; [constructor; [exists [109], [67; 83; 83], [114]; exact Q1|constructor; [exists [109], [67; 115; 115], [114]; exact Q2|constructor]]|].
  split; [right; left; reflexivity|]. split; [exact Q2|]. eexists. split; [reflexivity|]. intros m' r' H. apply rsplit2_qualified in H. discriminate.
Qed.
Print Assumptions C52_class_case_refuted.

(** C78. What [suggest] returns: let [fw], [mw] and [gw] be the weights of the languages for the file name (the largest of
    the patterns that match), for the mime type and for the contents (the sum of the expressions that are found). If no file name
    and mime type matches, the languages with a weight for the contents, sorted on that. Else the languages that match file name
    or mime type, sorted on the sum of these two weights, or, if no language is the only one with the largest sum, on the sum of
    all three weights. *)
Theorem C78_suggest : forall (fnmatch search : str -> str -> bool) (reg : registry) (filename mimetype contents : str) (fw mw gw : str -> nat),
  NoDup (map fst reg) ->
  (forall q e, In (q, e) reg ->
     heaviest (fun p => filename <> [] /\ fnmatch filename p = true) (e_filenames e) (fw q)
     /\ heaviest (fun m => mimetype <> [] /\ m = mimetype) (e_mimetypes e) (mw q)
     /\ adds_up (fun r => contents <> [] /\ search r (firstn 5000 contents) = true) (e_guesses e) (gw q)) ->
  let names := map fst reg in
  let matched := filter (fun q => 0 <? fw q) names ++ filter (fun q => (fw q =? 0) && (0 <? mw q)) names in
  let result := suggest fnmatch search reg filename mimetype contents in
  (matched = [] -> sorted_on gw (filter (fun q => 0 <? gw q) names) result)
  /\ (forall top, In top matched -> (forall q, In q matched -> q <> top -> fw q + mw q < fw top + mw top) ->
        sorted_on (fun q => fw q + mw q) matched result)
  /\ (forall a b, In a matched -> In b matched -> a <> b -> fw a + mw a = fw b + mw b -> (forall q, In q matched -> fw q + mw q <= fw a + mw a) ->
        sorted_on (fun q => fw q + mw q + gw q) matched result).
Proof.
  intros fnmatch search reg filename mimetype contents fw mw gw Hn Hw names matched. unfold suggest. cbv zeta.
  generalize dependent (firstn 5000 contents). intros head Hw.
  set (F := fun name => max_weight (fnmatch filename) (e_filenames (entry_of reg name))).
  set (M := fun name => max_weight (fun m => str_eqb m mimetype) (e_mimetypes (entry_of reg name))).
  set (G := fun name => sum_weight (fun r => search r head) (e_guesses (entry_of reg name))).
  assert (Hent : forall q, In q names -> In (q, entry_of reg q) reg).
  { intros q Hq. apply in_map_iff in Hq as ([q' e] & E & Hin). cbn [fst] in E. subst q'. unfold entry_of. rewrite (dict_get_nodup _ _ _ Hn Hin). exact Hin. }
  assert (HF : forall q, In q names -> fw q = if filled filename then F q else 0).
  { intros q Hq. destruct (Hw _ _ (Hent q Hq)) as (H1 & _ & _). destruct filename as [|c f]; cbn [filled].
    - eapply heaviest_none; [|exact H1]. intros p [H _]. contradiction.
    - eapply heaviest_unique; [exact H1|]. eapply heaviest_ext; [|apply max_weight_ok]. cbn beta. intros p. split; [intros H; split; [discriminate|exact H]|tauto]. }
  assert (HM : forall q, In q names -> mw q = if filled mimetype then M q else 0).
  { intros q Hq. destruct (Hw _ _ (Hent q Hq)) as (_ & H1 & _). destruct mimetype as [|c f]; cbn [filled].
    - eapply heaviest_none; [|exact H1]. intros p [H _]. contradiction.
    - eapply heaviest_unique; [exact H1|]. eapply heaviest_ext; [|apply max_weight_ok]. cbn beta. intros p. rewrite str_eqb_spec. split; [intros H; split; [discriminate|exact H]|tauto]. }
  assert (HG : forall q, In q names -> gw q = if filled contents then G q else 0).
  { intros q Hq. destruct (Hw _ _ (Hent q Hq)) as (_ & _ & H1). destruct contents as [|c f]; cbn [filled].
    - eapply adds_up_none; [|exact H1]. intros p [H _]. contradiction.
    - apply sum_weight_unique. eapply adds_up_ext; [|exact H1]. intros p. cbn beta. split; [tauto|intros H; split; [discriminate|exact H]]. }
  assert (Mem : forall q, In q names -> existsb (str_eqb q) names = true) by (intros q Hq; apply mem_str; exact Hq).
  fold names.
  (* the weights for the file name *)
  set (d1 := if filled filename then fold_left (fun d name => add_weight d name (max_weight (fnmatch filename) (e_filenames (entry_of reg name)))) names [] else []).
  assert (D1 : map fst d1 = filter (fun q => 0 <? fw q) names /\ forall q, In q names -> weight_of d1 q = fw q).
  { change d1 with (if filled filename then fold_left (fun d n => add_weight d n (F n)) names [] else []). destruct (filled filename) eqn:E.
    - destruct (weights_fold F names [] Hn) as [K W]. split.
      + rewrite K. cbn [map app]. apply filter_ext_in. intros q Hq. cbn [existsb negb]. rewrite andb_true_r, HF by exact Hq. reflexivity.
      + intros q Hq. rewrite W, Mem, HF by exact Hq. reflexivity.
    - split.
      + cbn [map]. rewrite (filter_ext_in _ (fun _ => false)); [symmetry; apply filter_false|]. intros q Hq. rewrite HF by exact Hq. reflexivity.
      + intros q Hq. rewrite HF by exact Hq. reflexivity. }
  destruct D1 as [K1 W1]. clearbody d1.
  (* and the mime type *)
  set (d2 := if filled mimetype then fold_left (fun d name => add_weight d name (max_weight (fun m => str_eqb m mimetype) (e_mimetypes (entry_of reg name)))) names d1 else d1).
  assert (D2 : map fst d2 = matched /\ forall q, In q names -> weight_of d2 q = fw q + mw q).
  { assert (Em : forall q, In q names -> negb (existsb (str_eqb q) (map fst d1)) = (fw q =? 0)).
    { intros q Hq. rewrite K1. destruct (existsb (str_eqb q) (filter (fun q => 0 <? fw q) names)) eqn:Ex; cbn [negb]; symmetry.
      - apply mem_str in Ex. apply filter_In in Ex as [_ Ex]. apply Nat.ltb_lt in Ex. apply Nat.eqb_neq. lia.
      - apply Nat.eqb_eq. destruct (Nat.eq_dec (fw q) 0) as [H|H]; [exact H|]. exfalso. assert (X : existsb (str_eqb q) (filter (fun q => 0 <? fw q) names) = true); [|congruence].
        apply mem_str, filter_In. split; [exact Hq|]. apply Nat.ltb_lt. lia. }
    unfold matched. change d2 with (if filled mimetype then fold_left (fun d n => add_weight d n (M n)) names d1 else d1). destruct (filled mimetype) eqn:E.
    - destruct (weights_fold M names d1 Hn) as [K W]. split.
      + rewrite K, K1. f_equal. apply filter_ext_in. intros q Hq. rewrite <- K1, Em, HM by exact Hq. apply andb_comm.
      + intros q Hq. rewrite W, Mem, W1, HM by exact Hq. reflexivity.
    - split.
      + rewrite K1. rewrite (filter_ext_in (fun q => (fw q =? 0) && (0 <? mw q)) (fun _ => false)); [|intros q Hq; rewrite HM by exact Hq; apply andb_false_r].
        rewrite filter_false, app_nil_r. reflexivity.
      + intros q Hq. rewrite W1, HM by exact Hq. lia. }
  destruct D2 as [K2 W2]. clearbody d2.
  assert (Hsub : forall q, In q matched -> In q names /\ 0 < fw q + mw q).
  { intros q Hq. apply in_app_iff in Hq as [Hq|Hq]; apply filter_In in Hq as [H1 H2]; (split; [exact H1|]).
    - apply Nat.ltb_lt in H2. lia.
    - apply andb_true_iff in H2 as [_ H2]. apply Nat.ltb_lt in H2. lia. }
  set (base := fun q => fw q + mw q).
  assert (Hnm : NoDup matched).
  { unfold matched. clear -Hn. fold names in Hn. induction names as [|x l IH]; [constructor|]. inversion Hn as [|? ? H1 H2]; subst. specialize (IH H2).
    assert (Hx : ~ In x (filter (fun q => 0 <? fw q) l ++ filter (fun q => (fw q =? 0) && (0 <? mw q)) l)).
    { rewrite in_app_iff, !filter_In. tauto. }
    cbn [filter]. destruct (0 <? fw x) eqn:E1.
    - assert (E2 : (fw x =? 0) = false) by (apply Nat.eqb_neq; apply Nat.ltb_lt in E1; lia). rewrite E2. cbn [andb app]. constructor; assumption.
    - destruct ((fw x =? 0) && (0 <? mw x)); [|assumption]. apply (Permutation_NoDup (l := x :: filter (fun q => 0 <? fw q) l ++ filter (fun q => (fw q =? 0) && (0 <? mw q)) l)); [apply Permutation_middle|constructor; assumption]. }
  assert (Hsort : sorted_on base matched (sort_desc (weight_of d2) (map fst d2))).
  { rewrite K2. eapply sorted_on_ext; [|apply sort_desc_ok]. intros q Hq. apply W2. apply Hsub. exact Hq. }
  (* the guesses, for a list of names *)
  assert (Hguess : forall ns, NoDup ns -> (forall q, In q ns -> In q names) ->
     let d3 := if filled contents then fold_left (fun d n => add_weight d n (G n)) ns d2 else d2 in
     map fst d3 = matched ++ filter (fun q => (0 <? gw q) && negb (existsb (str_eqb q) matched)) ns
     /\ forall q, In q names -> weight_of d3 q = base q + (if existsb (str_eqb q) ns then gw q else 0)).
  { intros ns Hns Hsubn. cbv zeta. destruct (filled contents) eqn:E.
    - destruct (weights_fold G ns d2 Hns) as [K W]. split.
      + rewrite K, K2. f_equal. apply filter_ext_in. intros q Hq. rewrite HG by auto. reflexivity.
      + intros q Hq. rewrite W, W2, HG by exact Hq. reflexivity.
    - split.
      + rewrite K2. rewrite (filter_ext_in _ (fun _ => false)); [rewrite filter_false, app_nil_r; reflexivity|].
        intros q Hq. rewrite HG by auto. reflexivity.
      + intros q Hq. rewrite W2, HG by exact Hq. destruct (existsb (str_eqb q) ns); unfold base; lia. }
  destruct Hsort as (P & S & St).
  assert (Hfull : forall ns, Permutation matched ns -> matched <> [] ->
     sorted_on (fun q => base q + gw q) matched
       (let d3 := if filled contents then fold_left (fun d n => add_weight d n (G n)) ns d2 else d2 in sort_desc (weight_of d3) (map fst d3))).
  { intros ns Pn Hne. destruct (Hguess ns) as [K W].
    - eapply Permutation_NoDup; [exact Pn|exact Hnm].
    - intros q Hq. apply Hsub. eapply Permutation_in; [apply Permutation_sym; exact Pn|exact Hq].
    - cbv zeta in K, W |- *. rewrite K.
      assert (X : filter (fun q => (0 <? gw q) && negb (existsb (str_eqb q) matched)) ns = []).
      { destruct (filter _ ns) as [|y l] eqn:Ef; [reflexivity|]. exfalso. assert (Hy : In y (filter (fun q => (0 <? gw q) && negb (existsb (str_eqb q) matched)) ns)) by (rewrite Ef; left; reflexivity).
        apply filter_In in Hy as [Hy1 Hy2]. apply andb_true_iff in Hy2 as [_ Hy2]. apply (Permutation_in _ (Permutation_sym Pn)) in Hy1. apply mem_str in Hy1. rewrite Hy1 in Hy2. discriminate. }
      rewrite X, app_nil_r. eapply sorted_on_ext; [|apply sort_desc_ok]. intros q Hq. rewrite W by (apply Hsub; exact Hq).
      assert (Hq' : existsb (str_eqb q) ns = true) by (apply mem_str; eapply Permutation_in; eassumption). rewrite Hq'. reflexivity. }
  unfold G in Hfull, Hguess.
  destruct (sort_desc (weight_of d2) (map fst d2)) as [|n [|m r]] eqn:Es.
  - (* nothing matched *)
    assert (Hm : matched = []) by (apply Permutation_sym, Permutation_nil in P; exact P). split; [|split].
    + intros _. destruct (Hguess names Hn (fun _ H => H)) as [K W]. cbv zeta in K, W |- *. rewrite K, Hm. cbn [app].
      assert (X : filter (fun q => (0 <? gw q) && negb (existsb (str_eqb q) [])) names = filter (fun q => 0 <? gw q) names) by (apply filter_ext; intros q; apply andb_true_r).
      rewrite X. eapply sorted_on_ext; [|apply sort_desc_ok]. intros q Hq. apply filter_In in Hq as [Hq _]. rewrite W, Mem by exact Hq. unfold base.
      assert (Z : fw q + mw q = 0); [|lia]. destruct (Nat.eq_dec (fw q + mw q) 0) as [H|H]; [exact H|]. exfalso.
      assert (Hin : In q matched); [|rewrite Hm in Hin; destruct Hin]. unfold matched. rewrite in_app_iff, !filter_In, andb_true_iff, !Nat.ltb_lt, Nat.eqb_eq.
      destruct (Nat.eq_dec (fw q) 0); [right|left]; (split; [exact Hq|]); lia.
    + intros top Ht. rewrite Hm in Ht. destruct Ht.
    + intros a b Ha. rewrite Hm in Ha. destruct Ha.
  - assert (Hm : matched = [n]) by (apply Permutation_length_1_inv; apply Permutation_sym; exact P). split; [|split].
    + rewrite Hm. discriminate.
    + intros top _ _. split; [exact P|]. split; [exact S|exact St].
    + intros a b Ha Hb Hab. exfalso. rewrite Hm in Ha, Hb. destruct Ha as [Ha|[]], Hb as [Hb|[]]. congruence.
  - assert (Hne : matched <> []) by (intros H; rewrite H in P; apply Permutation_nil in P; discriminate).
    assert (Hin : In n matched /\ In m matched) by (split; (eapply Permutation_in; [apply Permutation_sym; exact P|]); [left; reflexivity|right; left; reflexivity]).
    destruct Hin as [Hin1 Hin2]. rewrite (W2 m), (W2 n) by (apply Hsub; assumption).
    assert (Hnd : NoDup (n :: m :: r)) by (eapply Permutation_NoDup; [exact P|exact Hnm]).
    assert (Htop : forall q, In q matched -> base q <= base n).
    { intros q Hq. apply (Permutation_in _ P) in Hq. inversion S as [|? ? S1 S2]; subst. rewrite Forall_forall in S2. destruct Hq as [<-|Hq]; [lia|apply S2, Hq]. }
    split; [intros H; contradiction|]. fold (base m) (base n). split.
    + intros top Ht Hu. assert (Etop : n = top).
      { destruct (str_dec n top) as [H|H]; [exact H|]. specialize (Hu n Hin1 H). specialize (Htop top Ht). unfold base in Htop. lia. }
      subst top. assert (E : (base m <? base n) = true); [|rewrite E; split; [exact P|split; [exact S|exact St]]].
      apply Nat.ltb_lt. apply Hu; [exact Hin2|]. intros ->. inversion Hnd as [|? ? H1 _]; subst. apply H1. left. reflexivity.
    + intros a b Ha Hb Hab Heq Hmax. destruct (base m <? base n) eqn:E; [|apply Hfull; assumption].
      exfalso. apply Nat.ltb_lt in E. assert (Hrest : forall q, In q matched -> q <> n -> base q <= base m).
      { intros q Hq Hqn. apply (Permutation_in _ P) in Hq. inversion S as [|? ? S1 S2]; subst. inversion S1 as [|? ? S3 S4]; subst. rewrite Forall_forall in S4.
        destruct Hq as [Hq|[<-|Hq]]; [congruence|lia|apply S4, Hq]. }
      pose proof (Hmax n Hin1) as Hx. unfold base in *. destruct (str_dec a n) as [Ea|Ea].
      * subst a. assert (Eb : b <> n) by congruence. specialize (Hrest b Hb Eb). lia.
      * specialize (Hrest a Ha Ea). lia.
Qed.
Print Assumptions C78_suggest.

(** "The filename has the most weight; if two have the same weight, the mimetype is looked at" is not what happens. *)
Definition pat (name : str) (f m g : list (str * nat)) : entry := Entry name name [] [] [] f m g.
Definition two_reg : registry := [([97], pat [97] [([1], 5)] [] []); ([98], pat [98] [([1], 4)] [([2], 2)] [])].
Theorem C78_filename_first_refuted : exists (reg : registry) (filename mimetype contents : str) (a b : str) ea eb wa wb,
  NoDup (map fst reg) /\ In (a, ea) reg /\ In (b, eb) reg
  /\ heaviest (fun p => p = filename) (e_filenames ea) wa /\ heaviest (fun p => p = filename) (e_filenames eb) wb /\ wb < wa
  /\ suggest str_eqb str_eqb reg filename mimetype contents = [b; a].
Proof.
  exists two_reg, [1], [2], [], [97], [98], (pat [97] [([1], 5)] [] []), (pat [98] [([1], 4)] [([2], 2)] []), 5, 4.
  split; [repeat constructor; cbn; intros H; repeat destruct H as [H|H]; try discriminate; exact H|].
  split; [left; reflexivity|]. split; [right; left; reflexivity|].
  split; [split; [right; exists [1]; split; [left; reflexivity|reflexivity]|intros p x [[= <- <-]|[]] _; lia]|].
  split; [split; [right; exists [1]; split; [left; reflexivity|reflexivity]|intros p x [[= <- <-]|[]] _; lia]|]. split; [lia|reflexivity].
Qed.
Print Assumptions C78_filename_first_refuted.

(** Three languages for the same file name, the contents decide between two; and only contents. *)
Definition tie_reg : registry :=
  [([97], pat [97] [([1], 5)] [] [([7], 1)]); ([98], pat [98] [([1], 5)] [] [([7], 2); ([7], 3); ([8], 9)]); ([99], pat [99] [] [] [([7], 4)])].
Example C78_example :
  suggest str_eqb str_eqb tie_reg [1] [] [7] = [[98]; [97]]
  /\ suggest str_eqb str_eqb tie_reg [1] [] [8] = [[98]; [97]]
  /\ suggest str_eqb str_eqb tie_reg [1] [] [] = [[97]; [98]]
  /\ suggest str_eqb str_eqb tie_reg [3] [] [7] = [[98]; [99]; [97]]
  /\ suggest str_eqb str_eqb two_reg [1] [2] [7] = [[98]; [97]].
Proof. repeat split; reflexivity. Qed.

(** C53 is false: an empty registry is not asked, and neither is its fallback. *)
Definition imported (m c r : str) : option str := Some (m ++ c ++ r).
Theorem C53_refuted : exists (reg : registry) (name : str) (found : str),
  find_lexicon up_lower str_eqb str_eqb str imported [reg] name [] [] [] = Some (Some found)
  /\ find_lexicon up_lower str_eqb str_eqb str imported [[]; reg] name [] [] [] = Some None.
Proof. exists css_reg, [88]. eexists. split; reflexivity. Qed.
Print Assumptions C53_refuted.

(** What holds: the registries are asked one by one up to the first empty one; the lexicon that is returned is the first one
    suggested, or found by name, by the first registry that has one. *)
Definition asks (lower : str -> str) (fnmatch search : str -> str -> bool) (reg : registry) (name filename mimetype contents : str) : option str :=
  match name with
  | [] => hd_error (suggest fnmatch search reg filename mimetype contents)
  | _ => match qualname lower reg name with Some r => r | None => None end
  end.
Theorem C53_partial : forall (lower : str -> str) (fnmatch search : str -> str -> bool) (lex : Type) (import : str -> str -> str -> option lex)
    (chain : list registry) (name filename mimetype contents : str),
  Forall (fun reg => reg <> [] /\ Forall (fun x => is_qualified (fst x)) reg) chain ->
  (forall m c r, import m c r <> None) ->
  forall after, after = [] \/ (exists rest, after = [] :: rest) ->
  exists r, find_lexicon lower fnmatch search lex import (chain ++ after) name filename mimetype contents = Some r
    /\ match r with
       | None => forall reg, In reg chain -> asks lower fnmatch search reg name filename mimetype contents = None
       | Some l => exists before reg rest q m c r', chain = before ++ reg :: rest
                     /\ (forall y, In y before -> asks lower fnmatch search y name filename mimetype contents = None)
                     /\ asks lower fnmatch search reg name filename mimetype contents = Some q
                     /\ qualified q m c r' /\ import m c r' = Some l
       end.
Proof.
  intros lower fnmatch search lex import chain name filename mimetype contents Hc Hi after Ha.
  induction Hc as [|reg chain [Hne Hq] Hc IH]; cbn [app].
  - exists None. split; [destruct Ha as [->|(rest & ->)]; reflexivity|]. intros reg [].
  - assert (Hsug : forall q, hd_error (suggest fnmatch search reg filename mimetype contents) = Some q -> In q (map fst reg)).
    { intros q Hs. assert (Hin : In q (suggest fnmatch search reg filename mimetype contents)) by (destruct (suggest fnmatch search reg filename mimetype contents); [discriminate|injection Hs as ->; left; reflexivity]).
      eapply suggest_in. exact Hin. }
    set (found := if filled name then match qualname lower reg name with None => None | Some (Some q) => Some (if filled q then Some q else None) | Some None => Some None end
                  else Some (hd_error (suggest fnmatch search reg filename mimetype contents))).
    assert (Hfound : found = Some (asks lower fnmatch search reg name filename mimetype contents)
        /\ forall q, asks lower fnmatch search reg name filename mimetype contents = Some q -> In q (map fst reg)).
    { unfold found, asks. destruct name as [|c n]; cbn [filled]; [split; [reflexivity|exact Hsug]|].
      destruct (C52_qualname lower reg (c :: n) Hq) as (r & -> & Hr). destruct r as [q|]; [|split; [reflexivity|discriminate]].
      destruct Hr as (l1 & e & l2 & h & E & _). assert (Hin : In q (map fst reg)) by (rewrite E, map_app; apply in_or_app; right; left; reflexivity).
      split; [|intros q' [= <-]; exact Hin]. apply in_map_iff in Hin as (x & <- & Hx). rewrite Forall_forall in Hq. destruct (Hq x Hx) as (m & cl & r & Hqq & _).
      rewrite Hqq. destruct m; reflexivity. }
    destruct Hfound as [Hfound Hin].
    assert (Eq : find_lexicon lower fnmatch search lex import (reg :: chain ++ after) name filename mimetype contents =
      match found with None => None | Some (Some q) => option_map Some (lexicon lex import q) | Some None => find_lexicon lower fnmatch search lex import (chain ++ after) name filename mimetype contents end)
      by (unfold found; clear -Hne; destruct reg; [contradiction|reflexivity]).
    rewrite Hfound in Eq. destruct (asks lower fnmatch search reg name filename mimetype contents) as [q|] eqn:Ea.
    + specialize (Hin q eq_refl). apply in_map_iff in Hin as (x & Ex & Hx). rewrite Forall_forall in Hq. destruct (Hq x Hx) as (m & cl & r & Hqq). rewrite Ex in Hqq.
      unfold lexicon in Eq. rewrite (proj1 (rsplit2_qualified _ _ _ _) Hqq) in Eq. destruct (import m cl r) as [l|] eqn:El; [|destruct (Hi _ _ _ El)]. cbn [option_map] in Eq.
      exists (Some l). split; [exact Eq|]. exists [], reg, chain, q, m, cl, r. split; [reflexivity|]. split; [intros y []|]. auto.
    + destruct IH as (r & Er & Hr). exists r. split; [exact (eq_trans Eq Er)|]. destruct r as [l|].
      * destruct Hr as (before & reg' & rest & q & m & cl & r' & -> & H1 & H2). exists (reg :: before), reg', rest, q, m, cl, r'. split; [reflexivity|]. split; [|exact H2].
        intros y [<-|Hy]; auto.
      * intros y [<-|Hy]; auto.
Qed.
Print Assumptions C53_partial.

Example C53_example : Forall (fun reg => reg <> [] /\ Forall (fun x => is_qualified (fst x)) reg) [[([109; 46; 84; 46; 114], lang [90] [])]; css_reg]
  /\ find_lexicon up_lower str_eqb str_eqb str imported [[([109; 46; 84; 46; 114], lang [90] [])]; css_reg] [88] [] [] [] = Some (Some [109; 67; 115; 115; 114]).
Proof.
  split; [|reflexivity]. constructor; [|constructor; [|constructor]].
  - split; [discriminate|]. constructor; [|constructor]. exists [109], [84], [114]. apply rsplit2_qualified. reflexivity.
  - split; [discriminate|apply C52_example].
Qed.

(** C79. After any number of additions: names are unique, and no entry lacks a name or a description; an addition that
    inherits from an existing entry never fails and takes its place, an addition that fails changes nothing, other entries
    stay as they are, and a section has exactly its entries. *)
Inductive registered : registry -> Prop :=
| reg_empty : registered []
| reg_add reg q e inherit : registered reg -> registered (fst (add reg q e inherit)).
Theorem C79_add : forall reg, registered reg ->
  NoDup (map fst reg)
  /\ (forall q e, In (q, e) reg -> e_name e <> [] /\ e_desc e <> [])
  /\ (forall q e, let '(reg', r) := add reg q e None in
        (r = Added <-> e_name e <> [] /\ e_desc e <> [])
        /\ (r = Added -> forall q', dict_get q' reg' = if str_eqb q q' then Some e else dict_get q' reg)
        /\ (r <> Added -> reg' = reg))
  /\ (forall q e i, i <> [] -> let '(reg', r) := add reg q e (Some i) in
        match dict_get i reg with
        | None => r = KeyError /\ reg' = reg
        | Some t => r = Added /\ exists m, inherits t e m /\ forall q', dict_get q' reg' = if str_eqb q q' then Some m else if str_eqb i q' then None else dict_get q' reg
        end)
  /\ (forall s, match dict_get s (by_section reg) with
                | Some d => d <> [] /\ d = filter (fun x => str_eqb (e_section (snd x)) s) reg
                | None => forall x, In x reg -> e_section (snd x) <> s
                end)
  /\ NoDup (map fst (by_section reg)).
Proof.
  intros reg Hr.
  assert (Inv : NoDup (map fst reg) /\ forall q e, In (q, e) reg -> e_name e <> [] /\ e_desc e <> []).
  { induction Hr as [|reg q e inherit Hr [IH1 IH2]]; [split; [constructor|intros q e []]|].
    assert (Hch : forall d e', NoDup (map fst d) -> (forall q e, In (q, e) d -> e_name e <> [] /\ e_desc e <> []) ->
       NoDup (map fst (fst (checked d q e'))) /\ forall q0 e0, In (q0, e0) (fst (checked d q e')) -> e_name e0 <> [] /\ e_desc e0 <> []).
    { intros d e' Hd Hd'. unfold checked. destruct (e_name e') as [|c n] eqn:En; cbn [filled]; [split; assumption|]. destruct (e_desc e') as [|c' n'] eqn:Ed; cbn [filled fst]; [split; assumption|].
      split; [apply dict_set_nodup; exact Hd|]. intros q0 e0 Hin. apply dict_get_nodup in Hin; [|apply dict_set_nodup; exact Hd]. rewrite dict_set_get in Hin. destruct (str_eqb q q0).
      - injection Hin as <-. rewrite En, Ed. split; discriminate.
      - apply dict_get_in in Hin. eapply Hd'. exact Hin. }
    unfold add. destruct inherit as [[|c r]|]; [apply Hch; assumption| |apply Hch; assumption].
    destruct (dict_get (c :: r) reg) as [t|] eqn:Et; [|split; assumption]. apply Hch; [apply dict_del_nodup; exact IH1|].
    intros q0 e0 Hin. apply dict_get_nodup in Hin; [|apply dict_del_nodup; exact IH1]. rewrite dict_del_get in Hin by exact IH1. destruct (str_eqb (c :: r) q0); [discriminate|].
    apply dict_get_in in Hin. eapply IH2. exact Hin. }
  destruct Inv as [Hn Hf]. split; [exact Hn|]. split; [exact Hf|]. split; [|split; [|split]].
  - intros q e. cbn [add]. unfold checked. destruct (e_name e) as [|c n] eqn:En; cbn [filled].
    { split; [split; [discriminate|intros [H _]; contradiction]|]. split; [discriminate|reflexivity]. }
    destruct (e_desc e) as [|c' n'] eqn:Ed; cbn [filled].
    { split; [split; [discriminate|intros [_ H]; contradiction]|]. split; [discriminate|reflexivity]. }
    split; [split; [intros _; split; discriminate|reflexivity]|]. split; [intros _ q'; apply dict_set_get|contradiction].
  - intros q e i Hi. destruct i as [|c r]; [contradiction|]. cbn [add]. destruct (dict_get (c :: r) reg) as [t|] eqn:Et; [|split; reflexivity].
    destruct (Hf _ _ (dict_get_in _ _ _ Et)) as [Ht1 Ht2]. unfold checked.
    assert (F1 : filled (e_name (merge t e)) = true) by (cbn [merge e_name]; unfold or_; destruct (e_name e); [destruct (e_name t); [contradiction|reflexivity]|reflexivity]).
    assert (F2 : filled (e_desc (merge t e)) = true) by (cbn [merge e_desc]; unfold or_; destruct (e_desc e); [destruct (e_desc t); [contradiction|reflexivity]|reflexivity]).
    rewrite F1, F2. split; [reflexivity|]. exists (merge t e). split; [apply merge_inherits|]. intros q'. rewrite dict_set_get, dict_del_get by exact Hn. reflexivity.
  - intros s. apply by_section_ok. exact Hn.
  - apply by_section_nodup.
Qed.
Print Assumptions C79_add.

(** How an inherited entry is combined, and an example of all of this. *)
Example C79_example :
  let css := Entry [67] [68] [83] [65] [[1]] [([2], 5)] [] [] in
  let reg := fst (add [] [97] css None) in
  let own := Entry [] [69] [] [66] [[9]] [([3], 4)] [] [] in
  add reg [98] own (Some [97]) = ([([98], Entry [67] [69] [83] [65; 32; 43; 32; 66] [[1]; [9]] [([2], 5); ([3], 4)] [] [])], Added)
  /\ snd (add reg [98] own (Some [99])) = KeyError /\ snd (add reg [98] own None) = ValueError /\ registered reg
  /\ by_section reg = [([83], [([97], css)])].
Proof. repeat split; try reflexivity. apply reg_add. apply reg_empty. Qed.
