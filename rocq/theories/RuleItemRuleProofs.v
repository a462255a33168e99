(** Whole rules: evaluating in two steps. *)
From Verif Require Import Base BaseFacts RuleValues RuleItemModel RuleItemSpec RuleItemProofs.
From Coq Require Import ZArith ZifyBool.

Definition not_seq (o : obj) : Prop := match o with OSeq _ => False | _ => True end.

Section Unroll.
Variable P : obj -> Prop.
Hypothesis Pseq : forall l, P (OSeq l) -> Forall P l.
Lemma unroll_pres : forall o, P o -> Forall P (unroll o).
Proof.
  refine (obj_ind' _ _ _ _ _ _ _ _ _ _ _); try (intros; cbn [unroll]; constructor; [assumption|constructor]).
  intros l Hl H. apply Pseq in H. cbn [unroll]. induction Hl as [|o l Ho _ IH]; [constructor|]. inversion H; subst. cbn [flat_map]. apply Forall_app. split; auto.
Qed.
End Unroll.
Lemma unroll_not_seq : forall o, Forall not_seq (unroll o).
Proof.
  refine (obj_ind' _ _ _ _ _ _ _ _ _ _ _); try (intros; cbn [unroll]; constructor; [exact I|constructor]).
  intros l Hl. cbn [unroll]. induction Hl as [|o l Ho _ IH]; [constructor|]. cbn [flat_map]. apply Forall_app. split; auto.
Qed.
Lemma unroll_id l : Forall not_seq l -> flat_map unroll l = l.
Proof. induction 1 as [|o l Ho _ IH]; [reflexivity|]. cbn [flat_map]. rewrite IH. destruct o; try reflexivity; contradiction. Qed.
Lemma flat_same : forall r r', same r r' -> Forall2 same (flat r) (flat r').
Proof.
  refine (rv_ind' _ _ _ _ _ _ _); try (intros; destruct r'; cbn [same] in *; try contradiction; constructor; [assumption|constructor]).
  - intros l Hl [] H; cbn [same] in H; try contradiction. apply all2_Forall2 in H. cbn [flat]. revert Hl. induction H as [|x y l l' Hxy _ IH]; intros Hl; [constructor|]. inversion Hl; subst. cbn [flat_map]. apply Forall2_app; auto.
Qed.
Lemma same_list_trans a b c : same_list a b -> same_list b c -> same_list a c.
Proof.
  destruct a as [la|], b as [lb|], c as [lc|]; cbn [same_list]; try contradiction; [|auto]. intros H. revert lc. induction H as [|x y la lb Hxy _ IH]; intros lc H2; inversion H2; subst; constructor; [eapply same_trans; eassumption|auto].
Qed.
Lemma same_list_sym a b : same_list a b -> same_list b a.
Proof. destruct a as [la|], b as [lb|]; cbn [same_list]; try contradiction; [|auto]. induction 1; constructor; [apply same_sym; assumption|assumption]. Qed.
Lemma same_list_oapp a a' b b' : same_list a a' -> same_list b b' -> same_list (oapp a b) (oapp a' b').
Proof. destruct a, a', b, b'; cbn [same_list oapp]; try contradiction; auto. apply Forall2_app. Qed.
Lemma same_list_flat a b : same_opt a b -> same_list (option_map flat a) (option_map flat b).
Proof. destruct a, b; cbn [same_opt option_map same_list]; try contradiction; [apply flat_same|auto]. Qed.

Section Rules.
Variable peq : pv -> pv -> bool.
Variable escape_str : str -> str.
Variable other : nat -> list pv -> option pv.
Notation pre_evaluate := (pre_evaluate peq escape_str other).
Notation evaluate := (evaluate peq escape_str other).
Notation denote := (denote peq escape_str other).
Notation denote_rule := (denote_rule peq escape_str other).

Lemma denote_rule_app e l l' : denote_rule e (l ++ l') = oapp (denote_rule e l) (denote_rule e l').
Proof. unfold RuleItemSpec.denote_rule. rewrite omap_app. destruct (omap (denote e) l), (omap (denote e) l'); cbn [oapp]; try reflexivity. rewrite flat_map_app. reflexivity. Qed.
Lemma denote_rule_one e o : denote_rule e [o] = option_map flat (denote e o).
Proof. unfold RuleItemSpec.denote_rule. rewrite omap_cons. cbn [omap]. destruct (denote e o); [|reflexivity]. cbn [flat_map option_map]. rewrite app_nil_r. reflexivity. Qed.
Lemma denote_rule_cons e o l : denote_rule e (o :: l) = oapp (option_map flat (denote e o)) (denote_rule e l).
Proof. rewrite <- denote_rule_one, <- denote_rule_app. reflexivity. Qed.
Lemma denote_seq_rule e l : option_map flat (denote e (OSeq l)) = denote_rule e l.
Proof. unfold RuleItemSpec.denote_rule. cbn [RuleItemSpec.denote]. destruct (omap (denote e) l); reflexivity. Qed.
Lemma denote_unroll e : forall o, denote_rule e (unroll o) = option_map flat (denote e o).
Proof.
  refine (obj_ind' _ _ _ _ _ _ _ _ _ _ _); try (intros; cbn [unroll]; apply denote_rule_one).
  intros l Hl. rewrite denote_seq_rule. cbn [unroll]. induction Hl as [|o l Ho _ IH]; [reflexivity|]. cbn [flat_map]. rewrite denote_rule_app, Ho, IH, denote_rule_cons. reflexivity.
Qed.

Lemma known_seq k l : known k (OSeq l) -> Forall (known k) l.
Proof. intros H. apply fold_and. exact H. Qed.
Lemma item_seq l : item_ok (OSeq l) -> Forall item_ok l.
Proof. intros H. apply fold_and. exact H. Qed.
Lemma using_seq l : using_ok (OSeq l) -> Forall using_ok l.
Proof. intros H. apply fold_and. exact H. Qed.
Lemma static_seq l : static (OSeq l) -> Forall static l.
Proof. intros H. apply fold_and. exact H. Qed.

Definition not_arg (x : var) : bool := match x with VArg => false | _ => true end.
Lemma known_ext k k' : (forall x, k x = k' x) -> forall o, known k o -> known k' o.
Proof.
  intros Hk.
  assert (Hl : forall l, Forall (fun o => known k o -> known k' o) l -> fold_right (fun o P => known k o /\ P) True l -> fold_right (fun o P => known k' o /\ P) True l).
  { intros l H1 H2. apply fold_and in H2. apply fold_and. rewrite Forall_forall in *. auto. }
  refine (obj_ind' _ _ _ _ _ _ _ _ _ _ _); cbn [known]; auto.
  - intros x H. rewrite <- Hk. exact H.
  - intros p l Hp H [H1 H2]. split; auto.
  - intros p l Hp H [H1 H2]. split; auto.
  - intros p l Hp H [H1 H2]. split; auto.
Qed.
Lemma known_all : forall o, known (fun _ => true) o.
Proof.
  assert (Hl : forall l, Forall (known (fun _ => true)) l -> fold_right (fun o P => known (fun _ => true) o /\ P) True l) by (intros; apply fold_and; assumption).
  refine (obj_ind' _ _ _ _ _ _ _ _ _ _ _); cbn [known]; auto.
Qed.

(** *** Pre-evaluating *)
Definition pre_f (n : ns) (o : obj) : option obj := match pre_evaluate n o with Some (r, _) => Some r | None => None end.
Definition arg_fold (a : pv) (e : env) : env := Env (Some a) (e_text e) (e_match e).
Lemma over_arg a e : over (arg_ns a) e = arg_fold a e.
Proof. reflexivity. Qed.
Lemma rule_pre a e : forall o l, item_ok o -> rule_obj (pre_f (arg_ns a)) o = Some l ->
  Forall item_ok l /\ Forall not_seq l /\ Forall (known not_arg) l /\ (using_ok o -> Forall using_ok l) /\ same_list (option_map flat (denote (arg_fold a e) o)) (denote_rule e l).
Proof.
  assert (Hitem : forall o l, item_ok o -> match pre_f (arg_ns a) o with Some r => Some (unroll r) | None => None end = Some l ->
    Forall item_ok l /\ Forall not_seq l /\ Forall (known not_arg) l /\ (using_ok o -> Forall using_ok l) /\ same_list (option_map flat (denote (arg_fold a e) o)) (denote_rule e l)).
  { intros o l Hi. unfold pre_f. destruct (pre_evaluate (arg_ns a) o) as [[r ok]|] eqn:E; [|discriminate]. intros [= <-].
    split; [apply unroll_pres; [exact item_seq|]; eapply pre_item_ok; eassumption|]. split; [apply unroll_not_seq|].
    split; [apply unroll_pres; [exact (known_seq not_arg)|]; eapply (pre_known _ _ _ (arg_ns a) (fun _ => true) not_arg); [|exact E|apply known_all]; intros [] _ Hx; try reflexivity; discriminate|].
    split; [intros Hu; apply unroll_pres; [exact using_seq|]; eapply pre_using_ok; eassumption|].
    rewrite denote_unroll, <- over_arg. apply same_list_flat. eapply pre_keep; [exact E|]. left. split; reflexivity. }
  refine (obj_ind' _ _ _ _ _ _ _ _ _ _ _); try (intros; contradiction); try (intros; apply Hitem; assumption).
  - intros os Hos l Hi. apply item_seq in Hi. rewrite denote_seq_rule.
    assert (Hu : using_ok (OSeq os) <-> Forall using_ok os) by apply fold_and. rewrite Hu. clear Hu. cbn [rule_obj]. revert l Hi. induction Hos as [|o os Ho _ IH]; intros l Hi.
    + cbn [fold_right]. intros [= <-]. split; [constructor|]. split; [constructor|]. split; [constructor|]. split; [intros _; constructor|]. cbn. constructor.
    + inversion Hi as [|? ? Hi1 Hi2]; subst. cbn [fold_right]. destruct (rule_obj (pre_f (arg_ns a)) o) as [l1|]; [|discriminate]. destruct (fold_right _ _ os) as [l2|]; [|discriminate]. intros [= <-].
      destruct (Ho l1 Hi1 eq_refl) as (A1 & A2 & A3 & A4 & A5). destruct (IH l2 Hi2 eq_refl) as (B1 & B2 & B3 & B4 & B5).
      split; [apply Forall_app; split; assumption|]. split; [apply Forall_app; split; assumption|]. split; [apply Forall_app; split; assumption|]. split; [intros Hu; inversion Hu; subst; apply Forall_app; split; auto|].
      rewrite denote_rule_cons, denote_rule_app. apply same_list_oapp; assumption.
Qed.
Lemma rules_pre a e : forall rule l, Forall item_ok rule -> rule_objs (pre_f (arg_ns a)) rule = Some l ->
  Forall item_ok l /\ Forall not_seq l /\ Forall (known not_arg) l /\ (Forall using_ok rule -> Forall using_ok l) /\ same_list (denote_rule (arg_fold a e) rule) (denote_rule e l).
Proof.
  intros rule l Hi E. assert (Hi' : item_ok (OSeq rule)) by (apply fold_and; exact Hi). destruct (rule_pre a e (OSeq rule) l Hi' E) as (A1 & A2 & A3 & A4 & A5). rewrite denote_seq_rule in A5.
  split; [exact A1|]. split; [exact A2|]. split; [exact A3|]. split; [|exact A5]. intros Hu. apply A4. apply fold_and. exact Hu.
Qed.

(** *** Evaluating *)
Lemma over_match text m e : over (match_ns text m) e = Env (e_arg e) (Some text) (Some m).
Proof. reflexivity. Qed.
Lemma rule_eval text m e : forall o, item_ok o -> known not_arg o ->
  match rule_obj (evaluate (match_ns text m)) o with
  | Some l => Forall static l /\ same_list (option_map flat (denote (Env (e_arg e) (Some text) (Some m)) o)) (denote_rule e l)
  | None => denote (Env (e_arg e) (Some text) (Some m)) o = None
  end.
Proof.
  assert (Hitem : forall o, item_ok o -> known not_arg o ->
    match match evaluate (match_ns text m) o with Some r => Some (unroll r) | None => None end with
    | Some l => Forall static l /\ same_list (option_map flat (denote (Env (e_arg e) (Some text) (Some m)) o)) (denote_rule e l)
    | None => denote (Env (e_arg e) (Some text) (Some m)) o = None
    end).
  { intros o Hi Hk. assert (Hk' : known (knows (match_ns text m)) o) by (eapply known_ext; [|exact Hk]; intros []; reflexivity).
    pose proof (evaluate_ok peq escape_str other (match_ns text m) e eq_refl o (item_inner o Hi) Hk') as H. rewrite over_match in H. destruct (evaluate (match_ns text m) o) as [r|]; [|exact H]. destruct H as [H1 H2].
    split; [apply unroll_pres; [exact static_seq|exact H1]|]. rewrite denote_unroll. apply same_list_flat. exact H2. }
  refine (obj_ind' _ _ _ _ _ _ _ _ _ _ _); try (intros; contradiction); try (intros; apply Hitem; assumption).
  - intros at_ _ _. split; [repeat constructor|]. rewrite denote_rule_one. cbn [RuleItemSpec.denote option_map same_list]. apply flat_same, same_refl.
  - intros os Hos Hi Hk. apply item_seq in Hi. apply known_seq in Hk. rewrite denote_seq_rule. cbn [rule_obj].
    assert (Hg : match fold_right (fun o r => oapp (rule_obj (evaluate (match_ns text m)) o) r) (Some []) os with
                 | Some l => Forall static l /\ same_list (denote_rule (Env (e_arg e) (Some text) (Some m)) os) (denote_rule e l)
                 | None => denote_rule (Env (e_arg e) (Some text) (Some m)) os = None end).
    { induction Hos as [|o os Ho _ IH]; [split; constructor|]. inversion Hi; subst. inversion Hk; subst. cbn [fold_right]. specialize (Ho ltac:(assumption) ltac:(assumption)). specialize (IH ltac:(assumption) ltac:(assumption)). rewrite denote_rule_cons.
      destruct (rule_obj (evaluate (match_ns text m)) o) as [l1|]; [|rewrite Ho; reflexivity]. destruct Ho as [Ho1 Ho2]. destruct (fold_right _ _ os) as [l2|]; [|rewrite IH; destruct (option_map _ _); reflexivity]. destruct IH as [I1 I2].
      cbn [oapp]. split; [apply Forall_app; split; assumption|]. rewrite denote_rule_app. apply same_list_oapp; assumption. }
    destruct (fold_right _ _ os) as [l|]; [exact Hg|]. rewrite <- denote_seq_rule in Hg. destruct (denote _ (OSeq os)); [discriminate|reflexivity].
  - intros l _ Hi Hk. exact (Hitem (OSub l) Hi Hk).
  - intros Hi Hk. exact (Hitem OSkip Hi Hk).
Qed.
Lemma rules_eval text m e rule : Forall item_ok rule -> Forall (known not_arg) rule ->
  match evaluate_rule peq escape_str other rule text m with
  | Some l => Forall static l /\ same_list (denote_rule (Env (e_arg e) (Some text) (Some m)) rule) (denote_rule e l)
  | None => denote_rule (Env (e_arg e) (Some text) (Some m)) rule = None
  end.
Proof.
  intros Hi Hk. assert (Hi' : item_ok (OSeq rule)) by (apply fold_and; exact Hi). assert (Hk' : known not_arg (OSeq rule)) by (apply fold_and; exact Hk). pose proof (rule_eval text m e (OSeq rule) Hi' Hk') as H.
  change (rule_obj (evaluate (match_ns text m)) (OSeq rule)) with (evaluate_rule peq escape_str other rule text m) in H. destruct (evaluate_rule peq escape_str other rule text m); [rewrite denote_seq_rule in H; exact H|]. rewrite <- denote_seq_rule, H. reflexivity.
Qed.

(** *** Rules that need no evaluation *)
Lemma needs_static : forall o, item_ok o -> using_ok o -> needs_evaluation1 o = false -> static o.
Proof.
  refine (obj_ind' _ _ _ _ _ _ _ _ _ _ _); try (intros; contradiction); try (intros; discriminate); try (intros; exact I).
  - intros l Hl Hi Hu Hn. apply item_seq in Hi. apply using_seq in Hu. cbn [static]. apply fold_and. cbn [needs_evaluation1] in Hn. rewrite Forall_forall in *. intros o Ho. apply Hl; auto. destruct (needs_evaluation1 o) eqn:E; [|reflexivity]. enough (X : existsb needs_evaluation1 l = true) by congruence. apply existsb_exists. exists o. auto.
  - intros v Hv Hi Hu Hn. cbn [item_ok using_ok needs_evaluation1 static] in *. apply Hv; auto. apply no_post_using. exact Hi.
  - intros v Hv Hi Hu Hn. cbn [item_ok using_ok needs_evaluation1 static] in *. apply Hv; auto. apply no_post_using. exact Hi.
Qed.
Lemma static_same e e' : e_arg e = e_arg e' -> forall o, static o -> same_opt (denote e o) (denote e' o).
Proof.
  intros Ha. refine (obj_ind' _ _ _ _ _ _ _ _ _ _ _); try (intros; contradiction).
  - intros a _. reflexivity.
  - intros l Hl Hs. apply static_seq in Hs. rewrite !denote_seq. assert (H : Forall2 same_opt (map (denote e) l) (map (denote e') l)) by (induction Hl as [|o l Ho _ IH]; [constructor|]; inversion Hs; subst; cbn [map]; constructor; auto).
    apply dseq_same in H. destruct (dseq (map (denote e) l)), (dseq (map (denote e') l)); try contradiction; [apply all2_Forall2; exact H|exact I].
  - intros v Hv Hs. specialize (Hv Hs). cbn [RuleItemSpec.denote]. destruct (denote e v), (denote e' v); cbn [same_opt] in *; try contradiction; [exact Hv|exact I].
  - intros l _ _. cbn [RuleItemSpec.denote]. rewrite Ha. apply same_refl.
  - intros v Hv Hs. specialize (Hv Hs). cbn [RuleItemSpec.denote]. destruct (denote e v), (denote e' v); cbn [same_opt] in *; try contradiction; [exact Hv|exact I].
  - intros _. exact I.
Qed.
Lemma statics_same e e' l : e_arg e = e_arg e' -> Forall static l -> same_list (denote_rule e l) (denote_rule e' l).
Proof.
  intros Ha Hs. induction Hs as [|o l Ho _ IH]; [constructor|]. rewrite !denote_rule_cons. apply same_list_oapp; [|exact IH]. apply same_list_flat. apply static_same; assumption.
Qed.
Lemma use_rule_ok text m e rule : Forall item_ok rule -> Forall using_ok rule -> Forall (known not_arg) rule ->
  match use_rule peq escape_str other rule text m with
  | Some l => Forall static l /\ same_list (denote_rule (Env (e_arg e) (Some text) (Some m)) rule) (denote_rule e l)
  | None => denote_rule (Env (e_arg e) (Some text) (Some m)) rule = None
  end.
Proof.
  intros Hi Hu Hk. unfold use_rule. destruct (needs_evaluation rule) eqn:En; [apply rules_eval; assumption|].
  assert (Hs : Forall static rule) by (rewrite Forall_forall in *; intros o Ho; apply needs_static; auto; destruct (needs_evaluation1 o) eqn:E; [|reflexivity]; enough (X : needs_evaluation rule = true) by congruence; apply existsb_exists; exists o; auto).
  split; [exact Hs|]. apply statics_same; [reflexivity|exact Hs].
Qed.

(** *** The first item: the pattern *)
Definition first_ok (p : obj) : Prop := match p with OAtom _ => True | OPattern v => no_post v | _ => False end.
Definition pat_value (p : obj) : obj := match p with OPattern v => v | _ => p end.
Lemma pre_rule_split p rest a r : first_ok p -> pre_evaluate_rule peq escape_str other (p :: rest) a = Some r ->
  exists p' rest', r = p' :: rest' /\ pre_f (arg_ns a) (pat_value p) = Some p' /\ rule_objs (pre_f (arg_ns a)) rest = Some rest'.
Proof.
  intros Hp. unfold pre_evaluate_rule. change (fun o => match pre_evaluate (arg_ns a) o with Some (r, _) => Some r | None => None end) with (pre_f (arg_ns a)).
  change (rule_objs (pre_f (arg_ns a)) (p :: rest)) with (oapp (rule_obj (pre_f (arg_ns a)) p) (rule_objs (pre_f (arg_ns a)) rest)).
  destruct p as [at_| | | | | |v| | |]; try contradiction.
  - cbn [rule_obj is_rule_item]. destruct (rule_objs (pre_f (arg_ns a)) rest) as [rest'|]; [|discriminate]. cbn [oapp app]. intros [= <-]. exists (OAtom at_), rest'. auto.
  - cbn [rule_obj is_rule_item pat_value]. assert (Epf : pre_f (arg_ns a) (OPattern v) = match pre_evaluate (arg_ns a) (OPattern v) with Some (r, _) => Some r | None => None end) by reflexivity. rewrite Epf. clear Epf. destruct (pre_evaluate (arg_ns a) (OPattern v)) as [[o1 ok]|] eqn:E; [|discriminate]. assert (Epf : pre_f (arg_ns a) v = match pre_evaluate (arg_ns a) v with Some (r, _) => Some r | None => None end) by reflexivity. rewrite Epf. clear Epf. destruct (pre_pattern_cases _ _ _ _ _ _ _ E) as (v' & Ev & ->). rewrite Ev. destruct (rule_objs (pre_f (arg_ns a)) rest) as [rest'|]; [|discriminate].
    cbn [unroll oapp app]. intros [= <-]. exists v', rest'. auto.
Qed.
End Rules.
