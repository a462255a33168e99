(** Writing INI files. *)
From Verif Require Import Base BaseFacts IniSpec.
From Coq Require Import ZArith ZifyBool.
From Coq.Logic Require FinFun.

Lemma coded_app a s b t : coded a s -> coded b t -> coded (a ++ b) (s ++ t).
Proof. induction 1; intros Hb; cbn [app]; [exact Hb | constructor; auto ..]. Qed.
Lemma char_coded c : coded (write_char c) [c].
Proof.
  unfold write_char. destruct ((c =? 91) || (c =? 32) || (c =? 9)) eqn:E1.
  - assert (H : c = 91 \/ c = 32 \/ c = 9) by lia. destruct H as [-> | [-> | ->]]; unfold write_hex.
    + apply (co_hex 120 48 48 53 98 0 0 5 11 [] []); [now left | apply (hex_0_9 0); lia | apply (hex_0_9 0); lia | apply (hex_0_9 5); lia | apply (hex_a_f 1); lia | constructor].
    + apply (co_hex 120 48 48 50 48 0 0 2 0 [] []); [now left | apply (hex_0_9 0); lia | apply (hex_0_9 0); lia | apply (hex_0_9 2); lia | apply (hex_0_9 0); lia | constructor].
    + apply (co_hex 120 48 48 48 57 0 0 0 9 [] []); [now left | apply (hex_0_9 0); lia | apply (hex_0_9 0); lia | apply (hex_0_9 0); lia | apply (hex_0_9 9); lia | constructor].
  - destruct (existsb (Nat.eqb c) escapable) eqn:E2.
    + apply existsb_exists in E2 as (d & Hd & E). apply Nat.eqb_eq in E. subst d. apply co_escape; [exact Hd | constructor].
    + apply co_char; [| constructor]. intros H. assert (N : existsb (Nat.eqb c) escapable = true); [| congruence]. apply existsb_exists. exists c. split; [| apply Nat.eqb_refl].
      cbn [In special] in H. cbn [In escapable]. lia.
Qed.
Lemma str_coded s : coded (write_str s) s.
Proof. induction s as [| c s IH]; [constructor |]. exact (coded_app _ _ _ _ (char_coded c) IH). Qed.
Lemma char_ends c : exists a m, write_char c = a :: m /\ ~ blank a /\ exists b m', write_char c = m' ++ [b] /\ ~ blank b.
Proof.
  assert (Hb : forall c, c <> 32 -> c <> 9 -> ~ blank c) by (intros x A B [C | C]; contradiction).
  unfold write_char. destruct ((c =? 91) || (c =? 32) || (c =? 9)) eqn:E1; [| destruct (existsb (Nat.eqb c) escapable) eqn:E2].
  - eexists 92, _. split; [reflexivity |]. split; [apply Hb; lia |]. assert (H : c = 91 \/ c = 32 \/ c = 9) by lia.
    destruct H as [-> | [-> | ->]]; cbv [write_hex hex_char]; [exists 98, [92; 120; 48; 48; 53] | exists 48, [92; 120; 48; 48; 50] | exists 57, [92; 120; 48; 48; 48]]; (split; [reflexivity | apply Hb; lia]).
  - eexists 92, _. split; [reflexivity |]. split; [apply Hb; lia |]. exists c, [92]. split; [reflexivity | apply Hb; lia].
  - exists c, []. split; [reflexivity |]. split; [apply Hb; lia |]. exists c, []. split; [reflexivity | apply Hb; lia].
Qed.
Lemma str_tight s : tight (write_str s).
Proof.
  split.
  - intros c r E. destruct s as [| x s]; [discriminate |]. destruct (char_ends x) as (a & m & Ea & Ha & _). unfold write_str in E. cbn [map concat] in E. rewrite Ea in E. injection E as <- _. exact Ha.
  - intros r c E. destruct s as [| x s _] using rev_ind; [destruct r; discriminate |]. destruct (char_ends x) as (_ & _ & _ & _ & b & m & Eb & Hb).
    unfold write_str in E. rewrite map_app, concat_app in E. cbn [map concat] in E. rewrite app_nil_r, Eb, app_assoc in E. apply app_inj_tail in E as [_ <-]. exact Hb.
Qed.
Lemma str_text s a b : blanks a -> blanks b -> text_for s (a ++ write_str s ++ b).
Proof. intros Ha Hb. exists a, (write_str s), b. split; [reflexivity |]. repeat split; auto; try apply str_tight. apply str_coded. Qed.

Definition entry_line (e : str * option str) : line := Entry (fst e) (snd e).
Lemma entry_written e com ls u : ini_text com ls u -> ini_text com (entry_line e :: ls) (write_entry e ++ u).
Proof.
  intros H. destruct e as [k v]. unfold write_entry, entry_line. cbn [fst snd].
  assert (N1 : blanks [32]) by (constructor; [now left | constructor]). assert (N0 : blanks []) by constructor.
  pose proof (str_text k [] [32] N0 N1) as Hk. cbn [app] in Hk. assert (Hne : write_str k ++ [32] <> []) by (destruct (write_str k); discriminate).
  destruct v as [v |].
  - replace ((write_str k ++ 32 :: 61 :: (32 :: write_str v) ++ [10]) ++ u) with (((write_str k ++ [32]) ++ 61 :: 32 :: write_str v) ++ 10 :: u) by (rewrite <- !app_assoc; cbn [app]; rewrite <- !app_assoc; reflexivity).
    apply it_line; [| exact H]. eexists _, []. split; [symmetry; apply app_nil_r |]. split; [| now left]. apply lb_entry; [exact Hne | discriminate | exact Hk |].
    pose proof (str_text v [32] [] N1 N0) as Hv. rewrite app_nil_r in Hv. exact Hv.
  - replace ((write_str k ++ 32 :: 61 :: [] ++ [10]) ++ u) with (((write_str k ++ [32]) ++ [61]) ++ 10 :: u) by (rewrite <- !app_assoc; reflexivity).
    apply it_line; [| exact H]. eexists _, []. split; [symmetry; apply app_nil_r |]. split; [| now left]. apply lb_absent; [exact Hne | exact Hk].
Qed.
Lemma entries_written es com ls u : ini_text com ls u -> ini_text com (map entry_line es ++ ls) (write_entries es ++ u).
Proof.
  intros H. induction es as [| e es IH]; [exact H |]. unfold write_entries. cbn [map concat app]. rewrite <- app_assoc. apply entry_written. exact IH.
Qed.
(** Names of sections that can be written. *)
Definition name_ok (n : str) : Prop := tight n /\ ~ In 93 n /\ ~ In 10 n /\ hd_error n <> Some 92.
Definition section_lines (s : str * list (str * option str)) : list line := Section (fst s) :: map entry_line (snd s).
Lemma sections_written ss com : Forall (fun s => name_ok (fst s)) ss ->
  ini_text com (concat (map section_lines ss)) (concat (map (fun s => 91 :: fst s ++ 93 :: 10 :: write_entries (snd s)) ss)).
Proof.
  induction 1 as [| [n es] ss (H1 & H2 & H3 & H4) _ IH]; [constructor |]. cbn [map concat section_lines fst snd app] in *. rewrite <- app_assoc. cbn [app].
  replace (91 :: n ++ 93 :: 10 :: write_entries es ++ _) with (([] ++ 91 :: n ++ 93 :: []) ++ 10 :: (write_entries es ++ concat (map (fun s => 91 :: fst s ++ 93 :: 10 :: write_entries (snd s)) ss)))
    by (cbn [app]; rewrite <- app_assoc; reflexivity).
  apply it_line; [| apply entries_written; exact IH]. eexists _, []. split; [symmetry; apply app_nil_r |]. split; [| now left].
  apply lb_section; [constructor | constructor | | assumption ..]. exists [], n, []. split; [cbn; now rewrite app_nil_r |]. split; [constructor |]. split; [constructor |]. split; [exact H1 | reflexivity].
Qed.
Lemma ini_written top ss com : Forall (fun s => name_ok (fst s)) ss ->
  ini_text com (map entry_line top ++ concat (map section_lines ss)) (write_ini top ss).
Proof. intros H. apply entries_written. now apply sections_written. Qed.

(** ** The value *)

Lemma entry_fresh {K V} dec (k : K) (v : V) d : ~ In k (map fst d) -> entry dec k v d = d ++ [(k, v)].
Proof.
  induction d as [| [k' v'] d IH]; [reflexivity |]. cbn [entry map fst In app]. intros H. destruct (dec k k') as [-> | N]; [tauto |]. f_equal. tauto.
Qed.
Lemma entry_last {K V} dec (k : K) (v v0 : V) d : ~ In k (map fst d) -> entry dec k v (d ++ [(k, v0)]) = d ++ [(k, v)].
Proof.
  induction d as [| [k' v'] d IH]; cbn [entry map fst In app]; intros H; [destruct (dec k k); congruence |]. destruct (dec k k') as [-> | N]; [tauto |]. f_equal. tauto.
Qed.
Lemma lookup_last {K V} dec (k : K) (v0 : V) d : ~ In k (map fst d) -> lookup dec k (d ++ [(k, v0)]) = Some v0.
Proof.
  induction d as [| [k' v'] d IH]; cbn [lookup map fst In app]; intros H; [destruct (dec k k); congruence |]. destruct (dec k k') as [-> | N]; [tauto |]. tauto.
Qed.
Lemma fold_entries es cur r : ~ In cur (map fst r) -> forall done, NoDup (map fst (done ++ es)) ->
  fold_left read_line (map entry_line es) (cur, r ++ [(cur, done)]) = (cur, r ++ [(cur, done ++ es)]).
Proof.
  intros Hc. induction es as [| [k v] es IH]; intros done Hd; [now rewrite app_nil_r |]. cbn [map fold_left entry_line read_line fst snd].
  rewrite lookup_last, entry_last by exact Hc.
  assert (Hk : ~ In k (map fst done)). { rewrite map_app in Hd. cbn in Hd. apply NoDup_remove_2 in Hd. intros H. apply Hd. apply in_or_app. now left. }
  rewrite (entry_fresh str_dec k v done Hk). rewrite IH by (rewrite <- app_assoc; exact Hd). now rewrite <- app_assoc.
Qed.
Notation named := (fun s : str * list (str * option str) => (Some (fst s), snd s)).
Lemma fold_sections ss : forall cur r, NoDup (map fst (r ++ map named ss)) -> Forall (fun s => NoDup (map fst (snd s))) ss ->
  snd (fold_left read_line (concat (map section_lines ss)) (cur, r)) = r ++ map named ss.
Proof.
  induction ss as [| [n es] ss IH]; intros cur r Hd Hf; [symmetry; apply app_nil_r |]. inversion Hf as [| ? ? H1 H2]; subst. cbn [fst snd] in H1.
  cbn [map concat section_lines fst snd app fold_left read_line]. rewrite fold_left_app.
  assert (Hn : ~ In (Some n) (map fst r)). { rewrite map_app in Hd. cbn in Hd. apply NoDup_remove_2 in Hd. intros H. apply Hd. apply in_or_app. now left. }
  rewrite (entry_fresh name_dec (Some n) [] r Hn), (fold_entries es (Some n) r Hn [] H1). cbn [app].
  rewrite IH; [now rewrite <- app_assoc | rewrite <- app_assoc; exact Hd | exact H2].
Qed.
Definition file_value (top : list (str * option str)) (ss : list (str * list (str * option str))) : list (option str * list (str * option str)) :=
  match top with [] => [] | _ => [(None, top)] end ++ map named ss.
Lemma value_written top ss : NoDup (map fst top) -> NoDup (map fst ss) -> Forall (fun s => NoDup (map fst (snd s))) ss ->
  ini_value (map entry_line top ++ concat (map section_lines ss)) = file_value top ss.
Proof.
  intros H1 H2 H3. unfold ini_value, file_value. rewrite fold_left_app.
  assert (E : fold_left read_line (map entry_line top) (None, []) = (None, match top with [] => [] | _ => [(None, top)] end)).
  { destruct top as [| [k v] top]; [reflexivity |]. exact (fold_entries top None [] (fun x => x) [(k, v)] H1). }
  rewrite E. assert (Es : map fst (map named ss) = map Some (map fst ss)) by (rewrite !map_map; reflexivity).
  assert (Hs : NoDup (map fst (map named ss))) by (rewrite Es; apply FinFun.Injective_map_NoDup; [intros a b Eab; congruence | exact H2]).
  apply fold_sections; [| exact H3]. rewrite map_app. destruct top as [| e top]; [exact Hs |]. cbn [map fst app]. constructor; [| exact Hs].
  rewrite Es. intros H. apply in_map_iff in H as (x & Hx & _). discriminate.
Qed.
