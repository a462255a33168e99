(** The pieces of the text of a key or value, and what the transform makes of them. *)
From Verif Require Import Base BaseFacts IniModel IniSpec.
From Coq Require Import ZArith ZifyBool.

Lemma plain_iff c : i_plain c = true <-> ~ In c special.
Proof. unfold i_plain, i_special, special. cbn [In]. split; intros H; [| destruct ((c =? 91) || (c =? 92) || (c =? 10) || (c =? 59) || (c =? 61) || (c =? 35) || (c =? 58)) eqn:E; [exfalso; apply H; lia | reflexivity]]. lia. Qed.
Lemma blank_iff c : i_blank c = true <-> blank c.
Proof. unfold i_blank, blank. lia. Qed.
Lemma blank_plain c : blank c -> i_plain c = true.
Proof. intros [-> | ->]; reflexivity. Qed.
Lemma hex_is c n : hex c n -> i_hex c = true /\ hex_digit c = n.
Proof. intros H. destruct H as [n H | n H | n H]; unfold i_hex, hex_digit; split; try lia; destruct (_ <=? 57) eqn:E1; try destruct (_ <=? 70) eqn:E2; lia. Qed.

(** An escape and the character it stands for. *)
Definition esc (e : str) (c : nat) : Prop :=
  (e = [92; c] /\ i_escapable c = true /\ i_x c = false)
  \/ (exists x h, e = 92 :: x :: h /\ i_x x = true /\ i_hex4 h = true /\ hex_number h = c).
Definition plain_run (r : str) : Prop := r <> [] /\ Forall (fun c => i_plain c = true) r.
(** The tokens of a text, the text, and the string it stands for. *)
Inductive pieces : list str -> str -> str -> Prop :=
| pc_nil : pieces [] [] []
| pc_plain r ts t s : plain_run r -> pieces ts t s -> match ts with [] => True | u :: _ => escaped u = true end -> pieces (r :: ts) (r ++ t) (r ++ s)
| pc_esc e c ts t s : esc e c -> pieces ts t s -> pieces (e :: ts) (e ++ t) (c :: s).

Lemma esc_escaped e c : esc e c -> escaped e = true.
Proof. intros [(-> & _) | (x & h & -> & _)]; reflexivity. Qed.
Lemma esc_unescape odd e c : esc e c -> unescape odd e = Some [c].
Proof.
  intros [(-> & H1 & H2) | (x & h & -> & H1 & H2 & H3)]; unfold unescape; cbn [escaped Nat.eqb].
  - now rewrite H2.
  - rewrite H1. unfold chr_int. rewrite H2. cbn. now rewrite H3.
Qed.
Lemma plain_escaped r : plain_run r -> escaped r = false.
Proof. intros [H1 H2]. destruct H2 as [| c r Hc Hr]; [congruence |]. cbn. unfold i_plain, i_special in Hc. lia. Qed.

Lemma coded_pieces t s : coded t s -> exists ts, pieces ts t s.
Proof.
  induction 1 as [| c t s Hc Ht (ts & IH) | c t s Hc Ht (ts & IH) | x a b c d i j k l t s Hx Ha Hb Hc Hd Ht (ts & IH)].
  - exists []. constructor.
  - apply plain_iff in Hc. destruct ts as [| u ts].
    + inversion IH; subst. exists [[c]]. apply (pc_plain [c] [] [] []); [split; [discriminate | repeat constructor; exact Hc] | constructor | exact I].
    + destruct (escaped u) eqn:Eu.
      * exists ([c] :: u :: ts). apply (pc_plain [c] (u :: ts) t s); [split; [discriminate | repeat constructor; exact Hc] | exact IH | exact Eu].
      * inversion IH as [| r ts' t' s' Hr Hp Hn | e c' ts' t' s' He Hp]; subst; [| apply esc_escaped in He; congruence].
        exists ((c :: u) :: ts). apply (pc_plain (c :: u) ts t' s'); [| exact Hp | exact Hn].
        split; [discriminate |]. constructor; [exact Hc | exact (proj2 Hr)].
  - exists ([92; c] :: ts). apply (pc_esc [92; c] c ts t s); [| exact IH]. left. split; [reflexivity |].
    unfold escapable in Hc. cbn [In] in Hc. repeat destruct Hc as [<- | Hc]; try (split; reflexivity). contradiction.
  - exists ([92; x; a; b; c; d] :: ts). apply (pc_esc [92; x; a; b; c; d] _ ts t s); [| exact IH]. right. exists x, [a; b; c; d]. split; [reflexivity |].
    apply hex_is in Ha as [Ha1 Ha2], Hb as [Hb1 Hb2], Hc as [Hc1 Hc2], Hd as [Hd1 Hd2]. split; [destruct Hx as [-> | ->]; reflexivity |].
    split; [unfold i_hex4; cbn [length forallb]; rewrite Ha1, Hb1, Hc1, Hd1; reflexivity |]. unfold hex_number. cbn [fold_left]. rewrite Ha2, Hb2, Hc2, Hd2. lia.
Qed.
Lemma join_pieces odd ts t s : pieces ts t s -> join_all odd ts = Some s.
Proof.
  induction 1 as [| r ts t s Hr Hp IH Hn | e c ts t s He Hp IH]; cbn [join_all]; [reflexivity | |].
  - unfold unescape. now rewrite (plain_escaped r Hr), IH.
  - now rewrite (esc_unescape odd e c He), IH.
Qed.
Lemma pieces_ne ts t s : pieces ts t s -> Forall (fun u => u <> []) ts /\ concat ts = t.
Proof.
  induction 1 as [| r ts t s Hr Hp [IH1 IH2] Hn | e c ts t s He Hp [IH1 IH2]]; [split; [constructor | reflexivity] | |]; cbn [concat]; rewrite IH2; (split; [constructor; [| exact IH1] | reflexivity]).
  - exact (proj1 Hr).
  - apply esc_escaped in He. destruct e; [discriminate | discriminate].
Qed.

(** ** Blanks around the text *)

Definition pad_left (a : str) (ts : list str) : list str :=
  match ts with
  | u :: ts' => if escaped u then match a with [] => ts | _ => a :: ts end else (a ++ u) :: ts'
  | [] => match a with [] => [] | _ => [a] end
  end.
Fixpoint pad_right (b : str) (ts : list str) : list str :=
  match ts with
  | [] => match b with [] => [] | _ => [b] end
  | [u] => if escaped u then match b with [] => [u] | _ => [u; b] end else [u ++ b]
  | u :: ts => u :: pad_right b ts
  end.
Lemma blanks_run a : blanks a -> a <> [] -> plain_run a.
Proof. intros H Ha. split; [exact Ha |]. eapply Forall_impl; [| exact H]. intros c. apply blank_plain. Qed.
Lemma pieces_left a ts t s : blanks a -> pieces ts t s -> pieces (pad_left a ts) (a ++ t) (a ++ s).
Proof.
  intros Ha H. destruct a as [| x a].
  - unfold pad_left. destruct ts as [| u ts]; [exact H |]. destruct (escaped u); exact H.
  - destruct H as [| r ts t s Hr Hp Hn | e c ts t s He Hp]; unfold pad_left.
    + apply (pc_plain (x :: a) [] [] []); [apply blanks_run; [exact Ha | discriminate] | constructor | exact I].
    + rewrite (plain_escaped r Hr). rewrite !(app_assoc (x :: a)). apply pc_plain; [| exact Hp | exact Hn]. split; [discriminate |].
      apply Forall_app. split; [apply (blanks_run (x :: a)); [exact Ha | discriminate] | exact (proj2 Hr)].
    + rewrite (esc_escaped e c He). apply pc_plain; [apply blanks_run; [exact Ha | discriminate] | constructor; assumption |]. exact (esc_escaped e c He).
Qed.
Lemma pad_right_head b u ts : match pad_right b (u :: ts) with [] => False | v :: _ => escaped u = true -> escaped v = true end.
Proof. destruct ts as [| v ts]; cbn [pad_right]; [| tauto]. destruct (escaped u) eqn:E; [destruct b; auto |]. congruence. Qed.
Lemma pieces_right b ts t s : blanks b -> pieces ts t s -> pieces (pad_right b ts) (t ++ b) (s ++ b).
Proof.
  intros Hb. assert (Hone : pieces (match b with [] => [] | _ => [b] end) b b).
  { destruct b as [| x b]; [constructor |]. rewrite <- (app_nil_r (x :: b)) at 2 3. apply (pc_plain (x :: b) [] [] []); [apply blanks_run; [exact Hb | discriminate] | constructor | exact I]. }
  induction 1 as [| r ts t s Hr Hp IH Hn | e c ts t s He Hp IH].
  - exact Hone.
  - rewrite <- !app_assoc. destruct ts as [| v ts].
    + inversion Hp; subst. cbn [pad_right]. rewrite (plain_escaped r Hr). cbn [app]. rewrite <- (app_nil_r (r ++ b)) at 2 3. apply pc_plain; [| constructor | exact I].
      split; [destruct r; [destruct Hr as [Hr _]; congruence | discriminate] |]. apply Forall_app. split; [exact (proj2 Hr) |]. eapply Forall_impl; [| exact Hb]. intros c. apply blank_plain.
    + change (pad_right b (r :: v :: ts)) with (r :: pad_right b (v :: ts)). apply pc_plain; [exact Hr | exact IH |].
      pose proof (pad_right_head b v ts) as Hh. destruct (pad_right b (v :: ts)); [contradiction |]. exact (Hh Hn).
  - cbn [app]. rewrite <- !app_assoc. destruct ts as [| v ts].
    + inversion Hp; subst. cbn [pad_right]. rewrite (esc_escaped e c He). cbn [app]. destruct b as [| x b]; [apply pc_esc; [exact He | constructor] |].
      apply pc_esc; [exact He | exact Hone].
    + change (pad_right b (e :: v :: ts)) with (e :: pad_right b (v :: ts)). apply pc_esc; [exact He | exact IH].
Qed.

(** ** Stripping *)

Lemma lstrip_blanks a s : blanks a -> l_strip (a ++ s) = l_strip s.
Proof. induction 1 as [| c a Hc Ha IH]; [reflexivity |]. cbn [app l_strip]. apply blank_iff in Hc. now rewrite Hc. Qed.
Lemma lstrip_tight c s : ~ blank c -> l_strip (c :: s) = c :: s.
Proof. intros H. cbn [l_strip]. destruct (i_blank c) eqn:E; [apply blank_iff in E; contradiction | reflexivity]. Qed.
Lemma blanks_rev a : blanks a -> blanks (rev a).
Proof. intros H. apply Forall_rev. exact H. Qed.
Lemma rstrip_blanks b s : blanks b -> r_strip (s ++ b) = r_strip s.
Proof. intros H. unfold r_strip. rewrite rev_app_distr, lstrip_blanks by now apply blanks_rev. reflexivity. Qed.
Lemma rstrip_tight c s : ~ blank c -> r_strip (s ++ [c]) = s ++ [c].
Proof. intros H. unfold r_strip. rewrite rev_app_distr. cbn [rev app]. rewrite lstrip_tight by exact H. cbn [rev]. now rewrite rev_involutive. Qed.

Lemma strip_last_cons t u k : strip_last (t :: u :: k) = t :: strip_last (u :: k).
Proof.
  unfold strip_last. cbn [rev]. destruct (rev k ++ [u]) as [| v m] eqn:E; [destruct (rev k); discriminate |].
  cbn [app]. cbn [rev]. rewrite rev_app_distr. cbn. reflexivity.
Qed.
Lemma strip_last_one t : strip_last [t] = [if escaped t then t else r_strip t].
Proof. reflexivity. Qed.

Lemma escaped_app_false a u : blanks a -> escaped u = false -> escaped (a ++ u) = false.
Proof. intros [| c a' [-> | ->] Ha] H; [exact H | reflexivity | reflexivity]. Qed.
Lemma escaped_app_ne u b : u <> [] -> escaped (u ++ b) = escaped u.
Proof. destruct u; [congruence | reflexivity]. Qed.

(** Joining the stripped texts: the last text. *)
Lemma join_right odd b ts t s : blanks b -> pieces ts t s -> ts <> [] -> (forall r c, t = r ++ [c] -> ~ blank c) ->
  join_all odd (strip_last (pad_right b ts)) = Some s.
Proof.
  intros Hb. induction 1 as [| r ts t s Hr Hp IH Hn | e c ts t s He Hp IH]; intros Hne Ht; [congruence | |].
  - destruct ts as [| v ts].
    + inversion Hp; subst. cbn [pad_right]. rewrite (plain_escaped r Hr), strip_last_one. rewrite escaped_app_ne by (exact (proj1 Hr)). rewrite (plain_escaped r Hr), rstrip_blanks by exact Hb.
      destruct r as [| c0 r _] using rev_ind; [destruct Hr; congruence |]. rewrite rstrip_tight by (apply (Ht r c0); now rewrite app_nil_r).
      cbn [join_all]. unfold unescape. rewrite (plain_escaped _ Hr). reflexivity.
    + change (pad_right b (r :: v :: ts)) with (r :: pad_right b (v :: ts)). pose proof (pad_right_head b v ts) as Hh.
      specialize (IH ltac:(discriminate)). destruct (pad_right b (v :: ts)) as [| u k]; [contradiction |]. rewrite strip_last_cons. cbn [join_all].
      unfold unescape at 1. rewrite (plain_escaped r Hr). rewrite IH; [reflexivity |]. intros q c Eq. apply (Ht (r ++ q) c). rewrite Eq. now rewrite app_assoc.
  - destruct ts as [| v ts].
    + inversion Hp; subst. cbn [pad_right]. rewrite (esc_escaped e c He). destruct b as [| x b].
      * rewrite strip_last_one, (esc_escaped e c He). cbn [join_all]. now rewrite (esc_unescape odd e c He).
      * rewrite strip_last_cons, strip_last_one. assert (Hx : escaped (x :: b) = false) by (apply plain_escaped, blanks_run; [exact Hb | discriminate]). rewrite Hx.
        replace (r_strip (x :: b)) with (@nil nat) by (rewrite <- (app_nil_l (x :: b)), rstrip_blanks by exact Hb; reflexivity).
        cbn [join_all]. rewrite (esc_unescape odd e c He). reflexivity.
    + change (pad_right b (e :: v :: ts)) with (e :: pad_right b (v :: ts)). pose proof (pad_right_head b v ts) as Hh.
      specialize (IH ltac:(discriminate)). destruct (pad_right b (v :: ts)) as [| u k]; [contradiction |]. rewrite strip_last_cons. cbn [join_all].
      rewrite (esc_unescape odd e c He), IH; [reflexivity |]. intros q d Eq. apply (Ht (e ++ q) d). rewrite Eq. now rewrite app_assoc.
Qed.
Lemma strip_padded a b ts t s : blanks a -> blanks b -> pieces ts t s -> ts <> [] -> (forall c r, t = c :: r -> ~ blank c) ->
  strip_first (pad_right b (pad_left a ts)) = pad_right b ts \/ strip_first (pad_right b (pad_left a ts)) = [] :: pad_right b ts.
Proof.
  intros Ha Hb Hp Hne Ht. destruct Hp as [| r ts t s Hr Hp Hn | e c ts t s He Hp]; [congruence | |].
  - left. cbn [pad_left]. rewrite (plain_escaped r Hr).
    assert (Hs : forall q, l_strip ((a ++ r) ++ q) = r ++ q).
    { intros q. rewrite <- app_assoc, lstrip_blanks by exact Ha. destruct r as [| c r]; [destruct Hr; congruence |]. apply lstrip_tight. exact (Ht c _ eq_refl). }
    assert (Hx : escaped (a ++ r) = false) by (apply escaped_app_false; [exact Ha | apply plain_escaped; exact Hr]).
    destruct ts as [| v ts].
    + cbn [pad_right]. rewrite Hx, (plain_escaped r Hr). cbn [strip_first]. rewrite escaped_app_ne by (destruct a; [exact (proj1 Hr) | discriminate]). rewrite Hx. now rewrite Hs.
    + change (pad_right b ((a ++ r) :: v :: ts)) with ((a ++ r) :: pad_right b (v :: ts)). cbn [strip_first]. rewrite Hx. specialize (Hs []). rewrite !app_nil_r in Hs. now rewrite Hs.
  - assert (Hh : strip_first (pad_right b (e :: ts)) = pad_right b (e :: ts)).
    { pose proof (pad_right_head b e ts) as H. destruct (pad_right b (e :: ts)) as [| v k]; [contradiction |]. cbn [strip_first]. now rewrite (H (esc_escaped e c He)). }
    cbn [pad_left]. rewrite (esc_escaped e c He). destruct a as [| x a]; [left; exact Hh |]. right.
    change (pad_right b ((x :: a) :: e :: ts)) with ((x :: a) :: pad_right b (e :: ts)). cbn [strip_first].
    assert (Hx : escaped (x :: a) = false) by (apply plain_escaped, blanks_run; [exact Ha | discriminate]). rewrite Hx. f_equal.
    rewrite <- (app_nil_r (x :: a)), lstrip_blanks by exact Ha. reflexivity.
Qed.
(** The text of a key or a value: its tokens, and the string that comes of them. *)
Lemma text_pieces s t : text_for s t -> exists ts v, pieces ts t v /\ forall odd, join_all odd (strip_last (strip_first ts)) = Some s.
Proof.
  intros (a & u & b & -> & Ha & Hb & [Hu1 Hu2] & Hc). destruct (coded_pieces u s Hc) as (ts & Hp).
  exists (pad_right b (pad_left a ts)), ((a ++ s) ++ b). split; [rewrite app_assoc; apply pieces_right; [exact Hb |]; apply pieces_left; assumption |].
  intros odd. destruct ts as [| v ts].
  - inversion Hp; subst. assert (Hab : forall q, blanks q -> join_all odd (strip_last (strip_first [q])) = Some []).
    { intros q Hq. cbn [strip_first]. destruct q as [| x q]; [reflexivity |]. assert (Hx : escaped (x :: q) = false) by (apply plain_escaped, blanks_run; [exact Hq | discriminate]). rewrite Hx.
      rewrite <- (app_nil_r (x :: q)), lstrip_blanks by exact Hq. reflexivity. }
    destruct a as [| x a]; cbn [pad_left pad_right].
    + destruct b as [| y b]; [reflexivity |]. apply Hab. exact Hb.
    + assert (Hx : escaped (x :: a) = false) by (apply plain_escaped, blanks_run; [exact Ha | discriminate]). rewrite Hx. apply Hab. apply Forall_app. split; assumption.
  - pose proof (join_right odd b (v :: ts) u s Hb Hp ltac:(discriminate) Hu2) as Hj.
    destruct (strip_padded a b (v :: ts) u s Ha Hb Hp ltac:(discriminate) Hu1) as [-> | ->]; [exact Hj |].
    pose proof (pad_right_head b v ts) as Hh. destruct (pad_right b (v :: ts)) as [| w k]; [contradiction |]. rewrite strip_last_cons. cbn [join_all unescape escaped]. now rewrite Hj.
Qed.
(** The name of a section: one token, or none. *)
Lemma name_join odd n name : padded (eq name) n -> hd_error name <> Some 92 -> n <> [] -> join_all odd (strip_last (strip_first [n])) = Some name.
Proof.
  intros (a & u & b & -> & Ha & Hb & [Hu1 Hu2] & <-) Hh Hne.
  assert (Hx : escaped (a ++ name ++ b) = false).
  { apply escaped_app_false; [exact Ha |]. destruct name as [| c name]; [destruct Hb as [| y b [-> | ->] Hb]; reflexivity |]. cbn in *. destruct (Nat.eqb_spec c 92); [congruence | reflexivity]. }
  cbn [strip_first]. rewrite Hx, lstrip_blanks by exact Ha. rewrite strip_last_one. destruct name as [| c name].
  - cbn [app]. replace (l_strip b) with (@nil nat) by (rewrite <- (app_nil_r b), lstrip_blanks by exact Hb; reflexivity). reflexivity.
  - cbn [app]. rewrite lstrip_tight by (exact (Hu1 _ _ eq_refl)). assert (Hc : escaped (c :: name ++ b) = false) by (cbn in *; destruct (Nat.eqb_spec c 92); [congruence | reflexivity]). rewrite Hc.
    change (c :: name ++ b) with ((c :: name) ++ b). rewrite rstrip_blanks by exact Hb.
    assert (Hr : r_strip (c :: name) = c :: name). { destruct (c :: name) as [| d l _] eqn:E using rev_ind; [reflexivity |]. apply rstrip_tight. exact (Hu2 l d eq_refl). }
    rewrite Hr. cbn [join_all]. unfold unescape. assert (Hd : escaped (c :: name) = false) by exact Hc. rewrite Hd. now rewrite app_nil_r.
Qed.
