(** A lexer only skips a character if it is in a circle. *)
From Verif Require Import Base BaseFacts TargetModel LexerModel LexerSpec LexiconModel LexiconSpec SkipSpec.
From Coq Require Import ZArith ZifyBool.

Section Skip.
Variables L A : Type.
Variables (consume : L -> bool) (parse : L -> str -> nat -> gen (item L A)) (text : str) (lexicons : list L) (pos : nat).
Hypothesis Hpieces : forall l q, q <= length text -> gen_pieces text q (parse l text q).
Hypothesis Hagain : finds_again parse text.
Hypothesis Hsimple : forall l q k it t, q <= length text -> parse l text q k = Some it -> i_txt it = [] -> i_target it = Some t -> simple_target t.
Hypothesis Hpos : pos <= length text.

Notation run n s := (l_run consume parse text n s).
Notation step := (l_step consume parse text).
Notation init := (l_init lexicons pos).
Notation textless := (textless consume parse text lexicons pos).

Lemma run_snoc n : forall s, snd (run (S n) s) = match snd (run n s) with Some s1 => match step s1 with Some (_, s2) => Some s2 | None => None end | None => None end.
Proof.
  induction n as [|n IH]; intros s.
  - cbn [l_run snd]. destruct (step s) as [[evs s1]|]; reflexivity.
  - change (run (S (S n)) s) with (match step s with None => ([], None) | Some (evs, s') => let '(evs', r) := run (S n) s' in (evs ++ evs', r) end).
    change (run (S n) s) with (match step s with None => ([], None) | Some (evs, s') => let '(evs', r) := run n s' in (evs ++ evs', r) end).
    destruct (step s) as [[evs s1]|]; [|reflexivity]. specialize (IH s1). destruct (run (S n) s1) as [e1 r1]. destruct (run n s1) as [e2 r2]. exact IH.
Qed.

(** What is known about an entry in [circular] that stands for entered lexicons. *)
Definition entry_ok (n : nat) (s : lstate L) (c : nat * nat * nat) : Prop :=
  let '(p, d, k) := c in
  p <= s_pos s /\ (0 < k -> p = s_pos s ->
    exists m st l it t, m < n /\ textless m st p /\ length st = d /\ last_opt st = Some l
      /\ parse l text p 0 = Some it /\ i_txt it = [] /\ i_target it = Some t /\ i_pos it = p /\ t_pop t = 0
      /\ d <= length (s_lex s) /\ firstn d (s_lex s) = st /\ (length (s_lex s) = d -> s_idx s = 0)).
Definition inv (n : nat) (s : lstate L) : Prop := s_pos s <= length text /\ Forall (entry_ok n s) (s_circ s).

Lemma triple_eqb_eq a b : triple_eqb a b = true -> a = b.
Proof.
  destruct a as [[a1 a2] a3], b as [[b1 b2] b3]. unfold triple_eqb, fst3, snd3, thd3. cbn [fst snd].
  rewrite !andb_true_iff, !Nat.eqb_eq. intros [[-> ->] ->]. reflexivity.
Qed.

(** At the depth of an entry the lexer is where it was, and enters lexicons. *)
Lemma at_entry n s p d k l it t : entry_ok n s (p, d, k) -> 0 < k -> last_opt (s_lex s) = Some l -> parse l text (s_pos s) (s_idx s) = Some it ->
  i_txt it = [] -> i_target it = Some t -> i_pos it = p -> s_pos s <= length text ->
  exists m, m < n /\ d <= length (s_lex s) /\ (length (s_lex s) = d -> textless m (s_lex s) p /\ t_pop t = 0).
Proof.
  intros [Hle H] Hk Hl Hit Htx Htg Hp Hsp. destruct (Hpieces l (s_pos s) Hsp) as (_ & Hin & _). destruct (Hin _ _ Hit) as (Hge & _).
  destruct (H Hk ltac:(lia)) as (m & st & l0 & it0 & t0 & Hm & Htl & Hd & Hl0 & Hit0 & Htx0 & Htg0 & Hp0 & Hpop & Hdl & Hfn & Hidx).
  exists m. split; [exact Hm|]. split; [exact Hdl|]. intros Hlen. rewrite <- Hlen, firstn_all in Hfn. split; [rewrite Hfn; exact Htl|].
  rewrite (Hidx Hlen) in Hit. replace (s_pos s) with p in Hit by lia. assert (l0 = l) by congruence. subst l0. congruence.
Qed.

Lemma entry_more n s c : entry_ok n s c -> entry_ok (S n) s c.
Proof.
  destruct c as [[p d] k]. intros [H1 H2]. split; [exact H1|]. intros Hk Hp. destruct (H2 Hk Hp) as (m & st & l & it & t & Hm & H).
  exists m, st, l, it, t. split; [lia|exact H].
Qed.

Lemma inv_step n s s' evs : snd (run n init) = Some s -> inv n s -> step s = Some (evs, s') -> inv (S n) s'.
Proof.
  intros Hrun [Hsp Hc] E. unfold l_step in E. destruct (last_opt (s_lex s)) as [l|] eqn:El; [|discriminate].
  destruct (parse l text (s_pos s) (s_idx s)) as [it|] eqn:Ei; [|discriminate].
  destruct (Hpieces l (s_pos s) Hsp) as (_ & Hin & _). destruct (Hin _ _ Ei) as (Hge & _ & Hle & _).
  destruct (i_target it) as [t0|] eqn:Et.
  - set (t := l_clip (length (s_lex s)) t0) in *. set (lex1 := drop_last (t_pop t) (s_lex s)) in *.
    destruct (i_txt it) as [|c txt] eqn:Ex.
    + destruct (l_circle text (s_circ s) (i_pos it) (length lex1) (t_push t)) as [q circ] eqn:Ec. injection E as <- <-. unfold l_circle in Ec.
      assert (Hn : length (s_lex s) <> 0) by (destruct (s_lex s); [discriminate|discriminate]).
      destruct (existsb _ _) eqn:Eex; injection Ec as <- <-.
      * split; [|constructor]. cbn [s_pos]. cbn [length] in Hle. destruct (negb _ && _) eqn:E1; lia.
      * split; [cbn [s_pos]; cbn [length] in Hle; lia|]. cbn [s_circ].
        pose proof (Hsimple l _ _ it t0 Hsp Ei Ex Et) as Hs.
        constructor.
        -- split; [cbn [s_pos]; lia|]. intros Hk _. cbn [s_lex s_idx s_pos].
           destruct Hs as [[Hp Hpu]|[Hp Hpu]].
           ++ assert (Ht : t = t0) by (unfold t, l_clip; rewrite Hp; reflexivity). assert (Hl1 : lex1 = s_lex s) by (unfold lex1; rewrite Ht, Hp; apply drop_last_0).
              destruct (Hagain l _ _ it t0 Hsp Ei Ex Et) as (it' & A1 & A2 & A3 & A4). rewrite Hl1.
              exists n, (s_lex s), l, it', t0. split; [lia|]. split; [exists s, l, it, t0; repeat (split; [assumption || reflexivity|]); reflexivity|].
              split; [reflexivity|]. split; [exact El|]. split; [exact A1|]. split; [exact A2|]. split; [exact A3|]. split; [exact A4|]. split; [exact Hp|].
              rewrite app_length. split; [lia|]. split; [rewrite firstn_app, firstn_all, Nat.sub_diag, firstn_O, app_nil_r; reflexivity|reflexivity].
           ++ exfalso. unfold t, l_clip in Hk. destruct (negb _ && _); cbn [t_push] in Hk; rewrite Hpu in Hk; cbn in Hk; lia.
        -- rewrite Forall_forall in Hc |- *. intros [[p d] k] Hin'. specialize (Hc _ Hin'). pose proof Hc as [Hp0 _]. split; [cbn [s_pos]; lia|]. cbn [s_pos s_lex s_idx].
           intros Hk Hp. destruct (at_entry n s p d k l it t0 Hc Hk El Ei Ex Et ltac:(lia) Hsp) as (m & Hm & Hd & Hat).
           destruct Hc as [_ Hc]. destruct (Hc Hk ltac:(lia)) as (m' & st & l0 & it0 & t1 & Hm' & Htl & Hdl & Hl0 & Hit0 & Htx0 & Htg0 & Hp1 & Hpop & _ & Hfn & _).
           exists m', st, l0, it0, t1. split; [lia|]. do 8 (split; [assumption|]).
           assert (Hl1 : d <= length lex1 /\ firstn d lex1 = st).
           { destruct Hs as [[Hp2 Hpu]|[Hp2 Hpu]].
             - assert (Ht : t = t0) by (unfold t, l_clip; rewrite Hp2; reflexivity). assert (Hl1 : lex1 = s_lex s) by (unfold lex1; rewrite Ht, Hp2; apply drop_last_0). rewrite Hl1. split; assumption.
             - destruct (Nat.eq_dec (length (s_lex s)) d) as [E|Ne]; [destruct (Hat E) as [_ H0]; lia|].
               assert (Hdd : d <= length lex1).
               { unfold lex1. rewrite drop_last_length. unfold t, l_clip. rewrite Hp2. cbn [Nat.eqb negb andb]. destruct (length (s_lex s) <=? 1) eqn:E9; cbn [t_pop]; rewrite ?Hp2; lia. }
               split; [exact Hdd|]. unfold lex1, drop_last in *. rewrite firstn_firstn. rewrite firstn_length in Hdd. rewrite Nat.min_l by lia. exact Hfn. }
           destruct Hl1 as [H1 H2]. rewrite app_length. split; [lia|]. split; [rewrite firstn_app; replace (d - length lex1) with 0 by lia; rewrite firstn_O, app_nil_r; exact H2|reflexivity].
    + destruct (if l_consumes consume t then _ else _) as [e f]. injection E as <- <-. split; [cbn [s_pos]; exact Hle|constructor].
  - destruct (match i_txt it with [] => _ | _ :: _ => _ end) as [e f]. injection E as <- <-. split; [exact Hsp|]. cbn [s_circ].
    rewrite Forall_forall in Hc |- *. intros c Hin'. specialize (Hc _ Hin'). apply entry_more in Hc. destruct c as [[p d] k]. destruct Hc as [H1 H2]. split; [exact H1|]. cbn [s_pos s_lex s_idx].
    intros Hk Hp. destruct (H2 Hk Hp) as (m & st & l0 & it0 & t1 & Hm & Htl & Hdl & Hl0 & Hit0 & Htx0 & Htg0 & Hp1 & Hpop & Hd & Hfn & Hidx).
    exists m, st, l0, it0, t1. do 11 (split; [assumption|]). intros Hlen. exfalso. rewrite (Hidx Hlen), <- Hp in Ei. rewrite <- Hlen, firstn_all in Hfn. congruence.
Qed.

Lemma inv_run n : forall s, snd (run n init) = Some s -> inv n s.
Proof.
  induction n as [|n IH]; intros s E.
  - cbn [l_run snd] in E. injection E as <-. split; [exact Hpos|constructor].
  - rewrite run_snoc in E. destruct (snd (run n init)) as [s1|] eqn:E1; [|discriminate]. destruct (step s1) as [[evs s2]|] eqn:E2; [|discriminate].
    injection E as <-. exact (inv_step n s1 s2 evs E1 (IH s1 eq_refl) E2).
Qed.

Theorem skip_in_circle n stack p q : textless n stack p -> goes_on consume parse text lexicons pos (S n) q -> q <> p ->
  q = S p /\ exists m, m < n /\ textless m stack p.
Proof.
  intros (s & l & it & t & Es & El & Hl & Ei & Ex & Et & Ep) (s' & Es' & Eq & _) Hne. subst stack.
  destruct (inv_run n s Es) as [Hsp Hc]. rewrite run_snoc, Es in Es'. destruct (step s) as [[evs s2]|] eqn:E2; [|discriminate]. injection Es' as ->.
  unfold l_step in E2. rewrite Hl, Ei, Et, Ex in E2. cbv zeta in E2.
  set (t' := l_clip (length (s_lex s)) t) in *. set (lex1 := drop_last (t_pop t') (s_lex s)) in *.
  destruct (l_circle text (s_circ s) (i_pos it) (length lex1) (t_push t')) as [q' circ] eqn:Ec. injection E2 as <- <-. cbn [s_pos] in Eq. subst q'.
  unfold l_circle in Ec. destruct (existsb _ _) eqn:Eex; injection Ec as <- <-; [|congruence].
  apply existsb_exists in Eex as (c & Hin & Hc'). apply triple_eqb_eq in Hc'. subst c. rewrite Forall_forall in Hc. specialize (Hc _ Hin).
  destruct (negb (length (t_push t') =? 0) && _) eqn:Ek; [|congruence]. apply andb_prop in Ek as [Ek _].
  assert (Hs : t' = t /\ lex1 = s_lex s).
  { destruct (Hsimple l _ _ it t Hsp Ei Ex Et) as [[Hp Hpu]|[Hp Hpu]].
    - assert (Ht : t' = t) by (unfold t', l_clip; rewrite Hp; reflexivity). split; [exact Ht|]. unfold lex1. rewrite Ht, Hp. apply drop_last_0.
    - exfalso. unfold t', l_clip in Ek. destruct (negb _ && _) in Ek; cbn [t_push] in Ek; rewrite Hpu in Ek; discriminate. }
  destruct Hs as [Ht Hl1]. rewrite Hl1 in Hc.
  destruct (at_entry n s (i_pos it) (length (s_lex s)) (length (t_push t')) l it t Hc ltac:(lia) Hl Ei Ex Et eq_refl Hsp) as (m & Hm & _ & Hat).
  split; [lia|]. exists m. split; [exact Hm|]. rewrite <- Ep. apply Hat. reflexivity.
Qed.
End Skip.
