(** C137: the themes of a formatter. *)
From Verif Require Import Base FthemesModel FthemesSpec FthemesProofs.
From Coq Require Import ZArith ZifyBool.

(** C137, for histories in which no formatter copies its own themes, and factories that make something of the base format of
    the themes that are added with their base format: after adding, removing and copying themes in any order, for any number of formatters, a formatter
    has for each language the theme it was last given, and its formats are what its own factory makes of those of that
    theme. *)
Theorem C137_themes_partial :
  forall (A T F : Type) (plus : T -> T -> T) (unparsed : A) (window default_ : nat) (factory : nat -> T -> option F) (ops : list (fop A T)),
    (forall g (th : theme A T) l, In (Add g th l true) ops -> forall f, factory f (th_base th window default_) <> None) ->
    (forall f, ~ In (Copy f f) ops) ->
    forall (f : nat) (language : option nat),
      let s := f_run plus unparsed window default_ factory ops f in
      match in_use (rev ops) f language with
      | None => get_theme language s = None
          /\ (forall action, textformat action language s = None) /\ (forall role state, baseformat role state language s = None)
      | Some (th, b) => get_theme language s = Some th
          /\ (forall action, textformat action language s = factory f (if b then plus (th_base th window default_) (th_text th action) else th_text th action))
          /\ (forall role state, baseformat role state language s = factory f (th_base th role state))
      end.
Proof.
  intros A T F plus unparsed window default_ factory ops Hb Hc f language s.
  assert (Ho : Forall (ok_op A T) ops).
  { apply Forall_forall. intros [| |g h] Hin; cbn; [exact I|exact I|]. intros ->. exact (Hc h Hin). }
  destruct (run_ok A T F plus unparsed window default_ factory ops Ho Hb) as [_ E]. specialize (E f language). fold s in E.
  unfold get_theme, textformat, baseformat. rewrite E. destruct (in_use (rev ops) f language) as [(th, b)|]; cbn [option_map fst snd]; [|auto].
  split; [reflexivity|]. split; [|reflexivity]. intros action. destruct b; reflexivity.
Qed.
Print Assumptions C137_themes_partial.

(** Two formatters; the second copies the default theme of the first, gets another for language 3, and then the first removes its own. *)
Example C137_case :
  let th n := Theme (A := nat) (T := nat) n (fun a => n * 100 + a) (fun _ _ => n) in
  let ops := [Add 0 (th 1) None true; Add 1 (th 5) (Some 4) false; Copy 1 0; Add 1 (th 2) (Some 3) false; Remove 0 None] in
  (forall g (t : theme nat nat) l, In (Add g t l true) ops -> forall f : nat, Some (f, th_base t 0 0) <> None)
  /\ (forall f, ~ In (Copy f f) ops)
  /\ in_use (rev ops) 1 None = Some (th 1, true) /\ in_use (rev ops) 1 (Some 3) = Some (th 2, false)
  /\ in_use (rev ops) 1 (Some 4) = None /\ in_use (rev ops) 0 None = None
  /\ textformat 7 None (f_run Nat.add 0 0 0 (fun f t => Some (f, t)) ops 1) = Some (1, 108).
Proof. split; [discriminate|]. split; [intros f; cbn; intros [H|[H|[H|[H|[H|[]]]]]]; discriminate + (injection H; lia)|]. repeat split; reflexivity. Qed.

(** C137 is false when a formatter copies its own themes: it has none then. And it is false for a factory that makes nothing of
    the base format: whoever copies the themes does not add the base format. *)
Theorem C137_copy_refuted :
  (forall (A T F : Type) (plus : T -> T -> T) (unparsed : A) (window default_ : nat) (factory : nat -> T -> option F) (ops : list (fop A T)) f language,
     get_theme language (f_run plus unparsed window default_ factory (ops ++ [Copy f f]) f) = None)
  /\ exists (factory : nat -> nat -> option nat) (ops : list (fop nat nat)) (th : theme nat nat),
       (forall f, ~ In (Copy f f) ops) /\ in_use (rev ops) 1 None = Some (th, true)
       /\ textformat 7 None (f_run Nat.add 0 0 0 factory ops 1) <> factory 1 (th_base th 0 0 + th_text th 7).
Proof.
  split.
  - intros A T F plus unparsed window default_ factory ops f language. unfold f_run. rewrite fold_left_app. cbn [fold_left f_step]. set (s := fold_left _ ops _).
    assert (E : upd s f [] f = []) by (unfold upd; now rewrite Nat.eqb_refl). rewrite E. cbn [fold_left]. rewrite E. reflexivity.
  - set (th := Theme (A := nat) (T := nat) 1 (fun a => 100 + a) (fun _ _ => 1)).
    exists (fun f t => if f =? 0 then (if t <? 50 then None else Some t) else Some t), [Add 0 th None true; Copy 1 0], th.
    split; [intros f; cbn; intros [H|[H|[]]]; [discriminate|injection H; lia]|]. split; [reflexivity|]. vm_compute. discriminate.
Qed.
Print Assumptions C137_copy_refuted.
