(** The encoding that is found in an XML document. *)
From Verif Require Import Base BaseFacts TargetModel LexerModel LexiconModel TreeModel BuildModel XmlModel XmlSpec XmlProofs.

(** The same search on nodes without positions. *)
Fixpoint s_first (l : list sn) : list str :=
  match l with
  | [] => []
  | C XDq (T _ t :: _) :: l => t :: s_first l
  | _ :: l => s_first l
  end.
Fixpoint s_encs (l : list sn) : list str :=
  match l with
  | [] => []
  | T a t :: l => (match a with AAttr => if str_eqb t t_encoding then s_first l else [] | _ => [] end) ++ s_encs l
  | _ :: l => s_encs l
  end.
Definition s_of (n : sn) : list str := match n with C XPi ns => s_encs ns | _ => [] end.
Lemma first_strip l : first_children l = s_first (map strip l).
Proof.
  induction l as [| n l IH]; [reflexivity |]. destruct n as [t | x cs]; [exact IH |]. destruct x; try exact IH. destruct cs as [| [t | y cs'] cs]; [exact IH | | exact IH].
  cbn [first_children map strip s_first]. now rewrite IH.
Qed.
Lemma encs_strip l : encodings l = s_encs (map strip l).
Proof.
  induction l as [| n l IH]; [reflexivity |]. destruct n as [t | x cs]; [| exact IH]. cbn [encodings map strip s_encs]. rewrite IH, first_strip. reflexivity.
Qed.
Lemma find_strip cs : find_encoding cs = hd_error (flat_map s_of (map strip cs)).
Proof.
  unfold find_encoding. f_equal. induction cs as [| n cs IH]; [reflexivity |]. cbn [flat_map map]. rewrite IH. f_equal. destruct n as [t | x ns]; [reflexivity |]. destruct x; try reflexivity. apply encs_strip.
Qed.

(** ** In a processing instruction *)
Lemma encs_opt b s l : s_encs (opt_text b s ++ l) = match b with AAttr => s_encs (opt_text b s ++ l) | _ => s_encs l end.
Proof. destruct s; [destruct b; reflexivity |]. destruct b; reflexivity. Qed.
Lemma encs_string single v l : s_encs (string_nodes single v ++ l) = s_encs l.
Proof. destruct single; reflexivity. Qed.
Lemma first_opt b s l : s_first (opt_text b s ++ l) = s_first l.
Proof. destruct s; reflexivity. Qed.
Lemma decl_encs ats : Forall plain_enc ats -> forall w, hd_error (s_encs (flat_map pi_attr_nodes ats ++ opt_text APiText w ++ [T APiEnd [63; 62]])) = hd_error (flat_map enc_of ats).
Proof.
  induction 1 as [| a ats Ha Hats IH]; intros w.
  - cbn [flat_map app]. rewrite encs_opt. reflexivity.
  - cbn [flat_map]. unfold pi_attr_nodes at 1. rewrite <- !app_assoc. cbn [app s_encs]. change t_encoding with w_encoding. unfold enc_of at 1. destruct (str_eqb (a_name a) w_encoding) eqn:Ee.
    + apply str_eqb_spec in Ee. destruct (Ha Ee) as (Hs & v & Hv). rewrite Hs, Hv. cbn [s_first]. rewrite first_opt. unfold string_nodes. cbn [map piece_node app s_first concat piece_text hd_error]. now rewrite app_nil_r.
    + cbn [app]. rewrite encs_opt, encs_string. apply IH.
Qed.
Lemma hd_app {X} (a b c : list X) : hd_error a = hd_error b -> hd_error (a ++ c) = hd_error (b ++ c).
Proof. destruct a, b; cbn; intros H; congruence. Qed.
Lemma hd_app2 {X} (a b c d : list X) : hd_error a = hd_error b -> hd_error c = hd_error d -> hd_error (a ++ c) = hd_error (b ++ d).
Proof. destruct a, b; cbn; intros H1 H2; congruence. Qed.
Lemma tag_none n ats c : flat_map s_of (tag_nodes n ats c) = [].
Proof. destruct ats; reflexivity. Qed.
Lemma shown_encs e ns d : shows e ns d -> Forall plain_item d -> hd_error (flat_map s_of ns) = declared d.
Proof.
  unfold declared. induction 1 as [| s ns d H IH | s ns d H IH | s cs ns d Hc H IH | s ns d H IH | n s ns d H IH | n ats w ns d H IH | n ats w ns d H IH | n ats w c w' cs ns d Hc IHc H IH]; intros Hp;
    [reflexivity | | | | | | | |]; inversion Hp as [| x d' Hx Hd]; subst x d'; specialize (IH Hd); cbn [flat_map s_of item_encs app].
  - exact IH.
  - exact IH.
  - exact IH.
  - exact IH.
  - rewrite encs_opt. cbn [s_encs app]. exact IH.
  - apply hd_app2; [| exact IH]. now apply decl_encs.
  - rewrite flat_map_app, tag_none. exact IH.
  - rewrite flat_map_app, tag_none. exact IH.
Qed.
Theorem encoding_found e dtd d : xml_ok e d -> Forall plain_item d ->
  exists n evs cs, l_run x_consume (x_parse e dtd) (xml_text d) n (l_init [XRoot] 0) = (evs, None) /\ build_tree XRoot (map fst evs) = Some (Ctx XRoot cs) /\ 
    find_encoding cs = declared d.
Proof.
  intros Hd Hp. destruct (xml_shown e dtd d Hd) as (n & evs & cs & H1 & H2 & H3). exists n, evs, cs. split; [exact H1 |]. split; [exact H2 |]. rewrite find_strip. now apply (shown_encs e).
Qed.
