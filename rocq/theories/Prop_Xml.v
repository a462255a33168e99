(** C127, C128: reading XML, and finding the encoding of XML documents. *)
From Verif Require Import Base BaseFacts TargetModel LexerModel LexiconModel TreeModel BuildModel XmlModel XmlSpec XmlMatchProofs XmlProofs XmlEncodingProofs.

(** What lexing the text [s] gives: it ends, and the tree has the children [cs]. *)
Definition xml_tree (e : xenv) (dtd : xlex -> compiled xlex xact) (s : str) (cs : list (node xlex xact)) : Prop :=
  exists n evs, l_run x_consume (x_parse e dtd) s n (l_init [XRoot] 0) = (evs, None) /\ build_tree XRoot (map fst evs) = Some (Ctx XRoot cs).

(** C127. The tree of a document shows the document: every element is a context with the contents of the element, inside the context of the element it is in,
    with the names, attributes and values that are written, and so for references, comments, CDATA sections and processing instructions.
    [e] has the properties of the characters outside ASCII, [dtd] has the lexicons of document type declarations.
    Missing: document type declarations; comments that end with a character of URLs, and processing instructions with a quote in their text, see below. *)
Theorem C127_xml_partial : forall (e : xenv) (dtd : xlex -> compiled xlex xact) (d : list xitem), xml_ok e d ->
  exists cs, xml_tree e dtd (xml_text d) cs /\ shows e (map strip cs) d.
Proof. intros e dtd d H. destruct (xml_shown e dtd d H) as (n & evs & cs & H1 & H2 & H3). exists cs. split; [exists n, evs; now split | exact H3]. Qed.

(** A case: a declaration, a comment with a URL in it, and nested elements with attributes, references and CDATA sections. *)
Definition e0 : xenv := Env (fun _ => false) (fun _ => false) (fun _ _ => false) (fun _ _ => false).
Definition a_of (b n : str) (single : bool) (v : list piece) : attr := Attr b n [] [] single v.
Definition d0 : list xitem :=
  [XDecl [120; 109; 108] [a_of [32] [118] false [PText [49; 46; 48]]; a_of [32] w_encoding false [PText [117; 116; 102; 45; 56]]] [32]; XText [10];
   XCom [32; 115; 101; 101; 32; 104; 116; 116; 112; 58; 47; 47; 120; 46; 121; 47; 122; 32];
   XElem [97] [Attr [32; 10] [98; 45; 49] [32] [9] true [PText [99]; PRef [97; 109; 112]; PText [100]]] [32]
     [XText [32; 104; 105]; XElem [99] [] [] [XCData [120; 60; 93; 93; 32]; XEmpty [100] [a_of [32] [101] false []] []; XRef [108; 116]; XProc [112] [32; 113; 62]] [32]; XText [9]] []].
Definition hasb (t s : str) : bool := existsb (fun k => starts t (skipn k s)) (seq 0 (S (length s))).
Lemma hasb_not t s : hasb t s = false -> ~ has t s.
Proof.
  intros H (a & b & E). assert (G : hasb t s = true); [| congruence]. apply existsb_exists. exists (length a). split; [apply in_seq; rewrite E, app_length; lia |].
  rewrite E, skipn_pre. unfold starts. rewrite firstn_app, firstn_all, Nat.sub_diag. cbn [firstn]. rewrite app_nil_r. apply str_eqb_refl.
Qed.
Ltac ok := repeat first [exact I | progress intros | apply Forall_cons | apply Forall_nil | split | (apply hasb_not; reflexivity) | reflexivity | discriminate
  | match goal with
    | |- xname _ _ => red
    | |- blanks _ => red
    | |- blank _ => cbn; tauto
    | |- attr_ok _ _ => constructor; cbn [a_before a_name a_eq1 a_eq2 a_single a_value a_of quote]
    | |- piece_ok _ _ _ => cbn [piece_ok quote]
    | |- ref_ok _ _ => red
    | |- comment_ok _ _ => red
    | |- ~ markable _ _ => unfold markable; cbn; intuition discriminate
    | |- ~ In _ _ => cbn; intuition discriminate
    | b : bool |- _ => destruct b
    end
  | progress cbn [item_ok fold_right apart is_text is_ptext rev app]].
Example C127_case : xml_ok e0 d0.
Proof. unfold d0. ok. Qed.

(** Refuted without the condition on comments: in <!--http://x/--><b/> the URL takes the end of the comment with it, and the comment does not end any more. *)
Definition c_url : str := [104; 116; 116; 112; 58; 47; 47; 120; 47].
Theorem C127_url_refuted : forall dtd, exists cs,
  ~ has [45; 45] c_url /\ xml_tree e0 dtd (xml_text [XCom c_url; XEmpty [98] [] []]) cs /\ ~ shows e0 (map strip cs) [XCom c_url; XEmpty [98] [] []].
Proof.
  intros dtd. eexists. split; [apply hasb_not; reflexivity |]. split.
  - exists 100. eexists. split; [vm_compute; reflexivity | vm_compute; reflexivity].
  - cbn [map strip k_act k_text]. intros H. inversion H as [| | | s cs ns d Hc H2 | | | | |]; subst. inversion H2.
Qed.
(** Refuted with an apostrophe in a processing instruction: in <?a it's?><b/> a string starts that goes on to the end of the document. *)
Definition p_its : str := [32; 105; 116; 39; 115].
Theorem C127_pi_refuted : forall dtd, exists cs,
  ~ has [63; 62] p_its /\ xml_tree e0 dtd (xml_text [XProc [97] p_its; XEmpty [98] [] []]) cs /\ ~ shows e0 (map strip cs) [XProc [97] p_its; XEmpty [98] [] []].
Proof.
  intros dtd. eexists. split; [apply hasb_not; reflexivity |]. split.
  - exists 100. eexists. split; [vm_compute; reflexivity | vm_compute; reflexivity].
  - cbn [map strip k_act k_text]. intros H. inversion H as [| | | | | n s ns d H2 | | |]; subst. inversion H2.
Qed.

(** C128. The encoding that is found in a document is that of the first attribute with the name encoding in a processing instruction at the top of the document,
    and none is found if there is no such attribute.
    Missing: values in single quotes, empty values, and values with references, see below. *)
Theorem C128_encoding_partial : forall (e : xenv) (dtd : xlex -> compiled xlex xact) (d : list xitem), xml_ok e d -> Forall plain_item d ->
  exists cs, xml_tree e dtd (xml_text d) cs /\ find_encoding cs = declared d.
Proof. intros e dtd d H Hp. destruct (encoding_found e dtd d H Hp) as (n & evs & cs & H1 & H2 & H3). exists cs. split; [exists n, evs; now split | exact H3]. Qed.
Example C128_case : xml_ok e0 d0 /\ Forall plain_item d0 /\ declared d0 = Some [117; 116; 102; 45; 56].
Proof. split; [exact C127_case |]. split; [| reflexivity]. unfold d0. repeat (apply Forall_cons || apply Forall_nil); cbn [plain_item]; try exact I.
  - intros H. discriminate H.
  - intros H. split; [reflexivity |]. exists [117; 116; 102; 45; 56]. reflexivity.
Qed.

(** Refuted for single quotes, that XML allows as well: nothing is found, or the value of another attribute. *)
Definition e_attr (single : bool) (v : list piece) : attr := a_of [32] w_encoding single v.
Definition d_single : list xitem := [XDecl [120; 109; 108] [e_attr true [PText [108; 97; 116; 105; 110; 49]]] []; XEmpty [98] [] []].
Definition d_other : list xitem := [XDecl [120; 109; 108] [e_attr true [PText [108; 97; 116; 105; 110; 49]]; a_of [32] [115; 116; 97; 110; 100; 97; 108; 111; 110; 101] false [PText [121; 101; 115]]] []; XEmpty [98] [] []].
Definition d_empty : list xitem := [XDecl [120; 109; 108] [e_attr false []] []; XEmpty [98] [] []].
Lemma single_ok : xml_ok e0 d_single /\ xml_ok e0 d_other /\ xml_ok e0 d_empty.
Proof. unfold d_single, d_other, d_empty, e_attr. ok. Qed.
Theorem C128_single_quotes_refuted : forall dtd,
  (exists cs, xml_ok e0 d_single /\ xml_tree e0 dtd (xml_text d_single) cs /\ declared d_single = Some [108; 97; 116; 105; 110; 49] /\ find_encoding cs = None) /\
  (exists cs, xml_ok e0 d_other /\ xml_tree e0 dtd (xml_text d_other) cs /\ declared d_other = Some [108; 97; 116; 105; 110; 49] /\ find_encoding cs = Some [121; 101; 115]).
Proof.
  intros dtd. pose proof single_ok as (H1 & H2 & _). split; eexists; split; try eassumption; split.
  - exists 100. eexists. split; [vm_compute; reflexivity | vm_compute; reflexivity].
  - split; reflexivity.
  - exists 100. eexists. split; [vm_compute; reflexivity | vm_compute; reflexivity].
  - split; reflexivity.
Qed.
(** Of an empty value the quote that ends it is taken. *)
Theorem C128_empty_refuted : forall dtd, exists cs, xml_ok e0 d_empty /\ xml_tree e0 dtd (xml_text d_empty) cs /\ declared d_empty = Some [] /\ find_encoding cs = Some [34].
Proof.
  intros dtd. pose proof single_ok as (_ & _ & H3). eexists. split; [exact H3 |]. split.
  - exists 100. eexists. split; [vm_compute; reflexivity | vm_compute; reflexivity].
  - split; reflexivity.
Qed.

Print Assumptions C127_xml_partial.
Print Assumptions C127_url_refuted.
Print Assumptions C127_pi_refuted.
Print Assumptions C128_encoding_partial.
Print Assumptions C128_single_quotes_refuted.
Print Assumptions C128_empty_refuted.
