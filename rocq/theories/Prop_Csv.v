(** C108-C109: reading CSV. *)
From Verif Require Import Base BaseFacts TargetModel TargetSpec LexerModel LexerSpec LexerProofs LexiconModel LexiconSpec TreeModel TreeSpec TreeProofs BuildModel BuildProofs
  TransformModel TransformSpec TransformTextProofs TransformTreeProofs Prop_Transform MachineProofs GeneratorProofs CsvModel CsvSpec CsvRunProofs CsvTotalProofs.
From Coq Require Import ZArith ZifyBool.

(** [Transformer().transform_tree(tree)] *)
Definition c_read_tree (itree : node (nat * clex) cact) :=
  transform_tree clex cact R unit clex unit (fun _ => tt) (fun l => l) (fun _ => tt) (fun _ _ => true) (fun _ => c_methods) (fun _ => None) itree None.
(** A table as a list of tuples, with None for the fields that are not there. *)
Definition table_value (rs : list (list (option str))) : cv := VList (map (fun r => VTuple (map (fun f => match f with None => VNone | Some s => VStr s end) r)) rs).

(** C108. A CSV text with newlines between the rows: lexing ends, and transforming the text, and the tree, gives the rows. [uspace]: the white space
    outside ASCII.
    Missing: other line ends, see below. *)
Theorem C108_csv_partial :
  forall (uspace : nat -> bool) (text : str) (rs : list (list (option str))),
    table_text [10] rs text ->
    exists n evs tree,
      l_run c_consume (c_parse uspace) text n (l_init [CRoot] 0) = (evs, None)
      /\ build_tree CRoot (map fst evs) = Some tree
      /\ c_read (map fst evs) = Some (Some (Some (table_value rs)))
      /\ forall itree, erase itree = tree -> distinct itree -> exists ca, c_read_tree itree = Some (Value (Some (Some (table_value rs))), ca).
Proof.
  intros uspace text rs H. destruct (table_read uspace text rs H) as (n & evs & cs & Hr & Hb & Hm). exists n, evs, (Ctx CRoot cs).
  split; [exact Hr |]. split; [exact Hb |].
  pose proof (read_tree _ cs (run_stream_ok clex cact c_consume _ text n [CRoot] 0 evs None ltac:(discriminate) Hr) Hb) as Hread. rewrite Hm in Hread.
  split; [exact Hread |]. intros itree He Hi.
  pose proof (C43_text_equals_tree_partial clex cact R unit clex unit (fun _ => tt) (fun l => l) (fun _ => tt) (fun _ _ => true)
    (fun _ => c_methods) c_consume (c_parse uspace) text CRoot n evs None (Ctx CRoot cs) itree ltac:(intros [] []; tauto)
    Hr Hb He Hi (quiet_csv _) (or_introl (proj2 (Forall_forall _ _) (fun l _ => methods_all l)))) as [_ (ca & H2)].
  assert (Em : meaning (fun _ => tt) (fun l => l) (fun _ => tt) (fun _ : unit => c_methods) (Ctx CRoot cs) = Some (Some (table_value rs)))
    by (cbn [meaning method_of c_methods option_map]; f_equal; exact Hm).
  rewrite Em in H2. exists ca. exact H2.
Qed.
Print Assumptions C108_csv_partial.

(** Two rows, of three and two fields, and an empty line between them. *)
Definition ex_csv : str := [97; 44; 32; 34; 120; 34; 34; 121; 34; 44; 10; 10; 44].
Example ex_csv_ok : table_text [10] [[Some [97]; Some [120; 34; 121]; None]; [None; None]] ex_csv.
Proof.
  apply (tt_row [10] _ [97; 44; 32; 34; 120; 34; 34; 121; 34; 44] _ [10; 44]); [| discriminate |].
  - apply (rt_more [10] _ [97] _ [32; 34; 120; 34; 34; 121; 34; 44]).
    + apply ft_plain; [discriminate |]. constructor; [| constructor]. repeat split; try lia. cbn. lia.
    + apply (rt_more [10] _ [32; 34; 120; 34; 34; 121; 34] _ []); [| constructor; constructor].
      apply (ft_quoted [10] [32] [120; 34; 34; 121] []); [constructor; [auto | constructor] | | constructor].
      apply qu_char; [lia |]. apply qu_quote. apply qu_char; [lia | constructor].
  - apply (tt_blank [10] _ [44]). apply tt_last; [| discriminate]. apply (rt_more [10] None [] [None] []); constructor; constructor.
Qed.
Example ex_csv_read :
  exists n evs, l_run c_consume (c_parse (fun _ => false)) ex_csv n (l_init [CRoot] 0) = (evs, None)
    /\ c_read (map fst evs) = Some (Some (Some (VList [VTuple [VStr [97]; VStr [120; 34; 121]; VNone]; VTuple [VNone; VNone]]))).
Proof. exists 100, (fst (l_run c_consume (c_parse (fun _ => false)) ex_csv 100 (l_init [CRoot] 0))). split; vm_compute; reflexivity. Qed.

(** C108. Every table can be written, so that it is read back: rows have fields, and are not one field that is not there. *)
Lemma quoted_double s : quoted (double_quotes s) s.
Proof. induction s as [| c s IH]; cbn [double_quotes]; [constructor |]. destruct (Nat.eqb_spec c 34) as [-> | H]; constructor; assumption. Qed.
Lemma field_written f : field_text [10] f (write_field f).
Proof. destruct f as [s |]; [| constructor]. apply (ft_quoted [10] [] (double_quotes s) []); [constructor | apply quoted_double | constructor]. Qed.
Lemma row_written f r : row_text [10] (f :: r) (write_row (f :: r)).
Proof. revert f. induction r as [| g r IH]; intros f; [constructor; apply field_written |]. apply rt_more; [apply field_written | apply IH]. Qed.
Lemma row_written_ne r : r <> [] -> r <> [None] -> write_row r <> [].
Proof.
  destruct r as [| f [| g r]]; [congruence | |]; intros _ H.
  - destruct f; [discriminate | congruence].
  - cbn [write_row]. intros E. apply app_eq_nil in E as [_ E]. discriminate.
Qed.
Theorem C108_csv_round_trip :
  forall (uspace : nat -> bool) (rs : list (list (option str))),
    Forall (fun r => r <> [] /\ r <> [None]) rs ->
    exists n evs, l_run c_consume (c_parse uspace) (write_table rs) n (l_init [CRoot] 0) = (evs, None)
      /\ c_read (map fst evs) = Some (Some (Some (table_value rs))).
Proof.
  intros uspace rs H. assert (G : table_text [10] rs (write_table rs)).
  { induction H as [| r rs [H1 H2] _ IH]; [constructor |]. unfold write_table. cbn [map concat]. rewrite <- app_assoc.
    apply (tt_row [10]); [| now apply row_written_ne | exact IH]. destruct r as [| f r]; [congruence |]. apply row_written. }
  destruct (C108_csv_partial uspace _ rs G) as (n & evs & tree & H1 & _ & H2 & _). exists n, evs. split; assumption.
Qed.
Print Assumptions C108_csv_round_trip.
Example ex_round_trip : Forall (fun r => r <> [] /\ r <> [None]) [[Some [97; 34; 10]; None]; [Some []]].
Proof. repeat constructor; discriminate. Qed.

(** C108. With the line ends of RFC 4180, the return character becomes part of the last field. *)
Theorem C108_crlf_refuted :
  exists text rs, table_text [13; 10] rs text /\
    forall uspace, exists n evs v, l_run c_consume (c_parse uspace) text n (l_init [CRoot] 0) = (evs, None)
      /\ c_read (map fst evs) = Some (Some (Some v)) /\ v <> table_value rs.
Proof.
  exists [97; 13; 10], [[Some [97]]]. split.
  - apply (tt_row [13; 10] _ [97] [] []); [| discriminate | constructor]. constructor. apply ft_plain; [discriminate |].
    constructor; [| constructor]. repeat split; try lia. cbn. lia.
  - intros uspace. exists 100, (fst (l_run c_consume (c_parse uspace) [97; 13; 10] 100 (l_init [CRoot] 0))), (VList [VTuple [VStr [97; 13]]]).
    split; [vm_compute; reflexivity |]. split; [vm_compute; reflexivity | discriminate].
Qed.
Print Assumptions C108_crlf_refuted.

(** The action of the last token. *)
Definition last_action {L A} (evs : list (seen L A)) : option A := option_map x_act (last_opt (concat (map (fun x => e_lexemes (fst x)) evs))).

(** C109. Reading CSV does not raise an exception, whatever the text is and how far the lexer gets, unless the last token opens a quoted string;
    and then it does. After the complete text has been lexed that can only be if the text ends with a quote.
    Missing: these texts, see below. *)
Theorem C109_csv_raises_partial :
  forall (uspace : nat -> bool) (text : str) n evs r,
    l_run c_consume (c_parse uspace) text n (l_init [CRoot] 0) = (evs, r) ->
    (last_action evs = Some CStart -> c_read (map fst evs) = Some (Some None) /\ (r = None -> exists t, text = t ++ [34]))
    /\ (last_action evs <> Some CStart -> exists v, c_read (map fst evs) = Some (Some (Some v))).
Proof.
  intros uspace text n evs r Hr. pose proof (read_iff uspace text n evs r Hr) as H. change (last_act evs) with (last_action evs) in H. split.
  - intros El. rewrite El in H. split; [exact H |]. intros ->. exact (end_open uspace text n evs Hr El).
  - intros Hl. destruct (last_action evs) as [[] |]; try exact H. congruence.
Qed.
Print Assumptions C109_csv_raises_partial.
(** Text beside a quoted string, and a string that does not end. *)
Example ex_invalid : exists n evs, l_run c_consume (c_parse (fun _ => false)) [97; 32; 34; 98; 34; 32; 99; 32; 34; 100] n (l_init [CRoot] 0) = (evs, None)
  /\ last_action evs <> Some CStart /\ c_read (map fst evs) = Some (Some (Some (VList [VTuple [VStr [98]]]))).
Proof.
  exists 100, (fst (l_run c_consume (c_parse (fun _ => false)) [97; 32; 34; 98; 34; 32; 99; 32; 34; 100] 100 (l_init [CRoot] 0))).
  split; [vm_compute; reflexivity |]. split; [vm_compute; discriminate | vm_compute; reflexivity].
Qed.

Theorem C109_open_string_refuted :
  exists text, forall uspace, exists n evs, l_run c_consume (c_parse uspace) text n (l_init [CRoot] 0) = (evs, None) /\ c_read (map fst evs) = Some (Some None).
Proof.
  exists [97; 44; 34]. intros uspace. exists 100, (fst (l_run c_consume (c_parse uspace) [97; 44; 34] 100 (l_init [CRoot] 0))). split; vm_compute; reflexivity.
Qed.
Print Assumptions C109_open_string_refuted.
