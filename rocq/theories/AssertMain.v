(** No assertion of htmlext fails. *)

From Coq Require Import Ascii String Arith NArith ZArith Bool List Lia.
From Verif Require Import Base Dom Values Match Rule RuleMatching Parser Convert Cli BindSpec Program ProgramSpec ProgramProofs Process
  Asserts AssertSpec AssertProofs AssertParse AssertProgram.
Import ListNotations.

Section Debug.
Variable abort : forall A : Type, outcome A.
Context {World : Type}.
Variable S0 : system World.
Notation L := (libraries S0).

Lemma parse_same title text : parse_or_error_a abort S0 title text = parse_or_error L title text.
Proof. unfold parse_or_error_a, parse_or_error. now rewrite parse_no_assertion. Qed.

Lemma files_same f names : forall w, load_files_a abort S0 f w names = load_files_at S0 f w names.
Proof.
  induction names as [|n names IH]; intros w; [reflexivity|]. cbn [load_files_a load_files_at].
  destruct (read_at S0 f w n) as [[[[text|m] w1] t1]| | |]; cbn [obind]; try reflexivity. rewrite parse_same.
  destruct (parse_or_error L (s "Error in " ++ n) text) as [[r|e]| | |]; cbn [obind]; try reflexivity. now rewrite IH.
Qed.

Lemma strings_same texts : load_strings_a abort S0 texts = load_strings L texts.
Proof. induction texts as [|x l IH]; [reflexivity|]. cbn [load_strings_a load_strings]. rewrite parse_same, IH. reflexivity. Qed.

Lemma print_values_same print l : forallb is_object l = true -> print_values_a abort print l = Ok (concat (map print l)).
Proof.
  induction l as [|v l IH]; [reflexivity|]. cbn [forallb]. rewrite andb_true_iff. intros [H1 H2]. cbn [print_values_a]. rewrite H1. unfold check.
  rewrite (IH H2). reflexivity.
Qed.

Lemma result_same po result : print_result_a abort S0 po result = Ok (print_result L po result).
Proof.
  unfold print_result_a, print_result. destruct (filter_key po); [reflexivity|]. unfold PrintJson_a, PrintJson. destruct (ArrayEnvelope (json_options po)); [reflexivity|].
  rewrite print_values_same; [now rewrite map_map|]. now induction (json_array result).
Qed.

Definition parsed (r : rule) : Prop := exists x, ParseHext (sys_regexes S0) x = Ok r.
Definition rooted (d : node * nptr) : Prop := snd d <> None.

Lemma inputs_same f po r docs : parsed r -> Forall rooted docs -> print_inputs_a abort S0 f po r docs = print_inputs f L po r docs.
Proof.
  intros [x Hx] H. induction H as [|[D root] docs H1 H IH]; [reflexivity|]. cbn [print_inputs_a print_inputs]. unfold rooted in H1. cbn [snd] in H1.
  destruct root as [p|]; [|congruence]. assert (Hd : ParseHext_debug abort (sys_regexes S0) x = Ok r) by (rewrite parse_no_assertion; exact Hx).
  rewrite (snippet_no_assertion abort (sys_regexes S0) x r Hd). cbn [libraries regexes].
  destruct (extract f (sys_regexes S0) r D (Some p) (max_searches_option po)) as [result| | |]; try reflexivity. rewrite result_same. cbn [obind]. now rewrite IH.
Qed.

Lemma rules_same f po rules docs : Forall parsed rules -> Forall rooted docs -> print_rules_a abort S0 f po rules docs = print_rules f L po rules docs.
Proof.
  intros H HD. induction H as [|r rules H1 H IH]; [reflexivity|]. cbn [print_rules_a print_rules]. rewrite (inputs_same f po r docs H1 HD), IH. reflexivity.
Qed.

Lemma parse_parsed title text r : parse_or_error L title text = Ok (inl r) -> parsed r.
Proof.
  unfold parse_or_error. destruct (ParseHext (regexes L) (c_str text)) as [r'|[]| |] eqn:E; intros H; try discriminate. injection H as <-. eexists. exact E.
Qed.

Lemma files_parsed f names : forall w rs w' t, load_files_at S0 f w names = Ok (inl rs, w', t) -> Forall parsed rs.
Proof.
  induction names as [|n names IH]; intros w rs w' t; cbn [load_files_at]; [intros [= <- _ _]; constructor|].
  destruct (read_at S0 f w n) as [[[[text|m] w1] t1]| | |]; cbn [obind]; try discriminate.
  destruct (parse_or_error L (s "Error in " ++ n) text) as [[r|e]| | |] eqn:EP; cbn [obind]; try discriminate.
  destruct (load_files_at S0 f w1 names) as [[[[xs|e] w2] t2]| | |] eqn:EL; cbn [obind]; try discriminate. intros [= <- _ _].
  constructor; [eapply parse_parsed; exact EP|eapply IH; exact EL].
Qed.

Lemma strings_parsed texts : forall rs, load_strings L texts = Ok (inl rs) -> Forall parsed rs.
Proof.
  induction texts as [|x l IH]; intros rs; cbn [load_strings]; [intros [= <-]; constructor|].
  destruct (parse_or_error L (s "Error in <hext-string>") x) as [[r|e]| | |] eqn:EP; cbn [obind]; try discriminate.
  destruct (load_strings L l) as [[xs|e]| | |] eqn:EL; cbn [obind]; try discriminate. intros [= <-].
  constructor; [eapply parse_parsed; exact EP|eapply IH; reflexivity].
Qed.

Lemma html_rooted f names : (forall text, snd (sys_parse S0 text) <> None) ->
  forall w docs w' t, load_html_at S0 f w names = Ok (inl docs, w', t) -> Forall rooted docs.
Proof.
  intros HP. induction names as [|n names IH]; intros w docs w' t; cbn [load_html_at]; [intros [= <- _ _]; constructor|].
  destruct (read_at S0 f w n) as [[[[text|m] w1] t1]| | |]; cbn [obind]; try discriminate.
  destruct (load_html_at S0 f w1 names) as [[[[xs|e] w2] t2]| | |] eqn:EL; cbn [obind]; try discriminate. intros [= <- _ _].
  constructor; [apply HP|eapply IH; exact EL].
Qed.

Theorem process_no_assertion f argv w : boost_contract (boost_run S0) -> (forall text, snd (sys_parse S0 text) <> None) ->
  process_debug abort S0 f argv w = process S0 f argv w.
Proof.
  intros HB HP. unfold process_debug, process. destruct (po_store (boost_run S0) argv) as [vm|e] eqn:ES; [|reflexivity].
  destruct (po_contains vm (s "help")) eqn:EH; [reflexivity|]. destruct (po_contains vm (s "version")) eqn:EV; [reflexivity|].
  destruct (options_there _ _ _ HB ES) as [_ [H1 _]]. unfold po_reads in H1. rewrite EH, EV in H1. cbn [orb app] in H1.
  destruct (H1 ltac:(discriminate)) as [files [strings [E1 [E2 E3]]]]. unfold main_a, main_at. rewrite E1, E2.
  assert (X : Nat.ltb 0 (length files + length strings) = true).
  { apply Nat.ltb_lt. rewrite <- app_length. destruct (files ++ strings); [congruence|]. cbn. lia. }
  rewrite X. unfold check. rewrite files_same. destruct (load_files_at S0 f w files) as [[[[from_files|e] w1] t1]| | |] eqn:EF; cbn [obind]; try reflexivity.
  rewrite strings_same. destruct (load_strings L strings) as [[from_strings|e]| | |] eqn:EX; cbn [obind]; try reflexivity.
  destruct (po_contains vm (s "lint")); [reflexivity|]. destruct (po_get vm (s "html")) as [html|]; [|reflexivity].
  destruct (load_html_at S0 f w1 html) as [[[[docs|e] w2] t2]| | |] eqn:ED; cbn [obind]; try reflexivity.
  destruct (po_get vm (s "max-searches")) as [number|]; [|reflexivity].
  assert (R : forall po, print_rules_a abort S0 f po (from_files ++ from_strings) docs = print_rules f L po (from_files ++ from_strings) docs).
  { intros po. apply rules_same; [|eapply html_rooted; eassumption]. apply Forall_app. split; [eapply files_parsed; exact EF|eapply strings_parsed; exact EX]. }
  rewrite R. reflexivity.
Qed.

End Debug.
