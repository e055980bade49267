(** C66: no assertion of the library fails. *)

From Coq Require Import Ascii String NArith ZArith Bool List Lia.
From Verif Require Import Samples Base StringUtil Tags Dom NodeUtil Values Match Rule RuleMatching Parser
  ExtractSpec Asserts AssertSpec AssertParse AssertProofs.
Import ListNotations.

(** Whatever a failed assertion does, a build with assertions compiles every text
    to the same rule or the same error. *)
Theorem C66_parse : forall abort E x, ParseHext_debug abort E x = ParseHext E x.
Proof. exact parse_no_assertion. Qed.
Print Assumptions C66_parse.

(** A rule whose functions are set is executed in the same way. *)
Theorem C66_extract : forall abort E R D, rule_functions_set R ->
  forall f p n, extract_debug abort f E R D (Some p) n = extract f E R D (Some p) n.
Proof. exact extract_no_assertion. Qed.
Print Assumptions C66_extract.

(** So are all rules that are written in Hext. *)
Theorem C66_snippet : forall abort E x R, ParseHext_debug abort E x = Ok R ->
  forall f D p n, extract_debug abort f E R D (Some p) n = extract f E R D (Some p) n.
Proof. exact snippet_no_assertion. Qed.
Print Assumptions C66_snippet.

(** Without the conditions the builds differ. Rule::extract of a null pointer
    returns an empty result or fails an assertion, *)
Theorem C66_null_refuted : forall u E R D n f,
  extract (S f) E R D None n = Ok [] /\ extract_debug (fun _ => UB u) (S f) E R D None n = UB u.
Proof. exact null_asserts. Qed.
Print Assumptions C66_null_refuted.

(** and so does a function that is not set. *)
Theorem C66_function_refuted : forall u, exists m c D,
  ~ functions_set m /\ ~ function_set c /\ forall E,
  extract 20 E (mk_rule None None [] [Some m] [] TAG_ANY false false None) D (Some [0]) 0 = Ok [] /\
  extract_debug (fun _ => UB u) 20 E (mk_rule None None [] [Some m] [] TAG_ANY false false None) D (Some [0]) 0 = UB u /\
  extract 20 E (mk_rule None None [] [] [Some c] TAG_ANY false false None) D (Some [0]) 0 = Ok [] /\
  extract_debug (fun _ => UB u) 20 E (mk_rule None None [] [] [Some c] TAG_ANY false false None) D (Some [0]) 0 = UB u.
Proof. exact function_asserts. Qed.
Print Assumptions C66_function_refuted.

(** The hypotheses of C66_extract and C66_snippet hold for rules with
    conditions that have assertions and for texts, *)
Lemma list_rule_functions : rule_functions_set list_rule.
Proof.
  intros r Hr. apply rule_of_all in Hr. simpl in Hr.
  repeat (destruct Hr as [<-|Hr]; [split; intros x Hx; simpl in Hx;
    repeat (destruct Hx as [Hx|Hx]; [injection Hx as <-; simpl; solve [auto|discriminate]|]); contradiction|]).
  contradiction.
Qed.
Example C66_extract_case : forall u, rule_functions_set list_rule /\
  exists res, res <> [] /\ extract_debug (fun _ => UB u) 100 sample_engine list_rule list_page (Some [0]) 0 = Ok res.
Proof. intros u. split; [exact list_rule_functions|]. eexists. split; [|vm_compute; reflexivity]. discriminate. Qed.
Example C66_snippet_case : forall abort, exists R,
  ParseHext_debug abort sample_engine (s "<ul><li:not(:nth-child(2n+1)) id:x><?p @text:t/></li></ul>") = Ok R.
Proof. intros abort. eexists. vm_compute. reflexivity. Qed.

(** and the assertions of the parser are not true in all states: for example if
    a test is left when the next pattern begins, if there is no token, or if
    there is no rule. *)
Example C66_parse_case : forall E,
  let st := mk_ps [[]; []] 3 None [] (set_test pv_initial (Some (EqualsTest []))) in
  action_ok E (s "<a/>") 75 st = false /\ action_ok E (s "<a/>") 3 st = false /\ action_ok E (s "<a/>") 83 st = false /\
  action_ok E (s "<a/>") 78 st = false /\ finish_ok (s "<a/>") st = true.
Proof. intros E. repeat split; vm_compute; reflexivity. Qed.
