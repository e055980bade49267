(** C54: errors in the bindings. *)

From Coq Require Import Ascii String NArith ZArith Bool List.
From Verif Require Import Samples Base Tags Dom Values Match Rule RuleMatching ExtractSpec Parser ParserSpec Convert ConvertSpec
  Bindings BindSpec BindProofs.
Import ListNotations.

(** As stated it does not hold. The constructors of Rule catch SyntaxError only,
    so a number that is too big ends the process; *)
Theorem C54_number_refuted : exists text, forall E,
  swig_new_rule E text = Ok (Escapes StdOutOfRange) /\
  node_new_rule E [JsString text] = Ok (Escapes StdOutOfRange).
Proof. exists (s "<a:child-count(99999999999)/>"). intros E. split; vm_compute; reflexivity. Qed.
Print Assumptions C54_number_refuted.

(** and extract catches MaxSearchError only, so does a regex that is too complex
    for the regex library. *)
Definition tired_engine : engine := mk_engine (fun _ => None) (fun _ _ => None) (fun _ x _ => Some x).
Theorem C54_regex_refuted : exists E text R,
  ParseHext E text = Ok R /\
  eventually (fun f => swig_extract E f R (list_page, Some [0]) 0) (Ok (Escapes RegexRuntimeError)) /\
  eventually (fun f => node_extract E f (Some R) [JsHtml (Some (list_page, Some [0]))]) (Ok (Escapes RegexRuntimeError)).
Proof.
  exists tired_engine, (s "<li @text=~/(x+)+y/ />"). eexists. split; [vm_compute; reflexivity|].
  match goal with |- context [swig_extract _ _ ?R] =>
    assert (H : extract_yields tired_engine R list_page (Some [0]) 0 (Throw RegexRuntimeError)) by run_extract end.
  destruct H as [f0 H]. split; exists f0; intros f Hf.
  - unfold swig_extract. cbn [fst snd]. now rewrite (H f Hf).
  - cbn [node_extract node_run_on node_root snd]. unfold node_run, at_pointer. cbn [fst snd node_max_searches].
    now rewrite (H f Hf).
Qed.
Print Assumptions C54_regex_refuted.

(** These are the only two. Constructing a rule: [rule_made] says that a syntax
    error becomes an exception with its message, that an exception leaves the
    binding only for numbers that are too big, and that the only undefined
    behaviour is the one of C40. *)
Theorem C54_new_rule_partial : forall E text, rule_made E text ValueError [] (swig_new_rule E text).
Proof. exact swig_rule_made. Qed.
Print Assumptions C54_new_rule_partial.

Theorem C54_node_new_rule_partial : forall E args, match args with
  | JsString x :: _ => rule_made E (c_str x) PlainError (s "Hext syntax error: ") (node_new_rule E args)
  | _ => exists m, node_new_rule E args = Ok (Raises TypeError m)
  end.
Proof. exact node_rule_made. Qed.
Print Assumptions C54_node_new_rule_partial.

(** Extracting with such a rule: [extracted] says that the result is returned,
    that the limit becomes an exception, that an exception leaves the binding
    only if the regex library gives up, and that the only undefined behaviour is
    the one of C22. *)
Theorem C54_extract_partial : forall E text R html limit,
  ParseHext E text = Ok R -> proper_root html ->
  exists o, eventually (fun f => swig_extract E f R html limit) o /\
    extracted E R html limit RuntimeError limit_text eq o.
Proof. exact swig_extracted. Qed.
Print Assumptions C54_extract_partial.

Theorem C54_node_extract_partial : forall E text R rule_ args html limit,
  ParseHext E text = Ok R -> proper_root html -> proper_call rule_ args R html limit ->
  exists o, eventually (fun f => node_extract E f rule_ args) o /\
    extracted E R html limit PlainError (s "Error: " ++ limit_text) (Forall2 converted) o.
Proof. exact node_extracted. Qed.
Print Assumptions C54_node_extract_partial.

(** Every other call in Node raises an exception, whatever the arguments are; in
    particular no null pointer is used. *)
Theorem C54_node_arguments : forall E rule_ args,
  (forall R html limit, ~ proper_call rule_ args R html limit) ->
  exists k m, forall f, node_extract E f rule_ args = Ok (Raises k m).
Proof. exact node_improper. Qed.
Print Assumptions C54_node_arguments.

Example C54_case :
  swig_new_rule sample_engine (s "<a") =
    Ok (Raises ValueError (s "Premature termination at end of input:" ++ [ascii_of_nat 10; ascii_of_nat 10] ++
      s "1: <a" ++ [ascii_of_nat 10] ++ s "     ^ here" ++ [ascii_of_nat 10])) /\
  (exists R, ParseHext sample_engine (s "<li id:x/>") = Ok R /\ proper_root (list_page, Some [0]) /\
    proper_call (Some R) [JsHtml (Some (list_page, Some [0])); JsNumber (JsFinite 6 0)] R (list_page, Some [0]) 6 /\
    node_extract sample_engine 100 (Some R) [JsHtml (Some (list_page, Some [0])); JsNumber (JsFinite 6 0)] =
      Ok (Raises PlainError (s "Error: The allowed amount of searches was exhausted")) /\
    node_extract sample_engine 100 (Some R) [JsHtml (Some (list_page, Some [0]))] =
      Ok (Returns [[(s "x", One (s "1"))]; [(s "x", One (s "2"))]])) /\
  (forall R html limit, ~ proper_call (Some list_rule) [JsHtml None] R html limit).
Proof.
  split; [vm_compute; reflexivity|]. split.
  - eexists. split; [vm_compute; reflexivity|]. split; [split; discriminate|].
    split; [exact (call_limited _ _ _ list_page [0] (JsFinite 6 0) [] eq_refl eq_refl)|]. split; vm_compute; reflexivity.
  - intros R html limit H. inversion H; discriminate.
Qed.
