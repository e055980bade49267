(** C84: chains of pipes that do the same. *)

From Coq Require Import Ascii String NArith ZArith Bool List.
From Verif Require Import Base Dom NodeUtil Values Match Rule RuleMatching StringSpec ValueSpec TextSpec ExtractSpec Samples SelectSpec
  PipeSpec PipeProofs PipeCases.
Import ListNotations.

(** A chain of pipes hands a text through its transformations from left to right,
    and chains that the rules make equal have the same outcome for every text. *)
Theorem C84_pipes : forall E p q, pipes_equal (capture_chain p) (capture_chain q) ->
  forall x, apply_pipe E p x = apply_pipe E q x.
Proof. exact equal_applied. Qed.
Print Assumptions C84_pipes.

(** For chains that add text and change letters the rules are complete: two such
    chains with the same outcome for every text are equal by the rules. *)
Theorem C84_complete : forall E p q,
  Forall adds_or_cases (capture_chain p) -> Forall adds_or_cases (capture_chain q) ->
  (forall x, apply_pipe E p x = apply_pipe E q x) -> pipes_equal (capture_chain p) (capture_chain q).
Proof. exact applied_equal. Qed.
Print Assumptions C84_complete.

(** Rules that differ only in such chains have the same outcome, for every
    document, node and limit, whatever fails. *)
Theorem C84_rules : forall E R R' D p limit o, rules_alike R R' ->
  extract_yields E R D p limit o -> extract_yields E R' D p limit o.
Proof. exact alike_extract. Qed.
Print Assumptions C84_rules.

(** Below a node without elements that break lines the builtin text gives what
    the builtin strip-tags gives after collapsing the white space, with any
    further pipes. *)
Theorem C84_text : forall E D p n x q, deref D p = Ok n -> running_text n ->
  capture_capture E D (FunctionCapture (Some TextBuiltin) x q) p =
  capture_capture E D (FunctionCapture (Some StripTagsBuiltin) x (Some (Pipe CollapseWsPipe q))) p.
Proof. exact running_capture. Qed.
Print Assumptions C84_text.

Example C84_case :
  (pipes_equal long_chain short_chain /\ run_pipes sample_engine long_chain (s "?Some  Text!") = Ok (s "asome text")) /\
  (rules_alike (pipe_rule long_chain [CollapseWsPipe; TrimPipe (s " "); AppendPipe (s ".")]) (pipe_rule short_chain [AppendPipe (s ".")]) /\
   extract_yields sample_engine (pipe_rule long_chain [CollapseWsPipe; TrimPipe (s " "); AppendPipe (s ".")]) pipe_page (Some [0]) 0
     (Ok [[(s "x", s "asome text"); (s "y", s "b c.")]])) /\
  (running_text running_page /\ NodeText running_page = s "a bc").
Proof. exact pipes_case. Qed.

(** Trimming twice is not trimming both, and the order matters. *)
Theorem C84_trim_refuted : exists E a b x,
  run_pipes E [TrimPipe a; TrimPipe b] x <> run_pipes E [TrimPipe (a ++ b)] x /\
  run_pipes E [TrimPipe a; TrimPipe b] x <> run_pipes E [TrimPipe b; TrimPipe a] x.
Proof. exact trims_differ. Qed.
Print Assumptions C84_trim_refuted.

(** An element that breaks lines separates words that collapsing white space
    does not. *)
Theorem C84_text_refuted : exists E D x v v',
  capture_capture E D (FunctionCapture (Some TextBuiltin) x None) [] = Ok (Some (x, v)) /\
  capture_capture E D (FunctionCapture (Some StripTagsBuiltin) x (Some (Pipe CollapseWsPipe None))) [] = Ok (Some (x, v')) /\ v <> v'.
Proof. exact broken_capture. Qed.
Print Assumptions C84_text_refuted.
