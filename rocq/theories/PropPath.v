(** C81: rules without siblings are paths. *)

From Coq Require Import Ascii String NArith ZArith Bool List.
From Verif Require Import Samples Base Tags Dom Values Match Rule RuleMatching MatchSpec ExtractSpec SearchSpec MeaningSpec
  PathSpec PathProofs Chaining ChainingSpec ChainingProofs PathCases.
Import ListNotations.

(** What such a rule takes from a document: every node that it matches gives a
    map, which has the values of every node that the rules inside match there. *)
Theorem C81_result : forall E D R i pp t n res, no_siblings R -> nget D (i :: pp) = Some t ->
  extract_yields E R D (Some (i :: pp)) n (Ok res) -> path_result E D R i pp res.
Proof. exact path_extract. Qed.
Print Assumptions C81_result.

(** If nothing in it can throw then the description says what is returned. *)
Theorem C81_exact : forall E D R i pp t res, no_siblings R -> nget D (i :: pp) = Some t ->
  engine_total E -> rule_calls_return R -> (exists size, small_document size D /\ rule_params_safe size R) ->
  (extract_yields E R D (Some (i :: pp)) 0 (Ok res) <-> path_result E D R i pp res).
Proof. exact path_computes. Qed.
Print Assumptions C81_exact.

(** The function [matched] decides the meaning of matching in C06. *)
Theorem C81_matches : forall E D r, no_siblings r ->
  forall p, rule_matches D (node_satisfies E D) r p <-> matched E D r p = true.
Proof. exact matched_iff. Qed.
Print Assumptions C81_matches.

(** A rule in braces, an optional rule and a greedy one. *)
Example C81_case :
  no_siblings path_rule /\ nget path_page [0] <> None /\ engine_total sample_engine /\ rule_calls_return path_rule /\
  (exists size, small_document size path_page /\ rule_params_safe size path_rule) /\
  extract_yields sample_engine path_rule path_page (Some [0]) 0
    (Ok [[(s "x", s "1"); (s "x", s "2"); (s "y", s "3"); (s "y", s "5")]; [(s "x", s "7")]]).
Proof. exact path_case. Qed.

(** It is not so for rules with siblings: each one takes a node of its own. *)
Theorem C81_siblings_refuted : exists E D R i pp res, nget D (i :: pp) <> None /\
  extract_yields E R D (Some (i :: pp)) 0 (Ok res) /\ ~ path_result E D R i pp res.
Proof. exact siblings_differ. Qed.
Print Assumptions C81_siblings_refuted.

(** What the example chaining prints for any page: the links of the bare divs. *)
Theorem C81_chaining : forall E D, counts_fit D -> forall i pp t,
  engine_total E -> (exists size, small_document size D) -> nget D (i :: pp) = Some t ->
  chaining_yields E D (Some (i :: pp)) (Ok (chain_text D i pp)).
Proof. exact chaining_prints. Qed.
Print Assumptions C81_chaining.

Example C81_chaining_case :
  counts_fit chaining_page /\ (exists size, small_document size chaining_page) /\ nget chaining_page [0] <> None /\
  chain_text chaining_page 0 [] = flat_map (fun v => s "link: " ++ v ++ ["010"%char]) chaining_lines /\
  chaining_main 50 sample_engine chaining_page (Some [0]) = Ok (flat_map (fun v => s "link: " ++ v ++ ["010"%char]) chaining_lines).
Proof. exact chaining_case. Qed.
