(** C76: rules that mean the same give the same result. *)

From Coq Require Import Ascii String NArith ZArith Bool List.
From Verif Require Import Base Tags Dom Values Match Rule RuleMatching ExtractSpec Samples RewriteSpec RewriteProofs RewriteCases.
Import ListNotations.

(** C76. Two rule trees of the same shape, whose rules have the same flags and
    tag, conditions that can be rewritten into each other, and the same captures
    up to the order of captures with different names, have the same outcome for
    every document, node and limit, if no condition or capture fails. *)
Theorem C76_rewrite : forall E R R' D i pp t limit o,
  trees_equal R R' -> nget D (i :: pp) = Some t ->
  engine_total E -> rule_calls_return R -> rule_calls_return R' ->
  (exists size, small_document size D /\ rule_params_safe size R) ->
  (exists size, small_document size D /\ rule_params_safe size R') ->
  (extract_yields E R D (Some (i :: pp)) limit o <-> extract_yields E R' D (Some (i :: pp)) limit o).
Proof. exact extract_equal. Qed.
Print Assumptions C76_rewrite.

Example C76_case : trees_equal plain_rule odd_rule /\ engine_total sample_engine /\
  (rule_calls_return plain_rule /\ rule_calls_return odd_rule) /\
  (small_document 1000 odd_page /\ rule_params_safe 1000 plain_rule /\ rule_params_safe 1000 odd_rule) /\
  extract_yields sample_engine odd_rule odd_page (Some [0]) 0 (Ok [[(s "one", s "v1"); (s "two", s "x")]]) /\
  extract_yields sample_engine odd_rule odd_page (Some [0]) 2 (Throw MaxSearchError).
Proof. exact plain_odd_case. Qed.

(** The order of captures with the same name matters. *)
Theorem C76_order_refuted : exists E R R' D res res',
  engine_total E /\ rule_calls_return R /\ rule_calls_return R' /\
  (forall c, In c (r_captures R) <-> In c (r_captures R')) /\
  r_matches R = [] /\ r_matches R' = [] /\ r_tag R = r_tag R' /\
  (r_child R = None /\ r_next R = None /\ r_nested R = []) /\ (r_child R' = None /\ r_next R' = None /\ r_nested R' = []) /\
  extract_yields E R D (Some [0]) 0 (Ok res) /\ extract_yields E R' D (Some [0]) 0 (Ok res') /\ res <> res'.
Proof. exact order_differs. Qed.
Print Assumptions C76_order_refuted.

(** The order of conditions matters if a function of a user throws. *)
Theorem C76_throw_refuted : exists E R R' D res,
  engine_total E /\ trees_equal R R' /\
  extract_yields E R D (Some [0]) 0 (Ok res) /\ extract_yields E R' D (Some [0]) 0 (Throw UserException).
Proof. exact throw_differs. Qed.
Print Assumptions C76_throw_refuted.
