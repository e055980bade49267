(** C59: how many stack frames the recursive functions need. *)

From Coq Require Import Ascii String NArith ZArith Bool List Lia.
From Verif Require Import Samples Base StringUtil Tags Dom NodeUtil Values Match Rule RuleMatching Parser
  ExtractSpec Depth DepthSpec DepthProofs DepthCases.
Import ListNotations.

(** As stated it does not hold. However large the stack is, there is a document
    on which a search without limit exceeds it, for every rule. Its result would
    be well-defined. *)
Theorem C59_search_refuted : forall frames E R,
  engine_total E -> rule_calls_return R -> rule_params_safe 1 R ->
  exists D res f0, extract_yields E R D (Some [0]) 0 (Ok res) /\
    forall f, f0 <= f -> extract_d frames f E R D (Some [0]) 0 = None.
Proof. exact deep_page_overflows. Qed.
Print Assumptions C59_search_refuted.

(** And there is a text without any nesting whose rule exceeds it when it is
    copied or destroyed. *)
Theorem C59_siblings_refuted : forall frames E, exists x r,
  length x = 4 * S frames /\ ParseHext E x = Ok r /\ rule_depth r = 1 /\
  rule_copy_d frames r = None /\ rule_destroy_d frames r = false.
Proof. exact siblings_overflow. Qed.
Print Assumptions C59_siblings_refuted.

(** What holds: a search that does not exceed the stack is not affected by its
    size, *)
Theorem C59_same : forall frames f E R D p n,
  extract_d frames f E R D p n = None \/ extract_d frames f E R D p n = Some (extract f E R D p n).
Proof. exact extract_same. Qed.
Print Assumptions C59_same.

(** it does not exceed it if there is a frame for each level of the document
    and four for each level of the rule, *)
Theorem C59_levels_partial : forall frames f E R D i pp t n,
  nget D (i :: pp) = Some t ->
  S (level_height D (i :: pp) + 4 * rule_depth R) <= frames ->
  extract_d frames f E R D (Some (i :: pp)) n = Some (extract f E R D (Some (i :: pp)) n).
Proof. exact extract_enough. Qed.
Print Assumptions C59_levels_partial.

(** or for each search of the limit, for all documents; *)
Theorem C59_limit_partial : forall frames f E R D p n,
  (0 < n)%N -> S (N.to_nat n + 4 * rule_depth R) <= frames ->
  extract_d frames f E R D p n = Some (extract f E R D p n).
Proof. exact extract_limited. Qed.
Print Assumptions C59_limit_partial.

(** and a search that returns a result has used more frames than the node has
    levels. *)
Theorem C59_needed : forall frames f E R D i pp t n res,
  nget D (i :: pp) = Some t ->
  extract_d frames f E R D (Some (i :: pp)) n = Some (Ok res) -> height t < frames.
Proof. exact extract_takes. Qed.
Print Assumptions C59_needed.

(** The other recursive functions need exactly as many as these: *)
Theorem C59_text : forall w n d, StripTags_d w d n = if d <? height n then None else Some (StripTags w n).
Proof. exact strip_frames. Qed.
Print Assumptions C59_text.

Theorem C59_inner_html : forall n d,
  SerializeNode_d d n = if d <? serial_height n then None else Some (SerializeNode n).
Proof. exact serial_frames. Qed.
Print Assumptions C59_inner_html.

Theorem C59_copy : forall r d, rule_copy_d d r = if d <? rule_chain r then None else Some (rule_copy r).
Proof. exact copy_frames. Qed.
Print Assumptions C59_copy.

Theorem C59_destroy : forall r d, rule_destroy_d d r = (rule_chain r <=? d).
Proof. exact destroy_frames. Qed.
Print Assumptions C59_destroy.

Example C59_case :
  level_height list_page [0] = 5 /\ rule_depth list_rule = 2 /\ rule_chain list_rule = 3 /\
  extract_d 14 100 sample_engine list_rule list_page (Some [0]) 0 =
    Some (Ok [[(s "item", s "1"); (s "item", s "2"); (s "text", s "one")]]) /\
  extract_d 5 100 sample_engine list_rule list_page (Some [0]) 0 = None /\
  extract_d 12 100 sample_engine list_rule (deep_page 50) (Some [0]) 3 = Some (Throw MaxSearchError) /\
  extract_d 12 1000 sample_engine list_rule (deep_page 50) (Some [0]) 0 = None.
Proof. repeat split; vm_compute; reflexivity. Qed.
