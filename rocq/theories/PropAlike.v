(** C75: what a rule does not look at does not matter. *)

From Coq Require Import Ascii String NArith ZArith Bool List Permutation.
From Verif Require Import Base Tags Dom Values Match Rule RuleMatching MatchSpec ExtractSpec ExtractProofs TextSpec Samples AlikeSpec AlikeMain AlikeCases.
Import ListNotations.

(** C75. Two documents that have the same elements with the same attributes in
    any order give the same result, whatever comments, CDATA sections and
    doctype they have, however the names of known tags are written, and, unless
    the rule asks for texts, whatever texts they have. If it does ask for texts
    these may be cut into nodes differently. The rule must not ask for the inner
    HTML or use functions of users, all its rules must be for elements, and no
    rule may have only optional child rules and nested rules. *)
Theorem C75_alike_partial : forall words E R, blind words R -> forall D D' i pp i' pp' res,
  engine_total E -> rule_calls_return R ->
  (exists size, small_document size D /\ rule_params_safe size R) ->
  (exists size, small_document size D' /\ rule_params_safe size R) ->
  same_place words D D' (i :: pp) (i' :: pp') ->
  (extract_yields E R D (Some (i :: pp)) 0 (Ok res) <-> extract_yields E R D' (Some (i' :: pp')) 0 (Ok res)).
Proof. exact extract_alike_both. Qed.
Print Assumptions C75_alike_partial.

Example C75_case : blind true list_rule /\ same_place true tidy_page untidy_page [0] [1] /\
  (small_document 1000 tidy_page /\ small_document 1000 untidy_page /\ rule_params_safe 1000 list_rule) /\
  engine_total sample_engine /\ rule_calls_return list_rule /\
  extract_yields sample_engine list_rule untidy_page (Some [1]) 0
    (Ok [[(s "item", s "1"); (s "item", s "2"); (s "text", s "one")]]).
Proof. exact untidy_same. Qed.

(** Without these restrictions it does not hold. A rule for any element matches
    comments, too. *)
Theorem C75_any_refuted : exists E R D D' res res',
  engine_total E /\ rule_calls_return R /\
  (forall r, rule_of R r -> needs_something r /\ r_matches r = [] /\ forall c, In (Some c) (r_captures r) -> capture_blind true c) /\
  same_place true D D' [0] [0] /\
  extract_yields E R D (Some [0]) 0 (Ok res) /\ extract_yields E R D' (Some [0]) 0 (Ok res') /\ res <> res'.
Proof. exact any_differs. Qed.
Print Assumptions C75_any_refuted.

(** A rule that has only optional child rules matches an element that contains a
    comment but not an empty one. *)
Theorem C75_optional_refuted : exists E R D D' res res',
  engine_total E /\ rule_calls_return R /\
  (forall r, rule_of R r -> for_elements r /\ r_matches r = [] /\ forall c, In (Some c) (r_captures r) -> capture_blind true c) /\
  same_place true D D' [0] [0] /\
  extract_yields E R D (Some [0]) 0 (Ok res) /\ extract_yields E R D' (Some [0]) 0 (Ok res') /\ res <> res'.
Proof. exact optional_differs. Qed.
Print Assumptions C75_optional_refuted.

(** With a limit comments count: an element that contains only a comment is
    searched, an empty one is not. *)
Theorem C75_limit_refuted : exists E R D D' res limit,
  engine_total E /\ blind true R /\ same_place true D D' [0] [0] /\
  extract_yields E R D (Some [0]) limit (Ok res) /\ extract_yields E R D' (Some [0]) limit (Throw MaxSearchError).
Proof. exact limit_differs. Qed.
Print Assumptions C75_limit_refuted.
