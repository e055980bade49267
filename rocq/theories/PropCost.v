(** C67: how often rules are tested during a search. *)

From Coq Require Import Ascii String NArith ZArith Bool List Lia.
From Verif Require Import Samples Base StringUtil Tags Dom NodeUtil Values Match Rule RuleMatching MatchSpec DepthSpec
  Cost CostSpec CostProofs CostCases CostDeep.
Import ListNotations.

(** Counting changes nothing. *)
Theorem C67_same : forall f E R D p n, fst (extract_w f E R D p n) = extract f E R D p n.
Proof. exact extract_same. Qed.
Print Assumptions C67_same.

(** Rule::matches is not called more often than the structure of the rule and of
    the document says: a chain of rules with a mandatory rule is tried on every
    node of a list of siblings at most twice. This holds for all limits, and also
    for a search that is abandoned. *)
Theorem C67_tests : forall E R D f i pp par n,
  nget D pp = Some par -> i < length (children_of par) ->
  snd (extract_w f E R D (Some (i :: pp)) n) <= search_tests R (siblings_from par i).
Proof. exact extract_tests. Qed.
Print Assumptions C67_tests.

(** If every chain has a mandatory rule, this is linear in the number of nodes,
    but for the height of the document when rules are nested. *)
Theorem C67_mandatory : forall R ts,
  no_optional_chain R ->
  search_tests R ts <=
  2 ^ rule_depth R * largest (map height ts) ^ nestings R * rule_count R * sum (map node_count ts).
Proof. exact mandatory_bound. Qed.
Print Assumptions C67_mandatory.

(** In any case it is polynomial, with the largest number of children in place of
    2. *)
Theorem C67_general : forall R ts,
  search_tests R ts <=
  Nat.max 2 (Nat.max (length ts) (largest (map width ts))) ^ rule_depth R
  * largest (map height ts) ^ nestings R * rule_count R * sum (map node_count ts).
Proof. exact general_bound. Qed.
Print Assumptions C67_general.

(** For chains without a mandatory rule no linear bound holds: *)
Theorem C67_optional : forall E n, 0 < n -> exists f0, forall f, f0 <= f ->
  snd (extract_w f E two_optional (many_b n) (Some [0]) 0%N) = n * (n + 3) / 2.
Proof. exact two_optional_tests. Qed.
Print Assumptions C67_optional.

Theorem C67_linear_refuted : forall E C, exists D f0, forall f, f0 <= f ->
  C * sum (map node_count (siblings_from D 0)) < snd (extract_w f E two_optional D (Some [0]) 0%N).
Proof. exact more_than_linear. Qed.
Print Assumptions C67_linear_refuted.

(** The factor 2 ^ rule_depth of C67_mandatory is needed. [rows d] are [d + 1]
    rules inside one another, each followed by an optional one:
    <div><div><div/><?p/></div><?p/></div><?p/> for [d] = 2. [tower_page d] has at
    most (d + 1)^2 nodes below it. A group ends before the node where the first
    rule matches again; that node is searched to the bottom to find this out and
    once more as the beginning of the next group, on every level. The search
    limit does not help: [tower_page d] is one search. *)
Theorem C67_exponential : forall E d n, n <> 1%N ->
  no_optional_chain (rows d) /\ nestings (rows d) = 0 /\ rule_depth (rows d) = S d /\ rule_count (rows d) = 2 * (d + 1) /\
  sum (map node_count (siblings_from (tower_page d) 0)) <= (d + 1) * (d + 1) /\
  exists f0, forall f, f0 <= f -> 2 ^ d <= snd (extract_w f E (rows d) (tower_page d) (Some [0]) n).
Proof. exact exponential. Qed.
Print Assumptions C67_exponential.

(** Hence no polynomial in the size of the rule and the document is a bound. *)
Theorem C67_polynomial_refuted : forall E c k, exists R D, no_optional_chain R /\ exists f0, forall f, f0 <= f ->
  c * (rule_count R + sum (map node_count (siblings_from D 0))) ^ k < snd (extract_w f E R D (Some [0]) 0%N).
Proof. exact more_than_polynomial. Qed.
Print Assumptions C67_polynomial_refuted.

(** ** Cases *)

Notation list_body := (el TAG_BODY
  [el TAG_UL [el_id TAG_LI (s "1") [NText (s "one")]; el TAG_P []; el_id TAG_LI (s "2") [el TAG_B []]]; el TAG_DIV []]).

(** <ul><li id:item/><?p/></ul> { <b/> } and <div/>, two levels of five rules,
    on a list of seven nodes. *)
Example C67_case_list :
  no_optional_chain list_rule /\
  nget list_page body = Some list_body /\
  snd (extract_w 100 sample_engine list_rule list_page (Some (0 :: body)) 0) = 17 /\
  search_tests list_rule (siblings_from list_body 0) = 96 /\
  rule_depth list_rule = 2 /\ nestings list_rule = 1 /\ rule_count list_rule = 5 /\
  sum (map node_count (siblings_from list_body 0)) = 7 /\ largest (map height (siblings_from list_body 0)) = 3.
Proof. split; [repeat constructor; discriminate|]. repeat split; vm_compute; reflexivity. Qed.

(** The search is abandoned when the nested rule is looked for: the tests up to
    there count. *)
Example C67_case_limit :
  extract_w 100 sample_engine list_rule list_page (Some (0 :: body)) 2 = (Throw MaxSearchError, 6).
Proof. vm_compute. reflexivity. Qed.

(** <a/><?b/>: every <a> but the first one is tested twice, once as the end of a
    group and once as the beginning of the next one. *)
Example C67_case_twice :
  let R := plain TAG_A false false (Some (plain TAG_B true false None)) in
  let D := el TAG_BODY (repeat (el TAG_A []) 20) in
  no_optional_chain R /\ snd (extract_w 200 sample_engine R D (Some [0]) 0) = 39 /\
  search_tests R (siblings_from D 0) = 80.
Proof. split; [repeat constructor; discriminate|]. split; vm_compute; reflexivity. Qed.

(** <div>{<a/>}</div>: the nested rule is tested at every level below every
    level. *)
Example C67_case_nested :
  let R := mk_rule None None [plain TAG_A false false None] [] [] TAG_DIV false false None in
  no_optional_chain R /\ nestings R = 1 /\
  snd (extract_w 500 sample_engine R (deep_page 20) (Some [0]) 0) = 231 /\
  sum (map node_count (siblings_from (deep_page 20) 0)) = 21.
Proof. split; [repeat constructor; discriminate|]. repeat split; vm_compute; reflexivity. Qed.

(** Seven rules deep: 28 nodes, 359 tests. *)
Example C67_case_tower :
  rows 2 = (let p := Some (plain TAG_P true false None) in
            let row c := mk_rule c p [] [] [] TAG_DIV false false None in row (Some (row (Some (row None))))) /\
  tower 2 = el TAG_DIV [el TAG_DIV [el TAG_DIV []]; el TAG_DIV [el TAG_DIV []; el TAG_DIV []]] /\
  node_count (tower 6) = 28 /\ 2 ^ 6 = 64 /\
  snd (extract_w 200 sample_engine (rows 6) (tower_page 6) (Some [0]) 0) = 359.
Proof. repeat split; vm_compute; reflexivity. Qed.
