(** C01 - C05, C17: what Rule::extract does as a whole. *)

From Coq Require Import Ascii String NArith ZArith Bool List Sorted.
From Verif Require Import Base Tags Dom Values Match Rule RuleMatching MatchSpec ExtractSpec ExtractProofs CountProofs ExtractMain DocumentNode Samples.
Import ListNotations.

(** C01. From every node that has a parent extract finishes, and the only
    outcomes are a result, MaxSearchError, an exception of the regex library if
    that can throw, an exception of a user function if that can throw, and an
    overflow in the arithmetic of nth-child if its parameters are extreme (see
    C22). A wrong pointer or index is never used. *)
Theorem C01_extract_finishes : forall E R D i pp t n,
  nget D (i :: pp) = Some t ->
  exists o, extract_yields E R D (Some (i :: pp)) n o /\ extract_outcome_ok E R D o.
Proof. exact extract_total. Qed.
Print Assumptions C01_extract_finishes.

(** With a regex library and user functions that do not throw and moderate
    parameters of nth-child, the outcome is a result or MaxSearchError. *)
Theorem C01_extract_returns : forall E R D i pp t n,
  nget D (i :: pp) = Some t ->
  engine_total E -> rule_calls_return R ->
  (exists size, small_document size D /\ rule_params_safe size R) ->
  exists o, extract_yields E R D (Some (i :: pp)) n o /\ ((exists res, o = Ok res) \/ o = Throw MaxSearchError).
Proof. exact extract_returns. Qed.
Print Assumptions C01_extract_returns.

Example C01_case :
  nget list_page body <> None /\ engine_total sample_engine /\ rule_calls_return list_rule /\
  (small_document 1000 list_page /\ rule_params_safe 1000 list_rule) /\
  extract_yields sample_engine list_rule list_page (Some [0]) 0
    (Ok [[(s "item", s "1"); (s "item", s "2"); (s "text", s "one")]]).
Proof.
  split; [discriminate|]. split; [exact sample_engine_total|]. split; [exact list_rule_calls|].
  split; [exact (conj list_page_small list_rule_safe)|].
  run_extract.
Qed.

(** C02 as stated does not hold: on the document node the search dereferences
    the missing parent. C01 is the statement for all other nodes. *)
Theorem C02_document_node_refuted : exists E R D,
  nget D [] <> None /\ extract_yields E R D (Some []) 0 (UB NullDeref).
Proof.
  exists sample_engine, list_rule, list_page. split; [discriminate|].
  run_extract.
Qed.
Print Assumptions C02_document_node_refuted.

(** It is so for every rule: no rule has a result there, *)
Theorem C02_document_never : forall E R D n res, ~ extract_yields E R D (Some []) n (Ok res).
Proof. exact document_no_result. Qed.
Print Assumptions C02_document_never.

(** and if the conditions of the rule and its siblings have an answer for the
    document node, the missing parent is dereferenced, unless the limit of one
    search is exhausted before. *)
Theorem C02_document_undefined : forall E R D, is_element D = false ->
  (forall r, In r (chain R) -> exists b, Rule_matches E D r [] = Ok b) ->
  forall n, extract_yields E R D (Some []) n (if (n =? 1)%N then Throw MaxSearchError else UB NullDeref).
Proof. exact document_undefined. Qed.
Print Assumptions C02_document_undefined.

Example C02_document_case : is_element list_page = false /\
  (forall r, In r (chain list_rule) -> exists b, Rule_matches sample_engine list_page r [] = Ok b).
Proof. split; [reflexivity|]. intros r H. repeat (destruct H as [<-|H]; [eexists; vm_compute; reflexivity|]). destruct H. Qed.

(** What is left of C02: every node of the document but the document node. *)
Theorem C02_other_nodes_partial : forall E R D p t n,
  nget D p = Some t -> p <> [] ->
  (exists size, small_document size D /\ rule_params_safe size R) ->
  exists o, extract_yields E R D (Some p) n o /\ o <> OutOfFuel /\ forall u, o <> UB u.
Proof. exact extract_safe_nodes. Qed.
Print Assumptions C02_other_nodes_partial.

(** C03. A limit changes the outcome only to MaxSearchError; without limit
    that is never thrown. *)
Theorem C03_limit_never_changes_result : forall E R D p n o0 o,
  extract_yields E R D p 0 o0 -> extract_yields E R D p n o ->
  o0 <> Throw MaxSearchError /\ (o = Throw MaxSearchError \/ o = o0).
Proof. exact extract_limit. Qed.
Print Assumptions C03_limit_never_changes_result.

Example C03_case :
  extract_yields sample_engine list_rule list_page (Some [0]) 9 (Throw MaxSearchError) /\
  exists res, res <> [] /\ extract_yields sample_engine list_rule list_page (Some [0]) 0 (Ok res) /\
    extract_yields sample_engine list_rule list_page (Some [0]) 10 (Ok res).
Proof.
  split; [run_extract|].
  exists [[(s "item", s "1"); (s "item", s "2"); (s "text", s "one")]]. split; [discriminate|].
  split; run_extract.
Qed.

(** C04. There is a threshold for the limit, *)
Theorem C04_limit_threshold : forall E R D i pp t o0,
  nget D (i :: pp) = Some t ->
  extract_yields E R D (Some (i :: pp)) 0 o0 ->
  exists c, forall n, (0 < n)%N ->
    extract_yields E R D (Some (i :: pp)) n (if (n <=? c)%N then Throw MaxSearchError else o0).
Proof. exact extract_threshold_exists. Qed.
Print Assumptions C04_limit_threshold.

(** and for rules without nested rules it is this number. *)
Theorem C04_search_count : forall E R D i pp t gs o,
  without_nested R ->
  nget D (i :: pp) = Some t ->
  search_yields E R D (Some (i :: pp)) 0 (Ok gs) ->
  extract_yields E R D (Some (i :: pp)) 0 o ->
  forall n, (0 < n)%N ->
  extract_yields E R D (Some (i :: pp)) n
    (if (n <=? 1 + N.of_nat (length (elements_with_children D i pp)))%N then Throw MaxSearchError else o).
Proof. exact extract_search_count. Qed.
Print Assumptions C04_search_count.

Definition li_rule : rule := cap TAG_LI false false (s "item") None.

Example C04_case :
  without_nested li_rule /\ length (elements_with_children list_page 0 []) = 5 /\
  extract_yields sample_engine li_rule list_page (Some [0]) 6 (Throw MaxSearchError) /\
  extract_yields sample_engine li_rule list_page (Some [0]) 7 (Ok [[(s "item", s "1")]; [(s "item", s "2")]]).
Proof.
  split; [intros r Hr; apply rule_of_all in Hr; destruct Hr as [<-|[]]; reflexivity|].
  split; [reflexivity|].
  split; run_extract.
Qed.

(** C05. Every value comes from a rule of the tree and a node that matches it. *)
Theorem C05_values_from_matches : forall E R D f i pp t n res m x,
  nget D (i :: pp) = Some t ->
  extract f E R D (Some (i :: pp)) n = Ok res -> In m res -> In x m ->
  exists a q r c, rget R a = Some r /\ rule_matches D (node_satisfies E D) r q /\
    In (Some c) (r_captures r) /\ capture_capture E D c q = Ok (Some x).
Proof. exact values_from_matches. Qed.
Print Assumptions C05_values_from_matches.

(** C17. Every map is non-empty and sorted by name, and is made of the values
    captured from one group of the search. *)
Theorem C17_result_maps : forall E R D f i pp t n res,
  nget D (i :: pp) = Some t ->
  extract f E R D (Some (i :: pp)) n = Ok res ->
  (forall m, In m res -> m <> [] /\ StronglySorted name_le m) /\
  exists gs, search_result D (node_satisfies E D) R i pp gs /\ extract_result E R D gs res.
Proof. exact result_maps. Qed.
Print Assumptions C17_result_maps.

(** The groups and the maps are what the specification says, and the only ones. *)
Theorem C17_extract_computes : forall E R D i pp t gs res,
  nget D (i :: pp) = Some t ->
  engine_total E -> rule_calls_return R ->
  (exists size, small_document size D /\ rule_params_safe size R) ->
  search_result D (node_satisfies E D) R i pp gs -> extract_result E R D gs res ->
  extract_yields E R D (Some (i :: pp)) 0 (Ok res).
Proof. exact extract_computes. Qed.
Print Assumptions C17_extract_computes.

Example C05_C17_case :
  extract 100 sample_engine list_rule list_page (Some [0]) 0 = Ok [[(s "item", s "1"); (s "item", s "2"); (s "text", s "one")]].
Proof. vm_compute. reflexivity. Qed.
