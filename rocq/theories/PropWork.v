(** C92: the work that the conditions of a search do. *)

From Coq Require Import Ascii String NArith ZArith Bool List.
From Verif Require Import Base Tags Dom Values Match Samples Rule RuleMatching MatchSpec ExtractSpec DepthSpec CostSpec Parser
  CaptureState CondState CondSpec TextCostProofs CondCost CondCostSpec CondCostProofs CondCostCases.
Import ListNotations.

(** The conditions that count their work answer like those of the rule. *)
Theorem C92_same : forall E R D, same_answers (fun _ => True) (working E R D) E R D.
Proof. exact working_same. Qed.
Print Assumptions C92_same.

(** So the search ends as it does without counting. *)
Theorem C92_search : forall E R D p n o w, search_works E R D p n o w -> search_yields E R D p n o.
Proof. exact works_yields. Qed.
Print Assumptions C92_search.

(** The work is that of the conditions that were called, in the order in which they
    were called. *)
Theorem C92_total : forall E R D i pp t n o w,
  nget D (i :: pp) = Some t -> search_works E R D (Some (i :: pp)) n o w ->
  exists log, search_does (working E R D) R D (Some (i :: pp)) n 0 (o, (w, log)) /\
    heard (working E R D) 0 (calls_of log) w /\
    w = sum (map (fun '(rp, k, p, _) =>
      match rget R rp with
      | Some r => match nth_error (r_matches r) k with Some (Some m) => condition_work E D m p | _ => 0 end
      | None => 0
      end) (calls_of log)).
Proof. exact works_total. Qed.
Print Assumptions C92_total.

(** nth-child looks at the siblings before the node, or after it, and at the node. *)
Theorem C92_nth : forall E D a b first of_type i pp t orig attrs cs t' orig' attrs' cs',
  nget D (i :: pp) = Some (NElement t orig attrs cs) -> nget D pp = Some (NElement t' orig' attrs' cs') ->
  condition_work E D (NthChildMatch a b (mk_nth_option first of_type)) (i :: pp) = if first then i + 1 else length cs' - i.
Proof. exact nth_work. Qed.
Print Assumptions C92_nth.

(** Each condition does work that is at most quadratic in the size of the document. *)
Theorem C92_condition : forall E D m p,
  condition_work E D m p <= condition_count m * (2 * (document_size D * document_size D)).
Proof. intros E D m. exact (work_bound E D m). Qed.
Print Assumptions C92_condition.

(** All conditions together: at most this for each condition of each test that
    C67 counts. *)
Theorem C92_bound : forall E R D i pp par n o,
  nget D pp = Some par -> i < length (children_of par) -> search_yields E R D (Some (i :: pp)) n o ->
  exists w, search_works E R D (Some (i :: pp)) n o w /\
    w <= search_tests R (siblings_from par i) * (conditions R * (2 * (document_size D * document_size D))).
Proof. exact search_work_bound. Qed.
Print Assumptions C92_bound.

(** <b @text^="a"/> takes more than quadratic time, although each node is tested
    once. *)
Theorem C92_texts_refuted : forall E c, exists D gs w,
  search_works E text_rule D (Some [0]) 0 (Ok gs) w /\ c * (document_size D * document_size D) < w.
Proof. exact texts_cubic. Qed.
Print Assumptions C92_texts_refuted.

(** <b:not(:only-child)/> takes more than linear time, even in a document that is
    not deep. *)
Theorem C92_siblings_refuted : forall E c, exists D gs w,
  search_works E sibling_rule D (Some [0]) 0 (Ok gs) w /\ c * document_size D < w /\ height D <= 2.
Proof. exact siblings_quadratic. Qed.
Print Assumptions C92_siblings_refuted.

(** ** Cases *)

Example C92_rules :
  ParseHext sample_engine (s "<b @text^=""a""/>") = Ok text_rule /\
  ParseHext sample_engine (s "<b:not(:only-child)/>") = Ok sibling_rule.
Proof. split; vm_compute; reflexivity. Qed.

(** Three elements around three letters: 12 + 9 + 6 characters. Two comments and
    four elements, each of which looks at the comments and at one or two elements. *)
Example C92_case :
  search_works sample_engine text_rule (deep 3) (Some [0]) 0
    (Ok [[([], [0])]; [([], [0; 0])]; [([], [0; 0; 0])]]) 27 /\
  document_size (deep 3) = 8 /\ conditions text_rule = 1 /\
  search_works sample_engine sibling_rule (row 2) (Some [0]) 0
    (Ok [[([], [2])]; [([], [3])]; [([], [4])]; [([], [5])]]) 13.
Proof.
  split; [|split; [reflexivity|split; [reflexivity|]]];
  eexists; match goal with |- search_does ?act ?R ?D ?p ?n ?w _ =>
    eapply eq_ind; [apply (CondMain.search_does_by act R D 100 p n w); vm_compute; discriminate|vm_compute; reflexivity] end.
Qed.

(** Nodes that are not matched cost as well. <b:nth-child(2):child-count(1)/>: the
    second condition is asked only if the first one says yes. *)
Example C92_refused_case :
  search_works sample_engine
    (mk_rule None None [] [Some (NthChildMatch 0 2 (mk_nth_option true false)); Some (ChildCountMatch 1)] [] TAG_B false false None)
    (page [el TAG_B []; el TAG_B [NText (s "x")]; el TAG_B []]) (Some (0 :: body)) 0 (Ok []) (1 + (2 + 1) + 3).
Proof.
  eexists; match goal with |- search_does ?act ?R ?D ?p ?n ?w _ =>
    eapply eq_ind; [apply (CondMain.search_does_by act R D 100 p n w); vm_compute; discriminate|vm_compute; reflexivity] end.
Qed.
