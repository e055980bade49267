(** C87: optional rules only add pairs. *)

From Coq Require Import Ascii String NArith ZArith Bool List.
From Verif Require Import Base Tags Dom Values Match Rule RuleMatching MatchSpec ExtractSpec RewriteSpec Samples SkelSpec SkelMain SkelCases.
Import ListNotations.

(** C87. Two rules with the same mandatory rules, anywhere in the tree, find as
    many groups.  The pairs of the mandatory rules are the same in each group,
    in the same order. *)
Theorem C87_groups : forall E R R' D i pp t, nget D (i :: pp) = Some t ->
  same_skeleton R R' -> mandatory_of R <> [] -> repeats_freely R -> repeats_freely R' -> forall n n' gs gs',
  search_yields E R D (Some (i :: pp)) n (Ok gs) -> search_yields E R' D (Some (i :: pp)) n' (Ok gs') ->
  Forall2 (same_essentials R R') gs gs'.
Proof. exact skeleton_groups. Qed.
Print Assumptions C87_groups.

(** A name that mandatory rules alone store under has the same values in the two
    results. *)
Theorem C87_values : forall E R R' D i pp t, nget D (i :: pp) = Some t ->
  same_skeleton R R' -> mandatory_of R <> [] -> repeats_freely R -> repeats_freely R' -> forall name n n' res res',
  stored_by_essentials R name -> stored_by_essentials R' name ->
  extract_yields E R D (Some (i :: pp)) n (Ok res) -> extract_yields E R' D (Some (i :: pp)) n' (Ok res') ->
  flat_map (values_of name) res = flat_map (values_of name) res'.
Proof. exact skeleton_values. Qed.
Print Assumptions C87_values.

Example C87_case :
  same_skeleton with_optional without_optional /\ mandatory_of with_optional <> [] /\
  repeats_freely with_optional /\ repeats_freely without_optional /\
  stored_by_essentials with_optional (s "a") /\ stored_by_essentials without_optional (s "a") /\
  extract_yields sample_engine with_optional skeleton_page (Some [0]) 0
    (Ok [[(s "a", s "2"); (s "c", s "3"); (s "c", s "4"); (s "x", s "1"); (s "y", s "5")]; [(s "a", s "6"); (s "c", s "7")]]) /\
  extract_yields sample_engine without_optional skeleton_page (Some [0]) 0
    (Ok [[(s "a", s "2"); (s "c", s "3"); (s "c", s "4")]; [(s "a", s "6"); (s "c", s "7")]]).
Proof. exact skeleton_case. Qed.

Example C87_case_groups :
  search_yields sample_engine with_optional skeleton_page (Some [0]) 0
    (Ok [[([RChild], [0; 0; 1; 0]); ([RNext; RChild], [1; 0; 1; 0]); ([], [0; 1; 0]); ([RNext], [1; 1; 0]); ([RNext], [2; 1; 0]); ([RNext; RNext], [3; 1; 0])];
         [([RNext; RChild], [0; 4; 1; 0]); ([], [4; 1; 0]); ([RNext], [5; 1; 0])]]) /\
  search_yields sample_engine without_optional skeleton_page (Some [0]) 0
    (Ok [[([RChild], [1; 0; 1; 0]); ([], [0; 1; 0]); ([RNext], [1; 1; 0]); ([RNext], [2; 1; 0])];
         [([RChild], [0; 4; 1; 0]); ([], [4; 1; 0]); ([RNext], [5; 1; 0])]]).
Proof. exact skeleton_search. Qed.

(** An optional rule before a greedy one splits its group (C13). *)
Theorem C87_greedy_refuted : exists E R R' D gs gs',
  same_skeleton R R' /\ mandatory_of R <> [] /\ repeats_freely R' /\
  search_yields E R D (Some [0]) 0 (Ok gs) /\ search_yields E R' D (Some [0]) 0 (Ok gs') /\ length gs <> length gs'.
Proof. exact greedy_skeleton. Qed.
Print Assumptions C87_greedy_refuted.

(** Without mandatory rules the groups are those of the optional ones. *)
Theorem C87_optional_refuted : exists E R R' D gs gs',
  same_skeleton R R' /\ repeats_freely R /\ repeats_freely R' /\
  search_yields E R D (Some [0]) 0 (Ok gs) /\ search_yields E R' D (Some [0]) 0 (Ok gs') /\ length gs <> length gs'.
Proof. exact optional_skeleton. Qed.
Print Assumptions C87_optional_refuted.

(** Child rules that are all optional still ask for a child (C15). *)
Theorem C87_child_refuted : exists E R R' c D,
  r_child R = Some c /\ mandatory_of c = [] /\ R' = mk_rule None (r_next R) (r_nested R) (r_matches R) (r_captures R) (r_tag R) (r_optional R) (r_greedy R) (r_tagname R) /\
  repeats_freely R /\ repeats_freely R' /\
  search_yields E R D (Some [0]) 0 (Ok []) /\ search_yields E R' D (Some [0]) 0 (Ok [[([], [0; 1; 0])]]).
Proof. exact only_optional_children. Qed.
Print Assumptions C87_child_refuted.
