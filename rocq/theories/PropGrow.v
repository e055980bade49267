(** C85: more content on a page never loses groups. *)

From Coq Require Import Ascii String NArith ZArith Bool List.
From Verif Require Import Base Tags Dom Values Match Rule RuleMatching MatchSpec ExtractSpec SearchSpec RewriteSpec Samples MostSpec GrowSpec GrowProofs MostCases GrowCases.
Import ListNotations.

(** C85. A document with further nodes between and around its nodes has a place
    for each node it had, with the same parent and in the same order. *)
Theorem C85_places : forall D D', grown D D' -> exists f, f [] = [] /\ placed D D' f.
Proof. exact grown_placed. Qed.
Print Assumptions C85_places.

(** Rules whose conditions are on tags and attributes alone match the same node
    there, with its children and nested rules. *)
Theorem C85_matches : forall E R D D' f rp r p t n n' F F' b inner inner' k k',
  placed D D' f -> own_conditions r -> rget R rp = Some r -> nget D p = Some t ->
  RuleMatchesNodeRecursive R D (Rule_matches E D) F (Some rp) (Some p) n = Ok (true, inner, k) ->
  RuleMatchesNodeRecursive R D' (Rule_matches E D') F' (Some rp) (Some (f p)) n' = Ok (b, inner', k') -> b = true.
Proof. exact recursive_kept. Qed.
Print Assumptions C85_matches.

(** The search with such rules finds at least as many groups in the document
    with more content. *)
Theorem C85_groups : forall E R D D' f i pp t t' n n' gs gs',
  placed D D' f -> own_conditions R -> nget D (i :: pp) = Some t -> nget D' (f (i :: pp)) = Some t' ->
  search_yields E R D (Some (i :: pp)) n (Ok gs) -> search_yields E R D' (Some (f (i :: pp))) n' (Ok gs') ->
  mandatory_of R <> [] -> ~ lone_greedy R -> length gs <= length gs'.
Proof. exact groups_kept. Qed.
Print Assumptions C85_groups.

(** The same for whole pages. *)
Theorem C85_pages : forall E R b x y z e e' n n' gs gs',
  grown e e' -> own_conditions R ->
  search_yields E R (NDocument b x y z [e]) (Some [0]) n (Ok gs) -> search_yields E R (NDocument b x y z [e']) (Some [0]) n' (Ok gs') ->
  mandatory_of R <> [] -> ~ lone_greedy R -> length gs <= length gs'.
Proof. exact pages_kept. Qed.
Print Assumptions C85_pages.

(** A single mandatory rule finds all nodes again. *)
Theorem C85_nodes : forall E R D D' f i pp t t' n n' gs gs' p,
  placed D D' f -> own_conditions R -> nget D (i :: pp) = Some t -> nget D' (f (i :: pp)) = Some t' ->
  search_yields E R D (Some (i :: pp)) n (Ok gs) -> search_yields E R D' (Some (f (i :: pp))) n' (Ok gs') ->
  r_next R = None -> r_optional R = false -> In ([], p) (concat gs) -> In ([], f p) (concat gs').
Proof. exact nodes_kept. Qed.
Print Assumptions C85_nodes.

Example C85_case : grown
    (below_body [el TAG_DIV [el TAG_UL [el_id TAG_LI (s "item1") []; el TAG_P []]]; el TAG_UL [el_id TAG_LI (s "2") []; el TAG_P []]])
    (below_body grown_page) /\
  own_conditions strict_rule /\ mandatory_of strict_rule <> [] /\ ~ lone_greedy strict_rule /\
  search_yields sample_engine strict_rule loose_page (Some [0]) 0
    (Ok [[([RChild], [0; 0; 0; 1; 0]); ([RNext; RChild], [1; 0; 0; 1; 0]); ([], [0; 0; 1; 0])]]) /\
  search_yields sample_engine strict_rule (page grown_page) (Some [0]) 0
    (Ok [[([RChild], [0; 3; 1; 0]); ([RNext; RChild], [1; 3; 1; 0]); ([], [3; 1; 0])];
         [([RChild], [0; 0; 1; 1; 0]); ([RNext; RChild], [2; 0; 1; 1; 0]); ([], [0; 1; 1; 0])]]).
Proof. exact (conj page_grown grown_case). Qed.

(** A condition on the place of a node loses the group. *)
Theorem C85_position_refuted : exists E R e e' gs,
  grown e e' /\ mandatory_of R <> [] /\ ~ lone_greedy R /\ r_nested R = [] /\ r_child R = None /\ gs <> [] /\
  search_yields E R (NDocument true (s "html") [] [] [e]) (Some [0]) 0 (Ok gs) /\
  search_yields E R (NDocument true (s "html") [] [] [e']) (Some [0]) 0 (Ok []).
Proof. exact position_loses. Qed.
Print Assumptions C85_position_refuted.

(** In a row of rules a node may be lost, because a new one takes its place. *)
Theorem C85_row_refuted : exists E R D D' p gs gs',
  grown D D' /\ own_conditions R /\
  search_yields E R D (Some [0]) 0 (Ok gs) /\ search_yields E R D' (Some [0]) 0 (Ok gs') /\
  In ([], p) (concat gs) /\ forall f, f [] = [] -> placed D D' f -> ~ In ([], f p) (concat gs').
Proof. exact row_loses_node. Qed.
Print Assumptions C85_row_refuted.
