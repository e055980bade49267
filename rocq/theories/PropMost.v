(** C78: the search finds as many groups as possible. C79: a rule that asks for
    less finds at least as much. *)

From Coq Require Import Ascii String NArith ZArith Bool List Sorted.
From Verif Require Import Base Tags Dom Values Match Rule RuleMatching MatchSpec ExtractSpec SearchSpec RewriteSpec Samples MostSpec MostProofs LessProofs MostCases.
Import ListNotations.

(** C78. In every list of siblings the search finds as many groups as the
    mandatory rules can be matched one after the other; not even a search that
    tried all possibilities would find more. *)
Theorem C78_most : forall E R D i pp t n gs,
  nget D (i :: pp) = Some t -> search_yields E R D (Some (i :: pp)) n (Ok gs) ->
  mandatory_of R <> [] -> ~ lone_greedy R -> per_list D i pp gs (most_groups E D R).
Proof. exact search_most. Qed.
Print Assumptions C78_most.

Example C78_case : mandatory_of pair_rule <> [] /\ ~ lone_greedy pair_rule /\
  search_yields sample_engine pair_rule pair_page (Some [0]) 0
    (Ok [[([], [0; 1; 0]); ([RNext; RNext], [1; 1; 0])];
         [([], [2; 1; 0]); ([RNext], [4; 1; 0]); ([RNext; RNext], [5; 1; 0])]]).
Proof. exact pair_case. Qed.

(** C79. A node that a rule matches, with its children and nested rules, is also
    matched by every rule that asks for less. *)
Theorem C79_matches : forall E D R R' rp rp' r r' p t f f' n n' b inner inner' k k',
  rget R rp = Some r -> rget R' rp' = Some r' -> asks_less r' r -> nget D p = Some t ->
  RuleMatchesNodeRecursive R D (Rule_matches E D) f (Some rp) (Some p) n = Ok (true, inner, k) ->
  RuleMatchesNodeRecursive R' D (Rule_matches E D) f' (Some rp') (Some p) n' = Ok (b, inner', k') -> b = true.
Proof. exact recursive_less. Qed.
Print Assumptions C79_matches.

(** The search with such rules finds at least as many groups. *)
Theorem C79_groups : forall E R R' D i pp t n n' gs gs',
  nget D (i :: pp) = Some t ->
  search_yields E R D (Some (i :: pp)) n (Ok gs) -> search_yields E R' D (Some (i :: pp)) n' (Ok gs') ->
  fewer asks_less (mandatory_of R') (mandatory_of R) -> mandatory_of R' <> [] -> ~ lone_greedy R' ->
  length gs <= length gs'.
Proof. exact groups_less. Qed.
Print Assumptions C79_groups.

(** A single mandatory rule finds all nodes that a rule found which asks for more. *)
Theorem C79_nodes : forall E R R' D i pp t n n' gs gs' j p,
  nget D (i :: pp) = Some t ->
  search_yields E R D (Some (i :: pp)) n (Ok gs) -> search_yields E R' D (Some (i :: pp)) n' (Ok gs') ->
  r_next R' = None -> r_optional R' = false -> asks_less R' (rule_at R j) ->
  In (repeat RNext j, p) (concat gs) -> In ([], p) (concat gs').
Proof. exact nodes_less. Qed.
Print Assumptions C79_nodes.

Example C79_case : asks_less loose_rule strict_rule /\ fewer asks_less (mandatory_of loose_rule) (mandatory_of strict_rule) /\
  mandatory_of loose_rule <> [] /\ ~ lone_greedy loose_rule /\
  search_yields sample_engine strict_rule loose_page (Some [0]) 0
    (Ok [[([RChild], [0; 0; 0; 1; 0]); ([RNext; RChild], [1; 0; 0; 1; 0]); ([], [0; 0; 1; 0])]]) /\
  search_yields sample_engine loose_rule loose_page (Some [0]) 0
    (Ok [[([RNested 0], [0; 0; 0; 1; 0]); ([RNested 0], [0; 1; 1; 0]); ([], [0])];
         [([RNested 0], [0; 0; 0; 1; 0]); ([RNested 0], [0; 1; 1; 0]); ([], [1; 0])];
         [([RNested 0], [0; 0; 0; 1; 0]); ([], [0; 1; 0])];
         [([RNested 0], [0; 1; 1; 0]); ([], [1; 1; 0])];
         [([RNested 0], [0; 0; 0; 1; 0]); ([], [0; 0; 1; 0])]]).
Proof. exact loose_case. Qed.

(** In a row of rules a node may be lost, because another group takes its place. *)
Theorem C79_row_refuted : exists E R R' D i pp t p gs gs',
  nget D (i :: pp) = Some t /\ fewer asks_less (mandatory_of R') (mandatory_of R) /\ length (chain R) = length (chain R') /\
  search_yields E R D (Some (i :: pp)) 0 (Ok gs) /\ search_yields E R' D (Some (i :: pp)) 0 (Ok gs') /\
  In ([], p) (concat gs) /\ ~ In ([], p) (concat gs').
Proof. exact row_loses. Qed.
Print Assumptions C79_row_refuted.
