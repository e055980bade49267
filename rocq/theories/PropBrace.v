(** C86: the order of rules in braces does not matter. *)

From Coq Require Import Ascii String NArith ZArith Bool List Permutation.
From Verif Require Import Base Tags Dom Values Match Rule RuleMatching ExtractSpec RewriteSpec Samples BraceSpec BraceMain BraceCases.
Import ListNotations.

(** C86. Rules whose braces stand in another order, anywhere in the tree, find
    the same groups in the same order.  A group has the same pairs, up to their
    order and the addresses of the rules. *)
Theorem C86_groups : forall R R', rearranged any R R' -> exists g, renumbered R R' g /\ forall E D i pp t n n' gs gs',
  nget D (i :: pp) = Some t ->
  search_yields E R D (Some (i :: pp)) n (Ok gs) -> search_yields E R' D (Some (i :: pp)) n' (Ok gs') ->
  Forall2 (fun m m' => Permutation (moved g m) m') gs gs'.
Proof. exact braces_groups. Qed.
Print Assumptions C86_groups.

(** The result has as many maps, each with the same names and values. *)
Theorem C86_values : forall E R R' D i pp t, nget D (i :: pp) = Some t -> forall n n' res res',
  rearranged any R R' ->
  extract_yields E R D (Some (i :: pp)) n (Ok res) -> extract_yields E R' D (Some (i :: pp)) n' (Ok res') ->
  Forall2 (fun m m' => Permutation m m') res res'.
Proof. exact braces_values. Qed.
Print Assumptions C86_values.

(** The values of a name keep their order when no two rules that were exchanged
    both store under it. *)
Theorem C86_order : forall E R R' D i pp t, nget D (i :: pp) = Some t -> forall may name n n' res res',
  rearranged may R R' -> (forall a b, may a b -> apart_for name a b) ->
  extract_yields E R D (Some (i :: pp)) n (Ok res) -> extract_yields E R' D (Some (i :: pp)) n' (Ok res') ->
  Forall2 (fun m m' => Permutation m m' /\ values_of name m = values_of name m') res res'.
Proof. exact braces_order. Qed.
Print Assumptions C86_order.

(** When the exchanged rules store under different names, the result is the
    same. *)
Theorem C86_maps : forall E R R' D i pp t, nget D (i :: pp) = Some t -> forall n n' res res',
  rearranged apart R R' ->
  extract_yields E R D (Some (i :: pp)) n (Ok res) -> extract_yields E R' D (Some (i :: pp)) n' (Ok res') -> res = res'.
Proof. exact braces_maps. Qed.
Print Assumptions C86_maps.

Example C86_case :
  rearranged apart (with_braces [first_brace; second_brace (s "b")]) (with_braces [second_brace (s "b"); first_brace]) /\
  search_yields sample_engine (with_braces [first_brace; second_brace (s "b")]) brace_page (Some [0]) 0
    (Ok [[([RNested 0], [0; 0; 1; 0]); ([RNested 0], [2; 0; 1; 0]); ([RNested 1], [0; 1; 0; 1; 0]); ([], [0; 1; 0])]]) /\
  search_yields sample_engine (with_braces [second_brace (s "b"); first_brace]) brace_page (Some [0]) 0
    (Ok [[([RNested 0], [0; 1; 0; 1; 0]); ([RNested 1], [0; 0; 1; 0]); ([RNested 1], [2; 0; 1; 0]); ([], [0; 1; 0])]]) /\
  extract_yields sample_engine (with_braces [first_brace; second_brace (s "b")]) brace_page (Some [0]) 0
    (Ok [[(s "a", s "1"); (s "a", s "3"); (s "b", s "2")]]) /\
  extract_yields sample_engine (with_braces [second_brace (s "b"); first_brace]) brace_page (Some [0]) 0
    (Ok [[(s "a", s "1"); (s "a", s "3"); (s "b", s "2")]]).
Proof. exact brace_case. Qed.

(** Under one name the values come in the order of the braces. *)
Theorem C86_order_refuted : exists E R R' D res res',
  rearranged any R R' /\ extract_yields E R D (Some [0]) 0 (Ok res) /\ extract_yields E R' D (Some [0]) 0 (Ok res') /\ res <> res'.
Proof. exact same_name_order. Qed.
Print Assumptions C86_order_refuted.

(** With a limit on the searches, one order may return and the other throw. *)
Theorem C86_limit_refuted : exists E R R' D n res,
  rearranged apart R R' /\ extract_yields E R D (Some [0]) n (Ok res) /\ extract_yields E R' D (Some [0]) n (Throw MaxSearchError).
Proof. exact limited_order. Qed.
Print Assumptions C86_limit_refuted.
