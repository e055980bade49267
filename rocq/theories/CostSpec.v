(** Vocabulary for the statements about the number of tests (C67): how often
    Rule::matches is called during a search. *)

From Coq Require Import Ascii String NArith List.
From Verif Require Import Base Tags Dom NodeUtil Values Match Rule MatchSpec DepthSpec.
Import ListNotations.

Definition sum (l : list nat) : nat := fold_right Nat.add 0 l.

(** The nodes that a search below [t] looks at. *)
Definition kids (t : node) : list node := if is_element t then children_of t else [].

(** How often a chain of rules is tried on [n] siblings: at most twice on every
    node if it has a mandatory rule, else at most once for every group. *)
Definition passes (r : rule) (n : nat) : nat :=
  match mandatory_of r with [] => n | _ :: _ => 2 end.

(** [f] for the children of [t], the children of these, and so on. *)
Fixpoint below (f : list node -> nat) (t : node) : nat :=
  match t with
  | NElement _ _ _ cs => f cs + sum (map (below f) cs)
  | _ => 0
  end.

(** The tests of the rules of a chain, at most, when each of them is tried once
    at [t]: one for the rule itself, then those of its child rules on the
    children of [t] and those of its nested rules on everything below [t]. *)
Fixpoint chain_tests (r : rule) (t : node) : nat :=
  let 'mk_rule c nx l _ _ _ _ _ _ := r in
  1
  + match c with
    | Some c' => passes c' (length (kids t)) * sum (map (chain_tests c') (kids t))
    | None => 0
    end
  + sum (map (fun r' => below (fun cs => passes r' (length cs) * sum (map (chain_tests r') cs)) t) l)
  + match nx with Some r' => chain_tests r' t | None => 0 end.

(** The tests of a chain on a list of siblings, and on everything below. *)
Definition list_tests (r : rule) (ts : list node) : nat :=
  passes r (length ts) * sum (map (chain_tests r) ts).
Definition search_tests (r : rule) (ts : list node) : nat :=
  list_tests r ts + sum (map (below (list_tests r)) ts).

(** The node that a search starts with and its following siblings. *)
Definition siblings_from (par : node) (i : nat) : list node :=
  firstn (siblings_seen par i) (skipn i (children_of par)).

(** The number of rules. *)
Fixpoint rule_count (r : rule) : nat :=
  let 'mk_rule c nx l _ _ _ _ _ _ := r in
  S (match c with Some c' => rule_count c' | None => 0 end
     + sum (map rule_count l)
     + match nx with Some n' => rule_count n' | None => 0 end).

(** The number of nodes of a tree of elements. *)
Fixpoint node_count (t : node) : nat :=
  match t with NElement _ _ _ cs => S (sum (map node_count cs)) | _ => 1 end.

(** The largest number of children. *)
Fixpoint width (t : node) : nat :=
  match t with NElement _ _ _ cs => Nat.max (length cs) (largest (map width cs)) | _ => 0 end.

(** The largest number of nested rules inside one another; child rules do not
    count. *)
Fixpoint nestings (r : rule) : nat :=
  let 'mk_rule c nx l _ _ _ _ _ _ := r in
  Nat.max
    (Nat.max (match c with Some c' => nestings c' | None => 0 end)
             (largest (map (fun r' => S (nestings r')) l)))
    (match nx with Some n' => nestings n' | None => 0 end).

(** The first rules of all chains below a rule and its next rules. *)
Fixpoint inner_chains (r : rule) : list rule :=
  let 'mk_rule c nx l _ _ _ _ _ _ := r in
  (match c with Some c' => c' :: inner_chains c' | None => [] end)
  ++ flat_map (fun r' => r' :: inner_chains r') l
  ++ (match nx with Some n' => inner_chains n' | None => [] end).

(** Every chain has a mandatory rule. *)
Definition no_optional_chain (r : rule) : Prop :=
  Forall (fun c => mandatory_of c <> []) (r :: inner_chains r).
