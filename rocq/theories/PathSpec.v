(** Rules without siblings (C81): what a search takes from a document, as a
    function. There are no groups and no positions here: a rule takes every
    node that it matches. *)

From Coq Require Import Ascii String NArith ZArith Bool List.
From Verif Require Import Base Dom Values Match Rule RuleMatching MatchSpec ExtractSpec.
Import ListNotations.

(** No rule of the tree has a rule next to it. *)
Fixpoint no_siblings (r : rule) : Prop :=
  match r with
  | mk_rule c n l _ _ _ _ _ _ =>
      n = None /\ match c with Some c' => no_siblings c' | None => True end /\
      (fix all l := match l with [] => True | q :: l' => no_siblings q /\ all l' end) l
  end.

Section Path.
Variable E : engine.
Variable D : node.

(** The node satisfies the tag and the conditions of the rule. *)
Definition passes (r : rule) (p : npath) : bool :=
  match Rule_matches E D r p with Ok b => b | _ => false end.

(** The children of an element. *)
Definition children_at (p : npath) : list npath :=
  match nget D p with
  | Some (NElement _ _ _ cs) => map (fun k => k :: p) (seq 0 (length cs))
  | _ => []
  end.
(** All nodes below an element: its children, then those of the elements below it
    in document order. *)
Definition nodes_below (p : npath) : list npath :=
  match nget D p with Some n => flat_map children_at (elements n p) | None => [] end.

(** The lists of siblings of a search that starts at the node [i :: pp]. *)
Definition sibling_lists (i : nat) (pp : npath) : list (list npath) :=
  match nget D pp with
  | Some par =>
      map (fun k => k :: pp) (seq i (siblings_seen par i)) ::
      map children_at (elements_from D pp i (siblings_seen par i))
  | None => []
  end.

(** The rule matches the node: the node passes; if there are rules inside then it
    has children; and every rule inside that is not optional matches a child, or
    a node below if it is in braces. *)
Fixpoint matched (r : rule) (p : npath) : bool :=
  match r with
  | mk_rule c _ l _ _ _ _ _ _ =>
      passes r p &&
      (match c, l with None, [] => true | _, _ => nonempty_list (children_at p) end) &&
      match c with Some c' => r_optional c' || existsb (matched c') (children_at p) | None => true end &&
      forallb (fun q => r_optional q || existsb (matched q) (nodes_below p)) l
  end.

(** What the captures of a rule take from a node. *)
Definition own_values (r : rule) (p : npath) : list result_pair :=
  flat_map (fun c => match capture_capture E D c p with Ok (Some v) => [v] | _ => [] end) (present (r_captures r)).

(** What the rule and the rules inside take from a node that it matches: the
    values of the inner rules come first. *)
Fixpoint all_values (r : rule) (p : npath) : list result_pair :=
  match r with
  | mk_rule c _ l _ _ _ _ _ _ =>
      match c with Some c' => flat_map (all_values c') (filter (matched c') (children_at p)) | None => [] end ++
      flat_map (fun q => flat_map (all_values q) (filter (matched q) (nodes_below p))) l ++
      own_values r p
  end.

(** The values of the groups: one group for each node, or for each list of
    siblings if the rule is greedy. *)
Definition group_values (R : rule) (ps : list npath) : list (list result_pair) :=
  if r_greedy R then [flat_map (all_values R) (filter (matched R) ps)]
  else map (all_values R) (filter (matched R) ps).

(** The result: a map for every group with a value. *)
Definition path_result (R : rule) (i : nat) (pp : npath) (res : list ResultMap) : Prop :=
  Forall2 map_of (filter nonempty_list (flat_map (group_values R) (sibling_lists i pp))) res.

End Path.
