(** The shape of the groups that a search returns, whatever its conditions
    answer (C69). *)

From Coq Require Import Arith Bool List Sorted.
From Verif Require Import Base Dom Match Rule RuleMatching GroupSpec MatchSpec SearchSpec CondState CondSpec.
Import ListNotations.

(** One match of a group: the number of the rule in its chain, the number of the
    node among its siblings, and the pairs that were found below the node. *)
Record find := mk_find { rule_no : nat; node_no : nat; inside : MatchingNodes }.

(** A group of the chain [c] among the siblings [lo] .. [hi - 1]: in the order
    of the rules and of the nodes; every mandatory rule has a node, and only a
    greedy rule (that is repeated, see GroupSpec.v) has several. *)
Definition group_shape (c : rule) (lo hi : nat) (t : list find) : Prop :=
  t <> [] /\
  StronglySorted (fun x y => rule_no x <= rule_no y /\ node_no x < node_no y) t /\
  (forall x, In x t -> rule_no x < length (chain c) /\ lo <= node_no x < hi) /\
  (forall j, j < length (chain c) -> r_optional (rule_at c j) = false -> exists x, In x t /\ rule_no x = j) /\
  (forall x y, In x t -> In y t -> rule_no x = rule_no y ->
     takes_all (fun j => r_optional (rule_at c j)) (fun j => r_greedy (rule_at c j)) (rule_no x) = false -> x = y).

(** The groups of a list take nodes one after the other. *)
Fixpoint one_by_one (ts : list (list find)) : Prop :=
  match ts with
  | [] => True
  | t :: ts' => (forall t' x y, In t' ts' -> In x t -> In y t' -> node_no x < node_no y) /\ one_by_one ts'
  end.

(** The pairs of a group in their order, as [layout] in MatchSpec.v. *)
Fixpoint arranged (c : rule) (rp : rpath) (pp : npath) (seen : option nat) (gap : MatchingNodes) (t : list find)
  : MatchingNodes :=
  match t with
  | [] => gap
  | mk_find j i m :: t' =>
      let pair := (address rp j, i :: pp) in
      if negb (r_optional (rule_at c j)) && negb (match seen with Some j' => j' =? j | None => false end)
      then m ++ gap ++ [pair] ++ arranged c rp pp (Some j) [] t'
      else arranged c rp pp seen (gap ++ m ++ [pair]) t'
  end.

Section Groups.

Variable R : rule.
Variable D : node.
Variable log : list entry.

(** The groups of the chain [c], whose first rule is at [rp], among the siblings
    [lo] .. [hi - 1] below [pp]. [F rp p m] says that the rule at [rp] was found
    to match at [p], with the pairs [m] below it. *)
Definition found_groups (F : rpath -> npath -> MatchingNodes -> Prop)
    (rp : rpath) (c : rule) (pp : npath) (lo hi : nat) (gs : list MatchingNodes) : Prop :=
  exists ts, Forall (group_shape c lo hi) ts /\ one_by_one ts /\
    (forall t x, In t ts -> In x t -> F (address rp (rule_no x)) (node_no x :: pp) (inside x)) /\
    gs = map (arranged c rp pp None []) ts.

(** The same in the child lists of the elements [qs]. *)
Definition found_groups_in (F : rpath -> npath -> MatchingNodes -> Prop)
    (rp : rpath) (c : rule) (qs : list npath) (gs : list MatchingNodes) : Prop :=
  exists gss, Forall2 (fun q g => found_groups F rp c q 0 (child_count D q) g) qs gss /\ gs = concat gss.

(** The rule at [rp] was found to match at [p]: its own conditions said yes, its
    child rules were found among the children of the node and its nested rules
    anywhere below it; for each of these chains there is at least one group if
    one of its rules is mandatory. *)
Inductive found : rpath -> npath -> MatchingNodes -> Prop :=
| found_intro rp r p n child nested :
    rget R rp = Some r -> nget D p = Some n -> passed R D log rp p ->
    (r_child r <> None \/ r_nested r <> [] -> is_element n = true /\ children_of n <> []) ->
    (r_child r = None -> child = []) ->
    (forall c, r_child r = Some c -> exists gs,
       found_groups found (RChild :: rp) c p 0 (child_count D p) gs /\ child = concat gs /\
       (mandatory_of c <> [] -> gs <> [])) ->
    Forall2 (fun kc m => exists gs,
               found_groups_in found (RNested (fst kc) :: rp) (snd kc) (elements n p) gs /\ m = concat gs /\
               (mandatory_of (snd kc) <> [] -> gs <> []))
      (combine (seq 0 (length (r_nested r))) (r_nested r)) nested ->
    found rp p (child ++ concat nested).

(** What a search from the node [i :: pp] on returns. *)
Definition search_found (i : nat) (pp : npath) (gs : list MatchingNodes) : Prop :=
  exists par g0 gs',
    nget D pp = Some par /\
    found_groups found [] R pp i (i + siblings_seen par i) g0 /\
    found_groups_in found [] R (elements_from D pp i (siblings_seen par i)) gs' /\
    gs = g0 ++ gs'.

(** The same without the pairs of the rules below: in every list of siblings the
    groups take nodes one after the other, and each group consists of nodes that
    passed the test of their rule, in the order of the rules and of the nodes,
    with a node for every mandatory rule and only one for a rule that is not
    greedy. *)
Definition asked_group (L : npath * nat * nat) (t : list (nat * nat)) : Prop :=
  let '(q, s, n) := L in
  t <> [] /\ in_order t /\
  (forall j k, In (j, k) t -> j < length (chain R) /\ s <= k < s + n /\ passed R D log (repeat RNext j) (k :: q)) /\
  (forall j, j < length (chain R) -> is_mandatory (rule_at R j) = true -> exists k, In (j, k) t) /\
  (forall j k k', In (j, k) t -> In (j, k') t -> r_greedy (rule_at R j) = false -> k = k').
Definition asked_groups (L : npath * nat * nat) (G : list MatchingNodes) : Prop :=
  exists ts, map own G = map (pairs_at (fst (fst L))) ts /\ disjoint_increasing ts /\ Forall (asked_group L) ts.

End Groups.
