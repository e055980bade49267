(** Specification of the search of RuleMatching.cpp: which nodes a rule matches
    and which pairs of a rule and a node a search finds, in which order. It
    describes the result; it does not search, count or keep a position. *)

From Coq Require Import Arith Bool List Sorted.
From Verif Require Import Base Dom Match Rule RuleMatching GroupSpec.
Import ListNotations.

(** A rule and the rules that follow it. *)
Fixpoint chain (r : rule) : list rule :=
  r :: match r with
       | mk_rule _ (Some n) _ _ _ _ _ _ _ => chain n
       | mk_rule _ None _ _ _ _ _ _ _ => []
       end.

Definition is_mandatory (r : rule) : bool := negb (r_optional r).

(** The mandatory rules of a chain. *)
Definition mandatory_of (r : rule) : list rule := filter is_mandatory (chain r).

(** The elements of the tree [t], whose root is at [p], in document order. Only
    the children of elements are visited. *)
Fixpoint elements (t : node) (p : npath) {struct t} : list npath :=
  match t with
  | NElement _ _ _ cs =>
      p :: (fix go (l : list node) (i : nat) : list npath :=
              match l with
              | [] => []
              | c :: l' => elements c (i :: p) ++ go l' (S i)
              end) cs 0
  | _ => []
  end.

Section Spec.

Variable D : node.
(** Whether a node satisfies the tag and the conditions of a rule itself. *)
Variable satisfies : rule -> npath -> Prop.

(** The rules [rs] match children of [p], one after the other. *)
Definition embedded (E : rule -> npath -> Prop) (rs : list rule) (p : npath) : Prop :=
  exists ks, Forall2 (fun r k => E r (k :: p)) rs ks /\ StronglySorted lt ks.

(** A rule matches a node if the node satisfies it, the mandatory child rules
    match children of the node, and the mandatory rules of every nested chain
    match siblings somewhere below the node. A rule with child rules or nested
    rules, even if these are all optional, needs an element with children. *)
Inductive rule_matches : rule -> npath -> Prop :=
| rule_matches_intro r p n :
    nget D p = Some n ->
    satisfies r p ->
    (r_child r <> None \/ r_nested r <> [] -> is_element n = true /\ children_of n <> []) ->
    (forall c, r_child r = Some c -> embedded rule_matches (mandatory_of c) p) ->
    (forall c, In c (r_nested r) -> mandatory_of c <> [] ->
       exists q, In q (elements n p) /\ embedded rule_matches (mandatory_of c) q) ->
    rule_matches r p.

(** Rule number [j] of the chain that starts with [c] at address [rp]. *)
Definition rule_at (c : rule) (j : nat) : rule := nth j (chain c) c.
Definition address (rp : rpath) (j : nat) : rpath := repeat RNext j ++ rp.

(** The groups, as lists of (number of the rule, number of the sibling), that
    the chain [c] forms among the children [s] .. [s + n - 1] of [pp]. *)
Definition sibling_groups (c : rule) (pp : npath) (s n : nat) (ts : list (list (nat * nat))) : Prop :=
  (if mandatory_of c then are_optional_groups else are_groups)
    (length (chain c)) n
    (fun j => r_optional (rule_at c j)) (fun j => r_greedy (rule_at c j))
    (fun j i => rule_matches (rule_at c j) (s + i :: pp))
    0 ts.

(** The pairs of a group. For every match of a rule at a node come first the
    pairs found below the node ([inner]), then the pair itself; only that the
    pairs found below a node of a mandatory rule come before the matches since
    the previous mandatory rule ([gap]). [seen] is the last mandatory rule that
    has matched; a repeated match of it is treated like an optional rule. *)
Fixpoint layout (optional : nat -> bool) (inner : nat -> nat -> MatchingNodes)
    (pair : nat -> nat -> rpath * npath) (seen : option nat) (gap : MatchingNodes)
    (t : list (nat * nat)) : MatchingNodes :=
  match t with
  | [] => gap
  | (j, i) :: t' =>
      if negb (optional j) && negb (match seen with Some j' => j' =? j | None => false end)
      then inner j i ++ gap ++ [pair j i] ++ layout optional inner pair (Some j) [] t'
      else layout optional inner pair seen (gap ++ inner j i ++ [pair j i]) t'
  end.

(** The groups as lists of pairs. [B rp r p m] says that [m] are the pairs found
    below [p] when the rule [r] at [rp] matches there. *)
Definition pair_groups (B : rpath -> rule -> npath -> MatchingNodes -> Prop)
    (rp : rpath) (c : rule) (pp : npath) (s n : nat) (gs : list MatchingNodes) : Prop :=
  exists ts inner,
    sibling_groups c pp s n ts /\
    (forall j i, In (j, i) (concat ts) -> B (address rp j) (rule_at c j) (s + i :: pp) (inner j i)) /\
    gs = map (layout (fun j => r_optional (rule_at c j)) inner
                (fun j i => (address rp j, s + i :: pp)) None []) ts.

Definition child_count (p : npath) : nat :=
  match nget D p with Some n => length (children_of n) | None => 0 end.

(** The groups in the child lists of the elements [qs]. *)
Definition groups_in (B : rpath -> rule -> npath -> MatchingNodes -> Prop)
    (rp : rpath) (c : rule) (qs : list npath) (gs : list MatchingNodes) : Prop :=
  exists gss,
    Forall2 (fun q g => pair_groups B rp c q 0 (child_count q) g) qs gss /\
    gs = concat gss.

(** The pairs found below a node that a rule matches: the groups of the child
    rules among its children, then the groups of each chain of nested rules
    anywhere below it. *)
Inductive pairs_below : rpath -> rule -> npath -> MatchingNodes -> Prop :=
| pairs_below_intro rp r p n child nested :
    nget D p = Some n ->
    (r_child r = None -> child = []) ->
    (forall c, r_child r = Some c -> exists gs,
       pair_groups pairs_below (RChild :: rp) c p 0 (child_count p) gs /\ child = concat gs) ->
    Forall2 (fun kc m => exists gs,
               groups_in pairs_below (RNested (fst kc) :: rp) (snd kc) (elements n p) gs /\
               m = concat gs)
      (combine (seq 0 (length (r_nested r))) (r_nested r)) nested ->
    pairs_below rp r p (child ++ concat nested).

(** The siblings that a search from a node sees: the node and those behind it,
    if the parent is an element; else the node alone. *)
Definition siblings_seen (par : node) (i : nat) : nat :=
  if is_element par then length (children_of par) - i else 1.

(** The elements below the children [i] .. [i + n - 1] of [pp], these
    included. *)
Definition elements_from (pp : npath) (i n : nat) : list npath :=
  flat_map (fun k => match nget D (k :: pp) with Some t => elements t (k :: pp) | None => [] end)
           (seq i n).

(** The groups that a search of the chain [c] from the node [i :: pp] on
    finds. *)
Definition search_result (c : rule) (i : nat) (pp : npath) (gs : list MatchingNodes) : Prop :=
  exists par g0 gs',
    nget D pp = Some par /\
    pair_groups pairs_below [] c pp i (siblings_seen par i) g0 /\
    groups_in pairs_below [] c (elements_from pp i (siblings_seen par i)) gs' /\
    gs = g0 ++ gs'.

End Spec.
