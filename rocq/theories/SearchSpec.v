(** Readable statements about the groups that a search finds. *)

From Coq Require Import Arith Bool List Sorted.
From Verif Require Import Base Dom Values Match Rule RuleMatching MatchSpec ExtractSpec.
Import ListNotations.

(** The pairs of a group that belong to the rule the search started with and
    its siblings, not to rules below these. *)
Definition is_next (st : rstep) : bool := match st with RNext => true | _ => false end.
Definition own (g : MatchingNodes) : MatchingNodes := filter (fun x : rpath * npath => forallb is_next (fst x)) g.

(** The sibling lists that a search from the node [i :: pp] looks at, in order:
    (parent, first child, number of children). *)
Definition lists_searched (D : node) (i : nat) (pp : npath) : list (npath * nat * nat) :=
  match nget D pp with
  | None => []
  | Some par =>
      (pp, i, siblings_seen par i)
      :: map (fun q => (q, 0, child_count D q)) (elements_from D pp i (siblings_seen par i))
  end.

(** The search finds in every list [L] groups [G] with [P L G], and returns
    these one list after the other. *)
Definition per_list (D : node) (i : nat) (pp : npath) (gs : list MatchingNodes)
    (P : npath * nat * nat -> list MatchingNodes -> Prop) : Prop :=
  exists Gs, gs = concat Gs /\ Forall2 P (lists_searched D i pp) Gs.

Section Lists.
Variable E : engine.
Variable D : node.
Variable R : rule.

Notation matching := (rule_matches D (node_satisfies E D)).

(** Pairs as (number of the sibling rule, number of the child). *)
Definition pairs_at (q : npath) (t : list (nat * nat)) : MatchingNodes :=
  map (fun x => (repeat RNext (fst x), snd x :: q)) t.

Definition in_order (t : list (nat * nat)) : Prop :=
  StronglySorted (fun x y => fst x <= fst y /\ snd x < snd y) t.

(** C07 *)
Definition complete_group (L : npath * nat * nat) (g : MatchingNodes) : Prop :=
  let '(q, s, n) := L in
  exists t, own g = pairs_at q t /\ in_order t /\
    (forall j k, In (j, k) t -> j < length (chain R) /\ s <= k < s + n /\ matching (rule_at R j) (k :: q)) /\
    (forall j, j < length (chain R) -> is_mandatory (rule_at R j) = true -> exists k, In (j, k) t) /\
    (forall j k k', In (j, k) t -> In (j, k') t -> r_greedy (rule_at R j) = false -> k = k').
Definition complete_groups L G : Prop := Forall (complete_group L) G.

(** The mandatory rules match the children [ks] of the list, in order. *)
Definition embeds (L : npath * nat * nat) (ks : list nat) : Prop :=
  let '(q, s, n) := L in
  Forall2 (fun r k => s <= k < s + n /\ matching r (k :: q)) (mandatory_of R) ks /\ StronglySorted lt ks.

(** The first nodes that the mandatory rules have in a group. *)
Definition first_nodes (t : list (nat * nat)) (ks : list nat) : Prop :=
  Forall2 (fun j k => In (j, k) t /\ forall k', In (j, k') t -> k <= k')
    (filter (fun j => is_mandatory (rule_at R j)) (seq 0 (length (chain R)))) ks.

(** C08 *)
Definition found_iff_embeds (L : npath * nat * nat) (G : list MatchingNodes) : Prop :=
  (G <> [] <-> exists ks, embeds L ks) /\
  (forall g G', G = g :: G' -> exists t ks,
     own g = pairs_at (fst (fst L)) t /\ first_nodes t ks /\ embeds L ks /\
     forall ks', embeds L ks' -> Forall2 le ks ks').

(** C09 *)
Fixpoint disjoint_increasing (ts : list (list (nat * nat))) : Prop :=
  match ts with
  | [] => True
  | t :: ts' =>
      (forall t' x y, In t' ts' -> In x t -> In y t' -> snd x < snd y) /\ disjoint_increasing ts'
  end.
Definition exhaustive_groups (L : npath * nat * nat) (G : list MatchingNodes) : Prop :=
  exists ts, map own G = map (pairs_at (fst (fst L))) ts /\
    disjoint_increasing ts /\
    (forall ks, embeds L ks -> exists t x, In t ts /\ In x t /\ hd 0 ks <= snd x).

(** All children of the list that a rule matches, in order. *)
Definition all_matching (L : npath * nat * nat) (r : rule) (ks : list nat) : Prop :=
  let '(q, s, n) := L in
  StronglySorted lt ks /\ forall k, In k ks <-> s <= k < s + n /\ matching r (k :: q).

(** C10 *)
Definition one_group_each (L : npath * nat * nat) (G : list MatchingNodes) : Prop :=
  exists ks, all_matching L R ks /\
    map own G = map (fun k => [([], k :: fst (fst L))]) ks.

(** C11 *)
Definition one_group_of_all (L : npath * nat * nat) (G : list MatchingNodes) : Prop :=
  exists ks, all_matching L R ks /\
    map own G = match ks with [] => [] | _ => [map (fun k => ([], k :: fst (fst L))) ks] end.

(** C12. [None] and the rule has no place, or the first place. *)
Definition first_place (P : nat -> Prop) (x : option nat) : Prop :=
  match x with
  | Some k => P k /\ forall k', P k' -> k <= k'
  | None => forall k, ~ P k
  end.
Definition opt_pair (q : npath) (j : nat) (x : option nat) : MatchingNodes :=
  match x with Some k => [(repeat RNext j, k :: q)] | None => [] end.

Definition between_groups (L : npath * nat * nat) (G : list MatchingNodes) : Prop :=
  let '(q, s, n) := L in
  forall g, In g G -> exists a b c,
    own g = ([], a :: q) :: opt_pair q 1 b ++ [([RNext; RNext], c :: q)] /\
    first_place (fun k => a < k < c /\ matching (rule_at R 1) (k :: q)) b.

Definition trailing_groups (L : npath * nat * nat) (G : list MatchingNodes) : Prop :=
  let '(q, s, n) := L in
  forall g, In g G -> exists a b,
    own g = ([], a :: q) :: opt_pair q 1 b /\
    first_place (fun k => a < k < s + n /\ matching (rule_at R 1) (k :: q) /\
                          forall k', a < k' <= k -> ~ matching R (k' :: q)) b.

(** C52. The places that a rule takes: all of them if it is greedy, otherwise
    the first. *)
Definition taken (r : rule) (P : nat -> Prop) (ks : list nat) : Prop :=
  if r_greedy r then StronglySorted lt ks /\ forall k, In k ks <-> P k
  else exists x, first_place P x /\ ks = match x with Some k => [k] | None => [] end.

(** The groups of a chain of a leading rule and a mandatory rule from [lo] on:
    each is the next match of the mandatory rule, and what the leading rule
    takes between that and the previous group. *)
Fixpoint leading_from (q : npath) (hi lo : nat) (G : list MatchingNodes) : Prop :=
  match G with
  | [] => forall k, lo <= k < hi -> ~ matching (rule_at R 1) (k :: q)
  | g :: G' => exists ks a,
      own g = map (fun k => ([], k :: q)) ks ++ [([RNext], a :: q)] /\
      first_place (fun k => lo <= k < hi /\ matching (rule_at R 1) (k :: q)) (Some a) /\
      taken R (fun k => lo <= k < a /\ matching R (k :: q)) ks /\
      leading_from q hi (S a) G'
  end.
Definition leading_groups (L : npath * nat * nat) (G : list MatchingNodes) : Prop :=
  let '(q, s, n) := L in leading_from q (s + n) s G.

(** C13. The greedy rules that the code repeats: those that come first or
    directly after a mandatory rule that is not itself repeated. *)
Fixpoint gets_repeated (j : nat) : bool :=
  is_mandatory (rule_at R j) && r_greedy (rule_at R j) &&
  match j with 0 => true | S j' => is_mandatory (rule_at R j') && negb (gets_repeated j') end.

(** Rule [j] has one node in every group. *)
Definition once (L : npath * nat * nat) (j : nat) (G : list MatchingNodes) : Prop :=
  forall g, In g G -> exists k, forall x, In (repeat RNext j, x) (own g) <-> x = k :: fst (fst L).

(** The children that rule [j] has in a group. *)
Definition places (j : nat) (t : list (nat * nat)) : list nat :=
  map snd (filter (fun x => fst x =? j) t).

(** C14. The groups of a chain of optional rules from [lo] on. Every rule takes
    places after those of the rules before it. There is another group, after the
    place of the last rule, if the last rule is not greedy and has one. *)
Fixpoint optional_from (q : npath) (hi lo : nat) (G : list MatchingNodes) : Prop :=
  match G with
  | [] => forall j k, j < length (chain R) -> lo <= k < hi -> ~ matching (rule_at R j) (k :: q)
  | g :: G' => exists t,
      own g = pairs_at q t /\ t <> [] /\ in_order t /\
      (forall j, j < length (chain R) ->
         taken (rule_at R j)
           (fun k => lo <= k < hi /\ matching (rule_at R j) (k :: q) /\
                     forall j' k', In (j', k') t -> j' < j -> k' < k)
           (places j t)) /\
      let l := length (chain R) - 1 in
      match places l t with
      | [k] => if r_greedy (rule_at R l) then G' = [] else optional_from q hi (S k) G'
      | _ => G' = []
      end
  end.
Definition optional_groups (L : npath * nat * nat) (G : list MatchingNodes) : Prop :=
  let '(q, s, n) := L in optional_from q (s + n) s G.

(** C52. Rules can match after the last mandatory rule has. *)
Definition trailing_rules : bool :=
  let l := length (chain R) - 1 in r_optional (rule_at R l) || gets_repeated l.

(** The first node that a mandatory rule has in a group. *)
Definition first_mandatory_node (t : list (nat * nat)) (a : nat) : Prop :=
  (exists j, In (j, a) t /\ is_mandatory (rule_at R j) = true) /\
  forall j k, In (j, k) t -> is_mandatory (rule_at R j) = true -> a <= k.

(** What the first rule of a chain has in the groups from [lo] on: the places it
    takes before the mandatory rules, and in later groups the same behind the
    group before or, if rules trail, nothing. *)
Fixpoint first_rule_from (q : npath) (lo : nat) (G : list MatchingNodes) : Prop :=
  match G with
  | [] => True
  | g :: G' => exists t a,
      own g = pairs_at q t /\ in_order t /\ first_mandatory_node t a /\
      taken R (fun k => lo <= k < a /\ matching R (k :: q)) (places 0 t) /\
      if trailing_rules
      then forall g' x, In g' G' -> ~ In ([], x) (own g')
      else first_rule_from q (S (snd (last t (0, 0)))) G'
  end.
Definition first_rule_groups (L : npath * nat * nat) (G : list MatchingNodes) : Prop :=
  let '(q, s, n) := L in first_rule_from q s G.

End Lists.

(** ** Statements that do not hold in general *)

(** C13. Rule [j] repeats: if it has matched a child of an element then it also
    has the next one if it matches that, unless another rule of the group has
    it. *)
Definition repeats (E : engine) (D : node) (R : rule) (j : nat) (gs : list MatchingNodes) : Prop :=
  forall g k q par, In g gs -> In (repeat RNext j, k :: q) (own g) ->
    nget D q = Some par -> is_element par = true ->
    rule_matches D (node_satisfies E D) (rule_at R j) (S k :: q) ->
    In (S k :: q) (map snd (own g)).

(** The same, unless the first mandatory rule matches that child, so that the
    next group may start there. *)
Definition repeats_until_next (E : engine) (D : node) (R : rule) (j : nat) (gs : list MatchingNodes) : Prop :=
  forall g k q par, In g gs -> In (repeat RNext j, k :: q) (own g) ->
    nget D q = Some par -> is_element par = true ->
    rule_matches D (node_satisfies E D) (rule_at R j) (S k :: q) ->
    In (S k :: q) (map snd (own g)) \/
    exists f, hd_error (mandatory_of R) = Some f /\ rule_matches D (node_satisfies E D) f (S k :: q).

(** C14. No child that a rule of the chain matches comes after all nodes found
    in its sibling list. *)
Definition none_lost (E : engine) (D : node) (R : rule) (i : nat) (pp : npath) (gs : list MatchingNodes) : Prop :=
  forall q s n j k, In (q, s, n) (lists_searched D i pp) -> s <= k < s + n -> j < length (chain R) ->
    rule_matches D (node_satisfies E D) (rule_at R j) (k :: q) ->
    exists g a k', In g gs /\ In (a, k' :: q) (own g) /\ k <= k'.

(** C52. A child that the leading optional rule matches, directly before a match
    of the rule after it, is in a group. *)
Definition leading_matched (E : engine) (D : node) (R : rule) (gs : list MatchingNodes) : Prop :=
  forall g k q, In g gs -> In ([RNext], S k :: q) (own g) ->
    rule_matches D (node_satisfies E D) R (k :: q) ->
    In (k :: q) (map snd (concat gs)).

(** C15. The same rule with other child rules. *)
Definition with_child (r : rule) (c : option rule) : rule :=
  let 'mk_rule _ n l ms cs t o g name := r in mk_rule c n l ms cs t o g name.
