(** Specification of the groups that a chain of sibling rules forms in a list
    of sibling nodes. It says which groups there are; it does not search.

    Rules are numbered 0 .. [rules]-1 in the order of the chain, sibling nodes
    0 .. [nodes]-1 in document order. *)

From Coq Require Import Arith Bool List Sorted.
Import ListNotations.

Section Spec.

Variable rules nodes : nat.
(** The flags of a rule, and whether a rule matches a node. *)
Variable optional greedy : nat -> bool.
Variable matches : nat -> nat -> Prop.

(** The mandatory rules, in order. *)
Definition mandatory_rules : list nat := filter (fun j => negb (optional j)) (seq 0 rules).

(** The mandatory rules match the nodes [js], which are increasing and not
    before [lo]. *)
Definition embedding (lo : nat) (js : list nat) : Prop :=
  Forall2 (fun j i => lo <= i < nodes /\ matches j i) mandatory_rules js /\ StronglySorted lt js.

(** No embedding is to the left of [js] at any place. *)
Definition leftmost_embedding (lo : nat) (js : list nat) : Prop :=
  embedding lo js /\ forall js', embedding lo js' -> Forall2 le js js'.

(** A group is a list of matches (rule, node). The nodes of one rule: *)
Definition nodes_of (j : nat) (t : list (nat * nat)) : list nat :=
  map snd (filter (fun p => fst p =? j) t).

(** Matches are in the order of the rules and of the nodes. *)
Definition ordered (t : list (nat * nat)) : Prop :=
  StronglySorted (fun p q => fst p <= fst q /\ snd p < snd q) t.

(** Which mandatory rules are repeated. The code repeats a greedy rule only if
    it starts the chain or follows a mandatory rule that is not itself
    repeated. *)
Fixpoint repeated (j : nat) : bool :=
  negb (optional j) && greedy j &&
  match j with 0 => true | S j' => negb (optional j') && negb (repeated j') end.

(** A rule takes all nodes it can have if it is greedy and either optional or
    repeated; otherwise the first. *)
Definition takes_all (j : nat) : bool := greedy j && (optional j || repeated j).

(** A group made of one rule that repeats extends to the end of the list;
    otherwise a group ends where its first mandatory rule matches again after
    the last mandatory rule has matched at [m]. *)
Definition lone : bool :=
  match mandatory_rules with
  | [j] => repeated j
  | _ => false
  end.
Definition ends_before (m : nat) (i : nat) : Prop :=
  match mandatory_rules with
  | [] => True
  | f :: _ => lone = true \/ forall i', m < i' <= i -> ~ matches f i'
  end.

(** The nodes that rule [j] can have in the group [t] that starts searching at
    [lo]: behind the nodes of earlier rules, before the nodes of later
    mandatory rules, before the end of the group. *)
Definition candidate (lo m : nat) (t : list (nat * nat)) (j i : nat) : Prop :=
  lo <= i < nodes /\ matches j i /\
  (forall j' i', In (j', i') t -> j' < j -> i' < i) /\
  (forall j' i', In (j', i') t -> j < j' -> optional j' = false -> i < i') /\
  ends_before m i.

Definition all_of (P : nat -> Prop) (l : list nat) : Prop :=
  StronglySorted lt l /\ forall i, In i l <-> P i.
Definition first_of (P : nat -> Prop) (l : list nat) : Prop :=
  (l = [] /\ forall i, ~ P i) \/ (exists i, l = [i] /\ P i /\ forall i', P i' -> i <= i').

(** [t] is the group found from [lo] on; [js] are the first nodes of its
    mandatory rules. *)
Definition is_group (lo : nat) (js : list nat) (t : list (nat * nat)) : Prop :=
  leftmost_embedding lo js /\
  Forall2 (fun j i => hd_error (nodes_of j t) = Some i) mandatory_rules js /\
  ordered t /\
  (forall j i, In (j, i) t -> j < rules) /\
  (forall j, j < rules ->
     (if takes_all j then all_of else first_of) (candidate lo (last js 0) t j) (nodes_of j t)).

(** Some rule can match behind the node of the last mandatory rule. *)
Definition trails : bool :=
  negb (last mandatory_rules 0 =? rules - 1) || repeated (last mandatory_rules 0).

(** Where the next group is looked for, if the last mandatory rule matched at
    [m]: at the next match of the first mandatory rule if rules trail,
    otherwise right behind [m]. *)
Definition resumes (m lo : nat) : Prop :=
  if trails then
    m < lo <= nodes /\ (forall i, m < i < lo -> ~ matches (hd 0 mandatory_rules) i) /\
    (lo < nodes -> matches (hd 0 mandatory_rules) lo)
  else lo = S m.

(** The groups of a list for a chain with a mandatory rule. *)
Inductive are_groups : nat -> list (list (nat * nat)) -> Prop :=
| no_group lo : (forall js, ~ embedding lo js) -> are_groups lo []
| more_groups lo js t ts :
    is_group lo js t ->
    (lone = true -> ts = []) ->
    (lone = false -> exists lo', resumes (last js 0) lo' /\ are_groups lo' ts) ->
    are_groups lo (t :: ts).

(** The groups of a list for a chain of optional rules only: another group is
    looked for only if the last rule of the chain is not greedy and matched. *)
Inductive are_optional_groups : nat -> list (list (nat * nat)) -> Prop :=
| no_optional_group lo : is_group lo [] [] -> are_optional_groups lo []
| last_optional_group lo t :
    is_group lo [] t -> t <> [] ->
    greedy (rules - 1) = true \/ nodes_of (rules - 1) t = [] ->
    are_optional_groups lo [t]
| more_optional_groups lo t i ts :
    is_group lo [] t -> greedy (rules - 1) = false -> nodes_of (rules - 1) t = [i] ->
    are_optional_groups (S i) ts ->
    are_optional_groups lo (t :: ts).

End Spec.
