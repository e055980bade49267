(** Vocabulary for the statements about Rule::extract. *)

From Coq Require Import Ascii String NArith ZArith Bool List Sorted Permutation.
From Verif Require Import Base Dom Values Match Rule RuleMatching MatchSpec.
Import ListNotations.

(** The model's step bound does not matter: from some bound on, the outcome of
    the call is [o]. *)
Definition extract_yields (E : engine) (R : rule) (D : node) (p : nptr) (limit : N)
    (o : outcome (list ResultMap)) : Prop :=
  exists f0, forall f, f0 <= f -> extract f E R D p limit = o.

(** A node satisfies the tag and the conditions of a rule. *)
Definition node_satisfies (E : engine) (D : node) (r : rule) (p : npath) : Prop :=
  Rule_matches E D r p = Ok true.

(** The search of extract, without the captures. *)
Definition search_yields (E : engine) (R : rule) (D : node) (p : nptr) (limit : N)
    (o : outcome (list MatchingNodes)) : Prop :=
  exists f0, forall f, f0 <= f ->
    obind (SaveMatchingNodesRecursive R D (Rule_matches E D) f (Some []) p limit) (fun x => Ok (fst x)) = o.

(** A rule of the tree [R]. *)
Definition rule_of (R r : rule) : Prop := exists rp, rget R rp = Some r.

(** The regex library never gives up. *)
Definition engine_total (E : engine) : Prop :=
  (forall rx x, eng_search E rx x <> None) /\ (forall rx x fmt, eng_replace E rx x fmt <> None).

(** The functions that the user put into a match never throw. *)
Fixpoint match_calls_return (m : mtch) : Prop :=
  match m with
  | FunctionMatch (Some f) => forall d p, f d p <> FThrow
  | FunctionValueMatch (Some (UserFunction f)) _ => forall d p, f d p <> FThrow
  | NegateMatch ms =>
      (fix all (l : list (option mtch)) : Prop :=
         match l with
         | [] => True
         | Some m' :: l' => match_calls_return m' /\ all l'
         | None :: l' => all l'
         end) ms
  | _ => True
  end.

Definition capture_calls_return (c : capture) : Prop :=
  match c with
  | FunctionCapture (Some (UserFunction f)) _ _ => forall d p, f d p <> FThrow
  | _ => True
  end.

(** The parameters of the nth-child conditions are small enough for sibling
    lists of at most [size] nodes. *)
Fixpoint nth_params_safe (size : Z) (m : mtch) : Prop :=
  match m with
  | NthChildMatch step shift _ =>
      (INT_MIN < step)%Z /\ (INT_MIN <= shift <= INT_MAX)%Z /\ (size - shift <= INT_MAX)%Z
  | NegateMatch ms =>
      (fix all (l : list (option mtch)) : Prop :=
         match l with
         | [] => True
         | Some m' :: l' => nth_params_safe size m' /\ all l'
         | None :: l' => all l'
         end) ms
  | _ => True
  end.

Definition rule_calls_return (R : rule) : Prop :=
  forall r, rule_of R r ->
    (forall m, In (Some m) (r_matches r) -> match_calls_return m) /\
    (forall c, In (Some c) (r_captures r) -> capture_calls_return c).

Definition rule_params_safe (size : Z) (R : rule) : Prop :=
  forall r m, rule_of R r -> In (Some m) (r_matches r) -> nth_params_safe size m.

(** No node has more than [size] children, and [size] fits into an int. *)
Definition small_document (size : Z) (D : node) : Prop :=
  (size <= INT_MAX)%Z /\ forall p n, nget D p = Some n -> (Z.of_nat (length (children_of n)) <= size)%Z.

(** The outcomes that extract can have, and what they need. *)
Definition extract_outcome_ok (E : engine) (R : rule) (D : node) (o : outcome (list ResultMap)) : Prop :=
  match o with
  | Ok _ => True
  | Throw MaxSearchError => True
  | Throw RegexRuntimeError => ~ engine_total E
  | Throw UserException => ~ rule_calls_return R
  | UB IntOverflow => forall size, small_document size D -> ~ rule_params_safe size R
  | _ => False
  end.

(** ** The search counter *)

(** The rule tree has no nested rules. *)
Definition without_nested (R : rule) : Prop := forall r, rule_of R r -> r_nested r = [].

(** The elements with children at or after a node among its siblings or below
    these. *)
Definition elements_with_children (D : node) (i : nat) (pp : npath) : list npath :=
  filter (fun q => negb (Nat.eqb (child_count D q) 0))
    (match nget D pp with
     | Some par => elements_from D pp i (siblings_seen par i)
     | None => []
     end).

(** ** Result maps *)

Definition name_le (a b : result_pair) : Prop := str_ltb (fst b) (fst a) = false.

Definition present {A} (l : list (option A)) : list A :=
  flat_map (fun o => match o with Some x => [x] | None => [] end) l.

(** The values that a rule takes from a node: those of its captures, in order.
    See C28 for a single capture. *)
Definition rule_values (E : engine) (D : node) (r : rule) (p : npath) (values : list result_pair) : Prop :=
  exists outs, Forall2 (fun c o => capture_capture E D c p = Ok o) (present (r_captures r)) outs /\
    values = present outs.

(** The captures of the pairs of a group, in order. *)
Inductive captured (E : engine) (R : rule) (D : node) : MatchingNodes -> list result_pair -> Prop :=
| captured_nil : captured E R D [] []
| captured_cons rp p r g values rest :
    rget R rp = Some r ->
    rule_values E D r p values ->
    captured E R D g rest ->
    captured E R D ((rp, p) :: g) (values ++ rest).

(** The values of one name. *)
Definition values_of (name : str) (m : list result_pair) : list str :=
  map snd (filter (fun x => str_eqb (fst x) name) m).

(** The map of some captured values: sorted by name, the values of a name in
    the order in which they were captured. *)
Definition map_of (values : list result_pair) (m : ResultMap) : Prop :=
  StronglySorted name_le m /\ Permutation m values /\
  forall name, values_of name m = values_of name values.

Definition nonempty_list {A} (l : list A) : bool := match l with [] => false | _ => true end.

(** The result for some groups: one map for each group that captured
    something. *)
Definition extract_result (E : engine) (R : rule) (D : node) (gs : list MatchingNodes)
    (res : list ResultMap) : Prop :=
  exists vss, Forall2 (captured E R D) gs vss /\ Forall2 map_of (filter nonempty_list vss) res.
