(** Rules that are written differently and mean the same. *)

From Coq Require Import Ascii String NArith ZArith Bool List.
From Verif Require Import Base StringUtil Tags Dom Values Match Rule RuleMatching StringSpec ExtractSpec.
Import ListNotations.

(** Whenever the first test succeeds the second one succeeds as well. *)
Inductive test_implies : vtest -> vtest -> Prop :=
| equals_begins x y : test_implies (EqualsTest (x ++ y)) (BeginsWithTest x)
| equals_ends x y : test_implies (EqualsTest (x ++ y)) (EndsWithTest y)
| equals_contains x y z : test_implies (EqualsTest (x ++ y ++ z)) (ContainsTest y)
| begins_begins x y : test_implies (BeginsWithTest (x ++ y)) (BeginsWithTest x)
| begins_contains x y z : test_implies (BeginsWithTest (x ++ y ++ z)) (ContainsTest y)
| ends_ends x y : test_implies (EndsWithTest (x ++ y)) (EndsWithTest y)
| ends_contains x y z : test_implies (EndsWithTest (x ++ y ++ z)) (ContainsTest y)
| contains_contains x y z : test_implies (ContainsTest (x ++ y ++ z)) (ContainsTest y)
| not_not_test t : test_implies (NegateTest (Some (NegateTest (Some t)))) t
| test_not_not t : test_implies t (NegateTest (Some (NegateTest (Some t)))).

(** A node that meets the first condition meets the second one as well. *)
Inductive implies : mtch -> mtch -> Prop :=
| attribute_there a t : (forall t', t <> NegateTest t') -> implies (AttributeMatch a (Some t)) (AttributeMatch a None)
| attribute_tests a t t' : test_implies t t' -> implies (AttributeMatch a (Some t)) (AttributeMatch a (Some t'))
| function_tests f t t' : test_implies t t' -> implies (FunctionValueMatch f (Some t)) (FunctionValueMatch f (Some t')).

(** Two lists of conditions that accept the same nodes: the order of the
    conditions, conditions that are listed twice and null pointers do not matter;
    a negation of a negation can be dropped; a negation of several conditions is
    the same as several negations; being the only child is the same as being the
    first and the last child; a condition that another one implies can be dropped. *)
Inductive conditions_equal : list (option mtch) -> list (option mtch) -> Prop :=
| equal_lists l l' : (forall m, In (Some m) l <-> In (Some m) l') -> conditions_equal l l'
| equal_not_not m : conditions_equal [Some (NegateMatch [Some (NegateMatch [Some m])])] [Some m]
| equal_nots l l' : conditions_equal [Some (NegateMatch (l ++ l'))] [Some (NegateMatch l); Some (NegateMatch l')]
| equal_only of_type : conditions_equal [Some (OnlyChildMatch of_type)]
    [Some (NthChildMatch 0 1 (mk_nth_option true of_type)); Some (NthChildMatch 0 1 (mk_nth_option false of_type))]
| equal_implied m m' : implies m m' -> conditions_equal [Some m; Some m'] [Some m]
| equal_part before after l l' : conditions_equal l l' -> conditions_equal (before ++ l ++ after) (before ++ l' ++ after)
| equal_back l l' : conditions_equal l l' -> conditions_equal l' l
| equal_chain l l' l'' : conditions_equal l l' -> conditions_equal l' l'' -> conditions_equal l l''.

(** The name under which a capture stores its value. *)
Definition stores_as (c : capture) : str :=
  match c with AttributeCapture _ name _ => name | FunctionCapture _ name _ => name end.

(** The order of captures with different names does not matter. *)
Definition captures_equal (l l' : list (option capture)) : Prop :=
  forall name, filter (fun c => str_eqb (stores_as c) name) (present l) = filter (fun c => str_eqb (stores_as c) name) (present l').

(** The name of a tag that Gumbo does not know may be written in any case; the
    name of any other tag is not used. *)
Definition tag_names_equal (t : tag) (name name' : option str) : Prop :=
  match name, name' with
  | Some x, Some x' => t = TAG_UNKNOWN -> equal_ignoring_case x x'
  | None, None => True
  | _, _ => t <> TAG_UNKNOWN
  end.

Definition rules_equal (r r' : rule) : Prop :=
  r_optional r = r_optional r' /\ r_greedy r = r_greedy r' /\
  r_tag r = r_tag r' /\ tag_names_equal (r_tag r) (r_tagname r) (r_tagname r') /\
  conditions_equal (r_matches r) (r_matches r') /\ captures_equal (r_captures r) (r_captures r').

(** Two trees of the same shape with equal rules at equal places. *)
Definition trees_equal (R R' : rule) : Prop :=
  forall rp,
    match rget R rp, rget R' rp with
    | Some r, Some r' => rules_equal r r'
    | None, None => True
    | _, _ => False
    end.
