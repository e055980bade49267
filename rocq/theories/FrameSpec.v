(** The part of a document that a search looks at. *)

From Coq Require Import Ascii String NArith ZArith Bool List.
From Verif Require Import Base Dom Values Match Rule RuleMatching ExtractSpec.
Import ListNotations.

(** The node [pp] of [D] and the node [pp'] of [D'] have the same children, and
    either both or none of them is an element. The rest of the documents may be
    different. *)
Definition same_children (D D' : node) (pp pp' : npath) : Prop :=
  exists par par', nget D pp = Some par /\ nget D' pp' = Some par' /\
    children_of par = children_of par' /\ is_element par = is_element par'.

(** A function of a user that looks only at a node, at what is below it and at
    its siblings. *)
Definition stays_near {A} (f : node -> npath -> A) : Prop :=
  forall D D' pp pp', same_children D D' pp pp' -> forall i, f D (i :: pp) = f D' (i :: pp').

Definition function_near (f : capture_function) : Prop :=
  match f with UserFunction g => stays_near g | _ => True end.

Inductive condition_near : mtch -> Prop :=
| near_attribute_count c : condition_near (AttributeCountMatch c)
| near_attribute a t : condition_near (AttributeMatch a t)
| near_child_count c : condition_near (ChildCountMatch c)
| near_no_function : condition_near (FunctionMatch None)
| near_function f : stays_near f -> condition_near (FunctionMatch (Some f))
| near_no_value t : condition_near (FunctionValueMatch None t)
| near_value f t : function_near f -> condition_near (FunctionValueMatch (Some f) t)
| near_not ms : (forall m, In (Some m) ms -> condition_near m) -> condition_near (NegateMatch ms)
| near_nth a b o : condition_near (NthChildMatch a b o)
| near_only o : condition_near (OnlyChildMatch o)
| near_type rx : condition_near (TypeRegexMatch rx).

Definition capture_near (c : capture) : Prop :=
  match c with FunctionCapture (Some f) _ _ => function_near f | _ => True end.

Definition near (R : rule) : Prop :=
  forall r, rule_of R r ->
    (forall m, In (Some m) (r_matches r) -> condition_near m) /\
    (forall c, In (Some c) (r_captures r) -> capture_near c).
