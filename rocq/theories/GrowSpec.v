(** Documents with more content (C85). *)

From Coq Require Import Ascii String NArith ZArith Bool List.
From Verif Require Import Base Tags Dom Match Rule RuleMatching.
Import ListNotations.

(** ** More content *)

(** [grown n n']: the second node is the first one with further nodes between and
    around its children and those below. *)
Inductive grown : node -> node -> Prop :=
| grown_same n : grown n n
| grown_element t orig attrs cs cs' : grown_children cs cs' -> grown (NElement t orig attrs cs) (NElement t orig attrs cs')
| grown_document b x y z cs cs' : grown_children cs cs' -> grown (NDocument b x y z cs) (NDocument b x y z cs')
with grown_children : list node -> list node -> Prop :=
| grown_none : grown_children [] []
| grown_new n l l' : grown_children l l' -> grown_children l (n :: l')
| grown_kept n n' l l' : grown n n' -> grown_children l l' -> grown_children (n :: l) (n' :: l').

(** ** Where the nodes are *)

(** The same kind of node, with the same tag and attributes. *)
Definition same_kind (n n' : node) : Prop :=
  match n, n' with
  | NElement t orig attrs _, NElement t' orig' attrs' _ => t = t' /\ orig = orig' /\ attrs = attrs'
  | NTemplate _ _ _ _, NTemplate _ _ _ _ | NDocument _ _ _ _ _, NDocument _ _ _ _ _
  | NText _, NText _ | NCdata _, NCdata _ | NComment _, NComment _ | NWhitespace _, NWhitespace _ => True
  | _, _ => False
  end.

(** The node [p] of [D] is the node [f p] of [D']: its children are children of
    it, in the same order. *)
Definition placed (D D' : node) (f : npath -> npath) : Prop :=
  (forall p n, nget D p = Some n -> exists n', nget D' (f p) = Some n' /\ same_kind n n') /\
  (forall i p, nget D (i :: p) <> None -> exists i', f (i :: p) = i' :: f p) /\
  (forall i j p i' j', nget D (j :: p) <> None -> i < j -> f (i :: p) = i' :: f p -> f (j :: p) = j' :: f p -> i' < j').

(** ** Conditions *)

(** Conditions on the tag and the attributes of a node. *)
Fixpoint own_condition (m : mtch) : Prop :=
  match m with
  | AttributeCountMatch _ | AttributeMatch _ _ | TypeRegexMatch _ => True
  | NegateMatch ms =>
      (fix all (l : list (option mtch)) : Prop :=
         match l with
         | [] => True
         | Some m' :: l' => own_condition m' /\ all l'
         | None :: l' => all l'
         end) ms
  | _ => False
  end.

(** All conditions of the rules are such conditions. *)
Definition own_conditions (R : rule) : Prop :=
  forall rp r m, rget R rp = Some r -> In (Some m) (r_matches r) -> own_condition m.
