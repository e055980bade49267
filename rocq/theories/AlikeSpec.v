(** Documents that are alike for a rule: they differ only in what the rule does
    not look at. *)

From Coq Require Import Ascii String NArith ZArith Bool List Permutation.
From Verif Require Import Base Tags Dom Match Rule RuleMatching MatchSpec ExtractSpec TextSpec.
Import ListNotations.

Section Alike.
(** Whether the rule looks at texts. *)
Variable words : bool.

(** Nodes before, between or behind elements: texts, comments, CDATA sections
    and templates. Only their text can matter. *)
Definition gaps_alike (l l' : list node) : Prop :=
  Forall (fun n => is_element n = false) l /\ Forall (fun n => is_element n = false) l' /\
  (words = true -> concat (map full_text l) = concat (map full_text l')).

(** The same attributes, if their names differ in any order. *)
Definition attributes_alike (l l' : list attr) : Prop :=
  l = l' \/ (Permutation l l' /\ NoDup (map (fun a => str_lower (a_name a)) l)).

(** The source of a tag matters only if HTML does not know the tag, and then
    only the name in it. *)
Definition tags_alike (t : tag) (orig orig' : option str) : Prop :=
  t <> TAG_UNKNOWN \/ orig = orig' \/
  exists x x', orig = Some x /\ orig' = Some x' /\ x <> [] /\ x' <> [] /\
    gumbo_tag_from_original_text orig = gumbo_tag_from_original_text orig'.

Inductive alike : node -> node -> Prop :=
| alike_element t orig orig' attrs attrs' cs cs' :
    tags_alike t orig orig' -> attributes_alike attrs attrs' -> alikes cs cs' ->
    alike (NElement t orig attrs cs) (NElement t orig' attrs' cs')
| alike_document b b' x x' y y' z z' cs cs' :
    alikes cs cs' -> alike (NDocument b x y z cs) (NDocument b' x' y' z' cs')
with alikes : list node -> list node -> Prop :=
| alikes_end gap gap' : gaps_alike gap gap' -> alikes gap gap'
| alikes_next gap gap' n n' l l' :
    gaps_alike gap gap' -> alike n n' -> alikes l l' -> alikes (gap ++ n :: l) (gap' ++ n' :: l').

(** The same place in two such documents. *)
Inductive same_place (D D' : node) : npath -> npath -> Prop :=
| place_top : alike D D' -> same_place D D' [] []
| place_below pp pp' par par' before before' n n' after after' :
    same_place D D' pp pp' -> nget D pp = Some par -> nget D' pp' = Some par' ->
    children_of par = before ++ n :: after -> children_of par' = before' ++ n' :: after' ->
    alikes before before' -> alike n n' -> alikes after after' ->
    same_place D D' (length before :: pp) (length before' :: pp').

(** Conditions and captures that do not look at the inner HTML or, unless
    [words], at texts. What the functions of users look at is not known. *)
Definition function_blind (f : capture_function) : Prop :=
  match f with
  | TextBuiltin | StripTagsBuiltin => words = true
  | InnerHtmlBuiltin | UserFunction _ => False
  end.
Fixpoint condition_blind (m : mtch) : Prop :=
  match m with
  | FunctionMatch f => f = None
  | FunctionValueMatch (Some f) _ => function_blind f
  | NegateMatch ms =>
      (fix all (l : list (option mtch)) : Prop :=
         match l with
         | [] => True
         | Some m' :: l' => condition_blind m' /\ all l'
         | None :: l' => all l'
         end) ms
  | _ => True
  end.
Definition capture_blind (c : capture) : Prop :=
  match c with
  | FunctionCapture (Some f) _ _ => function_blind f
  | _ => True
  end.

(** A rule that only elements match: it has a tag, or a condition that only
    elements meet. *)
Definition for_elements (r : rule) : Prop :=
  r_tag r <> TAG_ANY \/
  exists m, In (Some m) (r_matches r) /\
    match m with
    | AttributeCountMatch _ | AttributeMatch _ _ | ChildCountMatch _ | NthChildMatch _ _ _ | OnlyChildMatch _ => True
    | _ => False
    end.

(** A rule whose child rules and nested rules are not all optional. *)
Definition needs_something (r : rule) : Prop :=
  r_child r <> None \/ r_nested r <> [] ->
  exists c, (r_child r = Some c \/ In c (r_nested r)) /\ mandatory_of c <> [].

Definition blind (R : rule) : Prop :=
  forall r, rule_of R r ->
    for_elements r /\ needs_something r /\
    (forall m, In (Some m) (r_matches r) -> condition_blind m) /\
    (forall c, In (Some c) (r_captures r) -> capture_blind c).

End Alike.
