(** What the example chaining prints (C81). *)

From Coq Require Import Ascii String NArith ZArith Bool List.
From Verif Require Import Base Tags Dom Values Match Rule RuleMatching MatchSpec ExtractSpec NodeSpec PathSpec Chaining.
Import ListNotations.

Section Chain.
Variable D : node.

Definition has_tag (t : tag) (p : npath) : bool :=
  match nget D p with Some (NElement t' _ _ _) => (t' =? t)%N | _ => false end.
(** An element without attributes. *)
Definition bare (t : tag) (p : npath) : bool :=
  match nget D p with Some (NElement t' _ [] _) => (t' =? t)%N | _ => false end.

(** The attribute href of a node, if it is there and has a value: the first
    attribute with that name. *)
Definition link_of (p : npath) : list str :=
  match nget D p with
  | Some (NElement _ _ attrs _) =>
      match find (fun a => str_eqb_nocase (a_name a) (s "href")) attrs with
      | Some a => match a_value a with Some v => [c_str v] | None => [] end
      | None => []
      end
  | _ => []
  end.

(** The children with a property. *)
Definition kids (P : npath -> bool) (p : npath) : list npath := filter P (children_at D p).

(** div, ul, li, a: each the child of the one before. *)
Definition links (div : npath) : list str :=
  flat_map link_of (flat_map (kids (has_tag TAG_A)) (flat_map (kids (has_tag TAG_LI)) (kids (bare TAG_UL) div))).

(** One line for each link. *)
Definition link_line (v : str) : str := s "link: " ++ v ++ ["010"%char].
Definition chain_text (i : nat) (pp : npath) : str :=
  flat_map link_line (flat_map links (filter (bare TAG_DIV) (concat (sibling_lists D i pp)))).
End Chain.

Definition chaining_yields (E : engine) (D : node) (p : nptr) (o : outcome str) : Prop :=
  exists f0, forall f, f0 <= f -> chaining_main f E D p = o.
