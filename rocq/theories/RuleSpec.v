(** Specification vocabulary for C18 and C19. *)

From Coq Require Import Ascii String NArith ZArith Bool List.
From Verif Require Import Base Tags Dom Values Match Rule.
Import ListNotations.

(** A rule and the rules linked behind it, each without its link. *)
Fixpoint siblings (r : rule) : list rule :=
  match r with
  | mk_rule c n l ms cs t o g name =>
      mk_rule c None l ms cs t o g name :: match n with Some n' => siblings n' | None => [] end
  end.

(** The child rules of a rule, in order. *)
Definition child_rules (r : rule) : list rule :=
  match r_child r with Some c => siblings c | None => [] end.

Definition same_flags (r r' : rule) : Prop :=
  r_tag r' = r_tag r /\ r_optional r' = r_optional r /\ r_greedy r' = r_greedy r /\
  r_tagname r' = r_tagname r.

(** The fields other than the named one are unchanged. *)
Definition same_but_child (r r' : rule) : Prop :=
  r_next r' = r_next r /\ r_nested r' = r_nested r /\ r_matches r' = r_matches r /\
  r_captures r' = r_captures r /\ same_flags r r'.
Definition same_but_nested (r r' : rule) : Prop :=
  r_child r' = r_child r /\ r_next r' = r_next r /\ r_matches r' = r_matches r /\
  r_captures r' = r_captures r /\ same_flags r r'.
Definition same_but_matches (r r' : rule) : Prop :=
  r_child r' = r_child r /\ r_next r' = r_next r /\ r_nested r' = r_nested r /\
  r_captures r' = r_captures r /\ same_flags r r'.
Definition same_but_captures (r r' : rule) : Prop :=
  r_child r' = r_child r /\ r_next r' = r_next r /\ r_nested r' = r_nested r /\
  r_matches r' = r_matches r /\ same_flags r r'.
