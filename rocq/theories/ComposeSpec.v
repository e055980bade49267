(** Texts made of texts (C80). *)

From Coq Require Import Ascii String NArith ZArith Bool List.
From Verif Require Import Base Values Match Rule SyntaxSpec.
Import ListNotations.

(** The regex of a type-matches trait has no flags, anywhere in a text. (Such
    flags stay in force until the end of the next pattern, see C44.) *)
Definition traits_unflagged (h : head) : Prop := Forall condition_unflagged (h_conditions h).
Fixpoint types_unflagged (p : piece) : Prop :=
  match p with
  | Space _ | Comment _ => True
  | Closed h => traits_unflagged h
  | Opened h body _ =>
      traits_unflagged h /\ (fix all l := match l with [] => True | q :: l' => types_unflagged q /\ all l' end) body
  | Nested body => (fix all l := match l with [] => True | q :: l' => types_unflagged q /\ all l' end) body
  end.

(** A text with an element. *)
Definition with_element (x : str) : Prop := exists ps, spells ps x /\ exists p, In p ps /\ is_element p = true.
(** A text with an element that leaves no flags behind. *)
Definition part_of_text (x : str) : Prop :=
  exists ps, spells ps x /\ Forall types_unflagged ps /\ exists p, In p ps /\ is_element p = true.
(** A text without an element. *)
Definition blank_text (x : str) : Prop :=
  exists ps, spells ps x /\ forall p, In p ps -> is_element p = false.

(** The rule [q] after the last rule of the row that starts with [r]. *)
Fixpoint followed_by (r q : rule) : rule :=
  match r with
  | mk_rule c n l ms cs t o g name =>
      mk_rule c (Some (match n with Some n' => followed_by n' q | None => q end)) l ms cs t o g name
  end.

Definition with_child (q r : rule) : rule :=
  match q with mk_rule _ n l ms cs t o g name => mk_rule (Some r) n l ms cs t o g name end.
Definition with_nested (q r : rule) : rule :=
  match q with mk_rule c n _ ms cs t o g name => mk_rule c n [r] ms cs t o g name end.

Definition closed_tag (h : head) : str := s "<" ++ head_text h ++ s "/>".
Definition around (h : head) (x : str) (name : str) : str :=
  s "<" ++ head_text h ++ s ">" ++ x ++ s "</" ++ name ++ s ">".
