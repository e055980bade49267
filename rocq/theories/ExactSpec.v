(** What the searches for words and the of-type conditions find in the cases in
    which C30 and C31 are false. *)

From Coq Require Import Ascii String NArith ZArith Bool List.
From Verif Require Import Base Tags Dom NodeSpec.
Import ListNotations.

(** [w] begins at place [p] of [x]. *)
Definition occurs_at (w x : str) (p : nat) : Prop :=
  exists before rest, x = before ++ w ++ rest /\ length before = p.

(** The same, between blanks (0x20) or the ends of [x]. *)
Definition word_at (w x : str) (p : nat) : Prop :=
  exists before rest, x = before ++ w ++ rest /\ length before = p /\
    (before = [] \/ exists b, before = b ++ [" "%char]) /\
    (rest = [] \/ exists r, rest = " "%char :: r).

(** The places that a search from left to right visits that never looks twice
    at the same character: the first occurrence, then the first one behind it,
    and so on. *)
Inductive visited (w x : str) : nat -> Prop :=
| visited_first p : occurs_at w x p -> (forall q, occurs_at w x q -> p <= q) -> visited w x p
| visited_next p p' : visited w x p ->
    occurs_at w x p' -> p + length w <= p' ->
    (forall q, occurs_at w x q -> p + length w <= q -> p' <= q) ->
    visited w x p'.

(** Elements that count as being of the same type: those with the same name, and
    those whose names are both unknown to HTML. *)
Definition same_type (a b : str) : Prop :=
  a = b \/ (~ In a tag_names /\ ~ In b tag_names).

(** Gumbo gives an element the tag UNKNOWN exactly if its name is none of
    HTML. *)
Definition tag_resolved (n : node) : Prop :=
  forall t orig attrs cs, n = NElement t orig attrs cs ->
    (t < TAG_UNKNOWN)%N \/
    (t = TAG_UNKNOWN /\ ~ In (str_lower (gumbo_tag_from_original_text orig)) tag_names).

(** How many members of a list are so. *)
Inductive how_many {A} (P : A -> Prop) : list A -> nat -> Prop :=
| many_none : how_many P [] 0
| many_one x l k : P x -> how_many P l k -> how_many P (x :: l) (S k)
| many_other x l k : ~ P x -> how_many P l k -> how_many P (x :: l) k.
