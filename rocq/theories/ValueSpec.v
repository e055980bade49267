(** Vocabulary for the statements about value tests and pipes. *)

From Coq Require Import Ascii String NArith ZArith Bool List.
From Verif Require Import Base Values.
Import ListNotations.

(** The regex library answers every search. *)
Definition engine_searches (E : engine) : Prop := forall rx x, eng_search E rx x <> None.

(** The pipes of a chain, in order. *)
Fixpoint pipes_of (p : pipe) : list transform :=
  match p with Pipe t next => t :: match next with Some q => pipes_of q | None => [] end end.

(** [y] comes from [x] by the transformations from left to right. *)
Inductive piped (E : engine) : list transform -> str -> str -> Prop :=
| piped_nil x : piped E [] x x
| piped_cons t ts x z y : transform_str E t x = Ok z -> piped E ts z y -> piped E (t :: ts) x y.

(** The result of a regex filter: nothing without a match, the whole match of
    a regex without groups, otherwise the first group. *)
Definition filtered (E : engine) (rx : regex) (x y : str) : Prop :=
  (eng_search E rx (c_str x) = Some None /\ y = []) \/
  (exists w, eng_search E rx (c_str x) = Some (Some (w, [])) /\ y = w) \/
  (exists w g gs, eng_search E rx (c_str x) = Some (Some (w, g :: gs)) /\ y = g).
