(** Vocabulary for the statements about the ownership in hext::Html. *)

From Coq Require Import Bool List PeanoNat.
From Verif Require Import Base Ownership.
Import ListNotations.

(** Some object is moved to another one. *)
Definition moves (h : list html_step) : Prop :=
  exists x y, In (MoveConstruct x y) h \/ (In (MoveAssign x y) h /\ x <> y).

(** How often an output was passed to gumbo_destroy_output. *)
Definition times_destroyed (st : html_state) (o : output_id) : nat :=
  count_occ Nat.eq_dec (destroyed st) o.

(** The history is one of a C++ program and has this outcome. *)
Definition history (h : list html_step) (o : outcome html_state) : Prop :=
  html_run html_start h = Some o.
