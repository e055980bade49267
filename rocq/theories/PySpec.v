(** What is expected of the conversion to Python objects. *)

From Coq Require Import Ascii String Arith Bool List.
From Verif Require Import Base Match RuleMatching Convert PyRefs.
Import ListNotations.

(** ** What an object holds *)

Definition is_str (h : pyheap) (x : pyid) (v : str) : Prop :=
  exists n, cell (cells h) x = Some (n, PyStr v).
Definition is_member (h : pyheap) (x : pyid) (m : member) : Prop :=
  match m with
  | One v => is_str h x v
  | Many vs => exists n ids, cell (cells h) x = Some (n, PyList ids) /\ Forall2 (is_str h) ids vs
  end.
Definition is_dict (h : pyheap) (x : pyid) (o : object) : Prop :=
  exists n l, cell (cells h) x = Some (n, PyDict l) /\
    Forall2 (fun a b => fst a = fst b /\ is_member h (snd a) (snd b)) l o.
Definition is_list_of_dicts (h : pyheap) (x : pyid) (os : list object) : Prop :=
  exists n ids, cell (cells h) x = Some (n, PyList ids) /\ Forall2 (is_dict h) ids os.

(** ** Nothing is left over *)

(** When the owner of [x] gives up its reference, no object is left. *)
Definition sole_owner (h : pyheap) (x : pyid) : Prop :=
  exists h', Py_DECREF (Some x) h = Ok h' /\ cells h' = [].

(** ** Which calls fail *)

(** The names and the values of the result, as far as Python gets to see them,
    are valid UTF-8. *)
Definition names_utf8 (maps : list ResultMap) : Prop :=
  forall m p, In m maps -> In p m -> utf8 (c_str (fst p)) = true.
Definition values_utf8 (maps : list ResultMap) : Prop :=
  forall m p, In m maps -> In p m -> utf8 (c_str (snd p)) = true.
Definition never_refuses (refuses : nat -> bool) : Prop := forall n, refuses n = false.
