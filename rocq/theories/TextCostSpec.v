(** Vocabulary for the statements about the work of taking a text (C91). *)

From Coq Require Import Ascii String NArith List.
From Verif Require Import Base Tags Dom CostSpec.
Import ListNotations.

(** A node and everything below it. *)
Fixpoint and_below (n : node) : list node :=
  n :: match n with NElement _ _ _ cs => concat (map and_below cs) | _ => [] end.

(** The size of a document: nodes and characters of texts. *)
Definition size_of (n : node) : nat :=
  sum (map (fun d => S (match d with NText x | NWhitespace x => length x | _ => 0 end)) (and_below n)).
