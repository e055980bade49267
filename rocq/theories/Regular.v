(** Regular expressions with embedded actions, as in the input of Ragel, and
    the words they describe. *)

From Coq Require Import Ascii String NArith Bool List.
From Verif Require Import Base.
Import ListNotations.

(** A set of bytes: bit [n] tells whether the byte with code [n] is in it. *)
Definition all_bytes : N := N.ones 256.
Definition has (m : N) (c : ascii) : bool := N.testbit m (N_of_ascii c).
(** The bytes with codes from [a] to [b], both at most 255. *)
Definition byte_range (a b : N) : N := N.shiftl (N.ones (b + 1 - a)) a.

(** [Act a] describes no input; it marks the place where action [a] runs. *)
Inductive re : Type :=
| Eps
| Sym (m : N)
| Act (a : N)
| Cat (r r' : re)
| Alt (r r' : re)
| Star (r : re)
| Plus (r : re).

(** A word: characters, and the actions that run between them. *)
Inductive item : Type := IAct (a : N) | IChr (c : ascii).

Inductive L : re -> list item -> Prop :=
| L_eps : L Eps []
| L_sym m c : has m c = true -> L (Sym m) [IChr c]
| L_act a : L (Act a) [IAct a]
| L_cat r r' u v : L r u -> L r' v -> L (Cat r r') (u ++ v)
| L_left r r' u : L r u -> L (Alt r r') u
| L_right r r' u : L r' u -> L (Alt r r') u
| L_done r : L (Star r) []
| L_more r u v : L r u -> L (Star r) v -> L (Star r) (u ++ v)
| L_plus r u v : L r u -> L (Star r) v -> L (Plus r) (u ++ v).

(** The text of a word, and its actions. *)
Definition chars (w : list item) : str :=
  flat_map (fun i => match i with IChr c => [c] | IAct _ => [] end) w.
Definition marks (w : list item) : list N :=
  flat_map (fun i => match i with IAct a => [a] | IChr _ => [] end) w.
