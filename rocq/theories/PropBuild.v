(** C90: how long it takes to build the rule of a text. *)

From Coq Require Import Ascii String NArith ZArith Bool List Lia.
From Verif Require Import Base Values Match Samples Rule Parser ParseCost ParseCostProofs ParseCostCases.
Import ListNotations.

(** The parser that counts the pointers that it follows is the parser. *)
Theorem C90_same : forall E x, fst (parse_counted E x) = ParseHext E x.
Proof. exact parse_same. Qed.
Print Assumptions C90_same.

(** Whatever the text is, and whether it is accepted or not, at most as many
    pointers are followed as there are pairs of characters. *)
Theorem C90_quadratic : forall E x, 2 * snd (parse_counted E x) <= (length x + 1) * length x.
Proof. exact parse_walk. Qed.
Print Assumptions C90_quadratic.

(** For [n + 2] rules next to each other it is [n * (n + 1) / 2]. *)
Theorem C90_siblings : forall E n, exists r, parse_counted E (siblings (S (S n))) = (Ok r, n * (n + 1) / 2).
Proof. exact siblings_walk. Qed.
Print Assumptions C90_siblings.

(** So the time is not linear in the length of the text. *)
Theorem C90_linear_refuted : forall k, exists x,
  (forall E, exists r, ParseHext E x = Ok r) /\ forall E, k * length x < snd (parse_counted E x).
Proof. exact no_linear. Qed.
Print Assumptions C90_linear_refuted.

(** Rules next to each other, children and pipes. *)
Example C90_case :
  snd (parse_counted sample_engine (s "<a/><b/><i/><p/>")) = 3 /\
  snd (parse_counted sample_engine (s "<a><b/><b/><b/></a>")) = 1 /\
  snd (parse_counted sample_engine (s "<a @text:trim:trim:trim:c/>")) = 1 /\
  snd (parse_counted sample_engine (s "<a/><b/><i/><p/>%")) = 1.
Proof. repeat split; vm_compute; reflexivity. Qed.
