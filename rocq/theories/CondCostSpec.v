(** Vocabulary for the statements about the work of the conditions (C92). *)

From Coq Require Import Ascii String NArith List.
From Verif Require Import Base Dom Values Match Rule RuleMatching DepthSpec CostSpec CondState CondSpec CondCost.
Import ListNotations.

(** The number of conditions that a condition is made of. *)
Fixpoint condition_count (m : mtch) : nat :=
  match m with
  | NegateMatch ms =>
      (fix count (l : list (option mtch)) : nat :=
         match l with [] => 0 | None :: l' => count l' | Some m' :: l' => condition_count m' + count l' end) ms
  | _ => 1
  end.

(** The conditions of one rule, and the largest number in a tree of rules. *)
Definition rule_conditions (r : rule) : nat :=
  sum (map (fun om => match om with Some m => condition_count m | None => 0 end) (r_matches r)).
Fixpoint conditions (r : rule) : nat :=
  let 'mk_rule c nx l ms _ _ _ _ _ := r in
  Nat.max (sum (map (fun om => match om with Some m => condition_count m | None => 0 end) ms))
    (Nat.max (match c with Some c' => conditions c' | None => 0 end)
       (Nat.max (largest (map conditions l)) (match nx with Some n' => conditions n' | None => 0 end))).

(** The size of a document: all nodes and the characters of texts. *)
Fixpoint document_size (n : node) : nat :=
  match n with
  | NDocument _ _ _ _ cs | NElement _ _ _ cs | NTemplate _ _ _ cs => S (sum (map document_size cs))
  | NText x | NWhitespace x => S (length x)
  | _ => 1
  end.

(** A search that ends with [o] does [w] steps of work in its conditions. *)
Definition search_works (E : engine) (R : rule) (D : node) (p : nptr) (n : N)
    (o : outcome (list MatchingNodes)) (w : nat) : Prop :=
  exists log, search_does (working E R D) R D p n 0 (o, (w, log)).
