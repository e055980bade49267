(** Vocabulary for the statements about repetitions in results (C82). *)

From Coq Require Import Ascii String Arith NArith Bool List.
From Verif Require Import Base Dom Values Match Rule RuleMatching MatchSpec ExtractSpec DepthSpec CostSpec.
Import ListNotations.

Definition pair_dec : forall x y : rpath * npath, {x = y} + {x <> y}.
Proof. repeat decide equality. Defined.

(** How often a pair of a rule and a node is in some groups. *)
Definition occurrences (gs : list MatchingNodes) (rp : rpath) (p : npath) : nat :=
  count_occ pair_dec (concat gs) (rp, p).

(** How many braces are around a rule. *)
Definition braces (rp : rpath) : nat :=
  length (filter (fun st => match st with RNested _ => true | _ => false end) rp).

(** The captures of a rule and of all rules below and behind it. *)
Fixpoint capture_count (r : rule) : nat :=
  let 'mk_rule c nx l _ cs _ _ _ _ := r in
  length (present cs)
  + match c with Some c' => capture_count c' | None => 0 end
  + sum (map capture_count l)
  + match nx with Some n' => capture_count n' | None => 0 end.

(** The number of values in a result. *)
Definition value_count (res : list ResultMap) : nat := sum (map (@length result_pair) res).

(** The nodes of a document and its levels. *)
Fixpoint document_size (t : node) : nat :=
  match t with
  | NDocument _ _ _ _ cs | NElement _ _ _ cs | NTemplate _ _ _ cs => S (sum (map document_size cs))
  | _ => 1
  end.
Fixpoint document_levels (t : node) : nat :=
  match t with
  | NDocument _ _ _ _ cs | NElement _ _ _ cs | NTemplate _ _ _ cs => S (largest (map document_levels cs))
  | _ => 1
  end.
