(** C arrays of constants: indexed lookup with bounds. *)

From Coq Require Import NArith List.
From Verif Require Import Base.
Import ListNotations.

(** A binary trie, so that lookups are fast. *)
Inductive trie : Type := TLeaf | TNode (l : trie) (o : option N) (r : trie).

Fixpoint tget (t : trie) (p : positive) : option N :=
  match t with
  | TLeaf => None
  | TNode l o r =>
      match p with
      | xH => o
      | xO p' => tget l p'
      | xI p' => tget r p'
      end
  end.

Fixpoint tset (t : trie) (p : positive) (v : N) : trie :=
  match p with
  | xH => match t with TLeaf => TNode TLeaf (Some v) TLeaf | TNode l _ r => TNode l (Some v) r end
  | xO p' => match t with TLeaf => TNode (tset TLeaf p' v) None TLeaf | TNode l o r => TNode (tset l p' v) o r end
  | xI p' => match t with TLeaf => TNode TLeaf None (tset TLeaf p' v) | TNode l o r => TNode l o (tset r p' v) end
  end.

Fixpoint tfill (t : trie) (i : N) (l : list N) : trie :=
  match l with
  | [] => t
  | v :: l' => tfill (tset t (N.succ_pos i) v) (N.succ i) l'
  end.

(** [static const T a[] = { ... }] *)
Definition array_of (l : list N) : trie := tfill TLeaf 0 l.

(** [a[i]] *)
Definition aget (a : trie) (i : N) : outcome N :=
  match tget a (N.succ_pos i) with Some v => Ok v | None => UB OutOfBounds end.
