(** Vocabulary for the statements about recursion (C59). *)

From Coq Require Import Ascii String NArith List.
From Verif Require Import Base Tags Dom NodeUtil Values Match Rule.
Import ListNotations.

Definition largest (l : list nat) : nat := fold_right Nat.max 0 l.

(** The number of levels of a tree of elements. *)
Fixpoint height (n : node) : nat :=
  match n with
  | NElement _ _ _ cs => S (largest (map height cs))
  | _ => 1
  end.

(** The largest height of a node and its siblings. *)
Definition level_height (D : node) (p : npath) : nat :=
  match p with
  | [] => height D
  | _ :: pp => match nget D pp with Some par => largest (map height (children_of par)) | None => 0 end
  end.

(** How deeply rules are nested in each other. *)
Fixpoint rule_depth (r : rule) : nat :=
  let 'mk_rule c n l _ _ _ _ _ _ := r in
  Nat.max
    (S (Nat.max (match c with Some c' => rule_depth c' | None => 0 end) (largest (map rule_depth l))))
    (match n with Some n' => rule_depth n' | None => 0 end).

(** The longest chain of rules of which each owns the next one. *)
Fixpoint rule_chain (r : rule) : nat :=
  let 'mk_rule c n l _ _ _ _ _ _ := r in
  S (largest ((match c with Some c' => rule_chain c' | None => 0 end)
              :: (match n with Some n' => rule_chain n' | None => 0 end)
              :: map rule_chain l)).

(** The levels of a tree as far as they are serialized, two for an element. *)
Fixpoint serial_height (n : node) : nat :=
  match n with
  | NElement t _ _ cs | NTemplate t _ _ cs =>
      if TagIsSelfClosing t then 2 else S (S (largest (map serial_height cs)))
  | _ => 1
  end.

(** [n] elements inside one another, in a page. *)
Fixpoint divs (n : nat) : node :=
  NElement TAG_DIV (Some []) [] match n with O => [] | S n' => [divs n'] end.
Definition deep_page (n : nat) : node := NDocument true [] [] [] [divs n].

(** <a/><a/>...<a/> *)
Definition many_siblings (n : nat) : str := concat (repeat (s "<a/>") n).
