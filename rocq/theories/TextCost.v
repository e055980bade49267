(** StripTags of NodeUtil.v again, with the number of characters that are
    appended to strings (NodeUtil.cpp 38-66). *)

From Coq Require Import Ascii String NArith List.
From Verif Require Import Base Tags Dom StringUtil NodeUtil.
Import ListNotations.

(** StripTags, NodeUtil.cpp 32-69. Each call has a string of its own; the string
    of a child is appended to that of its parent. *)
Fixpoint StripTags_c (smart_wrap : bool) (n : node) : str * nat :=
  match n with
  | NElement _ _ _ children =>
      (fix loop (l : list node) : str * nat :=
         match l with
         | [] => ([], 0)
         | c :: l' =>
             let (inner, k) := StripTags_c smart_wrap c in
             let piece :=
               match smart_wrap, c with
               | true, NElement t _ _ _ =>
                   if TagWrapsText t then ["010"%char] ++ inner ++ ["010"%char] else inner
               | _, _ => inner
               end in
             let (rest, k') := loop l' in
             (piece ++ rest, k + length piece + k')
         end) children
  | NText x | NWhitespace x => (c_str x, length (c_str x))
  | _ => ([], 0)
  end.
