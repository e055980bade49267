(** C91: how many characters are copied to take the text of a node. *)

From Coq Require Import Ascii String NArith Bool List.
From Verif Require Import Base Tags Dom NodeUtil Samples DepthSpec CostSpec TextCost TextCostSpec TextCostProofs.
Import ListNotations.

(** The function that counts is StripTags. *)
Theorem C91_same : forall w n, fst (StripTags_c w n) = StripTags w n.
Proof. exact strip_same. Qed.
Print Assumptions C91_same.

(** A character is copied once for each node that it is a part of the text of. *)
Theorem C91_copies : forall w n,
  snd (StripTags_c w n) = sum (map (fun d => length (StripTags w d)) (and_below n)).
Proof. exact strip_count. Qed.
Print Assumptions C91_copies.

(** So at most as often as the node is high. *)
Theorem C91_height : forall w n, snd (StripTags_c w n) <= height n * length (StripTags w n).
Proof. exact strip_bound. Qed.
Print Assumptions C91_height.

(** In terms of the nodes and characters of the document it is at most quadratic. *)
Theorem C91_quadratic : forall w n, snd (StripTags_c w n) <= 2 * (size_of n * size_of n).
Proof. exact text_quadratic. Qed.
Print Assumptions C91_quadratic.

(** It is not linear: a long text inside of many elements. *)
Theorem C91_linear_refuted : forall k, exists n, forall w, k * size_of n < snd (StripTags_c w n).
Proof. exact text_not_linear. Qed.
Print Assumptions C91_linear_refuted.

Example C91_case :
  StripTags_c true (el TAG_DIV [NText (s "a"); el TAG_P [NText (s "bc")]; el TAG_B [NText (s "d")]]) =
    (s "a" ++ ["010"%char] ++ s "bc" ++ ["010"%char] ++ s "d", 1 + (2 + 2) + (1 + 1) + 6) /\
  size_of (deep_text 3) = 7 /\ snd (StripTags_c true (deep_text 3)) = 12.
Proof. repeat split; vm_compute; reflexivity. Qed.
