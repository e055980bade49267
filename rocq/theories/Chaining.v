(** Model of the example program libhext/examples/chaining.cpp. *)

From Coq Require Import Ascii String NArith ZArith Bool List.
From Verif Require Import Base Tags Dom Values Match Rule RuleMatching.
Import ListNotations.
Open Scope outcome_scope.

(** The rule, chaining.cpp 25-36. append_child takes its argument by value and
    the builders return references, so every child is copied. *)
Definition chaining_a : rule :=
  append_capture
    (append_match (rule_of_tag TAG_A false false) (Some (AttributeMatch (s "href") None)))
    (Some (AttributeCapture (s "href") (s "link") None)).
Definition chaining_li : rule :=
  append_child (rule_of_tag TAG_LI false false) (rule_copy chaining_a).
Definition chaining_ul : rule :=
  append_child
    (append_match (rule_of_tag TAG_UL false false) (Some (AttributeCountMatch 0)))
    (rule_copy chaining_li).
Definition chaining_rule : rule :=
  append_child
    (append_match (set_tag (rule_of_tag TAG_ANY false false) TAG_DIV) (Some (AttributeCountMatch 0)))
    (rule_copy chaining_ul).

(** The two loops, chaining.cpp 69-71. *)
Definition print_pair (x : result_pair) : str := fst x ++ s ": " ++ snd x ++ ["010"%char].
Definition print_pairs (res : list ResultMap) : str := flat_map (flat_map print_pair) res.

(** main, chaining.cpp 21-74, for a document other than the one written there. *)
Definition chaining_main (fuel : nat) (E : engine) (d : node) (root : nptr) : outcome str :=
  let! result := extract fuel E chaining_rule d root 0 in
  Ok (print_pairs result).
