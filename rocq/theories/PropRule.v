(** C18, C19: copying and building rules. *)

From Coq Require Import Ascii String NArith ZArith Bool List.
From Verif Require Import Base Tags Dom Values Match Rule RuleSpec RuleProofs.
Import ListNotations.

(** A rule with children, siblings, nested rules, traits and captures. *)
Definition sample_rule : rule :=
  mk_rule (Some (rule_of_tag TAG_B true false)) (Some (rule_of_name (s "x-y") false true))
          [rule_of_tag TAG_I false false]
          [None; Some (NegateMatch [Some (AttributeMatch (s "id") (Some (NegateTest (Some (EqualsTest (s "a"))))))])]
          [Some (AttributeCapture (s "href") (s "link") (Some (Pipe (AppendPipe (s "x")) (Some (Pipe CollapseWsPipe None)))))]
          TAG_A false true None.

(** C18. A copy is equal to the original in every field at every depth. *)
Theorem C18_copy_equal : forall r, rule_copy r = r.
Proof. exact rule_copy_id. Qed.
Print Assumptions C18_copy_equal.

Theorem C18_trait_copy_equal : forall m, mtch_clone m = m.
Proof. exact mtch_clone_id. Qed.
Print Assumptions C18_trait_copy_equal.

Theorem C18_capture_copy_equal : forall c, capture_clone c = c.
Proof. exact capture_clone_id. Qed.
Print Assumptions C18_capture_copy_equal.

(** C19. A chain of siblings is determined by the list of its members, and
    appending a sibling appends to this list. *)
Theorem C19_siblings_determine : forall r r', siblings r = siblings r' -> r = r'.
Proof. exact siblings_inj. Qed.
Print Assumptions C19_siblings_determine.

Theorem C19_append_next : forall r x, siblings (append_next r x) = siblings r ++ siblings x.
Proof. exact append_next_spec. Qed.
Print Assumptions C19_append_next.

Theorem C19_append_child : forall r x,
  child_rules (append_child r x) = child_rules r ++ siblings x /\
  same_but_child r (append_child r x).
Proof. exact append_child_spec. Qed.
Print Assumptions C19_append_child.

Theorem C19_append_nested : forall r x,
  r_nested (append_nested r x) = r_nested r ++ [x] /\ same_but_nested r (append_nested r x).
Proof. exact append_nested_spec. Qed.
Print Assumptions C19_append_nested.

Theorem C19_append_match : forall r m,
  r_matches (append_match r m) = r_matches r ++ [m] /\ same_but_matches r (append_match r m).
Proof. exact append_match_spec. Qed.
Print Assumptions C19_append_match.

Theorem C19_append_capture : forall r x,
  r_captures (append_capture r x) = r_captures r ++ [x] /\ same_but_captures r (append_capture r x).
Proof. exact append_capture_spec. Qed.
Print Assumptions C19_append_capture.

Example C18_C19_case :
  rule_copy sample_rule = sample_rule /\
  length (siblings (append_next sample_rule sample_rule)) = 4 /\
  length (child_rules (append_child sample_rule sample_rule)) = 3.
Proof. repeat split. Qed.
