(** C80: texts made of texts. *)

From Coq Require Import Ascii String NArith ZArith Bool List.
From Verif Require Import Samples Base StringUtil Tags Dom Values Match Rule Parser SyntaxSpec ComposeSpec ComposeProofs ComposeCases.
Import ListNotations.

(** Two texts with elements, one after the other, are accepted iff both are. The
    rule of the second one follows the last rule of the first one. The first one
    has no flagged type-matches. *)
Theorem C80_sequence : forall E x y z, part_of_text x -> with_element y ->
  ParseHext E (x ++ y) = Ok z <-> exists r q, ParseHext E x = Ok r /\ ParseHext E y = Ok q /\ z = followed_by r q.
Proof. exact sequence_parse. Qed.
Print Assumptions C80_sequence.

(** A text of whitespace and comments only adds nothing on either side. *)
Theorem C80_before : forall E x y z, blank_text x -> (exists qs, spells qs y) ->
  ParseHext E (x ++ y) = Ok z <-> ParseHext E y = Ok z.
Proof. exact blank_before. Qed.
Print Assumptions C80_before.
Theorem C80_after : forall E x y z, blank_text y -> (exists ps, spells ps x) ->
  ParseHext E (x ++ y) = Ok z <-> ParseHext E x = Ok z.
Proof. exact blank_after. Qed.
Print Assumptions C80_after.

(** A text between an opening and a closing tag gives the children of the rule of
    that tag, and a text in braces there gives a nested rule of it. *)
Theorem C80_child : forall E h name x z,
  head_ok h -> traits_unflagged h -> is_tag_name name -> closes (h_name h) name -> with_element x ->
  ParseHext E (around h x name) = Ok z <->
  exists q r, ParseHext E (closed_tag h) = Ok q /\ ParseHext E x = Ok r /\ z = with_child q r.
Proof. exact child_parse. Qed.
Print Assumptions C80_child.
Theorem C80_nested : forall E h name x z,
  head_ok h -> traits_unflagged h -> is_tag_name name -> closes (h_name h) name -> with_element x ->
  ParseHext E (around h (s "{" ++ x ++ s "}") name) = Ok z <->
  exists q r, ParseHext E (closed_tag h) = Ok q /\ ParseHext E x = Ok r /\ z = with_nested q r.
Proof. exact nested_parse. Qed.
Print Assumptions C80_nested.

(** <li:first-child/> and <?p/><br/>, one after the other, and the first one in
    <ul class:c></ul>. *)
Example C80_case :
  part_of_text item_text /\ with_element item_text /\ with_element rest_text /\ head_ok list_head /\ traits_unflagged list_head /\
  is_tag_name (s "ul") /\ closes (h_name list_head) (s "ul") /\
  item_text ++ rest_text = s "<li:first-child/> <?p/><br/>" /\
  ParseHext sample_engine (item_text ++ rest_text) =
    Ok (mk_rule None
      (Some (mk_rule None (Some (mk_rule None None [] [] [] TAG_BR false false None)) [] [] [] TAG_P true false None))
      [] [Some (NthChildMatch 0 1 (mk_nth_option true false))] [] TAG_LI false false None) /\
  around list_head (s "{" ++ item_text ++ s "}") (s "ul") = s "<ul class:c>{<li:first-child/> }</ul>" /\
  ParseHext sample_engine (around list_head (s "{" ++ item_text ++ s "}") (s "ul")) =
    Ok (mk_rule None None
      [mk_rule None None [] [Some (NthChildMatch 0 1 (mk_nth_option true false))] [] TAG_LI false false None]
      [Some (AttributeMatch (s "class") None)] [Some (AttributeCapture (s "class") (s "c") None)] TAG_UL false false None).
Proof.
  split; [exact item_part|]. split; [exact (part_with_element _ item_part)|]. split; [exact (part_with_element _ rest_part)|].
  split; [exact list_head_ok|]. split; [constructor|]. split; [exact (proj1 list_head_ok)|]. split; [now left|].
  repeat split; vm_compute; reflexivity.
Qed.

(** Without the condition on type-matches the claim is false: the flag of
    <a:type-matches(/x/i)/> is also in force in the text after it. *)
Theorem C80_sequence_refuted : exists x y r q,
  with_element x /\ with_element y /\ ParseHext sample_engine x = Ok r /\ ParseHext sample_engine y = Ok q /\
  ParseHext sample_engine (x ++ y) <> Ok (followed_by r q).
Proof. exact flags_cross. Qed.
Print Assumptions C80_sequence_refuted.
