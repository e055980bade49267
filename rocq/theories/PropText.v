(** C33 - C35, C37: text and serialisation of nodes, error positions. *)

From Coq Require Import Ascii String Arith NArith ZArith Bool List Lia.
From Verif Require Import Base StringUtil Tags Dom NodeUtil Parser StringSpec TextSpec TextProofs SerialProofs LocationProofs Samples.
Import ListNotations.

(** C33. Without wrapping, StripTags is the concatenated text; *)
Theorem C33_strip_tags : forall n, StripTags false n = full_text n.
Proof. exact StripTags_text. Qed.
Print Assumptions C33_strip_tags.

(** the nodes whose texts are concatenated are those reached through elements; *)
Theorem C33_reached : forall n m, In m (reached n) <-> exists p, below n p m.
Proof. exact reached_below. Qed.
Print Assumptions C33_reached.

(** wrapping only adds newlines. *)
Theorem C33_wrapped : forall n, newlines_added (full_text n) (StripTags true n).
Proof. exact StripTags_wrapped_text. Qed.
Print Assumptions C33_wrapped.

(** <div>a <b>b</b><!--x--><p>c<template>t</template></p>d</div> *)
Definition sample_div : node :=
  el TAG_DIV [NText (s "a "); el TAG_B [NText (s "b")]; NComment (s "x");
              el TAG_P [NText (s "c"); NTemplate TAG_TEMPLATE (Some []) [] [NText (s "t")]]; NText (s "d")].
Example C33_case : StripTags false sample_div = s "a bcd" /\ full_text sample_div = s "a bcd" /\
  StripTags true sample_div = s "a b" ++ ["010"%char] ++ s "c" ++ ["010"%char] ++ s "d".
Proof. repeat split. Qed.

(** C34. NodeText is a list of words separated by single blanks, and has the
    characters of the text that are not blank. *)
Theorem C34_words : forall n, exists ws, NodeText n = join_words ws /\ words_of (NodeText n) ws /\
  without_blanks (full_text n) (concat ws).
Proof. exact NodeText_words. Qed.
Print Assumptions C34_words.

(** The words of a block below it are words of their own, between those of the
    text before and after. *)
Theorem C34_block : forall n p m, below n p m -> block m -> p <> [] ->
  exists before after wa wm wb,
    full_text n = before ++ full_text m ++ after /\
    words_of (NodeText n) (wa ++ wm ++ wb) /\ words_of (NodeText m) wm /\
    without_blanks before (concat wa) /\ without_blanks after (concat wb).
Proof. exact NodeText_block. Qed.
Print Assumptions C34_block.

Example C34_case : NodeText sample_div = s "a b c d" /\
  (exists m, below sample_div [3] m /\ block m /\ NodeText m = s "c").
Proof.
  split; [reflexivity|]. eexists. split; [eapply below_child; [apply below_self|reflexivity]|]. split; [|reflexivity].
  do 4 eexists. split; [reflexivity|]. intros H. vm_compute in H. repeat (destruct H as [H|H]; [discriminate H|]). exact H.
Qed.

(** C35. Inner HTML does not determine the children: text is not escaped. *)
Theorem C35_ambiguous_refuted : exists cs1 cs2,
  map view_of cs1 <> map view_of cs2 /\
  NodeInnerHtml (el TAG_DIV cs1) = NodeInnerHtml (el TAG_DIV cs2).
Proof. exists [NText (s "<b></b>")], [el TAG_B []]. split; [discriminate|reflexivity]. Qed.
Print Assumptions C35_ambiguous_refuted.

(** It does determine what is shown of trees of elements, comments and texts that
    have no bracket in texts, no end of comment in comments, no separators in
    names and no adjacent texts. Missing: the other trees. *)
Theorem C35_unambiguous_partial : forall t1 o1 a1 cs1 t2 o2 a2 cs2,
  Forall node_ok cs1 -> Forall node_ok cs2 -> views_ok (map view_of cs1) -> views_ok (map view_of cs2) ->
  NodeInnerHtml (NElement t1 o1 a1 cs1) = NodeInnerHtml (NElement t2 o2 a2 cs2) ->
  map view_of cs1 = map view_of cs2.
Proof. exact inner_html_inj. Qed.
Print Assumptions C35_unambiguous_partial.

(** Attribute values are always recoverable. *)
Theorem C35_values_partial : forall x y, std_quoted x = std_quoted y -> x = y.
Proof. exact std_quoted_inj. Qed.
Print Assumptions C35_values_partial.

Definition shown_children : list node :=
  [NText (s "a>b"); NElement TAG_A (Some []) [mk_attr NsNone (s "href") (Some (s "<""\>")); mk_attr NsXlink (s "x") None] [NComment (s "--")];
   el TAG_BR []].
Example C35_case :
  Forall node_ok shown_children /\ views_ok (map view_of shown_children) /\
  NodeInnerHtml (el TAG_DIV shown_children) = s "a>b<a href=""<\""\\>"" xlink:x><!------></a><br/>".
Proof.
  assert (HN : forall (l : str), forallb (fun c => negb (existsb (Ascii.eqb c) (s " =/>!"))) l = true ->
     forallb (fun c => negb (Ascii.eqb c """"%char)) l = true ->
     Forall (fun c => ~ In c [" "; "="; "/"; ">"; """"; "!"]%char) l).
  { intros l H H'. apply Forall_forall. intros c Hc Hi. rewrite forallb_forall in H, H'. specialize (H c Hc). specialize (H' c Hc).
    cbn [In] in Hi. destruct Hi as [<-|[<-|[<-|[<-|[<-|[<-|[]]]]]]]; discriminate. }
  assert (HI : forall c (l : str), existsb (Ascii.eqb c) l = false -> ~ In c l).
  { intros c l H Hi. assert (existsb (Ascii.eqb c) l = true) by (apply existsb_exists; exists c; split; [exact Hi|apply Ascii.eqb_refl]). congruence. }
  split; [|split; [|reflexivity]].
  - repeat constructor.
  - cbn [map shown_children view_of]. constructor; [|constructor; [|constructor; [| constructor|]|]|].
    + constructor; [discriminate|apply HI; reflexivity|apply HI; reflexivity].
    + constructor.
      * split; [discriminate|apply HN; reflexivity].
      * constructor; [|constructor; [|constructor]]; (split; [split; [discriminate|apply HN; reflexivity]|]);
          (split; [apply HI; reflexivity|]); intros v H; cbn in H; try discriminate. injection H as <-. apply HI; reflexivity.
      * constructor; [|constructor|].
        -- constructor; [|apply HI; reflexivity]. intros [a [b H]]. destruct a as [|? [|? [|? ?]]]; discriminate.
        -- intros [x H]; discriminate.
      * intros H. exfalso. vm_compute in H. repeat (destruct H as [H|H]; [discriminate H|]). exact H.
    + constructor; [split; [discriminate|apply HN; reflexivity]|constructor|constructor|reflexivity].
    + intros [x H]; discriminate.
    + intros [x H]; discriminate.
    + intros _ [x H]; discriminate.
Qed.

(** C37. The position of a character: the newlines before it, and the distance
    from the start of its line. *)
Theorem C37_position : forall x before line, last_line x before line -> CharPosition x = (newlines before, length line).
Proof. exact CharPosition_spec. Qed.
Print Assumptions C37_position.

Theorem C37_position_exists : forall x, exists before line, last_line x before line.
Proof. exact last_line_exists. Qed.
Print Assumptions C37_position_exists.

(** The message shows the position, the numbered lines up to the offending
    character, and a marker that ends below it. *)
Theorem C37_message : forall before line rest mark,
  last_line (before ++ line) before line -> before ++ line ++ shown_of rest <> [] ->
  location_message before line rest mark
    (print_error_location (before ++ line ++ rest) (length (before ++ line)) mark).
Proof. exact print_error_location_spec. Qed.
Print Assumptions C37_message.

(** Numbers are printed in decimal notation, which determines them. *)
Theorem C37_decimal : forall n, decimal_of n (decimal n) /\ forall m, decimal_of m (decimal n) -> m = n.
Proof. exact decimal_exact. Qed.
Print Assumptions C37_decimal.

Example C37_case :
  let before := s "<a>" ++ [newline] in let line := s "  <b" in let rest := s "!/>" in
  last_line (before ++ line) before line /\ before ++ line ++ shown_of rest <> [] /\
  print_error_location (before ++ line ++ rest) (length (before ++ line)) 1 =
    s "at line 2, char 5:" ++ [newline; newline] ++ s "1: <a>" ++ [newline] ++ s "2:   <b!" ++ [newline] ++
    s "       ^ here" ++ [newline].
Proof.
  split; [|split; [discriminate|reflexivity]]. split; [reflexivity|]. split.
  - intros H. vm_compute in H. repeat (destruct H as [H|H]; [discriminate H|]). exact H.
  - right. eexists. reflexivity.
Qed.
