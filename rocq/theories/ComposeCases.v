(** Cases for C80. *)

From Coq Require Import Ascii String NArith ZArith Bool List.
From Verif Require Import Samples Base StringUtil Tags Dom Values Match Rule Parser SyntaxSpec ComposeSpec SyntaxTree SyntaxProofs.
Import ListNotations.

(** <ul class:c> *)
Definition list_head : head := mk_head [] (s "ul") [] [(s " ", PAttrCapture (s "class") [] (CPlain (s "c")) false)] [].
(** <li:first-child/> *)
Definition item_head : head := mk_head [] (s "li") [Is (TrEnd true false)] [] [].
Definition item_text : str := closed_tag item_head ++ s " ".
(** <?p/><br/> *)
Definition para_head : head := mk_head [OptOptional] (s "p") [] [] [].
Definition break_head : head := mk_head [] (s "br") [] [] [].
Definition rest_text : str := closed_tag para_head ++ closed_tag break_head.

Lemma list_head_ok : head_ok list_head.
Proof.
  split; [right; now apply name_by|]. split; [constructor|]. split; [|intros c []].
  constructor; [|constructor]. split; [discriminate|]. split; [now apply all_in_forallb|]. split; [now apply name_by|]. split; [constructor|].
  split; [discriminate|now apply all_in_forallb].
Qed.
Lemma item_head_ok : head_ok item_head.
Proof. split; [right; now apply name_by|]. split; [repeat constructor|]. split; [constructor|intros c []]. Qed.
Lemma para_head_ok : head_ok para_head.
Proof. split; [right; now apply name_by|]. split; [constructor|]. split; [constructor|intros c []]. Qed.
Lemma break_head_ok : head_ok break_head.
Proof. split; [right; now apply name_by|]. split; [constructor|]. split; [constructor|intros c []]. Qed.

Lemma item_part : part_of_text item_text.
Proof.
  exists [Closed item_head; Space " "]. split.
  - split; [|reflexivity]. constructor; [exact item_head_ok|]. now constructor.
  - split; [|eexists; split; [now left|reflexivity]]. repeat constructor.
Qed.
Lemma rest_part : part_of_text rest_text.
Proof.
  exists [Closed para_head; Closed break_head]. split.
  - split; [|reflexivity]. constructor; [exact para_head_ok|]. constructor; [exact break_head_ok|constructor].
  - split; [|eexists; split; [now left|reflexivity]]. repeat constructor.
Qed.

(** <a:type-matches(/x/i)/> and <b:type-matches(/y/)/> *)
Definition flag_head : head := mk_head [] (s "a") [Is (TrTypeMatches (mk_rl "/" (s "x") [FlagI]))] [] [].
Definition later_head : head := mk_head [] (s "b") [Is (TrTypeMatches (mk_rl "/" (s "y") []))] [] [].

Lemma part_with_element x : part_of_text x -> with_element x.
Proof. intros [ps [H1 [_ H2]]]. exists ps. auto. Qed.

Lemma flag_head_ok : head_ok flag_head.
Proof.
  split; [right; now apply name_by|]. split; [|split; [constructor|intros c []]]. constructor; [|constructor]. split; [now left|].
  split.
  - intros u v H. exfalso. destruct u as [|c [|d u]]; discriminate H.
  - intros u H. destruct u as [|c [|d u]]; discriminate H.
Qed.
Lemma later_head_ok : head_ok later_head.
Proof.
  split; [right; now apply name_by|]. split; [|split; [constructor|intros c []]]. constructor; [|constructor]. split; [now left|].
  split.
  - intros u v H. exfalso. destruct u as [|c [|d u]]; discriminate H.
  - intros u H. destruct u as [|c [|d u]]; discriminate H.
Qed.
Lemma closed_element h : head_ok h -> with_element (closed_tag h).
Proof.
  intros H. exists [Closed h]. split; [|eexists; split; [now left|reflexivity]].
  split; [now constructor|]. cbn [flat_map piece_text]. now rewrite app_nil_r.
Qed.

Lemma flags_cross : exists x y r q,
  with_element x /\ with_element y /\ ParseHext sample_engine x = Ok r /\ ParseHext sample_engine y = Ok q /\
  ParseHext sample_engine (x ++ y) <> Ok (followed_by r q).
Proof.
  exists (closed_tag flag_head), (closed_tag later_head). do 2 eexists.
  split; [exact (closed_element _ flag_head_ok)|]. split; [exact (closed_element _ later_head_ok)|].
  split; [vm_compute; reflexivity|]. split; [vm_compute; reflexivity|]. vm_compute. discriminate.
Qed.
