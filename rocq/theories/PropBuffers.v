(** C72: the texts of parsed documents live as long as the documents. *)

From Coq Require Import Ascii String NArith ZArith Bool List.
From Verif Require Import Base Buffers BufferSpec BufferProofs.
Import ListNotations.

(** C72. Whatever htmlext reads, and whatever throws: it reads only memory that
    it has and has not released; the names of elements come from the text of
    the same file as the document; and in the end everything is released, each
    block once. That the vector of rules reserves its memory plays no part. *)
Theorem C72_main : forall parses extracts reserve_rules sources lint files,
  exists ok seen m, run_main parses extracts (reserve_rules, true, true) sources lint files = Ok (ok, seen, m) /\
    all_released m /\ main_does parses extracts sources lint files ok seen.
Proof. exact main_ok. Qed.
Print Assumptions C72_main.

(** Objects of the bindings that are never moved: as long as they live their
    document and its names come from the text they were made of; if all of them
    are deleted nothing is left. *)
Theorem C72_objects_partial : forall es seen objs, history [] es seen objs ->
  exists ws m, do_steps es [] [] = Ok (seen, ws, m) /\ (Forall (eq None) objs -> all_released m).
Proof. exact objects_ok. Qed.
Print Assumptions C72_objects_partial.

(** Missing: objects that are moved. No binding does it, but the class of
    wrapper/Html.h allows it, and then the document is gone as soon as the object
    that it was moved from is deleted. *)
Theorem C72_moved_refuted : forall x,
  do_steps [Create (Some x); MoveFrom 0; Delete 0; Look 1] [] [] = UB BadPointer /\
  do_steps [Create (Some x); MoveFrom 0; Delete 0; Delete 1] [] [] = UB DoubleFree.
Proof.
  intros x. cbn [do_steps do_step create]. unfold make_string. destruct (Nat.leb (length x) 15); split; reflexivity.
Qed.
Print Assumptions C72_moved_refuted.

(** If the text is short it is gone even before that: the string that is moved
    keeps its characters in another place. *)
Theorem C72_moved_text_refuted : forall x, x <> [] -> length x <= 15 ->
  do_steps [Create (Some x); MoveFrom 0; Look 1] [] [] = Ok ([(x, [])],
    [Some (mk_wrapper 0 (Short []) (Some 1)); Some (mk_wrapper 2 (Short x) (Some 1))],
    [Bytes [[]]; Output (0, 0) x; Bytes [x]]).
Proof.
  intros x _ H. cbn [do_steps do_step create]. unfold make_string.
  apply PeanoNat.Nat.leb_le in H. rewrite H. reflexivity.
Qed.
Print Assumptions C72_moved_text_refuted.

Definition short_file : str := s "<my-a></my-a>".
Definition long_file : str := s "<my-b><my-c></my-c></my-b>".

(** The calls of reserve for the documents and their texts are needed: without
    either of them there are inputs for which htmlext reads or releases what is
    not there. *)
Theorem C72_reserve_needed :
  (exists parses extracts sources files, run_main parses extracts (true, true, false) sources false files = UB DoubleFree) /\
  (exists parses extracts sources files, run_main parses extracts (true, false, true) sources false files = UB BadPointer).
Proof.
  split; exists (fun _ => true), (fun _ _ _ => true).
  - exists [], [Some short_file; Some short_file]. reflexivity.
  - exists [HextInput (s "<*/>")], [Some short_file; Some long_file]. reflexivity.
Qed.
Print Assumptions C72_reserve_needed.

(** Two files with rules and a text, two documents, of which the second throws
    for the second rule. *)
Example C72_case :
  let rules := [s "<my-a/>"; s "<my-b><my-c @text:x/></my-b>"; s "<a/>"] in
  let extracts r d n := negb (Nat.eqb (length r) 28 && Nat.ltb 15 (length n)) in
  let seen := [(nth 0 rules [], short_file, short_file); (nth 0 rules [], long_file, long_file);
               (nth 1 rules [], short_file, short_file); (nth 1 rules [], long_file, long_file)] in
  main_does (fun _ => true) extracts [HextFile (Some (nth 0 rules [])); HextFile (Some (nth 1 rules [])); HextInput (s "<a/>")]
    false [Some short_file; Some long_file] false seen /\
  (exists m, run_main (fun _ => true) extracts (true, true, true)
    [HextFile (Some (nth 0 rules [])); HextFile (Some (nth 1 rules [])); HextInput (s "<a/>")]
    false [Some short_file; Some long_file] = Ok (false, seen, m)) /\
  history [] [Create (Some short_file); Create None; Create (Some long_file); Look 2; Delete 0; Look 1; Look 2; Delete 2; Delete 1]
    [(long_file, long_file); (long_file, long_file)] [None; None; None].
Proof.
  cbv zeta. split; [|split].
  - apply (does_search _ _ _ [s "<my-a/>"; s "<my-b><my-c @text:x/></my-b>"; s "<a/>"] [short_file; long_file]).
    + repeat (apply Forall2_cons; [split; [first [left; reflexivity | right; reflexivity]|reflexivity]|]). constructor.
    + cbn [visit]. exists [(s "<my-a/>", short_file); (s "<my-a/>", long_file); (s "<my-b><my-c @text:x/></my-b>", short_file)],
        (s "<my-b><my-c @text:x/></my-b>", long_file), [(s "<a/>", short_file); (s "<a/>", long_file)].
      split; [reflexivity|]. split; [repeat constructor|]. split; [discriminate|reflexivity].
  - eexists. reflexivity.
  - do 3 apply history_create. apply history_look; [reflexivity|]. apply (history_delete []).
    apply history_look_null; [reflexivity|]. apply history_look; [reflexivity|].
    apply (history_delete [None; Some None]). apply (history_delete [None]). apply history_end.
Qed.
