(** C89: the errors of the beginnings of a text. *)

From Coq Require Import Ascii String NArith ZArith Bool List Lia.
From Verif Require Import Samples Base StringUtil StringSpec Tags Dom NodeUtil Values Match Rule Parser Grammar GrammarSpec TextSpec ParserSpec
  SyntaxSpec ErrorSpec FinalSpec ErrorFinal NumberFinal.
Import ListNotations.

(** The beginnings of a text that is accepted are accepted or told that something
    is missing at the end: what is reported as wrong cannot be repaired by more
    text. *)
Theorem C89_typing : forall E x y r, ParseHext E (x ++ y) = Ok r ->
  (exists r', ParseHext E x = Ok r') \/ (exists e, ParseHext E x = Throw e /\ wants_more e).
Proof. exact typing. Qed.
Print Assumptions C89_typing.

(** Whatever follows an error, it is the same error with the same message, unless
    the error is about a brace at the end and the next character is wrong. *)
Theorem C89_final : forall E x y e,
  ParseHext E x = Throw e -> ~ wants_more e -> (forall c, In c y -> is_ascii c) ->
  ParseHext E (x ++ y) = Throw e \/ (ends_in_brace x /\ exists d z, y = d :: z /\ lexical_error (x ++ y) x d z).
Proof. exact error_final. Qed.
Print Assumptions C89_final.

(** Undefined behaviour remains, too. *)
Theorem C89_undefined : forall E x y b, ParseHext E x = UB b -> ParseHext E (x ++ y) = UB b.
Proof. exact undefined_final. Qed.
Print Assumptions C89_undefined.

(** If only closing tags or braces are missing, then there is a text to add. *)
Theorem C89_completable : forall E x m,
  ParseHext E x = Throw (SyntaxError m) -> wants_more (SyntaxError m) -> (forall loc, m <> s "Premature termination " ++ loc) ->
  exists y r, ParseHext E (x ++ y) = Ok r.
Proof. exact unfinished_completable. Qed.
Print Assumptions C89_completable.

Definition here (column line marker : str) : str :=
  s "at line 1, char " ++ column ++ s ":" ++ [newline; newline] ++ s "1: " ++ line ++ [newline] ++ marker ++ s " here" ++ [newline].

(** A rule while it is typed. *)
Example C89_typing_case :
  (exists r, ParseHext sample_engine (s "<ul><li/>{<b/>}</ul>") = Ok r) /\
  ParseHext sample_engine (s "<ul><li/>{<b") = Throw (SyntaxError (s "Premature termination at end of input:" ++ [newline; newline] ++
    s "1: <ul><li/>{<b" ++ [newline] ++ s "               ^ here" ++ [newline])) /\
  ParseHext sample_engine (s "<ul><li/>{<b/>") = Throw (SyntaxError (s "Unclosed nested rule " ++ here (s "14") (s "<ul><li/>{<b/>") (s "                ^"))) /\
  ParseHext sample_engine (s "<ul><li/>{<b/>}") = Throw (SyntaxError (s "Missing closing tag '</ul>' at end of input:" ++ [newline; newline] ++
    s "1: <ul><li/>{<b/>}" ++ [newline])).
Proof. repeat split; try (vm_compute; reflexivity). eexists. vm_compute. reflexivity. Qed.

(** The error of <ul></b is the error of <ul></b> and of <ul></b>%; the error of
    <a $ is the one of <a $></b>. *)
Definition tag_error : exn := SyntaxError (s "Unexpected closing tag '</b>', expected '</ul>' " ++ here (s "7") (s "<ul></b") (s "       ^^^")).
Definition dollar_error : exn := SyntaxError (s "Unexpected character '$' " ++ here (s "4") (s "<a $") (s "      ^")).
Example C89_final_case :
  ParseHext sample_engine (s "<ul></b>") = Throw tag_error /\ ParseHext sample_engine (s "<ul></b>" ++ s "%") = Throw tag_error /\ ~ wants_more tag_error /\
  ParseHext sample_engine (s "<a $") = Throw dollar_error /\ ParseHext sample_engine (s "<a $" ++ s "></b>") = Throw dollar_error /\ ~ wants_more dollar_error.
Proof. repeat split; try (vm_compute; reflexivity); intros H; inversion H. Qed.

(** After a brace there may be a new error. *)
Definition brace_error : exn := SyntaxError (s "Nested rules cannot be empty " ++ here (s "1") (s "}") (s "   ^")).
Theorem C89_brace_refuted : ~ (forall E x y e,
  ParseHext E x = Throw e -> ~ wants_more e -> (forall c, In c y -> is_ascii c) -> ParseHext E (x ++ y) = Throw e).
Proof.
  intros H. specialize (H sample_engine (s "}") (s "%") brace_error). assert (X : ParseHext sample_engine (s "}" ++ s "%") = Throw brace_error).
  - apply H; [vm_compute; reflexivity|intros HW; inversion HW|intros c [<-|[]]; reflexivity].
  - vm_compute in X. discriminate.
Qed.
Print Assumptions C89_brace_refuted.

(** Characters outside of ASCII after the error change the message: it has no
    marker then. *)
Theorem C89_marker_refuted : ~ (forall E x y e,
  ParseHext E x = Throw e -> ~ wants_more e -> ~ ends_in_brace x -> ParseHext E (x ++ y) = Throw e).
Proof.
  intros H. specialize (H sample_engine (s "<a $") ["195"%char; "164"%char] dollar_error).
  assert (X : ParseHext sample_engine (s "<a $" ++ ["195"%char; "164"%char]) = Throw dollar_error).
  - apply H; [vm_compute; reflexivity|intros HW; inversion HW|].
    intros [u [Hu|Hu]]; [change (s "{") with ["{"%char] in Hu|change (s "}") with ["}"%char] in Hu]; apply (f_equal (fun l => last l "000"%char)) in Hu; rewrite last_last in Hu; discriminate.
  - vm_compute in X. discriminate.
Qed.
Print Assumptions C89_marker_refuted.

(** "Premature termination" does not mean that something can be added: a number
    may be too big already. *)
Theorem C89_premature_refuted : exists x loc,
  (forall E, ParseHext E x = Throw (SyntaxError (s "Premature termination " ++ loc))) /\
  forall E y r, ParseHext E (x ++ y) <> Ok r.
Proof. exact number_final. Qed.
Print Assumptions C89_premature_refuted.
