(** C37 - C41: errors of ParseHext, the generated tables and the grammar. *)

From Coq Require Import Ascii String NArith ZArith Bool List Lia.
From Verif Require Import Samples Base StringUtil Values Match Rule Regular ParserTables Parser Grammar GrammarSpec GrammarProofs GrammarTexts
  TextSpec ParserSpec ParserSafety.
Import ListNotations.

(** C37. Every error message is about the place where the error is, and shows
    its position. See ParserSpec for the meaning of [parse_outcome]. *)
Theorem C37_errors : forall E x, parse_outcome x (ParseHext E x).
Proof. exact parse_spec. Qed.
Print Assumptions C37_errors.

Example C37_errors_case :
  ParseHext sample_engine (s "<a>" ++ [newline] ++ s " </b>") = Throw (SyntaxError
    (s "Unexpected closing tag '</b>', expected '</a>' at line 2, char 4:" ++ [newline; newline] ++
     s "1: <a>" ++ [newline] ++ s "2:  </b" ++ [newline] ++ s "    ^^^ here" ++ [newline])).
Proof. vm_compute. reflexivity. Qed.

(** C38. ParseHext returns a rule or throws, or reports an unexpected byte above
    127, for which see C40. It does not run out of fuel, read outside of its
    input or its tables, or use something that is not there. *)
Theorem C38_total : forall E x,
  (exists r, ParseHext E x = Ok r) \/ (exists e, ParseHext E x = Throw e) \/
  (ParseHext E x = UB BadCtypeArgument /\ exists u c v, lexical_error x u c v /\ (128 <= N_of_ascii c < 255)%N).
Proof. exact parse_total. Qed.
Print Assumptions C38_total.

(** A rule is only returned for a text of the grammar. *)
Theorem C38_text : forall E x r, ParseHext E x = Ok r -> text_of G x.
Proof. exact parsed_text. Qed.
Print Assumptions C38_text.

Example C38_case : (exists r, ParseHext sample_engine (s "<a:not(:empty) @text=~/x/! b:c><b/>{<i/>}</a>") = Ok r) /\
  (exists m, ParseHext sample_engine (s "<a") = Throw (SyntaxError m)) /\
  ParseHext sample_engine (s "<a" ++ ["200"%char]) = UB BadCtypeArgument.
Proof. split; [eexists; vm_compute; reflexivity|]. split; [eexists; vm_compute; reflexivity|vm_compute; reflexivity]. Qed.

(** C39. A number that does not fit an int makes ParseHext throw
    std::out_of_range. *)
Theorem C39_refuted : exists x, forall E, ParseHext E x = Throw StdOutOfRange.
Proof. exists (s "<a:child-count(99999999999)/>"). intros E. vm_compute. reflexivity. Qed.
Print Assumptions C39_refuted.

(** There is no other exception, and this one only for texts with such a
    number. *)
Theorem C39_exceptions_partial : forall E x e, ParseHext E x = Throw e ->
  (exists m, e = SyntaxError m) \/ (e = StdOutOfRange /\ has_big_number x).
Proof. exact parse_exceptions. Qed.
Print Assumptions C39_exceptions_partial.

(** C40. A byte above 127 where it is not expected is passed to isprint as a
    negative number. *)
Theorem C40_refuted : exists x, forall E, ParseHext E x = UB BadCtypeArgument.
Proof. exists ["233"%char]. intros E. vm_compute. reflexivity. Qed.
Print Assumptions C40_refuted.

(** Without such bytes the behaviour is defined. *)
Theorem C40_defined_partial : forall E x, (forall c, In c x -> (N_of_ascii c < 128)%N) ->
  (exists r, ParseHext E x = Ok r) \/ (exists e, ParseHext E x = Throw e).
Proof. exact parse_defined. Qed.
Print Assumptions C40_defined_partial.

Example C40_case : (forall c, In c (s "<a b!>") -> (N_of_ascii c < 128)%N) /\
  exists e, ParseHext sample_engine (s "<a b!!>") = Throw e.
Proof.
  split; [|eexists; vm_compute; reflexivity]. intros c H. repeat (destruct H as [<-|H]; [reflexivity|]). destruct H.
Qed.

(** C41. The machine reads exactly the prefixes of the texts of the grammar. *)
Theorem C41_consumed : forall x, (exists tr q, walk hext_start x = Some (tr, q)) <-> prefix_of G x.
Proof. exact G_consumed. Qed.
Print Assumptions C41_consumed.

(** Before each character it runs the actions that the grammar embeds there,
    each of them once and in the order of their numbers. *)
Theorem C41_actions : forall x tr q, walk hext_start x = Some (tr, q) ->
  forall i acts, nth_error tr i = Some acts ->
  ascending_acts acts /\ forall a, In a acts <-> embeds_before G (firstn (S i) x) a.
Proof. exact G_trace. Qed.
Print Assumptions C41_actions.

(** At the first character that does not continue a text it runs the error
    action, 88, only. *)
Theorem C41_error : forall x tr q c, walk hext_start x = Some (tr, q) -> ~ prefix_of G (x ++ [c]) ->
  machine_step q c = Ok (hext_error, [88%N]).
Proof. intros x tr q c H. exact (proj2 (G_step x tr q c H)). Qed.
Print Assumptions C41_error.

(** At the end of the input it runs the actions that the grammar embeds after
    the complete text, or the error action if the text is not complete. *)
Theorem C41_end : forall x tr q, walk hext_start x = Some (tr, q) ->
  (text_of G x -> exists acts, machine_eof q = Ok acts /\ ascending_acts acts /\ forall a, In a acts <-> embeds_after G x a) /\
  (~ text_of G x -> machine_eof q = Ok [88%N]).
Proof. exact G_end. Qed.
Print Assumptions C41_end.

(** The bodies of quoted strings and regular expressions are the texts of
    [( \[^q\] | '\\q' )*] that do not end in a backslash; *)
Theorem C41_bodies : forall q, q <> backslash -> forall x,
  text_of (body q) x <-> text_of (loose q) x /\ forall u, x <> u ++ [backslash].
Proof. exact body_words. Qed.
Print Assumptions C41_bodies.

(** in other words, those where each [q] follows a backslash. *)
Theorem C41_quotable : forall q, q <> backslash -> forall x, text_of (body q) x <-> quotable q x.
Proof. exact body_quotable. Qed.
Print Assumptions C41_quotable.

Definition sample_hext : str := s "<a href:x?/># c" ++ [newline].

(** The text <a href:x?/> followed by a comment is read to its end; action 70,
    which appends the capture, runs before the slash; <a="x"> is not read. *)
Example C41_case : exists tr q, walk hext_start sample_hext = Some (tr, q) /\
  nth_error tr 10 = Some [0; 70; 75]%N /\ machine_eof q = Ok [] /\
  walk hext_start (s "<a=""x"">") = None.
Proof. eexists. eexists. split; [vm_compute; reflexivity|]. vm_compute. auto. Qed.
