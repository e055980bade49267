(** C29, C30, C32, C36: value tests, whitespace and pipes. *)

From Coq Require Import Ascii String NArith ZArith Bool List.
From Verif Require Import Base StringUtil Values StringSpec ValueSpec StringProofs ValueProofs Samples.
Import ListNotations.

(** C29. The literal tests mean equality, prefix, suffix and substring. *)
Theorem C29_equals : forall E lit subject,
  vtest_test E (EqualsTest lit) subject = Ok true <-> subject = Some lit.
Proof. exact equals_test. Qed.
Print Assumptions C29_equals.

Theorem C29_begins_with : forall E lit subject,
  vtest_test E (BeginsWithTest lit) subject = Ok true <-> exists x, subject = Some x /\ starts_with lit x.
Proof. exact begins_test. Qed.
Print Assumptions C29_begins_with.

Theorem C29_ends_with : forall E lit subject,
  vtest_test E (EndsWithTest lit) subject = Ok true <-> exists x, subject = Some x /\ ends_with lit x.
Proof. exact ends_test. Qed.
Print Assumptions C29_ends_with.

Theorem C29_contains : forall E lit subject,
  vtest_test E (ContainsTest lit) subject = Ok true <-> exists x, subject = Some x /\ occurs_in lit x.
Proof. exact contains_test. Qed.
Print Assumptions C29_contains.

(** These and all other tests answer if the regex library does. *)
Theorem C29_tests_answer : forall E t subject, engine_searches E -> exists b, vtest_test E t subject = Ok b.
Proof. exact test_answers. Qed.
Print Assumptions C29_tests_answer.

Example C29_case :
  vtest_test sample_engine (EqualsTest (s "ab")) (Some (s "ab")) = Ok true /\
  vtest_test sample_engine (BeginsWithTest (s "ab")) (Some (s "abc")) = Ok true /\
  vtest_test sample_engine (EndsWithTest (s "bc")) (Some (s "abc")) = Ok true /\
  vtest_test sample_engine (EndsWithTest (s "abcd")) (Some (s "bcd")) = Ok false /\
  vtest_test sample_engine (ContainsTest (s "aab")) (Some (s "aaab")) = Ok true /\
  engine_searches sample_engine.
Proof. repeat split. intros rx x. discriminate. Qed.

(** C30. Words that are not empty and contain no blank are found exactly if they
    stand between blanks or the ends of the subject. *)
Theorem C30_words_partial : forall E words subject,
  words <> [] -> Forall (fun w => w <> [] /\ ~ In " "%char w) words ->
  (vtest_test E (ContainsWordsTest words) subject = Ok true <->
   exists x, subject = Some x /\ Forall (fun w => word_in w x) words).
Proof. exact words_test. Qed.
Print Assumptions C30_words_partial.

(** The constructor that the parser uses yields such words: the test for a text
    that has words looks for exactly these. *)
Theorem C30_constructed_partial : forall E text ws subject,
  runs_of " "%char text ws -> ws <> [] ->
  (vtest_test E (make_ContainsWordsTest text) subject = Ok true <->
   exists x, subject = Some x /\ Forall (fun w => word_in w x) ws).
Proof. exact make_words_test. Qed.
Print Assumptions C30_constructed_partial.

Theorem C30_words_exist : forall text, exists ws, runs_of " "%char text ws /\
  forall ws', runs_of " "%char text ws' -> ws = ws'.
Proof. exact runs_exist_unique. Qed.
Print Assumptions C30_words_exist.

(** For words with blanks the statement is false (missing in the theorems
    above): the search resumes behind a rejected occurrence. *)
Theorem C30_words_with_blanks_refuted : exists E w x,
  w <> [] /\ word_in w x /\ vtest_test E (ContainsWordsTest [w]) (Some x) = Ok false.
Proof.
  exists sample_engine, (s "a a"), (s "xa a a"). split; [discriminate|]. split; [|reflexivity].
  exists (s "xa "), []. split; [reflexivity|]. split; [right; exists (s "xa"); reflexivity|now left].
Qed.
Print Assumptions C30_words_with_blanks_refuted.

Example C30_case :
  runs_of " "%char (s " b  a ") [s "b"; s "a"] /\
  vtest_test sample_engine (make_ContainsWordsTest (s " b  a ")) (Some (s "a c b")) = Ok true /\
  vtest_test sample_engine (make_ContainsWordsTest (s " b  a ")) (Some (s "ab b")) = Ok false.
Proof.
  split; [|split; reflexivity].
  apply (runs_cons " "%char (s " ") (s "b") (s "  a ")); [repeat constructor|discriminate| |right; eexists; reflexivity|].
  { intros [H|[]]. discriminate. }
  apply (runs_cons " "%char (s "  ") (s "a") (s " ")); [repeat constructor|discriminate| |right; eexists; reflexivity|repeat constructor].
  intros [H|[]]. discriminate.
Qed.

(** C32. Collapsing leaves the words, separated by single blanks. The model of
    the in-place loop stays inside the buffer, otherwise it had no result. *)
Theorem C32_collapse : forall x ws, words_of x ws -> TrimAndCollapseWs_run x = Ok (join_words ws).
Proof. exact TrimAndCollapseWs_words. Qed.
Print Assumptions C32_collapse.

Theorem C32_words_exist : forall x, exists ws, words_of x ws.
Proof. exact words_exist. Qed.
Print Assumptions C32_words_exist.

Theorem C32_idempotent : forall x y, TrimAndCollapseWs_run x = Ok y -> TrimAndCollapseWs_run y = Ok y.
Proof. exact collapse_idempotent. Qed.
Print Assumptions C32_idempotent.

Example C32_case :
  words_of (s " a  bc ") [s "a"; s "bc"] /\ TrimAndCollapseWs_run (s " a  bc ") = Ok (s "a bc").
Proof.
  split; [|reflexivity].
  apply (words_cons (s " ") (s "a") (s "  bc ")); [repeat constructor|discriminate| | |].
  - repeat constructor; intros H; repeat (destruct H as [H|H]; [discriminate H|]); exact H.
  - right. eexists _, _. split; [reflexivity|]. now left.
  - apply (words_cons (s "  ") (s "bc") (s " ")); [repeat constructor|discriminate| | |repeat constructor].
    + repeat constructor; intros H; repeat (destruct H as [H|H]; [discriminate H|]); exact H.
    + right. eexists _, _. split; [reflexivity|]. now left.
Qed.

(** C36. A chain applies its pipes from left to right, *)
Theorem C36_chain : forall E p x y, pipe_pipe E p x = Ok y <-> piped E (pipes_of p) x y.
Proof. exact pipe_chain. Qed.
Print Assumptions C36_chain.

(** appending to a chain adds at its end, *)
Theorem C36_append_to_chain : forall p q, pipes_of (pipe_append p (Some q)) = pipes_of p ++ pipes_of q.
Proof. exact pipe_append_pipes. Qed.
Print Assumptions C36_append_to_chain.

(** trim removes the longest prefix and suffix made of the characters, *)
Theorem C36_trim : forall E chars x, exists y,
  transform_str E (TrimPipe chars) x = Ok y /\ trimmed chars x y /\
  forall y', trimmed chars x y' -> y' = y.
Proof. exact trim_pipe_unique. Qed.
Print Assumptions C36_trim.

(** the case pipes map the letters A-Z and a-z and nothing else, *)
Theorem C36_case : forall E (lower : bool) x, exists y,
  transform_str E (CasePipe lower) x = Ok y /\
  Forall2 (if lower then letter_mapped upper_letters lower_letters else letter_mapped lower_letters upper_letters) x y.
Proof. exact case_pipe. Qed.
Print Assumptions C36_case.

(** append and prepend add their text and filter yields what [filtered] says. *)
Theorem C36_append_prepend : forall E a b x y,
  piped E [AppendPipe a; PrependPipe b] x y <-> y = b ++ x ++ a.
Proof. exact append_prepend. Qed.
Print Assumptions C36_append_prepend.

Theorem C36_filter : forall E rx x y, transform_str E (RegexPipe rx) x = Ok y <-> filtered E rx x y.
Proof. exact regex_pipe. Qed.
Print Assumptions C36_filter.

Example C36_case_values :
  pipe_pipe sample_engine (Pipe (TrimPipe (s " ")) (Some (Pipe (CasePipe true) (Some (Pipe (AppendPipe (s "!")) None))))) (s " aBc ")
  = Ok (s "abc!") /\
  pipe_pipe sample_engine (Pipe (RegexPipe (mk_regex (s "b") false false)) None) (s "abc") = Ok (s "b") /\
  pipe_pipe sample_engine (Pipe (RegexPipe (mk_regex (s "x") false false)) None) (s "abc") = Ok [].
Proof. repeat split. Qed.
