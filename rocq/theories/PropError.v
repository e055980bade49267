(** C71: which error a text has. *)

From Coq Require Import Ascii String NArith ZArith Bool List Lia.
From Verif Require Import Samples Base StringUtil StringSpec Tags Dom NodeUtil Values Match Rule Parser Grammar GrammarSpec TextSpec ParserSpec
  SyntaxSpec SyntaxTree SyntaxProofs ErrorSpec ErrorExact.
Import ListNotations.

(** ParseHext throws exactly the errors that ErrorSpec describes: the first wrong
    regex, number, brace or closing tag; otherwise the first wrong character or
    the end of the text. *)
Theorem C71_errors : forall E x e, ParseHext E x = Throw e <-> rejected E x e.
Proof. exact errors_exact. Qed.
Print Assumptions C71_errors.

(** There is one error at most. *)
Theorem C71_one : forall E x e e', rejected E x e -> rejected E x e' -> e = e'.
Proof. exact rejected_once. Qed.
Print Assumptions C71_one.

(** The behaviour is undefined exactly if nothing else is wrong before a
    character outside of ASCII that must not be there. *)
Theorem C71_undefined_partial : forall E x b,
  ParseHext E x = UB b <-> b = BadCtypeArgument /\ (forall e, ~ complains E x e) /\ unnamed_character x.
Proof. exact undefined_exact. Qed.
Print Assumptions C71_undefined_partial.

(** There is no other outcome. *)
Theorem C71_outcomes : forall E x,
  (exists r, ParseHext E x = Ok r) \/ (exists e, rejected E x e) \/ ((forall e, ~ complains E x e) /\ unnamed_character x).
Proof. exact outcomes. Qed.
Print Assumptions C71_outcomes.

Definition plain_head (x : str) : head := mk_head [] x [] [] [].
Lemma plain_ok x : is_tag_name x -> head_ok (plain_head x).
Proof. intros H. split; [exact H|]. split; [constructor|]. split; [constructor|intros c []]. Qed.

(** The wrong closing tag of <My-Tag></b>% is reported, although the
    character after it is wrong, too. *)
Definition at_line_1 (column line marker : str) : str :=
  s "at line 1, char " ++ column ++ s ":" ++ [newline; newline] ++ s "1: " ++ line ++ [newline] ++ marker ++ s " here" ++ [newline].
Definition tags : str := s "<My-Tag></b>%".
Definition tags_error : exn :=
  SyntaxError (s "Unexpected closing tag '</b>', expected '</My-Tag>' " ++ at_line_1 (s "11") (s "<My-Tag></b") (s "           ^^^")).

Example C71_tag_case : complains sample_engine tags tags_error /\ ParseHext sample_engine tags = Throw tags_error.
Proof.
  split; [|vm_compute; reflexivity].
  assert (HN : ~ standard_tag (s "My-Tag")) by (intros H; apply (tag_enum_spec (s "My-Tag")) in H; now vm_compute in H).
  apply (complains_token _ _ [TOpen (plain_head (s "My-Tag")) false] [InElement (s "My-Tag")] (TClose (s "b"))
    (s "Unexpected closing tag '</" ++ s "b" ++ s ">'" ++ s ", expected '</" ++ s "My-Tag" ++ s ">'") 3).
  - repeat split.
  - apply (open_element [] [] (plain_head (s "My-Tag"))). constructor.
  - apply fault_close.
    + intros x l H. injection H as <- _. intros [H|[H _]]; [discriminate|now apply HN in H].
    + apply expects_close. split; [intros H; now apply HN in H|reflexivity].
  - exists [], (s ">%"), (s ">"). split; [|repeat split; reflexivity].
    constructor; [apply plain_ok; right; now apply name_by|]. constructor; [right; now apply name_by|constructor].
  - exists [], (s "<My-Tag></"), "b"%char. split; [reflexivity|]. split; [discriminate|]. split.
    + split; [reflexivity|]. split; [|now left]. intros H. repeat (destruct H as [H|H]; [discriminate|]). destruct H.
    + exists (s ">%"). split; [reflexivity|].
      exists (s "at line 1, char 11:" ++ [newline; newline]), [], (s "1"), (s "           ^^^ here" ++ [newline]).
      split; [reflexivity|]. split; [right; split; [discriminate|]; exists (s "11"); split; [|reflexivity]|].
      * apply (decimal_more 1 1 (s "1")); [reflexivity|reflexivity|]. now apply (decimal_digit 1).
      * split; [now apply (decimal_digit 1)|]. split; [constructor|]. split.
        -- intros [H|[c [H Hc]]]; [discriminate|]. exfalso. apply Hc. vm_compute in H. repeat (destruct H as [<-|H]; [reflexivity|]). destruct H.
        -- intros _ _. exists 11, 3. repeat split.
Qed.

(** Flags of an earlier regex of the same pattern are in force. *)
Definition strict_engine : engine :=
  mk_engine (fun rx => if rx_icase rx && rx_collate rx then Some (s "flags") else None) (eng_search sample_engine) (eng_replace sample_engine).
Definition regexes : str := s "<a x:filter(/b/i):filter(/d/c):e/>".

Example C71_other_cases :
  ParseHext strict_engine regexes =
    Throw (SyntaxError (s "In regular expression " ++ at_line_1 (s "29") (s "<a x:filter(/b/i):filter(/d/c") (s "                            ^^^^") ++ [newline] ++ s "Error: flags")) /\
  ParseHext sample_engine (s "<a:nth-child(99999999999)</a>") = Throw StdOutOfRange /\
  ParseHext sample_engine (s "<?a><DIV>") =
    Throw (SyntaxError (s "Missing closing tag '</div>' at end of input:" ++ [newline; newline] ++ s "1: <?a><DIV>" ++ [newline])) /\
  ParseHext sample_engine (s "<a>{<my-b>") = Throw (SyntaxError (s "Unclosed nested rule " ++ at_line_1 (s "10") (s "<a>{<my-b>") (s "            ^"))) /\
  ParseHext sample_engine (s "<a b=$/>") = Throw (SyntaxError (s "Unexpected character '$' " ++ at_line_1 (s "6") (s "<a b=$") (s "        ^"))).
Proof. repeat split; vm_compute; reflexivity. Qed.

(** A text with a character that has no name. *)
Example C71_undefined_case : unnamed_character ("200"%char :: s "<a/>") /\ ParseHext sample_engine ("200"%char :: s "<a/>") = UB BadCtypeArgument.
Proof.
  assert (H : ParseHext sample_engine ("200"%char :: s "<a/>") = UB BadCtypeArgument) by (vm_compute; reflexivity).
  split; [apply (C71_undefined_partial sample_engine _ BadCtypeArgument), H|exact H].
Qed.

(** The message for a closing brace does not tell what is open. Empty braces are
    reported where there are none, *)
Theorem C71_empty_refuted : ~ (forall E x m,
  ParseHext E x = Throw (SyntaxError (s "Nested rules cannot be empty" ++ m)) -> In "{"%char x).
Proof.
  intros H. specialize (H sample_engine (s "}") (s " " ++ at_line_1 (s "1") (s "}") (s "   ^"))).
  destruct H as [H|[]]; [vm_compute; reflexivity|discriminate].
Qed.
Print Assumptions C71_empty_refuted.

(** and a brace is said to be missing where there is one. *)
Theorem C71_open_refuted : ~ (forall E us l m, Forall token_ok us -> leaves_open us l ->
  ParseHext E (tokens_text us ++ s "}") = Throw (SyntaxError (s "Closing nested rule without open" ++ m)) ->
  forall b, ~ In (InBraces b) l).
Proof.
  intros H. set (us := [TOpen (plain_head (s "a")) false; TBegin; TOpen (plain_head (s "b")) false]).
  apply (H sample_engine us [InElement (s "b"); InBraces false; InElement (s "a")] (s " " ++ at_line_1 (s "8") (s "<a>{<b>}") (s "          ^"))) with (b := false).
  - constructor; [apply plain_ok; right; now apply name_by|]. constructor; [exact I|]. constructor; [apply plain_ok; right; now apply name_by|constructor].
  - apply (open_element [TOpen (plain_head (s "a")) false; TBegin] [InBraces false; InElement (s "a")] (plain_head (s "b"))).
    apply (open_begin [TOpen (plain_head (s "a")) false]). apply (open_element [] [] (plain_head (s "a"))). constructor.
  - vm_compute. reflexivity.
  - right. now left.
Qed.
Print Assumptions C71_open_refuted.
