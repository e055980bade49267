(** C94: what a reader sees of an error message. *)

From Coq Require Import Ascii String NArith ZArith Bool List Lia.
From Verif Require Import Samples Convert Bindings Base StringUtil StringSpec Tags Dom NodeUtil Values Match Rule Parser Grammar GrammarSpec TextSpec
  ParserSpec SyntaxSpec SyntaxProofs ErrorSpec VisibleSpec VisibleProofs.
Import ListNotations.

(** C94. what() ends at the first NUL byte of a message. The first line of the
    message is always before it, and tells what is wrong and where. *)
Theorem C94_headline : forall E x m, ParseHext E x = Throw (SyntaxError m) ->
  exists line rest shown, headline line /\ m = line ++ [newline] ++ rest /\ c_str m = line ++ [newline] ++ shown.
Proof. exact headline_visible. Qed.
Print Assumptions C94_headline.

(** A text without NUL bytes gets a complete message. *)
Theorem C94_complete : forall E x m, plain_reasons E -> ~ In NUL x -> ParseHext E x = Throw (SyntaxError m) -> c_str m = m.
Proof. exact visible_without_nul. Qed.
Print Assumptions C94_complete.

(** So messages are complete in Node, which hands over C strings (and in htmlext,
    for the same reason). *)
Theorem C94_node : forall E x rest k shown, plain_reasons E ->
  node_new_rule E (JsString x :: rest) = Ok (Raises k shown) ->
  exists m, ParseHext E (c_str x) = Throw (SyntaxError m) /\ shown = s "Hext syntax error: " ++ m.
Proof. exact node_message_complete. Qed.
Print Assumptions C94_node.

(** Not so in general. The reason why a regex is wrong, which is the end of the
    message, is lost if there is a NUL byte in or before the regex: the premises
    are those of ErrorSpec for wrong regexes, and what is visible does not depend
    on the reason. *)
Theorem C94_reason_refuted : forall E x us l t ps r ps' reason loc,
  acceptable E us -> leaves_open us l -> token_parts t = ps ++ PRegex r :: ps' ->
  let before := all_parts us ++ ps in
  fits E no_flags before -> eng_compile E (regex_of (fold_left flags_then before no_flags) r) = Some reason ->
  let u := parts_text before ++ regex_text r in
  reads x us t u -> points_at x u (length (regex_text r)) loc ->
  In NUL u ->
  exists m, ParseHext E x = Throw (SyntaxError m) /\ c_str m = c_str (s "In regular expression " ++ loc).
Proof. exact reason_hidden. Qed.
Print Assumptions C94_reason_refuted.

(** An engine that accepts no regex. *)
Definition refusing : engine := mk_engine (fun _ => Some (s "Unmatched (")) (eng_search sample_engine) (eng_replace sample_engine).
Definition bad_regex : regex_lit := mk_rl "/" (NUL :: s "(") [].
Definition bad_head : head := mk_head [] (s "a") [Is (TrTypeMatches bad_regex)] [] [].
Definition bad_text : str := s "<a:type-matches(/" ++ NUL :: s "(/)/>".
Definition bad_location : str :=
  s "at line 1, char 20:" ++ [newline; newline] ++ s "1: <a:type-matches(/" ++ NUL :: s "(/" ++ [newline] ++
  s "                   ^^^^ here" ++ [newline].

Example C94_reason_case :
  let ps := [PText (s "<a"); PText (s ":type-matches(")] in
  leaves_open [] [] /\ token_parts (TOpen bad_head true) = ps ++ [PRegex bad_regex; PText (s ")"); PText []; PText (s "/>")] /\
  eng_compile refusing (regex_of no_flags bad_regex) = Some (s "Unmatched (") /\
  reads bad_text [] (TOpen bad_head true) (parts_text ps ++ regex_text bad_regex) /\
  points_at bad_text (parts_text ps ++ regex_text bad_regex) 4 bad_location /\
  In NUL (parts_text ps ++ regex_text bad_regex) /\
  ParseHext refusing bad_text =
    Throw (SyntaxError (s "In regular expression " ++ bad_location ++ [newline] ++ s "Error: Unmatched (")) /\
  swig_new_rule refusing bad_text =
    Ok (Raises ValueError (s "In regular expression at line 1, char 20:" ++ [newline; newline] ++ s "1: <a:type-matches(/")).
Proof.
  split; [constructor|]. split; [reflexivity|]. split; [reflexivity|]. split; [|split; [|split; [|split; vm_compute; reflexivity]]].
  - exists [], (s ")/>"), (s ")/>"). split; [|repeat split; reflexivity]. constructor; [|constructor].
    split; [right; now apply name_by|]. split; [|split; [constructor|intros c []]]. constructor; [|constructor].
    split; [now left|]. now apply enclosed_by.
  - exists [], (s "<a:type-matches(/" ++ NUL :: s "("), "/"%char. split; [reflexivity|]. split; [discriminate|]. split.
    + split; [reflexivity|]. split; [|now left]. intros H. repeat (destruct H as [H|H]; [discriminate|]). destruct H.
    + exists (s ")/>"). split; [reflexivity|].
      exists (s "at line 1, char 20:" ++ [newline; newline]), [], (s "1"), (s "                   ^^^^ here" ++ [newline]).
      split; [reflexivity|]. split; [right; split; [discriminate|]; exists (s "20"); split; [|reflexivity]|].
      * apply (decimal_more 2 0 (s "2")); [reflexivity|reflexivity|]. now apply (decimal_digit 2).
      * split; [now apply (decimal_digit 1)|]. split; [constructor|]. split.
        -- intros [H|[c [H Hc]]]; [discriminate|]. exfalso. apply Hc. vm_compute in H. repeat (destruct H as [<-|H]; [reflexivity|]). destruct H.
        -- intros _ _. exists 19, 4. repeat split.
  - vm_compute. repeat (first [left; reflexivity|right]).
Qed.

(** The same without the NUL byte. *)
Example C94_complete_case :
  plain_reasons refusing /\ ~ In NUL (s "<a:type-matches(/(/)/>") /\
  exists m, ParseHext refusing (s "<a:type-matches(/(/)/>") = Throw (SyntaxError m) /\
    node_new_rule refusing [JsString (s "<a:type-matches(/(/)/>")] = Ok (Raises PlainError (s "Hext syntax error: " ++ m)) /\
    m = s "In regular expression at line 1, char 19:" ++ [newline; newline] ++ s "1: <a:type-matches(/(/" ++ [newline] ++
        s "                   ^^^ here" ++ [newline; newline] ++ s "Error: Unmatched (".
Proof.
  split; [intros rx reason H; injection H as <-|split].
  - intros H. repeat (destruct H as [H|H]; [discriminate|]). destruct H.
  - intros H. repeat (destruct H as [H|H]; [discriminate|]). destruct H.
  - eexists. split; [vm_compute; reflexivity|]. split; vm_compute; reflexivity.
Qed.
