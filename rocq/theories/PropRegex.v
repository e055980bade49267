(** C95: what a rule needs of the regex library. *)

From Coq Require Import Ascii String NArith ZArith Bool List.
From Verif Require Import Base StringUtil Tags Dom NodeUtil Values Match Rule RuleMatching ExtractSpec Samples Parser RegexSpec RegexProofs RegexParse.
Import ListNotations.

(** C95. What an extraction does is the same with any two libraries that agree
    on the regexes of the rule, whatever the outcome is. *)
Theorem C95_extract : forall E E' R, agree E E' (rule_uses R) ->
  forall D p limit o, extract_yields E R D p limit o <-> extract_yields E' R D p limit o.
Proof. exact extract_same. Qed.
Print Assumptions C95_extract.

(** No regex error leaves an extraction if the library never gives up on the
    regexes of the rule. *)
Theorem C95_answers : forall E R D i pp t limit, nget D (i :: pp) = Some t -> answers E (rule_uses R) ->
  ~ extract_yields E R D (Some (i :: pp)) limit (Throw RegexRuntimeError).
Proof. exact regexes_answer. Qed.
Print Assumptions C95_answers.

(** All regexes of a rule that ParseHext returns were accepted by the library. *)
Theorem C95_compiled : forall E x R, ParseHext E x = Ok R -> accepts E (rule_uses R).
Proof. exact parse_accepts. Qed.
Print Assumptions C95_compiled.

(** With another library ParseHext returns the same rule for the same text if
    and only if that library accepts the regexes of the rule. *)
Theorem C95_parse : forall E E' x R, ParseHext E x = Ok R ->
  ParseHext E' x = Ok R <-> accepts E' (rule_uses R).
Proof. exact parse_same. Qed.
Print Assumptions C95_parse.

(** A library that only knows the regexes /1/ and /2/. *)
Definition known (rx : regex) : bool := str_eqb (rx_source rx) (s "1") || str_eqb (rx_source rx) (s "2").
Definition poor_engine : engine :=
  mk_engine (fun rx => if known rx then None else Some (s "unknown"))
            (fun rx x => if known rx then eng_search sample_engine rx x else None)
            (fun rx x f => if known rx then eng_replace sample_engine rx x f else None).
(** <li id=~/1/ id:filter(/2/):i @text:replace(/1/,"x"):t /> *)
Definition regex_text : str := s "<li id=~/1/ id:filter(/2/):i @text:replace(/1/,""x""):t />".
Definition regex_rule (flt : str) : rule :=
  mk_rule None None []
    [Some (AttributeMatch (s "id") (Some (RegexTest (mk_regex (s "1") false false)))); Some (AttributeMatch (s "id") None)]
    [Some (AttributeCapture (s "id") (s "i") (Some (Pipe (RegexPipe (mk_regex flt false false)) None)));
     Some (FunctionCapture (Some TextBuiltin) (s "t") (Some (Pipe (RegexReplacePipe (mk_regex (s "1") false false) (s "x")) None)))]
    TAG_LI false false None.
Definition regex_page : node := page [el_id TAG_LI (s "12") [NText (s "one")]; el_id TAG_LI (s "3") []].

Example C95_extract_case :
  rule_uses (regex_rule (s "2")) =
    [Searches (mk_regex (s "1") false false); Searches (mk_regex (s "2") false false); Replaces (mk_regex (s "1") false false) (s "x")] /\
  agree sample_engine poor_engine (rule_uses (regex_rule (s "2"))) /\
  (exists rx x, eng_search sample_engine rx x <> eng_search poor_engine rx x) /\
  extract_yields poor_engine (regex_rule (s "2")) regex_page (Some [0]) 0 (Ok [[(s "i", s "2"); (s "t", s "one")]]).
Proof.
  split; [reflexivity|]. split; [|split].
  - split; intros rx; [|intros f]; intros [H|[H|[H|[]]]] x; try discriminate H; injection H as <-; try subst f; reflexivity.
  - exists (mk_regex (s "3") false false), (s "3"). discriminate.
  - run_extract.
Qed.

(** The hypothesis is needed: this library gives up on the regex /3/. *)
Example C95_answers_case :
  answers poor_engine (rule_uses (regex_rule (s "2"))) /\ ~ engine_total poor_engine /\
  extract_yields poor_engine (regex_rule (s "3")) regex_page (Some [0]) 0 (Throw RegexRuntimeError).
Proof.
  split; [|split].
  - split; intros rx; [|intros f]; intros [H|[H|[H|[]]]] x; try discriminate H; injection H as <-; discriminate.
  - intros [H _]. now apply (H (mk_regex (s "3") false false) (s "3")).
  - run_extract.
Qed.

Example C95_parse_case :
  ParseHext sample_engine regex_text = Ok (regex_rule (s "2")) /\
  ParseHext poor_engine regex_text = Ok (regex_rule (s "2")) /\ accepts poor_engine (rule_uses (regex_rule (s "2"))) /\
  ~ accepts poor_engine (rule_uses (regex_rule (s "3"))).
Proof.
  split; [vm_compute; reflexivity|]. split; [vm_compute; reflexivity|]. split.
  - intros u [<-|[<-|[<-|[]]]]; reflexivity.
  - intros H. specialize (H _ (or_intror (or_introl eq_refl))). discriminate H.
Qed.
