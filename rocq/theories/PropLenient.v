(** C97: what the regex library can do to the parser. *)

From Coq Require Import Ascii String NArith ZArith Bool List.
From Verif Require Import Base StringUtil Tags Dom NodeUtil Values Match Rule Parser RegexSpec LenientSpec LenientProofs.
Import ListNotations.

(** C97. With any library ParseHext does what it does with a library that
    accepts everything, or reports a regex that the library rejects, with the
    reason that it gives. *)
Theorem C97_errors : forall E x,
  ParseHext E x = ParseHext lenient x \/ exists rx e, regex_error E rx e /\ ParseHext E x = Throw e.
Proof. exact only_errors. Qed.
Print Assumptions C97_errors.

(** If a text has a rule with one library, it has the same rule with any other,
    or one of the regexes of the rule is reported. *)
Theorem C97_rule : forall E E' x R, ParseHext E x = Ok R ->
  ParseHext E' x = Ok R \/ exists u e, In u (rule_uses R) /\ regex_error E' (use_regex u) e /\ ParseHext E' x = Throw e.
Proof. exact rule_or_error. Qed.
Print Assumptions C97_rule.

(** A text does not have different rules. *)
Theorem C97_one : forall E E' x R R', ParseHext E x = Ok R -> ParseHext E' x = Ok R' -> R = R'.
Proof. exact one_rule. Qed.
Print Assumptions C97_one.

(** A library without /b/. *)
Definition without_b : engine :=
  mk_engine (fun rx => if str_eqb (rx_source rx) (s "b") then Some (s "no b") else None) (eng_search lenient) (eng_replace lenient).

(** The rule of the first text is the same. In the second text the regex /b/ is
    reported, and the wrong closing tag behind it is not; in the third text the
    closing tag comes first. *)
Example C97_case :
  (exists R, ParseHext lenient (s "<a @text=~/x/i/>") = Ok R /\ ParseHext without_b (s "<a @text=~/x/i/>") = Ok R /\
     rule_uses R = [Searches (mk_regex (s "x") true false)]) /\
  (exists m e, ParseHext lenient (s "<a @text=~/b/></i>") = Throw (SyntaxError m) /\
     regex_error without_b (mk_regex (s "b") false false) e /\ ParseHext without_b (s "<a @text=~/b/></i>") = Throw e) /\
  (exists m, ParseHext lenient (s "<a></i><b @text=~/b/>") = Throw (SyntaxError m) /\
     ParseHext without_b (s "<a></i><b @text=~/b/>") = Throw (SyntaxError m)).
Proof.
  split; [eexists; split; [vm_compute; reflexivity|split; vm_compute; reflexivity]|]. split.
  - set (e := SyntaxError (s "In regular expression " ++ (s "at line 1, char 13:" ++ ["010"%char; "010"%char] ++ s "1: <a @text=~/b/" ++
      ["010"%char] ++ s "             ^^^ here" ++ ["010"%char]) ++ ["010"%char] ++ s "Error: " ++ s "no b")).
    assert (H : ParseHext without_b (s "<a @text=~/b/></i>") = Throw e) by (vm_compute; reflexivity).
    eexists _, e. split; [vm_compute; reflexivity|]. split; [|exact H]. eexists _, _. split; [reflexivity|]. unfold e. reflexivity.
  - eexists. split; vm_compute; reflexivity.
Qed.
