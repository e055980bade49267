(** C60: the values that a text takes from a document are those that the
    description of the language (SyntaxSpec.v, MatchSpec.v, MeaningSpec.v)
    gives for it. *)

From Coq Require Import Ascii String NArith ZArith Bool List Lia.
From Verif Require Import Base StringUtil Tags Dom NodeUtil Values Match Rule RuleMatching Samples Parser SyntaxSpec ExtractSpec
  MeaningSpec MeaningProofs MeaningMain MeaningCases.
Import ListNotations.

(** A builtin function gives exactly the described text. *)
Theorem C60_function : forall D p f x, (exists n, nget D p = Some n) ->
  (function_gives D p f x <-> call_capture_function f D p = Ok x).
Proof. exact function_gives_iff. Qed.
Print Assumptions C60_function.

(** A test whose evaluation ends says whether its description holds. *)
Theorem C60_test : forall E t subject b, test_plain t ->
  vtest_test E t subject = Ok b -> (b = true <-> test_holds E t subject).
Proof. exact test_holds_iff. Qed.
Print Assumptions C60_test.

(** A condition likewise. *)
Theorem C60_condition : forall E D p n, nget D p = Some n ->
  (Z.of_nat (length (children_of n)) < UINT_MOD)%Z /\
  (forall t orig attrs cs, n = NElement t orig attrs cs -> (Z.of_nat (length attrs) < UINT_MOD)%Z) ->
  forall m b, condition_plain m -> mtch_matches E D m p = Ok b -> (b = true <-> holds E D p m).
Proof. exact holds_iff. Qed.
Print Assumptions C60_condition.

(** A chain of pipes yields exactly the described value. *)
Theorem C60_pipe : forall E q x y, through_pipe E q x y <-> apply_pipe E q x = Ok y.
Proof. exact through_pipe_iff. Qed.
Print Assumptions C60_pipe.

(** A capture likewise. *)
Theorem C60_capture : forall E D p n, nget D p = Some n ->
  forall c o, takes E D p c o <-> capture_capture E D c p = Ok o.
Proof. exact takes_iff. Qed.
Print Assumptions C60_capture.

(** A search without limit returns exactly the described result. *)
Theorem C60_extract : forall E R D, engine_total E -> rule_calls_return R ->
  (exists size, small_document size D /\ rule_params_safe size R) -> counts_fit D -> plain_rules R ->
  forall i pp t res, nget D (i :: pp) = Some t ->
  (extract_yields E R D (Some (i :: pp)) 0 (Ok res) <-> means E R D i pp res).
Proof. exact extract_means. Qed.
Print Assumptions C60_extract.

(** There is exactly one. *)
Theorem C60_defined : forall E R D, engine_total E -> rule_calls_return R ->
  (exists size, small_document size D /\ rule_params_safe size R) -> counts_fit D -> plain_rules R ->
  forall i pp t, nget D (i :: pp) = Some t ->
  exists res, means E R D i pp res /\ forall res', means E R D i pp res' -> res' = res.
Proof. exact means_exists. Qed.
Print Assumptions C60_defined.

(** From the text to the values. *)
Theorem C60_program : forall E x D i pp t res, nget D (i :: pp) = Some t -> engine_total E -> counts_fit D ->
  (exists size, small_document size D /\ forall R, denotes E x R -> rule_params_safe size R) ->
  ((exists R, ParseHext E x = Ok R /\ extract_yields E R D (Some (i :: pp)) 0 (Ok res)) <->
   (exists R, denotes E x R /\ means E R D i pp res)).
Proof. exact program_means. Qed.
Print Assumptions C60_program.

(** The case: a snippet with a negated condition, words, a regex, two captures
    and pipes, on a page with three links. *)
Example C60_case :
  nget menu_page [0] <> None /\ engine_total sample_engine /\ counts_fit menu_page /\
  (exists size, small_document size menu_page /\ forall R, denotes sample_engine menu_snippet R -> rule_params_safe size R).
Proof. exact menu_conditions. Qed.

Example C60_case_means :
  exists R, denotes sample_engine menu_snippet R /\ means sample_engine R menu_page 0 [] menu_result.
Proof. exact menu_means. Qed.
