(** C98: what the regex library is asked. *)

From Coq Require Import Ascii String NArith ZArith Bool List.
From Verif Require Import Base StringUtil Tags Dom NodeUtil Values Match Rule RuleMatching StringSpec NodeSpec NodeProofs MeaningSpec MeaningProofs
  ExtractSpec Samples AskSpec AskProofs AskCase.
Import ListNotations.

(** C98. Only the answers to the questions that a rule asks about the nodes of
    the document matter: libraries that give the same ones lead to the same
    outcome. *)
Theorem C98_same : forall E E' R D, (forall q, asked E R D q -> same_answer E E' q) ->
  forall p limit o, extract_yields E R D p limit o <-> extract_yields E' R D p limit o.
Proof. exact asked_same. Qed.
Print Assumptions C98_same.

(** A library that also answers some of those that the other gives up on changes
    nothing but extractions that ended with a regex error. *)
Theorem C98_extends : forall E E' R D, (forall q, asked E R D q -> same_answer E E' q \/ no_answer E q) ->
  forall p limit o, extract_yields E R D p limit o -> o <> Throw RegexRuntimeError -> extract_yields E' R D p limit o.
Proof. exact asked_extends. Qed.
Print Assumptions C98_extends.

(** If a regex error leaves an extraction, the library gives up on such a
    question. *)
Theorem C98_cause : forall E R D i pp t limit, nget D (i :: pp) = Some t ->
  extract_yields E R D (Some (i :: pp)) limit (Throw RegexRuntimeError) -> exists q, asked E R D q /\ no_answer E q.
Proof. exact asked_cause. Qed.
Print Assumptions C98_cause.

(** This meets the hypotheses of C98_extends too. *)
Example C98_same_case :
  (forall q, asked two_engine trim_rule trim_page q -> same_answer two_engine sample_engine q) /\
  ~ same_answer two_engine sample_engine (Find one (s "  12 ")) /\
  asked two_engine trim_rule trim_page (Find one (s "12")) /\
  extract_yields two_engine trim_rule trim_page (Some [0]) 0 (Ok [[(s "i", s "1")]; [(s "i", s "1")]]).
Proof.
  split; [|split; [|split]].
  - intros q Hq. destruct (trim_asks _ _ Hq) as [-> | ->]; reflexivity.
  - discriminate.
  - eapply (asked_capture _ _ _ [] trim_rule [0; 1; 0]); [reflexivity|now left|].
    eapply (ask_attribute_value _ _ _ _ _ _ _ _ _ (mk_attr NsNone (s "id") (Some (s "  12 ")))); [reflexivity| |reflexivity|].
    + apply get_attribute_some. vm_compute. reflexivity.
    + eexists _, [TrimPipe (s " ")], (RegexPipe one), [], (s "12"). split; [reflexivity|]. split; [reflexivity|]. split; [|exact (ask_filter (s "12") one)].
      econstructor; [apply turned_iff; vm_compute; reflexivity|constructor].
  - run_extract.
Qed.

Example C98_cause_case :
  extract_yields two_engine trim_rule wide_page (Some [0]) 0 (Throw RegexRuntimeError) /\
  extract_yields sample_engine trim_rule wide_page (Some [0]) 0 (Ok [[(s "i", s "1")]; [(s "i", s "1")]]).
Proof. split; run_extract. Qed.
