(** C96: errors of the regex library. *)

From Coq Require Import Ascii String NArith ZArith Bool List.
From Verif Require Import Base StringUtil Tags Dom NodeUtil Values Match Rule RuleMatching ExtractSpec Samples RegexSpec ExtendSpec ExtendProofs.
Import ListNotations.

(** C96. A library that answers more often, and otherwise the same, changes
    nothing but extractions that ended with a regex error: results, the error of
    the search limit and all other outcomes stay. *)
Theorem C96_extends : forall E E' R, extends E E' (rule_uses R) ->
  forall D p limit o, extract_yields E R D p limit o -> o <> Throw RegexRuntimeError -> extract_yields E' R D p limit o.
Proof. exact extends_same. Qed.
Print Assumptions C96_extends.

(** If a regex error leaves an extraction, there is a regex of the rule and a
    text for which the library gives up. *)
Theorem C96_cause : forall E R D i pp t limit, nget D (i :: pp) = Some t ->
  extract_yields E R D (Some (i :: pp)) limit (Throw RegexRuntimeError) -> gives_up E (rule_uses R).
Proof. exact error_cause. Qed.
Print Assumptions C96_cause.

(** A library that only searches texts of up to two characters, and one for up
    to three. *)
Definition short_engine (k : nat) : engine :=
  mk_engine (fun _ => None)
            (fun rx x => if Nat.leb (length x) k then eng_search sample_engine rx x else None)
            (fun rx x f => if Nat.leb (length x) k then Some f else None).
(** <li id:filter(/1/):i/> *)
Definition filter_rule : rule :=
  mk_rule None None [] []
    [Some (AttributeCapture (s "id") (s "i") (Some (Pipe (RegexPipe (mk_regex (s "1") false false)) None)))] TAG_LI false false None.
Definition short_page : node := page [el_id TAG_LI (s "12") []; el_id TAG_LI (s "1") []].
Definition long_page : node := page [el_id TAG_LI (s "12") []; el_id TAG_LI (s "123") []].

Example C96_extends_case :
  extends (short_engine 2) (short_engine 3) (rule_uses filter_rule) /\
  extract_yields (short_engine 2) filter_rule short_page (Some [0]) 0 (Ok [[(s "i", s "1")]; [(s "i", s "1")]]) /\
  extract_yields (short_engine 2) filter_rule short_page (Some [0]) 1 (Throw MaxSearchError).
Proof.
  split; [|split; run_extract]. split; intros rx; [|intros f]; intros [H|[]]; [|discriminate H]. injection H as <-. intros x a.
  cbn [short_engine eng_search]. destruct (Nat.leb (length x) 2) eqn:Hl; [|discriminate].
  assert (Nat.leb (length x) 3 = true) as -> by (apply PeanoNat.Nat.leb_le; apply PeanoNat.Nat.leb_le in Hl; now constructor). auto.
Qed.

Example C96_cause_case :
  extract_yields (short_engine 2) filter_rule long_page (Some [0]) 0 (Throw RegexRuntimeError) /\
  extract_yields (short_engine 3) filter_rule long_page (Some [0]) 0 (Ok [[(s "i", s "1")]; [(s "i", s "1")]]) /\
  gives_up (short_engine 2) (rule_uses filter_rule).
Proof.
  split; [run_extract|]. split; [run_extract|]. apply (up_search _ _ (mk_regex (s "1") false false) (s "123")); [now left|reflexivity].
Qed.
