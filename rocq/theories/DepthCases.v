(** Documents and texts that need many frames (C59). *)

From Coq Require Import Ascii String NArith ZArith Bool List Lia.
From Verif Require Import Samples Base StringUtil Tags Dom NodeUtil Values Match Rule RuleMatching Parser
  ExtractSpec ExtractMain SyntaxSpec SyntaxProofs ExpressProofs Depth DepthSpec DepthProofs.
Import ListNotations.

Lemma divs_width n : width_at_most 1 (divs n) = true.
Proof. induction n as [|n IH]; [reflexivity|]. cbn [divs width_at_most length Nat.leb forallb andb]. now rewrite IH. Qed.

Lemma deep_page_small n : small_document 1 (deep_page n).
Proof.
  change 1%Z with (Z.of_nat 1). apply width_small; [|vm_compute; discriminate].
  unfold deep_page. cbn [width_at_most length Nat.leb forallb andb]. now rewrite divs_width.
Qed.

Lemma deep_page_overflows frames E R :
  engine_total E -> rule_calls_return R -> rule_params_safe 1 R ->
  exists D res f0, extract_yields E R D (Some [0]) 0 (Ok res) /\
    forall f, f0 <= f -> extract_d frames f E R D (Some [0]) 0 = None.
Proof.
  intros HE HR HP. exists (deep_page frames).
  assert (Ht : nget (deep_page frames) [0] = Some (divs frames)) by reflexivity.
  destruct (extract_returns E R (deep_page frames) 0 [] (divs frames) 0 Ht HE HR) as (o & Ho & Hor).
  { exists 1%Z. split; [apply deep_page_small|exact HP]. }
  destruct Hor as [[res ->]| ->].
  - exists res. destruct (extract_overflows E R (deep_page frames) 0 [] (divs frames) 0 res frames Ht Ho) as [f0 Hf].
    + rewrite divs_height. lia.
    + exists f0. auto.
  - destruct (extract_limit E R (deep_page frames) (Some [0]) 0 _ _ Ho Ho) as [H _]. now elim H.
Qed.

(** ** Siblings *)

Definition one_a : head := mk_head [] (s "a") [] [] [].
Definition a_rule (n : option rule) : rule := mk_rule None n [] [] [] TAG_A false false None.
Fixpoint a_rules (n : nat) : option rule := match n with O => None | S n' => Some (a_rule (a_rules n')) end.

Lemma each_repeat E n fl : each (piece_meaning (regex_meaning E)) (repeat (Closed one_a) n) fl =
  Some (repeat [Element (a_rule None)] n, fl).
Proof.
  induction n as [|n IH]; [reflexivity|]. cbn [repeat each]. unfold bind at 1.
  change (piece_meaning (regex_meaning E) (Closed one_a) fl) with (Some ([Element (a_rule None)], fl)).
  cbv beta iota. unfold bind. rewrite IH. reflexivity.
Qed.

Lemma row_repeat n : row_of_rules (elements (concat (repeat [Element (a_rule None)] n))) = a_rules n.
Proof. induction n as [|n IH]; [reflexivity|]. cbn [repeat concat app elements flat_map row_of_rules a_rules]. unfold elements in IH. now rewrite IH. Qed.

Lemma many_siblings_spelled n : spells (repeat (Closed one_a) n) (many_siblings n).
Proof.
  split.
  - apply Forall_forall. intros p Hp. apply repeat_spec in Hp. subst p. cbn [piece_ok].
    split; [right; now apply name_by|]. split; [constructor|]. split; [constructor|]. intros c [].
  - unfold many_siblings. induction n as [|n IH]; [reflexivity|]. cbn [repeat flat_map concat]. now rewrite IH.
Qed.

Lemma a_rules_chain n r : a_rules n = Some r -> rule_chain r = n /\ rule_depth r = 1.
Proof.
  revert r. induction n as [|n IH]; intros r H; [discriminate|]. injection H as <-. cbn [a_rule rule_chain rule_depth map].
  destruct (a_rules n) as [r'|] eqn:En.
  - destruct (IH r' eq_refl) as [-> ->]. split; cbn [largest fold_right]; lia.
  - destruct n; [split; reflexivity|discriminate].
Qed.

Lemma siblings_overflow frames E : exists x r,
  length x = 4 * S frames /\ ParseHext E x = Ok r /\ rule_depth r = 1 /\
  rule_copy_d frames r = None /\ rule_destroy_d frames r = false.
Proof.
  exists (many_siblings (S frames)), (a_rule (a_rules frames)).
  destruct (a_rules_chain (S frames) (a_rule (a_rules frames)) eq_refl) as [H1 H2].
  split; [|split; [|split; [|split]]].
  - unfold many_siblings. generalize (S frames). intros n. induction n as [|n IH]; [reflexivity|].
    cbn [repeat concat]. rewrite app_length, IH. cbn [length s list_ascii_of_string]. lia.
  - apply (parse_given_pieces E (repeat (Closed one_a) (S frames))); [apply many_siblings_spelled|].
    unfold text_meaning. rewrite each_repeat, row_repeat. reflexivity.
  - exact H2.
  - rewrite copy_frames, H1. destruct (Nat.ltb_spec frames (S frames)); [reflexivity|lia].
  - rewrite destroy_frames, H1. destruct (Nat.leb_spec (S frames) frames); [lia|reflexivity].
Qed.
