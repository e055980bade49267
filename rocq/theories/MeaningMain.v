(** extract computes the meaning of a rule, and a snippet's meaning is that of
    its rule (C60). *)

From Coq Require Import Ascii String Arith NArith ZArith Bool List Lia Permutation.
From Verif Require Import Base StringUtil Tags Dom NodeUtil Values Match Rule RuleMatching RuleProofs StringSpec ValueSpec NodeSpec
  TextSpec ValueProofs NodeProofs MatchSpec ExtractSpec LocalProofs ExtractProofs SpecUnique ResultProofs ExtractMain Samples SyntaxSpec Parser
  SyntaxTree ExpressSpec ParsedProofs MeaningSpec MeaningProofs SpecExt.
Import ListNotations.

Section Main.
Variable E : engine.
Variable R : rule.
Variable D : node.
Hypothesis HE : engine_total E.
Hypothesis HR : rule_calls_return R.
Hypothesis HP : exists size, small_document size D /\ rule_params_safe size R.
Hypothesis HF : counts_fit D.
Hypothesis HN : plain_rules R.

Lemma rule_answers r p n : rule_of R r -> nget D p = Some n -> exists b, Rule_matches E D r p = Ok b.
Proof.
  intros Hr Hn. pose proof (Rule_matches_explained E D R r p n Hr Hn) as H. destruct (Rule_matches E D r p) as [b|e|u|]; [eauto| | |].
  - destruct e; simpl in H; contradiction.
  - destruct u; simpl in H; try contradiction. destruct HP as [size [H1 H2]]. now destruct (H size H1).
  - simpl in H. contradiction.
Qed.

Lemma satisfies_meets r p n : rule_of R r -> nget D p = Some n -> (node_satisfies E D r p <-> meets E D p r).
Proof.
  intros Hr Hn. destruct (rule_answers r p n Hr Hn) as [b Hb]. destruct (HN r Hr) as [H1 H2].
  rewrite <- (meets_iff E D p n Hn (HF p n Hn) r b H1 H2 Hb). unfold node_satisfies. rewrite Hb. split; congruence.
Qed.

Lemma search_meets i pp gs :
  search_result D (node_satisfies E D) R i pp gs <-> search_result D (fun r p => meets E D p r) R i pp gs.
Proof.
  split; apply search_result_ext; intros r p n Hr Hn; [|symmetry]; now apply (satisfies_meets r p n).
Qed.

Lemma group_values_iff g : (forall x, In x g -> exists n, nget D (snd x) = Some n) ->
  forall values, group_values E R D g values <-> captured E R D g values.
Proof.
  induction g as [|[rp p] g IH]; intros Hg values.
  - split; intros H; inversion H; constructor.
  - assert (Hn : exists n, nget D p = Some n) by (apply (Hg (rp, p)); now left). destruct Hn as [n Hn].
    assert (Hg' : forall x, In x g -> exists n, nget D (snd x) = Some n) by (intros x Hx; apply Hg; now right).
    split; intros H; inversion H as [|? ? r ? vs rest H1 H2 H3]; subst; (constructor 2 with (r := r); [assumption| |]).
    + apply (values_at_iff E D p n Hn). assumption.
    + apply (IH Hg'). assumption.
    + apply (values_at_iff E D p n Hn). assumption.
    + apply (IH Hg'). assumption.
Qed.

Lemma means_describes i pp res :
  means E R D i pp res <-> exists gs, search_result D (node_satisfies E D) R i pp gs /\ extract_result E R D gs res.
Proof.
  assert (HG : forall gs, search_result D (node_satisfies E D) R i pp gs -> forall vss,
    Forall2 (group_values E R D) gs vss <-> Forall2 (captured E R D) gs vss).
  { intros gs Hgs.
    assert (Hex : forall g x, In g gs -> In x g -> exists n, nget D (snd x) = Some n).
    { intros g x Hg Hx. destruct (search_pairs D _ R i pp gs Hgs x) as [r [_ HM]]; [apply in_concat; eauto|]. inversion HM; eauto. }
    clear Hgs. intros vss. split; intros H; induction H as [|g v gs vss Hv _ IH]; constructor;
      try (apply group_values_iff; [intros x Hx; apply (Hex g x); [now left|exact Hx]|exact Hv]);
      apply IH; intros g' x Hg' Hx; apply (Hex g' x); [now right|exact Hx|now right|exact Hx]. }
  split.
  - intros [gs [vss [H1 [H2 H3]]]]. apply search_meets in H1. exists gs. split; [exact H1|]. exists vss. split; [now apply (HG gs H1)|exact H3].
  - intros [gs [H1 [vss [H2 H3]]]]. exists gs, vss. split; [now apply search_meets|]. split; [now apply (HG gs H1)|exact H3].
Qed.

Theorem extract_means i pp t res : nget D (i :: pp) = Some t ->
  (extract_yields E R D (Some (i :: pp)) 0 (Ok res) <-> means E R D i pp res).
Proof.
  intros Ht. rewrite means_describes. split.
  - intros [f0 H]. eapply extract_describes; [exact Ht|]. apply (H f0). lia.
  - intros [gs [H1 H2]]. eapply extract_computes; eauto.
Qed.

Theorem means_exists i pp t : nget D (i :: pp) = Some t ->
  exists res, means E R D i pp res /\ forall res', means E R D i pp res' -> res' = res.
Proof.
  intros Ht. destruct (extract_returns E R D i pp t 0%N Ht HE HR HP) as [o [Ho [[res ->]| ->]]].
  - exists res. split; [now apply (extract_means i pp t)|]. intros res' H. apply (extract_means i pp t res' Ht) in H.
    pose proof (yields_unique _ _ _ _ _ _ _ Ho H) as HX. congruence.
  - exfalso. destruct (extract_limit E R D (Some (i :: pp)) 0%N _ _ Ho Ho) as [H _]. congruence.
Qed.

End Main.

(** ** Parsed rules *)

Lemma name_no_nul x : is_tag_name x -> ~ In NUL x.
Proof.
  assert (HC : forall c, is_name_char c = true -> c <> NUL) by (intros c H ->; discriminate).
  intros [->|[c [x' [-> [Hc Hx]]]]] H.
  - destruct H as [H|[]]. discriminate.
  - destruct H as [H|H]; [|now apply (HC NUL (Hx NUL H))]. subst c. discriminate.
Qed.

Lemma make_words_plain x : test_plain (make_ContainsWordsTest x).
Proof.
  destruct (runs_exist " "%char x) as [ws Hws]. rewrite (make_words x ws Hws). cbn [test_plain].
  pose proof (runs_words _ _ _ Hws) as HW. rewrite Forall_forall in HW. intros w Hin.
  destruct ws as [|w0 ws0]; [destruct Hin as [<-|[]]; intros []|]. now apply HW.
Qed.

Lemma test_at_plain E fl t ng : test_at E fl t -> forall t', negated_test ng (Some t) = Some t' -> test_plain t'.
Proof.
  intros Ht t' H. assert (HP : test_plain t) by (destruct Ht; try exact I; apply make_words_plain).
  destruct ng; cbn [negated_test] in H; injection H as <-; exact HP.
Qed.

Lemma trait_plain E fl m fl' : trait_at E fl m fl' -> condition_plain m.
Proof. intros []; exact I. Qed.

Lemma parsed_plain E x R : ParseHext E x = Ok R -> plain_rules R.
Proof.
  intros H r Hr. destruct (parsed_rules E x R r H Hr) as [H1 [_ H3]]. split.
  - intros name Hn. apply name_no_nul. now apply H3.
  - intros m Hm. rewrite Forall_forall in H1. destruct (H1 _ Hm) as [m' [Em [[fl [fl' HC]]|[fl HC]]]]; injection Em as <-.
    + destruct HC as [m' fl1 HT|ms fl1 _ HS]; [eapply trait_plain; eauto|]. cbn [condition_plain].
      clear -HS. induction HS as [|fl y fl1 l fl2 Hx Hl IH]; [exact I|]. cbn [map]. split; [eapply trait_plain; eauto|exact IH].
    + destruct HC as [a ng Ha|a t ng Ha Ht|f t ng Hf Ht]; cbn [condition_plain].
      * destruct ng; exact I.
      * destruct (negated_test ng (Some t)) as [t'|] eqn:En; [|exact I]. eapply test_at_plain; eauto.
      * destruct (negated_test ng (Some t)) as [t'|] eqn:En; [|exact I]. eapply test_at_plain; eauto.
Qed.

(** From text and document to the result. *)
Theorem program_means E x D i pp t res :
  nget D (i :: pp) = Some t -> engine_total E -> counts_fit D ->
  (exists size, small_document size D /\ forall R, denotes E x R -> rule_params_safe size R) ->
  ((exists R, ParseHext E x = Ok R /\ extract_yields E R D (Some (i :: pp)) 0 (Ok res)) <->
   (exists R, denotes E x R /\ means E R D i pp res)).
Proof.
  intros Ht HE HF [size [HS HP]].
  assert (HX : forall R, ParseHext E x = Ok R ->
    (extract_yields E R D (Some (i :: pp)) 0 (Ok res) <-> means E R D i pp res)).
  { intros R HR. apply (extract_means E R D HE (parsed_calls_return E x R HR)) with (t := t); auto.
    - exists size. split; [exact HS|]. apply HP. now apply parse_denotes.
    - eapply parsed_plain; eauto. }
  split; intros [R [H1 H2]]; exists R.
  - split; [now apply parse_denotes|now apply HX].
  - apply parse_denotes in H1. split; [exact H1|now apply HX].
Qed.
