(** Facts about all rules of a tree that ParseHext returns. *)

From Coq Require Import Ascii String NArith ZArith Bool List.
From Verif Require Import Base StringUtil Tags Dom NodeUtil Values Match Rule RuleMatching ExtractSpec Samples SyntaxSpec Parser
  ExpressSpec ExpressProofs.
Import ListNotations.

Section Parsed.

Variable E : engine.

Definition parsed_match (m : mtch) : Prop :=
  (exists fl fl', condition_at E fl m fl') \/ (exists fl, match_at E fl m).
Definition parsed_capture (c : capture) : Prop := exists fl, capture_at E fl c.
Definition parsed_locally (r : rule) : Prop :=
  Forall (fun m => exists m', m = Some m' /\ parsed_match m') (r_matches r) /\
  Forall (fun c => exists c', c = Some c' /\ parsed_capture c') (r_captures r) /\
  (forall name, r_tagname r = Some name -> is_tag_name name).
Definition parsed_all (r : rule) : Prop := Forall parsed_locally (all_rules r).

Lemma seq_conditions fl l fl' : seq_at (condition_at E) fl l fl' -> Forall parsed_match l.
Proof. induction 1; constructor; auto. left. eauto. Qed.

Lemma patterns_parsed fl ms cs fl' : patterns_at E fl ms cs fl' -> Forall parsed_match ms /\ Forall parsed_capture cs.
Proof.
  intros [|ms' cs' Hm Hc _]; [split; constructor|]. split.
  - eapply Forall_impl; [|exact Hm]. intros m H. right. eauto.
  - eapply Forall_impl; [|exact Hc]. intros c H. red. eauto.
Qed.

Lemma all_next r n : parsed_all r -> r_next r = None -> (forall n', n = Some n' -> parsed_all n') -> parsed_all (with_next r n).
Proof.
  unfold parsed_all. destruct r as [c nx l ms cs t o g nm]. cbn [r_next with_next all_rules]. intros H -> Hn.
  inversion H as [|? ? H1 H2]; subst. constructor; [exact H1|]. cbn [app] in H2.
  apply Forall_app in H2 as [H2 H3]. apply Forall_app. split; [exact H2|]. apply Forall_app. split; [|exact H3].
  destruct n as [n'|]; [now apply Hn|constructor].
Qed.

Lemma row_parsed : forall rs, Forall (fun r => parsed_all r /\ r_next r = None) rs ->
  forall r, row_of_rules rs = Some r -> parsed_all r.
Proof.
  induction rs as [|r0 rs IH]; intros H r Hr; [discriminate|]. inversion H as [|? ? [H1 H2] H3]; subst.
  cbn [row_of_rules] in Hr. injection Hr as <-. apply all_next; auto.
Qed.

Lemma parsed_mut :
  (forall fl r fl', element_at E fl r fl' -> parsed_all r /\ r_next r = None) /\
  (forall fl l fl', parts_at E fl l fl' -> Forall (fun r => parsed_all r /\ r_next r = None) (elements l) /\ Forall parsed_all (nested_rules l)) /\
  (forall fl rs fl', elements_at E fl rs fl' -> Forall (fun r => parsed_all r /\ r_next r = None) rs).
Proof.
  apply (at_mut E (fun fl r fl' => parsed_all r /\ r_next r = None)
    (fun fl l fl' => Forall (fun r => parsed_all r /\ r_next r = None) (elements l) /\ Forall parsed_all (nested_rules l))
    (fun fl rs fl' => Forall (fun r => parsed_all r /\ r_next r = None) rs)).
  - intros fl conds fl1 ms cs fl2 parts fl3 name o g Hc Hp _ [H1 H2] Hnm. split; [|reflexivity].
    unfold parsed_all. cbn [all_rules app]. constructor.
    + apply seq_conditions in Hc. apply patterns_parsed in Hp as [Hp1 Hp2]. split; [|split]; cbn [r_matches r_captures r_tagname].
      * rewrite Forall_forall. intros m Hm. apply in_map_iff in Hm as [m' [<- Hm]]. exists m'. split; [reflexivity|].
        apply in_app_or in Hm as [Hm|Hm]; [rewrite Forall_forall in Hc|rewrite Forall_forall in Hp1]; auto.
      * rewrite Forall_forall. intros c Hc'. apply in_map_iff in Hc' as [c' [<- Hc']]. exists c'. split; [reflexivity|].
        rewrite Forall_forall in Hp2; auto.
      * destruct (_ =? _)%N; congruence.
    + apply Forall_app. split.
      * destruct (row_of_rules (elements parts)) as [r|] eqn:Er; [|constructor]. eapply row_parsed; eauto.
      * rewrite Forall_forall. intros x Hx. apply in_flat_map in Hx as [r [Hr Hx]].
        exact (proj1 (Forall_forall _ _) (proj1 (Forall_forall _ _) H2 r Hr) x Hx).
  - intros fl. split; constructor.
  - intros fl r fl1 l fl2 _ H1 _ [H2 H3]. split; [|exact H3]. cbn [elements flat_map app]. constructor; auto.
  - intros fl rs r fl1 l fl2 _ H1 Hr _ [H2 H3]. split; [exact H2|]. cbn [nested_rules flat_map app]. constructor; [|exact H3].
    exact (row_parsed rs H1 r Hr).
  - intros fl. constructor.
  - intros fl r fl1 l fl2 _ H1 _ H2. constructor; auto.
Qed.

Theorem parsed_rules x R r : ParseHext E x = Ok R -> rule_of R r -> parsed_locally r.
Proof.
  intros H Hr. apply parsed_expressible in H as [rs [fl [H1 H2]]].
  apply (proj2 (proj2 parsed_mut)) in H1. pose proof (row_parsed rs H1 R H2) as HP.
  unfold parsed_all in HP. rewrite Forall_forall in HP. apply HP. now apply rule_of_all.
Qed.

(** User functions cannot be written in Hext. *)
Lemma trait_calls fl m fl' : trait_at E fl m fl' -> match_calls_return m.
Proof. intros []; exact I. Qed.
Lemma condition_calls fl m fl' : condition_at E fl m fl' -> match_calls_return m.
Proof.
  intros [m' fl1 H|ms fl1 _ H]; [now apply trait_calls in H|]. cbn [match_calls_return].
  induction H as [|fl x fl1 l fl2 Hx Hl IH]; [exact I|]. cbn [map]. split; [now apply trait_calls in Hx|exact IH].
Qed.
Lemma match_at_calls fl m : match_at E fl m -> match_calls_return m.
Proof. intros [a ng Ha|a t ng Ha Ht|f t ng Hf Ht]; try exact I. cbn [match_calls_return]. now destruct f. Qed.
Lemma capture_at_calls fl c : capture_at E fl c -> capture_calls_return c.
Proof. intros [a n ts fl' Ha Hn Hts|f n ts fl' Hf Hn Hts]; try exact I. cbn [capture_calls_return]. now destruct f. Qed.

Theorem parsed_calls_return x R : ParseHext E x = Ok R -> rule_calls_return R.
Proof.
  intros H r Hr. destruct (parsed_rules x R r H Hr) as [H1 [H2 _]]. rewrite Forall_forall in H1, H2. split.
  - intros m Hm. destruct (H1 _ Hm) as [m' [Em [[fl [fl' HC]]|[fl HC]]]]; injection Em as <-.
    + eapply condition_calls; eauto.
    + eapply match_at_calls; eauto.
  - intros c Hc. destruct (H2 _ Hc) as [c' [Ec [fl HC]]]. injection Ec as <-. eapply capture_at_calls; eauto.
Qed.

End Parsed.
