(** Facts about GroupSpec.v: the groups depend only on what the flags and the
    matches of the rules and nodes in range are; ranges of groups. *)

From Coq Require Import Arith Bool List Lia Sorted.
From Verif Require Import GroupSpec.
Import ListNotations.

Section Ext.

Variable rules nodes : nat.
Variable o g o' g' : nat -> bool.
Variable M M' : nat -> nat -> Prop.

Hypothesis same_o : forall j, j < rules -> o j = o' j.
Hypothesis same_g : forall j, j < rules -> g j = g' j.
Hypothesis same_M : forall j i, j < rules -> i < nodes -> (M j i <-> M' j i).

Lemma filter_ext_in' {A} (p q : A -> bool) l : (forall a, In a l -> p a = q a) -> filter p l = filter q l.
Proof.
  induction l as [|a l IH]; intros H; simpl; [reflexivity|].
  rewrite (H a (or_introl eq_refl)), IH by (intros; apply H; now right). reflexivity.
Qed.

Lemma mandatory_rules_ext : mandatory_rules rules o = mandatory_rules rules o'.
Proof.
  unfold mandatory_rules. apply filter_ext_in'. intros j Hj. apply in_seq in Hj. rewrite same_o by lia. reflexivity.
Qed.

Lemma mandatory_lt j : In j (mandatory_rules rules o) -> j < rules.
Proof. intros H. apply filter_In in H as [H _]. apply in_seq in H. lia. Qed.

Lemma repeated_ext j : j < rules -> repeated o g j = repeated o' g' j.
Proof.
  induction j as [|j IH]; intros Hj; cbn [repeated]; rewrite same_o, same_g by lia; [reflexivity|].
  rewrite same_o, IH by lia. reflexivity.
Qed.

Lemma takes_all_ext j : j < rules -> takes_all o g j = takes_all o' g' j.
Proof. intros Hj. unfold takes_all. now rewrite same_o, same_g, repeated_ext by lia. Qed.

Lemma lone_ext : lone rules o g = lone rules o' g'.
Proof.
  unfold lone. rewrite <- mandatory_rules_ext. pose proof mandatory_lt as H.
  destruct (mandatory_rules rules o) as [|j [|? ?]]; try reflexivity. apply repeated_ext. apply H. now left.
Qed.

Lemma forall2_impl_in {A B} (P Q : A -> B -> Prop) l l' :
  (forall a b, In a l -> P a b -> Q a b) -> Forall2 P l l' -> Forall2 Q l l'.
Proof.
  intros H HF. induction HF as [|a b l l' Hab HF IH]; constructor.
  - apply H; [now left|exact Hab].
  - apply IH. intros; apply H; [now right|assumption].
Qed.

Lemma embedding_ext lo js : embedding rules nodes o M lo js -> embedding rules nodes o' M' lo js.
Proof.
  intros [H Hs]. split; [|exact Hs]. rewrite <- mandatory_rules_ext.
  eapply forall2_impl_in; [|exact H]. cbn beta. intros j i Hj [Hi HM]. split; [exact Hi|].
  apply same_M; [now apply mandatory_lt|lia|exact HM].
Qed.

Lemma ends_before_ext m i : i < nodes ->
  ends_before rules o g M m i -> ends_before rules o' g' M' m i.
Proof.
  intros Hi. unfold ends_before. rewrite <- mandatory_rules_ext, <- lone_ext.
  pose proof mandatory_lt as HL.
  destruct (mandatory_rules rules o) as [|f ms]; [auto|].
  intros [H|H]; [now left|right]. intros i' Hi' HM. apply (H i' Hi'). apply same_M; [|lia|exact HM].
  apply HL. now left.
Qed.

Lemma candidate_ext lo m t j i : j < rules -> (forall j i, In (j, i) t -> j < rules) ->
  candidate rules nodes o g M lo m t j i -> candidate rules nodes o' g' M' lo m t j i.
Proof.
  intros Hj Ht [H1 [H2 [H3 [H4 H5]]]]. split; [exact H1|]. split; [apply same_M; auto; lia|].
  split; [exact H3|]. split.
  - intros j' i' Hin Hlt Ho. apply (H4 j' i' Hin Hlt). rewrite same_o; [exact Ho|]. now apply (Ht j' i').
  - apply ends_before_ext; [lia|exact H5].
Qed.

End Ext.

Section Ext2.

Variable rules nodes : nat.
Variable o g o' g' : nat -> bool.
Variable M M' : nat -> nat -> Prop.

Hypothesis some_rule : 0 < rules.
Hypothesis same_o : forall j, j < rules -> o j = o' j.
Hypothesis same_g : forall j, j < rules -> g j = g' j.
Hypothesis same_M : forall j i, j < rules -> i < nodes -> (M j i <-> M' j i).

Local Lemma so' j : j < rules -> o' j = o j. Proof. intros; symmetry; auto. Qed.
Local Lemma sg' j : j < rules -> g' j = g j. Proof. intros; symmetry; auto. Qed.
Local Lemma sM' j i : j < rules -> i < nodes -> (M' j i <-> M j i). Proof. intros; symmetry; auto. Qed.

Lemma is_group_ext lo js t : is_group rules nodes o g M lo js t -> is_group rules nodes o' g' M' lo js t.
Proof.
  intros [[He Hmin] [Hhd [Hord [Hr Hc]]]].
  split; [split|split; [|split; [exact Hord|split; [exact Hr|]]]].
  - eapply embedding_ext; eauto.
  - intros js' He'. apply Hmin. eapply embedding_ext; [exact so'|exact sM'|exact He'].
  - rewrite <- (mandatory_rules_ext rules o o') by assumption. exact Hhd.
  - intros j Hj. specialize (Hc j Hj). rewrite <- (takes_all_ext rules o g o' g') by assumption.
    assert (HI : forall i, candidate rules nodes o g M lo (last js 0) t j i <-> candidate rules nodes o' g' M' lo (last js 0) t j i).
    { intros i. split; apply candidate_ext; auto using so', sg', sM'. }
    destruct (takes_all o g j).
    + destruct Hc as [Hs Hc]. split; [exact Hs|]. intros i. rewrite <- HI. apply Hc.
    + destruct Hc as [[Hn Hc]|[i [Hn [Hi Hc]]]].
      * left. split; [exact Hn|]. intros i. rewrite <- HI. apply Hc.
      * right. exists i. split; [exact Hn|]. split; [now apply HI|]. intros i' Hi'. apply Hc. now apply HI.
Qed.

Lemma last_in {A} (l : list A) a : l <> [] -> In (last l a) l.
Proof.
  induction l as [|x l IH]; intros H; [congruence|]. destruct l as [|y l]; [now left|].
  right. apply IH. discriminate.
Qed.

Lemma last_mand_lt : last (mandatory_rules rules o) 0 < rules.
Proof.
  destruct (mandatory_rules rules o) eqn:E; [exact some_rule|]. rewrite <- E.
  apply (mandatory_lt rules o). apply last_in. congruence.
Qed.

Lemma hd_mand_lt : hd 0 (mandatory_rules rules o) < rules.
Proof.
  destruct (mandatory_rules rules o) as [|f ms] eqn:E; [exact some_rule|].
  apply (mandatory_lt rules o). rewrite E. now left.
Qed.

Lemma resumes_ext m lo : resumes rules nodes o g M m lo -> resumes rules nodes o' g' M' m lo.
Proof.
  unfold resumes, trails. rewrite <- (mandatory_rules_ext rules o o') by assumption.
  pose proof last_mand_lt as HL. pose proof hd_mand_lt as HH.
  rewrite <- (repeated_ext rules o g o' g') by assumption.
  destruct (_ || _); [|auto].
  intros [H1 [H2 H3]]. split; [exact H1|]. split.
  - intros i Hi HM. apply (H2 i Hi). apply same_M; [exact HH|lia|exact HM].
  - intros Hlo. apply same_M; auto.
Qed.

Lemma are_groups_ext lo ts : are_groups rules nodes o g M lo ts -> are_groups rules nodes o' g' M' lo ts.
Proof.
  revert lo. induction ts as [|t ts IH]; intros lo H; inversion H; subst.
  - constructor. intros js He. apply (H0 js). eapply embedding_ext; [exact so'|exact sM'|exact He].
  - econstructor; [now apply is_group_ext; eauto| |].
    + rewrite <- (lone_ext rules o g o' g') by assumption. assumption.
    + rewrite <- (lone_ext rules o g o' g') by assumption. intros Hl.
      match goal with Hx : lone _ _ _ = false -> _ |- _ => destruct (Hx Hl) as [lo' [Hr Ha]] end.
      exists lo'. split; [now apply resumes_ext|now apply IH].
Qed.

Lemma are_optional_groups_ext lo ts :
  are_optional_groups rules nodes o g M lo ts -> are_optional_groups rules nodes o' g' M' lo ts.
Proof.
  revert lo. induction ts as [|t ts IH]; intros lo H; inversion H; subst.
  - constructor. now apply is_group_ext.
  - apply last_optional_group; [now apply is_group_ext|assumption|].
    rewrite <- same_g by lia. assumption.
  - eapply more_optional_groups; [now apply is_group_ext| |eassumption|now apply IH].
    rewrite <- same_g by lia. assumption.
Qed.

End Ext2.

(** ** Ranges *)

Lemma nodes_of_in j i t : In i (nodes_of j t) <-> In (j, i) t.
Proof.
  unfold nodes_of. rewrite in_map_iff. split.
  - intros [[j' i'] [E H]]. apply filter_In in H as [H E']. simpl in *. apply Nat.eqb_eq in E'. now subst.
  - intros H. exists (j, i). split; [reflexivity|]. apply filter_In. split; [exact H|]. simpl. apply Nat.eqb_refl.
Qed.

Section Range.

Variable rules nodes : nat.
Variable o g : nat -> bool.
Variable M : nat -> nat -> Prop.

Lemma is_group_candidate lo js t j i : is_group rules nodes o g M lo js t -> In (j, i) t ->
  j < rules /\ candidate rules nodes o g M lo (last js 0) t j i.
Proof.
  intros [_ [_ [_ [Hr Hc]]]] Hin. pose proof (Hr _ _ Hin) as Hj. split; [exact Hj|].
  specialize (Hc j Hj). apply nodes_of_in in Hin.
  destruct (takes_all o g j).
  - destruct Hc as [_ Hc]. now apply Hc.
  - destruct Hc as [[E _]|[i' [E [Hc _]]]]; rewrite E in Hin; [destruct Hin|].
    destruct Hin as [<-|[]]. exact Hc.
Qed.

Lemma is_group_range lo js t j i : is_group rules nodes o g M lo js t -> In (j, i) t ->
  j < rules /\ lo <= i < nodes /\ M j i.
Proof.
  intros H Hin. destruct (is_group_candidate _ _ _ _ _ H Hin) as [Hj [Hi [HM _]]]. auto.
Qed.

Lemma are_groups_each lo ts t : are_groups rules nodes o g M lo ts -> In t ts ->
  exists lo' js, is_group rules nodes o g M lo' js t.
Proof.
  revert lo. induction ts as [|t' ts IH]; intros lo H Hin; [destruct Hin|]. inversion H; subst.
  destruct Hin as [->|Hin]; [eauto|].
  destruct (lone rules o g); [rewrite H4 in Hin by reflexivity; destruct Hin|].
  destruct (H5 eq_refl) as [lo' [_ Ha]]. eapply IH; eauto.
Qed.

Lemma are_optional_groups_each lo ts t : are_optional_groups rules nodes o g M lo ts -> In t ts ->
  exists lo' js, is_group rules nodes o g M lo' js t.
Proof.
  revert lo. induction ts as [|t' ts IH]; intros lo H Hin; [destruct Hin|]. inversion H; subst.
  - destruct Hin as [->|[]]; eauto.
  - destruct Hin as [->|Hin]; eauto.
Qed.

Lemma are_groups_range lo ts j i : are_groups rules nodes o g M lo ts -> In (j, i) (concat ts) ->
  j < rules /\ i < nodes /\ M j i.
Proof.
  intros H Hin. apply in_concat in Hin as [t [Ht Hin]].
  destruct (are_groups_each _ _ _ H Ht) as [lo' [js Hg]].
  destruct (is_group_range _ _ _ _ _ Hg Hin) as [? [? ?]]; repeat split; auto; lia.
Qed.

Lemma are_optional_groups_range lo ts j i : are_optional_groups rules nodes o g M lo ts -> In (j, i) (concat ts) ->
  j < rules /\ i < nodes /\ M j i.
Proof.
  intros H Hin. apply in_concat in Hin as [t [Ht Hin]].
  destruct (are_optional_groups_each _ _ _ H Ht) as [lo' [js Hg]].
  destruct (is_group_range _ _ _ _ _ Hg Hin) as [? [? ?]]; repeat split; auto; lia.
Qed.

Lemma are_groups_nonempty lo ts : are_groups rules nodes o g M lo ts ->
  (ts <> [] <-> exists js, embedding rules nodes o M lo js).
Proof.
  intros H. inversion H as [lo0 He|lo0 js t ts0 Hg]; subst.
  - split; [congruence|]. intros [js Hjs]. now destruct (He js).
  - split; [|discriminate]. intros _. exists js. apply Hg.
Qed.

End Range.
