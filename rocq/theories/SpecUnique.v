(** The specifications of groups and of the search determine the result. *)

From Coq Require Import Arith Bool List Lia Sorted.
From Verif Require Import Base Dom Match Rule RuleMatching RuleProofs MatchRefine
  GroupAlg GroupSpec GroupFacts MatchSpec MatchProofs ExtractSpec ExtractProofs.
Import ListNotations.

Lemma sorted_unique {A} (P : A -> A -> Prop) :
  (forall a b, P a b -> P b a -> False) ->
  forall l l', StronglySorted P l -> StronglySorted P l' -> (forall x, In x l <-> In x l') -> l = l'.
Proof.
  intros Has. induction l as [|a l IH]; intros l' Hl Hl' H.
  - destruct l' as [|b l']; [reflexivity|]. destruct (proj2 (H b) (or_introl eq_refl)).
  - destruct l' as [|b l']; [destruct (proj1 (H a) (or_introl eq_refl))|].
    inversion Hl as [|? ? S1 F1]; subst. inversion Hl' as [|? ? S2 F2]; subst.
    rewrite Forall_forall in F1, F2.
    assert (a = b).
    { destruct (proj1 (H a) (or_introl eq_refl)) as [|Ha]; [congruence|].
      destruct (proj2 (H b) (or_introl eq_refl)) as [|Hb]; [congruence|].
      destruct (Has a b); auto. }
    subst b. f_equal. apply IH; auto. intros x. split; intros Hx.
    + destruct (proj1 (H x) (or_intror Hx)) as [<-|]; [|assumption]. destruct (Has a a); auto.
    + destruct (proj2 (H x) (or_intror Hx)) as [<-|]; [|assumption]. destruct (Has a a); auto.
Qed.

Lemma Forall2_le_antisym a b : Forall2 le a b -> Forall2 le b a -> a = b.
Proof.
  intros H. induction H as [|x y a b Hxy H IH]; intros H'; [reflexivity|].
  inversion H'; subst. f_equal; [lia|auto].
Qed.

Lemma Forall2_both {A B} (P Q : A -> B -> Prop) l m a :
  Forall2 P l m -> Forall2 Q l m -> In a l -> exists b, P a b /\ Q a b.
Proof.
  intros H. induction H as [|x y l m Hxy H IH]; intros HQ Ha; [destruct Ha|].
  inversion HQ; subst. destruct Ha as [<-|Ha]; [eauto|auto].
Qed.

Section Unique.
Variable rules nodes : nat.
Variable o g : nat -> bool.
Variable M : nat -> nat -> Prop.

Lemma leftmost_unique lo js js' :
  leftmost_embedding rules nodes o M lo js -> leftmost_embedding rules nodes o M lo js' -> js = js'.
Proof. intros [H1 H2] [H3 H4]. apply Forall2_le_antisym; auto. Qed.

Lemma nodes_of_sorted t j : ordered t -> StronglySorted lt (nodes_of j t).
Proof.
  intros H. unfold nodes_of.
  induction H as [|p t H IH HF]; simpl; [constructor|].
  destruct (fst p =? j); [|exact IH]. simpl. constructor; [exact IH|].
  rewrite Forall_forall in *. intros x Hx. apply in_map_iff in Hx as [q [<- Hq]].
  apply filter_In in Hq as [Hq _]. now apply HF.
Qed.

Lemma hd_least t j a i : ordered t -> hd_error (nodes_of j t) = Some a -> In (j, i) t -> a <= i.
Proof.
  intros Ho Hh Hi. apply nodes_of_in in Hi. pose proof (nodes_of_sorted t j Ho) as Hs.
  destruct (nodes_of j t) as [|b l]; [discriminate|]. injection Hh as ->.
  inversion Hs as [|? ? _ HF]; subst. destruct Hi as [->|Hi]; [lia|]. rewrite Forall_forall in HF.
  specialize (HF i Hi). lia.
Qed.

Lemma candidate_same lo m js t t' j i :
  Forall2 (fun j i => hd_error (nodes_of j t) = Some i) (mandatory_rules rules o) js ->
  Forall2 (fun j i => hd_error (nodes_of j t') = Some i) (mandatory_rules rules o) js ->
  ordered t' -> (forall j i, In (j, i) t' -> j < rules) ->
  (forall j', j' < j -> nodes_of j' t = nodes_of j' t') ->
  candidate rules nodes o g M lo m t j i -> candidate rules nodes o g M lo m t' j i.
Proof.
  intros H1 H2 Hord Hr Hlow [C1 [C2 [C3 [C4 C5]]]].
  split; [exact C1|]. split; [exact C2|]. split; [|split; [|exact C5]].
  - intros j' i' Hin Hlt. apply (C3 j' i'); [|exact Hlt]. apply nodes_of_in. rewrite Hlow by exact Hlt. now apply nodes_of_in.
  - intros j' i' Hin Hlt Ho.
    assert (Hj' : In j' (mandatory_rules rules o)).
    { unfold mandatory_rules. apply filter_In. split; [apply in_seq; pose proof (Hr _ _ Hin); lia|]. now rewrite Ho. }
    destruct (Forall2_both _ _ _ _ _ H1 H2 Hj') as [a [Ha1 Ha2]].
    assert (i < a).
    { apply (C4 j' a); auto. apply nodes_of_in. destruct (nodes_of j' t); [discriminate|]. injection Ha1 as ->. now left. }
    pose proof (hd_least t' j' a i' Hord Ha2 Hin). lia.
Qed.

Lemma all_of_unique (P Q : nat -> Prop) l l' : (forall i, P i <-> Q i) -> all_of P l -> all_of Q l' -> l = l'.
Proof.
  intros H [S1 H1] [S2 H2]. apply (sorted_unique lt); auto.
  - intros; lia.
  - intros x. rewrite H1, H2. apply H.
Qed.

Lemma first_of_unique (P Q : nat -> Prop) l l' : (forall i, P i <-> Q i) -> first_of P l -> first_of Q l' -> l = l'.
Proof.
  intros H [[-> H1]|[i [-> [H1 H2]]]] [[-> H3]|[i' [-> [H3 H4]]]]; auto.
  - apply H in H3. now apply H1 in H3.
  - apply H in H1. now apply H3 in H1.
  - apply H in H1. apply H4 in H1. apply H in H3. apply H2 in H3. f_equal. lia.
Qed.

Lemma is_group_unique lo js js' t t' :
  is_group rules nodes o g M lo js t -> is_group rules nodes o g M lo js' t' -> js = js' /\ t = t'.
Proof.
  intros [L1 [H1 [O1 [R1 C1]]]] [L2 [H2 [O2 [R2 C2]]]].
  assert (js = js') by (eapply leftmost_unique; eauto). subst js'. split; [reflexivity|].
  assert (HN : forall j, nodes_of j t = nodes_of j t').
  { intros j. induction j as [j IH] using lt_wf_ind.
    destruct (Nat.ltb_spec j rules) as [Hj|Hj].
    - specialize (C1 j Hj). specialize (C2 j Hj).
      assert (HC : forall i, candidate rules nodes o g M lo (last js 0) t j i <-> candidate rules nodes o g M lo (last js 0) t' j i).
      { intros i. split; eapply candidate_same; eauto. intros; symmetry; auto. }
      destruct (takes_all o g j); [eapply all_of_unique; eauto|eapply first_of_unique; eauto].
    - assert (Hnil : forall u, (forall j i, In (j, i) u -> j < rules) -> nodes_of j u = []).
      { intros u Hu. destruct (nodes_of j u) as [|x l] eqn:E; [reflexivity|].
        assert (In (j, x) u) by (apply nodes_of_in; rewrite E; now left). apply Hu in H. lia. }
      now rewrite !Hnil. }
  apply (sorted_unique (fun p q => fst p <= fst q /\ snd p < snd q)); auto.
  - intros a b [_ ?] [_ ?]. lia.
  - intros [j i]. now rewrite <- !nodes_of_in, HN.
Qed.

Lemma resumes_unique m lo lo' : resumes rules nodes o g M m lo -> resumes rules nodes o g M m lo' -> lo = lo'.
Proof.
  unfold resumes. destruct (trails rules o g); [|congruence].
  intros [A1 [A2 A3]] [B1 [B2 B3]].
  destruct (Nat.lt_trichotomy lo lo') as [H|[H|H]]; [|exact H|].
  - destruct (B2 lo); [lia|]. apply A3. lia.
  - destruct (A2 lo'); [lia|]. apply B3. lia.
Qed.

Lemma are_groups_unique lo ts ts' :
  are_groups rules nodes o g M lo ts -> are_groups rules nodes o g M lo ts' -> ts = ts'.
Proof.
  intros H. revert ts'. revert ts lo H.
  induction ts as [|t ts IH]; intros lo H ts' H'; inversion H as [? HE1|? js ? ? HG1 HL1 HR1]; subst;
    inversion H' as [? HE2|? js2 t2 ts2 HG2 HL2 HR2]; subst; auto.
  - destruct HG2 as [[HE _] _]. now destruct (HE1 js2).
  - destruct HG1 as [[HE _] _]. now destruct (HE2 js).
  - destruct (is_group_unique _ _ _ _ _ HG1 HG2) as [<- <-]. f_equal.
    destruct (lone rules o g); [now rewrite HL1, HL2|].
    destruct (HR1 eq_refl) as [lo1 [Hr1 Ha1]]. destruct (HR2 eq_refl) as [lo2 [Hr2 Ha2]].
    rewrite <- (resumes_unique _ _ _ Hr1 Hr2) in Ha2. eapply IH; eauto.
Qed.

Lemma are_optional_groups_unique lo ts ts' :
  are_optional_groups rules nodes o g M lo ts -> are_optional_groups rules nodes o g M lo ts' -> ts = ts'.
Proof.
  intros H. revert ts' . induction H as [lo HG|lo t HG Hne Hl|lo t i ts HG Hgr Hn HR IH]; intros ts' H';
    inversion H' as [? HG'|? t' HG' Hne' Hl'|? t' i' ts2 HG' Hgr' Hn' HR']; subst; auto.
  - destruct (is_group_unique _ _ _ _ _ HG HG') as [_ <-]. congruence.
  - destruct (is_group_unique _ _ _ _ _ HG HG') as [_ <-]. discriminate.
  - destruct (is_group_unique _ _ _ _ _ HG HG') as [_ ->]. congruence.
  - destruct (is_group_unique _ _ _ _ _ HG HG') as [_ ->]. congruence.
  - destruct (is_group_unique _ _ _ _ _ HG HG') as [_ ->]. destruct Hl; congruence.
  - destruct (is_group_unique _ _ _ _ _ HG HG') as [_ ->]. discriminate.
  - destruct (is_group_unique _ _ _ _ _ HG HG') as [_ ->]. destruct Hl'; congruence.
  - destruct (is_group_unique _ _ _ _ _ HG HG') as [_ ->]. f_equal. apply IH. congruence.
Qed.

End Unique.

Section Search.
Variable D : node.
Variable satisfies : rule -> npath -> Prop.

Lemma sibling_groups_unique c pp s n ts ts' :
  sibling_groups D satisfies c pp s n ts -> sibling_groups D satisfies c pp s n ts' -> ts = ts'.
Proof.
  unfold sibling_groups. destruct (mandatory_of c).
  - apply are_optional_groups_unique.
  - apply are_groups_unique.
Qed.

Lemma pair_groups_unique (B : rpath -> rule -> npath -> MatchingNodes -> Prop) rp c pp s n gs gs' :
  (forall a r i m m', rule_matches D satisfies r (i :: pp) -> B a r (i :: pp) m -> B a r (i :: pp) m' -> m = m') ->
  pair_groups D satisfies B rp c pp s n gs -> pair_groups D satisfies B rp c pp s n gs' -> gs = gs'.
Proof.
  intros HB [ts [inner [Hts [Hin ->]]]] [ts' [inner' [Hts' [Hin' ->]]]].
  rewrite <- (sibling_groups_unique _ _ _ _ _ _ Hts Hts') in *.
  apply map_ext_in. intros t Ht. apply layout_ext. intros j i Hji. split; [reflexivity|]. split; [|reflexivity].
  assert (Hc : In (j, i) (concat ts)) by (apply in_concat; eauto).
  destruct (sibling_groups_in _ _ _ _ _ _ _ _ _ Hts Hc) as [_ [_ HM]]. eapply HB; eauto.
Qed.

Lemma groups_in_unique (B : rpath -> rule -> npath -> MatchingNodes -> Prop) rp c qs gs gs' :
  (forall q a r i m m', In q qs -> rule_matches D satisfies r (i :: q) -> B a r (i :: q) m -> B a r (i :: q) m' -> m = m') ->
  groups_in D satisfies B rp c qs gs -> groups_in D satisfies B rp c qs gs' -> gs = gs'.
Proof.
  intros HB [gss [HF ->]] [gss' [HF' ->]]. f_equal. revert gss' HF'.
  induction HF as [|q x qs gss H HF IH]; intros gss' HF'; inversion HF'; subst; [reflexivity|]. f_equal.
  - eapply pair_groups_unique; [|exact H|eassumption]. intros; eapply HB; eauto. now left.
  - apply IH; [|assumption]. intros; eapply HB; eauto. now right.
Qed.

Lemma pairs_below_unique : forall p t, nget D p = Some t ->
  forall rp r m m', pairs_below D satisfies rp r p m -> pairs_below D satisfies rp r p m' -> m = m'.
Proof.
  apply (path_ind D (fun p t => forall rp r m m', pairs_below D satisfies rp r p m -> pairs_below D satisfies rp r p m' -> m = m')).
  intros p t Hp IH rp r m m' Hm Hm'.
  inversion Hm as [? ? ? n child nested Hn Hc0 Hc1 HF]; subst.
  inversion Hm' as [? ? ? n' child' nested' Hn' Hc0' Hc1' HF']; subst.
  rewrite Hp in Hn, Hn'. injection Hn as <-. injection Hn' as <-.
  assert (HB : forall k0 a r i m m', rule_matches D satisfies r (i :: k0 ++ p) ->
     pairs_below D satisfies a r (i :: k0 ++ p) m -> pairs_below D satisfies a r (i :: k0 ++ p) m' -> m = m').
  { intros k0 a r0 i m m' HM. inversion HM as [? ? n Hn]; subst.
    assert (Hk0 : exists k i', i :: k0 ++ p = k ++ i' :: p).
    { destruct k0 as [|z k0] using rev_ind; [exists [], i; reflexivity|].
      exists (i :: k0), z. simpl. now rewrite <- app_assoc. }
    destruct Hk0 as [k [i' E]]. rewrite E in *. eapply IH; eauto. }
  f_equal.
  - destruct (r_child r) as [c|]; [|now rewrite Hc0, Hc0'].
    destruct (Hc1 c eq_refl) as [gs [Hg ->]]. destruct (Hc1' c eq_refl) as [gs' [Hg' ->]]. f_equal.
    eapply pair_groups_unique; [|exact Hg|exact Hg']. intros; eapply (HB []); eauto.
  - f_equal. clear Hm Hm' Hc0 Hc1 Hc0' Hc1'. revert nested' HF'.
    induction HF as [|kc x l nested H HF IHF]; intros nested' HF'; inversion HF' as [|? y ? nested2 H2 HF2]; subst; [reflexivity|].
    f_equal; [|now apply IHF].
    destruct H as [gs [Hg ->]]. destruct H2 as [gs' [Hg' ->]]. f_equal.
    eapply groups_in_unique; [|exact Hg|exact Hg']. intros q a r0 i m m' Hq HM.
    destruct (elements_below D t p q Hp Hq) as [k0 [t' [-> _]]]. now apply HB.
Qed.

(** The specification of the search has at most one solution. *)
Theorem search_result_unique c i pp gs gs' :
  search_result D satisfies c i pp gs -> search_result D satisfies c i pp gs' -> gs = gs'.
Proof.
  intros [par [g0 [gs1 [Hpar [Hg0 [Hgs1 ->]]]]]] [par' [g0' [gs1' [Hpar' [Hg0' [Hgs1' ->]]]]]].
  rewrite Hpar in Hpar'. injection Hpar' as <-.
  assert (HB : forall q a r j m m', rule_matches D satisfies r (j :: q) ->
     pairs_below D satisfies a r (j :: q) m -> pairs_below D satisfies a r (j :: q) m' -> m = m').
  { intros q a r j m m' HM. inversion HM as [? ? n Hn]; subst. eapply pairs_below_unique; eauto. }
  f_equal.
  - eapply pair_groups_unique; [|exact Hg0|exact Hg0']. intros; eapply HB; eauto.
  - eapply groups_in_unique; [|exact Hgs1|exact Hgs1']. intros; eapply HB; eauto.
Qed.

End Search.
