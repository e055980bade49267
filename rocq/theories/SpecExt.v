(** The specification of the search depends only on which nodes satisfy which
    rules. *)

From Coq Require Import Arith Bool List Lia Sorted.
From Verif Require Import Base Dom Match Rule RuleMatching RuleProofs MatchRefine GroupSpec MatchSpec MatchProofs ExtractSpec
  ExtractProofs SpecUnique.
Import ListNotations.

Section Groups.
Variable rules nodes : nat.
Variable o g : nat -> bool.
Variable M M' : nat -> nat -> Prop.
Hypothesis HM : forall j i, M j i <-> M' j i.

Lemma embedding_ext lo js : embedding rules nodes o M lo js <-> embedding rules nodes o M' lo js.
Proof.
  unfold embedding. assert (H : forall l js, Forall2 (fun j i => lo <= i < nodes /\ M j i) l js <-> Forall2 (fun j i => lo <= i < nodes /\ M' j i) l js).
  { intros l js0. split; intros H; induction H as [|j i l l' [H1 H2] _ IH]; constructor; try assumption; (split; [exact H1|now apply HM]). }
  now rewrite H.
Qed.

Lemma leftmost_ext lo js : leftmost_embedding rules nodes o M lo js <-> leftmost_embedding rules nodes o M' lo js.
Proof.
  unfold leftmost_embedding. rewrite embedding_ext. split; intros [H1 H2]; (split; [exact H1|]); intros js' H; apply H2; now apply embedding_ext.
Qed.

Lemma ends_before_ext m i : ends_before rules o g M m i <-> ends_before rules o g M' m i.
Proof.
  unfold ends_before. destruct (mandatory_rules rules o); [tauto|].
  split; intros [H|H]; try (now left); right; intros i' Hi HX; apply (H i' Hi); now apply HM.
Qed.

Lemma candidate_ext lo m t j i : candidate rules nodes o g M lo m t j i <-> candidate rules nodes o g M' lo m t j i.
Proof. unfold candidate. now rewrite ends_before_ext, HM. Qed.

Lemma all_of_ext (P P' : nat -> Prop) l : (forall i, P i <-> P' i) -> all_of P l <-> all_of P' l.
Proof. intros H. unfold all_of. split; intros [H1 H2]; (split; [exact H1|]); intros i; rewrite H2; [|symmetry]; apply H. Qed.

Lemma first_of_ext (P P' : nat -> Prop) l : (forall i, P i <-> P' i) -> first_of P l <-> first_of P' l.
Proof.
  intros H. unfold first_of. split; intros [[H1 H2]|[i [H1 [H2 H3]]]].
  - left. split; [exact H1|]. intros i Hi. apply (H2 i). now apply H.
  - right. exists i. split; [exact H1|]. split; [now apply H|]. intros i' Hi. apply H3. now apply H.
  - left. split; [exact H1|]. intros i Hi. apply (H2 i). now apply H.
  - right. exists i. split; [exact H1|]. split; [now apply H|]. intros i' Hi. apply H3. now apply H.
Qed.

Lemma is_group_ext lo js t : is_group rules nodes o g M lo js t <-> is_group rules nodes o g M' lo js t.
Proof.
  unfold is_group. rewrite leftmost_ext.
  assert (H : forall j, (if takes_all o g j then all_of else first_of) (candidate rules nodes o g M lo (last js 0) t j) (nodes_of j t) <->
                        (if takes_all o g j then all_of else first_of) (candidate rules nodes o g M' lo (last js 0) t j) (nodes_of j t)).
  { intros j. destruct (takes_all o g j); [apply all_of_ext|apply first_of_ext]; intros i; apply candidate_ext. }
  split; intros [H1 [H2 [H3 [H4 H5]]]]; repeat (split; [assumption|]); intros j Hj; apply H; exact (H5 j Hj).
Qed.

Lemma resumes_ext m lo : resumes rules nodes o g M m lo <-> resumes rules nodes o g M' m lo.
Proof.
  unfold resumes. destruct (trails rules o g); [|tauto].
  split; intros [H1 [H2 H3]]; (split; [exact H1|]; split; [intros i Hi HX; apply (H2 i Hi); now apply HM|intros Hl; apply HM; auto]).
Qed.

Lemma are_optional_groups_ext lo ts : are_optional_groups rules nodes o g M lo ts -> are_optional_groups rules nodes o g M' lo ts.
Proof.
  induction 1 as [lo H|lo t H H1 H2|lo t i ts H H1 H2 _ IH].
  - constructor. now apply is_group_ext.
  - constructor; auto. now apply is_group_ext.
  - econstructor; eauto. now apply is_group_ext.
Qed.

Lemma are_groups_ext : forall ts lo, are_groups rules nodes o g M lo ts -> are_groups rules nodes o g M' lo ts.
Proof.
  induction ts as [|t ts IH]; intros lo H; inversion H as [? HN|? js ? ? HG HL HR]; subst.
  - constructor. intros js HX. apply (HN js). now apply embedding_ext.
  - econstructor; [apply is_group_ext; exact HG|exact HL|]. intros Hl. destruct (HR Hl) as [lo' [H1 H2]].
    exists lo'. split; [now apply resumes_ext|now apply IH].
Qed.

End Groups.

Lemma rule_of_chain R c r : rule_of R c -> In r (chain c) -> rule_of R r.
Proof.
  intros [rp H] Hin. apply In_nth_error in Hin. destruct Hin as [j Hj].
  assert (Hl : j < length (chain c)) by (apply nth_error_Some; congruence).
  exists (address rp j). rewrite (rget_next R rp j c H Hl). unfold rule_at. now rewrite (nth_error_nth _ _ _ Hj).
Qed.

Lemma rule_of_at R c j : rule_of R c -> rule_of R (rule_at c j).
Proof.
  intros H. unfold rule_at. destruct (nth_in_or_default j (chain c) c) as [Hi|Hi]; [now apply (rule_of_chain R c)|].
  now rewrite Hi.
Qed.

Lemma rule_of_child R r c : rule_of R r -> r_child r = Some c -> rule_of R c.
Proof. intros [rp H] Hc. exists (RChild :: rp). simpl. rewrite H. exact Hc. Qed.

Lemma rule_of_nested R r c : rule_of R r -> In c (r_nested r) -> rule_of R c.
Proof. intros [rp H] Hc. apply In_nth_error in Hc. destruct Hc as [k Hk]. exists (RNested k :: rp). simpl. now rewrite H. Qed.

Section Ext.
Variable D : node.
Variable R : rule.

Lemma embedded_weaken (P Q : rule -> npath -> Prop) rs p :
  (forall r k, In r rs -> P r (k :: p) -> Q r (k :: p)) -> embedded P rs p -> embedded Q rs p.
Proof.
  intros H [ks [HF HS]]. exists ks. split; [|exact HS]. clear HS.
  induction HF as [|r k rs ks Hr _ IH]; constructor; [apply H; [now left|exact Hr]|]. apply IH. intros r' k' Hin. apply H. now right.
Qed.

Lemma below_path p q k : exists k' i', k :: q ++ p = k' ++ i' :: (p : npath).
Proof.
  destruct q as [|z q] using rev_ind; [exists [], k; reflexivity|].
  exists (k :: q), z. simpl. now rewrite <- app_assoc.
Qed.

Lemma rule_matches_weaken (sat sat' : rule -> npath -> Prop) :
  (forall r p n, rule_of R r -> nget D p = Some n -> sat r p -> sat' r p) ->
  forall p n, nget D p = Some n -> forall r, rule_of R r -> rule_matches D sat r p -> rule_matches D sat' r p.
Proof.
  intros HS. apply (path_ind D (fun p n => forall r, rule_of R r -> rule_matches D sat r p -> rule_matches D sat' r p)).
  intros p n Hp IH r Hr H. inversion H as [? ? n' Hn' H1 H2 H3 H4]; subst. rewrite Hp in Hn'. injection Hn' as <-.
  assert (HB : forall q k r0, rule_of R r0 -> rule_matches D sat r0 (k :: q ++ p) -> rule_matches D sat' r0 (k :: q ++ p)).
  { intros q k r0 Hr0 HX. inversion HX as [? ? n0 Hn0]; subst. destruct (below_path p q k) as [k' [i' E]]. rewrite E in *. eapply IH; eauto. }
  assert (HC : forall c, rule_of R c -> forall r0, In r0 (mandatory_of c) -> rule_of R r0).
  { intros c Hc r0 Hin. apply filter_In in Hin. now apply (rule_of_chain R c). }
  econstructor; [exact Hp|eapply HS; eauto|exact H2| |].
  - intros c Hc. eapply embedded_weaken; [|exact (H3 c Hc)]. intros r0 k Hin. apply (HB []). eapply HC; [|exact Hin]. eapply rule_of_child; eauto.
  - intros c Hc Hm. destruct (H4 c Hc Hm) as [q [Hq He]]. exists q. split; [exact Hq|].
    destruct (elements_below D n p q Hp Hq) as [k0 [t' [-> _]]].
    eapply embedded_weaken; [|exact He]. intros r0 k Hin. apply HB. eapply HC; [|exact Hin]. eapply rule_of_nested; eauto.
Qed.

Variable sat sat' : rule -> npath -> Prop.
Hypothesis HS : forall r p n, rule_of R r -> nget D p = Some n -> (sat r p <-> sat' r p).

Lemma rule_matches_ext r p : rule_of R r -> (rule_matches D sat r p <-> rule_matches D sat' r p).
Proof.
  intros Hr. split; intros H; assert (HX : exists n, nget D p = Some n) by (inversion H; eauto); destruct HX as [n H0].
  - exact (rule_matches_weaken sat sat' (fun r0 p0 n0 A B => proj1 (HS r0 p0 n0 A B)) p n H0 r Hr H).
  - exact (rule_matches_weaken sat' sat (fun r0 p0 n0 A B => proj2 (HS r0 p0 n0 A B)) p n H0 r Hr H).
Qed.

Lemma sibling_groups_ext c pp s n ts : rule_of R c -> sibling_groups D sat c pp s n ts -> sibling_groups D sat' c pp s n ts.
Proof.
  intros Hc. unfold sibling_groups.
  assert (HM : forall j i, rule_matches D sat (rule_at c j) (s + i :: pp) <-> rule_matches D sat' (rule_at c j) (s + i :: pp)).
  { intros j i. apply rule_matches_ext. now apply rule_of_at. }
  destruct (mandatory_of c); [apply are_optional_groups_ext|apply are_groups_ext]; exact HM.
Qed.

Lemma pair_groups_ext (B B' : rpath -> rule -> npath -> MatchingNodes -> Prop) rp c pp s n gs : rule_of R c ->
  (forall a r i m, rule_of R r -> rule_matches D sat r (i :: pp) -> B a r (i :: pp) m -> B' a r (i :: pp) m) ->
  pair_groups D sat B rp c pp s n gs -> pair_groups D sat' B' rp c pp s n gs.
Proof.
  intros Hc HB [ts [inner [Hts [Hin ->]]]]. exists ts, inner. split; [now apply sibling_groups_ext|]. split; [|reflexivity].
  intros j i Hji. destruct (sibling_groups_in _ _ _ _ _ _ _ _ _ Hts Hji) as [_ [_ HM]]. apply HB; auto. now apply rule_of_at.
Qed.

Lemma groups_in_ext (B B' : rpath -> rule -> npath -> MatchingNodes -> Prop) rp c qs gs : rule_of R c ->
  (forall q a r i m, In q qs -> rule_of R r -> rule_matches D sat r (i :: q) -> B a r (i :: q) m -> B' a r (i :: q) m) ->
  groups_in D sat B rp c qs gs -> groups_in D sat' B' rp c qs gs.
Proof.
  intros Hc HB [gss [HF ->]]. exists gss. split; [|reflexivity].
  induction HF as [|q x qs gss H HF IH]; constructor.
  - eapply pair_groups_ext; [exact Hc| |exact H]. intros; eapply HB; eauto. now left.
  - apply IH. intros; eapply HB; eauto. now right.
Qed.

Lemma pairs_below_ext : forall p n, nget D p = Some n -> forall rp r m, rule_of R r ->
  pairs_below D sat rp r p m -> pairs_below D sat' rp r p m.
Proof.
  apply (path_ind D (fun p n => forall rp r m, rule_of R r -> pairs_below D sat rp r p m -> pairs_below D sat' rp r p m)).
  intros p n Hp IH rp r m Hr H. inversion H as [? ? ? n' child nested Hn' H0 H1 HF]; subst. rewrite Hp in Hn'. injection Hn' as <-.
  assert (HB : forall q k a r0 m0, rule_of R r0 -> rule_matches D sat r0 (k :: q ++ p) ->
    pairs_below D sat a r0 (k :: q ++ p) m0 -> pairs_below D sat' a r0 (k :: q ++ p) m0).
  { intros q k a r0 m0 Hr0 HX. inversion HX as [? ? n0 Hn0]; subst. destruct (below_path p q k) as [k' [i' E]]. rewrite E in *. eapply IH; eauto. }
  apply (pairs_below_intro _ _ _ _ _ n); [exact Hp|exact H0| |].
  - intros c Hc. destruct (H1 c Hc) as [gs [Hg ->]]. exists gs. split; [|reflexivity].
    eapply pair_groups_ext; [|intros a r0 i m0; apply (HB [])|exact Hg]. eapply rule_of_child; eauto.
  - assert (HN : forall kc, In kc (combine (seq 0 (length (r_nested r))) (r_nested r)) -> rule_of R (snd kc)).
    { intros [k c] Hin. apply in_combine_r in Hin. eapply rule_of_nested; eauto. }
    clear H H0 H1. induction HF as [|kc x l nested [gs [Hg ->]] HF IHF]; constructor; [|apply IHF; intros; apply HN; now right].
    exists gs. split; [|reflexivity]. eapply groups_in_ext; [apply HN; now left| |exact Hg].
    intros q a r0 i m0 Hq Hr0. destruct (elements_below D n p q Hp Hq) as [k0 [t' [-> _]]]. now apply HB.
Qed.

Theorem search_result_ext i pp gs : search_result D sat R i pp gs -> search_result D sat' R i pp gs.
Proof.
  intros [par [g0 [gs1 [Hpar [Hg0 [Hgs1 ->]]]]]]. exists par, g0, gs1.
  assert (HR : rule_of R R) by (exists []; reflexivity).
  assert (HB : forall q a r j m, rule_of R r -> rule_matches D sat r (j :: q) ->
     pairs_below D sat a r (j :: q) m -> pairs_below D sat' a r (j :: q) m).
  { intros q a r j m Hr HM. inversion HM as [? ? n Hn]; subst. now apply (pairs_below_ext _ n). }
  split; [exact Hpar|]. split; [|split; [|reflexivity]].
  - eapply pair_groups_ext; [exact HR| |exact Hg0]. intros; eapply HB; eauto.
  - eapply groups_in_ext; [exact HR| |exact Hgs1]. intros; eapply HB; eauto.
Qed.
End Ext.
