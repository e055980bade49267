(** C13, C14 and C52 for chains of any length. *)

From Coq Require Import Arith NArith Bool List Lia Sorted.
From Verif Require Import Base Dom Values Match Rule RuleMatching GroupSpec GroupFacts
  MatchSpec ExtractSpec SpecUnique SearchSpec SearchFacts ExtractMain LeadingProofs MatchProofs.
Import ListNotations.

Section Chains.
Variable E : engine.
Variable R : rule.
Variable D : node.

Notation satisfies := (node_satisfies E D).
Notation nrules := (length (chain R)).
Notation opts := (fun j => r_optional (rule_at R j)).
Notation grd := (fun j => r_greedy (rule_at R j)).
Notation Mat q s := (fun j i => rule_matches D satisfies (rule_at R j) (s + i :: q)).

Lemma chain_nonempty : 0 < nrules.
Proof. destruct R as [? [?|] ? ? ? ? ? ? ?]; simpl; lia. Qed.

Lemma rule_at_0 : rule_at R 0 = R.
Proof. unfold rule_at. destruct R as [? [?|] ? ? ? ? ? ? ?]; reflexivity. Qed.

Lemma places_shift j s t : places j (shift s t) = map (fun i => s + i) (nodes_of j t).
Proof.
  unfold places, nodes_of, shift. induction t as [|[j' i] t IH]; [reflexivity|].
  cbn [map filter fst]. destruct (j' =? j); cbn [map snd]; now rewrite IH.
Qed.

(** ** C13: a mandatory rule that is not repeated has one node. *)

Lemma groups_once j q s n G ts :
  j < nrules -> is_mandatory (rule_at R j) = true -> gets_repeated R j = false ->
  sibling_groups D satisfies R q s n ts ->
  map own G = map (fun t => pairs_at q (shift s t)) ts ->
  once (q, s, n) j G.
Proof.
  intros Hj Hm Hr T1 T2 g Hg. destruct (group_in _ _ _ _ _ T2 Hg) as [u [Hu Ho]].
  destruct (group_of_list _ _ _ _ _ _ _ _ T1 Hu) as [lo [js [_ [Hhd [_ [_ Hc]]]]]].
  specialize (Hc j Hj). rewrite gets_repeated_eq in Hr.
  unfold is_mandatory in Hm. apply negb_true_iff in Hm.
  assert (Hta : takes_all opts grd j = false) by (unfold takes_all; rewrite Hm, Hr; apply andb_false_r).
  rewrite Hta in Hc.
  assert (Hin : In j (mandatory_rules nrules opts)) by (apply mandatory_in; [exact Hj|unfold is_mandatory; now rewrite Hm]).
  destruct (Forall2_in_l _ _ _ _ Hhd Hin) as [i [_ Hi]].
  apply first_of_le_one in Hc.
  destruct (nodes_of j u) as [|x [|y l]] eqn:Eu; simpl in Hc; [discriminate| |lia]. clear Hi.
  exists (s + x). intros z. cbn [fst]. rewrite Ho. split.
  - intros Hz. assert (exists k, z = k :: q) as [k ->].
    { unfold pairs_at in Hz. apply in_map_iff in Hz as [? [Hz _]]. injection Hz as _ <-. eauto. }
    apply in_pairs_at, in_shift in Hz as [i' [Hi' ->]]. apply nodes_of_in in Hi'. rewrite Eu in Hi'.
    destruct Hi' as [<-|[]]. reflexivity.
  - intros ->. apply in_pairs_at, in_shift. exists x. split; [|reflexivity]. apply nodes_of_in. rewrite Eu. now left.
Qed.

Lemma lists_once i pp t n gs j :
  nget D (i :: pp) = Some t -> search_yields E R D (Some (i :: pp)) n (Ok gs) ->
  j < nrules -> is_mandatory (rule_at R j) = true -> gets_repeated R j = false ->
  per_list D i pp gs (fun L G => once L j G).
Proof.
  intros Hp HS Hj Hm Hr. eapply per_list_intro; [exact (search_yields_result E R D _ _ _ _ _ Hp HS)|].
  intros q s m G ts T1 T2. eapply groups_once; eauto.
Qed.

(** ** C14 *)

Lemma taken_intro r (P Q : nat -> Prop) s l :
  (if r_greedy r then all_of P l else first_of P l) ->
  (forall i, P i <-> Q (s + i)) -> (forall k, Q k -> s <= k) ->
  taken r Q (map (fun i => s + i) l).
Proof.
  intros H HPQ Hge. unfold taken. destruct (r_greedy r).
  - eapply all_of_taken; eauto.
  - eapply first_of_place; eauto.
Qed.

Lemma optional_takes j : mandatory_of R = [] -> j < nrules -> r_optional (rule_at R j) = true.
Proof.
  intros Hm Hj. destruct (r_optional (rule_at R j)) eqn:Eo; [reflexivity|]. exfalso.
  assert (Hin : In (rule_at R j) (mandatory_of R)).
  { apply filter_In. split; [apply nth_In; exact Hj|]. unfold is_mandatory. now rewrite Eo. }
  rewrite Hm in Hin. destruct Hin.
Qed.

Lemma no_mandatory_rules : mandatory_of R = [] -> mandatory_rules nrules opts = [].
Proof.
  intros Hm. rewrite mandatory_of_seq in Hm. destruct (mandatory_rules nrules opts); [reflexivity|discriminate].
Qed.

Lemma group_taken q s n lo t j : mandatory_of R = [] -> j < nrules ->
  is_group nrules n opts grd (Mat q s) lo [] t ->
  taken (rule_at R j)
    (fun k => s + lo <= k < s + n /\ rule_matches D satisfies (rule_at R j) (k :: q) /\
              forall j' k', In (j', k') (shift s t) -> j' < j -> k' < k)
    (places j (shift s t)).
Proof.
  intros Hm Hj [_ [_ [_ [Hrl Hc]]]]. rewrite places_shift. specialize (Hc j Hj).
  assert (Hta : takes_all opts grd j = r_greedy (rule_at R j)).
  { unfold takes_all. rewrite (optional_takes j Hm Hj). cbn [orb]. apply andb_true_r. }
  rewrite Hta in Hc. eapply taken_intro.
  - destruct (r_greedy (rule_at R j)); exact Hc.
  - intros i. cbn beta. unfold candidate, ends_before. rewrite (no_mandatory_rules Hm). split.
    + intros [H1 [H2 [H3 _]]]. split; [lia|]. split; [exact H2|]. intros j' k' Hin Hlt.
      apply in_shift in Hin as [i' [Hin ->]]. specialize (H3 j' i' Hin Hlt). lia.
    + intros [H1 [H2 H3]]. split; [lia|]. split; [exact H2|]. split; [|split; [|exact I]].
      * intros j' i' Hin Hlt. assert (s + i' < s + i) by (apply (H3 j'); [apply in_shift; eauto|exact Hlt]). lia.
      * intros j' i' Hin Hlt Ho. rewrite (optional_takes j' Hm) in Ho; [discriminate|]. eauto.
  - cbn beta. intros k [Hk _]. lia.
Qed.

Lemma taken_places_le_one r P l : taken r P l -> r_greedy r = false -> length l <= 1.
Proof. unfold taken. intros H Hg. rewrite Hg in H. destruct H as [[k|] [_ ->]]; simpl; lia. Qed.

Lemma groups_optional q s n : mandatory_of R = [] ->
  forall lo ts, are_optional_groups nrules n opts grd (Mat q s) lo ts ->
  forall G, map own G = map (fun t => pairs_at q (shift s t)) ts ->
  optional_from E D R q (s + n) (s + lo) G.
Proof.
  intros Hm lo ts HA. induction HA as [lo HG|lo t HG Hne Hl|lo t i ts HG Hgr Hno HR IH]; intros G HGs.
  - destruct G as [|g G]; [|discriminate]. cbn [optional_from]. intros j k Hj Hk HM.
    pose proof (group_taken q s n lo [] j Hm Hj HG) as HT. unfold taken in HT.
    assert (HC : s + lo <= k < s + n /\ rule_matches D satisfies (rule_at R j) (k :: q) /\
       forall j' k', In (j', k') (shift s []) -> j' < j -> k' < k) by (split; [lia|split; [exact HM|intros ? ? []]]).
    cbn [places shift map filter] in HT. destruct (r_greedy (rule_at R j)).
    + destruct HT as [_ HT]. apply HT in HC. destruct HC.
    + destruct HT as [[x|] [HT Heq]]; [discriminate|]. exact (HT k HC).
  - destruct G as [|g [|? ?]]; try discriminate. injection HGs as Hg.
    cbn [optional_from]. exists (shift s t). split; [exact Hg|]. split; [destruct t; [congruence|discriminate]|].
    split; [apply shift_in_order; apply HG|]. split; [intros j Hj; now apply group_taken|].
    cbv zeta. rewrite places_shift. destruct (nodes_of (nrules - 1) t) as [|x [|y l]]; cbn [map]; try reflexivity.
    destruct Hl as [->|Hl]; [reflexivity|discriminate].
  - destruct G as [|g G]; [discriminate|]. cbn [map] in HGs. injection HGs as Hg HGs.
    cbn [optional_from]. exists (shift s t). split; [exact Hg|].
    split; [destruct t; [discriminate|discriminate]|].
    split; [apply shift_in_order; apply HG|]. split; [intros j Hj; now apply group_taken|].
    cbv zeta. rewrite places_shift, Hno. cbn [map]. rewrite Hgr.
    replace (S (s + i)) with (s + S i) by lia. now apply IH.
Qed.

Lemma lists_optional i pp t n gs :
  nget D (i :: pp) = Some t -> search_yields E R D (Some (i :: pp)) n (Ok gs) ->
  mandatory_of R = [] ->
  per_list D i pp gs (optional_groups E D R).
Proof.
  intros Hp HS Hm. eapply per_list_intro; [exact (search_yields_result E R D _ _ _ _ _ Hp HS)|].
  intros q s m G ts T1 T2. unfold optional_groups. rewrite <- (Nat.add_0_r s) at 2.
  eapply groups_optional; [exact Hm| |exact T2]. unfold sibling_groups in T1. rewrite Hm in T1. exact T1.
Qed.

(** Nothing is lost if the last rule has a node in every group. *)
Lemma optional_none_lost q hi : forall G lo,
  optional_from E D R q hi lo G ->
  r_greedy (rule_at R (nrules - 1)) = false ->
  (forall g, In g G -> exists x, In (repeat RNext (nrules - 1), x) (own g)) ->
  forall j k, j < nrules -> lo <= k < hi -> rule_matches D satisfies (rule_at R j) (k :: q) ->
  exists g a k', In g G /\ In (a, k' :: q) (own g) /\ k <= k'.
Proof.
  induction G as [|g G IH]; intros lo H Hgr Hall j k Hj Hk HM; cbn [optional_from] in H.
  - exfalso. exact (H j k Hj Hk HM).
  - destruct H as [t [Ho [_ [_ [HT HN]]]]]. cbv zeta in HN.
    assert (Hl : nrules - 1 < nrules) by (pose proof chain_nonempty; lia).
    pose proof (taken_places_le_one _ _ _ (HT _ Hl) Hgr) as Hle.
    destruct (Hall g (or_introl eq_refl)) as [x Hx]. rewrite Ho in Hx.
    assert (exists k0, x = k0 :: q) as [k0 ->].
    { unfold pairs_at in Hx. apply in_map_iff in Hx as [? [Hz _]]. injection Hz as _ <-. eauto. }
    pose proof Hx as Hx'. apply in_pairs_at in Hx.
    assert (Hp : In k0 (places (nrules - 1) t)).
    { unfold places. apply in_map_iff. exists (nrules - 1, k0). split; [reflexivity|]. apply filter_In.
      split; [exact Hx|]. simpl. apply Nat.eqb_refl. }
    destruct (places (nrules - 1) t) as [|k1 [|? ?]]; simpl in Hle; [destruct Hp| |lia].
    destruct Hp as [->|[]]. rewrite Hgr in HN.
    destruct (Nat.le_gt_cases k k0) as [Hkk|Hkk].
    + exists g, (repeat RNext (nrules - 1)), k0. split; [now left|]. rewrite Ho. split; [exact Hx'|exact Hkk].
    + destruct (IH (S k0) HN Hgr) with (j := j) (k := k) as [g' [a [k' [H1 [H2 H3]]]]]; auto; try lia.
      { intros g' Hg'. apply Hall. now right. }
      exists g', a, k'. split; [now right|auto].
Qed.

Lemma lists_none_lost i pp t n gs :
  nget D (i :: pp) = Some t -> search_yields E R D (Some (i :: pp)) n (Ok gs) ->
  mandatory_of R = [] -> r_greedy (rule_at R (nrules - 1)) = false ->
  (forall g, In g gs -> exists x, In (repeat RNext (nrules - 1), x) (own g)) ->
  none_lost E D R i pp gs.
Proof.
  intros Hp HS Hm Hgr Hall q s m j k HL Hk Hj HM.
  destruct (lists_optional _ _ _ _ _ Hp HS Hm) as [Gs [-> HF]].
  destruct (Forall2_in_l _ _ _ _ HF HL) as [G [HG HP]]. cbn [optional_groups] in HP.
  destruct (optional_none_lost q (s + m) G s HP Hgr) with (j := j) (k := k) as [g [a [k' [H1 H2]]]]; auto.
  { intros g Hg. apply Hall. apply in_concat. eauto. }
  exists g, a, k'. split; [apply in_concat; eauto|exact H2].
Qed.

(** ** C52 *)

Lemma trailing_rules_eq : mandatory_of R <> [] -> trailing_rules R = trails nrules opts grd.
Proof.
  intros Hm. destruct (opts_mandatory R Hm) as [f [ms Em]].
  pose proof chain_nonempty as Hc.
  unfold trailing_rules, trails. cbv zeta. rewrite gets_repeated_eq.
  assert (Hlast : r_optional (rule_at R (nrules - 1)) = false -> last (mandatory_rules nrules opts) 0 = nrules - 1).
  { intros Ho. unfold mandatory_rules. replace nrules with (S (nrules - 1)) at 1 by lia.
    rewrite seq_S, filter_app. cbn [filter plus]. rewrite Ho. cbn [negb]. apply last_last. }
  assert (Hin : In (last (mandatory_rules nrules opts) 0) (mandatory_rules nrules opts)) by (apply last_in; rewrite Em; discriminate).
  apply filter_In in Hin as [_ Ho].
  destruct (r_optional (rule_at R (nrules - 1))) eqn:Eo; cbn [orb].
  - destruct (last (mandatory_rules nrules opts) 0 =? nrules - 1) eqn:El; [|reflexivity].
    apply Nat.eqb_eq in El. rewrite El, Eo in Ho. discriminate.
  - rewrite (Hlast eq_refl), Nat.eqb_refl. reflexivity.
Qed.

Lemma ordered_last (t : list (nat * nat)) x : ordered t -> In x t ->
  (forall y, In y t -> snd y <= snd x) -> snd (last t (0, 0)) = snd x.
Proof.
  intros HO Hx Hmax. assert (Hl : In (last t (0, 0)) t) by (apply last_in; intros ->; destruct Hx).
  pose proof (Hmax _ Hl). enough (snd x <= snd (last t (0, 0))) by lia. clear Hl H Hmax.
  induction HO as [|a t HO IH HF]; [destruct Hx|]. destruct t as [|b t]; [destruct Hx as [<-|[]]; simpl; lia|].
  rewrite Forall_forall in HF. change (last (a :: b :: t) (0, 0)) with (last (b :: t) (0, 0)).
  destruct Hx as [<-|Hx]; [|now apply IH].
  assert (In (last (b :: t) (0, 0)) (b :: t)) by (apply last_in; discriminate).
  specialize (HF _ H). lia.
Qed.

Lemma ordered_lt (t : list (nat * nat)) x y : ordered t -> In x t -> In y t -> fst x < fst y -> snd x < snd y.
Proof.
  intros HO Hx Hy Hlt. induction HO as [|a t HO IH HF]; [destruct Hx|]. rewrite Forall_forall in HF.
  destruct Hx as [<-|Hx]; destruct Hy as [<-|Hy]; [lia| | |auto].
  - apply HF, Hy.
  - apply HF in Hx. lia.
Qed.

Section FirstRule.
Hypothesis Ho : r_optional R = true.
Hypothesis Hm : mandatory_of R <> [].
Variables (f : nat) (ms : list nat).
Hypothesis Em : mandatory_rules nrules opts = f :: ms.

Lemma first_mandatory : 0 < f /\ f < nrules /\ r_optional (rule_at R f) = false.
Proof.
  assert (Hin : In f (mandatory_rules nrules opts)) by (rewrite Em; now left).
  apply filter_In in Hin as [Hin Hof]. apply in_seq in Hin. apply negb_true_iff in Hof.
  split; [|split; [lia|exact Hof]]. destruct f; [|lia]. rewrite rule_at_0 in Hof. congruence.
Qed.

Lemma first_mandatory_le j : j < nrules -> is_mandatory (rule_at R j) = true -> f <= j.
Proof.
  intros Hj Hmj. assert (Hin : In j (mandatory_rules nrules opts)) by now apply mandatory_in.
  assert (HSo : StronglySorted lt (mandatory_rules nrules opts)) by apply GroupAlg.ss_filter, GroupAlg.seq_sorted.
  rewrite Em in HSo, Hin. inversion HSo as [|? ? _ HF]; subst. rewrite Forall_forall in HF.
  destruct Hin as [<-|Hin]; [lia|]. specialize (HF _ Hin). lia.
Qed.

Lemma not_lone : lone nrules opts grd = false.
Proof.
  destruct (lone nrules opts grd) eqn:El; [|reflexivity]. destruct (lone_first R f ms Em El) as [Hf _].
  pose proof first_mandatory. lia.
Qed.

(** The first node of a group that belongs to a mandatory rule. *)
Lemma group_first_mandatory q s n lo js t :
  is_group nrules n opts grd (Mat q s) lo js t ->
  exists js', js = hd 0 js :: js' /\ In (f, hd 0 js) t /\
    forall j i, In (j, i) t -> is_mandatory (rule_at R j) = true -> hd 0 js <= i.
Proof.
  intros [_ [Hhd [Hord [Hrl _]]]]. rewrite Em in Hhd. inversion Hhd as [|? a ? js' Ha Hhd']; subst.
  exists js'. split; [reflexivity|]. cbn [hd].
  assert (Hina : In (f, a) t).
  { apply nodes_of_in. destruct (nodes_of f t); [discriminate|]. injection Ha as ->. now left. }
  split; [exact Hina|]. intros j i Hin Hmj.
  pose proof (first_mandatory_le j (Hrl _ _ Hin) Hmj) as Hle.
  destruct (Nat.eq_dec j f) as [->|Hne].
  - pose proof (nodes_of_sorted t f Hord) as HS. apply nodes_of_in in Hin.
    destruct (nodes_of f t) as [|x l]; [destruct Hin|]. injection Ha as ->. destruct Hin as [<-|Hin]; [lia|].
    inversion HS as [|? ? _ HF]; subst. rewrite Forall_forall in HF. specialize (HF _ Hin). lia.
  - pose proof (ordered_lt t (f, a) (j, i) Hord Hina Hin). simpl in *. lia.
Qed.

Lemma sorted_last_le js : StronglySorted lt js -> hd 0 js <= last js 0.
Proof.
  intros HS. destruct js as [|a js]; [simpl; lia|]. destruct js as [|b js]; [simpl; lia|].
  inversion HS as [|? ? _ HF]; subst. rewrite Forall_forall in HF.
  assert (In (last (b :: js) 0) (b :: js)) by (apply last_in; discriminate).
  specialize (HF _ H). simpl in *. lia.
Qed.

(** What the first rule can have. *)
Lemma first_rule_candidate q s n lo js t i :
  is_group nrules n opts grd (Mat q s) lo js t ->
  (candidate nrules n opts grd (Mat q s) lo (last js 0) t 0 i <->
   lo <= i < hd 0 js /\ rule_matches D satisfies R (s + i :: q)).
Proof.
  intros HGr. destruct (group_first_mandatory _ _ _ _ _ _ HGr) as [js' [Ejs [Hina Hmin]]].
  destruct first_mandatory as [F1 [F2 F3]].
  pose proof (is_group_range _ _ _ _ _ _ _ _ _ _ HGr Hina) as [_ [Hr _]].
  destruct HGr as [[[HFe HSe] _] [_ [_ [Hrl _]]]]. pose proof (sorted_last_le js HSe) as Hle.
  unfold candidate. rewrite rule_at_0. split.
  - intros [H1 [H2 [_ [H4 _]]]]. split; [|exact H2]. specialize (H4 f (hd 0 js) Hina F1 F3). lia.
  - intros [H1 H2]. split; [lia|]. split; [exact H2|]. split; [intros; lia|]. split.
    + intros j' i' Hin Hlt Hoj. assert (hd 0 js <= i') by (eapply Hmin; [exact Hin|unfold is_mandatory; now rewrite Hoj]). lia.
    + unfold ends_before. rewrite Em. right. intros i' Hi'. lia.
Qed.

(** A search that starts at a match of the first mandatory rule. *)
Lemma resumed_head q s n lo js t :
  is_group nrules n opts grd (Mat q s) lo js t -> (lo < n -> Mat q s f lo) -> hd 0 js = lo.
Proof.
  intros HGr HM. destruct (group_first_mandatory _ _ _ _ _ _ HGr) as [js' [Ejs [Hina _]]].
  destruct HGr as [[[HFe HSe] Hmin] _]. rewrite Em in HFe. rewrite Ejs in *. cbn [hd] in *.
  inversion HFe as [|? ? ? ? [H1 H2] HFe']; subst. inversion HSe as [|? ? HSe' HFl]; subst.
  assert (HE : embedding nrules n opts (Mat q s) lo (lo :: js')).
  { split.
    - rewrite Em. constructor; [|exact HFe']. split; [lia|]. apply HM. lia.
    - constructor; [exact HSe'|]. rewrite Forall_forall in *. intros x Hx. specialize (HFl x Hx). lia. }
  apply Hmin in HE. inversion HE; subst. lia.
Qed.

Lemma resumed_no_first_rule q s n : trails nrules opts grd = true ->
  forall ts lo, are_groups nrules n opts grd (Mat q s) lo ts -> (lo < n -> Mat q s f lo) ->
  forall t i, In t ts -> ~ In (0, i) t.
Proof.
  intros Htr ts. induction ts as [|t ts IH]; intros lo HA HM u i Hu Hin; [destruct Hu|].
  inversion HA as [|? js ? ? HGr HL HR]; subst. destruct Hu as [->|Hu].
  - pose proof (resumed_head _ _ _ _ _ _ HGr HM) as Hhd.
    pose proof (is_group_candidate _ _ _ _ _ _ _ _ _ _ HGr Hin) as [_ HC].
    apply (first_rule_candidate _ _ _ _ _ _ _ HGr) in HC. lia.
  - destruct (HR not_lone) as [lo' [Hres HA']]. unfold resumes in Hres. rewrite Htr, Em in Hres. cbn [hd] in Hres.
    destruct Hres as [_ [_ H3]]. exact (IH lo' HA' H3 u i Hu Hin).
Qed.

Lemma groups_first_rule q s n :
  forall ts lo, are_groups nrules n opts grd (Mat q s) lo ts ->
  forall G, map own G = map (fun t => pairs_at q (shift s t)) ts ->
  first_rule_from E D R q (s + lo) G.
Proof.
  pose proof (trailing_rules_eq Hm) as Htr. pose proof chain_nonempty as Hc0.
  intros ts. induction ts as [|t ts IH]; intros lo HA G HG.
  { destruct G; [exact I|discriminate]. }
  inversion HA as [|? js ? ? HGr HL HR]; subst.
  destruct G as [|g G]; [discriminate|]. cbn [map] in HG. injection HG as Hg HG.
  destruct (HR not_lone) as [lo' [Hres HA']]. clear HR HL.
  destruct (group_first_mandatory _ _ _ _ _ _ HGr) as [js' [Ejs [Hina Hmin]]].
  destruct first_mandatory as [F1 [F2 F3]].
  pose proof (proj1 (proj2 (proj2 HGr))) as Hord.
  cbn [first_rule_from]. exists (shift s t), (s + hd 0 js).
  split; [exact Hg|]. split; [now apply shift_in_order|]. split; [|split].
  - split.
    + exists f. split; [apply in_shift; eauto|]. unfold is_mandatory. now rewrite F3.
    + intros j k Hin Hmj. apply in_shift in Hin as [i [Hin ->]]. pose proof (Hmin _ _ Hin Hmj). lia.
  - rewrite places_shift. destruct HGr as [HG1 [HG2 [HG3 [HG4 Hc]]]] eqn:EG. clear EG.
    pose proof (Hc 0 Hc0) as C0.
    assert (T0 : takes_all opts grd 0 = r_greedy R).
    { unfold takes_all. rewrite rule_at_0, Ho. cbn [orb]. apply andb_true_r. }
    rewrite T0 in C0. eapply taken_intro.
    + destruct (r_greedy R); exact C0.
    + intros i. cbn beta. rewrite (first_rule_candidate _ _ _ _ _ _ i HGr). split; intros [H1 H2]; (split; [lia|exact H2]).
    + cbn beta. intros k [Hk _]. lia.
  - rewrite Htr. destruct (trails nrules opts grd) eqn:Et.
    + unfold resumes in Hres. rewrite Et, Em in Hres. cbn [hd] in Hres. destruct Hres as [_ [_ H3]].
      intros g' x Hg' Hx. destruct (group_in _ _ _ _ _ HG Hg') as [u [Hu Hou]]. rewrite Hou in Hx.
      assert (exists k0, x = k0 :: q) as [k0 ->].
      { unfold pairs_at in Hx. apply in_map_iff in Hx as [? [Hz _]]. injection Hz as _ <-. eauto. }
      apply (in_pairs_at q _ 0) in Hx. apply in_shift in Hx as [i [Hx _]].
      exact (resumed_no_first_rule _ _ _ Et _ _ HA' H3 _ _ Hu Hx).
    + assert (Hl : snd (last (shift s t) (0, 0)) = s + last js 0).
      { assert (Hin : In (last (mandatory_rules nrules opts) 0, last js 0) t).
        { rewrite Em. apply heads_last. rewrite <- Em. apply HGr. }
        rewrite (ordered_last (shift s t) (last (mandatory_rules nrules opts) 0, s + last js 0)); [reflexivity| | |].
        - pose proof (shift_in_order s t Hord) as HO. exact HO.
        - apply in_shift. eauto.
        - intros [j k] Hin'. apply in_shift in Hin' as [i [Hin' ->]]. cbn [snd].
          pose proof (group_before_next _ _ _ lo js t n q s lo' j i f ms Em not_lone HGr Hres Hin') as Hb.
          unfold resumes in Hres. rewrite Et in Hres. lia. }
      rewrite Hl. unfold resumes in Hres. rewrite Et in Hres. subst lo'.
      replace (S (s + last js 0)) with (s + S (last js 0)) by lia. now apply IH.
Qed.

End FirstRule.

Lemma lists_first_rule i pp t n gs :
  nget D (i :: pp) = Some t -> search_yields E R D (Some (i :: pp)) n (Ok gs) ->
  r_optional R = true -> mandatory_of R <> [] ->
  per_list D i pp gs (first_rule_groups E D R).
Proof.
  intros Hp HS Ho Hm. eapply per_list_intro; [exact (search_yields_result E R D _ _ _ _ _ Hp HS)|].
  intros q s m G ts T1 T2. unfold first_rule_groups. rewrite <- (Nat.add_0_r s).
  destruct (opts_mandatory R Hm) as [f [ms Em]].
  eapply (groups_first_rule Ho Hm f ms Em q s m); [|exact T2]. eapply with_mandatory; [exact Hm|exact T1].
Qed.

End Chains.
