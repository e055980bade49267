(** C52: the groups of a chain of an optional rule and a mandatory rule. *)

From Coq Require Import Arith NArith Bool List Lia Sorted.
From Verif Require Import Base Dom Values Match Rule RuleMatching GroupSpec GroupFacts
  MatchSpec ExtractSpec SpecUnique SearchSpec SearchFacts ExtractMain.
Import ListNotations.

Section Leading.
Variable E : engine.
Variable R : rule.
Variable D : node.

Notation satisfies := (node_satisfies E D).
Notation nrules := (length (chain R)).
Notation opts := (fun j => r_optional (rule_at R j)).
Notation grd := (fun j => r_greedy (rule_at R j)).
Notation Mat q s := (fun j i => rule_matches D satisfies (rule_at R j) (s + i :: q)).

Lemma all_of_taken (P Q : nat -> Prop) s l :
  all_of P l -> (forall i, P i <-> Q (s + i)) -> (forall k, Q k -> s <= k) ->
  StronglySorted lt (map (fun i => s + i) l) /\ forall k, In k (map (fun i => s + i) l) <-> Q k.
Proof.
  intros [H1 H2] HPQ Hge. split.
  - clear H2. induction H1 as [|x l H IH HF]; simpl; constructor; [exact IH|].
    rewrite Forall_forall in *. intros y Hy. apply in_map_iff in Hy as [z [<- Hz]]. specialize (HF z Hz). lia.
  - intros k. rewrite in_map_iff. split.
    + intros [i [<- Hi]]. now apply HPQ, H2.
    + intros Hk. pose proof (Hge k Hk). exists (k - s). split; [lia|]. apply H2, HPQ.
      now replace (s + (k - s)) with k by lia.
Qed.

Lemma groups_leading B A q s n :
  chain R = [B; A] ->
  r_optional B = true -> r_optional A = false -> r_greedy A = false ->
  forall lo ts, are_groups nrules n opts grd (Mat q s) lo ts ->
  forall G, map own G = map (fun t => pairs_at q (shift s t)) ts ->
  leading_from E D R q (s + n) (s + lo) G.
Proof.
  intros HC OB OA GA.
  assert (R0 : rule_at R 0 = R).
  { unfold rule_at. destruct R as [? [?|] ? ? ? ? ? ? ?]; reflexivity. }
  assert (RB : R = B) by (destruct R as [? [?|] ? ? ? ? ? ? ?]; simpl in HC; congruence).
  assert (R1 : rule_at R 1 = A) by (unfold rule_at; now rewrite HC).
  rewrite <- RB in OB. rewrite <- R1 in OA, GA. clear RB R1.
  assert (Hlen : nrules = 2) by now rewrite HC.
  assert (Em : mandatory_rules nrules opts = [1]).
  { rewrite Hlen. unfold mandatory_rules. simpl. rewrite R0, OA, OB. reflexivity. }
  assert (Hrep : repeated opts grd 1 = false) by (cbn [repeated]; rewrite OA, GA; reflexivity).
  assert (Hlone : lone nrules opts grd = false) by (unfold lone; rewrite Em; exact Hrep).
  assert (Htr : trails nrules opts grd = false).
  { unfold trails. rewrite Em. cbn [last]. rewrite Hrep, Hlen. reflexivity. }
  intros lo ts. revert lo. induction ts as [|t ts IH]; intros lo HA G HG;
    inversion HA as [? HE|? js ? ? HGr HL HR]; subst.
  - destruct G as [|g G]; [|discriminate]. cbn [leading_from]. intros k Hk HM.
    apply (HE [k - s]). split; [rewrite Em; constructor; [|constructor]|repeat constructor].
    split; [lia|]. now replace (s + (k - s)) with k by lia.
  - destruct G as [|g G]; [discriminate|]. cbn [map] in HG. injection HG as Hg HG.
    destruct (HR Hlone) as [lo' [Hres HA']]. clear HR HL.
    destruct HGr as [[[HF HS] Hmin] [Hhd [Hord [Hrl Hc]]]].
    rewrite Em in Hhd, HF. inversion Hhd as [|? a ? ? Ha Hhd']; subst. inversion Hhd'; subst. clear Hhd Hhd'.
    inversion HF as [|? ? ? ? [Ha1 Ha2] _]; subst.
    unfold resumes in Hres. rewrite Htr in Hres. cbn [last] in Hres, Hc. subst lo'.
    assert (Hrl' : forall j i, In (j, i) t -> j < 2) by (intros j i Hji; rewrite <- Hlen; eauto).
    pose proof (Hc 0 ltac:(lia)) as C0. pose proof (Hc 1 ltac:(lia)) as C1.
    assert (T1 : takes_all opts grd 1 = false) by (unfold takes_all; rewrite GA; reflexivity).
    assert (T0 : takes_all opts grd 0 = r_greedy R).
    { unfold takes_all. rewrite R0, OB. simpl. apply andb_true_r. }
    rewrite T1 in C1. pose proof (first_of_le_one _ _ C1) as L1.
    destruct (nodes_of 1 t) as [|x1 [|? ?]] eqn:E1; simpl in L1; try discriminate; [|lia]. injection Ha as ->.
    assert (In1 : forall i, In (1, i) t <-> i = a).
    { intros i. rewrite <- nodes_of_in, E1. simpl. intuition. }
    pose proof (ordered_2 t Hord Hrl') as Hsplit. rewrite E1 in Hsplit.
    assert (HPQ : forall i, candidate nrules n opts grd (Mat q s) lo a t 0 i <->
        s + lo <= s + i < s + a /\ rule_matches D satisfies R (s + i :: q)).
    { intros i. split.
      - intros [H1 [H2 [_ [H4 _]]]]. rewrite R0 in H2. split; [|exact H2].
        assert (i < a) by (apply (H4 1); [now apply In1|lia|exact OA]). lia.
      - intros [H1 H2]. split; [lia|]. split; [now rewrite R0|]. split; [intros; lia|]. split.
        + intros j' i' Hin Hlt _. pose proof (Hrl' _ _ Hin). assert (j' = 1) by lia. subst j'.
          apply In1 in Hin. lia.
        + unfold ends_before. rewrite Em. right. intros i' Hi'. lia. }
    assert (Hfp : first_place (fun k => s + lo <= k < s + n /\ rule_matches D satisfies (rule_at R 1) (k :: q)) (Some (s + a))).
    { split; [split; [lia|exact Ha2]|]. intros k [Hk HM].
      assert (HE : embedding nrules n opts (Mat q s) lo [k - s]).
      { split; [rewrite Em; constructor; [|constructor]|repeat constructor].
        split; [lia|]. now replace (s + (k - s)) with k by lia. }
      apply Hmin in HE. inversion HE; subst. lia. }
    cbn [leading_from]. exists (map (fun i => s + i) (nodes_of 0 t)), (s + a).
    split; [|split; [exact Hfp|split]].
    + rewrite Hg, Hsplit at 1. unfold pairs_at, shift. rewrite !map_app, !map_map. reflexivity.
    + unfold taken. rewrite T0 in C0. destruct (r_greedy R).
      * eapply all_of_taken; [exact C0| |]; cbn beta; [exact HPQ|intros k [Hk _]; lia].
      * eapply first_of_place; [exact C0| |]; cbn beta; [exact HPQ|intros k [Hk _]; lia].
    + replace (S (s + a)) with (s + S a) by lia. now apply IH.
Qed.

Lemma lists_leading i pp t n gs B A :
  nget D (i :: pp) = Some t -> search_yields E R D (Some (i :: pp)) n (Ok gs) ->
  chain R = [B; A] ->
  r_optional B = true -> r_optional A = false -> r_greedy A = false ->
  per_list D i pp gs (leading_groups E D R).
Proof.
  intros Hp HS HC OB OA GA. eapply per_list_intro; [exact (search_yields_result E R D _ _ _ _ _ Hp HS)|].
  intros q s m G ts T1 T2. unfold leading_groups. rewrite <- (Nat.add_0_r s) at 2.
  eapply groups_leading; eauto. eapply with_mandatory; [|exact T1].
  unfold mandatory_of. rewrite HC. cbn [filter]. unfold is_mandatory.
  destruct (negb (r_optional B)); [discriminate|]. rewrite OA. discriminate.
Qed.

End Leading.
