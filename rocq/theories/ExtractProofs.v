(** Rule::extract: outcomes, limit, results. *)

From Coq Require Import Ascii String NArith ZArith Bool List Lia Sorted.
From Verif Require Import Base StringUtil Dom Values Match Rule RuleMatching RuleProofs
  MatchSem MatchRefine MatchSim GroupSpec GroupFacts MatchSpec MatchProofs ExtractSpec LocalProofs.
Import ListNotations.

Open Scope nat_scope.

(** ** Paths *)

Section Paths.
Variable D : node.

Lemma nget_app k p t : nget D (k ++ p) = Some t -> exists t', nget D p = Some t'.
Proof.
  revert t. induction k as [|i k IH]; intros t H; simpl in H; [eauto|].
  destruct (nget D (k ++ p)) as [u|] eqn:E; [|discriminate]. eapply IH; eauto.
Qed.

(** Induction on the nodes of a document, from below. *)
Lemma path_ind (P : npath -> node -> Prop) :
  (forall p t, nget D p = Some t ->
     (forall k i t', nget D (k ++ i :: p) = Some t' -> P (k ++ i :: p) t') -> P p t) ->
  forall p t, nget D p = Some t -> P p t.
Proof.
  intros H.
  assert (HQ : forall t p, nget D p = Some t -> forall k t', nget D (k ++ p) = Some t' -> P (k ++ p) t').
  { intros t. induction t as [t IH] using node_ind2. intros p Hp.
    assert (Hbelow : forall k i t', nget D (k ++ i :: p) = Some t' -> P (k ++ i :: p) t').
    { intros k i t' Hk. destruct (nget_app k (i :: p) t' Hk) as [c Hc]. pose proof Hc as Hc'. simpl in Hc. rewrite Hp in Hc.
      rewrite Forall_forall in IH. apply (IH c); [now apply nth_error_In in Hc| |exact Hk]. exact Hc'. }
    intros k t' Hk. destruct k as [|x k] using rev_ind.
    - simpl in *. rewrite Hp in Hk. injection Hk as <-. now apply H.
    - rewrite <- app_assoc in *. now apply Hbelow. }
  intros p t Hp. apply (HQ t p Hp [] t Hp).
Qed.

Lemma elements_list_in l s pp q : In q (elements_list l s pp) ->
  exists i c, nth_error l i = Some c /\ In q (elements c (s + i :: pp)).
Proof.
  revert s. induction l as [|c l IH]; intros s H; simpl in H; [destruct H|].
  apply in_app_or in H as [H|H].
  - exists 0, c. rewrite Nat.add_0_r. auto.
  - apply IH in H as [i [c' [H1 H2]]]. exists (S i), c'. split; [exact H1|]. now replace (s + S i) with (S s + i) by lia.
Qed.

Lemma elements_below t p q : nget D p = Some t -> In q (elements t p) ->
  exists k t', q = k ++ p /\ nget D q = Some t' /\ is_element t' = true.
Proof.
  intros Hp. revert p q Hp. induction t as [t IH] using node_ind2. intros p q Hp Hq.
  rewrite elements_unfold in Hq. destruct t as [|tg o a cs| | | | |]; try destruct Hq.
  - subst q. exists [], (NElement tg o a cs). auto.
  - apply elements_list_in in H as [i [c [Hc Hin]]]. simpl in Hin.
    rewrite Forall_forall in IH. specialize (IH c (nth_error_In _ _ Hc) (i :: p) q).
    destruct IH as [k [t' [-> [H1 H2]]]]; [simpl; rewrite Hp; exact Hc|exact Hin|].
    exists (k ++ [i]), t'. rewrite <- app_assoc. auto.
Qed.

End Paths.

(** ** The pairs of a search *)

Lemma rget_next R rp j : forall c, rget R rp = Some c -> j < length (chain c) ->
  rget R (address rp j) = Some (rule_at c j).
Proof.
  revert rp. induction j as [|j IH]; intros rp c Hc Hj.
  - unfold address, rule_at. simpl. destruct c as [? [?|] ? ? ? ? ? ? ?]; exact Hc.
  - destruct c as [ch [n|] l ms cs t o g name]; simpl in Hj; [|lia].
    rewrite <- address_next. rewrite (IH (RNext :: rp) n).
    + f_equal. unfold rule_at. simpl. apply nth_indep. lia.
    + simpl. now rewrite Hc.
    + lia.
Qed.

Lemma layout_in o f g x t : forall seen gap, In x (layout o f g seen gap t) ->
  In x gap \/ exists j i, In (j, i) t /\ (In x (f j i) \/ x = g j i).
Proof.
  induction t as [|[j i] t IH]; intros seen gap H; cbn [layout] in H; [now left|].
  destruct (_ && _).
  - apply in_app_or in H as [H|H]; [right; exists j, i; split; [now left|now left]|].
    apply in_app_or in H as [H|H]; [now left|].
    destruct H as [<-|H]; [right; exists j, i; split; [now left|now right]|].
    apply IH in H as [[]|[j' [i' [H1 H2]]]]. right. exists j', i'. split; [now right|exact H2].
  - apply IH in H as [H|[j' [i' [H1 H2]]]].
    + apply in_app_or in H as [H|H]; [now left|]. apply in_app_or in H as [H|[<-|[]]];
        right; exists j, i; (split; [now left|]); [now left|now right].
    + right. exists j', i'. split; [now right|exact H2].
Qed.

Section Pairs.
Variable D : node.
Variable satisfies : rule -> npath -> Prop.

Lemma sibling_groups_in c pp s n ts j i :
  sibling_groups D satisfies c pp s n ts -> In (j, i) (concat ts) ->
  j < length (chain c) /\ i < n /\ rule_matches D satisfies (rule_at c j) (s + i :: pp).
Proof.
  unfold sibling_groups. intros H Hin. destruct (mandatory_of c).
  - now apply (are_optional_groups_range _ _ _ _ _ _ _ _ _ H).
  - now apply (are_groups_range _ _ _ _ _ _ _ _ _ H).
Qed.

(** A property of the pairs of a list follows from that of its nodes. *)
Lemma pair_groups_in R B rp c pp s n gs (P : rpath * npath -> Prop) :
  rget R rp = Some c ->
  pair_groups D satisfies B rp c pp s n gs ->
  (forall j r i, rget R (address rp j) = Some r -> rule_matches D satisfies r (i :: pp) -> P (address rp j, i :: pp)) ->
  (forall j r i m, rget R (address rp j) = Some r -> rule_matches D satisfies r (i :: pp) ->
     B (address rp j) r (i :: pp) m -> forall x, In x m -> P x) ->
  forall x, In x (concat gs) -> P x.
Proof.
  intros Hc [ts [inner [Hts [Hin ->]]]] H1 H2 x Hx.
  apply in_concat in Hx as [g [Hg Hx]]. apply in_map_iff in Hg as [t [<- Ht]].
  apply layout_in in Hx as [[]|[j [i [Hji Hx]]]].
  assert (Hji' : In (j, i) (concat ts)) by (apply in_concat; eauto).
  destruct (sibling_groups_in _ _ _ _ _ _ _ Hts Hji') as [Hj [Hi HM]].
  pose proof (rget_next R rp j c Hc Hj) as Hr.
  destruct Hx as [Hx| ->].
  - eapply (H2 _ _ _ _ Hr HM); eauto.
  - eapply H1; eauto.
Qed.

(** What is known about a pair found below a node that a rule matches: it is a
    rule below this rule and a node below this node that it matches. *)
Definition pair_below R (rp : rpath) (p : npath) (x : rpath * npath) : Prop :=
  exists r' k i k' st, rget R (fst x) = Some r' /\ snd x = k ++ i :: p /\
    fst x = k' ++ st :: rp /\ st <> RNext /\ rule_matches D satisfies r' (snd x).

Lemma pairs_below_in R : forall p t, nget D p = Some t ->
  forall rp r m, rget R rp = Some r -> pairs_below D satisfies rp r p m ->
  forall x, In x m -> pair_below R rp p x.
Proof.
  apply (path_ind D (fun p t => forall rp r m, rget R rp = Some r -> pairs_below D satisfies rp r p m ->
    forall x, In x m -> pair_below R rp p x)).
  intros p t Hp IH rp r m Hr Hm x Hx.
  inversion Hm as [rp' r'' p' n child nested Hn Hc0 Hc1 HF]; subst.
  rewrite Hp in Hn. injection Hn as <-.
  (* what holds for the pairs of any list below p *)
  assert (HL : forall k0 st0 c gs n0, st0 <> RNext -> rget R (st0 :: rp) = Some c ->
     pair_groups D satisfies (pairs_below D satisfies) (st0 :: rp) c (k0 ++ p) 0 n0 gs ->
     forall x, In x (concat gs) -> pair_below R rp p x).
  { intros k0 st0 c gs n0 Hst0 Hrp0 Hg y Hy.
    assert (Hk0 : forall i0, exists k i, i0 :: k0 ++ p = k ++ i :: p).
    { intros i0. destruct k0 as [|z k0] using rev_ind; [exists [], i0; reflexivity|].
      exists (i0 :: k0), z. simpl. now rewrite <- app_assoc. }
    revert y Hy. eapply (pair_groups_in R _ _ _ _ _ _ _ _ Hrp0 Hg).
    - intros j r0 i0 Ha HM. destruct (Hk0 i0) as [k [i E]].
      exists r0, k, i, (repeat RNext j), st0. simpl. repeat split; auto.
    - intros j r0 i0 m0 Ha HM Hb y Hy. destruct (Hk0 i0) as [k [i E]].
      inversion HM as [r1 p1 n1 Hn1]; subst. rewrite E in Hn1, Hb.
      destruct (IH k i n1 Hn1 _ r0 m0 Ha Hb y Hy) as [r2 [k2 [i2 [k' [st [R1 [R2 [R3 [R4 R5]]]]]]]]].
      exists r2, (k2 ++ i2 :: k), i, (k' ++ st :: repeat RNext j), st0. split; [exact R1|].
      split; [rewrite R2, <- app_assoc; reflexivity|].
      split; [rewrite R3; unfold address; rewrite <- app_assoc; reflexivity|]. auto. }
  apply in_app_or in Hx as [Hx|Hx].
  - destruct (r_child r) as [c|] eqn:Ec; [|rewrite (Hc0 eq_refl) in Hx; destruct Hx].
    destruct (Hc1 c eq_refl) as [gs [Hg ->]].
    apply (HL [] RChild c gs (child_count D p)); auto; [discriminate|]. simpl. rewrite Hr. exact Ec.
  - apply in_concat in Hx as [m [Hm' Hx]].
    assert (Hex : exists kc, In kc (combine (seq 0 (length (r_nested r))) (r_nested r)) /\
       exists gs, groups_in D satisfies (pairs_below D satisfies) (RNested (fst kc) :: rp) (snd kc) (elements t p) gs /\ m = concat gs).
    { clear - HF Hm'. induction HF as [|kc m' l l' H HF IHF]; [destruct Hm'|]. destruct Hm' as [->|Hm'].
      - exists kc. split; [now left|exact H].
      - destruct (IHF Hm') as [kc' [H1 H2]]. exists kc'. split; [now right|exact H2]. }
    destruct Hex as [[k c] [Hkc [gs [[gss [HFg ->]] ->]]]]. cbn [fst snd] in *.
    assert (Hk : nth_error (r_nested r) k = Some c).
    { clear - Hkc. revert Hkc. generalize (r_nested r) as l. intros l H.
      assert (G : forall l s, In (k, c) (combine (seq s (length l)) l) -> s <= k /\ nth_error l (k - s) = Some c).
      { clear. induction l as [|x l IH]; intros s H; simpl in H; [destruct H|]. destruct H as [H|H].
        - injection H as -> ->. rewrite Nat.sub_diag. auto.
        - apply IH in H as [H1 H2]. split; [lia|]. replace (k - s) with (S (k - S s)) by lia. exact H2. }
      apply G in H as [_ H]. now rewrite Nat.sub_0_r in H. }
    apply in_concat in Hx as [g [Hg Hx]].
    assert (Hq : exists q g0, In q (elements t p) /\ In g g0 /\ pair_groups D satisfies (pairs_below D satisfies) (RNested k :: rp) c q 0 (child_count D q) g0).
    { clear - HFg Hg. revert Hg. induction HFg as [|q g0 l l' H HF IHF]; intros Hg; [destruct Hg|]. simpl in Hg.
      apply in_app_or in Hg as [Hg|Hg].
      - exists q, g0. split; [now left|auto].
      - destruct (IHF Hg) as [q' [g1 [H1 H2]]]. exists q', g1. split; [now right|exact H2]. }
    destruct Hq as [q [g0 [Hq [Hgg Hpg]]]].
    destruct (elements_below D t p q Hp Hq) as [k0 [t' [-> _]]].
    apply (HL k0 (RNested k) c g0 (child_count D (k0 ++ p))); auto.
    + discriminate.
    + simpl. rewrite Hr. exact Hk.
    + apply in_concat. eauto.
Qed.

(** Every pair that a search finds. *)
Theorem search_pairs R i pp gs :
  search_result D satisfies R i pp gs ->
  forall x, In x (concat gs) -> exists r, rget R (fst x) = Some r /\ rule_matches D satisfies r (snd x).
Proof.
  intros [par [g0 [gs' [Hpar [Hg0 [[gss [HF ->]] ->]]]]]] x Hx.
  assert (HL : forall q s n g, pair_groups D satisfies (pairs_below D satisfies) [] R q s n g ->
     forall x, In x (concat g) -> exists r, rget R (fst x) = Some r /\ rule_matches D satisfies r (snd x)).
  { intros q s n g Hg. eapply (pair_groups_in R _ [] R); [reflexivity|exact Hg| |].
    - intros j r k Ha HM. exists r. auto.
    - intros j r k m Ha HM Hb y Hy. inversion HM as [r1 p1 n1 Hn1]; subst.
      destruct (pairs_below_in R _ _ Hn1 _ r m Ha Hb y Hy) as [r2 [k2 [i2 [k' [st [R1 [_ [_ [_ R3]]]]]]]]]. eauto. }
  rewrite concat_app in Hx. apply in_app_or in Hx as [Hx|Hx]; [eapply HL; eauto|].
  apply in_concat in Hx as [g [Hg Hx]].
  assert (Hq : exists q g0, In g g0 /\ pair_groups D satisfies (pairs_below D satisfies) [] R q 0 (child_count D q) g0).
  { clear - HF Hg. revert Hg. induction HF as [|q g1 l l' H HF IHF]; intros Hg; [destruct Hg|]. simpl in Hg.
    apply in_app_or in Hg as [Hg|Hg]; [eauto|auto]. }
  destruct Hq as [q [g1 [Hgg Hpg]]]. eapply HL; [exact Hpg|]. apply in_concat. eauto.
Qed.

End Pairs.

(** ** Running the search *)

Section Run.
Variable E : engine.
Variable R : rule.
Variable D : node.

Definition bq (r : rule) (p : npath) : bool :=
  match Rule_matches E D r p with Ok true => true | _ => false end.

Notation Save := (SaveMatchingNodesRecursive R D (Rule_matches E D)).
Notation SaveQ := (SaveMatchingNodesRecursive R D (quiet (Rule_matches E D))).

Lemma bq_spec r p : bq r p = true <-> node_satisfies E D r p.
Proof. unfold bq, node_satisfies. destruct (Rule_matches E D r p) as [[]| | |]; split; congruence. Qed.

Lemma quiet_ok r p n : nget D p = Some n -> quiet (Rule_matches E D) r p = Ok (bq r p).
Proof. intros _. unfold quiet, bq. destruct (Rule_matches E D r p) as [[]| | |]; reflexivity. Qed.

Lemma explained_no_mse {A} P Q (o : outcome A) : explained E P Q o -> o <> Throw MaxSearchError.
Proof. intros H ->. exact H. Qed.

Lemma explained_no_fuel {A} P Q (o : outcome A) : explained E P Q o -> o <> OutOfFuel.
Proof. intros H ->. exact H. Qed.

Lemma Rule_matches_no_mse r p : Rule_matches E D r p <> Throw MaxSearchError.
Proof.
  destruct (nget D p) as [n|] eqn:Hp.
  - eapply explained_no_mse. apply (Rule_matches_explained E D r r p n); [exists []; reflexivity|exact Hp].
  - unfold Rule_matches, deref. rewrite Hp. discriminate.
Qed.

Lemma fails_explained {A} (o : outcome A) :
  fails R D (Rule_matches E D) o -> (forall a, o <> Ok a) /\ explained E (~ rule_calls_return R) (INT_CAUSE D R) o.
Proof.
  intros [rp [r [p [n [Hr [Hp H]]]]]].
  pose proof (Rule_matches_explained E D R r p n (ex_intro _ rp Hr) Hp) as HE.
  destruct (Rule_matches E D r p) as [c|e|u|]; subst; try contradiction; (split; [discriminate|]); destruct e || destruct u; exact HE.
Qed.

(** The search with enough fuel. *)
Lemma search_runs_all i pp t :
  nget D (i :: pp) = Some t ->
  exists gs c f0, search_result D (node_satisfies E D) R i pp gs /\
    forall f, f0 <= f -> forall n,
      Save f (Some []) (Some (i :: pp)) n = limited n gs c \/
      fails R D (Rule_matches E D) (Save f (Some []) (Some (i :: pp)) n).
Proof.
  intros Hp.
  destruct (search_runs R D (quiet (Rule_matches E D)) bq quiet_ok (i :: pp) t Hp ltac:(discriminate)) as [c [f0 H0]].
  exists (save (sibling_items bq D (i :: pp)) [] R), c, f0. split.
  - apply (search_meets_spec D bq (node_satisfies E D) bq_spec i pp t R Hp).
  - intros f Hf n. rewrite <- (H0 f Hf n). apply sim_all.
Qed.

Lemma limited_not_fuel {A} n (v : A) c : limited n v c <> OutOfFuel.
Proof. unfold limited. destruct (n =? 0)%N; [discriminate|]. destruct (n <=? c)%N; discriminate. Qed.

(** From some fuel on, the outcome does not change. *)
Lemma search_stable i pp t n :
  nget D (i :: pp) = Some t ->
  exists f0 o, forall f, f0 <= f -> Save f (Some []) (Some (i :: pp)) n = o.
Proof.
  intros Hp. destruct (search_runs_all i pp t Hp) as [gs [c [f0 [_ H]]]].
  exists f0, (Save f0 (Some []) (Some (i :: pp)) n). intros f Hf. apply Save_mono; [exact Hf|].
  destruct (H f0 (le_n _) n) as [->|HF]; [apply limited_not_fuel|].
  apply fails_explained in HF as [_ HF]. eapply explained_no_fuel; eauto.
Qed.

(** Whenever the search returns, it returns what the specification says. *)
Theorem search_returns f i pp t n gs n' :
  nget D (i :: pp) = Some t ->
  Save f (Some []) (Some (i :: pp)) n = Ok (gs, n') ->
  search_result D (node_satisfies E D) R i pp gs.
Proof.
  intros Hp HS. destruct (search_runs_all i pp t Hp) as [gs' [c [f0 [Hr H]]]].
  assert (HM : Save (Nat.max f f0) (Some []) (Some (i :: pp)) n = Ok (gs, n')).
  { rewrite (Save_mono R D (Rule_matches E D) f) by (try lia; congruence). exact HS. }
  destruct (H (Nat.max f f0) ltac:(lia) n) as [E1|HF].
  - rewrite HM in E1. unfold limited in E1. destruct (n =? 0)%N; [injection E1 as -> ->; exact Hr|].
    destruct (n <=? c)%N; [discriminate|]. injection E1 as -> ->. exact Hr.
  - apply fails_explained in HF as [HF _]. now apply HF in HM.
Qed.

(** ** Captures of groups *)

Lemma rderef_ok rp r : rget R rp = Some r -> rderef R rp = Ok r.
Proof. unfold rderef. now intros ->. Qed.

Lemma capture_group_explained Q g : forall m,
  (forall x, In x g -> exists r n, rget R (fst x) = Some r /\ nget D (snd x) = Some n) ->
  explained E (~ rule_calls_return R) Q (capture_group E R D g m).
Proof.
  induction g as [|[rp p] g IH]; intros m H; cbn [capture_group]; [exact I|].
  destruct (H (rp, p) (or_introl eq_refl)) as [r [n [Hr Hn]]]. cbn [fst snd] in *.
  rewrite (rderef_ok _ _ Hr). cbn [obind].
  assert (H' : forall x, In x g -> exists r n, rget R (fst x) = Some r /\ nget D (snd x) = Some n) by (intros; apply H; now right).
  destruct (Nat.eqb _ 0); [now apply IH|].
  apply explained_bind; [eapply Rule_capture_explained; [exists rp; exact Hr|exact Hn]|]. intros; now apply IH.
Qed.

Lemma capture_groups_explained Q gs :
  (forall x, In x (concat gs) -> exists r n, rget R (fst x) = Some r /\ nget D (snd x) = Some n) ->
  explained E (~ rule_calls_return R) Q (capture_groups E R D gs).
Proof.
  induction gs as [|g gs IH]; intros H; cbn [capture_groups]; [exact I|].
  apply explained_bind.
  - apply capture_group_explained. intros x Hx. apply H. simpl. apply in_or_app. now left.
  - intros m _. apply explained_bind; [|intros; exact I]. apply IH. intros x Hx. apply H. simpl. apply in_or_app. now right.
Qed.

Lemma search_result_valid i pp gs :
  search_result D (node_satisfies E D) R i pp gs ->
  forall x, In x (concat gs) -> exists r n, rget R (fst x) = Some r /\ nget D (snd x) = Some n.
Proof.
  intros H x Hx. destruct (search_pairs _ _ _ _ _ _ H x Hx) as [r [Hr HM]]. inversion HM; subst. eauto.
Qed.

(** ** C01 *)

Theorem extract_total i pp t n :
  nget D (i :: pp) = Some t ->
  exists o, extract_yields E R D (Some (i :: pp)) n o /\ extract_outcome_ok E R D o.
Proof.
  intros Hp. destruct (search_stable i pp t n Hp) as [f0 [o Ho]].
  exists (obind o (fun '(mn, _) => capture_groups E R D mn)). split.
  - exists f0. intros f Hf. unfold extract. now rewrite (Ho f Hf).
  - destruct (search_runs_all i pp t Hp) as [gs [c [f1 [Hr H]]]].
    destruct (H (Nat.max f0 f1) ltac:(lia) n) as [E1|HF]; rewrite Ho in * by lia.
    + subst o. unfold limited.
      pose proof (capture_groups_explained (INT_CAUSE D R) gs (search_result_valid i pp gs Hr)) as HC.
      destruct (n =? 0)%N; cbn [obind].
      * destruct (capture_groups E R D gs) as [m|[]|[]|]; try contradiction; exact HC.
      * destruct (n <=? c)%N; cbn [obind]; [exact I|].
        destruct (capture_groups E R D gs) as [m|[]|[]|]; try contradiction; exact HC.
    + apply fails_explained in HF as [HF1 HF]. destruct o as [[mn n']|e|u|]; cbn [obind].
      * now destruct (HF1 (mn, n')).
      * destruct e; try contradiction; exact HF.
      * destruct u; try contradiction; exact HF.
      * contradiction.
Qed.

(** ** C03, C04 *)

Lemma capture_groups_no_mse gs : capture_groups E R D gs <> Throw MaxSearchError.
Proof.
  induction gs as [|g gs IH]; cbn [capture_groups]; [discriminate|].
  assert (Hg : forall m, capture_group E R D g m <> Throw MaxSearchError).
  { induction g as [|[rp p] g IHg]; intros m; cbn [capture_group]; [discriminate|].
    unfold rderef. destruct (rget R rp) as [r|] eqn:Hr; cbn [obind]; [|discriminate].
    destruct (Nat.eqb _ 0); [apply IHg|].
    assert (HC : Rule_capture E D r p <> Throw MaxSearchError).
    { destruct (nget D p) as [nd|] eqn:Hn.
      - eapply explained_no_mse. apply (Rule_capture_explained E D r r p nd True); [exists []; reflexivity|exact Hn].
      - unfold Rule_capture. clear - Hn. induction (r_captures r) as [|[c|] l IHl]; cbn [capture_all]; [discriminate| |exact IHl].
        unfold capture_capture, deref. rewrite Hn. discriminate. }
    destruct (Rule_capture E D r p); cbn [obind]; [apply IHg|congruence|discriminate|discriminate]. }
  specialize (Hg []). destruct (capture_group E R D g []); cbn [obind].
  - destruct (capture_groups E R D gs); cbn [obind]; congruence.
  - congruence.
  - discriminate.
  - discriminate.
Qed.

(** The threshold, at any fuel. *)
Theorem extract_threshold f p :
  exists c, extract f E R D p 0%N <> Throw MaxSearchError /\
    forall n, (0 < n)%N ->
      extract f E R D p n = if (n <=? c)%N then Throw MaxSearchError else extract f E R D p 0%N.
Proof.
  destruct (proj1 (lim_all R D (Rule_matches E D) Rule_matches_no_mse f) (Some []) p) as [c [H1 [H2 H3]]].
  exists c. unfold extract. split.
  - destruct (Save f (Some []) p 0%N) as [[mn n']|e|u|]; cbn [obind]; try congruence. apply capture_groups_no_mse.
  - intros n Hn. rewrite (H3 n Hn). destruct (n <=? c)%N; [reflexivity|].
    destruct (Save f (Some []) p 0%N) as [[mn n']|e|u|]; reflexivity.
Qed.

End Run.
