(** The properties of extract, put together. *)

From Coq Require Import Ascii String Arith NArith ZArith Bool List Lia Sorted Permutation.
From Verif Require Import Base StringUtil Dom Values Match Rule RuleMatching RuleProofs MatchSem MatchRefine MatchSim
  GroupAlg GroupSpec GroupFacts MatchSpec MatchProofs ExtractSpec LocalProofs ExtractProofs CountProofs SpecUnique
  SearchSpec SearchFacts ResultProofs.
Import ListNotations.

Section Main.
Variable E : engine.
Variable R : rule.
Variable D : node.

(** ** C01 *)

Lemma extract_returns i pp t n :
  nget D (i :: pp) = Some t ->
  engine_total E -> rule_calls_return R ->
  (exists size, small_document size D /\ rule_params_safe size R) ->
  exists o, extract_yields E R D (Some (i :: pp)) n o /\ ((exists res, o = Ok res) \/ o = Throw MaxSearchError).
Proof.
  intros Hp HE HR [size [HS HP]]. destruct (extract_total E R D i pp t n Hp) as [o [Ho Hok]].
  exists o. split; [exact Ho|]. destruct o as [res|e|u|]; simpl in Hok; [left; eauto| | |contradiction].
  - destruct e; try contradiction; auto.
  - destruct u; try contradiction. now destruct (Hok size HS).
Qed.

Lemma extract_safe i pp t n :
  nget D (i :: pp) = Some t ->
  (exists size, small_document size D /\ rule_params_safe size R) ->
  exists o, extract_yields E R D (Some (i :: pp)) n o /\ o <> OutOfFuel /\ forall u, o <> UB u.
Proof.
  intros Hp [size [HS HP]]. destruct (extract_total E R D i pp t n Hp) as [o [Ho Hok]].
  exists o. split; [exact Ho|]. destruct o as [res|e|u|]; simpl in Hok; try (split; [discriminate|intros; discriminate]).
  - destruct u; try contradiction. now destruct (Hok size HS).
  - contradiction.
Qed.

Lemma extract_safe_nodes p t n :
  nget D p = Some t -> p <> [] ->
  (exists size, small_document size D /\ rule_params_safe size R) ->
  exists o, extract_yields E R D (Some p) n o /\ o <> OutOfFuel /\ forall u, o <> UB u.
Proof. destruct p as [|i pp]; intros Hp H; [congruence|]. exact (extract_safe i pp t n Hp). Qed.

(** ** C03, C04 *)

Lemma yields_unique p n o o' : extract_yields E R D p n o -> extract_yields E R D p n o' -> o = o'.
Proof.
  intros [f0 H0] [f1 H1]. rewrite <- (H0 (Nat.max f0 f1)), <- (H1 (Nat.max f0 f1)) by lia. reflexivity.
Qed.

Lemma extract_limit p n o0 o :
  extract_yields E R D p 0 o0 -> extract_yields E R D p n o ->
  o0 <> Throw MaxSearchError /\ (o = Throw MaxSearchError \/ o = o0).
Proof.
  intros [f0 H0] [f1 H1]. set (f := Nat.max f0 f1).
  specialize (H0 f ltac:(unfold f; lia)). specialize (H1 f ltac:(unfold f; lia)).
  destruct (extract_threshold E R D f p) as [c [T1 T2]]. rewrite <- H0, <- H1. split; [exact T1|].
  destruct (N.eq_dec n 0) as [->|Hn]; [now right|]. rewrite T2 by lia. destruct (n <=? c)%N; auto.
Qed.

Lemma extract_threshold_exists i pp t o0 :
  nget D (i :: pp) = Some t ->
  extract_yields E R D (Some (i :: pp)) 0 o0 ->
  exists c, forall n, (0 < n)%N ->
    extract_yields E R D (Some (i :: pp)) n (if (n <=? c)%N then Throw MaxSearchError else o0).
Proof.
  intros Hp [f0 H0]. destruct (search_runs_all E R D i pp t Hp) as [gs [c0 [f1 [_ Hr]]]].
  set (f := Nat.max f0 f1). destruct (extract_threshold E R D f (Some (i :: pp))) as [c [T1 T2]].
  exists c. intros n Hn. exists f. intros f' Hf'.
  assert (Hfu : SaveMatchingNodesRecursive R D (Rule_matches E D) f (Some []) (Some (i :: pp)) n <> OutOfFuel).
  { destruct (Hr f ltac:(unfold f; lia) n) as [->|HF]; [apply limited_not_fuel|].
    apply fails_explained in HF as [_ HF]. eapply explained_no_fuel; eauto. }
  transitivity (extract f E R D (Some (i :: pp)) n).
  - unfold extract. now rewrite (Save_mono R D (Rule_matches E D) f f' _ _ _ Hf' Hfu).
  - rewrite T2 by exact Hn. destruct (n <=? c)%N; [reflexivity|]. apply H0. unfold f. lia.
Qed.

(** ** The result *)

Theorem extract_describes f i pp t n res :
  nget D (i :: pp) = Some t ->
  extract f E R D (Some (i :: pp)) n = Ok res ->
  exists gs, search_result D (node_satisfies E D) R i pp gs /\ extract_result E R D gs res.
Proof.
  intros Hp H. unfold extract in H.
  destruct (SaveMatchingNodesRecursive R D (Rule_matches E D) f (Some []) (Some (i :: pp)) n) as [[gs n']|e|u|] eqn:HS;
    cbn [obind] in H; try discriminate.
  exists gs. split; [exact (search_returns E R D f i pp t n gs n' Hp HS)|]. now apply capture_groups_iff.
Qed.

Theorem extract_computes i pp t gs res :
  nget D (i :: pp) = Some t ->
  engine_total E -> rule_calls_return R ->
  (exists size, small_document size D /\ rule_params_safe size R) ->
  search_result D (node_satisfies E D) R i pp gs -> extract_result E R D gs res ->
  extract_yields E R D (Some (i :: pp)) 0 (Ok res).
Proof.
  intros Hp HE HR HS Hgs Hres. destruct (extract_returns i pp t 0%N Hp HE HR HS) as [o [Ho [[res' ->]| ->]]].
  - destruct Ho as [f0 Ho]. pose proof (Ho f0 (le_n _)) as H1.
    destruct (extract_describes f0 i pp t 0%N res' Hp H1) as [gs' [Hgs' Hres']].
    rewrite (search_result_unique _ _ _ _ _ _ _ Hgs Hgs') in Hres.
    apply capture_groups_iff in Hres. apply capture_groups_iff in Hres'. assert (res = res') by congruence. subst res'.
    exists f0. exact Ho.
  - destruct Ho as [f0 Ho]. destruct (extract_threshold E R D f0 (Some (i :: pp))) as [c [T1 _]].
    now rewrite Ho in T1 by lia.
Qed.

(** ** The search *)

Lemma search_yields_result i pp t n gs :
  nget D (i :: pp) = Some t -> search_yields E R D (Some (i :: pp)) n (Ok gs) ->
  search_result D (node_satisfies E D) R i pp gs.
Proof.
  intros Hp [f0 H]. specialize (H f0 (le_n _)).
  destruct (SaveMatchingNodesRecursive R D (Rule_matches E D) f0 (Some []) (Some (i :: pp)) n) as [[gs' n']|e|u|] eqn:HS;
    cbn [obind] in H; try discriminate. simpl in H. injection H as ->.
  exact (search_returns E R D f0 i pp t n gs n' Hp HS).
Qed.

Lemma pairs_satisfy i pp t n gs :
  nget D (i :: pp) = Some t -> search_yields E R D (Some (i :: pp)) n (Ok gs) ->
  forall a q, In (a, q) (concat gs) ->
  exists r, rget R a = Some r /\ rule_matches D (node_satisfies E D) r q.
Proof.
  intros Hp HS a q Hin. exact (search_pairs D (node_satisfies E D) R i pp gs (search_yields_result i pp t n gs Hp HS) (a, q) Hin).
Qed.

(** A value in the result comes from a pair whose rule matches its node. *)
Lemma captured_from g values x : captured E R D g values -> In x values ->
  exists a q r vs, In (a, q) g /\ rget R a = Some r /\ rule_values E D r q vs /\ In x vs.
Proof.
  intros H Hx. induction H as [|rp p r g values rest Hr Hv Hg IH]; [destruct Hx|].
  apply in_app_or in Hx as [Hx|Hx].
  - exists rp, p, r, values. split; [now left|auto].
  - destruct (IH Hx) as [a [q [r' [vs [H1 H2]]]]]. exists a, q, r', vs. split; [now right|exact H2].
Qed.

Lemma Forall2_in_r {A B} (P : A -> B -> Prop) l m b : Forall2 P l m -> In b m -> exists a, In a l /\ P a b.
Proof.
  intros H. induction H as [|x y l m Hxy H IH]; intros Hb; [destruct Hb|]. destruct Hb as [<-|Hb].
  - exists x. split; [now left|exact Hxy].
  - destruct (IH Hb) as [a [H1 H2]]. exists a. split; [now right|exact H2].
Qed.

Theorem values_from_matches f i pp t n res m x :
  nget D (i :: pp) = Some t ->
  extract f E R D (Some (i :: pp)) n = Ok res -> In m res -> In x m ->
  exists a q r c, rget R a = Some r /\ rule_matches D (node_satisfies E D) r q /\
    In (Some c) (r_captures r) /\ capture_capture E D c q = Ok (Some x).
Proof.
  intros Hp HX Hm Hx. destruct (extract_describes f i pp t n res Hp HX) as [gs [Hgs [vss [HF Hr]]]].
  destruct (Forall2_in_r _ _ _ _ Hr Hm) as [values [Hv [_ [HP _]]]]. apply filter_In in Hv as [Hv _].
  destruct (Forall2_in_r _ _ _ _ HF Hv) as [g [Hg HC]].
  assert (Hx' : In x values) by (eapply Permutation_in; eauto).
  destruct (captured_from g values x HC Hx') as [a [q [r [vs [H1 [H2 [H3 H4]]]]]]].
  destruct (search_pairs D (node_satisfies E D) R i pp gs Hgs (a, q)) as [r' [Hr' HM]]; [apply in_concat; eauto|].
  simpl in Hr', HM. assert (r' = r) by congruence. subst r'.
  destruct H3 as (outs & HO & ->). apply in_flat_map in H4 as [[y|] [Hy Hyx]]; [|destruct Hyx]. destruct Hyx as [<-|[]].
  destruct (Forall2_in_r _ _ _ _ HO Hy) as [c [Hc HCx]]. exists a, q, r, c. split; [exact H2|]. split; [exact HM|]. split; [|exact HCx].
  apply in_flat_map in Hc as [[c'|] [Hc' Hcc]]; [|destruct Hcc]. destruct Hcc as [<-|[]]. exact Hc'.
Qed.

Theorem result_maps f i pp t n res :
  nget D (i :: pp) = Some t ->
  extract f E R D (Some (i :: pp)) n = Ok res ->
  (forall m, In m res -> m <> [] /\ StronglySorted name_le m) /\
  exists gs, search_result D (node_satisfies E D) R i pp gs /\ extract_result E R D gs res.
Proof.
  intros Hp HX. destruct (extract_describes f i pp t n res Hp HX) as [gs [Hgs Hres]]. split; [|eauto].
  intros m Hm. destruct Hres as [vss [_ Hr]]. destruct (Forall2_in_r _ _ _ _ Hr Hm) as [values [Hv [HS [HP _]]]].
  split; [|exact HS]. apply filter_In in Hv as [_ Hv]. intros ->. apply Permutation_nil in HP. now subst values.
Qed.

(** ** C06 *)

Theorem recursive_match f rp r p t n matched inner n' :
  rget R rp = Some r -> nget D p = Some t ->
  RuleMatchesNodeRecursive R D (Rule_matches E D) f (Some rp) (Some p) n = Ok (matched, inner, n') ->
  (matched = true <-> rule_matches D (node_satisfies E D) r p) /\
  (matched = true -> pairs_below D (node_satisfies E D) rp r p inner).
Proof.
  intros Hr Hp HX.
  destruct (sem_ok R D (quiet (Rule_matches E D)) (bq E D) (quiet_ok E D) t p Hp) as [Hit _].
  destruct (Hit rp r Hr) as [c [f0 H0]]. rewrite it_path_sem in H0.
  destruct (sem_spec D (bq E D) (node_satisfies E D) (bq_spec E D) t p Hp) as [[N1 N2] _].
  set (F := Nat.max f f0).
  assert (HM : mono (RuleMatchesNodeRecursive R D (Rule_matches E D) f (Some rp) (Some p))
                    (RuleMatchesNodeRecursive R D (Rule_matches E D) F (Some rp) (Some p))).
  { assert (Hle : f <= F) by (unfold F; lia). induction Hle as [|F' Hle IH]; [apply mono_refl|].
    eapply mono_trans; [exact IH|]. apply mono_all. }
  destruct (HM n) as [HM'|HM']; [congruence|]. rewrite HX in HM'.
  pose proof (proj1 (proj2 (proj2 (proj2 (proj2 (proj2 (sim_all R D (Rule_matches E D) F)))))) (Some rp) (Some p) n) as HSim.
  rewrite HM' in HSim. destruct HSim as [HSim|HF].
  2:{ apply fails_explained in HF as [HF _]. now destruct (HF (matched, inner, n')). }
  rewrite (H0 F ltac:(unfold F; lia) n) in HSim.
  specialize (N1 rp r). specialize (N2 rp r).
  destruct (it_eval (sem (bq E D) t p) rp r) as [m|]; unfold limited in HSim;
    (destruct (n =? 0)%N; [|destruct (n <=? c)%N; [discriminate|]]); injection HSim as -> -> ->; simpl in N1.
  all: split; [tauto|]; try discriminate; intros _; now apply N2.
Qed.

(** ** C07 - C12 *)

Section Lists.
Variables (i : nat) (pp : npath) (t : node) (n : N) (gs : list MatchingNodes).
Hypothesis Hp : nget D (i :: pp) = Some t.
Hypothesis HS : search_yields E R D (Some (i :: pp)) n (Ok gs).

Lemma lists_complete : per_list D i pp gs (complete_groups E D R).
Proof.
  eapply per_list_intro; [exact (search_yields_result _ _ _ _ _ Hp HS)|].
  intros q s m G ts H1 H2. exact (groups_complete D _ R q s m G ts H1 H2).
Qed.

Lemma lists_found : mandatory_of R <> [] -> per_list D i pp gs (found_iff_embeds E D R).
Proof.
  intros Hm. eapply per_list_intro; [exact (search_yields_result _ _ _ _ _ Hp HS)|].
  intros q s m G ts H1 H2. exact (groups_first D _ R q s m G ts Hm H1 H2).
Qed.

Lemma lists_exhaustive : mandatory_of R <> [] -> per_list D i pp gs (exhaustive_groups E D R).
Proof.
  intros Hm. eapply per_list_intro; [exact (search_yields_result _ _ _ _ _ Hp HS)|].
  intros q s m G ts H1 H2. exact (groups_exhaustive D _ R q s m G ts Hm H1 H2).
Qed.

Lemma lists_single : r_next R = None -> r_optional R = false -> r_greedy R = false ->
  per_list D i pp gs (one_group_each E D R).
Proof.
  intros Hn Ho Hg. eapply per_list_intro; [exact (search_yields_result _ _ _ _ _ Hp HS)|].
  intros q s m G ts H1 H2. exact (groups_single D _ R q s m G ts Hn Ho Hg H1 H2).
Qed.

Lemma lists_single_greedy : r_next R = None -> r_optional R = false -> r_greedy R = true ->
  per_list D i pp gs (one_group_of_all E D R).
Proof.
  intros Hn Ho Hg. eapply per_list_intro; [exact (search_yields_result _ _ _ _ _ Hp HS)|].
  intros q s m G ts H1 H2. exact (groups_single_greedy D _ R q s m G ts Hn Ho Hg H1 H2).
Qed.

Lemma lists_between A B C :
  chain R = [A; B; C] ->
  r_optional A = false -> r_optional B = true -> r_optional C = false ->
  r_greedy A = false -> r_greedy B = false -> r_greedy C = false ->
  per_list D i pp gs (between_groups E D R).
Proof.
  intros HC H1 H2 H3 H4 H5 H6. eapply per_list_intro; [exact (search_yields_result _ _ _ _ _ Hp HS)|].
  intros q s m G ts T1 T2. exact (groups_between D _ R A B C q s m G ts HC H1 H2 H3 H4 H5 H6 T1 T2).
Qed.

Lemma lists_trailing A B :
  chain R = [A; B] ->
  r_optional A = false -> r_optional B = true -> r_greedy A = false -> r_greedy B = false ->
  per_list D i pp gs (trailing_groups E D R).
Proof.
  intros HC H1 H2 H3 H4. eapply per_list_intro; [exact (search_yields_result _ _ _ _ _ Hp HS)|].
  intros q s m G ts T1 T2. exact (groups_trailing D _ R A B q s m G ts HC H1 H2 H3 H4 T1 T2).
Qed.

(** *** C13, the part that holds *)

Lemma flat_list (P : npath * nat * nat -> list MatchingNodes -> Prop) g k q a par nd :
  per_list D i pp gs (fun L G => P L G /\ Forall (fun g => exists u, own g = pairs_at (fst (fst L)) u) G) ->
  In g gs -> In (a, k :: q) (own g) -> nget D q = Some par -> is_element par = true ->
  nget D (S k :: q) = Some nd ->
  exists s m G, P (q, s, m) G /\ In g G /\ S k < s + m.
Proof.
  intros [Gs [-> HF]] Hg Hin Hpar He Hnd. apply in_concat in Hg as [G [HG Hg]].
  destruct (Forall2_in_r _ _ _ _ HF HG) as [[[q' s] m] [HL [HP HO]]].
  rewrite Forall_forall in HO. destruct (HO g Hg) as [u Hu]. rewrite Hu in Hin.
  unfold pairs_at in Hin. apply in_map_iff in Hin as [y [Hy _]]. simpl in Hy. injection Hy as _ _ ->.
  exists s, m, G. split; [exact HP|]. split; [exact Hg|].
  assert (Hlen : S k < length (children_of par)).
  { cbn [nget] in Hnd. rewrite Hpar in Hnd. apply nth_error_Some. congruence. }
  unfold lists_searched in HL. destruct (nget D pp) as [par0|] eqn:Hpp; [|destruct HL]. destruct HL as [HL|HL].
  - injection HL as -> -> <-. rewrite Hpp in Hpar. injection Hpar as ->.
    unfold siblings_seen. rewrite He. lia.
  - apply in_map_iff in HL as [z [Hz _]]. injection Hz as -> <- <-. unfold child_count. rewrite Hpar. exact Hlen.
Qed.

Lemma in_pairs_at q u j k : In (repeat RNext j, k :: q) (pairs_at q u) <-> In (j, k) u.
Proof.
  unfold pairs_at. rewrite in_map_iff. split.
  - intros [[j' k'] [H Hin]]. simpl in H. injection H as H1 H2. subst k'.
    assert (j' = j) by (rewrite <- (repeat_length RNext j'), H1; apply repeat_length). now subst.
  - intros H. exists (j, k). auto.
Qed.

Lemma lists_repeat j : j < length (chain R) -> gets_repeated R j = true ->
  repeats_until_next E D R j gs.
Proof.
  intros Hj Hrep g k q par Hgs Hin Hpar He HM.
  assert (Hv : exists nd, nget D (S k :: q) = Some nd) by (inversion HM; subst; eauto). destruct Hv as [nd Hnd].
  pose (P := fun (L : npath * nat * nat) (G : list MatchingNodes) =>
    let '(q, s, n) := L in
    exists ts, sibling_groups D (node_satisfies E D) R q s n ts /\ map own G = map (fun t => pairs_at q (shift s t)) ts).
  destruct (flat_list P g k q (repeat RNext j) par nd) as [s [m [G [[ts [T1 T2]] [Hg' Hk]]]]]; try assumption.
  { eapply per_list_intro; [exact (search_yields_result _ _ _ _ _ Hp HS)|].
    intros q0 s m G ts T1 T2. split; [exists ts; auto|]. rewrite Forall_forall. intros g0 Hg0.
    destruct (group_in _ _ _ _ _ T2 Hg0) as [u [_ Hu]]. exists (shift s u). exact Hu. }
  clear Hpar He Hgs.
  destruct (group_in _ _ _ _ _ T2 Hg') as [u [Hu Ho]]. rewrite Ho in *.
  apply in_pairs_at, in_shift in Hin as [x [Hin ->]].
  destruct (group_of_list _ _ _ _ _ _ _ _ T1 Hu) as [lo [js HGr]].
  destruct (is_group_candidate _ _ _ _ _ _ _ _ _ _ HGr Hin) as [_ [C1 [C2 [C3 [C4 C5]]]]].
  destruct HGr as [[[HFe HSe] _] [Hhd [Hord [Hrl Hc]]]].
  set (opts := fun j => r_optional (rule_at R j)) in *. set (grd := fun j => r_greedy (rule_at R j)) in *.
  assert (Hta : takes_all opts grd j = true).
  { rewrite gets_repeated_eq in Hrep. fold opts grd in Hrep. unfold takes_all. rewrite Hrep, orb_true_r, andb_true_r.
    destruct j; cbn [repeated] in Hrep; apply andb_true_iff in Hrep as [Hrep _]; now apply andb_true_iff in Hrep as [_ Hrep]. }
  specialize (Hc j Hj). rewrite Hta in Hc. destruct Hc as [_ Hc].
  (* is the next node taken by a later mandatory rule? *)
  assert (Hused : forall j', In (j', S x) u -> In (S (s + x) :: q) (map snd (pairs_at q (shift s u)))).
  { intros j' Hj'. apply in_map_iff. exists (repeat RNext j', s + S x :: q). split; [simpl; f_equal; lia|].
    apply in_pairs_at, in_shift. eauto. }
  destruct (in_dec Nat.eq_dec (S x) (map snd u)) as [Hi|Hni].
  { apply in_map_iff in Hi as [[j' x'] [Ex Hx']]. simpl in Ex. subst x'. left. eapply Hused; eauto. }
  assert (Hdec : ends_before (length (chain R)) opts grd
      (fun j i => rule_matches D (node_satisfies E D) (rule_at R j) (s + i :: q)) (last js 0) (S x) \/
      exists f, hd_error (mandatory_of R) = Some f /\ rule_matches D (node_satisfies E D) f (S (s + x) :: q)).
  { unfold ends_before in *. destruct (mandatory_rules (length (chain R)) opts) as [|f ms] eqn:Em; [now left|].
    destruct C5 as [C5|C5]; [left; now left|].
    assert (Hhdm : hd_error (mandatory_of R) = Some (rule_at R f)).
    { rewrite mandatory_of_seq. fold opts. rewrite Em. reflexivity. }
    assert (HD : rule_matches D (node_satisfies E D) (rule_at R f) (S (s + x) :: q) \/
                 ~ rule_matches D (node_satisfies E D) (rule_at R f) (S (s + x) :: q)).
    { destruct (sem_spec D (bq E D) (node_satisfies E D) (bq_spec E D) nd _ Hnd) as [[N1 _] _].
      specialize (N1 [] (rule_at R f)). destruct (is_some _); [left; now apply N1|right; intros H; apply N1 in H; discriminate]. }
    destruct HD as [HD|HD]; [right; eauto|left; right].
    intros i' Hi' HM'. destruct (Nat.eq_dec i' (S x)) as [->|Hne].
    - apply HD. now replace (S (s + x)) with (s + S x) by lia.
    - apply (C5 i'); [lia|exact HM']. }
  destruct Hdec as [Hdec|Hdec]; [left|right; exact Hdec].
  apply (Hused j). apply nodes_of_in. apply Hc. split; [lia|]. split; [now replace (s + S x) with (S (s + x)) by lia|].
  split; [intros j' i' Hin' Hlt; pose proof (C3 j' i' Hin' Hlt); lia|]. split; [|exact Hdec].
  intros j' i' Hin' Hlt Hopt. pose proof (C4 j' i' Hin' Hlt Hopt).
  destruct (Nat.eq_dec i' (S x)) as [->|]; [|lia]. exfalso. apply Hni. apply in_map_iff. exists (j', S x). auto.
Qed.

(** *** C14, the part that holds *)

Lemma lists_single_optional : r_next R = None -> r_optional R = true -> r_greedy R = false ->
  per_list D i pp gs (one_group_each E D R).
Proof.
  intros Hn Ho Hg. eapply per_list_intro; [exact (search_yields_result _ _ _ _ _ Hp HS)|].
  intros q s m G ts T1 T2.
  assert (Hc : chain R = [R]) by (apply single_chain; exact Hn).
  assert (Hr : rule_at R 0 = R) by (unfold rule_at; now rewrite Hc).
  assert (Hm : mandatory_of R = []) by (unfold mandatory_of; rewrite Hc; simpl; unfold is_mandatory; now rewrite Ho).
  unfold sibling_groups in T1. rewrite Hm, Hc in T1. cbn [length] in T1.
  set (M := fun j i => rule_matches D (node_satisfies E D) (rule_at R j) (s + i :: q)) in *.
  set (opts := fun j => r_optional (rule_at R j)) in *. set (grd := fun j => r_greedy (rule_at R j)) in *.
  assert (Hta : takes_all opts grd 0 = false) by (unfold takes_all, grd; now rewrite Hr, Hg).
  assert (Em : mandatory_rules 1 opts = []) by (unfold mandatory_rules, opts; simpl; now rewrite Hr, Ho).
  assert (Hgrp : forall lo t, is_group 1 m opts grd M lo [] t ->
     (t = [] /\ forall i, lo <= i < m -> ~ M 0 i) \/
     (exists a, t = [(0, a)] /\ lo <= a < m /\ M 0 a /\ forall i, lo <= i < m -> M 0 i -> a <= i)).
  { intros lo u [_ [_ [Hord [Hrl Hcc]]]]. specialize (Hcc 0 ltac:(lia)). rewrite Hta in Hcc.
    rewrite (ordered_1 u Hord Hrl).
    assert (Hcand : forall i, lo <= i < m -> M 0 i -> candidate 1 m opts grd M lo (last [] 0) u 0 i).
    { intros x Hx HMx. split; [exact Hx|]. split; [exact HMx|]. split; [intros; lia|]. split.
      - intros j' i' Hin Hlt. apply Hrl in Hin. lia.
      - unfold ends_before. now rewrite Em. }
    destruct Hcc as [[-> Hno]|[a [-> [Ha Hmin]]]].
    - left. split; [reflexivity|]. intros x Hx HMx. apply (Hno x). now apply Hcand.
    - right. exists a. destruct Ha as [A1 [A2 _]]. split; [reflexivity|]. split; [exact A1|]. split; [exact A2|].
      intros x Hx HMx. apply Hmin. now apply Hcand. }
  assert (Hall : forall lo ts, are_optional_groups 1 m opts grd M lo ts ->
     exists l, StronglySorted lt l /\ (forall i, In i l <-> lo <= i < m /\ M 0 i) /\ ts = map (fun i => [(0, i)]) l).
  { intros lo us Hus. induction Hus as [lo HG|lo u HG Hne Hl|lo u x us HG Hgr Hno HR IH].
    - exists []. split; [constructor|]. split; [|reflexivity].
      destruct (Hgrp lo [] HG) as [[_ Hno]|[a [Ha _]]]; [|discriminate].
      intros x. split; [intros []|]. intros [H1 H2]. now apply (Hno x) in H2.
    - exfalso. destruct (Hgrp lo u HG) as [[-> _]|[a [-> _]]]; [congruence|].
      destruct Hl as [Hl|Hl]; [|discriminate]. unfold grd in Hl. simpl in Hl. rewrite Hr in Hl. congruence.
    - destruct (Hgrp lo u HG) as [[-> _]|[a [-> [Ha [HMa Hmin]]]]]; [discriminate|].
      simpl in Hno. injection Hno as <-. destruct IH as [l [L1 [L2 ->]]].
      exists (a :: l). split; [|split; [|reflexivity]].
      + constructor; [exact L1|]. rewrite Forall_forall. intros y Hy. apply L2 in Hy. lia.
      + intros y. simpl. rewrite L2. split.
        * intros [<-|[H1 H2]]; [split; [lia|exact HMa]|split; [lia|exact H2]].
        * intros [H1 H2]. pose proof (Hmin y H1 H2). destruct (Nat.eq_dec a y); [now left|right]. split; [lia|exact H2]. }
  destruct (Hall 0 ts T1) as [l [L1 [L2 ->]]]. unfold M in L2. rewrite Hr in L2.
  exists (map (fun i => s + i) l). split; [exact (shift_all_matching D _ R l q s m L1 L2)|].
  rewrite T2, !map_map. reflexivity.
Qed.

End Lists.

(** ** C15, the part that holds *)

Lemma rule_matches_element r p : rule_matches D (node_satisfies E D) r p -> r_child r <> None \/ r_nested r <> [] ->
  exists t, nget D p = Some t /\ is_element t = true /\ children_of t <> [].
Proof. intros H Hc. inversion H as [r0 p0 n0 Hn Hs Hel Hch Hne]; subst. exists n0. destruct (Hel Hc). auto. Qed.

Lemma optional_children_irrelevant r c c' p :
  r_child r = Some c -> mandatory_of c = mandatory_of c' ->
  (rule_matches D (node_satisfies E D) r p <-> rule_matches D (node_satisfies E D) (with_child r (Some c')) p).
Proof.
  intros Hc Hm.
  assert (HN : forall r0 c0, r_nested (with_child r0 c0) = r_nested r0) by (intros [] ?; reflexivity).
  assert (HC : forall r0 c0, r_child (with_child r0 c0) = c0) by (intros [] ?; reflexivity).
  assert (Hsat : forall r0 c0, node_satisfies E D (with_child r0 c0) p <-> node_satisfies E D r0 p) by (intros [] ?; reflexivity).
  split; intros H; inversion H as [r0 p0 n0 Hn Hs Hel Hch Hne]; subst.
  - apply (rule_matches_intro _ _ _ _ n0); [exact Hn|now apply Hsat| | |].
    + intros _. apply Hel. left. congruence.
    + intros x Hx. rewrite HC in Hx. injection Hx as <-. rewrite <- Hm. now apply Hch.
    + intros x Hx. rewrite HN in Hx. now apply Hne.
  - apply (rule_matches_intro _ _ _ _ n0); [exact Hn|now apply Hsat in Hs| | |].
    + intros _. apply Hel. left. rewrite HC. discriminate.
    + intros x Hx. rewrite Hc in Hx. injection Hx as <-. rewrite Hm. apply Hch. apply HC.
    + intros x Hx. apply Hne. now rewrite HN.
Qed.

Lemma optional_child_removed r c p t :
  r_child r = Some c -> mandatory_of c = [] ->
  nget D p = Some t -> is_element t = true -> children_of t <> [] ->
  (rule_matches D (node_satisfies E D) r p <-> rule_matches D (node_satisfies E D) (with_child r None) p).
Proof.
  intros Hc Hm Ht He Hk.
  assert (HN : forall r0 c0, r_nested (with_child r0 c0) = r_nested r0) by (intros [] ?; reflexivity).
  assert (HC : forall r0 c0, r_child (with_child r0 c0) = c0) by (intros [] ?; reflexivity).
  assert (Hsat : forall r0 c0, node_satisfies E D (with_child r0 c0) p <-> node_satisfies E D r0 p) by (intros [] ?; reflexivity).
  split; intros H; inversion H as [r0 p0 n0 Hn Hs Hel Hch Hne]; subst.
  - apply (rule_matches_intro _ _ _ _ n0); [exact Hn|now apply Hsat| | |].
    + intros _. apply Hel. left. congruence.
    + intros x Hx. rewrite HC in Hx. discriminate.
    + intros x Hx. rewrite HN in Hx. now apply Hne.
  - apply (rule_matches_intro _ _ _ _ n0); [exact Hn|now apply Hsat in Hs| | |].
    + intros _. rewrite Ht in Hn. injection Hn as <-. auto.
    + intros x Hx. rewrite Hc in Hx. injection Hx as <-. rewrite Hm. exists []. split; constructor.
    + intros x Hx. apply Hne. now rewrite HN.
Qed.

End Main.

(** Enough fuel to compute an outcome is enough. *)
Lemma extract_yields_at E R D p n f : extract f E R D p n <> OutOfFuel -> extract_yields E R D p n (extract f E R D p n).
Proof.
  intros H. exists f. intros f' Hf. unfold extract in *.
  rewrite (Save_mono R D (Rule_matches E D) f f' _ _ _ Hf); [reflexivity|].
  intros HS. rewrite HS in H. now apply H.
Qed.

Lemma search_yields_at E R D p n f gs n' :
  SaveMatchingNodesRecursive R D (Rule_matches E D) f (Some []) p n = Ok (gs, n') -> search_yields E R D p n (Ok gs).
Proof.
  intros H. exists f. intros f' Hf. rewrite (Save_mono R D (Rule_matches E D) f f' _ _ _ Hf); rewrite H; [reflexivity|discriminate].
Qed.
