(** The groups and the results of rules that differ in optional rules alone. *)

From Coq Require Import Ascii String Arith NArith ZArith Bool List Lia.
From Verif Require Import Base Tags Dom Values Match Rule RuleMatching StringProofs MatchSem MatchRefine GroupAlg GroupSpec MatchSpec MatchProofs ExtractSpec LocalProofs ExtractProofs SpecUnique ResultProofs ExtractMain
  RewriteSpec RewriteProofs BraceSpec BraceMain SkelSpec SkelOne SkelSim.
Import ListNotations.

Lemma core_conditions E D r r' p : same_core r r' -> bq E D r p = bq E D r' p.
Proof. intros [x y H1 H2 H3 _ _ _ _ _]. unfold bq, Rule_matches, tag_matches. now rewrite H1, H2, H3. Qed.

(** *** Rules that stand for each other *)

Section Stand.
Variables R R' : rule.

Lemma row_core rp rp' c c' a a' : rget R rp = Some c -> rget R' rp' = Some c' -> Forall2 same_core (mandatory_of c) (mandatory_of c') ->
  In (a, a') (combine (mandatory_addresses rp c) (mandatory_addresses rp' c')) ->
  exists r r', rget R a = Some r /\ rget R' a' = Some r' /\ same_core r r'.
Proof.
  intros Hc Hc' HF. rewrite <- (chain_mandatory rp c), <- (chain_mandatory rp' c') in HF. rewrite <- (chain_addresses c rp), <- (chain_addresses c' rp').
  assert (X : forall T q x, rget T q = Some x -> Forall (known T) (filter mandatory (chain_of q x))).
  { intros T q x Hq. pose proof (row_known T q x Hq) as HK. rewrite Forall_forall in HK |- *. intros cr Hi. apply filter_In in Hi as [Hi _]. now apply HK. }
  pose proof (X R rp c Hc) as H1. pose proof (X R' rp' c' Hc') as H2. clear X. revert HF H1 H2.
  generalize (filter mandatory (chain_of rp c)) (filter mandatory (chain_of rp' c')). intros l l'. revert l'.
  induction l as [|cr l IH]; intros [|cr' l'] HF H1 H2 Hi; cbn [map combine] in *; try contradiction. destruct Hi as [Hi|Hi]; [|inversion HF; inversion H1; inversion H2; subst; now apply (IH l')].
  injection Hi as <- <-. inversion HF; inversion H1; inversion H2; subst. now exists (snd cr), (snd cr').
Qed.

Lemma stands_core a a' : same_skeleton R R' -> stands_for R R' a a' ->
  exists r r', rget R a = Some r /\ rget R' a' = Some r' /\ same_core r r'.
Proof.
  intros HS. induction 1 as [a a' Hi|rp rp' r r' c c' a a' _ IH Hr Hr' Hc Hc' Hi|rp rp' r r' k c c' a a' _ IH Hr Hr' Hc Hc' Hi].
  - exact (row_core [] [] R R' a a' eq_refl eq_refl HS Hi).
  - destruct IH as (x & x' & Hx & Hx' & HC). rewrite Hr in Hx. injection Hx as <-. rewrite Hr' in Hx'. injection Hx' as <-. destruct HC as [r r' _ _ _ _ _ _ HC _].
    refine (row_core (RChild :: rp) (RChild :: rp') c c' a a' _ _ (HC c c' Hc Hc') Hi); cbn [rget]; [now rewrite Hr|now rewrite Hr'].
  - destruct IH as (x & x' & Hx & Hx' & HC). rewrite Hr in Hx. injection Hx as <-. rewrite Hr' in Hx'. injection Hx' as <-. destruct HC as [r r' _ _ _ _ _ _ _ HN].
    refine (row_core (RNested k :: rp) (RNested k :: rp') c c' a a' _ _ _ Hi); [cbn [rget]; now rewrite Hr|cbn [rget]; now rewrite Hr'|].
    clear - HN Hc Hc'. revert k Hc Hc'. induction HN as [|x y l l' Hx _ IH]; intros [|k]; cbn [nth_error]; try discriminate; [intros [= <-] [= <-]; exact Hx|apply IH].
Qed.

End Stand.

(** *** Captured values *)

Section Values.
Variable E : engine.
Variable D : node.

Lemma captured_essential R name m v : stored_by_essentials R name -> captured E R D m v ->
  exists v0, captured E R D (essential_pairs R m) v0 /\ values_of name v = values_of name v0.
Proof.
  intros HS. induction 1 as [|rp p r m vs rest Hr Hv _ [v0 [H1 H2]]]; [exists []; split; [constructor|reflexivity]|].
  unfold essential_pairs in *. cbn [filter fst]. rewrite values_of_app, H2. destruct (essential R rp) eqn:Ee.
  - exists (vs ++ v0). split; [now apply (captured_cons E R D rp p r)|now rewrite values_of_app].
  - exists v0. split; [exact H1|]. rewrite (not_stored E D r p vs name Hv); [reflexivity|].
    destruct (existsb _ (present (r_captures r))) eqn:Ex; [|reflexivity]. apply existsb_exists in Ex as (c & Hc & He). apply str_eqb_eq in He.
    enough (X : In (Some c) (r_captures r)) by (rewrite (HS rp r c Hr X He) in Ee; discriminate Ee).
    clear - Hc. induction (r_captures r) as [|[x|] l IH]; [destruct Hc| |right; now apply IH]. destruct Hc as [->|Hc]; [now left|right; now apply IH].
Qed.

Lemma captured_pairs R R' m m' : same_skeleton R R' -> Forall2 (same_pair R R') m m' -> forall v v', captured E R D m v -> captured E R' D m' v' -> v = v'.
Proof.
  intros HS. induction 1 as [|[a p] [a' p'] m m' [Ha Hp] _ IH]; intros v v' H H'; inversion H; inversion H'; subst; [reflexivity|].
  cbn [fst snd] in *. subst p'. destruct (stands_core R R' a a' HS Ha) as (x & x' & Hx & Hx' & HC).
  match goal with H1 : rget R a = Some ?y |- _ => rewrite Hx in H1; injection H1 as <- end.
  match goal with H1 : rget R' a' = Some ?y |- _ => rewrite Hx' in H1; injection H1 as <- end.
  f_equal; [|now apply IH]. destruct HC as [x x' _ _ _ HC _ _ _ _].
  match goal with H1 : rule_values E D x p ?v1, H2 : rule_values E D x' p ?v2 |- _ =>
    apply (rule_values_unique E D x p); [exact H1|]; destruct H2 as [outs [HF ->]]; exists outs; now rewrite HC end.
Qed.

Lemma result_values name vss res : Forall2 map_of (filter nonempty_list vss) res -> flat_map (values_of name) res = flat_map (values_of name) vss.
Proof.
  revert res. induction vss as [|v vss IH]; intros res; cbn [filter]; [inversion 1; reflexivity|].
  destruct v as [|x v]; cbn [nonempty_list]; [intros H; cbn [flat_map]; rewrite (IH res H); reflexivity|].
  inversion 1 as [|? m ? res' (_ & _ & HV) Hrest]; subst. cbn [flat_map]. now rewrite HV, (IH res' Hrest).
Qed.

End Values.

Section Found.
Variable E : engine.
Variables R R' : rule.
Variable D : node.
Variable i : nat.
Variable pp : npath.
Variable t : node.
Hypothesis Ht : nget D (i :: pp) = Some t.
Hypothesis HS : same_skeleton R R'.
Hypothesis Hm : mandatory_of R <> [].
Hypothesis HR : repeats_freely R.
Hypothesis HR' : repeats_freely R'.

Lemma found_essentials gs gs' : search_result D (node_satisfies E D) R i pp gs -> search_result D (node_satisfies E D) R' i pp gs' ->
  Forall2 (same_essentials R R') gs gs'.
Proof.
  intros H H'.
  rewrite (search_result_unique _ _ _ _ _ _ _ H (search_meets_spec D (bq E D) (node_satisfies E D) (bq_spec E D) i pp t R Ht)).
  rewrite (search_result_unique _ _ _ _ _ _ _ H' (search_meets_spec D (bq E D) (node_satisfies E D) (bq_spec E D) i pp t R' Ht)).
  apply search_sim; try assumption. intros r r' p S. now apply core_conditions.
Qed.

Theorem skeleton_groups n n' gs gs' :
  search_yields E R D (Some (i :: pp)) n (Ok gs) -> search_yields E R' D (Some (i :: pp)) n' (Ok gs') ->
  Forall2 (same_essentials R R') gs gs'.
Proof. intros H H'. apply found_essentials; [exact (search_yields_result _ _ _ _ _ _ _ _ Ht H)|exact (search_yields_result _ _ _ _ _ _ _ _ Ht H')]. Qed.

Theorem skeleton_values name n n' res res' : stored_by_essentials R name -> stored_by_essentials R' name ->
  extract_yields E R D (Some (i :: pp)) n (Ok res) -> extract_yields E R' D (Some (i :: pp)) n' (Ok res') ->
  flat_map (values_of name) res = flat_map (values_of name) res'.
Proof.
  intros HN HN' H H'. destruct (extract_found E D i pp t Ht R n res H) as (gs & S & vss & X & M). destruct (extract_found E D i pp t Ht R' n' res' H') as (gs' & S' & vss' & X' & M').
  rewrite (result_values name vss res M), (result_values name vss' res' M'). clear M M'. pose proof (found_essentials gs gs' S S') as F. clear - F X X' HN HN' HS.
  revert vss vss' X X'. induction F as [|m m' gs gs' HE _ IH]; intros vss vss' X X'; inversion X as [|? v ? vs HV HVs]; inversion X' as [|? v' ? vs' HV' HVs']; subst; [reflexivity|].
  cbn [flat_map]. f_equal; [|now apply IH]. destruct (captured_essential E D R name m v HN HV) as (w & W1 & ->). destruct (captured_essential E D R' name m' v' HN' HV') as (w' & W1' & ->).
  now rewrite (captured_pairs E D R R' _ _ HS HE w w' W1 W1').
Qed.

End Found.
