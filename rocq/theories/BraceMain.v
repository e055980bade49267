(** The groups and the results of rules whose braces stand in another order. *)

From Coq Require Import Ascii String Arith NArith ZArith Bool List Lia Permutation Sorted.
From Verif Require Import Base Tags Dom Values Match Rule RuleMatching StringProofs MatchSem MatchRefine GroupAlg GroupSpec MatchSpec MatchProofs ExtractSpec LocalProofs ExtractProofs SpecUnique ResultProofs ExtractMain
  RewriteSpec RewriteProofs BraceSpec BraceProofs BraceSim.
Import ListNotations.

(** *** Conditions *)

Lemma same_conditions E D r r' p : same_rule r r' -> bq E D r p = bq E D r' p.
Proof. intros (H1 & H2 & H3 & _). unfold bq, Rule_matches, tag_matches. now rewrite H1, H2, H3. Qed.

(** *** Captured values *)

Section Values.
Variable E : engine.
Variable D : node.

Lemma rule_values_unique r p v v' : rule_values E D r p v -> rule_values E D r p v' -> v = v'.
Proof. intros H H'. apply (Rule_capture_values E D) in H, H'. congruence. Qed.

Lemma captured_unique R m : forall v v', captured E R D m v -> captured E R D m v' -> v = v'.
Proof.
  induction m as [|x m IH]; intros v v' H H'; inversion H; inversion H'; subst; [reflexivity|].
  match goal with H : (_, _) = (_, _) |- _ => injection H as -> -> end.
  f_equal; [|now apply IH]. match goal with H1 : rget R ?q = Some _, H2 : rget R ?q = Some _ |- _ => rewrite H1 in H2; injection H2 as -> end.
  eapply rule_values_unique; eassumption.
Qed.

Lemma captured_moved R R' g m v : renumbered R R' g -> captured E R D m v -> captured E R' D (moved g m) v.
Proof.
  intros Hg H. induction H as [|rp p r m vs rest Hr Hv _ IH]; cbn [moved map fst snd]; [constructor|].
  pose proof Hg as (_ & H1 & _). destruct (H1 rp r Hr) as [r' [Hr' S]]. destruct S as (_ & _ & _ & S & _).
  apply (captured_cons E R' D _ _ r'); [exact Hr'| |exact IH]. destruct Hv as [outs [HF ->]]. exists outs. now rewrite <- S.
Qed.

Lemma captured_permuted R m m' : Permutation m m' -> forall v v', captured E R D m v -> captured E R D m' v' -> Permutation v v'.
Proof.
  assert (X : forall v, Permutation m m' -> captured E R D m v -> exists v', captured E R D m' v' /\ Permutation v v').
  { intros v HP. revert v. induction HP as [|x l l' HP IH|x y l|l l' l'' HP1 IH1 HP2 IH2]; intros v H.
    - exists v. auto.
    - inversion H as [|rp p r m0 vs rest Hr Hv Hrest]; subst. destruct (IH _ Hrest) as [v' [H1 H2]]. exists (vs ++ v').
      split; [now apply (captured_cons E R D rp p r)|now apply Permutation_app_head].
    - inversion H as [|rp p r m0 vs rest Hr Hv Hrest]; subst. inversion Hrest as [|rp2 p2 r2 m2 vs2 rest2 Hr2 Hv2 Hrest2]; subst.
      exists (vs2 ++ vs ++ rest2). split; [|rewrite !app_assoc; apply Permutation_app_tail, Permutation_app_comm].
      apply (captured_cons E R D rp2 p2 r2); [assumption|assumption|]. now apply (captured_cons E R D rp p r).
    - destruct (IH1 _ H) as [v1 [H1 P1]]. destruct (IH2 _ H1) as [v2 [H2 P2]]. exists v2. split; [exact H2|now transitivity v1]. }
  intros HP v v' H H'. destruct (X v HP H) as [v2 [H2 P2]]. now rewrite (captured_unique R m' v' v2 H' H2).
Qed.

Lemma not_stored r p v name : rule_values E D r p v -> existsb (fun c => str_eqb (stores_as c) name) (present (r_captures r)) = false -> values_of name v = [].
Proof.
  intros [outs [HF ->]]. induction HF as [|c o l outs Hc _ IH]; [reflexivity|]. cbn [existsb]. intros H. apply orb_false_iff in H as [H1 H2].
  destruct o as [[k w]|]; [|exact (IH H2)]. change (present (Some (k, w) :: outs)) with ((k, w) :: present outs). rewrite values_of_cons, (IH H2). cbn [fst].
  pose proof (capture_stores E D c p _ Hc) as Hk. cbn [fst] in Hk. now rewrite Hk, H1.
Qed.

Lemma captured_filter R name m v : captured E R D m v -> exists v0, captured E R D (filter (stores R name) m) v0 /\ values_of name v = values_of name v0.
Proof.
  induction 1 as [|rp p r m vs rest Hr Hv _ [v0 [H1 H2]]]; [exists []; split; [constructor|reflexivity]|].
  cbn [filter]. unfold stores at 1. cbn [fst]. rewrite Hr, values_of_app, H2.
  destruct (existsb _ (present (r_captures r))) eqn:Ex.
  - exists (vs ++ v0). split; [now apply (captured_cons E R D rp p r)|now rewrite values_of_app].
  - exists v0. split; [exact H1|]. now rewrite (not_stored r p vs name Hv Ex).
Qed.

Lemma captured_order R name m m' v v' : filter (stores R name) m = filter (stores R name) m' ->
  captured E R D m v -> captured E R D m' v' -> values_of name v = values_of name v'.
Proof.
  intros HF H H'. destruct (captured_filter R name m v H) as [v0 [H1 ->]]. destruct (captured_filter R name m' v' H') as [v0' [H1' ->]].
  rewrite HF in H1. now rewrite (captured_unique R _ _ _ H1 H1').
Qed.

(** One map for each group with values. *)
Lemma maps_related (P : list result_pair -> list result_pair -> Prop) vss vss' res res' :
  Forall2 (fun v v' => Permutation v v' /\ P v v') vss vss' ->
  Forall2 map_of (filter nonempty_list vss) res -> Forall2 map_of (filter nonempty_list vss') res' ->
  Forall2 (fun m m' => exists v v', map_of v m /\ map_of v' m' /\ Permutation v v' /\ P v v') res res'.
Proof.
  intros H. revert res res'. induction H as [|v v' vss vss' [HP HV] _ IH]; intros res res' H1 H2; cbn [filter] in *.
  - inversion H1; inversion H2; constructor.
  - assert (HN : nonempty_list v = nonempty_list v').
    { destruct v, v'; try reflexivity; [now apply Permutation_nil in HP|now apply Permutation_sym, Permutation_nil in HP]. }
    rewrite <- HN in H2. destruct (nonempty_list v); [|now apply IH]. inversion H1; inversion H2; subst. constructor; [|now apply IH].
    exists v, v'. auto.
Qed.

End Values.

(** *** The search and the results *)

Section Found.
Variable E : engine.
Variables R R' : rule.
Variable D : node.
Variable i : nat.
Variable pp : npath.
Variable t : node.
Hypothesis Ht : nget D (i :: pp) = Some t.

Section Map.
Variable g : rpath -> rpath.
Hypothesis Hg : renumbered R R' g.
Variable ordered : str -> Prop.
Hypothesis Hkeep : forall name, ordered name -> keeps R g name.

Lemma found_related gs gs' : search_result D (node_satisfies E D) R i pp gs -> search_result D (node_satisfies E D) R' i pp gs' ->
  Forall2 (prel R R' g ordered []) gs gs'.
Proof.
  intros H H'.
  rewrite (search_result_unique _ _ _ _ _ _ _ H (search_meets_spec D (bq E D) (node_satisfies E D) (bq_spec E D) i pp t R Ht)).
  rewrite (search_result_unique _ _ _ _ _ _ _ H' (search_meets_spec D (bq E D) (node_satisfies E D) (bq_spec E D) i pp t R' Ht)).
  apply search_rel; [exact Hg|exact Hkeep|]. intros r r' p S. now apply same_conditions.
Qed.

Lemma results_related gs gs' res res' : Forall2 (prel R R' g ordered []) gs gs' -> extract_result E R D gs res -> extract_result E R' D gs' res' ->
  Forall2 (fun m m' => exists v v', map_of v m /\ map_of v' m' /\ Permutation v v' /\ forall name, ordered name -> values_of name v = values_of name v') res res'.
Proof.
  intros H (vss & H1 & H2) (vss' & H1' & H2').
  refine (maps_related (fun v v' => forall name, ordered name -> values_of name v = values_of name v') vss vss' res res' _ H2 H2'). clear H2 H2'.
  revert vss vss' H1 H1'. induction H as [|m m' gs gs' (HP & HF & _) _ IH]; intros vss vss' H1 H1'; inversion H1; inversion H1'; subst; constructor; [|now apply IH].
  match goal with H : captured E R D m ?v |- _ => pose proof (captured_moved E D R R' g m v Hg H) as HM end. change (map (gp g) m) with (moved g m) in *. split.
  - eapply (captured_permuted E D R'); eassumption.
  - intros name Hn. eapply (captured_order E D R' name (moved g m) m'); [now apply HF|eassumption|eassumption].
Qed.

End Map.

Lemma extract_found T n res : extract_yields E T D (Some (i :: pp)) n (Ok res) -> exists gs, search_result D (node_satisfies E D) T i pp gs /\ extract_result E T D gs res.
Proof. intros [f0 H]. exact (extract_describes E T D f0 i pp t n res Ht (H f0 (le_n _))). Qed.

(** The maps are the same, with the values of a name in another order. *)
Theorem braces_values n n' res res' : rearranged any R R' ->
  extract_yields E R D (Some (i :: pp)) n (Ok res) -> extract_yields E R' D (Some (i :: pp)) n' (Ok res') ->
  Forall2 (fun m m' => Permutation m m') res res'.
Proof.
  intros HA H H'. destruct (rearranged_renumbered any R R' HA) as [g [Hg _]].
  destruct (extract_found R n res H) as (gs & S & X). destruct (extract_found R' n' res' H') as (gs' & S' & X').
  pose proof (results_related g Hg _ gs gs' res res' (found_related g Hg (fun _ => False) (fun _ F => match F with end) gs gs' S S') X X') as F. clear - F.
  induction F as [|m m' l l' (v & v' & (_ & P1 & _) & (_ & P2 & _) & P & _) _ IH]; constructor; [|exact IH].
  apply (Permutation_trans P1). apply (Permutation_trans P). now apply Permutation_sym.
Qed.

(** A name whose values do not come from both of two exchanged rules keeps the
    order of its values. *)
Theorem braces_order may name n n' res res' : rearranged may R R' -> (forall a b, may a b -> apart_for name a b) ->
  extract_yields E R D (Some (i :: pp)) n (Ok res) -> extract_yields E R' D (Some (i :: pp)) n' (Ok res') ->
  Forall2 (fun m m' => Permutation m m' /\ values_of name m = values_of name m') res res'.
Proof.
  intros HA Hm H H'. destruct (rearranged_renumbered may R R' HA) as [g [Hg Hk]].
  destruct (extract_found R n res H) as (gs & S & X). destruct (extract_found R' n' res' H') as (gs' & S' & X').
  assert (HK : forall nm, nm = name -> keeps R g nm) by (intros nm ->; now apply Hk).
  pose proof (results_related g Hg _ gs gs' res res' (found_related g Hg (fun nm => nm = name) HK gs gs' S S') X X') as F. clear - F.
  induction F as [|m m' l l' (v & v' & (_ & P1 & V1) & (_ & P2 & V2) & P & V) _ IH]; constructor; [|exact IH]. split.
  - apply (Permutation_trans P1). apply (Permutation_trans P). now apply Permutation_sym.
  - rewrite V1, V2. now apply V.
Qed.

(** Rules that store under different names give the same maps. *)
Theorem braces_maps n n' res res' : rearranged apart R R' ->
  extract_yields E R D (Some (i :: pp)) n (Ok res) -> extract_yields E R' D (Some (i :: pp)) n' (Ok res') -> res = res'.
Proof.
  intros HA H H'. destruct (rearranged_renumbered apart R R' HA) as [g [Hg Hk]].
  destruct (extract_found R n res H) as (gs & S & X). destruct (extract_found R' n' res' H') as (gs' & S' & X').
  assert (HK : forall nm, True -> keeps R g nm) by (intros nm _; apply Hk; intros a b Hab; exact (Hab nm)).
  pose proof (results_related g Hg _ gs gs' res res' (found_related g Hg (fun _ => True) HK gs gs' S S') X X') as F. clear - F.
  induction F as [|m m' l l' (v & v' & (S1 & _ & V1) & (S2 & _ & V2) & P & V) _ IH]; [reflexivity|]. f_equal; [|exact IH].
  apply sorted_same_values; [exact S1|exact S2|]. intros name. rewrite V1, V2. now apply V.
Qed.

End Found.

(** The groups are the same, with the pairs of a group in another order. *)
Theorem braces_groups R R' : rearranged any R R' -> exists g, renumbered R R' g /\ forall E D i pp t n n' gs gs',
  nget D (i :: pp) = Some t ->
  search_yields E R D (Some (i :: pp)) n (Ok gs) -> search_yields E R' D (Some (i :: pp)) n' (Ok gs') ->
  Forall2 (fun m m' => Permutation (moved g m) m') gs gs'.
Proof.
  intros HA. destruct (rearranged_renumbered any R R' HA) as [g [Hg _]]. exists g. split; [exact Hg|].
  intros E D i pp t n n' gs gs' Ht H H'. pose proof (search_yields_result _ _ _ _ _ _ _ _ Ht H) as S. pose proof (search_yields_result _ _ _ _ _ _ _ _ Ht H') as S'.
  pose proof (found_related E R R' D i pp t Ht g Hg (fun _ => False) (fun _ F => match F with end) gs gs' S S') as F. clear - F.
  induction F as [|m m' gs gs' (HP & _) _ IH]; constructor; [exact HP|exact IH].
Qed.
