(** Proofs about rules without children and about the example extract-href. *)

From Coq Require Import Ascii String Arith NArith ZArith Bool List Lia Sorted Permutation.
From Verif Require Import Base StringUtil Tags Dom Values Match Rule RuleMatching MatchSpec ExtractSpec SearchSpec
  StringSpec NodeSpec StringProofs NodeProofs ExtractProofs SearchFacts ResultProofs ExtractMain Convert ConvertProofs CliSpec Href HrefSpec.
Import ListNotations.
Open Scope outcome_scope.

(** ** A rule without other rules *)

Definition alone (R : rule) : Prop :=
  r_child R = None /\ r_next R = None /\ r_nested R = [] /\ r_optional R = false /\ r_greedy R = false.

Lemma alone_rget R a r : alone R -> rget R a = Some r -> a = [] /\ r = R.
Proof.
  intros [H1 [H2 [H3 _]]]. revert r. induction a as [|st a IH]; intros r H; [cbn in H; split; congruence|]. exfalso.
  cbn [rget] in H. destruct (rget R a) as [r'|]; [|discriminate]. destruct (IH r' eq_refl) as [_ ->].
  destruct st; cbn in H; rewrite ?H1, ?H2, ?H3 in H; try discriminate. destruct k; discriminate.
Qed.

Lemma alone_matches E D R p : alone R -> rule_matches D (node_satisfies E D) R p <-> node_satisfies E D R p.
Proof.
  intros [H1 [H2 [H3 _]]]. split; [inversion 1; auto|]. intros H.
  assert (Hn : exists n, nget D p = Some n).
  { unfold node_satisfies, Rule_matches, deref in H. destruct (nget D p); [eauto|discriminate]. }
  destruct Hn as [n Hn]. apply (rule_matches_intro _ _ _ _ n); auto.
  - intros [?|?]; congruence.
  - intros c Hc. congruence.
  - intros c Hc. rewrite H3 in Hc. destruct Hc.
Qed.

Lemma own_all R (g : MatchingNodes) : alone R -> (forall x, In x g -> exists r, rget R (fst x) = Some r) -> own g = g.
Proof.
  intros HA. induction g as [|x g IH]; intros H; [reflexivity|]. unfold own in *. cbn [filter].
  destruct (H x (or_introl eq_refl)) as [r Hr]. destruct (alone_rget R _ _ HA Hr) as [E _]. rewrite E. cbn. f_equal.
  apply IH. intros; apply H. now right.
Qed.

Section Alone.
Variables (E : engine) (R : rule) (D : node) (c : capture) (i : nat) (pp : npath) (t : node).
Hypothesis HR : alone R.
Hypothesis Hcap : r_captures R = [Some c].
Hypothesis Hp : nget D (i :: pp) = Some t.

Lemma alone_groups gs : search_result D (node_satisfies E D) R i pp gs ->
  exists nodes, in_search_order D i pp (node_satisfies E D R) nodes /\ gs = map (fun p => [([], p)]) nodes.
Proof.
  intros HS.
  assert (Hall : forall x, In x (concat gs) -> exists r, rget R (fst x) = Some r).
  { intros x Hx. destruct (search_pairs D (node_satisfies E D) R i pp gs HS x Hx) as [r [Hr _]]. eauto. }
  destruct (per_list_intro D (node_satisfies E D) R i pp gs (one_group_each E D R) HS) as [Gs [-> HF]].
  { intros q a m G ts H1 H2. destruct HR as [_ [Hn [_ [Ho Hg]]]].
    exact (groups_single D _ R q a m G ts Hn Ho Hg H1 H2). }
  assert (HF2 : exists nss, Forall2 (fun (L : npath * nat * nat) ns =>
       exists ks, ns = map (fun k => k :: fst (fst L)) ks /\ StronglySorted lt ks /\
         forall k, In k ks <-> snd (fst L) <= k < snd (fst L) + snd L /\ node_satisfies E D R (k :: fst (fst L)))
      (lists_searched D i pp) nss /\ concat Gs = map (fun p => [([], p)]) (concat nss)).
  { clear HS. induction HF as [|[[q a] m] G Ls Gs [ks [[H1 H2] H3]] HF IH]; [exists []; split; [constructor|reflexivity]|].
    destruct IH as [nss [IH1 IH2]].
    { intros x Hx. apply Hall. cbn. rewrite concat_app. apply in_or_app. now right. }
    exists (map (fun k => k :: q) ks :: nss). split.
    - constructor; [|exact IH1]. exists ks. cbn [fst snd]. split; [reflexivity|]. split; [exact H1|].
      intros k. rewrite H2, alone_matches by exact HR. reflexivity.
    - cbn [concat]. rewrite map_app, IH2. f_equal. cbn [fst] in H3. rewrite map_map, <- H3.
      rewrite <- (map_id G) at 1. apply map_ext_in. intros g Hg. symmetry. apply (own_all R); [exact HR|].
      intros x Hx. apply Hall. cbn. rewrite concat_app. apply in_or_app. left. apply in_concat. eauto. }
  destruct HF2 as [nss [H1 H2]]. exists (concat nss). split; [|exact H2]. exists nss. split; [reflexivity|exact H1].
Qed.

Lemma single_map (x : result_pair) m : map_of [x] m -> m = [x].
Proof. intros [_ [H _]]. apply Permutation_sym, Permutation_length_1_inv in H. exact H. Qed.

(** One map per node that has a value. *)
Theorem alone_extract n res : extract_yields E R D (Some (i :: pp)) n (Ok res) ->
  exists nodes outs, in_search_order D i pp (node_satisfies E D R) nodes /\
    Forall2 (fun p o => capture_capture E D c p = Ok o) nodes outs /\ res = map (fun x => [x]) (present outs).
Proof.
  intros [f0 HY]. specialize (HY f0 (le_n _)).
  destruct (extract_describes E R D f0 i pp t n res Hp HY) as [gs [HS [vss [H1 H2]]]].
  destruct (alone_groups gs HS) as [nodes [HN ->]]. exists nodes.
  assert (HV : exists outs, Forall2 (fun p o => capture_capture E D c p = Ok o) nodes outs /\
     vss = map (fun o : option result_pair => present [o]) outs).
  { clear HN HS H2. revert vss H1. induction nodes as [|p nodes IH]; intros vss H1; cbn [map] in H1; inversion H1 as [|? v ? vss' Hv Hvs]; subst.
    - exists []. split; [constructor|reflexivity].
    - destruct (IH vss' Hvs) as [outs [HO ->]]. inversion Hv as [|rp q r g values rest Hr Hval Hrest]; subst.
      cbn in Hr. injection Hr as <-. inversion Hrest; subst. destruct Hval as [os [HOs ->]]. rewrite Hcap in HOs. cbn in HOs.
      inversion HOs as [|? o ? os' Ho Hos]; subst. inversion Hos; subst. exists (o :: outs). split; [now constructor|].
      cbn [map]. now rewrite app_nil_r. }
  destruct HV as [outs [HO ->]]. exists outs. split; [exact HN|]. split; [exact HO|]. clear HO HN HS H1.
  revert res HY H2. intros res _. revert res. induction outs as [|[x|] outs IH]; intros res H2; cbn in H2 |- *.
  - now inversion H2.
  - inversion H2 as [|? m ? res' Hm Hres]; subst. apply single_map in Hm as ->. now rewrite (IH _ Hres).
  - now apply IH.
Qed.
End Alone.

(** ** The attribute href *)

Lemma href_of_iff d p v : href_of d p = Some v <-> exists t, has_href t d p v.
Proof.
  unfold href_of, has_href. split.
  - destruct (nget d p) as [[| t orig attrs cs | | | | |]|] eqn:E; try discriminate.
    destruct (gumbo_get_attribute attrs (s "href")) as [a|] eqn:Ea; [|discriminate].
    destruct (a_value a) as [w|] eqn:Ev; [|discriminate]. intros [= <-].
    exists t, orig, attrs, cs, a, w. apply get_attribute_some in Ea. auto.
  - intros [t [orig [attrs [cs [a [w [H1 [H2 [H3 ->]]]]]]]]]. rewrite H1. apply get_attribute_some in H2. now rewrite H2, H3.
Qed.

Lemma has_href_fun t d p v v' : has_href t d p v -> has_href t d p v' -> v = v'.
Proof.
  intros H1 H2. assert (E1 : href_of d p = Some v) by (apply href_of_iff; eauto).
  assert (E2 : href_of d p = Some v') by (apply href_of_iff; eauto). congruence.
Qed.

Lemma same_prefix w x : str_eqb (firstn (length w) x) w = true <-> starts_with w x.
Proof.
  rewrite str_eqb_eq. split.
  - intros H. exists (skipn (length w) x). rewrite <- H at 1. now rewrite firstn_skipn.
  - intros [r ->]. rewrite firstn_app, Nat.sub_diag, firstn_all, firstn_O. apply app_nil_r.
Qed.

Lemma useful_iff d p : has_useful_href d p = FReturn true <->
  exists v, href_of d p = Some v /\ v <> [] /\ ~ starts_with (s "#") v /\ ~ starts_with (s "javascript:") v.
Proof.
  unfold has_useful_href. destruct (href_of d p) as [x|]; [|split; [discriminate|intros [v [? _]]; discriminate]].
  split.
  - intros H. exists x. split; [reflexivity|]. destruct x as [|c x]; [discriminate|]. split; [discriminate|].
    destruct (ascii_dec c "#"%char) as [->|Hc]; [discriminate|].
    split. { intros [r Hr]. cbn in Hr. congruence. }
    assert (H' : (if Nat.ltb (length (c :: x)) (length (s "javascript:")) then FReturn true
       else FReturn (negb (str_eqb (firstn (length (s "javascript:")) (c :: x)) (s "javascript:")))) = FReturn true).
    { destruct c as [[|] [|] [|] [|] [|] [|] [|] [|]]; try exact H. now destruct Hc. }
    clear H. intros HP. pose proof (proj2 (same_prefix _ _) HP) as HE. destruct HP as [r HP].
    destruct (Nat.ltb_spec (length (c :: x)) (length (s "javascript:"))) as [HL|HL].
    + rewrite HP, app_length in HL. lia.
    + rewrite HE in H'. discriminate.
  - intros [v [[= <-] [H1 [H2 H3]]]]. destruct x as [|c x]; [contradiction|].
    destruct (ascii_dec c "#"%char) as [->|Hc]; [destruct H2; now exists x|].
    assert (HE : str_eqb (firstn (length (s "javascript:")) (c :: x)) (s "javascript:") = false).
    { destruct (str_eqb _ _) eqn:E; [|reflexivity]. now apply same_prefix in E. }
    assert (H' : (if Nat.ltb (length (c :: x)) (length (s "javascript:")) then FReturn true
       else FReturn (negb (str_eqb (firstn (length (s "javascript:")) (c :: x)) (s "javascript:")))) = FReturn true).
    { rewrite HE. now destruct (Nat.ltb _ _). }
    destruct c as [[|] [|] [|] [|] [|] [|] [|] [|]]; try exact H'. now destruct Hc.
Qed.

(** HrefCapture always has a value where it is called. *)
Lemma href_capture_called U base d p : has_useful_href d p = FReturn true -> HrefCapture_capture U base d p <> FReturn None.
Proof.
  intros H. apply useful_iff in H as [v [Hv _]]. unfold HrefCapture_capture. rewrite Hv. destruct (resolve_uri U base v); discriminate.
Qed.

Lemma satisfies_tag E D t ms cs p : t <> TAG_ANY -> t <> TAG_UNKNOWN ->
  node_satisfies E D (mk_rule None None [] ms cs t false false None) p <->
  (exists orig attrs ch, nget D p = Some (NElement t orig attrs ch)) /\
  forall m, In (Some m) ms -> mtch_matches E D m p = Ok true.
Proof.
  intros H1 H2. unfold node_satisfies. destruct (nget D p) as [n|] eqn:En.
  - rewrite (Rule_matches_spec E D _ p n En) by (left; intros; discriminate). unfold tag_accepts. cbn [r_tag r_tagname r_matches]. split.
    + intros [[HA|[orig [attrs [ch [-> _]]]]] H]; [contradiction|]. split; eauto.
    + intros [[orig [attrs [ch E0]]] H]. injection E0 as ->. split; [|exact H]. right. exists orig, attrs, ch. auto.
  - split; [|intros [[? [? [? ?]]] _]; discriminate]. unfold Rule_matches, deref. rewrite En. discriminate.
Qed.

Lemma satisfies_anchor E D U base p : node_satisfies E D (anchor_rule U base) p <-> exists v, useful_link D p v.
Proof.
  unfold anchor_rule. rewrite satisfies_tag by discriminate. split.
  - intros [[orig [attrs [ch Hn]]] H]. specialize (H _ (or_introl eq_refl)). cbn [mtch_matches] in H. unfold deref in H. rewrite Hn in H.
    cbn [obind] in H. destruct (has_useful_href D p) as [b|] eqn:EH; [|discriminate]. injection H as ->.
    apply useful_iff in EH as [v [Hv Hu]]. apply href_of_iff in Hv as [t Ht]. exists v. split; [|exact Hu].
    pose proof Ht as [o' [a' [c' [a0 [w [Hn' _]]]]]]. rewrite Hn in Hn'. injection Hn' as <- _ _ _. exact Ht.
  - intros [v [Hh Hu]]. pose proof Hh as [orig [attrs [ch [a [w [Hn Hr]]]]]]. split; [eauto|].
    intros m [[= <-]|[]]. cbn [mtch_matches]. unfold deref. rewrite Hn. cbn [obind].
    assert (EH : has_useful_href D p = FReturn true) by (apply useful_iff; exists v; split; [apply href_of_iff; eauto|exact Hu]).
    now rewrite EH.
Qed.

Lemma order_ext D i pp P Q nodes : (forall p, P p <-> Q p) -> in_search_order D i pp P nodes -> in_search_order D i pp Q nodes.
Proof.
  intros H [nss [-> HF]]. exists nss. split; [reflexivity|]. induction HF as [|L ns Ls nss [ks [H1 [H2 H3]]] HF IH]; constructor; auto.
  exists ks. split; [exact H1|]. split; [exact H2|]. intros k. rewrite H3, H. reflexivity.
Qed.

Lemma order_in D i pp P nodes p : in_search_order D i pp P nodes -> In p nodes -> P p.
Proof.
  intros [nss [-> HF]] Hp. induction HF as [|L ns Ls nss [ks [-> [_ H3]]] HF IH]; [destruct Hp|]. cbn in Hp.
  apply in_app_or in Hp as [Hp|Hp]; [|now apply IH]. apply in_map_iff in Hp as [k [<- Hk]]. now apply H3 in Hk.
Qed.

(** ** The base URI *)

Section Base.
Variables (E : engine) (D : node) (i : nat) (pp : npath) (t : node).
Hypothesis Hp : nget D (i :: pp) = Some t.

Lemma capture_base p o : node_satisfies E D base_rule p ->
  capture_capture E D (AttributeCapture (s "href") (s "href") None) p = Ok o ->
  match o with
  | Some x => exists v, has_href TAG_BASE D p v /\ x = (s "href", v)
  | None => forall v, ~ has_href TAG_BASE D p v
  end.
Proof.
  intros HS HC. unfold base_rule in HS. rewrite satisfies_tag in HS by discriminate. destruct HS as [[orig [attrs [ch Hn]]] _].
  unfold capture_capture, deref in HC. rewrite Hn in HC. cbn [obind apply_pipe] in HC.
  change (c_str (s "href")) with (s "href") in HC.
  destruct (gumbo_get_attribute attrs (s "href")) as [a|] eqn:Ea.
  - destruct (a_value a) as [w|] eqn:Ev; injection HC as <-.
    + exists (c_str w). split; [|reflexivity]. apply get_attribute_some in Ea. exists orig, attrs, ch, a, w. auto.
    + intros v [o' [at' [c' [a' [w [Hn' [Ha [Hw _]]]]]]]]. rewrite Hn in Hn'. injection Hn' as <- <- <-.
      apply get_attribute_some in Ha. congruence.
  - injection HC as <-. intros v [o' [at' [c' [a' [w [Hn' [Ha [Hw _]]]]]]]]. rewrite Hn in Hn'. injection Hn' as <- <- <-.
    apply get_attribute_some in Ha. congruence.
Qed.

Lemma sorted_filter {A} (Rel : A -> A -> Prop) f l : StronglySorted Rel l -> StronglySorted Rel (filter f l).
Proof.
  induction 1 as [|x l HS IH HF]; [constructor|]. cbn. destruct (f x); [|exact IH]. constructor; [exact IH|].
  rewrite Forall_forall in *. intros y Hy. apply filter_In in Hy as [Hy _]. auto.
Qed.

(** Keeping only the nodes with a value. *)
Lemma order_filter P Q (f : npath -> bool) nodes : in_search_order D i pp P nodes ->
  (forall p, In p nodes -> f p = true <-> Q p) -> (forall p, Q p -> P p) ->
  in_search_order D i pp Q (filter f nodes).
Proof.
  intros [nss [-> HF]] Hf HQ. exists (map (filter f) nss). split.
  { clear. induction nss as [|ns nss IH]; [reflexivity|]. cbn. now rewrite filter_app, IH. }
  induction HF as [|L ns Ls nss [ks [-> [H2 H3]]] HF IH]; constructor.
  - exists (filter (fun k => f (k :: fst (fst L))) ks). split; [|split].
    + clear. induction ks as [|k ks IH]; [reflexivity|]. cbn. destruct (f (k :: fst (fst L))); cbn; now rewrite IH.
    + now apply sorted_filter.
    + intros k. rewrite filter_In. split.
      * intros [Hk Hfk]. split; [now apply H3|]. apply Hf; [|exact Hfk]. cbn. apply in_or_app. left. apply in_map_iff. eauto.
      * intros [Hk HQk]. assert (Hin : In k ks) by (apply H3; auto). split; [exact Hin|]. apply Hf; [|exact HQk].
        cbn. apply in_or_app. left. apply in_map_iff. eauto.
  - apply IH. intros p Hin. apply Hf. cbn. apply in_or_app. now right.
Qed.

Lemma base_result res : extract_yields E base_rule D (Some (i :: pp)) 0 (Ok res) ->
  exists nodes vs, in_search_order D i pp (fun p => exists v, has_href TAG_BASE D p v) nodes /\
    Forall2 (has_href TAG_BASE D) nodes vs /\ res = map (fun v => [(s "href", v)]) vs.
Proof.
  intros HY. destruct (alone_extract E base_rule D _ i pp t ltac:(repeat split) eq_refl Hp 0 res HY) as [nodes [outs [HN [HO ->]]]].
  set (f := fun p => match href_of D p with Some _ => true | None => false end).
  assert (Hf : forall p, In p nodes -> f p = true <-> exists v, has_href TAG_BASE D p v).
  { intros p Hin. pose proof (order_in _ _ _ _ _ _ HN Hin) as HS. unfold base_rule in HS. rewrite satisfies_tag in HS by discriminate.
    destruct HS as [[orig [attrs [ch Hn]]] _]. unfold f. split.
    - destruct (href_of D p) as [v|] eqn:EH; [|discriminate]. intros _. apply href_of_iff in EH as [t' Ht]. exists v.
      pose proof Ht as [o' [a' [c' [a0 [w [Hn' _]]]]]]. rewrite Hn in Hn'. injection Hn' as <- _ _ _. exact Ht.
    - intros [v Hv]. assert (EH : href_of D p = Some v) by (apply href_of_iff; eauto). now rewrite EH. }
  assert (HS : forall p, In p nodes -> node_satisfies E D base_rule p) by (intros p; apply (order_in _ _ _ _ _ _ HN)).
  exists (filter f nodes), (map snd (present outs)).
  split; [|split].
  - apply (order_filter (node_satisfies E D base_rule)); auto.
    intros p [v Hv]. unfold base_rule. rewrite satisfies_tag by discriminate. split; [|intros m []].
    destruct Hv as [orig [attrs [ch [a [w [Hn _]]]]]]. eauto.
  - clear HN HY. revert HS Hf. induction HO as [|p o nodes outs Hpo HO IH]; intros HS Hf; [constructor|].
    pose proof (capture_base p o (HS p (or_introl eq_refl)) Hpo) as HC. specialize (IH (fun q Hq => HS q (or_intror Hq)) (fun q Hq => Hf q (or_intror Hq))).
    cbn [filter]. destruct o as [x|].
    + destruct HC as [v [Hv ->]]. rewrite (proj2 (Hf p (or_introl eq_refl))) by eauto. cbn. now constructor.
    + destruct (f p) eqn:Ef; [|exact IH]. apply Hf in Ef as [v Hv]; [|now left]. now apply HC in Hv.
  - clear HN HY Hf. revert HS. induction HO as [|p o nodes outs Hpo HO IH]; intros HS; [reflexivity|].
    pose proof (capture_base p o (HS p (or_introl eq_refl)) Hpo) as HC. specialize (IH (fun q Hq => HS q (or_intror Hq))).
    destruct o as [x|]; [|exact IH]. destruct HC as [v [Hv ->]]. cbn. f_equal. exact IH.
Qed.
End Base.

(** ** The program *)

Definition rules_simple (D : node) : Prop := exists size, small_document size D.

Lemma alone_params R size : alone R -> (forall m, In (Some m) (r_matches R) -> nth_params_safe size m) -> rule_params_safe size R.
Proof. intros HA H r m [a Ha] Hm. destruct (alone_rget R a r HA Ha) as [_ ->]. auto. Qed.

Lemma base_runs E D i pp t : engine_total E -> rules_simple D -> nget D (i :: pp) = Some t ->
  exists res, extract_yields E base_rule D (Some (i :: pp)) 0 (Ok res).
Proof.
  intros HE [size HS] Hp.
  destruct (extract_returns E base_rule D i pp t 0 Hp HE) as [o [Ho [[res ->]| ->]]].
  - intros r [a Ha]. destruct (alone_rget base_rule a r ltac:(repeat split) Ha) as [_ ->]. split; [intros m []|].
    intros c [[= <-]|[]]. exact I.
  - exists size. split; [exact HS|]. apply alone_params; [repeat split|]. intros m [].
  - eauto.
  - exfalso. now destruct (extract_limit E base_rule D _ 0 _ _ Ho Ho).
Qed.

Lemma BaseUri_runs E D i pp t : engine_total E -> rules_simple D -> nget D (i :: pp) = Some t ->
  exists b, base_choice None D i pp (match b with Some x => x | None => [] end) /\
    exists f0, forall f, f0 <= f -> BaseUri f E D (Some (i :: pp)) = Ok b.
Proof.
  intros HE HS Hp. destruct (base_runs E D i pp t HE HS Hp) as [res Hres].
  destruct (base_result E D i pp t Hp res Hres) as [nodes [vs [H1 [H2 ->]]]]. destruct Hres as [f0 Hres].
  exists (hd_error vs). split.
  - exists nodes, vs. split; [exact H1|]. split; [exact H2|]. now destruct vs.
  - exists f0. intros f Hf. unfold BaseUri. rewrite (Hres f Hf). cbn [obind]. destruct vs as [|v vs]; reflexivity.
Qed.

Lemma base_choice_unique D i pp arg b b' : base_choice arg D i pp b -> base_choice arg D i pp b' -> b = b'.
Proof.
  destruct arg as [a|]; cbn; [congruence|]. intros [n1 [v1 [H1 [H2 ->]]]] [n2 [v2 [H3 [H4 ->]]]].
  assert (n1 = n2).
  { clear H2 H4. destruct H1 as [s1 [-> F1]], H3 as [s2 [-> F2]]. f_equal. revert s2 F2. induction F1 as [|L a Ls s1 [ks [-> [A1 A2]]] F1 IH]; intros s2 F2;
      inversion F2 as [|? b ? s2' [ks' [-> [B1 B2]]] F2']; subst; [reflexivity|]. f_equal; [|now apply IH]. f_equal.
    clear -A1 A2 B1 B2. assert (HE : forall k, In k ks <-> In k ks') by (intros k; now rewrite A2, B2). clear A2 B2.
    revert ks' B1 HE. induction A1 as [|a l A1 IH AF]; intros [|b l'] B1 HE.
    - reflexivity.
    - destruct (proj2 (HE b) (or_introl eq_refl)).
    - destruct (proj1 (HE a) (or_introl eq_refl)).
    - inversion B1 as [|? ? B1' BF]; subst. rewrite Forall_forall in AF, BF.
      assert (a = b).
      { destruct (proj1 (HE a) (or_introl eq_refl)) as [|Ha]; [auto|]. destruct (proj2 (HE b) (or_introl eq_refl)) as [|Hb]; [auto|].
        specialize (AF b Hb). specialize (BF a Ha). lia. }
      subst b. f_equal. apply IH; auto. intros x. split; intros Hx.
      + destruct (proj1 (HE x) (or_intror Hx)) as [<-|]; [|auto]. specialize (AF _ Hx). lia.
      + destruct (proj2 (HE x) (or_intror Hx)) as [<-|]; [|auto]. specialize (BF _ Hx). lia. }
  subst n2. clear H1 H3. assert (v1 = v2); [|now subst].
  revert v2 H4. induction H2 as [|p v ns vs Hv HF IH]; intros v2 H4; inversion H4 as [|? v' ? vs' Hv' HF']; subst; [reflexivity|].
  f_equal; [now apply (has_href_fun TAG_BASE D p)|now apply IH].
Qed.

Lemma anchor_result E D U u i pp t res : nget D (i :: pp) = Some t ->
  extract_yields E (anchor_rule U u) D (Some (i :: pp)) 0 (Ok res) ->
  exists nodes vs texts, in_search_order D i pp (fun p => exists v, useful_link D p v) nodes /\
    Forall2 (useful_link D) nodes vs /\ Forall2 (fun v x => resolve_uri U u v = FReturn x) vs texts /\
    res = map (fun x => [(s "href", x)]) texts.
Proof.
  intros Hp HY.
  destruct (alone_extract E (anchor_rule U u) D _ i pp t ltac:(repeat split) eq_refl Hp 0 res HY) as [nodes [outs [HN [HO ->]]]].
  pose proof (order_ext _ _ _ _ _ _ (satisfies_anchor E D U u) HN) as HN'.
  assert (HS : forall p, In p nodes -> exists v, useful_link D p v) by (intros p; apply (order_in _ _ _ _ _ _ HN')).
  exists nodes. clear HY HN.
  assert (HX : exists vs texts, Forall2 (useful_link D) nodes vs /\ Forall2 (fun v x => resolve_uri U u v = FReturn x) vs texts /\
     outs = map (fun x => Some (s "href", x)) texts).
  { clear HN'. induction HO as [|p o nodes outs Hpo HO IH]; [exists [], []; repeat split; constructor|].
    destruct IH as [vs [texts [I1 [I2 ->]]]]. { intros q Hq. apply HS. now right. }
    destruct (HS p (or_introl eq_refl)) as [v Hv]. pose proof Hv as [Hh _].
    assert (EH : href_of D p = Some v) by (apply href_of_iff; eauto). destruct Hh as [orig [attrs [ch [a [w [Hn _]]]]]].
    unfold capture_capture, deref in Hpo. rewrite Hn in Hpo. cbn [obind call_capture_function] in Hpo.
    unfold href_function, HrefCapture_capture in Hpo. rewrite EH in Hpo.
    destruct (resolve_uri U u v) as [x|] eqn:Ex; [|discriminate]. cbn in Hpo. injection Hpo as <-.
    exists (v :: vs), (x :: texts). split; [now constructor|]. split; [now constructor|]. reflexivity. }
  destruct HX as [vs [texts [H1 [H2 ->]]]]. exists vs, texts. split; [exact HN'|]. split; [exact H1|]. split; [exact H2|].
  clear. induction texts as [|x texts IH]; [reflexivity|]. cbn [map]. unfold present in *. cbn [flat_map app map]. now rewrite IH.
Qed.

Lemma anchor_runs E D U u i pp t : engine_total E -> rules_simple D -> nget D (i :: pp) = Some t ->
  exists o, extract_yields E (anchor_rule U u) D (Some (i :: pp)) 0 o /\
    ((exists res, o = Ok res) \/ o = Throw UserException /\ ~ forall v, resolve_uri U u v <> FThrow).
Proof.
  intros HE [size HS] Hp. destruct (extract_total E (anchor_rule U u) D i pp t 0 Hp) as [o [Ho Hok]]. exists o. split; [exact Ho|].
  assert (HP : rule_params_safe size (anchor_rule U u)).
  { apply alone_params; [repeat split|]. intros m [[= <-]|[]]. exact I. }
  destruct o as [res|e|ub|]; cbn in Hok; [eauto| | |contradiction].
  - destruct e; try contradiction.
    + exfalso. now destruct (extract_limit E (anchor_rule U u) D _ 0 _ _ Ho Ho).
    + right. split; [reflexivity|]. intros HT. apply Hok. intros r [a Ha].
      destruct (alone_rget (anchor_rule U u) a r ltac:(repeat split) Ha) as [_ ->]. split.
      * intros m [[= <-]|[]]. cbn [match_calls_return]. intros d p. unfold has_useful_href.
        destruct (href_of d p) as [x|]; [|discriminate]. destruct x as [|c x]; [discriminate|].
        destruct c as [[|] [|] [|] [|] [|] [|] [|] [|]]; try (destruct (Nat.ltb _ _); discriminate); discriminate.
      * intros c [[= <-]|[]]. cbn [capture_calls_return]. intros d p. unfold href_function, HrefCapture_capture.
        destruct (href_of d p) as [x|]; [|discriminate]. specialize (HT x). destruct (resolve_uri U u x); [discriminate|contradiction].
  - destruct ub; try contradiction. now destruct (Hok size HS).
Qed.

Section Program.
Variables (E : engine) (U : uri_library) (arg : option str) (D : node) (i : nat) (pp : npath) (t : node).
Hypothesis HE : engine_total E.
Hypothesis HD : exists size, small_document size D.
Hypothesis Hp : nget D (i :: pp) = Some t.

Lemma base_runs_all : exists b, base_choice arg D i pp b /\
  exists f0, forall f, f0 <= f ->
    match arg with
    | Some a => Ok a
    | None => let! b := BaseUri f E D (Some (i :: pp)) in Ok (match b with Some x => x | None => [] end)
    end = Ok b.
Proof.
  destruct arg as [a|]; [exists a; split; [reflexivity|exists 0; reflexivity]|].
  destruct (BaseUri_runs E D i pp t HE HD Hp) as [b [H1 [f0 H2]]]. exists (match b with Some x => x | None => [] end).
  split; [exact H1|]. exists f0. intros f Hf. now rewrite (H2 f Hf).
Qed.

Lemma printed_lines texts :
  concat (map (fun m : ResultMap => concat (map (fun x => snd x ++ newline) m)) (map (fun x => [(s "href", x)]) texts)) = lines texts.
Proof.
  unfold lines. induction texts as [|x texts IH]; [reflexivity|]. cbn [map concat snd]. rewrite IH, app_nil_r. reflexivity.
Qed.

(** The outcome of the program. *)
Theorem href_outcome : exists b o, base_choice arg D i pp b /\ href_yields E U arg D (Some (i :: pp)) o /\
  ((o = Throw UserException /\
    (parse_uri U b = FThrow \/ exists u, parse_uri U b = FReturn u /\ ~ forall v, resolve_uri U u v <> FThrow)) \/
   exists u nodes vs texts, parse_uri U b = FReturn u /\
     in_search_order D i pp (fun p => exists v, useful_link D p v) nodes /\
     Forall2 (useful_link D) nodes vs /\ Forall2 (fun v x => resolve_uri U u v = FReturn x) vs texts /\
     o = Ok (lines texts)).
Proof.
  destruct base_runs_all as [b [Hb [f0 Hf0]]]. exists b.
  destruct (parse_uri U b) as [u|] eqn:EP.
  - destruct (anchor_runs E D U u i pp t HE HD Hp) as [o [Ho [[res ->]|[-> HT]]]].
    + destruct (anchor_result E D U u i pp t res Hp Ho) as [nodes [vs [texts [H1 [H2 [H3 ->]]]]]].
      exists (Ok (lines texts)). split; [exact Hb|]. split.
      * destruct Ho as [f1 Ho]. exists (Nat.max f0 f1). intros f Hf. unfold href_main. rewrite Hf0 by lia. cbn [obind].
        rewrite EP. cbn [call obind]. rewrite Ho by lia. cbn [obind]. now rewrite printed_lines.
      * right. exists u, nodes, vs, texts. auto.
    + exists (Throw UserException). split; [exact Hb|]. split.
      * destruct Ho as [f1 Ho]. exists (Nat.max f0 f1). intros f Hf. unfold href_main. rewrite Hf0 by lia. cbn [obind].
        rewrite EP. cbn [call obind]. now rewrite Ho by lia.
      * left. eauto.
  - exists (Throw UserException). split; [exact Hb|]. split; [|auto].
    exists f0. intros f Hf. unfold href_main. rewrite Hf0 by lia. cbn [obind]. now rewrite EP.
Qed.

Lemma href_yields_unique o o' : href_yields E U arg D (Some (i :: pp)) o -> href_yields E U arg D (Some (i :: pp)) o' -> o = o'.
Proof. intros [f0 H0] [f1 H1]. rewrite <- (H0 (Nat.max f0 f1)), <- (H1 (Nat.max f0 f1)) by lia. reflexivity. Qed.

Theorem href_prints out : href_yields E U arg D (Some (i :: pp)) (Ok out) ->
  exists b u nodes vs texts, base_choice arg D i pp b /\ parse_uri U b = FReturn u /\
    in_search_order D i pp (fun p => exists v, useful_link D p v) nodes /\
    Forall2 (useful_link D) nodes vs /\ Forall2 (fun v x => resolve_uri U u v = FReturn x) vs texts /\
    out = lines texts.
Proof.
  intros HY. destruct href_outcome as [b [o [Hb [Ho [[-> _]|[u [nodes [vs [texts [H1 [H2 [H3 [H4 ->]]]]]]]]]]]]].
  - pose proof (href_yields_unique _ _ HY Ho). discriminate.
  - pose proof (href_yields_unique _ _ HY Ho) as [= ->]. exists b, u, nodes, vs, texts. auto 8.
Qed.

Theorem href_finishes : exists o, href_yields E U arg D (Some (i :: pp)) o /\
  ((exists out, o = Ok out) \/
   o = Throw UserException /\ exists b, base_choice arg D i pp b /\
     (parse_uri U b = FThrow \/ exists u, parse_uri U b = FReturn u /\ ~ forall v, resolve_uri U u v <> FThrow)).
Proof.
  destruct href_outcome as [b [o [Hb [Ho [[-> H]|[u [nodes [vs [texts [H1 [H2 [H3 [H4 ->]]]]]]]]]]]]]; eexists; (split; [exact Ho|]); eauto.
Qed.
End Program.
