(** The statements of SearchSpec.v, from the specification of the search. *)

From Coq Require Import Arith NArith Bool List Lia Sorted.
From Verif Require Import Base Dom Values Match Rule RuleMatching RuleProofs GroupAlg GroupSpec GroupFacts
  MatchSpec MatchProofs ExtractSpec ExtractProofs SpecUnique SearchSpec.
Import ListNotations.

(** ** Own pairs *)

Lemma own_app g h : own (g ++ h) = own g ++ own h.
Proof. apply filter_app. Qed.

Lemma forallb_repeat j : forallb is_next (repeat RNext j) = true.
Proof. induction j; simpl; auto. Qed.

Lemma own_none (g : MatchingNodes) :
  (forall x : rpath * npath, In x g -> forallb is_next (fst x) = false) -> own g = [].
Proof.
  unfold own. induction g as [|x g IH]; intros H; [reflexivity|]. cbn [filter].
  assert (E : forallb is_next (fst x) = false) by exact (H x (or_introl eq_refl)).
  destruct (forallb is_next (fst x)); [discriminate|]. apply IH. intros; apply H; now right.
Qed.

Lemma own_layout o inner pair : forall t seen gap,
  (forall j i, In (j, i) t -> own (inner j i) = [] /\ own [pair j i] = [pair j i]) ->
  own (layout o inner pair seen gap t) = own gap ++ map (fun x => pair (fst x) (snd x)) t.
Proof.
  induction t as [|[j i] t IH]; intros seen gap H; cbn [layout map]; [now rewrite app_nil_r|].
  destruct (H j i (or_introl eq_refl)) as [H1 H2].
  destruct (_ && _).
  - rewrite !own_app, H1, H2, IH by (intros; apply H; now right). reflexivity.
  - rewrite IH by (intros; apply H; now right). rewrite !own_app, H1, H2, <- app_assoc. reflexivity.
Qed.

Definition shift (s : nat) (t : list (nat * nat)) : list (nat * nat) := map (fun x => (fst x, s + snd x)) t.

Section Facts.
Variable D : node.
Variable satisfies : rule -> npath -> Prop.
Variable R : rule.

Lemma pairs_below_own rp r p m :
  rget R rp = Some r -> rule_matches D satisfies r p -> pairs_below D satisfies rp r p m -> own m = [].
Proof.
  intros Hr HM Hm. inversion HM as [? ? n Hn]; subst.
  apply own_none. intros x Hx.
  destruct (pairs_below_in D satisfies R p n Hn rp r m Hr Hm x Hx) as [r' [k [i [k' [st [_ [_ [-> [Hst _]]]]]]]]].
  rewrite forallb_app. simpl. destruct st; [now rewrite andb_false_r|congruence|now rewrite andb_false_r].
Qed.

(** The groups of a list, as numbers. *)
Lemma pair_groups_own q s n gs :
  pair_groups D satisfies (pairs_below D satisfies) [] R q s n gs ->
  exists ts, sibling_groups D satisfies R q s n ts /\
    map own gs = map (fun t => pairs_at q (shift s t)) ts.
Proof.
  intros [ts [inner [Hts [Hin ->]]]]. exists ts. split; [exact Hts|].
  rewrite map_map. apply map_ext_in. intros t Ht.
  rewrite own_layout.
  - unfold pairs_at, shift. simpl. rewrite map_map. apply map_ext. intros [j i]. simpl. unfold address. now rewrite app_nil_r.
  - intros j i Hji. assert (Hc : In (j, i) (concat ts)) by (apply in_concat; eauto). split.
    + destruct (sibling_groups_in _ _ _ _ _ _ _ _ _ Hts Hc) as [Hj [_ HM]].
      eapply pairs_below_own; [|exact HM|apply Hin, Hc]. now apply rget_next.
    + unfold own, address. simpl. rewrite app_nil_r, forallb_repeat. reflexivity.
Qed.

(** A property of all lists is a property of the search. *)
Lemma per_list_intro i pp gs (P : npath * nat * nat -> list MatchingNodes -> Prop) :
  search_result D satisfies R i pp gs ->
  (forall q s n G ts, sibling_groups D satisfies R q s n ts ->
     map own G = map (fun t => pairs_at q (shift s t)) ts -> P (q, s, n) G) ->
  per_list D i pp gs P.
Proof.
  intros [par [g0 [gs' [Hpar [Hg0 [[gss [HF ->]] ->]]]]]] HP.
  exists (g0 :: gss). split; [reflexivity|]. unfold lists_searched. rewrite Hpar. constructor.
  - destruct (pair_groups_own _ _ _ _ Hg0) as [ts [H1 H2]]. eapply HP; eauto.
  - induction HF as [|q G qs gss H HF IH]; simpl; constructor; [|exact IH].
    destruct (pair_groups_own _ _ _ _ H) as [ts [H1 H2]]. eapply HP; eauto.
Qed.

Notation nrules := (length (chain R)).
Notation opts := (fun j => r_optional (rule_at R j)).
Notation grd := (fun j => r_greedy (rule_at R j)).

Lemma in_shift s t j k : In (j, k) (shift s t) <-> exists i, In (j, i) t /\ k = s + i.
Proof.
  unfold shift. rewrite in_map_iff. split.
  - intros [[j' i] [E H]]. simpl in E. inversion E; subst; eauto.
  - intros [i [H ->]]. exists (j, i). auto.
Qed.

Lemma group_of_list q s n ts t :
  sibling_groups D satisfies R q s n ts -> In t ts ->
  exists lo js, is_group nrules n opts grd (fun j i => rule_matches D satisfies (rule_at R j) (s + i :: q)) lo js t.
Proof.
  unfold sibling_groups. destruct (mandatory_of R).
  - apply are_optional_groups_each.
  - apply are_groups_each.
Qed.

Lemma opts_mandatory : mandatory_of R <> [] -> exists f ms, mandatory_rules nrules opts = f :: ms.
Proof.
  intros H. rewrite mandatory_of_seq in H.
  destruct (mandatory_rules nrules opts) as [|f ms] eqn:Em; [|eauto].
  exfalso. now apply H.
Qed.

Lemma gets_repeated_eq j : gets_repeated R j = repeated opts grd j.
Proof.
  induction j as [|j IH]; cbn [gets_repeated repeated]; unfold is_mandatory; [reflexivity|]. now rewrite IH.
Qed.

(** *** C07 *)

Lemma shift_in_order s t : ordered t -> in_order (shift s t).
Proof.
  unfold ordered, in_order, shift. intros H. induction H as [|x t H IH HF]; simpl; constructor; [exact IH|].
  rewrite Forall_forall in *. intros y Hy. apply in_map_iff in Hy as [z [<- Hz]]. simpl. specialize (HF z Hz). lia.
Qed.

Lemma mandatory_in j : j < nrules -> is_mandatory (rule_at R j) = true -> In j (mandatory_rules nrules opts).
Proof.
  intros Hj Hm. apply filter_In. split; [apply in_seq; lia|exact Hm].
Qed.

Lemma Forall2_in_l {A B} (P : A -> B -> Prop) l m a : Forall2 P l m -> In a l -> exists b, In b m /\ P a b.
Proof.
  intros H. induction H as [|x y l m Hxy H IH]; intros Ha; [destruct Ha|]. destruct Ha as [<-|Ha].
  - exists y. split; [now left|exact Hxy].
  - destruct (IH Ha) as [b [H1 H2]]. exists b. split; [now right|exact H2].
Qed.

Lemma first_of_le_one P l : first_of P l -> length l <= 1.
Proof. intros [[-> _]|[i [-> _]]]; simpl; lia. Qed.

Lemma takes_all_greedy o g j : takes_all o g j = true -> g j = true.
Proof. unfold takes_all. intros H. now apply andb_true_iff in H as [H _]. Qed.

Lemma groups_complete q s n G ts :
  sibling_groups D satisfies R q s n ts ->
  map own G = map (fun t => pairs_at q (shift s t)) ts ->
  Forall (fun g => exists t, own g = pairs_at q t /\ in_order t /\
    (forall j k, In (j, k) t -> j < nrules /\ s <= k < s + n /\ rule_matches D satisfies (rule_at R j) (k :: q)) /\
    (forall j, j < nrules -> is_mandatory (rule_at R j) = true -> exists k, In (j, k) t) /\
    (forall j k k', In (j, k) t -> In (j, k') t -> r_greedy (rule_at R j) = false -> k = k')) G.
Proof.
  intros Hts HG. rewrite Forall_forall. intros g Hg.
  assert (Ho : In (own g) (map own G)) by now apply in_map. rewrite HG in Ho.
  apply in_map_iff in Ho as [t [Ht Hin]]. exists (shift s t). split; [now symmetry|].
  destruct (group_of_list _ _ _ _ _ Hts Hin) as [lo [js HGr]]. pose proof HGr as HGr'.
  destruct HGr' as [_ [Hhd [Hord [Hr Hc]]]].
  split; [now apply shift_in_order|]. split; [|split].
  - intros j k Hjk. apply in_shift in Hjk as [i [Hji ->]].
    destruct (is_group_range _ _ _ _ _ _ _ _ _ _ HGr Hji) as [H1 [H2 H3]]. split; [exact H1|]. split; [lia|exact H3].
  - intros j Hj Hm. pose proof (mandatory_in j Hj Hm) as Hmi.
    destruct (Forall2_in_l _ _ _ _ Hhd Hmi) as [i [_ Hi]].
    exists (s + i). apply in_shift. exists i. split; [|reflexivity]. apply nodes_of_in.
    destruct (nodes_of j t); [discriminate|]. injection Hi as ->. now left.
  - intros j k k' Hk Hk' Hg0. apply in_shift in Hk as [i [Hi ->]]. apply in_shift in Hk' as [i' [Hi' ->]].
    pose proof (Hr _ _ Hi) as Hj. specialize (Hc j Hj).
    destruct (takes_all opts grd j) eqn:Et; [apply takes_all_greedy in Et; simpl in Et; congruence|].
    apply first_of_le_one in Hc. apply nodes_of_in in Hi. apply nodes_of_in in Hi'.
    destruct (nodes_of j t) as [|x [|y l]]; simpl in Hc; [destruct Hi| |lia].
    destruct Hi as [<-|[]]. destruct Hi' as [<-|[]]. reflexivity.
Qed.

(** *** C08 *)

Notation Mat q s := (fun j i => rule_matches D satisfies (rule_at R j) (s + i :: q)).

Lemma mandatory_of_rules : mandatory_of R = map (rule_at R) (mandatory_rules nrules opts).
Proof. apply mandatory_of_seq. Qed.

Definition embeds_at (q : npath) (s n : nat) (ks : list nat) : Prop :=
  Forall2 (fun r k => s <= k < s + n /\ rule_matches D satisfies r (k :: q)) (mandatory_of R) ks /\ StronglySorted lt ks.

Lemma embeds_embedding q s n ks :
  embeds_at q s n ks <-> exists js, ks = map (fun i => s + i) js /\ embedding nrules n opts (Mat q s) 0 js.
Proof.
  unfold embeds_at, embedding. rewrite mandatory_of_rules. split.
  - intros [HF HS]. revert HF HS. generalize (mandatory_rules nrules opts) as l. intros l HF HS.
    exists (map (fun k => k - s) ks). split; [|split].
    + rewrite map_map. rewrite <- (map_id ks) at 1. apply map_ext_in. intros k Hk.
      clear HS. revert l HF Hk. induction ks as [|x ks IH]; intros l HF Hk; [destruct Hk|].
      destruct l as [|j l]; inversion HF; subst. destruct Hk as [<-|Hk]; [lia|]. eapply IH; eauto.
    + clear HS. revert l HF. induction ks as [|x ks IH]; intros l HF; destruct l as [|j l]; inversion HF; subst; constructor; [|now apply IH].
      destruct H2 as [H2 H2']. split; [lia|]. now replace (s + (x - s)) with x by lia.
    + assert (Hge : Forall (fun k => s <= k) ks).
      { clear HS. revert l HF. induction ks as [|x ks IH]; intros l HF; destruct l as [|j l]; inversion HF; subst; constructor; [lia|eauto]. }
      clear HF. induction HS as [|x ks HS IH HF]; simpl; constructor.
      * apply IH. now inversion Hge.
      * inversion Hge; subst. rewrite Forall_forall in *. intros y Hy. apply in_map_iff in Hy as [z [<- Hz]].
        specialize (HF z Hz). lia.
  - intros [js [-> [HF HS]]]. split.
    + clear HS. induction HF; simpl; constructor; [|assumption]. destruct H as [H1 H2]. split; [lia|exact H2].
    + clear HF. induction HS as [|x js HS IH HF]; simpl; constructor; [exact IH|].
      rewrite Forall_forall in *. intros y Hy. apply in_map_iff in Hy as [z [<- Hz]]. specialize (HF z Hz). lia.
Qed.

Lemma with_mandatory q s n ts : mandatory_of R <> [] -> sibling_groups D satisfies R q s n ts ->
  are_groups nrules n opts grd (Mat q s) 0 ts.
Proof. unfold sibling_groups. destruct (mandatory_of R); [congruence|auto]. Qed.

Lemma groups_first q s n G ts :
  mandatory_of R <> [] ->
  sibling_groups D satisfies R q s n ts ->
  map own G = map (fun t => pairs_at q (shift s t)) ts ->
  (G <> [] <-> exists ks, embeds_at q s n ks) /\
  (forall g G', G = g :: G' -> exists t ks,
     own g = pairs_at q t /\ first_nodes R t ks /\ embeds_at q s n ks /\
     forall ks', embeds_at q s n ks' -> Forall2 le ks ks').
Proof.
  intros Hm Hts HG. pose proof (with_mandatory _ _ _ _ Hm Hts) as HA.
  inversion HA as [? HE|? js t ts' HGr _ _]; subst.
  - destruct G as [|g G]; [|discriminate]. split; [|discriminate].
    split; [congruence|]. intros [ks Hks]. apply embeds_embedding in Hks as [js [_ Hjs]]. now apply HE in Hjs.
  - destruct G as [|g G]; [discriminate|]. simpl in HG. injection HG as Hg HG.
    destruct HGr as [[HE Hmin] [Hhd [Hord [Hr Hc]]]].
    assert (Hks : embeds_at q s n (map (fun i => s + i) js)) by (apply embeds_embedding; eauto).
    split; [split; [eauto|congruence]|].
    intros g' G' HE'. injection HE' as <- <-.
    exists (shift s t), (map (fun i => s + i) js). split; [exact Hg|]. split; [|split; [exact Hks|]].
    + unfold first_nodes.
      assert (HF : Forall2 (fun j i => hd_error (nodes_of j t) = Some i)
          (filter (fun j => is_mandatory (rule_at R j)) (seq 0 nrules)) js) by exact Hhd.
      clear - HF Hord. induction HF as [|j i l js H HF IH]; simpl; constructor; [|exact IH].
      split.
      * apply in_shift. exists i. split; [|reflexivity]. apply nodes_of_in. destruct (nodes_of j t); [discriminate|].
        injection H as ->. now left.
      * intros k' Hk'. apply in_shift in Hk' as [i' [Hi' ->]]. pose proof (hd_least t j i i' Hord H Hi'). lia.
    + intros ks' Hks'. apply embeds_embedding in Hks' as [js' [-> Hjs']]. apply Hmin in Hjs'.
      clear - Hjs'. induction Hjs'; simpl; constructor; [lia|assumption].
Qed.

(** *** C09 *)

Lemma embedding_weaken lo lo' js n q s : lo <= lo' ->
  embedding nrules n opts (Mat q s) lo' js -> embedding nrules n opts (Mat q s) lo js.
Proof.
  intros H [HF HS]. split; [|exact HS]. eapply forall2_impl_in; [|exact HF]. simpl. intros a b _ [? ?]. split; [lia|assumption].
Qed.

Lemma embedding_raise lo lo' js n q s f ms : mandatory_rules nrules opts = f :: ms ->
  lo' <= hd 0 js ->
  embedding nrules n opts (Mat q s) lo js -> embedding nrules n opts (Mat q s) lo' js.
Proof.
  intros Em Hh [HF HS]. split; [|exact HS]. rewrite Em in *.
  destruct js as [|j0 js]; [inversion HF|]. simpl in Hh.
  inversion HF as [|? ? ? ? H0 HF']; subst. inversion HS as [|? ? _ HS']; subst. constructor; [destruct H0; split; [lia|assumption]|].
  rewrite Forall_forall in HS'. clear H0 HF Em HS.
  revert HF'. generalize ms. clear ms. induction js as [|x js IH]; intros ms HF'; inversion HF' as [|? ? ? ? [Hx HM] HF2]; subst; constructor.
  - split; [|assumption]. specialize (HS' x (or_introl eq_refl)). lia.
  - apply IH; [|assumption]. intros y Hy. apply HS'. now right.
Qed.

Lemma last_le js n q s lo : embedding nrules n opts (Mat q s) lo js -> js <> [] -> lo <= last js 0 < n.
Proof.
  intros [HF _] Hne. assert (Hin : In (last js 0) js) by now apply last_in.
  clear Hne. revert Hin. generalize (last js 0). intros x Hin.
  induction HF as [|j i l js H HF IH]; [destruct Hin|]. destruct Hin as [<-|Hin]; [destruct H; lia|auto].
Qed.

Lemma heads_last js f ms t :
  Forall2 (fun j i => hd_error (nodes_of j t) = Some i) (f :: ms) js ->
  In (last (f :: ms) 0, last js 0) t.
Proof.
  revert f js. induction ms as [|m ms IH]; intros f js H; inversion H as [|? i ? js' H0 H1]; subst.
  - inversion H1; subst. simpl. apply nodes_of_in. destruct (nodes_of f t); [discriminate|]. injection H0 as ->. now left.
  - specialize (IH m js' H1). destruct js' as [|x js']; [inversion H1|]. exact IH.
Qed.

(** The nodes of a group are before the start of the next. *)
Lemma group_before_next lo js t n q s lo' j i f ms :
  mandatory_rules nrules opts = f :: ms ->
  lone nrules opts grd = false ->
  is_group nrules n opts grd (Mat q s) lo js t ->
  resumes nrules n opts grd (Mat q s) (last js 0) lo' ->
  In (j, i) t -> i < lo'.
Proof.
  intros Em Hl HG Hres Hin.
  pose proof (is_group_candidate _ _ _ _ _ _ _ _ _ _ HG Hin) as [Hj [Hi [HM [_ [_ He]]]]].
  destruct HG as [[HE _] [Hhd [Hord [Hr Hc]]]].
  unfold ends_before in He. rewrite Em in He. destruct He as [He|He]; [congruence|].
  unfold resumes in Hres. destruct (trails nrules opts grd) eqn:Et.
  - destruct Hres as [R1 [R2 R3]]. rewrite Em in R2, R3. simpl in R2, R3.
    destruct (Nat.lt_ge_cases i lo') as [|Hge]; [assumption|].
    exfalso. assert (Hlo : lo' < n) by lia. apply (He lo'); [lia|]. now apply R3.
  - subst lo'. unfold trails in Et. apply orb_false_iff in Et as [Et1 Et2].
    apply negb_false_iff, Nat.eqb_eq in Et1.
    rewrite Em in Hhd. pose proof (heads_last js f ms t Hhd) as Hlast. rewrite <- Em in Hlast.
    destruct (Nat.lt_ge_cases i (S (last js 0))) as [|Hge]; [assumption|]. exfalso.
    (* the last rule is the last mandatory rule and takes one node *)
    assert (Hle : forall a b, In a t -> In b t -> snd a < snd b -> fst a <= fst b).
    { clear - Hord. intros a b Ha Hb Hlt. induction Hord as [|x t Hord IH HF]; [destruct Ha|].
      rewrite Forall_forall in HF. destruct Ha as [<-|Ha]; destruct Hb as [<-|Hb].
      - lia.
      - now apply HF.
      - apply HF in Ha. lia.
      - auto. }
    assert (Hj2 : last (mandatory_rules nrules opts) 0 <= j) by (apply (Hle (last (mandatory_rules nrules opts) 0, last js 0) (j, i)); simpl; auto; lia).
    rewrite Et1 in *. assert (j = nrules - 1) by lia. subst j.
    specialize (Hc (nrules - 1) Hj).
    assert (Hmand : opts (nrules - 1) = false).
    { assert (Hmi : In (last (mandatory_rules nrules opts) 0) (mandatory_rules nrules opts)) by (apply last_in; rewrite Em; discriminate).
      rewrite Et1 in Hmi. apply filter_In in Hmi as [_ Hmi]. now apply negb_true_iff in Hmi. }
    assert (Hta : takes_all opts grd (nrules - 1) = false).
    { unfold takes_all. rewrite Hmand, Et2. apply andb_false_r. }
    rewrite Hta in Hc. apply first_of_le_one in Hc.
    apply nodes_of_in in Hin. apply nodes_of_in in Hlast.
    destruct (nodes_of (nrules - 1) t) as [|x [|y l]]; simpl in Hc; [destruct Hin| |lia].
    destruct Hin as [<-|[]]. destruct Hlast as [Hx|[]]. lia.
Qed.

Lemma js_nonempty js n q s lo f ms : mandatory_rules nrules opts = f :: ms ->
  embedding nrules n opts (Mat q s) lo js -> js <> [].
Proof. intros Em [HF _]. rewrite Em in HF. inversion HF; discriminate. Qed.

Lemma are_groups_lower f ms lo ts n q s t x :
  mandatory_rules nrules opts = f :: ms ->
  are_groups nrules n opts grd (Mat q s) lo ts -> In t ts -> In x t -> lo <= snd x.
Proof.
  intros Em. revert lo. induction ts as [|t0 ts IH]; intros lo H Ht Hx; [destruct Ht|].
  inversion H as [|? js ? ? HG HL HR]; subst. destruct Ht as [->|Ht].
  - destruct x as [j i]. apply (is_group_range _ _ _ _ _ _ _ _ _ _ HG) in Hx. simpl. lia.
  - destruct (lone nrules opts grd); [rewrite HL in Ht by reflexivity; destruct Ht|].
    destruct (HR eq_refl) as [lo' [Hres HA]]. pose proof (IH lo' HA Ht Hx).
    destruct HG as [[HE _] _]. pose proof (last_le _ _ _ _ _ HE (js_nonempty _ _ _ _ _ _ _ Em HE)).
    unfold resumes in Hres. destruct (trails nrules opts grd); lia.
Qed.

Lemma lone_first f ms : mandatory_rules nrules opts = f :: ms -> lone nrules opts grd = true -> f = 0 /\ ms = [] /\ repeated opts grd 0 = true.
Proof.
  intros Em Hl. unfold lone in Hl. rewrite Em in Hl. destruct ms as [|m ms]; [|discriminate].
  destruct f as [|f]; [auto|]. exfalso. cbn [repeated] in Hl.
  apply andb_true_iff in Hl as [_ Hl]. apply andb_true_iff in Hl as [Hl _]. apply negb_true_iff in Hl.
  assert (Hin : In (S f) (mandatory_rules nrules opts)) by (rewrite Em; now left).
  apply filter_In in Hin as [Hin _]. apply in_seq in Hin.
  assert (Hf : In f (mandatory_rules nrules opts)) by (apply filter_In; split; [apply in_seq; lia|now rewrite Hl]).
  rewrite Em in Hf. destruct Hf as [Hf|[]]. lia.
Qed.

Lemma are_groups_exhaustive f ms lo ts n q s :
  mandatory_rules nrules opts = f :: ms ->
  are_groups nrules n opts grd (Mat q s) lo ts ->
  forall js, embedding nrules n opts (Mat q s) lo js -> exists t x, In t ts /\ In x t /\ hd 0 js <= snd x.
Proof.
  intros Em. revert lo. induction ts as [|t ts IH]; intros lo H js' HE'.
  - inversion H as [? HN|]; subst. now apply HN in HE'.
  - inversion H as [|? js ? ? HG HL HR]; subst.
    destruct (Nat.le_gt_cases (hd 0 js') (last js 0)) as [Hle|Hgt].
    { destruct HG as [_ [Hhd _]]. rewrite Em in Hhd. pose proof (heads_last _ _ _ _ Hhd) as Hlast.
      exists t, (last (f :: ms) 0, last js 0). repeat split; [now left|exact Hlast|exact Hle]. }
    destruct (lone nrules opts grd) eqn:El.
    + destruct (lone_first f ms Em El) as [-> [-> Hrep]].
      destruct HE' as [HF' HS']. rewrite Em in HF'. inversion HF' as [|? i ? l [Hi HM] HF'']; subst. inversion HF''; subst.
      exists t, (0, i). split; [now left|]. split; [|simpl; lia].
      assert (Hn0 : 0 < nrules) by (apply chain_nonempty).
      destruct HG as [_ [_ [_ [_ Hc]]]]. specialize (Hc 0 Hn0).
      assert (Hta : takes_all opts grd 0 = true).
      { unfold takes_all. rewrite Hrep. cbn [repeated] in Hrep. apply andb_true_iff in Hrep as [Hrep _].
        apply andb_true_iff in Hrep as [_ Hrep]. rewrite Hrep. now rewrite orb_true_r. }
      rewrite Hta in Hc. apply nodes_of_in. apply (proj2 Hc).
      split; [exact Hi|]. split; [exact HM|]. split; [intros; lia|]. split.
      * intros j' i' Hin' Hlt Hopt. exfalso.
        assert (Hm' : In j' (mandatory_rules nrules opts)).
        { apply filter_In. split; [|now rewrite Hopt]. apply in_seq.
          inversion H as [|? ? ? ? HG' _ _]; subst. destruct HG' as [_ [_ [_ [Hr' _]]]]. apply Hr' in Hin'. lia. }
        rewrite Em in Hm'. destruct Hm' as [<-|[]]. lia.
      * unfold ends_before. rewrite Em. left. exact El.
    + destruct (HR eq_refl) as [lo' [Hres HA]].
      assert (Hlo : lo' <= hd 0 js').
      { unfold resumes in Hres. destruct (trails nrules opts grd); [|lia].
        destruct Hres as [R1 [R2 R3]]. destruct (Nat.le_gt_cases lo' (hd 0 js')) as [|Hlt]; [assumption|]. exfalso.
        apply (R2 (hd 0 js')); [lia|]. rewrite Em. simpl. destruct HE' as [HF' _]. rewrite Em in HF'.
        inversion HF' as [|? i ? l [Hi HM] HF'']; subst. exact HM. }
      destruct (IH lo' HA js' (embedding_raise _ _ _ _ _ _ _ _ Em Hlo HE')) as [t' [x [H1 [H2 H3]]]].
      exists t', x. repeat split; [now right|exact H2|exact H3].
Qed.

Lemma are_groups_disjoint f ms lo ts n q s :
  mandatory_rules nrules opts = f :: ms ->
  are_groups nrules n opts grd (Mat q s) lo ts -> disjoint_increasing ts.
Proof.
  intros Em. revert lo. induction ts as [|t ts IH]; intros lo H; [exact I|].
  inversion H as [|? js ? ? HG HL HR]; subst. destruct (lone nrules opts grd) eqn:El.
  - rewrite HL by reflexivity. split; [intros t' x y []|exact I].
  - destruct (HR eq_refl) as [lo' [Hres HA]]. split; [|eapply IH; eauto].
    intros t' [j i] y Ht' Hx Hy. pose proof (group_before_next _ _ _ _ _ _ _ _ _ _ _ Em El HG Hres Hx).
    pose proof (are_groups_lower _ _ _ _ _ _ _ _ _ Em HA Ht' Hy). simpl. lia.
Qed.

Lemma shift_disjoint s ts : disjoint_increasing ts -> disjoint_increasing (map (shift s) ts).
Proof.
  induction ts as [|t ts IH]; simpl; [auto|]. intros [H1 H2]. split; [|now apply IH].
  intros t' x y Ht' Hx Hy. apply in_map_iff in Ht' as [u [<- Hu]].
  destruct x as [j k], y as [j' k']. apply in_shift in Hx as [i [Hx ->]]. apply in_shift in Hy as [i' [Hy ->]].
  specialize (H1 u _ _ Hu Hx Hy). simpl in *. lia.
Qed.

Lemma groups_exhaustive q s n G ts :
  mandatory_of R <> [] ->
  sibling_groups D satisfies R q s n ts ->
  map own G = map (fun t => pairs_at q (shift s t)) ts ->
  exists ts, map own G = map (pairs_at q) ts /\ disjoint_increasing ts /\
    (forall ks, embeds_at q s n ks -> exists t x, In t ts /\ In x t /\ hd 0 ks <= snd x).
Proof.
  intros Hm Hts HG. pose proof (with_mandatory _ _ _ _ Hm Hts) as HA. destruct (opts_mandatory Hm) as [f [ms Em]].
  exists (map (shift s) ts). split; [now rewrite map_map|]. split.
  - apply shift_disjoint. eapply are_groups_disjoint; eauto.
  - intros ks Hks. apply embeds_embedding in Hks as [js [-> HE]].
    destruct (are_groups_exhaustive _ _ _ _ _ _ _ Em HA js HE) as [t [[j i] [H1 [H2 H3]]]].
    exists (shift s t), (j, s + i). split; [now apply in_map|]. split; [apply in_shift; eauto|].
    destruct js as [|j0 js]; simpl in *; [|lia].
    destruct HE as [HF _]. rewrite Em in HF. inversion HF.
Qed.

(** *** The pairs of a group by rule *)

Lemma ordered_split j t : ordered t -> (forall x, In x t -> j <= fst x) ->
  t = map (fun i => (j, i)) (nodes_of j t) ++ filter (fun x => j <? fst x) t.
Proof.
  intros H Hge. induction H as [|[a i] t H IH HF]; [reflexivity|].
  unfold nodes_of in *. cbn [filter fst]. pose proof (Hge (a, i) (or_introl eq_refl)) as Ha. simpl in Ha.
  assert (Hge' : forall x, In x t -> j <= fst x) by (intros; apply Hge; now right).
  destruct (Nat.eqb_spec a j) as [->|Hne].
  - cbn [map app snd]. destruct (Nat.ltb_spec j j); [lia|]. f_equal. auto.
  - destruct (Nat.ltb_spec j a); [|lia].
    assert (Hno : filter (fun p => fst p =? j) t = []).
    { rewrite Forall_forall in HF. clear - HF H0. induction t as [|y t IH]; [reflexivity|]. simpl.
      destruct (Nat.eqb_spec (fst y) j) as [E|E].
      - specialize (HF y (or_introl eq_refl)). simpl in HF. lia.
      - apply IH. intros; apply HF; now right. }
    rewrite Hno. cbn [map app]. f_equal. 
    rewrite Forall_forall in HF. clear - HF H0. induction t as [|y t IH]; [reflexivity|]. simpl.
    destruct (Nat.ltb_spec j (fst y)).
    + f_equal. apply IH. intros; apply HF; now right.
    + specialize (HF y (or_introl eq_refl)). simpl in HF. lia.
Qed.

Lemma nodes_of_filter j j' t : j < j' -> nodes_of j' (filter (fun x => j <? fst x) t) = nodes_of j' t.
Proof.
  intros H. unfold nodes_of. f_equal. induction t as [|[a i] t IH]; [reflexivity|]. simpl.
  destruct (Nat.ltb_spec j a); simpl; destruct (Nat.eqb_spec a j'); try (f_equal; exact IH); try exact IH. lia.
Qed.

Lemma ordered_filter f t : ordered t -> ordered (filter f t).
Proof. apply ss_filter. Qed.

Lemma ordered_1 t : ordered t -> (forall j i, In (j, i) t -> j < 1) -> t = map (fun i => (0, i)) (nodes_of 0 t).
Proof.
  intros H Hr. rewrite (ordered_split 0 t H) at 1 by (intros; lia).
  assert (E : filter (fun x => 0 <? fst x) t = []).
  { clear H. induction t as [|[a i] t IH]; [reflexivity|]. simpl. pose proof (Hr a i (or_introl eq_refl)).
    destruct (Nat.ltb_spec 0 a); [lia|]. apply IH. intros; eapply Hr; right; eauto. }
  now rewrite E, app_nil_r.
Qed.

Lemma ordered_2 t : ordered t -> (forall j i, In (j, i) t -> j < 2) ->
  t = map (fun i => (0, i)) (nodes_of 0 t) ++ map (fun i => (1, i)) (nodes_of 1 t).
Proof.
  intros H Hr. rewrite (ordered_split 0 t H) at 1 by (intros; lia). f_equal.
  set (u := filter (fun x => 0 <? fst x) t).
  assert (Hu : ordered u) by now apply ordered_filter.
  assert (Hge : forall x, In x u -> 1 <= fst x).
  { intros x Hx. apply filter_In in Hx as [_ Hx]. apply Nat.ltb_lt in Hx. lia. }
  rewrite (ordered_split 1 u Hu Hge). unfold u. rewrite nodes_of_filter by lia.
  assert (E : filter (fun x => 1 <? fst x) (filter (fun x => 0 <? fst x) t) = []).
  { clear - Hr. induction t as [|[a i] t IH]; [reflexivity|]. simpl. pose proof (Hr a i (or_introl eq_refl)).
    destruct (Nat.ltb_spec 0 a); simpl; [destruct (Nat.ltb_spec 1 a); [lia|]|]; apply IH; intros; eapply Hr; right; eauto. }
  now rewrite E, app_nil_r.
Qed.

Lemma ordered_3 t : ordered t -> (forall j i, In (j, i) t -> j < 3) ->
  t = map (fun i => (0, i)) (nodes_of 0 t) ++ map (fun i => (1, i)) (nodes_of 1 t) ++ map (fun i => (2, i)) (nodes_of 2 t).
Proof.
  intros H Hr. rewrite (ordered_split 0 t H) at 1 by (intros; lia). f_equal.
  set (u := filter (fun x => 0 <? fst x) t).
  assert (Hu : ordered u) by now apply ordered_filter.
  assert (Hge : forall x, In x u -> 1 <= fst x).
  { intros x Hx. apply filter_In in Hx as [_ Hx]. apply Nat.ltb_lt in Hx. lia. }
  rewrite (ordered_split 1 u Hu Hge). unfold u at 1. rewrite nodes_of_filter by lia. f_equal.
  set (v := filter (fun x => 1 <? fst x) u).
  assert (Hv : ordered v) by now apply ordered_filter.
  assert (Hge2 : forall x, In x v -> 2 <= fst x).
  { intros x Hx. apply filter_In in Hx as [_ Hx]. apply Nat.ltb_lt in Hx. lia. }
  rewrite (ordered_split 2 v Hv Hge2). unfold v at 1, u at 1. rewrite !nodes_of_filter by lia.
  assert (E : filter (fun x => 2 <? fst x) v = []).
  { unfold v, u. clear - Hr. induction t as [|[a i] t IH]; [reflexivity|]. simpl. pose proof (Hr a i (or_introl eq_refl)).
    destruct (Nat.ltb_spec 0 a); simpl; [destruct (Nat.ltb_spec 1 a); simpl; [destruct (Nat.ltb_spec 2 a); [lia|]|]|]; apply IH; intros; eapply Hr; right; eauto. }
  now rewrite E, app_nil_r.
Qed.

(** *** C10, C11 *)

Lemma single_chain : r_next R = None -> chain R = [R].
Proof. destruct R as [ch [nx|] ? ? ? ? ? ? ?]; [discriminate|reflexivity]. Qed.

Lemma single_mandatory : r_next R = None -> r_optional R = false ->
  nrules = 1 /\ rule_at R 0 = R /\ mandatory_rules nrules opts = [0].
Proof.
  intros Hn Ho. pose proof (single_chain Hn) as Hc.
  assert (Hr : rule_at R 0 = R) by (unfold rule_at; now rewrite Hc).
  split; [now rewrite Hc|]. split; [exact Hr|]. rewrite Hc. unfold mandatory_rules. simpl. rewrite Hr, Ho. reflexivity.
Qed.

Lemma single_mandatory_of : r_next R = None -> r_optional R = false -> mandatory_of R = [R].
Proof. intros Hn Ho. unfold mandatory_of. rewrite (single_chain Hn). simpl. unfold is_mandatory. now rewrite Ho. Qed.

Lemma single_embedding lo js n q s : r_next R = None -> r_optional R = false ->
  leftmost_embedding nrules n opts (Mat q s) lo js ->
  exists a, js = [a] /\ lo <= a < n /\ rule_matches D satisfies R (s + a :: q) /\
    forall i, lo <= i < n -> rule_matches D satisfies R (s + i :: q) -> a <= i.
Proof.
  intros Hn Ho [[HF HS] Hmin]. destruct (single_mandatory Hn Ho) as [_ [Hr Em]]. rewrite Em in HF.
  inversion HF as [|? a ? l [Ha HM] HF']; subst. inversion HF'; subst. rewrite Hr in HM.
  exists a. repeat split; try lia; auto. intros i Hi HMi.
  assert (HE : embedding nrules n opts (Mat q s) lo [i]).
  { split; [rewrite Em; constructor; [rewrite Hr; auto|constructor]|repeat constructor]. }
  apply Hmin in HE. now inversion HE.
Qed.

Lemma single_groups lo ts n q s : r_next R = None -> r_optional R = false -> r_greedy R = false ->
  are_groups nrules n opts grd (Mat q s) lo ts ->
  exists l, StronglySorted lt l /\ (forall i, In i l <-> lo <= i < n /\ rule_matches D satisfies R (s + i :: q)) /\
    ts = map (fun i => [(0, i)]) l.
Proof.
  intros Hn Ho Hg. destruct (single_mandatory Hn Ho) as [Hlen [Hr Em]].
  assert (Hlone : lone nrules opts grd = false).
  { unfold lone. rewrite Em. simpl. rewrite Hr, Hg. now rewrite andb_false_r. }
  assert (Htr : trails nrules opts grd = false).
  { unfold trails. rewrite Em, Hlen. simpl. rewrite Hr, Hg. now rewrite andb_false_r. }
  revert lo. induction ts as [|t ts IH]; intros lo H; inversion H as [? HE|? js ? ? HG HL HR]; subst.
  - exists []. split; [constructor|]. split; [|reflexivity]. intros i. split; [intros []|]. intros [Hi HM]. exfalso.
    apply (HE [i]). split; [rewrite Em; constructor; [rewrite Hr; auto|constructor]|repeat constructor].
  - destruct (HR Hlone) as [lo' [Hres HA]]. destruct HG as [HLm [Hhd [Hord [Hrl Hc]]]].
    destruct (single_embedding _ _ _ _ _ Hn Ho HLm) as [a [-> [Ha [HMa Hmin]]]].
    unfold resumes in Hres. rewrite Htr in Hres. simpl in Hres. subst lo'.
    destruct (IH (S a) HA) as [l [Hl1 [Hl2 ->]]].
    assert (Ht : t = [(0, a)]).
    { assert (Hrl' : forall j i, In (j, i) t -> j < 1) by (intros j i Hji; rewrite <- Hlen; eauto).
      rewrite (ordered_1 t Hord Hrl').
      specialize (Hc 0 ltac:(lia)). assert (Hta : takes_all opts grd 0 = false) by (unfold takes_all; simpl; rewrite Hr, Hg; reflexivity).
      rewrite Hta in Hc. apply first_of_le_one in Hc. rewrite Em in Hhd. inversion Hhd as [|? ? ? ? Hh _]; subst.
      destruct (nodes_of 0 t) as [|x [|y u]]; simpl in Hc; try discriminate; [|lia]. injection Hh as ->. reflexivity. }
    exists (a :: l). split; [|split; [|now rewrite Ht]].
    + constructor; [exact Hl1|]. rewrite Forall_forall. intros x Hx. apply Hl2 in Hx. lia.
    + intros i. simpl. rewrite Hl2. split.
      * intros [<-|[Hi HM]]; [split; [lia|exact HMa]|split; [lia|exact HM]].
      * intros [Hi HM]. pose proof (Hmin i Hi HM). destruct (Nat.eq_dec a i); [now left|right]. split; [lia|exact HM].
Qed.

Lemma shift_all_matching l q s n :
  StronglySorted lt l -> (forall i, In i l <-> 0 <= i < n /\ rule_matches D satisfies R (s + i :: q)) ->
  StronglySorted lt (map (fun i => s + i) l) /\
  (forall k, In k (map (fun i => s + i) l) <-> s <= k < s + n /\ rule_matches D satisfies R (k :: q)).
Proof.
  intros H1 H2. split.
  - clear H2. induction H1 as [|x l H IH HF]; simpl; constructor; [exact IH|].
    rewrite Forall_forall in *. intros y Hy. apply in_map_iff in Hy as [z [<- Hz]]. specialize (HF z Hz). lia.
  - intros k. rewrite in_map_iff. split.
    + intros [i [<- Hi]]. apply H2 in Hi as [Hi HM]. split; [lia|exact HM].
    + intros [Hk HM]. exists (k - s). split; [lia|]. apply H2. split; [lia|]. now replace (s + (k - s)) with k by lia.
Qed.

Lemma groups_single q s n G ts : r_next R = None -> r_optional R = false -> r_greedy R = false ->
  sibling_groups D satisfies R q s n ts ->
  map own G = map (fun t => pairs_at q (shift s t)) ts ->
  exists ks, (StronglySorted lt ks /\ forall k, In k ks <-> s <= k < s + n /\ rule_matches D satisfies R (k :: q)) /\
    map own G = map (fun k => [([], k :: q)]) ks.
Proof.
  intros Hn Ho Hg Hts HG.
  assert (Hm : mandatory_of R <> []) by (rewrite (single_mandatory_of Hn Ho); discriminate).
  pose proof (with_mandatory _ _ _ _ Hm Hts) as HA.
  destruct (single_groups _ _ _ _ _ Hn Ho Hg HA) as [l [H1 [H2 ->]]].
  exists (map (fun i => s + i) l). split; [now apply shift_all_matching|].
  rewrite HG, !map_map. reflexivity.
Qed.

Lemma groups_single_greedy q s n G ts : r_next R = None -> r_optional R = false -> r_greedy R = true ->
  sibling_groups D satisfies R q s n ts ->
  map own G = map (fun t => pairs_at q (shift s t)) ts ->
  exists ks, (StronglySorted lt ks /\ forall k, In k ks <-> s <= k < s + n /\ rule_matches D satisfies R (k :: q)) /\
    map own G = match ks with [] => [] | _ => [map (fun k => ([], k :: q)) ks] end.
Proof.
  intros Hn Ho Hg Hts HG.
  assert (Hm : mandatory_of R <> []) by (rewrite (single_mandatory_of Hn Ho); discriminate).
  pose proof (with_mandatory _ _ _ _ Hm Hts) as HA.
  destruct (single_mandatory Hn Ho) as [Hlen [Hr Em]].
  assert (Hlone : lone nrules opts grd = true).
  { unfold lone. rewrite Em. simpl. rewrite Hr, Hg, Ho. reflexivity. }
  inversion HA as [? HE|? js t ts' HGr HL HR]; subst.
  - exists []. split; [|now rewrite HG]. split; [constructor|]. intros k. split; [intros []|]. intros [Hk HM]. exfalso.
    apply (HE [k - s]). split; [rewrite Em; constructor; [|constructor]|repeat constructor].
    rewrite Hr. split; [lia|]. now replace (s + (k - s)) with k by lia.
  - rewrite HL in HG by exact Hlone. destruct HGr as [HLm [Hhd [Hord [Hrl Hc]]]].
    assert (Hrl' : forall j i, In (j, i) t -> j < 1) by (intros j i Hji; rewrite <- Hlen; eauto).
    specialize (Hc 0 ltac:(lia)).
    assert (Hta : takes_all opts grd 0 = true) by (unfold takes_all; simpl; rewrite Hr, Hg, Ho; reflexivity).
    rewrite Hta in Hc. destruct Hc as [Hs Hc].
    assert (Hall : forall i, In i (nodes_of 0 t) <-> 0 <= i < n /\ rule_matches D satisfies R (s + i :: q)).
    { intros i. rewrite Hc. split.
      - intros [H1 [H2 _]]. rewrite Hr in H2. auto.
      - intros [H1 H2]. split; [exact H1|]. split; [now rewrite Hr|]. split; [intros; lia|]. split.
        + intros j' i' Hin Hlt. apply Hrl' in Hin. lia.
        + unfold ends_before. rewrite Em. now left. }
    exists (map (fun i => s + i) (nodes_of 0 t)). split; [now apply shift_all_matching|].
    rewrite HG. simpl. rewrite Em in Hhd. inversion Hhd as [|? ? ? ? Hh _]; subst.
    rewrite (ordered_1 t Hord Hrl') at 1. unfold pairs_at, shift.
    destruct (nodes_of 0 t) as [|x u]; [discriminate|]. rewrite !map_map. simpl. now rewrite ?map_map.
Qed.

(** *** C12 *)

Lemma first_of_place (P Q : nat -> Prop) s l :
  first_of P l -> (forall i, P i <-> Q (s + i)) -> (forall k, Q k -> s <= k) ->
  exists x, first_place Q x /\ map (fun i => s + i) l = match x with Some k => [k] | None => [] end.
Proof.
  intros H HPQ Hge. destruct H as [[-> H]|[i [-> [H H']]]].
  - exists None. split; [|reflexivity]. intros k Hk. apply (H (k - s)). apply HPQ.
    pose proof (Hge k Hk). now replace (s + (k - s)) with k by lia.
  - exists (Some (s + i)). split; [|reflexivity]. split; [now apply HPQ|]. intros k' Hk'.
    pose proof (Hge k' Hk'). specialize (H' (k' - s)). rewrite HPQ in H'.
    replace (s + (k' - s)) with k' in H' by lia. specialize (H' Hk'). lia.
Qed.

Lemma opt_pair_map q j s l x : map (fun i => s + i) l = match x with Some k => [k] | None => [] end ->
  pairs_at q (shift s (map (fun i => (j, i)) l)) = opt_pair q j x.
Proof.
  intros H. unfold pairs_at, shift, opt_pair. rewrite !map_map. simpl.
  destruct l as [|i [|i' l]]; destruct x as [k|]; try discriminate; [reflexivity|]. simpl in *. now injection H as ->.
Qed.

Lemma pairs_at_app q s t u : pairs_at q (shift s (t ++ u)) = pairs_at q (shift s t) ++ pairs_at q (shift s u).
Proof. unfold pairs_at, shift. now rewrite !map_app. Qed.

Lemma group_in G q s ts g : map own G = map (fun t => pairs_at q (shift s t)) ts -> In g G ->
  exists t, In t ts /\ own g = pairs_at q (shift s t).
Proof.
  intros HG Hg. assert (Ho : In (own g) (map own G)) by now apply in_map. rewrite HG in Ho.
  apply in_map_iff in Ho as [t [Ht Hin]]. eauto.
Qed.

Lemma groups_between A B C q s n G ts :
  chain R = [A; B; C] ->
  r_optional A = false -> r_optional B = true -> r_optional C = false ->
  r_greedy A = false -> r_greedy B = false -> r_greedy C = false ->
  sibling_groups D satisfies R q s n ts ->
  map own G = map (fun t => pairs_at q (shift s t)) ts ->
  forall g, In g G -> exists a b c,
    own g = ([], a :: q) :: opt_pair q 1 b ++ [([RNext; RNext], c :: q)] /\
    first_place (fun k => a < k < c /\ rule_matches D satisfies (rule_at R 1) (k :: q)) b.
Proof.
  intros HC OA OB OC GA GB GC Hts HG g Hg.
  assert (R0 : rule_at R 0 = A) by (unfold rule_at; now rewrite HC).
  assert (R1 : rule_at R 1 = B) by (unfold rule_at; now rewrite HC).
  assert (R2 : rule_at R 2 = C) by (unfold rule_at; now rewrite HC).
  rewrite <- R0 in OA, GA. rewrite <- R1 in OB, GB. rewrite <- R2 in OC, GC. clear R0 R1 R2.
  assert (Hlen : nrules = 3) by now rewrite HC.
  assert (Em : mandatory_rules nrules opts = [0; 2]).
  { rewrite Hlen. unfold mandatory_rules. simpl. rewrite OA, OB, OC. reflexivity. }
  destruct (group_in _ _ _ _ _ HG Hg) as [t [Ht Ho]].
  destruct (group_of_list _ _ _ _ _ Hts Ht) as [lo [js HGr]].
  destruct HGr as [[[HF HS] _] [Hhd [Hord [Hrl Hc]]]].
  rewrite Em in Hhd, HF. inversion Hhd as [|? a ? ? Ha Hhd']; subst. inversion Hhd' as [|? c ? ? Hc2 Hhd'']; subst. inversion Hhd''; subst.
  inversion HF as [|? ? ? ? [Ha1 Ha2] HF']; subst. inversion HF' as [|? ? ? ? [Hc1 Hc3] _]; subst.
  assert (Hac : a < c) by (inversion HS as [|? ? _ HS']; subst; now inversion HS').
  assert (Hta : forall j, j < 3 -> takes_all opts grd j = false).
  { intros j Hj. unfold takes_all. destruct j as [|[|[|j]]]; [| | |lia]; cbn beta; rewrite ?GA, ?GB, ?GC; reflexivity. }
  assert (Hrl' : forall j i, In (j, i) t -> j < 3) by (intros j i Hji; rewrite <- Hlen; eauto).
  pose proof (Hc 0 ltac:(lia)) as C0. pose proof (Hc 1 ltac:(lia)) as C1. pose proof (Hc 2 ltac:(lia)) as C2.
  rewrite Hta in C0, C1, C2 by lia. pose proof (first_of_le_one _ _ C0) as L0. pose proof (first_of_le_one _ _ C2) as L2.
  destruct (nodes_of 0 t) as [|x0 [|? ?]] eqn:E0; simpl in L0; try discriminate; [|lia]. injection Ha as ->.
  destruct (nodes_of 2 t) as [|x2 [|? ?]] eqn:E2; simpl in L2; try discriminate; [|lia]. injection Hc2 as ->.
  pose proof (ordered_3 t Hord Hrl') as Hsplit. rewrite E0, E2 in Hsplit.
  assert (In0 : forall i, In (0, i) t <-> i = a).
  { intros i. rewrite <- nodes_of_in, E0. simpl. intuition. }
  assert (In2 : forall i, In (2, i) t <-> i = c).
  { intros i. rewrite <- nodes_of_in, E2. simpl. intuition. }
  destruct (first_of_place _ (fun k => s + a < k < s + c /\ rule_matches D satisfies (rule_at R 1) (k :: q)) s _ C1) as [b [Hb Hb']].
  { intros i. split.
    - intros [H1 [H2 [H3 [H4 _]]]]. split; [|exact H2].
      assert (a < i) by (apply (H3 0); [now apply In0|lia]).
      assert (i < c) by (apply (H4 2); [now apply In2|lia|exact OC]). lia.
    - intros [H1 H2]. split; [lia|]. split; [exact H2|]. split; [|split].
      + intros j' i' Hin Hlt. assert (j' = 0) by lia. subst j'. apply In0 in Hin. lia.
      + intros j' i' Hin Hlt Hopt. pose proof (Hrl' _ _ Hin). assert (j' = 2) by lia. subst j'. apply In2 in Hin. lia.
      + unfold ends_before. rewrite Em. right. intros i' Hi'. simpl in Hi'. lia. }
  { intros k [Hk _]. lia. }
  exists (s + a), b, (s + c). split; [|exact Hb].
  rewrite Ho, Hsplit, !pairs_at_app, (opt_pair_map q 1 s _ _ Hb'). reflexivity.
Qed.

Lemma groups_trailing A B q s n G ts :
  chain R = [A; B] ->
  r_optional A = false -> r_optional B = true ->
  r_greedy A = false -> r_greedy B = false ->
  sibling_groups D satisfies R q s n ts ->
  map own G = map (fun t => pairs_at q (shift s t)) ts ->
  forall g, In g G -> exists a b,
    own g = ([], a :: q) :: opt_pair q 1 b /\
    first_place (fun k => a < k < s + n /\ rule_matches D satisfies (rule_at R 1) (k :: q) /\
                          forall k', a < k' <= k -> ~ rule_matches D satisfies R (k' :: q)) b.
Proof.
  intros HC OA OB GA GB Hts HG g Hg.
  assert (R0 : rule_at R 0 = R).
  { unfold rule_at. destruct R as [? [?|] ? ? ? ? ? ? ?]; reflexivity. }
  assert (RA : R = A) by (destruct R as [? [?|] ? ? ? ? ? ? ?]; simpl in HC; congruence).
  assert (R1 : rule_at R 1 = B) by (unfold rule_at; now rewrite HC).
  rewrite <- RA in OA, GA. rewrite <- R1 in OB, GB. clear RA R1.
  assert (Hlen : nrules = 2) by now rewrite HC.
  assert (Em : mandatory_rules nrules opts = [0]).
  { rewrite Hlen. unfold mandatory_rules. simpl. rewrite R0, OA, OB. reflexivity. }
  assert (Hlone : lone nrules opts grd = false).
  { unfold lone. rewrite Em. simpl. rewrite R0, GA. now rewrite andb_false_r. }
  destruct (group_in _ _ _ _ _ HG Hg) as [t [Ht Ho]].
  destruct (group_of_list _ _ _ _ _ Hts Ht) as [lo [js HGr]].
  destruct HGr as [[[HF HS] _] [Hhd [Hord [Hrl Hc]]]].
  rewrite Em in Hhd, HF. inversion Hhd as [|? a ? ? Ha Hhd']; subst. inversion Hhd'; subst.
  inversion HF as [|? ? ? ? [Ha1 Ha2] HF']; subst.
  assert (Hta : forall j, j < 2 -> takes_all opts grd j = false).
  { intros j Hj. unfold takes_all. destruct j as [|[|j]]; [| |lia]; cbn beta; rewrite ?R0, ?GA, ?GB; reflexivity. }
  assert (Hrl' : forall j i, In (j, i) t -> j < 2) by (intros j i Hji; rewrite <- Hlen; eauto).
  pose proof (Hc 0 ltac:(lia)) as C0. pose proof (Hc 1 ltac:(lia)) as C1.
  rewrite Hta in C0, C1 by lia. pose proof (first_of_le_one _ _ C0) as L0.
  destruct (nodes_of 0 t) as [|x0 [|? ?]] eqn:E0; simpl in L0; try discriminate; [|lia]. injection Ha as ->.
  pose proof (ordered_2 t Hord Hrl') as Hsplit. rewrite E0 in Hsplit.
  assert (In0 : forall i, In (0, i) t <-> i = a).
  { intros i. rewrite <- nodes_of_in, E0. simpl. intuition. }
  destruct (first_of_place _ (fun k => s + a < k < s + n /\ rule_matches D satisfies (rule_at R 1) (k :: q) /\
      forall k', s + a < k' <= k -> ~ rule_matches D satisfies R (k' :: q)) s _ C1) as [b [Hb Hb']].
  { intros i. split.
    - intros [H1 [H2 [H3 [_ H5]]]]. assert (a < i) by (apply (H3 0); [now apply In0|lia]).
      split; [lia|]. split; [exact H2|]. unfold ends_before in H5. rewrite Em, Hlone in H5. destruct H5 as [H5|H5]; [discriminate|].
      intros k' Hk' HM. apply (H5 (k' - s)); [simpl; lia|]. rewrite R0. now replace (s + (k' - s)) with k' by lia.
    - intros [H1 [H2 H3]]. split; [lia|]. split; [exact H2|]. split; [|split].
      + intros j' i' Hin Hlt. assert (j' = 0) by lia. subst j'. apply In0 in Hin. lia.
      + intros j' i' Hin Hlt Hopt. pose proof (Hrl' _ _ Hin). lia.
      + unfold ends_before. rewrite Em. right. intros i' Hi' HM. simpl in Hi'. apply (H3 (s + i')); [lia|]. now rewrite R0 in HM. }
  { intros k [Hk _]. lia. }
  exists (s + a), b. split; [|exact Hb].
  rewrite Ho, Hsplit, !pairs_at_app, (opt_pair_map q 1 s _ _ Hb'). reflexivity.
Qed.

End Facts.
