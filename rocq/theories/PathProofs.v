(** Proofs about rules without siblings (C81). *)

From Coq Require Import Ascii String Arith NArith ZArith Bool List Lia Sorted.
From Verif Require Import Base Dom Values Match Rule RuleMatching RuleProofs GroupSpec GroupFacts MatchSpec MatchProofs ExtractSpec
  ExtractProofs SpecUnique SearchSpec SearchFacts ExtractMain PathSpec.
Import ListNotations.

(** ** One rule in a list *)

Section Lone.
Variable D : node.
Variable satisfies : rule -> npath -> Prop.

Lemma lone_groups c q s n ts : r_next c = None -> sibling_groups D satisfies c q s n ts ->
  exists l, StronglySorted lt l /\ (forall i, In i l <-> 0 <= i < n /\ rule_matches D satisfies c (s + i :: q)) /\
    ts = if r_greedy c then match l with [] => [] | _ => [map (fun i => (0, i)) l] end else map (fun i => [(0, i)]) l.
Proof.
  intros Hn Hts. pose proof (single_chain c Hn) as Hc.
  assert (Hr : rule_at c 0 = c) by (unfold rule_at; now rewrite Hc).
  destruct (r_optional c) eqn:Ho.
  - assert (Hm : mandatory_of c = []) by (unfold mandatory_of; rewrite Hc; simpl; unfold is_mandatory; now rewrite Ho).
    unfold sibling_groups in Hts. rewrite Hm, Hc in Hts. cbn [length] in Hts.
    set (M := fun j i => rule_matches D satisfies (rule_at c j) (s + i :: q)) in *.
    set (opts := fun j => r_optional (rule_at c j)) in *. set (grd := fun j => r_greedy (rule_at c j)) in *.
    assert (Em : mandatory_rules 1 opts = []) by (unfold mandatory_rules, opts; simpl; now rewrite Hr, Ho).
    assert (HM0 : forall i, M 0 i <-> rule_matches D satisfies c (s + i :: q)) by (intros i; unfold M; now rewrite Hr).
    assert (Hcand : forall lo u i, (forall j x, In (j, x) u -> j < 1) ->
       candidate 1 n opts grd M lo (last [] 0) u 0 i <-> lo <= i < n /\ M 0 i).
    { intros lo u x Hrl. split; [intros [H1 [H2 _]]; auto|]. intros [H1 H2]. split; [exact H1|]. split; [exact H2|].
      split; [intros; lia|]. split; [intros j' i' Hin Hlt; apply Hrl in Hin; lia|]. unfold ends_before. now rewrite Em. }
    destruct (r_greedy c) eqn:Hg.
    + assert (Hta : takes_all opts grd 0 = true) by (unfold takes_all, grd, opts; now rewrite Hr, Hg, Ho).
      assert (Hgrp : forall u, is_group 1 n opts grd M 0 [] u ->
         exists l, StronglySorted lt l /\ (forall i, In i l <-> 0 <= i < n /\ M 0 i) /\ u = map (fun i => (0, i)) l).
      { intros u [_ [_ [Hord [Hrl Hcc]]]]. specialize (Hcc 0 ltac:(lia)). rewrite Hta in Hcc. destruct Hcc as [HS Hcc].
        exists (nodes_of 0 u). split; [exact HS|]. split; [|exact (ordered_1 u Hord Hrl)].
        intros i. rewrite Hcc. now apply Hcand. }
      inversion Hts as [lo HG|lo u HG Hne Hl|lo u x us HG Hgr Hno HR]; subst.
      * destruct (Hgrp _ HG) as [l [H1 [H2 H3]]]. exists l. split; [exact H1|]. split; [intros i; rewrite H2, HM0; reflexivity|].
        destruct l; [reflexivity|discriminate].
      * destruct (Hgrp _ HG) as [l [H1 [H2 ->]]]. exists l. split; [exact H1|]. split; [intros i; rewrite H2, HM0; reflexivity|].
        destruct l; [now elim Hne|reflexivity].
      * exfalso. unfold grd in Hgr. simpl in Hgr. rewrite Hr in Hgr. congruence.
    + assert (Hta : takes_all opts grd 0 = false) by (unfold takes_all, grd; now rewrite Hr, Hg).
      assert (Hgrp : forall lo t, is_group 1 n opts grd M lo [] t ->
         (t = [] /\ forall i, lo <= i < n -> ~ M 0 i) \/
         (exists a, t = [(0, a)] /\ lo <= a < n /\ M 0 a /\ forall i, lo <= i < n -> M 0 i -> a <= i)).
      { intros lo u [_ [_ [Hord [Hrl Hcc]]]]. specialize (Hcc 0 ltac:(lia)). rewrite Hta in Hcc.
        rewrite (ordered_1 u Hord Hrl). destruct Hcc as [[-> Hno]|[a [-> [Ha Hmin]]]].
        - left. split; [reflexivity|]. intros x Hx HMx. apply (Hno x). apply Hcand; auto.
        - right. exists a. destruct Ha as [A1 [A2 _]]. split; [reflexivity|]. split; [exact A1|]. split; [exact A2|].
          intros x Hx HMx. apply Hmin. apply Hcand; auto. }
      assert (Hall : forall lo ts, are_optional_groups 1 n opts grd M lo ts ->
         exists l, StronglySorted lt l /\ (forall i, In i l <-> lo <= i < n /\ M 0 i) /\ ts = map (fun i => [(0, i)]) l).
      { intros lo us Hus. induction Hus as [lo HG|lo u HG Hne Hl|lo u x us HG Hgr Hno HR IH].
        - exists []. split; [constructor|]. split; [|reflexivity].
          destruct (Hgrp lo [] HG) as [[_ Hno]|[a [Ha _]]]; [|discriminate].
          intros x. split; [intros []|]. intros [H1 H2]. now apply (Hno x) in H2.
        - exfalso. destruct (Hgrp lo u HG) as [[-> _]|[a [-> _]]]; [congruence|].
          destruct Hl as [Hl|Hl]; [|discriminate]. unfold grd in Hl. simpl in Hl. rewrite Hr in Hl. congruence.
        - destruct (Hgrp lo u HG) as [[-> _]|[a [-> [Ha [HMa Hmin]]]]]; [discriminate|].
          simpl in Hno. injection Hno as <-. destruct IH as [l [L1 [L2 ->]]].
          exists (a :: l). split; [|split; [|reflexivity]].
          + constructor; [exact L1|]. rewrite Forall_forall. intros y Hy. apply L2 in Hy. lia.
          + intros y. simpl. rewrite L2. split.
            * intros [<-|[H1 H2]]; [split; [lia|exact HMa]|split; [lia|exact H2]].
            * intros [H1 H2]. pose proof (Hmin y H1 H2). destruct (Nat.eq_dec a y); [now left|right]. split; [lia|exact H2]. }
      destruct (Hall 0 ts Hts) as [l [L1 [L2 ->]]]. exists l. split; [exact L1|]. split; [|reflexivity].
      intros i. rewrite L2, HM0. reflexivity.
  - assert (Hm : mandatory_of c <> []) by (rewrite (single_mandatory_of c Hn Ho); discriminate).
    pose proof (with_mandatory D satisfies c _ _ _ _ Hm Hts) as HA.
    destruct (r_greedy c) eqn:Hg.
    + destruct (single_mandatory c Hn Ho) as [Hlen [_ Em]].
      set (M := fun j i => rule_matches D satisfies (rule_at c j) (s + i :: q)) in *.
      set (opts := fun j => r_optional (rule_at c j)) in *. set (grd := fun j => r_greedy (rule_at c j)) in *.
      assert (Hlone : lone (length (chain c)) opts grd = true).
      { unfold lone. rewrite Em. simpl. unfold opts, grd. rewrite Hr, Hg, Ho. reflexivity. }
      inversion HA as [? HE|? js t ts' HGr HL HR]; subst.
      * exists []. split; [constructor|]. split; [|reflexivity]. intros k. split; [intros []|]. intros [Hk HM]. exfalso.
        apply (HE [k]). split; [rewrite Em; constructor; [|constructor]|repeat constructor].
        unfold M. rewrite Hr. split; [lia|exact HM].
      * rewrite HL by exact Hlone. destruct HGr as [HLm [Hhd [Hord [Hrl Hcc]]]].
        assert (Hrl' : forall j i, In (j, i) t -> j < 1) by (intros j i Hji; rewrite <- Hlen; eauto).
        specialize (Hcc 0 ltac:(lia)).
        assert (Hta : takes_all opts grd 0 = true) by (unfold takes_all, opts, grd; simpl; rewrite Hr, Hg, Ho; reflexivity).
        rewrite Hta in Hcc. destruct Hcc as [HS Hcc].
        exists (nodes_of 0 t). split; [exact HS|]. split.
        -- intros i. rewrite Hcc. unfold candidate, M. rewrite Hr. split; [intros [H1 [H2 _]]; auto|].
           intros [H1 H2]. split; [exact H1|]. split; [exact H2|]. split; [intros; lia|]. split.
           ++ intros j' i' Hin Hlt. apply Hrl' in Hin. lia.
           ++ unfold ends_before. rewrite Em. now left.
        -- rewrite Em in Hhd. inversion Hhd as [|? ? ? ? Hh _]; subst.
           rewrite (ordered_1 t Hord Hrl') at 1. destruct (nodes_of 0 t); [discriminate|reflexivity].
    + exact (single_groups D satisfies c 0 ts n q s Hn Ho Hg HA).
Qed.

End Lone.

(** ** Layout *)

Lemma layout_lone o inner pair l : forall seen gap, o 0 = true \/ seen = Some 0 ->
  layout o inner pair seen gap (map (fun i => (0, i)) l) = gap ++ flat_map (fun i => inner 0 i ++ [pair 0 i]) l.
Proof.
  induction l as [|i l IH]; intros seen gap H; cbn [map layout flat_map]; [now rewrite app_nil_r|].
  assert (Hb : negb (o 0) && negb (match seen with Some j' => j' =? 0 | None => false end) = false).
  { destruct H as [-> | ->]; [reflexivity|]. cbn. now rewrite andb_false_r. }
  rewrite Hb, IH by exact H. now rewrite <- !app_assoc.
Qed.

Lemma layout_start o inner pair l :
  layout o inner pair None [] (map (fun i => (0, i)) l) = flat_map (fun i => inner 0 i ++ [pair 0 i]) l.
Proof.
  destruct (o 0) eqn:Ho; [exact (layout_lone o inner pair l None [] (or_introl Ho))|].
  destruct l as [|i l]; [reflexivity|]. cbn [map layout flat_map]. rewrite Ho. cbn [negb andb].
  rewrite (layout_lone o inner pair l (Some 0) [] (or_intror eq_refl)). cbn [app]. now rewrite <- !app_assoc.
Qed.

Lemma sorted_filter (f : nat -> bool) l n : StronglySorted lt l -> (forall i, In i l <-> 0 <= i < n /\ f i = true) ->
  l = filter f (seq 0 n).
Proof.
  intros HS H. apply (sorted_unique lt); [intros a b; lia|exact HS| |].
  - assert (Hq : forall a m, StronglySorted lt (filter f (seq a m))).
    { intros a m. revert a. induction m as [|m IH]; intros a; cbn [seq filter]; [constructor|].
      destruct (f a); [|apply IH]. constructor; [apply IH|]. apply Forall_forall. intros x Hx.
      apply filter_In in Hx as [Hx _]. apply in_seq in Hx. lia. }
    apply Hq.
  - intros x. rewrite H, filter_In, in_seq. intuition lia.
Qed.

Lemma filter_map {A B} (f : A -> B) (g : B -> bool) l : filter g (map f l) = map f (filter (fun x => g (f x)) l).
Proof. induction l as [|a l IH]; [reflexivity|]. cbn [map filter]. destruct (g (f a)); cbn [map]; now rewrite IH. Qed.

Lemma seq_shift_add a n : seq a n = map (fun i => a + i) (seq 0 n).
Proof.
  induction n as [|n IH] using nat_ind; [reflexivity|]. rewrite !seq_S, map_app, <- IH. reflexivity.
Qed.

(** ** Groups, matches and values *)

Section Path.
Variable E : engine.
Variable D : node.
Variable R : rule.
Notation sat := (node_satisfies E D).
Notation matches := (rule_matches D sat).

Lemma passes_iff r p : passes E D r p = true <-> sat r p.
Proof. unfold passes, node_satisfies. destruct (Rule_matches E D r p) as [[|]|e|u|]; split; congruence. Qed.

Lemma children_at_count p n : nget D p = Some n -> is_element n = true ->
  children_at D p = map (fun k => k :: p) (seq 0 (child_count D p)).
Proof. intros H He. unfold children_at, child_count. rewrite H. destruct n; try discriminate. reflexivity. Qed.

Lemma child_in p q : In q (children_at D p) <->
  exists n k, nget D p = Some n /\ is_element n = true /\ k < length (children_of n) /\ q = k :: p.
Proof.
  unfold children_at. split.
  - destruct (nget D p) as [[]|] eqn:H; try (intros []; fail). intros Hq. apply in_map_iff in Hq as [k [<- Hk]]. apply in_seq in Hk.
    do 2 eexists. split; [reflexivity|]. split; [reflexivity|]. split; [|reflexivity]. cbn. lia.
  - intros [n [k [H [He [Hk ->]]]]]. rewrite H. destruct n; try discriminate. cbn in Hk.
    apply in_map_iff. exists k. split; [reflexivity|]. apply in_seq. lia.
Qed.

Lemma children_nonempty p : nonempty_list (children_at D p) = true <->
  exists n, nget D p = Some n /\ is_element n = true /\ children_of n <> [].
Proof.
  unfold children_at. split.
  - destruct (nget D p) as [[]|]; try discriminate. intros H. eexists. split; [reflexivity|]. split; [reflexivity|].
    cbn. destruct children; discriminate.
  - intros [n [-> [He Hc]]]. destruct n; try discriminate. cbn in Hc. destruct children; [now elim Hc|reflexivity].
Qed.

Lemma all_rules (P : rule -> Prop) l : (fix all l := match l with [] => True | q :: l' => P q /\ all l' end) l <-> Forall P l.
Proof.
  induction l as [|q l IH]; [split; constructor|]. split.
  - intros [H1 H2]. constructor; [exact H1|now apply IH].
  - intros H. inversion H; subst. split; [assumption|now apply IH].
Qed.

Lemma no_siblings_parts r : no_siblings r ->
  r_next r = None /\ (forall c, r_child r = Some c -> no_siblings c) /\ Forall no_siblings (r_nested r).
Proof.
  destruct r as [c n l ms cs t o g name]. cbn [no_siblings r_next r_child r_nested]. intros [H1 [H2 H3]].
  split; [exact H1|]. split; [|now apply all_rules]. intros c' ->. exact H2.
Qed.

(** The mandatory rules of a row with one rule. *)
Lemma lone_mandatory c : r_next c = None -> mandatory_of c = if r_optional c then [] else [c].
Proof.
  intros Hn. unfold mandatory_of. rewrite (single_chain c Hn). cbn. unfold is_mandatory. now destruct (r_optional c).
Qed.

Lemma embedded_one c p : embedded matches [c] p <-> exists k, matches c (k :: p).
Proof.
  split.
  - intros [ks [HF _]]. inversion HF as [|? k ? l HM]; subst. eauto.
  - intros [k Hk]. exists [k]. split; [constructor; [exact Hk|constructor]|repeat constructor].
Qed.

Lemma matches_child c k p : matches c (k :: p) -> forall n, nget D p = Some n -> k < length (children_of n).
Proof.
  intros H n Hn. inversion H as [? ? m Hm]; subst. cbn [nget] in Hm. rewrite Hn in Hm. apply nth_error_Some. congruence.
Qed.

Lemma below_in p n q : nget D p = Some n ->
  In q (nodes_below D p) <-> exists e, In e (elements n p) /\ In q (children_at D e).
Proof. intros H. unfold nodes_below. rewrite H. rewrite in_flat_map. reflexivity. Qed.

Theorem matched_iff r : no_siblings r -> forall p, matches r p <-> matched E D r p = true.
Proof.
  induction r as [c nx l ms cs t o g name IHc IHn IHl] using rule_ind2. intros HN p.
  destruct (no_siblings_parts _ HN) as [Hnx [Hc Hl]]. cbn [r_next r_child r_nested] in Hnx, Hc, Hl.
  remember (mk_rule c nx l ms cs t o g name) as r eqn:Er.
  assert (HM : matched E D r p =
    passes E D r p && (match c, l with None, [] => true | _, _ => nonempty_list (children_at D p) end) &&
    match c with Some c' => r_optional c' || existsb (matched E D c') (children_at D p) | None => true end &&
    forallb (fun q => r_optional q || existsb (matched E D q) (nodes_below D p)) l) by (rewrite Er; reflexivity).
  rewrite HM, !andb_true_iff, passes_iff. clear HM.
  assert (Ec : r_child r = c) by now rewrite Er. assert (El : r_nested r = l) by now rewrite Er.
  assert (HC : forall c', no_siblings c' -> (forall p, matches c' p <-> matched E D c' p = true) -> forall q n, nget D q = Some n -> is_element n = true ->
    (embedded matches (mandatory_of c') q <-> r_optional c' || existsb (matched E D c') (children_at D q) = true)).
  { intros c' HN' IH q n Hq He. rewrite (lone_mandatory c' (proj1 (no_siblings_parts _ HN'))).
    destruct (r_optional c'); cbn [orb].
    - split; [reflexivity|]. intros _. exists []. split; constructor.
    - rewrite embedded_one, existsb_exists. split.
      + intros [k Hk]. exists (k :: q). split; [|now apply IH]. apply child_in. exists n, k.
        split; [exact Hq|]. split; [exact He|]. split; [|reflexivity]. exact (matches_child _ _ _ Hk n Hq).
      + intros [x [Hx Hm]]. apply child_in in Hx as [_ [k [_ [_ [_ ->]]]]]. exists k. now apply IH. }
  rewrite Forall_forall in Hl, IHl. rewrite forallb_forall. split.
  - intros HM. inversion HM as [r0 p0 n Hn Hs Hel Hch Hne]; subst r0 p0.
    rewrite Ec in Hel, Hch. rewrite El in Hel, Hne.
    split; [split; [split; [exact Hs|]|]|].
    + destruct c as [c'|]; [|destruct l as [|q l']; [reflexivity|]].
      * apply children_nonempty. exists n. split; [exact Hn|]. apply Hel. left. discriminate.
      * apply children_nonempty. exists n. split; [exact Hn|]. apply Hel. right. discriminate.
    + destruct c as [c'|]; [|reflexivity]. assert (He : is_element n = true) by (apply Hel; left; discriminate).
      apply (HC c' (Hc c' eq_refl) (IHc c' eq_refl (Hc c' eq_refl)) p n Hn He). now apply Hch.
    + intros q Hq. destruct (r_optional q) eqn:Ho; [reflexivity|]. cbn [orb]. apply existsb_exists.
      assert (Hm : mandatory_of q <> []).
      { rewrite (lone_mandatory q (proj1 (no_siblings_parts _ (Hl q Hq)))), Ho. discriminate. }
      destruct (Hne q Hq Hm) as [e [He Hemb]].
      destruct (elements_below D n p e Hn He) as [_ [m [_ [Hm1 Hm2]]]].
      apply (HC q (Hl q Hq) (IHl q Hq (Hl q Hq)) e m Hm1 Hm2) in Hemb. rewrite Ho in Hemb. cbn [orb] in Hemb.
      apply existsb_exists in Hemb as [x [Hx1 Hx2]]. exists x. split; [|exact Hx2]. apply (below_in p n x Hn). eauto.
  - intros [[[Hs Hel] Hch] Hne].
    assert (Hn : exists n, nget D p = Some n).
    { unfold node_satisfies, Rule_matches, deref in Hs. destruct (nget D p); [eauto|discriminate]. }
    destruct Hn as [n Hn].
    assert (Hel' : c <> None \/ l <> [] -> is_element n = true /\ children_of n <> []).
    { intros H. assert (Hk : nonempty_list (children_at D p) = true) by (destruct c; [exact Hel|]; destruct l; [destruct H; congruence|exact Hel]).
      apply children_nonempty in Hk as [m [Hm Hk]]. rewrite Hm in Hn. injection Hn as <-. exact Hk. }
    apply (rule_matches_intro _ _ _ _ n); rewrite ?Ec, ?El; [exact Hn|exact Hs|exact Hel'| |].
    + intros c' ->. destruct Hel' as [He _]; [left; discriminate|].
      apply (HC c' (Hc c' eq_refl) (IHc c' eq_refl (Hc c' eq_refl)) p n Hn He). exact Hch.
    + intros q Hq Hm. specialize (Hne q Hq). rewrite (lone_mandatory q (proj1 (no_siblings_parts _ (Hl q Hq)))) in Hm |- *.
      destruct (r_optional q) eqn:Ho; [now elim Hm|]. cbn [orb] in Hne. apply existsb_exists in Hne as [x [Hx1 Hx2]].
      apply (below_in p n x Hn) in Hx1 as [e [He Hx1]]. exists e. split; [exact He|]. apply embedded_one.
      apply child_in in Hx1 as [_ [k [_ [_ [_ ->]]]]]. exists k. now apply (IHl q Hq (Hl q Hq)).
Qed.

(** *** Values *)

Definition pair_values (g : MatchingNodes) : list result_pair :=
  flat_map (fun x : rpath * npath => match rget R (fst x) with Some r => own_values E D r (snd x) | None => [] end) g.

Lemma own_values_eq r p values : rule_values E D r p values -> values = own_values E D r p.
Proof.
  intros [outs [HF ->]]. unfold own_values. induction HF as [|c o cs outs Hc HF IH]; [reflexivity|].
  cbn [flat_map]. rewrite Hc, <- IH. destruct o; reflexivity.
Qed.

Lemma captured_values g vs : captured E R D g vs -> vs = pair_values g.
Proof.
  intros H. induction H as [|rp p r g values rest Hr Hv Hg IH]; [reflexivity|].
  cbn [pair_values flat_map fst snd]. rewrite Hr, <- (own_values_eq _ _ _ Hv). f_equal. exact IH.
Qed.

Lemma pair_values_app g h : pair_values (g ++ h) = pair_values g ++ pair_values h.
Proof. apply flat_map_app. Qed.

Lemma pair_values_flat {A} (f : A -> MatchingNodes) l : pair_values (flat_map f l) = flat_map (fun x => pair_values (f x)) l.
Proof. induction l as [|a l IH]; [reflexivity|]. cbn [flat_map]. now rewrite pair_values_app, IH. Qed.

Lemma flat_map_map {A B C} (f : A -> B) (g : B -> list C) l : flat_map g (map f l) = flat_map (fun x => g (f x)) l.
Proof. induction l as [|a l IH]; [reflexivity|]. cbn [map flat_map]. now rewrite IH. Qed.

Lemma flat_map_in {A B} (f g : A -> list B) l : (forall a, In a l -> f a = g a) -> flat_map f l = flat_map g l.
Proof.
  induction l as [|a l IH]; intros H; [reflexivity|]. cbn [flat_map].
  rewrite (H a (or_introl eq_refl)), IH; [reflexivity|]. intros; apply H; now right.
Qed.

Notation below := (pairs_below D sat).

(** What is known of a rule and its address. *)
Definition known (rp : rpath) (r : rule) : Prop :=
  forall p m, matches r p -> below rp r p m -> pair_values (m ++ [(rp, p)]) = all_values E D r p.

Lemma lone_pairs rp c q a n gs : no_siblings c -> known rp c ->
  pair_groups D sat below rp c q a n gs ->
  filter nonempty_list (map pair_values gs) = filter nonempty_list (group_values E D c (map (fun k => k :: q) (seq a n))) /\
  pair_values (concat gs) = flat_map (all_values E D c) (filter (matched E D c) (map (fun k => k :: q) (seq a n))).
Proof.
  intros HN HK [ts [inner [Hts [Hin ->]]]]. pose proof (proj1 (no_siblings_parts _ HN)) as Hn.
  destruct (lone_groups D sat c q a n ts Hn Hts) as [l [HS [Hl Ets]]].
  assert (Hr : rule_at c 0 = c) by (unfold rule_at; now rewrite (single_chain c Hn)).
  assert (El : l = filter (fun i => matched E D c (a + i :: q)) (seq 0 n)).
  { apply sorted_filter; [exact HS|]. intros i. rewrite Hl, (matched_iff c HN). reflexivity. }
  assert (Ep : filter (matched E D c) (map (fun k => k :: q) (seq a n)) = map (fun i => a + i :: q) l).
  { rewrite (seq_shift_add a n), map_map, filter_map. now rewrite El. }
  assert (HV : forall i, In i l -> In (0, i) (concat ts) -> pair_values (inner 0 i ++ [(address rp 0, a + i :: q)]) = all_values E D c (a + i :: q)).
  { intros i Hi Hc. apply HK; [now apply Hl|]. specialize (Hin 0 i Hc). rewrite Hr in Hin. exact Hin. }
  assert (HIn : forall i, In i l -> In (0, i) (concat ts)).
  { intros i Hi. rewrite Ets. destruct (r_greedy c).
    - destruct l as [|x l']; [destruct Hi|]. cbn [concat]. rewrite app_nil_r. apply (in_map (fun i => (0, i))). exact Hi.
    - apply in_concat. exists [(0, i)]. split; [apply (in_map (fun i => [(0, i)])); exact Hi|now left]. }
  unfold group_values. rewrite Ep, Ets. rewrite flat_map_map. rewrite (map_map (fun i => a + i :: q)). clear Ets. destruct (r_greedy c).
  - destruct l as [|x l']; [split; reflexivity|]. cbn [map concat]. rewrite app_nil_r.
    rewrite <- (map_cons (fun i => (0, i)) x l'). 
    change ((0, x) :: map (fun i => (0, i)) l') with (map (fun i => (0, i)) (x :: l')).
    rewrite layout_start, pair_values_flat.
    rewrite (flat_map_in _ (fun i => all_values E D c (a + i :: q))); [split; reflexivity|].
    intros i Hi. apply HV; [exact Hi|now apply HIn].
  - rewrite (map_map (fun i => [(0, i)])).
    assert (Em : map (fun x => layout (fun j => r_optional (rule_at c j)) inner (fun j i => (address rp j, a + i :: q)) None [] [(0, x)]) l =
      map (fun x => inner 0 x ++ [(address rp 0, a + x :: q)]) l).
    { apply map_ext. intros i. rewrite (layout_start _ _ _ [i] : layout _ _ _ None [] [(0, i)] = _). cbn [flat_map]. now rewrite app_nil_r. }
    rewrite Em. split.
    + f_equal. rewrite map_map. apply map_ext_in. intros i Hi. apply HV; [exact Hi|now apply HIn].
    + rewrite <- flat_map_concat_map, pair_values_flat. apply flat_map_in. intros i Hi. apply HV; [exact Hi|now apply HIn].
Qed.

Lemma filter_flat {A B} (f : B -> bool) (g : A -> list B) l : filter f (flat_map g l) = flat_map (fun a => filter f (g a)) l.
Proof. induction l as [|a l IH]; [reflexivity|]. cbn [flat_map]. now rewrite filter_app, IH. Qed.
Lemma flat_flat {A B C} (f : B -> list C) (g : A -> list B) l : flat_map f (flat_map g l) = flat_map (fun a => flat_map f (g a)) l.
Proof. induction l as [|a l IH]; [reflexivity|]. cbn [flat_map]. now rewrite flat_map_app, IH. Qed.

Lemma lone_below rp c es gs : no_siblings c -> known rp c ->
  (forall e, In e es -> exists n, nget D e = Some n /\ is_element n = true) ->
  groups_in D sat below rp c es gs ->
  filter nonempty_list (map pair_values gs) = filter nonempty_list (flat_map (group_values E D c) (map (children_at D) es)) /\
  pair_values (concat gs) = flat_map (all_values E D c) (filter (matched E D c) (flat_map (children_at D) es)).
Proof.
  intros HN HK He [gss [HF ->]]. induction HF as [|e g es gss Hg HF IH]; [split; reflexivity|].
  destruct IH as [IH1 IH2]; [intros; apply He; now right|]. destruct (He e (or_introl eq_refl)) as [n [Hn Hel]].
  destruct (lone_pairs rp c e 0 _ g HN HK Hg) as [L1 L2]. rewrite <- (children_at_count e n Hn Hel) in L1, L2.
  cbn [concat map flat_map]. split.
  - rewrite map_app, !filter_app, L1, IH1. reflexivity.
  - rewrite concat_app, pair_values_app, L2, IH2, filter_app, flat_map_app. reflexivity.
Qed.

Lemma element_nodes n p : nget D p = Some n -> forall e, In e (elements n p) -> exists m, nget D e = Some m /\ is_element m = true.
Proof. intros Hn e He. destruct (elements_below D n p e Hn He) as [_ [m [_ H]]]. eauto. Qed.

Lemma known_all r : no_siblings r -> forall rp, rget R rp = Some r -> known rp r.
Proof.
  induction r as [c nx l ms cs t o g name IHc IHn IHl] using rule_ind2. intros HN rp Hrp p m HM HB.
  destruct (no_siblings_parts _ HN) as [Hnx [Hc Hl]]. cbn [r_next r_child r_nested] in Hnx, Hc, Hl.
  remember (mk_rule c nx l ms cs t o g name) as r eqn:Er.
  assert (Ec : r_child r = c) by now rewrite Er. assert (El : r_nested r = l) by now rewrite Er.
  assert (HV : all_values E D r p =
    match c with Some c' => flat_map (all_values E D c') (filter (matched E D c') (children_at D p)) | None => [] end ++
    flat_map (fun q => flat_map (all_values E D q) (filter (matched E D q) (nodes_below D p))) l ++ own_values E D r p)
    by (rewrite Er; reflexivity).
  inversion HB as [rp0 r0 p0 n child nested Hn Hc0 Hc1 HF]; subst rp0 r0 p0 m. rewrite Ec in Hc0, Hc1. rewrite El in HF.
  inversion HM as [r0 p0 n0 Hn0 _ Hel _ _]; subst r0 p0. rewrite Hn0 in Hn. injection Hn as ->. rewrite Ec, El in Hel.
  rewrite HV, !pair_values_app, <- app_assoc. f_equal; [|f_equal].
  - destruct c as [c'|]; [|now rewrite (Hc0 eq_refl)]. destruct (Hc1 c' eq_refl) as [gs [Hg ->]].
    assert (He : is_element n = true) by (apply Hel; left; discriminate).
    assert (HK : known (RChild :: rp) c').
    { apply (IHc c' eq_refl (Hc c' eq_refl)). cbn [rget]. rewrite Hrp. exact Ec. }
    destruct (lone_pairs _ c' p 0 _ gs (Hc c' eq_refl) HK Hg) as [_ L2].
    rewrite <- (children_at_count p n Hn0 He) in L2. exact L2.
  - assert (HG : forall a l', (forall k q, nth_error l' k = Some q -> nth_error l (a + k) = Some q) ->
      forall nested, Forall2 (fun kc m => exists gs, groups_in D sat below (RNested (fst kc) :: rp) (snd kc) (elements n p) gs /\ m = concat gs)
        (combine (seq a (length l')) l') nested ->
      pair_values (concat nested) = flat_map (fun q => flat_map (all_values E D q) (filter (matched E D q) (nodes_below D p))) l').
    { clear HF Hc0 Hc1 HB HV. intros a l'. revert a. induction l' as [|q l' IH]; intros a Hk nested0 HF; cbn [length seq combine] in HF;
        inversion HF as [|? m ? nested' [gs [Hg ->]] HF']; subst; [reflexivity|].
      cbn [concat flat_map]. rewrite pair_values_app. f_equal.
      - cbn [fst snd] in Hg. pose proof (Hk 0 q eq_refl) as Hq. rewrite Nat.add_0_r in Hq. pose proof (nth_error_In _ _ Hq) as Hin.
        rewrite Forall_forall in IHl, Hl.
        assert (HK : known (RNested a :: rp) q).
        { apply (IHl q Hin (Hl q Hin)). cbn [rget]. rewrite Hrp. cbn [r_nested]. exact Hq. }
        destruct (lone_below _ q _ gs (Hl q Hin) HK (element_nodes n p Hn0) Hg) as [_ L2]. rewrite L2.
        unfold nodes_below. now rewrite Hn0.
      - apply (IH (S a)); [|exact HF']. intros k q' Hq'. specialize (Hk (S k) q' Hq'). now replace (S a + k) with (a + S k) by lia. }
    apply (HG 0 l); [auto|exact HF].
  - cbn [pair_values flat_map fst snd]. rewrite Hrp. apply app_nil_r.
Qed.

Theorem path_extract i pp t n res : no_siblings R -> nget D (i :: pp) = Some t ->
  extract_yields E R D (Some (i :: pp)) n (Ok res) -> path_result E D R i pp res.
Proof.
  intros HN Ht [f0 HY]. specialize (HY f0 (le_n _)).
  destruct (extract_describes E R D f0 i pp t n res Ht HY) as [gs [HS [vss [HC HR]]]].
  assert (Hvss : vss = map pair_values gs).
  { clear HR HS. induction HC as [|g v gs vss Hg HC IH]; [reflexivity|]. cbn [map]. now rewrite <- IH, (captured_values _ _ Hg). }
  subst vss. destruct HS as [par [g0 [gs' [Hpar [Hg0 [Hg' ->]]]]]].
  pose proof (known_all R HN [] eq_refl) as HK.
  destruct (lone_pairs [] R pp i _ g0 HN HK Hg0) as [L1 _].
  assert (He : forall e, In e (elements_from D pp i (siblings_seen par i)) -> exists m, nget D e = Some m /\ is_element m = true).
  { intros e H. unfold elements_from in H. apply in_flat_map in H as [k [_ H]]. destruct (nget D (k :: pp)) as [x|] eqn:Hx; [|destruct H].
    exact (element_nodes x _ Hx e H). }
  destruct (lone_below [] R _ gs' HN HK He Hg') as [L2 _].
  unfold path_result, sibling_lists. rewrite Hpar. cbn [flat_map].
  rewrite map_app, filter_app, L1, L2 in HR. rewrite filter_app. exact HR.
Qed.

End Path.
