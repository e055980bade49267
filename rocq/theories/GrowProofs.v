(** Documents with more content. *)

From Coq Require Import Ascii String Arith NArith ZArith Bool List Lia Sorted.
From Verif Require Import Base Tags Dom Values Match Rule RuleMatching RuleProofs MatchSpec ExtractSpec LocalProofs NodeProofs ExtractProofs
  SearchSpec ExtractMain MatchProofs MatchRefine MostSpec MostProofs LessProofs RepeatProofs GrowSpec.
Import ListNotations.

(** ** Rules *)

Lemma own_step R st r : own_conditions R -> rstep_get R st = Some r -> own_conditions r.
Proof.
  intros H Hs rp r' m Hr. apply (H (rp ++ [st]) r' m). revert r' Hr. induction rp as [|st' rp IH]; intros r' Hr; cbn [app rget] in *.
  - rewrite Hs. exact Hr.
  - destruct (rget r rp) as [r0|]; [|discriminate]. now rewrite (IH r0 eq_refl).
Qed.

Lemma own_chain r : forall c, own_conditions c -> In r (chain c) -> own_conditions r.
Proof.
  fix IH 1. intros [c0 [n|] l ms cs t o g nm] HO H; cbn [chain In] in H; destruct H as [H|H]; try (rewrite <- H; exact HO); [|destruct H].
  apply (IH n); [|exact H]. exact (own_step _ RNext n HO eq_refl).
Qed.

Lemma own_mandatory r c : own_conditions c -> In r (mandatory_of c) -> own_conditions r.
Proof. intros HO H. apply filter_In in H as [H _]. now apply (own_chain r c). Qed.

Lemma own_child r c : own_conditions r -> r_child r = Some c -> own_conditions c.
Proof. intros HO H. exact (own_step r RChild c HO H). Qed.

Lemma own_nested r c : own_conditions r -> In c (r_nested r) -> own_conditions c.
Proof. intros HO H. apply In_nth_error in H as [k Hk]. exact (own_step r (RNested k) c HO Hk). Qed.

Section Grow.
Variable E : engine.
Variable D D' : node.
Variable f : npath -> npath.
Hypothesis Hf : placed D D' f.

Lemma kept p n : nget D p = Some n -> exists n', nget D' (f p) = Some n' /\ same_kind n n'.
Proof. exact (proj1 Hf p n). Qed.

Definition index (q : npath) (k : nat) : nat := hd 0 (f (k :: q)).

Lemma index_at q k : nget D (k :: q) <> None -> f (k :: q) = index q k :: f q.
Proof. intros H. destruct Hf as [_ [H1 _]]. unfold index. destruct (H1 k q H) as [i' ->]. reflexivity. Qed.

Lemma index_before q j : nget D (j :: q) <> None -> forall i, i < j -> nget D (i :: q) <> None.
Proof.
  intros H i Hi. cbn [nget] in *. destruct (nget D q) as [par|]; [|congruence]. apply nth_error_Some in H. apply nth_error_Some. lia.
Qed.

Lemma index_lt q i j : nget D (j :: q) <> None -> i < j -> index q i < index q j.
Proof.
  intros H Hi. pose proof (index_before q j H i Hi) as H'. destruct Hf as [_ [_ H2]].
  exact (H2 i j q _ _ H Hi (index_at q i H') (index_at q j H)).
Qed.

Lemma index_le q i j : nget D (j :: q) <> None -> i <= j -> index q i <= index q j.
Proof. intros H Hi. destruct (Nat.eq_dec i j) as [-> |Hn]; [apply le_n|]. apply Nat.lt_le_incl, index_lt; [exact H|lia]. Qed.

Lemma index_inj q i j : nget D (i :: q) <> None -> nget D (j :: q) <> None -> index q i = index q j -> i = j.
Proof.
  intros Hi Hj H. destruct (lt_eq_lt_dec i j) as [[Hl|He]|Hl]; [|exact He|].
  - pose proof (index_lt q i j Hj Hl). lia.
  - pose proof (index_lt q j i Hi Hl). lia.
Qed.

Lemma above k p : nget D (k :: p) <> None -> nget D p <> None.
Proof. cbn [nget]. destruct (nget D p); congruence. Qed.

Lemma f_length p : nget D p <> None -> length (f p) = length p + length (f []).
Proof.
  induction p as [|k p IH]; intros H; [reflexivity|]. rewrite (index_at p k H). cbn [length]. rewrite (IH (above k p H)). reflexivity.
Qed.

Lemma f_inj p : forall q, nget D p <> None -> nget D q <> None -> f p = f q -> p = q.
Proof.
  induction p as [|k p IH]; intros [|j q] Hp Hq H.
  - reflexivity.
  - apply (f_equal (@length nat)) in H. rewrite (f_length _ Hq) in H. cbn [length] in H. lia.
  - apply (f_equal (@length nat)) in H. rewrite (f_length _ Hp) in H. cbn [length] in H. lia.
  - rewrite (index_at p k Hp), (index_at q j Hq) in H. injection H as Hi H.
    assert (p = q) as -> by (apply IH; [exact (above k p Hp)|exact (above j q Hq)|exact H]). f_equal. now apply (index_inj q).
Qed.

(** ** Conditions *)

Lemma own_outcome m : own_condition m -> forall p p' n n', nget D p = Some n -> nget D' p' = Some n' -> same_kind n n' ->
  mtch_matches E D m p = mtch_matches E D' m p'.
Proof.
  induction m as [ms IH|m Hm] using mtch_ind2; intros HO p p' n n' Hn Hn' Hk.
  - cbn [mtch_matches]; unfold deref; rewrite Hn, Hn'; cbn [obind]. cbn [own_condition] in HO. induction ms as [|[m|] ms IHms]; [reflexivity| |].
    + destruct HO as [HO1 HO2]. inversion IH as [|? ? IH1 IH2]; subst. rewrite (IH1 m eq_refl HO1 p p' n n' Hn Hn' Hk).
      destruct (mtch_matches E D' m p') as [[]| | |]; cbn [obind]; try reflexivity. now apply IHms.
    + inversion IH; subst. now apply IHms.
  - destruct m as [z|a t|z|g|g t|ms|a b o|o|rx]; try contradiction HO; try (exfalso; now apply (Hm ms)); cbn [mtch_matches]; unfold deref; rewrite Hn, Hn'; cbn [obind].
    + destruct n, n'; try contradiction Hk; try reflexivity. destruct Hk as [_ [_ <-]]. reflexivity.
    + destruct n, n'; try contradiction Hk; try reflexivity. destruct Hk as [_ [_ <-]]. reflexivity.
    + destruct n, n'; try contradiction Hk; try reflexivity. destruct Hk as [<- [<- _]]. reflexivity.
Qed.

Lemma tag_kept r n n' : same_kind n n' -> tag_matches r n = tag_matches r n'.
Proof. unfold tag_matches. destruct n, n'; cbn [same_kind]; try contradiction; try reflexivity. intros [<- [<- _]]. reflexivity. Qed.

Lemma satisfies_kept r p : own_conditions r -> node_satisfies E D r p -> node_satisfies E D' r (f p).
Proof.
  intros HO. unfold node_satisfies, Rule_matches, deref. destruct (nget D p) as [n|] eqn:Hn; cbn [obind]; [|discriminate].
  destruct (kept p n Hn) as [n' [Hn' Hk]]. rewrite Hn'. cbn [obind]. rewrite (tag_kept r n n' Hk). destruct (tag_matches r n'); [|discriminate].
  rewrite !all_match_spec. intros H m Hm. rewrite <- (own_outcome m (HO [] r m eq_refl Hm) p (f p) n n' Hn Hn' Hk). now apply H.
Qed.

(** ** Elements *)

Lemma elements_list_intro l q p : forall s i c, nth_error l i = Some c -> In q (elements c (s + i :: p)) -> In q (elements_list l s p).
Proof.
  induction l as [|x l IH]; intros s [|i] c Hc Hq; cbn [nth_error] in Hc; try discriminate; cbn [elements_list]; apply in_or_app.
  - injection Hc as ->. left. now rewrite Nat.add_0_r in Hq.
  - right. apply (IH (S s) i c Hc). now replace (S s + i) with (s + S i) by lia.
Qed.

Lemma element_kept n n' : same_kind n n' -> is_element n = is_element n'.
Proof. destruct n, n'; cbn; tauto || reflexivity. Qed.

Lemma child_kept k p n n' c : nget D p = Some n -> nget D' (f p) = Some n' -> nth_error (children_of n) k = Some c ->
  exists c', nth_error (children_of n') (index p k) = Some c' /\ nget D (k :: p) = Some c /\ nget D' (f (k :: p)) = Some c' /\ f (k :: p) = index p k :: f p.
Proof.
  intros Hn Hn' Hc. assert (Hk : nget D (k :: p) = Some c) by (cbn [nget]; now rewrite Hn).
  assert (Hi : f (k :: p) = index p k :: f p) by (apply index_at; congruence).
  destruct (kept _ _ Hk) as [c' [Hc' _]]. exists c'. split; [|auto]. rewrite Hi in Hc'. cbn [nget] in Hc'. now rewrite Hn' in Hc'.
Qed.

Lemma elements_kept n : forall p n' q, nget D p = Some n -> nget D' (f p) = Some n' -> same_kind n n' -> In q (elements n p) ->
  In (f q) (elements n' (f p)).
Proof.
  induction n as [n IH] using node_ind2. intros p n' q Hn Hn' Hk Hq. rewrite elements_unfold in Hq. destruct n as [|t orig attrs cs| | | | |]; try destruct Hq as [].
  - subst q. destruct n'; try contradiction Hk. rewrite elements_unfold. now left.
  - apply elements_list_in in H as [i [c [Hc Hq]]]. cbn [Nat.add] in Hq.
    destruct (child_kept i p _ n' c Hn Hn' Hc) as [c' [Hc' [H1 [H2 H3]]]].
    destruct (kept _ _ H1) as [c'' [H4 H5]]. rewrite H2 in H4. injection H4 as <-. rewrite Forall_forall in IH.
    pose proof (IH c (nth_error_In _ _ Hc) (i :: p) c' q H1 H2 H5 Hq) as HI. rewrite H3 in HI.
    destruct n'; try contradiction Hk. rewrite elements_unfold. right. exact (elements_list_intro _ _ _ 0 _ c' Hc' HI).
Qed.

(** ** Matching *)

Notation matching := (rule_matches D (node_satisfies E D)).
Notation matching' := (rule_matches D' (node_satisfies E D')).

Lemma match_exists r p : matching r p -> nget D p <> None.
Proof. intros H. inversion H; congruence. Qed.

Lemma sorted_kept q ks : Forall (fun k => nget D (k :: q) <> None) ks -> StronglySorted lt ks -> StronglySorted lt (map (index q) ks).
Proof.
  intros HF HS. induction HS as [|k ks HS IH Hk]; [constructor|]. inversion HF as [|? ? H1 H2]; subst. cbn [map]. constructor; [now apply IH|].
  apply Forall_forall. intros x Hx. apply in_map_iff in Hx as [j [<- Hj]]. rewrite Forall_forall in Hk, H2. apply index_lt; [now apply H2|now apply Hk].
Qed.

Lemma embedded_kept l p : (forall r q, In r l -> matching r q -> matching' r (f q)) -> embedded matching l p -> embedded matching' l (f p).
Proof.
  intros H (ks & HF & HS). exists (map (index p) ks). split.
  - clear HS. induction HF as [|r k l ks Hr HF IH]; [constructor|]. cbn [map]. constructor.
    + rewrite <- index_at by exact (match_exists _ _ Hr). apply H; [now left|exact Hr].
    + apply IH. intros r' q Hr'. apply H. now right.
  - apply sorted_kept; [|exact HS]. clear HS H. induction HF as [|r k l ks Hr HF IH]; constructor; [exact (match_exists _ _ Hr)|exact IH].
Qed.

Lemma matches_kept_at k : forall r p, weight r < k -> own_conditions r -> matching r p -> matching' r (f p).
Proof.
  induction k as [|k IH]; intros r p Hk HO HM; [lia|]. inversion HM as [? ? n Hn Hsat Hel Hch Hne]; subst.
  destruct (kept p n Hn) as [n' [Hn' Hs]].
  assert (IHc : forall c q, r_child r = Some c \/ In c (r_nested r) -> embedded matching (mandatory_of c) q -> embedded matching' (mandatory_of c) (f q)).
  { intros c q Hc. apply embedded_kept. intros r' q' Hin. apply IH.
    - apply weight_mandatory in Hin. assert (weight c < weight r) by (destruct Hc; [now apply weight_child|now apply weight_nested]). lia.
    - apply (own_mandatory r' c); [|exact Hin]. destruct Hc; [now apply (own_child r)|now apply (own_nested r)]. }
  apply (rule_matches_intro D' (node_satisfies E D') r (f p) n' Hn').
  - now apply satisfies_kept.
  - intros H. destruct (Hel H) as [He Hc]. split; [now rewrite <- (element_kept n n' Hs)|].
    destruct (children_of n) as [|c cs] eqn:Ec; [congruence|]. destruct (child_kept 0 p n n' c Hn Hn') as [c' [Hc' _]]; [now rewrite Ec|].
    intros H0. rewrite H0 in Hc'. destruct (index p 0); discriminate.
  - intros c Hc. apply IHc; [now left|]. now apply Hch.
  - intros c Hc Hm. destruct (Hne c Hc Hm) as (q & Hq & Hemb). exists (f q). split; [now apply (elements_kept n)|]. apply IHc; [now right|exact Hemb].
Qed.

Theorem matches_kept r p : own_conditions r -> matching r p -> matching' r (f p).
Proof. apply (matches_kept_at (S (weight r))). apply Nat.lt_succ_diag_r. Qed.

(** ** Lists *)

Lemma elements_from_in T pp i m q : In q (elements_from T pp i m) <-> exists k t, i <= k < i + m /\ nget T (k :: pp) = Some t /\ In q (elements t (k :: pp)).
Proof.
  unfold elements_from. rewrite in_flat_map. split.
  - intros [k [Hk Hq]]. apply in_seq in Hk. destruct (nget T (k :: pp)) as [t|] eqn:Ht; [|destruct Hq]. exists k, t. auto.
  - intros (k & t & Hk & Ht & Hq). exists k. split; [now apply in_seq|]. now rewrite Ht.
Qed.

Definition list_kept (L L' : npath * nat * nat) : Prop :=
  let '(q, s, m) := L in let '(q', s', m') := L' in
  q' = f q /\ forall k, s <= k < s + m -> nget D (k :: q) <> None -> s' <= index q k < s' + m'.

Lemma seen_kept i pp par par' k : nget D (i :: pp) <> None -> nget D pp = Some par -> nget D' (f pp) = Some par' ->
  i <= k < i + siblings_seen par i -> nget D (k :: pp) <> None ->
  index pp i <= index pp k < index pp i + siblings_seen par' (index pp i).
Proof.
  intros Hi Hp Hp' Hk Hn. destruct (kept _ _ Hp) as [par2 [Hp2 Hs]]. rewrite Hp' in Hp2. injection Hp2 as <-.
  unfold siblings_seen in *. rewrite <- (element_kept par par' Hs). destruct (is_element par).
  - assert (Hle : index pp i <= index pp k) by (apply index_le; [exact Hn|lia]). split; [exact Hle|].
    destruct (nget D (k :: pp)) as [c|] eqn:Hc; [|congruence]. cbn [nget] in Hc. rewrite Hp in Hc.
    destruct (child_kept k pp par par' c Hp Hp' Hc) as [c' [Hc' _]]. assert (index pp k < length (children_of par')) by (apply nth_error_Some; congruence). lia.
  - assert (k = i) as -> by lia. lia.
Qed.

Lemma lists_kept i pp L : nget D (i :: pp) <> None -> In L (lists_searched D i pp) ->
  exists L', In L' (lists_searched D' (index pp i) (f pp)) /\ list_kept L L'.
Proof.
  intros Hi. unfold lists_searched. destruct (nget D pp) as [par|] eqn:Hp; [|intros []]. destruct (kept pp par Hp) as [par' [Hp' Hs]]. rewrite Hp'.
  intros [<-|HL].
  - eexists. split; [now left|]. split; [reflexivity|]. intros k Hk Hn. now apply (seen_kept i pp par par').
  - apply in_map_iff in HL as [q [<- Hq]]. apply elements_from_in in Hq as (k & t & Hk & Ht & Hq).
    destruct (kept _ _ Ht) as [t' [Ht' Hst]].
    assert (Hkn : nget D (k :: pp) <> None) by congruence.
    exists (f q, 0, child_count D' (f q)). split.
    + right. apply in_map_iff. exists (f q). split; [reflexivity|]. apply elements_from_in. exists (index pp k), t'.
      split; [now apply (seen_kept i pp par par')|]. rewrite <- (index_at pp k Hkn). split; [exact Ht'|]. now apply (elements_kept t).
    + split; [reflexivity|]. intros j Hj Hn. split; [lia|]. cbn [Nat.add]. unfold child_count.
      destruct (nget D q) as [nq|] eqn:Hnq; [|now apply above in Hn]. destruct (kept _ _ Hnq) as [nq' [Hnq' _]]. rewrite Hnq'.
      destruct (nget D (j :: q)) as [c|] eqn:Hc; [|congruence]. cbn [nget] in Hc. rewrite Hnq in Hc.
      destruct (child_kept j q nq nq' c Hnq Hnq' Hc) as [c' [Hc' _]]. apply nth_error_Some. congruence.
Qed.

Lemma embeds_kept R L L' ks : own_conditions R -> list_kept L L' -> embeds E D R L ks -> embeds E D' R L' (map (index (fst (fst L))) ks).
Proof.
  destruct L as [[q s] m], L' as [[q' s'] m']. intros HO [-> HL] (HF & HS). cbn [fst]. split.
  - assert (HM : forall r, In r (mandatory_of R) -> own_conditions r) by (intros r; now apply own_mandatory). clear HS.
    induction HF as [|r k l ks [Hk Hr] HF IH]; [constructor|]. cbn [map]. pose proof (match_exists _ _ Hr) as Hn. constructor.
    + split; [now apply HL|]. rewrite <- (index_at q k Hn). apply matches_kept; [apply HM; now left|exact Hr].
    + apply IH. intros r' Hr'. apply HM. now right.
  - apply sorted_kept; [|exact HS]. clear HS. induction HF as [|r k l ks [Hk Hr] HF IH]; constructor; [exact (match_exists _ _ Hr)|exact IH].
Qed.

Lemma embeds_nodes R L ks : embeds E D R L ks -> Forall (fun k => nget D (k :: fst (fst L)) <> None) ks.
Proof.
  destruct L as [[q s] m]. intros [HF _]. cbn [fst]. induction HF as [|r k l ks [Hk Hr] HF IH]; constructor; [exact (match_exists _ _ Hr)|exact IH].
Qed.

Lemma apart_kept R L kss : Forall (embeds E D R L) kss -> apart kss -> apart (map (map (index (fst (fst L)))) kss).
Proof.
  induction kss as [|ks kss IH]; intros HF Ha; [exact I|]. inversion HF as [|? ? H1 H2]; subst. destruct Ha as [Ha Ha']. cbn [map apart]. split; [|now apply IH].
  intros ks' k k' Hks' Hk Hk'. apply in_map_iff in Hks' as [js [<- Hjs]]. apply in_map_iff in Hk as [i [<- Hi]]. apply in_map_iff in Hk' as [j [<- Hj]].
  rewrite Forall_forall in H2. pose proof (embeds_nodes R L js (H2 js Hjs)) as Hn. rewrite Forall_forall in Hn. apply index_lt; [now apply Hn|]. now apply (Ha js).
Qed.

Lemma most_kept R L L' G G' : own_conditions R -> list_kept L L' -> reached E D R L G -> most_groups E D' R L' G' -> length G <= length G'.
Proof.
  intros HO HL (kss & HF & Ha & <-) [_ HM]. rewrite <- (map_length (map (index (fst (fst L)))) kss). apply HM.
  - apply Forall_forall. intros ks Hks. apply in_map_iff in Hks as [js [<- Hjs]]. rewrite Forall_forall in HF. apply (embeds_kept R L L'); auto.
  - now apply (apart_kept R L).
Qed.

Lemma lists_distinct i pp : NoDup (map (fun L => fst (fst L)) (lists_searched D i pp)).
Proof.
  unfold lists_searched. destruct (nget D pp) as [par|]; [|constructor]. cbn [map fst]. rewrite map_map. cbn [fst]. rewrite map_id. constructor.
  - intros H. apply elements_from_suffix in H as [k [Hk Hne]]. apply (f_equal (@length nat)) in Hk. rewrite app_length in Hk. destruct k; [congruence|]. cbn [length] in Hk. lia.
  - apply elements_from_nodup.
Qed.

Lemma lists_exist i pp L : In L (lists_searched D i pp) -> nget D (fst (fst L)) <> None.
Proof.
  unfold lists_searched. destruct (nget D pp) as [par|] eqn:Hp; [|intros []]. intros [<-|HL]; [cbn [fst]; congruence|].
  apply in_map_iff in HL as [q [<- Hq]]. cbn [fst]. apply elements_from_in in Hq as (k & t & _ & Ht & Hq).
  destruct (elements_below D t _ q Ht Hq) as (_ & t' & _ & H & _). congruence.
Qed.
End Grow.

(** ** Sums *)

Lemma sum_le {A B} (rel : A -> B -> Prop) : forall (xs : list (A * nat)) (ys : list (B * nat)),
  NoDup (map fst xs) ->
  (forall x n, In (x, n) xs -> exists y, rel x y /\ In y (map fst ys) /\ forall m, In (y, m) ys -> n <= m) ->
  (forall x x' y, In x (map fst xs) -> In x' (map fst xs) -> rel x y -> rel x' y -> x = x') ->
  list_sum (map snd xs) <= list_sum (map snd ys).
Proof.
  induction xs as [|[x n] xs IH]; intros ys HN HE HI; [apply Nat.le_0_l|]. cbn [map fst] in *. inversion HN as [|? ? Hx HN']; subst.
  destruct (HE x n (or_introl eq_refl)) as (y & Hy & Hin & Hle). apply in_map_iff in Hin as [[y0 m] [E0 Hin]]. cbn [fst] in E0. subst y0.
  pose proof (Hle m Hin) as Hnm. apply in_split in Hin as (a & b & ->).
  assert (IH' : list_sum (map snd xs) <= list_sum (map snd (a ++ b))).
  { apply IH; [exact HN'| |].
    - intros x' n' Hx'. destruct (HE x' n' (or_intror Hx')) as (y' & H1 & H2 & H3). exists y'. split; [exact H1|].
      assert (Hne : y' <> y).
      { intros ->. apply Hx. assert (Hxx : In x' (map fst xs)) by exact (in_map fst _ _ Hx').
        rewrite (HI x x' y (or_introl eq_refl) (or_intror Hxx) Hy H1). exact Hxx. }
      split.
      + rewrite map_app in H2 |- *. cbn [map fst] in H2. apply in_app_or in H2 as [H2|[H2|H2]]; apply in_or_app; auto. congruence.
      + intros m' Hm'. apply H3. apply in_app_or in Hm' as [Hm'|Hm']; apply in_or_app; [now left|right; now right].
    - intros a1 a2 y' H1 H2. apply HI; now right. }
  rewrite map_app, list_sum_app in IH' |- *. cbn [map snd list_sum fold_right] in *. unfold list_sum in *. cbn [fold_right]. lia.
Qed.

Lemma concat_length {A} (l : list (list A)) : length (concat l) = list_sum (map (@length A) l).
Proof. induction l as [|x l IH]; [reflexivity|]. cbn [concat map]. rewrite app_length, IH. reflexivity. Qed.

Lemma per_list_sum {A} (P : A -> list MatchingNodes -> Prop) Ls Gs : Forall2 P Ls Gs ->
  exists xs : list (A * nat), map fst xs = Ls /\ map snd xs = map (@length MatchingNodes) Gs /\
    forall L n, In (L, n) xs -> exists G, P L G /\ n = length G.
Proof.
  induction 1 as [|L G Ls Gs H HF (xs & H1 & H2 & H3)]; [exists []; repeat split; intros ? ? []|].
  exists ((L, length G) :: xs). cbn [map fst snd]. split; [now f_equal|]. split; [now f_equal|]. intros L0 n [H0|H0]; [injection H0 as <- <-; eauto|auto].
Qed.

Theorem groups_kept : forall E R D D' f i pp t t' n n' gs gs',
  placed D D' f -> own_conditions R -> nget D (i :: pp) = Some t -> nget D' (f (i :: pp)) = Some t' ->
  search_yields E R D (Some (i :: pp)) n (Ok gs) -> search_yields E R D' (Some (f (i :: pp))) n' (Ok gs') ->
  mandatory_of R <> [] -> ~ lone_greedy R -> length gs <= length gs'.
Proof.
  intros E R D D' f i pp t t' n n' gs gs' Hf HO Ht Ht' HS HS' Hm Hl.
  assert (Hi : nget D (i :: pp) <> None) by congruence.
  rewrite (index_at D D' f Hf pp i Hi) in Ht', HS'.
  destruct (search_reached E R D i pp t n gs Ht HS Hm) as (Gs & -> & HG).
  destruct (search_most E R D' _ _ t' n' gs' Ht' HS' Hm Hl) as (Gs' & -> & HG').
  destruct (per_list_sum _ _ _ HG) as (xs & X1 & X2 & X3). destruct (per_list_sum _ _ _ HG') as (ys & Y1 & Y2 & Y3).
  rewrite !concat_length, <- X2, <- Y2. apply (sum_le (list_kept D f)).
  - rewrite X1. apply (NoDup_map_inv (fun L => fst (fst L))). apply lists_distinct.
  - intros L k HL. destruct (X3 L k HL) as (G & HP & ->). assert (HLin : In L (lists_searched D i pp)) by (rewrite <- X1; exact (in_map fst _ _ HL)).
    destruct (lists_kept D D' f Hf i pp L Hi HLin) as (L' & HL' & HK). exists L'. split; [exact HK|]. split; [rewrite Y1; exact HL'|].
    intros m Hm'. destruct (Y3 L' m Hm') as (G' & HP' & ->). exact (most_kept E D D' f Hf R L L' G G' HO HK HP HP').
  - rewrite X1. intros L1 L2 L' H1 H2 K1 K2.
    assert (Hq : fst (fst L1) = fst (fst L2)).
    { apply (f_inj D D' f Hf); [now apply (lists_exist D i pp)|now apply (lists_exist D i pp)|].
      destruct L1 as [[q1 s1] m1], L2 as [[q2 s2] m2], L' as [[q' s'] m']. cbn [fst]. destruct K1 as [K1 _], K2 as [K2 _]. congruence. }
    clear - H1 H2 Hq. pose proof (lists_distinct D i pp) as HN. revert HN H1 H2. induction (lists_searched D i pp) as [|L Ls IH]; intros HN H1 H2; [destruct H1|].
    cbn [map] in HN. inversion HN as [|? ? Hn HN']; subst. destruct H1 as [-> |H1], H2 as [-> |H2]; auto.
    + exfalso. apply Hn. rewrite Hq. exact (in_map (fun L => fst (fst L)) _ _ H2).
    + exfalso. apply Hn. rewrite <- Hq. exact (in_map (fun L => fst (fst L)) _ _ H1).
Qed.

Theorem recursive_kept : forall E R D D' f rp r p t n n' F F' b inner inner' k k',
  placed D D' f -> own_conditions r -> rget R rp = Some r -> nget D p = Some t ->
  RuleMatchesNodeRecursive R D (Rule_matches E D) F (Some rp) (Some p) n = Ok (true, inner, k) ->
  RuleMatchesNodeRecursive R D' (Rule_matches E D') F' (Some rp) (Some (f p)) n' = Ok (b, inner', k') -> b = true.
Proof.
  intros E R D D' f rp r p t n n' F F' b inner inner' k k' Hf HO Hr Hp H H'. destruct (kept D D' f Hf p t Hp) as [t' [Hp' _]].
  apply (recursive_match E R D F rp r p t n _ _ _ Hr Hp) in H. apply (recursive_match E R D' F' rp r (f p) t' n' _ _ _ Hr Hp') in H'.
  apply H'. apply (matches_kept E D D' f Hf r p HO). now apply H.
Qed.

Theorem nodes_kept : forall E R D D' f i pp t t' n n' gs gs' p,
  placed D D' f -> own_conditions R -> nget D (i :: pp) = Some t -> nget D' (f (i :: pp)) = Some t' ->
  search_yields E R D (Some (i :: pp)) n (Ok gs) -> search_yields E R D' (Some (f (i :: pp))) n' (Ok gs') ->
  r_next R = None -> r_optional R = false -> In ([], p) (concat gs) -> In ([], f p) (concat gs').
Proof.
  intros E R D D' f i pp t t' n n' gs gs' p Hf HO Ht Ht' HS HS' Hn Ho Hin.
  assert (Hi : nget D (i :: pp) <> None) by congruence.
  rewrite (index_at D D' f Hf pp i Hi) in Ht', HS'.
  destruct (lists_complete E R D i pp t n gs Ht HS) as (Gs & -> & HG).
  assert (X : per_list D' (index f pp i) (f pp) gs' (fun L G => exists ks, all_matching E D' L R ks /\ forall k, In k ks -> exists g, In g G /\ In ([], k :: fst (fst L)) g)).
  { destruct (r_greedy R) eqn:Hg.
    - destruct (lists_single_greedy E R D' _ _ t' n' gs' Ht' HS' Hn Ho Hg) as (Gs' & -> & HG'). exists Gs'. split; [reflexivity|].
      clear - HG'. induction HG' as [|L G Ls Gs (ks & Hk & HG) H IH]; constructor; [|exact IH]. exists ks. split; [exact Hk|]. intros k Hin.
      destruct ks as [|k0 ks]; [destruct Hin|]. destruct G as [|g [|g' G]]; try discriminate HG. injection HG as HG.
      exists g. split; [now left|]. apply (own_in g 0). rewrite HG. exact (in_map (fun k => ([] : rpath, k :: fst (fst L))) _ _ Hin).
    - destruct (lists_single E R D' _ _ t' n' gs' Ht' HS' Hn Ho Hg) as (Gs' & -> & HG'). exists Gs'. split; [reflexivity|].
      clear - HG'. induction HG' as [|L G Ls Gs (ks & Hk & HG) H IH]; constructor; [|exact IH]. exists ks. split; [exact Hk|]. intros k Hin.
      assert (Y : In [([] : rpath, k :: fst (fst L))] (map own G)) by (rewrite HG; exact (in_map (fun k => [([] : rpath, k :: fst (fst L))]) _ _ Hin)).
      apply in_map_iff in Y as (g & Hg & Hin'). exists g. split; [exact Hin'|]. apply (own_in g 0). rewrite Hg. now left. }
  destruct X as (Gs' & -> & HG').
  assert (Y : exists q s m k, In (q, s, m) (lists_searched D i pp) /\ p = k :: q /\ s <= k < s + m /\ rule_matches D (node_satisfies E D) R (k :: q)).
  { clear HS HS' HG'. revert HG Hin. generalize (lists_searched D i pp) as Ls. induction Gs as [|G Gs IH]; intros Ls HG Hin; [destruct Hin|].
    inversion HG as [|L ? Ls' ? HL HG']; subst. cbn [concat] in Hin. rewrite concat_app in Hin. apply in_app_or in Hin as [Hin|Hin].
    - apply in_concat in Hin as (g & Hg & Hin). unfold complete_groups in HL. rewrite Forall_forall in HL. specialize (HL g Hg). destruct L as [[q s] m].
      destruct HL as (tt & Hown & _ & Hr & _). apply (own_in g 0) in Hin. rewrite Hown in Hin. apply in_map_iff in Hin as ([j k] & Hjk & Hin). cbn [fst snd] in Hjk.
      injection Hjk as Hj Hk. apply (repeat_next j 0) in Hj. subst j p. destruct (Hr 0 k Hin) as (_ & Hsk & HM).
      assert (HR : rule_at R 0 = R) by (unfold rule_at; destruct R; reflexivity). rewrite HR in HM.
      exists q, s, m, k. split; [now left|]. auto.
    - destruct (IH Ls' HG' Hin) as (q & s & m & k & H1 & H2). exists q, s, m, k. split; [now right|exact H2]. }
  destruct Y as (q & s & m & k & HL & -> & Hk & HM).
  destruct (lists_kept D D' f Hf i pp _ Hi HL) as (L' & HL' & HK).
  pose proof (match_exists E D R _ HM) as Hq. rewrite (index_at D D' f Hf q k Hq).
  pose proof (matches_kept E D D' f Hf R _ HO HM) as HM'. rewrite (index_at D D' f Hf q k Hq) in HM'.
  destruct L' as [[q' s'] m']. destruct HK as [-> HK].
  clear - HG' HL' HK HM' Hk Hq. revert HG' HL'. generalize (lists_searched D' (index f pp i) (f pp)) as Ls.
  induction Gs' as [|G Gs IH]; intros Ls HG HL; inversion HG as [|L ? Ls' ? H1 H2]; subst; [destruct HL|].
  cbn [concat]. rewrite concat_app. apply in_or_app. destruct HL as [-> |HL]; [left|right; now apply (IH Ls')].
  destruct H1 as (ks & [_ Hks] & Hfound). destruct (Hfound (index f q k)) as (g & Hg & Hin).
  { apply Hks. split; [now apply HK|exact HM']. }
  apply in_concat. exists g. split; [exact Hg|exact Hin].
Qed.

(** ** Grown documents *)

Lemma nget_snoc T i : forall p, nget T (p ++ [i]) = match nth_error (children_of T) i with Some c => nget c p | None => None end.
Proof.
  induction p as [|k p IH]; cbn [app nget]; [now destruct (nth_error (children_of T) i)|]. rewrite IH. now destruct (nth_error (children_of T) i).
Qed.

Lemma same_kind_refl n : same_kind n n.
Proof. destruct n; cbn; auto. Qed.

Lemma placed_same n : placed n n (fun p => p).
Proof.
  split; [|split].
  - intros p m H. exists m. split; [exact H|apply same_kind_refl].
  - intros i p _. now exists i.
  - intros i j p i' j' _ Hi H1 H2. injection H1 as <-. injection H2 as <-. exact Hi.
Qed.

Definition below_map (at_ : nat -> nat) (fs : nat -> npath -> npath) (p : npath) : npath :=
  match rev p with [] => [] | i :: r => fs i (rev r) ++ [at_ i] end.

Lemma below_map_snoc at_ fs p i : below_map at_ fs (p ++ [i]) = fs i p ++ [at_ i].
Proof. unfold below_map. rewrite rev_app_distr. cbn [rev app]. now rewrite rev_involutive. Qed.

Definition children_placed (l l' : list node) (at_ : nat -> nat) (fs : nat -> npath -> npath) : Prop :=
  (forall i j, j < length l -> i < j -> at_ i < at_ j) /\
  (forall i c, nth_error l i = Some c -> exists c', nth_error l' (at_ i) = Some c' /\ fs i [] = [] /\ placed c c' (fs i)).

Lemma placed_children n n' at_ fs : same_kind n n' -> children_placed (children_of n) (children_of n') at_ fs -> placed n n' (below_map at_ fs).
Proof.
  intros Hs [Hlt Hc]. split; [|split].
  - intros p m. destruct p as [|i p _] using rev_ind; [intros H; injection H as <-; now exists n'|]. rewrite nget_snoc, below_map_snoc, nget_snoc.
    destruct (nth_error (children_of n) i) as [c|] eqn:Ec; [|discriminate]. destruct (Hc i c Ec) as [c' [-> [_ [H _]]]]. apply H.
  - intros k p. destruct p as [|i p _] using rev_ind.
    + intros H. change [k] with ([] ++ [k]) in *. rewrite nget_snoc in H. rewrite below_map_snoc. destruct (nth_error (children_of n) k) as [c|] eqn:Ec; [|congruence].
      destruct (Hc k c Ec) as [c' [_ [-> _]]]. exists (at_ k). reflexivity.
    + rewrite app_comm_cons, nget_snoc, !below_map_snoc. destruct (nth_error (children_of n) i) as [c|] eqn:Ec; [|congruence].
      destruct (Hc i c Ec) as [c' [_ [_ [_ [H _]]]]]. intros Hk. destruct (H k p Hk) as [i' ->]. exists i'. reflexivity.
  - intros k j p i' j'. destruct p as [|i p _] using rev_ind.
    + intros H Hkj. change [j] with ([] ++ [j]) in *. change [k] with ([] ++ [k]). rewrite nget_snoc in H. rewrite !below_map_snoc.
      destruct (nth_error (children_of n) j) as [c|] eqn:Ec; [|congruence]. assert (Hj : j < length (children_of n)) by (apply nth_error_Some; congruence).
      destruct (nth_error (children_of n) k) as [d|] eqn:Ed; [|apply nth_error_None in Ed; lia].
      destruct (Hc j c Ec) as [_ [_ [-> _]]]. destruct (Hc k d Ed) as [_ [_ [-> _]]]. cbn [app]. intros H1 H2. injection H1 as <-. injection H2 as <-. now apply Hlt.
    + rewrite !app_comm_cons, nget_snoc, !below_map_snoc. destruct (nth_error (children_of n) i) as [c|] eqn:Ec; [|congruence].
      destruct (Hc i c Ec) as [c' [_ [_ [_ [H3 H]]]]]. intros Hj Hkj H1 H2.
      assert (Hk : nget c (k :: p) <> None) by exact (index_before c p j Hj k Hkj).
      destruct (H3 k p Hk) as [a Ha]. destruct (H3 j p Hj) as [b Hb]. rewrite Ha in H1. rewrite Hb in H2. injection H1 as <-. injection H2 as <-.
      exact (H k j p a b Hj Hkj Ha Hb).
Qed.

Scheme grown_ind2 := Minimality for grown Sort Prop
  with grown_children_ind2 := Minimality for grown_children Sort Prop.

Theorem grown_placed D D' : grown D D' -> exists f, f [] = [] /\ placed D D' f.
Proof.
  intros H. pattern D, D'. revert D D' H.
  apply (grown_ind2 (fun D D' => exists f, f [] = [] /\ placed D D' f) (fun l l' => exists at_ fs, children_placed l l' at_ fs)).
  - intros n. exists (fun p => p). split; [reflexivity|apply placed_same].
  - intros t orig attrs cs cs' _ (at_ & fs & H). exists (below_map at_ fs). split; [reflexivity|]. apply placed_children; [cbn; auto|exact H].
  - intros b x y z cs cs' _ (at_ & fs & H). exists (below_map at_ fs). split; [reflexivity|]. apply placed_children; [exact I|exact H].
  - exists (fun i => i), (fun _ p => p). split; [intros i j Hj; cbn [length] in Hj; lia|]. intros [|i] c Hc; discriminate Hc.
  - intros n l l' _ (at_ & fs & [H1 H2]). exists (fun i => S (at_ i)), fs. split.
    + intros i j Hj Hi. specialize (H1 i j Hj Hi). lia.
    + intros i c Hc. exact (H2 i c Hc).
  - intros n n' l l' _ (f & Hf0 & Hf) _ (at_ & fs & [H1 H2]).
    exists (fun i => match i with 0 => 0 | S i' => S (at_ i') end), (fun i => match i with 0 => f | S i' => fs i' end). split.
    + intros [|i] [|j] Hj Hi; cbn [length] in Hj; try lia. specialize (H1 i j). lia.
    + intros [|i] c Hc; cbn [nth_error] in *; [injection Hc as <-; exists n'; auto|]. exact (H2 i c Hc).
Qed.

(** Pages with one element at the top. *)
Theorem pages_kept : forall E R b x y z e e' n n' gs gs',
  grown e e' -> own_conditions R ->
  search_yields E R (NDocument b x y z [e]) (Some [0]) n (Ok gs) -> search_yields E R (NDocument b x y z [e']) (Some [0]) n' (Ok gs') ->
  mandatory_of R <> [] -> ~ lone_greedy R -> length gs <= length gs'.
Proof.
  intros E R b x y z e e' n n' gs gs' HG HO HS HS' Hm Hl.
  destruct (grown_placed (NDocument b x y z [e]) (NDocument b x y z [e'])) as (f & H0 & Hf).
  { apply grown_document, grown_kept; [exact HG|apply grown_none]. }
  assert (Hf0 : f [0] = [0]).
  { destruct Hf as [H1 [H2 _]]. destruct (H2 0 [] ltac:(discriminate)) as [a Ha]. rewrite H0 in Ha. destruct (H1 [0] e eq_refl) as [m [Hm' _]].
    rewrite Ha in Hm'. destruct a as [|a]; [exact Ha|destruct a; discriminate Hm']. }
  apply (groups_kept E R (NDocument b x y z [e]) (NDocument b x y z [e']) f 0 [] e e' n n' gs gs' Hf HO eq_refl); try assumption; rewrite Hf0; [reflexivity|exact HS'].
Qed.
