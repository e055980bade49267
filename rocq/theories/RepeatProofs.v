(** Proofs about repetitions in results (C82). *)

From Coq Require Import Ascii String Arith NArith ZArith Bool List Lia Sorted Permutation.
From Verif Require Import Base Dom Values Match Rule RuleMatching RuleProofs GroupSpec GroupFacts MatchSpec MatchProofs MatchRefine
  ExtractSpec ExtractProofs SearchSpec SearchFacts ExtractMain DepthSpec CostSpec RepeatSpec.
Import ListNotations.

(** ** Counting *)

Notation occ := (fun l x => count_occ pair_dec l x).

Lemma occ_app l l' x : occ (l ++ l') x = occ l x + occ l' x.
Proof. apply count_occ_app. Qed.

Lemma occ_flat {A} (f : A -> list (rpath * npath)) l x : occ (flat_map f l) x = sum (map (fun a => occ (f a) x) l).
Proof. induction l as [|a l IH]; [reflexivity|]. cbn [flat_map map]. unfold sum in *. cbn [fold_right]. rewrite occ_app, IH. reflexivity. Qed.

Lemma occ_zero l x : ~ In x l -> occ l x = 0.
Proof. apply count_occ_not_In. Qed.

Lemma sum_bound {A K} (key : A -> K) (f : A -> nat) B S l : NoDup (map key l) ->
  (forall a, In a l -> f a <> 0 -> f a <= B /\ In (key a) S) -> sum (map f l) <= length S * B.
Proof.
  intros HN H.
  assert (HP : sum (map f l) <= length (map key (filter (fun a => negb (f a =? 0)) l)) * B).
  { clear HN. unfold sum. induction l as [|a l IH]; [apply Nat.le_0_l|]. cbn [map fold_right filter].
    assert (IH' : fold_right Nat.add 0 (map f l) <= length (map key (filter (fun a => negb (f a =? 0)) l)) * B).
    { apply IH. intros b Hb. apply H. now right. }
    destruct (f a =? 0) eqn:Ea; cbn [negb].
    - apply Nat.eqb_eq in Ea. lia.
    - apply Nat.eqb_neq in Ea. destruct (H a (or_introl eq_refl) Ea) as [Hb _]. cbn [map length]. lia. }
  eapply Nat.le_trans; [exact HP|]. apply Nat.mul_le_mono_r. apply NoDup_incl_length.
  - clear H HP. induction l as [|a l IH]; [constructor|]. cbn [map filter] in *. apply NoDup_cons_iff in HN as [Ha HN].
    destruct (f a =? 0); cbn [negb]; [auto|]. cbn [map]. constructor; [|auto]. intros Hi. apply Ha.
    apply in_map_iff in Hi as [b [Hb Hi]]. apply filter_In in Hi as [Hi _]. rewrite <- Hb. now apply in_map.
  - intros k Hk. apply in_map_iff in Hk as [a [<- Ha]]. apply filter_In in Ha as [Ha Hf]. apply H; [exact Ha|].
    intros E0. rewrite E0 in Hf. discriminate.
Qed.

Lemma occ_pos l x : occ l x <> 0 -> In x l.
Proof. intros H. apply (count_occ_In pair_dec). lia. Qed.

(** ** The elements of a tree *)

Lemma elements_suffix t : forall p q, In q (elements t p) -> exists k, q = k ++ p.
Proof.
  induction t as [t IH] using node_ind2. intros p q Hq. rewrite elements_unfold in Hq.
  destruct t as [|tg o a cs| | | | |]; try destruct Hq as [].
  - exists []. auto.
  - apply elements_list_in in H as [i [c [Hc Hin]]]. rewrite Forall_forall in IH.
    destruct (IH c (nth_error_In _ _ Hc) _ _ Hin) as [k ->]. exists (k ++ [0 + i]). now rewrite <- app_assoc.
Qed.

Lemma suffix_child (k k' : list nat) i j (p : npath) : k ++ i :: p = k' ++ j :: p -> i = j.
Proof.
  intros H. assert (H' : (k ++ [i]) ++ p = (k' ++ [j]) ++ p) by (rewrite <- !app_assoc; exact H).
  apply app_inv_tail, app_inj_tail in H'. tauto.
Qed.

Lemma NoDup_app_intro {A} (l l' : list A) : NoDup l -> NoDup l' -> (forall x, In x l -> ~ In x l') -> NoDup (l ++ l').
Proof.
  induction l as [|a l IH]; intros H1 H2 H; [exact H2|]. apply NoDup_cons_iff in H1 as [Ha H1]. cbn [app]. constructor.
  - intros Hi. apply in_app_or in Hi as [Hi|Hi]; [contradiction|]. exact (H a (or_introl eq_refl) Hi).
  - apply IH; auto. intros x Hx. apply H. now right.
Qed.

Lemma elements_nodup t : forall p, NoDup (elements t p).
Proof.
  induction t as [t IH] using node_ind2. intros p. rewrite elements_unfold.
  destruct t as [|tg o a cs| | | | |]; try constructor.
  - intros Hi. apply elements_list_in in Hi as [i [c [Hc Hin]]]. apply elements_suffix in Hin as [k Hk].
    apply (f_equal (@length nat)) in Hk. rewrite app_length in Hk. cbn [length] in Hk. lia.
  - cbn [children_of] in IH. generalize 0 as s. induction cs as [|c cs IHc]; intros s; cbn [elements_list]; [constructor|].
    inversion IH as [|? ? H1 H2]; subst. apply NoDup_app_intro; [apply H1|apply IHc; exact H2|].
    intros x Hx Hy. apply elements_suffix in Hx as [k ->]. apply elements_list_in in Hy as [i [c' [Hc' Hin]]].
    apply elements_suffix in Hin as [k' Hk]. apply suffix_child in Hk. lia.
Qed.

Section Repeat.
Variable D : node.
Variable satisfies : rule -> npath -> Prop.

Lemma elements_from_nodup pp : forall n i, NoDup (elements_from D pp i n).
Proof.
  unfold elements_from. induction n as [|n IH]; intros i; cbn [seq flat_map]; [constructor|].
  apply NoDup_app_intro; [destruct (nget D (i :: pp)); [apply elements_nodup|constructor]|apply IH|].
  intros x Hx Hy. apply in_flat_map in Hy as [k [Hk Hy]]. apply in_seq in Hk.
  destruct (nget D (i :: pp)); [|destruct Hx]. destruct (nget D (k :: pp)); [|destruct Hy].
  apply elements_suffix in Hx as [a ->]. apply elements_suffix in Hy as [b Hb]. apply suffix_child in Hb. lia.
Qed.

Lemma elements_from_suffix pp i n q : In q (elements_from D pp i n) -> exists k, q = k ++ pp /\ k <> [].
Proof.
  intros H. apply in_flat_map in H as [j [_ H]]. destruct (nget D (j :: pp)); [|destruct H].
  apply elements_suffix in H as [k ->]. exists (k ++ [j]). rewrite <- app_assoc. split; [reflexivity|]. now destruct k.
Qed.

(** ** One list of siblings *)

Lemma ordered_nodup t : ordered t -> NoDup (map snd t).
Proof.
  induction 1 as [|x t HS IH HF]; cbn [map]; constructor; [|exact IH].
  intros Hi. apply in_map_iff in Hi as [y [Hy Hi]]. rewrite Forall_forall in HF. specialize (HF y Hi). lia.
Qed.

Lemma disjoint_nodup ts : disjoint_increasing ts -> Forall ordered ts -> NoDup (map snd (concat ts)).
Proof.
  induction ts as [|t ts IH]; intros HD HF; [constructor|]. cbn [concat]. rewrite map_app. destruct HD as [H1 H2].
  inversion HF as [|? ? Ho HF']; subst. apply NoDup_app_intro; [now apply ordered_nodup|auto|].
  intros x Hx Hy. apply in_map_iff in Hx as [a [<- Ha]]. apply in_map_iff in Hy as [b [Hb Hy]].
  apply in_concat in Hy as [t' [Ht' Hy]]. specialize (H1 t' a b Ht' Ha Hy). lia.
Qed.

Lemma optional_lower rules n o g M : forall lo ts, are_optional_groups rules n o g M lo ts ->
  forall j i, In (j, i) (concat ts) -> lo <= i.
Proof.
  intros lo ts H. induction H as [lo HG|lo t HG Hne Hl|lo t i ts HG Hgr Hno HR IH]; intros j x Hx; cbn [concat] in Hx.
  - destruct Hx.
  - rewrite app_nil_r in Hx. destruct (is_group_candidate _ _ _ _ _ _ _ _ _ _ HG Hx) as [_ [H _]]. lia.
  - apply in_app_or in Hx as [Hx|Hx]; [destruct (is_group_candidate _ _ _ _ _ _ _ _ _ _ HG Hx) as [_ [H _]]; lia|].
    assert (Hi : In (rules - 1, i) t) by (apply nodes_of_in; rewrite Hno; now left).
    destruct (is_group_candidate _ _ _ _ _ _ _ _ _ _ HG Hi) as [_ [H _]]. apply IH in Hx. lia.
Qed.

Lemma optional_disjoint rules n o g M : forall lo ts, are_optional_groups rules n o g M lo ts -> disjoint_increasing ts.
Proof.
  intros lo ts H. induction H as [lo HG|lo t HG Hne Hl|lo t i ts HG Hgr Hno HR IH]; [exact I|split; [intros ? ? ? []|exact I]|].
  split; [|exact IH]. intros t' [j x] [j' y] Ht' Hx Hy. cbn [snd].
  assert (Hy' : S i <= y).
  { assert (HI : In (j', y) (concat ts)) by (apply in_concat; eauto).
    exact (optional_lower _ _ _ _ _ _ _ HR _ _ HI). }
  assert (Hi : In (rules - 1, i) t) by (apply nodes_of_in; rewrite Hno; now left).
  destruct HG as [_ [_ [Ho [Hrl _]]]]. pose proof (Hrl _ _ Hx) as Hj.
  assert (x <= i); [|lia].
  clear - Ho Hx Hi Hj Hno. destruct (Nat.eq_dec j (rules - 1)) as [-> |Hn].
  - assert (In x (nodes_of (rules - 1) t)) by now apply nodes_of_in. rewrite Hno in H. destruct H as [->|[]]. lia.
  - clear Hno. induction Ho as [|z t HS IH HF]; [destruct Hx|]. rewrite Forall_forall in HF.
    destruct Hx as [-> |Hx], Hi as [Hi|Hi].
    + injection Hi as -> ->. lia.
    + specialize (HF _ Hi). cbn in HF. lia.
    + subst z. specialize (HF _ Hx). cbn in HF. lia.
    + auto.
Qed.

Lemma positions_once c q s n ts : sibling_groups D satisfies c q s n ts -> NoDup (map snd (concat ts)).
Proof.
  intros H. apply disjoint_nodup.
  - destruct (mandatory_of c) as [|f ms] eqn:Em.
    + unfold sibling_groups in H. rewrite Em in H. eapply optional_disjoint; exact H.
    + assert (Hm : mandatory_of c <> []) by congruence. destruct (opts_mandatory c Hm) as [f' [ms' Em']].
      exact (are_groups_disjoint D satisfies c f' ms' 0 ts n q s Em' (with_mandatory D satisfies c _ _ _ _ Hm H)).
  - apply Forall_forall. intros t Ht. unfold sibling_groups in H. destruct (mandatory_of c).
    + destruct (are_optional_groups_each _ _ _ _ _ _ _ _ H Ht) as [lo [js HG]]. apply HG.
    + destruct (are_groups_each _ _ _ _ _ _ _ _ H Ht) as [lo [js HG]]. apply HG.
Qed.

(** ** Addresses *)

Definition childs (b : rpath) : nat := length (filter (fun st => match st with RChild => true | _ => false end) b).

Lemma braces_app a b : braces (a ++ b) = braces a + braces b.
Proof. unfold braces. now rewrite filter_app, app_length. Qed.
Lemma childs_app a b : childs (a ++ b) = childs a + childs b.
Proof. unfold childs. now rewrite filter_app, app_length. Qed.
Lemma braces_next j : braces (repeat RNext j) = 0.
Proof. induction j; [reflexivity|assumption]. Qed.
Lemma childs_next j : childs (repeat RNext j) = 0.
Proof. induction j; [reflexivity|assumption]. Qed.

Lemma address_own b st j j' (rp : rpath) : repeat RNext j ++ rp = b ++ st :: repeat RNext j' ++ rp -> st = RNext.
Proof.
  intros H. change (repeat RNext j ++ rp = b ++ (st :: repeat RNext j') ++ rp) in H. rewrite app_assoc in H.
  apply app_inv_tail in H. apply (repeat_spec j RNext). rewrite H. apply in_or_app. right. now left.
Qed.

Lemma layout_perm o inner pair t : forall seen gap,
  Permutation (layout o inner pair seen gap t)
    (gap ++ flat_map (fun x => inner (fst x) (snd x) ++ [pair (fst x) (snd x)]) t).
Proof.
  induction t as [|[j i] t IH]; intros seen gap; cbn [layout flat_map fst snd]; [now rewrite app_nil_r|].
  destruct (negb (o j) && _).
  - rewrite (IH (Some j) []). rewrite <- !app_assoc. cbn [app]. apply Permutation_app_swap_app.
  - rewrite (IH seen). now rewrite <- !app_assoc.
Qed.

Notation pairs_below := (pairs_below D satisfies).

Definition below_ok (r : rule) : Prop := forall rp p m, pairs_below rp r p m -> forall a q, In (a, q) m ->
  exists b st ks, a = b ++ st :: rp /\ st <> RNext /\ q = ks ++ p /\ ks <> [] /\
    (braces (b ++ [st]) = 0 -> length ks = childs (b ++ [st])) /\ occ m (a, q) <= length ks ^ pred (braces (b ++ [st])).

Definition groups_ok (c : rule) : Prop := forall rp pp s n gs, pair_groups D satisfies pairs_below rp c pp s n gs ->
  forall a q, In (a, q) (concat gs) ->
  exists b ks, a = b ++ rp /\ q = ks ++ pp /\ ks <> [] /\
    (braces b = 0 -> length ks = S (childs b)) /\ occ (concat gs) (a, q) <= length ks ^ pred (braces b).

Lemma nodup_groups c : (forall r, In r (chain c) -> below_ok r) -> groups_ok c.
Proof.
  intros HB rp pp s n gs [ts [inner [Hts [Hin ->]]]] a q Ha.
  pose proof (positions_once _ _ _ _ _ Hts) as HN.
  set (F := fun x : nat * nat => inner (fst x) (snd x) ++ [(address rp (fst x), s + snd x :: pp)]).
  assert (HP : Permutation (concat (map (layout (fun j => r_optional (rule_at c j)) inner (fun j i => (address rp j, s + i :: pp)) None []) ts))
                 (flat_map F (concat ts))).
  { clear. induction ts as [|t ts IH]; [constructor|]. cbn [map concat]. rewrite flat_map_app. apply Permutation_app; [|exact IH].
    apply layout_perm. }
  pose proof (Permutation_in _ HP Ha) as Hf. apply in_flat_map in Hf as [[j i] [Hji Hf]].
  assert (Hoc : forall x, occ (concat (map (layout (fun j => r_optional (rule_at c j)) inner (fun j i => (address rp j, s + i :: pp)) None []) ts)) x
                = sum (map (fun y => occ (F y) x) (concat ts))).
  { intros x. rewrite <- occ_flat. now apply (Permutation_count_occ pair_dec). }
  assert (HBj : forall j, below_ok (rule_at c j)).
  { intros k. apply HB. unfold rule_at. destruct (Nat.lt_ge_cases k (length (chain c))) as [Hk|Hk]; [now apply nth_In|].
    rewrite nth_overflow by exact Hk. destruct c; now left. }
  assert (Hpair : forall x y : rpath * npath, x <> y -> occ [x] y = 0).
  { intros x y H. apply occ_zero. intros [->|[]]. now apply H. }
  rewrite Hoc. unfold F in Hf. cbn [fst snd] in Hf. apply in_app_or in Hf as [Hf|[Hf|[]]].
  - destruct (HBj j _ _ _ (Hin _ _ Hji) a q Hf) as [b [st [ks [-> [Hst [-> [Hne [Hd Hc]]]]]]]].
    exists (b ++ st :: repeat RNext j), (ks ++ [s + i]). unfold address.
    split; [now rewrite <- app_assoc|]. split; [now rewrite <- app_assoc|]. split; [now destruct ks|].
    change (b ++ st :: repeat RNext j) with (b ++ [st] ++ repeat RNext j). rewrite app_assoc, braces_app, childs_app, braces_next, childs_next, !Nat.add_0_r.
    rewrite app_length. cbn [length]. split; [intros H0; rewrite <- Hd by exact H0; lia|].
    replace (length ks + 1) with (S (length ks)) by lia.
    set (B := length ks ^ pred (braces (b ++ [st]))) in *.
    eapply Nat.le_trans; [apply (sum_bound snd _ B [i]); [exact HN|]|].
    + intros [j' i'] Hji' Hz. cbn [fst snd] in *. apply occ_pos in Hz. unfold F in Hz. cbn [fst snd] in Hz.
      assert (Ei : i' = i /\ (b ++ st :: address rp j, ks ++ s + i :: pp) <> (address rp j', s + i' :: pp)).
      { assert (Hno : (b ++ st :: address rp j, ks ++ s + i :: pp) <> (address rp j', s + i' :: pp)).
        { intros [= H1 _]. unfold address in H1. symmetry in H1. apply address_own in H1. now apply Hst. }
        split; [|exact Hno]. apply in_app_or in Hz as [Hz|[Hz|[]]]; [|now elim Hno].
        destruct (HBj j' _ _ _ (Hin _ _ Hji') _ _ Hz) as [b' [st' [ks' [H1 [_ [H2 _]]]]]]. apply suffix_child in H2. lia. }
      destruct Ei as [-> Hno]. split; [|now left]. unfold F. cbn [fst snd]. rewrite occ_app, Hpair by (intros H0; apply Hno; symmetry; exact H0).
      apply in_app_or in Hz as [Hz|[Hz|[]]]; [|now elim Hno].
      destruct (HBj j' _ _ _ (Hin _ _ Hji') _ _ Hz) as [b' [st' [ks' [H1 [_ [H2 [_ [_ H3]]]]]]]].
      apply app_inv_tail in H2. subst ks'. rewrite Nat.add_0_r. eapply Nat.le_trans; [exact H3|]. unfold B.
      assert (Hbr : braces (b' ++ [st']) = braces (b ++ [st])).
      { apply (f_equal braces) in H1. unfold address in H1.
        change (b ++ st :: repeat RNext j ++ rp) with (b ++ [st] ++ repeat RNext j ++ rp) in H1.
        change (b' ++ st' :: repeat RNext j' ++ rp) with (b' ++ [st'] ++ repeat RNext j' ++ rp) in H1.
        rewrite !braces_app, !braces_next in H1. rewrite !braces_app. lia. }
      rewrite Hbr. lia.
    + cbn [length]. unfold B. rewrite Nat.mul_1_l. apply Nat.pow_le_mono_l. lia.
  - injection Hf as <- <-. exists (repeat RNext j), [s + i]. split; [reflexivity|]. split; [reflexivity|]. split; [discriminate|].
    rewrite braces_next, childs_next. split; [reflexivity|]. cbn [pred Nat.pow].
    eapply Nat.le_trans; [apply (sum_bound snd _ 1 [i]); [exact HN|]|cbn; lia].
    intros [j' i'] Hji' Hz. cbn [fst snd] in *. apply occ_pos in Hz. unfold F in Hz. cbn [fst snd] in Hz.
    assert (Hno : ~ In (address rp j, s + i :: pp) (inner j' i')).
    { intros H. destruct (HBj j' _ _ _ (Hin _ _ Hji') _ _ H) as [b' [st' [ks' [H1 [H2 _]]]]].
      apply address_own in H1. now apply H2. }
    apply in_app_or in Hz as [Hz|[Hz|[]]]; [contradiction|]. injection Hz as Hj Hi. split; [|left; lia].
    unfold F. cbn [fst snd]. rewrite occ_app, occ_zero by exact Hno. cbn [count_occ].
    destruct (pair_dec _ _); lia.
Qed.

Lemma skipn_app_length {A} (l l' : list A) : skipn (length l) (l ++ l') = l'.
Proof. induction l; [reflexivity|assumption]. Qed.

(** ** Several lists *)

Lemma nodup_lists c rp base (Ls : list (npath * nat * nat)) gss : groups_ok c ->
  NoDup (map (fun L => fst (fst L)) Ls) -> (forall L, In L Ls -> exists k, fst (fst L) = k ++ base) ->
  Forall2 (fun (L : npath * nat * nat) g => pair_groups D satisfies pairs_below rp c (fst (fst L)) (snd (fst L)) (snd L) g) Ls gss ->
  forall a q, In (a, q) (concat (concat gss)) ->
  exists b ks, a = b ++ rp /\ q = ks ++ base /\ ks <> [] /\ occ (concat (concat gss)) (a, q) <= length ks ^ braces b.
Proof.
  intros HG HN HL HF a q Hin.
  set (Z := combine Ls gss).
  assert (HZ : map fst Z = Ls /\ concat (concat gss) = flat_map (fun z => concat (snd z)) Z /\
    forall z, In z Z -> In (fst z) Ls /\ pair_groups D satisfies pairs_below rp c (fst (fst (fst z))) (snd (fst (fst z))) (snd (fst z)) (snd z)).
  { unfold Z. clear HN HL Hin. induction HF as [|L g Ls gss HP HF IH]; [repeat split; try reflexivity; destruct H|].
    cbn [combine map concat flat_map fst snd]. destruct IH as [I1 [I2 I3]]. split; [now rewrite I1|]. split; [now rewrite concat_app, I2|].
    intros z [<-|Hz]; [split; [now left|exact HP]|]. destruct (I3 z Hz). split; [now right|assumption]. }
  destruct HZ as [Z1 [Z2 Z3]]. rewrite Z2 in *.
  assert (HK : NoDup (map (fun z => fst (fst (fst z))) Z)).
  { rewrite <- Z1, map_map in HN. exact HN. }
  assert (Hone : forall z, In z Z -> In (a, q) (concat (snd z)) -> exists b ks k, a = b ++ rp /\ q = ks ++ fst (fst (fst z)) /\
    fst (fst (fst z)) = k ++ base /\ ks <> [] /\ (braces b = 0 -> length ks = S (childs b)) /\ occ (concat (snd z)) (a, q) <= length ks ^ pred (braces b)).
  { intros z Hz Hi. destruct (Z3 z Hz) as [H1 H2]. destruct (HL _ H1) as [k Hk].
    destruct (HG _ _ _ _ _ H2 _ _ Hi) as [b [ks [A1 [A2 [A3 [A4 A5]]]]]]. exists b, ks, k. repeat split; auto. }
  apply in_flat_map in Hin as [z [Hz Hi]]. destruct (Hone z Hz Hi) as [b [ks0 [k [-> [Hq [Hk [Hne _]]]]]]].
  exists b, (ks0 ++ k). split; [reflexivity|]. split; [rewrite Hq, Hk; now rewrite <- app_assoc|]. split; [now destruct ks0|].
  rewrite occ_flat. set (len := length (ks0 ++ k)).
  set (S0 := if braces b =? 0 then [skipn (S (childs b)) q] else map (fun x => skipn (S x) q) (seq 0 len)).
  eapply Nat.le_trans; [apply (sum_bound (fun z => fst (fst (fst z))) _ (len ^ pred (braces b)) S0); [exact HK|]|].
  - intros z' Hz' Hp. apply occ_pos in Hp. destruct (Hone z' Hz' Hp) as [b' [ks' [k' [Hb [Hq' [Hk' [Hne' [Hd Hc]]]]]]]].
    apply app_inv_tail in Hb. subst b'.
    assert (Hlen : length ks' <= len).
    { rewrite Hq, Hk, Hk', !app_assoc in Hq'. apply app_inv_tail in Hq'. unfold len. rewrite Hq', app_length. lia. }
    split; [eapply Nat.le_trans; [exact Hc|now apply Nat.pow_le_mono_l]|].
    assert (Hs : fst (fst (fst z')) = skipn (length ks') q) by (rewrite Hq'; now rewrite skipn_app_length).
    unfold S0. destruct (braces b =? 0) eqn:Eb.
    + apply Nat.eqb_eq in Eb. left. rewrite <- Hd by exact Eb. now symmetry.
    + apply in_map_iff. exists (pred (length ks')). destruct ks' as [|x ks']; [now elim Hne'|]. cbn [length pred] in *.
      split; [now symmetry|]. apply in_seq. lia.
  - unfold S0. destruct (braces b) as [|m] eqn:Eb; cbn [Nat.eqb pred Nat.pow length]; [lia|].
    rewrite map_length, seq_length. lia.
Qed.

(** ** All rules *)

Lemma last_step (b b' : rpath) st st' rp : b ++ st :: rp = b' ++ st' :: rp -> st = st'.
Proof.
  intros H. assert (H' : (b ++ [st]) ++ rp = (b' ++ [st']) ++ rp) by (rewrite <- !app_assoc; exact H).
  apply app_inv_tail, app_inj_tail in H'. tauto.
Qed.

Lemma nodup_below r : forall r', In r' (chain r) -> below_ok r'.
Proof.
  induction r as [c nx l ms cs t o g name IHc IHn IHl] using rule_ind2. intros r' Hr'. cbn [chain] in Hr'.
  destruct Hr' as [<-|Hr']; [|destruct nx as [nx|]; [exact (IHn nx eq_refl r' Hr')|destruct Hr']].
  intros rp p m HB. inversion HB as [rp' r0 p' n child nested Hn Hc0 Hc1 HF E1 E2 E3 E4]. subst rp' r0 p' m. clear HB.
  cbn [r_child r_nested] in *.
  set (Z := combine (combine (seq 0 (length l)) l) nested).
  assert (HZ : map (fun z => fst (fst z)) Z = seq 0 (length l) /\ concat nested = flat_map snd Z /\
    forall z, In z Z -> In (snd (fst z)) l /\ exists gs, groups_in D satisfies pairs_below (RNested (fst (fst z)) :: rp) (snd (fst z)) (elements n p) gs /\ snd z = concat gs).
  { unfold Z. revert HF. clear. generalize 0 as a, nested as ns. induction l as [|r l IH]; intros a ns HF; cbn [length seq combine] in *.
    - inversion HF. repeat split; try reflexivity; destruct H.
    - inversion HF as [|? m ? ns' Hm HF' E1 E2]; subst. destruct (IH (S a) ns' HF') as [I1 [I2 I3]].
      cbn [combine map concat flat_map fst snd]. split; [now rewrite I1|]. split; [now rewrite I2|].
      intros z [<-|Hz]; [split; [now left|exact Hm]|]. destruct (I3 z Hz). split; [now right|assumption]. }
  destruct HZ as [Z1 [Z2 Z3]]. rewrite Z2 in *.
  assert (HK : NoDup (map (fun z => fst (fst z)) Z)) by (rewrite Z1; apply seq_NoDup).
  assert (HC : forall a q, In (a, q) child -> exists b ks, a = b ++ RChild :: rp /\ q = ks ++ p /\ ks <> [] /\
    (braces b = 0 -> length ks = S (childs b)) /\ occ child (a, q) <= length ks ^ pred (braces b)).
  { destruct c as [c|]; [|rewrite Hc0 by reflexivity; intros a q []].
    destruct (Hc1 c eq_refl) as [gs [HG ->]]. intros a q Hi. exact (nodup_groups c (IHc c eq_refl) _ _ _ _ _ HG a q Hi). }
  assert (HNst : forall z, In z Z -> forall a q, In (a, q) (snd z) -> exists b ks, a = b ++ RNested (fst (fst z)) :: rp /\ q = ks ++ p /\ ks <> [] /\
    occ (snd z) (a, q) <= length ks ^ braces b).
  { intros z Hz a q Hi. destruct (Z3 z Hz) as [Hl [gs [[gss [HG ->]] Hs]]]. rewrite Hs in *. rewrite Forall_forall in IHl.
    apply (nodup_lists (snd (fst z)) _ p (map (fun e => (e, 0, child_count D e)) (elements n p)) gss); [|rewrite map_map; cbn [fst]; rewrite map_id; apply elements_nodup| | |exact Hi].
    - exact (nodup_groups _ (IHl _ Hl)).
    - intros L HL. apply in_map_iff in HL as [e [<- He]]. cbn [fst]. now apply elements_suffix in He.
    - clear - HG. induction HG; cbn [map]; constructor; auto. }
  intros a q Hi. rewrite occ_app, occ_flat. apply in_app_or in Hi as [Hi|Hi].
  - destruct (HC a q Hi) as [b [ks [-> [-> [Hne [Hd Hb]]]]]]. exists b, RChild, ks. split; [reflexivity|]. split; [discriminate|].
    split; [reflexivity|]. split; [exact Hne|]. rewrite braces_app, childs_app. cbn. rewrite !Nat.add_0_r. split; [intros H0; rewrite (Hd H0); lia|].
    rewrite <- (Nat.add_0_r (length ks ^ pred (braces b))). apply Nat.add_le_mono; [exact Hb|].
    eapply Nat.le_trans; [apply (sum_bound (fun z => fst (fst z)) _ 0 []); [exact HK|]|cbn; lia].
    intros z Hz Hp. exfalso. apply occ_pos in Hp. destruct (HNst z Hz _ _ Hp) as [b' [ks' [H _]]]. apply last_step in H. discriminate.
  - apply in_flat_map in Hi as [z [Hz Hi]]. destruct (HNst z Hz a q Hi) as [b [ks [-> [-> [Hne Hb]]]]].
    exists b, (RNested (fst (fst z))), ks. split; [reflexivity|]. split; [discriminate|]. split; [reflexivity|]. split; [exact Hne|].
    rewrite braces_app, childs_app. cbn. rewrite Nat.add_0_r, Nat.add_comm. cbn [Nat.add pred]. split; [discriminate|].
    rewrite occ_zero by (intros H; destruct (HC _ _ H) as [b' [ks' [H1 _]]]; apply last_step in H1; discriminate).
    eapply Nat.le_trans; [apply (sum_bound (fun z => fst (fst z)) _ (length ks ^ braces b) [fst (fst z)]); [exact HK|]|cbn; lia].
    intros z' Hz' Hp. apply occ_pos in Hp. destruct (HNst z' Hz' _ _ Hp) as [b' [ks' [H1 [H2 [_ H3]]]]].
    apply app_inv_tail in H2. subst ks'. pose proof (last_step _ _ _ _ _ H1) as H4. injection H4 as H4.
    split; [|left; exact H4]. rewrite <- H4 in H1. apply app_inv_tail in H1. subst b'. exact H3.
Qed.

Theorem occurrences_bound R i pp gs : search_result D satisfies R i pp gs ->
  (forall a q, In (a, q) (concat gs) -> exists ks, q = ks ++ pp /\ ks <> []) /\
  forall a ks, occurrences gs a (ks ++ pp) <= length ks ^ braces a.
Proof.
  intros [par [g0 [gs' [Hpar [H0 [[gss [HG ->]] ->]]]]]].
  assert (HF : Forall2 (fun (L : npath * nat * nat) g => pair_groups D satisfies pairs_below [] R (fst (fst L)) (snd (fst L)) (snd L) g)
    ((pp, i, siblings_seen par i) :: map (fun e => (e, 0, child_count D e)) (elements_from D pp i (siblings_seen par i))) (g0 :: gss)).
  { constructor; [exact H0|]. clear - HG. induction HG; cbn [map]; constructor; auto. }
  assert (HL : forall a q, In (a, q) (concat (concat (g0 :: gss))) ->
    exists b ks, a = b ++ [] /\ q = ks ++ pp /\ ks <> [] /\ occ (concat (concat (g0 :: gss))) (a, q) <= length ks ^ braces b).
  { apply (nodup_lists R [] pp _ _ (nodup_groups R (nodup_below R))) with (3 := HF).
    - cbn [map fst]. rewrite map_map. cbn [fst]. rewrite map_id. constructor; [|apply elements_from_nodup].
      intros Hi. apply elements_from_suffix in Hi as [k [Hk Hne]]. apply (f_equal (@length nat)) in Hk. rewrite app_length in Hk.
      destruct k; [now apply Hne|cbn in Hk; lia].
    - intros L [<-|HL]; [exists []; reflexivity|]. apply in_map_iff in HL as [e [<- He]]. cbn [fst].
      apply elements_from_suffix in He as [k [-> _]]. eauto. }
  cbn [concat] in HL. split.
  - intros a q Hi. destruct (HL a q Hi) as [b [ks [_ [H1 [H2 _]]]]]. eauto.
  - intros a ks. unfold occurrences.
    destruct (in_dec pair_dec (a, ks ++ pp) (concat (g0 ++ concat gss))) as [Hi|Hi].
    + destruct (HL _ _ Hi) as [b [ks' [-> [H1 [_ H2]]]]]. apply app_inv_tail in H1. subst ks'. rewrite app_nil_r in *. exact H2.
    + eapply Nat.le_trans; [|apply Nat.le_0_l]. apply Nat.eq_le_incl. exact (proj1 (count_occ_not_In pair_dec _ _) Hi).
Qed.

Theorem once R i pp gs : without_nested R -> search_result D satisfies R i pp gs -> NoDup (concat gs).
Proof.
  intros HR HS. destruct (occurrences_bound R i pp gs HS) as [H1 H2]. apply (NoDup_count_occ pair_dec). intros [a q].
  destruct (in_dec pair_dec (a, q) (concat gs)) as [Hi|Hi]; [|eapply Nat.le_trans; [apply Nat.eq_le_incl; exact (proj1 (count_occ_not_In pair_dec _ _) Hi)|apply Nat.le_0_l]].
  destruct (H1 a q Hi) as [ks [-> _]]. specialize (H2 a ks). unfold occurrences in H2.
  assert (Hb : braces a = 0).
  { destruct (search_pairs D satisfies R i pp gs HS _ Hi) as [r [Hr _]]. cbn [fst] in Hr. clear - HR Hr. revert r Hr.
    induction a as [|st a IH]; intros r Hr; [reflexivity|]. cbn [rget] in Hr. destruct (rget R a) as [r0|] eqn:E0; [|discriminate].
    destruct st; cbn in *; try (apply (IH r0 eq_refl)). exfalso. rewrite (HR r0) in Hr by (exists a; exact E0). destruct k; discriminate. }
  rewrite Hb in H2. exact H2.
Qed.

End Repeat.

(** ** The number of values *)

Lemma sum_app l l' : sum (l ++ l') = sum l + sum l'.
Proof. unfold sum. induction l as [|a l IH]; cbn; [reflexivity|]. rewrite IH. lia. Qed.

Lemma sum_occ {A} (dec : forall x y : A, {x = y} + {x <> y}) (f : A -> nat) l l' : incl l l' ->
  sum (map f l) <= sum (map (fun y => count_occ dec l y * f y) l').
Proof.
  induction l as [|x l IH]; intros H; [apply Nat.le_0_l|].
  assert (IH' : sum (map f l) <= sum (map (fun y => count_occ dec l y * f y) l')) by (apply IH; intros y Hy; apply H; now right).
  assert (HX : f x + sum (map (fun y => count_occ dec l y * f y) l') <= sum (map (fun y => count_occ dec (x :: l) y * f y) l')).
  { pose proof (H x (or_introl eq_refl)) as Hx. clear - Hx. unfold sum. induction l' as [|y l' IH]; [destruct Hx|].
    assert (HC : forall z, count_occ dec l z <= count_occ dec (x :: l) z) by (intros z; cbn [count_occ]; destruct (dec x z); lia).
    assert (HM : forall m, fold_right Nat.add 0 (map (fun y => count_occ dec l y * f y) m) <= fold_right Nat.add 0 (map (fun y => count_occ dec (x :: l) y * f y) m)).
    { induction m as [|z m IHm]; [apply Nat.le_refl|]. cbn [map fold_right]. apply Nat.add_le_mono; [|exact IHm].
      apply Nat.mul_le_mono_r, HC. }
    cbn [map fold_right]. destruct Hx as [Hx|Hx].
    - subst y. specialize (HM l'). rewrite (count_occ_cons_eq dec l (eq_refl x)) at 1. cbn [Nat.mul]. lia.
    - specialize (IH Hx). pose proof (Nat.mul_le_mono_r _ _ (f y) (HC y)). lia. }
  unfold sum in *. cbn [map fold_right]. lia.
Qed.

Fixpoint all_paths (t : node) (p : npath) : list npath :=
  p :: match t with
       | NDocument _ _ _ _ cs | NElement _ _ _ cs | NTemplate _ _ _ cs =>
           (fix go (l : list node) (i : nat) : list npath :=
              match l with [] => [] | c :: l' => all_paths c (i :: p) ++ go l' (S i) end) cs 0
       | _ => []
       end.
Fixpoint paths_list (l : list node) (i : nat) (p : npath) : list npath :=
  match l with [] => [] | c :: l' => all_paths c (i :: p) ++ paths_list l' (S i) p end.

Lemma all_paths_unfold t p : all_paths t p = p :: paths_list (children_of t) 0 p.
Proof.
  assert (HG : forall cs i, (fix go (l : list node) (i : nat) : list npath :=
              match l with [] => [] | c :: l' => all_paths c (i :: p) ++ go l' (S i) end) cs i = paths_list cs i p).
  { induction cs as [|c cs IH]; intros i; cbn; [reflexivity|]. now rewrite IH. }
  destruct t; cbn [all_paths children_of]; rewrite ?HG; reflexivity.
Qed.

Lemma size_unfold t : document_size t = S (sum (map document_size (children_of t))).
Proof. destruct t; reflexivity. Qed.
Lemma levels_unfold t : document_levels t = S (largest (map document_levels (children_of t))).
Proof. destruct t; reflexivity. Qed.

Lemma all_paths_length t : forall p, length (all_paths t p) = document_size t.
Proof.
  induction t as [t IH] using node_ind2. intros p. rewrite all_paths_unfold, size_unfold. cbn [length]. f_equal.
  generalize 0 as i. induction (children_of t) as [|c cs IHc]; intros i; [reflexivity|]. inversion IH as [|? ? H1 H2]; subst.
  cbn [paths_list map]. rewrite app_length, H1, IHc by exact H2. reflexivity.
Qed.

Lemma paths_list_in l : forall s p i c, nth_error l i = Some c -> incl (all_paths c (s + i :: p)) (paths_list l s p).
Proof.
  induction l as [|x l IH]; intros s p [|i] c H; cbn in H; try discriminate; cbn [paths_list]; intros a Ha; apply in_or_app.
  - injection H as ->. left. now rewrite Nat.add_0_r in Ha.
  - right. apply (IH (S s) p i c H). now replace (S s + i) with (s + S i) by lia.
Qed.

Lemma nget_from t : forall k, nget t k <> None -> forall p, In (k ++ p) (all_paths t p) /\ length k < document_levels t.
Proof.
  induction t as [t IH] using node_ind2. intros k Hk p. rewrite all_paths_unfold, levels_unfold.
  destruct k as [|i k _] using rev_ind; [split; [now left|cbn; lia]|].
  assert (Hc : exists c, nth_error (children_of t) i = Some c /\ nget c k <> None).
  { clear - Hk. revert Hk. induction k as [|x k IH]; intros Hk.
    - cbn in Hk. destruct (nth_error (children_of t) i) as [c|] eqn:Ec; [|now elim Hk]. exists c. split; [reflexivity|discriminate].
    - cbn [app nget] in Hk. destruct (nget t (k ++ [i])) as [m|] eqn:Em; [|now elim Hk].
      destruct IH as [c [H1 H2]]; [discriminate|]. exists c. split; [exact H1|]. cbn [nget].
      assert (Hs : nget t (k ++ [i]) = nget c k).
      { clear - H1. induction k as [|y k IH]; cbn [app nget]; [rewrite H1; reflexivity|]. now rewrite IH. }
      rewrite <- Hs, Em. exact Hk. }
  destruct Hc as [c [Hc1 Hc2]]. rewrite Forall_forall in IH.
  destruct (IH c (nth_error_In _ _ Hc1) k Hc2 (i :: p)) as [H1 H2]. rewrite <- app_assoc. split.
  - right. exact (paths_list_in _ 0 p i c Hc1 _ H1).
  - rewrite app_length. cbn [length].
    assert (document_levels c <= largest (map document_levels (children_of t))); [|lia].
    clear - Hc1. unfold largest. revert i Hc1. induction (children_of t) as [|x cs IH]; intros [|i] H; cbn in H; try discriminate; cbn.
    + injection H as ->. lia.
    + specialize (IH _ H). lia.
Qed.

(** The addresses of all rules. *)
Fixpoint addresses (r : rule) (rp : rpath) : list rpath :=
  let 'mk_rule c nx l _ _ _ _ _ _ := r in
  rp :: (match c with Some c' => addresses c' (RChild :: rp) | None => [] end
  ++ (fix go (l : list rule) (k : nat) : list rpath :=
        match l with [] => [] | q :: l' => addresses q (RNested k :: rp) ++ go l' (S k) end) l 0
  ++ match nx with Some n' => addresses n' (RNext :: rp) | None => [] end).
Fixpoint addresses_list (l : list rule) (k : nat) (rp : rpath) : list rpath :=
  match l with [] => [] | q :: l' => addresses q (RNested k :: rp) ++ addresses_list l' (S k) rp end.

Lemma addresses_unfold r rp : addresses r rp =
  rp :: (match r_child r with Some c' => addresses c' (RChild :: rp) | None => [] end
  ++ addresses_list (r_nested r) 0 rp ++ match r_next r with Some n' => addresses n' (RNext :: rp) | None => [] end).
Proof.
  destruct r as [c nx l ms cs t o g name]. cbn [addresses r_child r_nested r_next].
  assert (HG : forall l k, (fix go (l : list rule) (k : nat) : list rpath :=
        match l with [] => [] | q :: l' => addresses q (RNested k :: rp) ++ go l' (S k) end) l k = addresses_list l k rp).
  { clear. induction l as [|q l IH]; intros k; cbn; [reflexivity|]. now rewrite IH. }
  now rewrite HG.
Qed.

Lemma addresses_list_in l : forall k rp j q, nth_error l j = Some q -> incl (addresses q (RNested (k + j) :: rp)) (addresses_list l k rp).
Proof.
  induction l as [|x l IH]; intros k rp [|j] q H; cbn in H; try discriminate; cbn [addresses_list]; intros a Ha; apply in_or_app.
  - injection H as ->. left. now rewrite Nat.add_0_r in Ha.
  - right. apply (IH (S k) rp j q H). now replace (S k + j) with (k + S j) by lia.
Qed.

Lemma step_addresses r st r' rp : rstep_get r st = Some r' -> incl (addresses r' (st :: rp)) (addresses r rp).
Proof.
  intros H a Ha. rewrite addresses_unfold. right. destruct st; cbn [rstep_get] in H.
  - rewrite H. apply in_or_app. now left.
  - rewrite H. apply in_or_app. right. apply in_or_app. now right.
  - apply in_or_app. right. apply in_or_app. left. exact (addresses_list_in _ 0 rp k r' H a Ha).
Qed.

Lemma rget_addresses R : forall a r, rget R a = Some r -> incl (addresses r a) (addresses R []).
Proof.
  induction a as [|st a IH]; intros r H; [injection H as <-; intros x Hx; exact Hx|].
  cbn [rget] in H. destruct (rget R a) as [r0|] eqn:E0; [|discriminate].
  intros x Hx. apply (IH r0 eq_refl). now apply (step_addresses r0 st r).
Qed.

Definition rule_captures (R : rule) (a : rpath) : nat :=
  match rget R a with Some r => length (present (r_captures r)) | None => 0 end.

Lemma addresses_captures R r : forall a, rget R a = Some r -> sum (map (rule_captures R) (addresses r a)) = capture_count r.
Proof.
  induction r as [c nx l ms cs t o g name IHc IHn IHl] using rule_ind2. intros a Ha. rewrite addresses_unfold.
  cbn [r_child r_nested r_next map]. rewrite !map_app. cbn [capture_count].
  change (sum (rule_captures R a :: ?l)) with (rule_captures R a + sum l).
  assert (H0 : rule_captures R a = length (present cs)) by (unfold rule_captures; now rewrite Ha).
  assert (H1 : sum (map (rule_captures R) match c with Some c' => addresses c' (RChild :: a) | None => [] end) = match c with Some c' => capture_count c' | None => 0 end).
  { destruct c as [c|]; [|reflexivity]. apply (IHc c eq_refl). cbn [rget]. now rewrite Ha. }
  assert (H3 : sum (map (rule_captures R) match nx with Some c' => addresses c' (RNext :: a) | None => [] end) = match nx with Some c' => capture_count c' | None => 0 end).
  { destruct nx as [nx|]; [|reflexivity]. apply (IHn nx eq_refl). cbn [rget]. now rewrite Ha. }
  assert (H2 : sum (map (rule_captures R) (addresses_list l 0 a)) = sum (map capture_count l)).
  { assert (HG : forall l' k, (forall j q, nth_error l' j = Some q -> nth_error l (k + j) = Some q) -> incl l' l ->
      sum (map (rule_captures R) (addresses_list l' k a)) = sum (map capture_count l')).
    { rewrite Forall_forall in IHl. induction l' as [|q l' IH]; intros k Hk Hi; [reflexivity|]. cbn [addresses_list map]. rewrite map_app, sum_app.
      change (sum (capture_count q :: ?m)) with (capture_count q + sum m).
      rewrite IH.
      - rewrite (IHl q (Hi q (or_introl eq_refl))); [reflexivity|]. cbn [rget]. rewrite Ha. cbn [rstep_get r_nested].
        specialize (Hk 0 q eq_refl). now rewrite Nat.add_0_r in Hk.
      - intros j x Hx. specialize (Hk (S j) x Hx). now replace (S k + j) with (k + S j) by lia.
      - intros x Hx. apply Hi. now right. }
    apply (HG l 0); [auto|intros x Hx; exact Hx]. }
  change (sum (rule_captures R a :: ?m)) with (rule_captures R a + sum m). rewrite !sum_app, H0, H1, H2, H3. lia.
Qed.

Lemma present_length {A} (l : list (option A)) : length (present l) <= length l.
Proof. unfold present. induction l as [|[x|] l IH]; cbn [flat_map app length]; lia. Qed.

Lemma captured_length E R D g values : captured E R D g values ->
  length values <= sum (map (fun x => rule_captures R (fst x)) g).
Proof.
  induction 1 as [|rp p r g values rest Hr Hv HC IH]; [apply Nat.le_0_l|]. cbn [map].
  change (sum (?a :: ?l)) with (a + sum l). rewrite app_length. apply Nat.add_le_mono; [|exact IH].
  cbn [fst]. unfold rule_captures. rewrite Hr. destruct Hv as [outs [HF ->]].
  assert (HL : length (present (r_captures r)) = length outs) by (clear - HF; induction HF; cbn; congruence).
  rewrite HL. apply present_length.
Qed.

Lemma map_of_length vs m : map_of vs m -> length m = length vs.
Proof. intros [_ [H _]]. now apply Permutation_length. Qed.

Lemma values_length vss : forall res, Forall2 map_of (filter nonempty_list vss) res -> value_count res = sum (map (@length result_pair) vss).
Proof.
  induction vss as [|vs vss IH]; intros res H; cbn [filter] in H; [inversion H; reflexivity|].
  destruct vs as [|v vs]; cbn [nonempty_list] in H; [exact (IH res H)|]. inversion H as [|? m ? res' H1 H2]; subst.
  unfold value_count in *. cbn [map]. change (sum (?a :: ?l)) with (a + sum l). rewrite (IH _ H2), (map_of_length _ _ H1). reflexivity.
Qed.

Lemma captured_lengths E R D gs vss : Forall2 (captured E R D) gs vss ->
  sum (map (@length result_pair) vss) <= sum (map (fun x => rule_captures R (fst x)) (concat gs)).
Proof.
  induction 1 as [|g vs gs vss H HF IH]; [apply Nat.le_0_l|]. cbn [map concat]. rewrite map_app, sum_app.
  change (sum (?a :: ?l)) with (a + sum l). apply Nat.add_le_mono; [exact (captured_length _ _ _ _ _ H)|exact IH].
Qed.

Lemma largest_in l x : In x l -> x <= largest l.
Proof. unfold largest. induction l as [|y l IH]; [intros []|]. intros [->|H]; cbn; [lia|]. specialize (IH H). lia. Qed.

Lemma braces_nestings R : forall a r, rget R a = Some r -> braces a + nestings r <= nestings R.
Proof.
  induction a as [|st a IH]; intros r H; [injection H as <-; cbn; lia|].
  cbn [rget] in H. destruct (rget R a) as [r0|] eqn:E0; [|discriminate]. specialize (IH r0 eq_refl).
  destruct r0 as [c nx l ms cs t o g name]. cbn [nestings] in IH. destruct st; cbn [rstep_get r_child r_next r_nested] in H.
  - subst c. change (braces (RChild :: a)) with (braces a). lia.
  - subst nx. change (braces (RNext :: a)) with (braces a). lia.
  - change (braces (RNested k :: a)) with (S (braces a)). apply nth_error_In in H.
    pose proof (largest_in _ _ (in_map (fun r' => S (nestings r')) _ _ H)). cbn beta in *. lia.
Qed.

Lemma sum_scale {A} (f : A -> nat) B l : sum (map (fun x => B * f x) l) = B * sum (map f l).
Proof. unfold sum. induction l as [|x l IH]; cbn [map fold_right]; [lia|]. rewrite IH. lia. Qed.

Lemma sum_prod {A C} (f : A -> nat) (l : list A) (m : list C) :
  sum (map (fun x => f (fst x)) (list_prod l m)) = sum (map f l) * length m.
Proof.
  induction l as [|a l IH]; [reflexivity|]. cbn [list_prod map]. rewrite map_app, sum_app, IH, map_map.
  change (sum (?x :: ?y)) with (x + sum y). cbn [fst].
  assert (H : sum (map (fun _ : C => f a) m) = f a * length m).
  { clear. unfold sum. induction m as [|c m IH]; cbn [map fold_right length]; [lia|]. rewrite IH. lia. }
  rewrite H. lia.
Qed.

Lemma sum_le {A} (f g : A -> nat) l : (forall x, In x l -> f x <= g x) -> sum (map f l) <= sum (map g l).
Proof.
  unfold sum. induction l as [|x l IH]; intros H; [apply Nat.le_refl|]. cbn [map fold_right].
  apply Nat.add_le_mono; [apply H; now left|apply IH; intros; apply H; now right].
Qed.

Theorem size_bound E R D i pp t n res :
  nget D (i :: pp) = Some t -> extract_yields E R D (Some (i :: pp)) n (Ok res) ->
  value_count res <= capture_count R * document_size D * document_levels D ^ nestings R.
Proof.
  intros Hp [f0 HY]. specialize (HY f0 (le_n _)).
  destruct (extract_describes E R D f0 i pp t n res Hp HY) as [gs [HS [vss [HC HR]]]].
  rewrite (values_length _ _ HR). eapply Nat.le_trans; [exact (captured_lengths _ _ _ _ _ HC)|].
  destruct (occurrences_bound D (node_satisfies E D) R i pp gs HS) as [HQ HO].
  assert (HI : forall x, In x (concat gs) -> In (fst x) (addresses R []) /\ nget D (snd x) <> None /\ exists r, rget R (fst x) = Some r).
  { intros x Hx. destruct (search_pairs D _ R i pp gs HS x Hx) as [r [Hr HM]]. split.
    - apply (rget_addresses R _ r Hr). rewrite addresses_unfold. now left.
    - split; [|eauto]. inversion HM as [r1 p1 n1 Hn1]; subst. congruence. }
  eapply Nat.le_trans; [apply (sum_occ pair_dec) with (l' := list_prod (addresses R []) (all_paths D []))|].
  { intros [a q] Hx. destruct (HI _ Hx) as [H1 [H2 _]]. cbn [fst snd] in *. apply in_prod; [exact H1|].
    rewrite <- (app_nil_r q). now apply nget_from. }
  eapply Nat.le_trans; [apply (sum_le _ (fun x => document_levels D ^ nestings R * rule_captures R (fst x)))|].
  { intros [a q] _. cbn [fst]. apply Nat.mul_le_mono_r.
    destruct (in_dec pair_dec (a, q) (concat gs)) as [Hi|Hi].
    - destruct (HQ a q Hi) as [ks [-> Hne]]. eapply Nat.le_trans; [exact (HO a ks)|].
      destruct (HI _ Hi) as [_ [Hq [r Hr]]]. cbn [fst snd] in *. pose proof (braces_nestings R a r Hr) as Hb.
      destruct (nget_from D _ Hq []) as [_ Hl]. rewrite app_length in Hl.
      eapply Nat.le_trans; [apply Nat.pow_le_mono_l; instantiate (1 := document_levels D); lia|].
      apply Nat.pow_le_mono_r; lia.
    - eapply Nat.le_trans; [apply Nat.eq_le_incl; exact (proj1 (count_occ_not_In pair_dec _ _) Hi)|apply Nat.le_0_l]. }
  rewrite (sum_scale (fun x : rpath * npath => rule_captures R (fst x))), sum_prod, all_paths_length, (addresses_captures R R []) by reflexivity.
  apply Nat.eq_le_incl. apply Nat.mul_comm.
Qed.
