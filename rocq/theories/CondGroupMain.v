(** The groups without the pairs of the rules below, whatever the conditions
    answer. *)

From Coq Require Import Ascii String NArith ZArith Arith Bool List Lia Sorted.
From Verif Require Import Base Dom Values Match Rule RuleMatching RuleProofs GroupSpec MatchSpec SearchSpec
  CaptureState CondState CondSpec CondGroupSpec CondGroups.
Import ListNotations.

Definition deep (m : MatchingNodes) : Prop := Forall (fun x : rpath * npath => forallb is_next (fst x) = false) m.

Lemma deep_own m : deep m -> own m = [].
Proof.
  induction 1 as [|x m Hx _ IH]; [reflexivity|]. unfold own in *. cbn [filter]. now rewrite Hx.
Qed.

Lemma address_repeat rp j : address rp j = repeat RNext j ++ rp.
Proof. reflexivity. Qed.

Lemma address_deep rp j : forallb is_next rp = false -> forallb is_next (address rp j) = false.
Proof. intros H. rewrite address_repeat. induction j as [|j IH]; [exact H|]. cbn [repeat app forallb is_next andb]. exact IH. Qed.

Lemma arranged_deep c rp pp : forallb is_next rp = false ->
  forall t sn gap, deep gap -> (forall x, In x t -> deep (inside x)) -> deep (arranged c rp pp sn gap t).
Proof.
  intros Hrp. induction t as [|[j i m] t IH]; intros sn gap Hg Ht; cbn [arranged]; [exact Hg|].
  assert (Hm : deep m) by exact (Ht (mk_find j i m) (or_introl eq_refl)).
  assert (Hp : deep [(address rp j, i :: pp)]) by (constructor; [now apply address_deep|constructor]).
  destruct (negb _ && negb _).
  - apply Forall_app. split; [exact Hm|]. apply Forall_app. split; [exact Hg|]. apply Forall_app. split; [exact Hp|].
    apply IH; [constructor|intros x Hx; apply Ht; now right].
  - apply IH; [|intros x Hx; apply Ht; now right]. apply Forall_app. split; [exact Hg|]. apply Forall_app. now split.
Qed.

Lemma concat_deep ms : Forall deep ms -> deep (concat ms).
Proof. induction 1 as [|m ms Hm _ IH]; [constructor|]. cbn [concat]. apply Forall_app. now split. Qed.

Section Found.
Variable R : rule.
Variable D : node.
Variable log : list entry.

Fixpoint found_deep rp p m (H : found R D log rp p m) {struct H} : deep m.
Proof.
  destruct H as [rp r p n child nested Hr Hn Hp He Hc0 Hc HN]. apply Forall_app. split.
  - destruct (r_child r) as [c|] eqn:Ec.
    + destruct (Hc c eq_refl) as (gs & (ts & _ & _ & Hf & ->) & -> & _).
      apply concat_deep. apply Forall_forall. intros g Hg.
      apply in_map_iff in Hg as (t & <- & Ht). apply arranged_deep; [reflexivity|constructor|].
      intros x Hx. exact (found_deep _ _ _ (Hf t x Ht Hx)).
    + rewrite (Hc0 eq_refl). constructor.
  - apply concat_deep. clear Hc. revert HN. generalize (combine (seq 0 (length (r_nested r))) (r_nested r)). intros l HN.
    revert l nested HN. fix IHN 3. intros l nested HN. destruct HN as [|kc m l nested Hm HN]; [constructor|].
    constructor; [|exact (IHN l nested HN)].
    destruct Hm as (gs & (gss & Hgs & ->) & -> & _). apply concat_deep.
    revert gss Hgs. generalize (elements n p). fix IHg 3. intros qs gss Hgs.
    destruct Hgs as [|q g qs gss Hg Hgs]; [constructor|]. cbn [concat]. apply Forall_app. split; [|exact (IHg qs gss Hgs)].
    destruct Hg as (ts & _ & _ & Hf & ->). apply Forall_forall. intros g Hg.
    apply in_map_iff in Hg as (t & <- & Ht). apply arranged_deep; [reflexivity|constructor|].
    intros x Hx. exact (found_deep _ _ _ (Hf t x Ht Hx)).
Qed.

Definition plain_pairs (t : list find) : list (nat * nat) := map (fun x => (rule_no x, node_no x)) t.

Lemma own_app a b : own (a ++ b) = own a ++ own b.
Proof. unfold own. apply filter_app. Qed.

Lemma own_pair j i q : own [(address [] j, i :: q)] = [(repeat RNext j, i :: q)].
Proof.
  rewrite address_repeat, app_nil_r. unfold own. cbn [filter fst].
  replace (forallb is_next (repeat RNext j)) with true; [reflexivity|]. symmetry.
  induction j as [|j IH]; [reflexivity|exact IH].
Qed.

Lemma arranged_own c q : forall t sn gap, (forall x, In x t -> deep (inside x)) ->
  own (arranged c [] q sn gap t) = own gap ++ pairs_at q (plain_pairs t).
Proof.
  induction t as [|[j i m] t IH]; intros sn gap Ht; cbn [arranged]; [now rewrite app_nil_r|].
  assert (Hm : own m = []) by exact (deep_own _ (Ht (mk_find j i m) (or_introl eq_refl))).
  assert (Ht' : forall x, In x t -> deep (inside x)) by (intros x Hx; apply Ht; now right).
  destruct (negb _ && negb _).
  - rewrite !own_app, Hm, own_pair, (IH _ [] Ht'). reflexivity.
  - rewrite (IH _ _ Ht'), !own_app, Hm, own_pair, <- !app_assoc. reflexivity.
Qed.

Lemma shape_asked q s n t : group_shape R s (s + n) t ->
  (forall x, In x t -> found R D log (address [] (rule_no x)) (node_no x :: q) (inside x)) ->
  asked_group R D log (q, s, n) (plain_pairs t).
Proof.
  intros (H1 & H2 & H3 & H4 & H5) Hf. unfold asked_group, plain_pairs. split; [now destruct t|].
  split.
  - clear - H2. induction H2 as [|x t Hs IH HF]; [constructor|]. cbn [map]. constructor; [exact IH|].
    rewrite Forall_map. eapply Forall_impl; [|exact HF]. intros y Hy. exact Hy.
  - split; [|split].
    + intros j k H. apply in_map_iff in H as (x & [= <- <-] & Hx). destruct (H3 x Hx) as [A B].
      split; [exact A|]. split; [exact B|]. specialize (Hf x Hx). rewrite address_repeat, app_nil_r in Hf. now inversion Hf.
    + intros j Hj Hm. unfold is_mandatory in Hm. apply negb_true_iff in Hm. destruct (H4 j Hj Hm) as (x & Hx & <-).
      exists (node_no x). apply in_map_iff. now exists x.
    + intros j k k' Ha Hb Hg. apply in_map_iff in Ha as (x & [= <- <-] & Hx). apply in_map_iff in Hb as (y & [= Ej <-] & Hy).
      rewrite (H5 x y Hx Hy (eq_sym Ej)); [reflexivity|]. unfold takes_all. rewrite Hg. try apply andb_false_r; auto.
Qed.

Lemma groups_asked q s n gs : found_groups (found R D log) [] R q s (s + n) gs -> asked_groups R D log (q, s, n) gs.
Proof.
  intros (ts & H1 & H2 & H3 & ->). exists (map plain_pairs ts). cbn [fst]. split; [|split].
  - rewrite !map_map. apply map_ext_in. intros t Ht. apply (arranged_own R q t None []).
    intros x Hx. exact (found_deep _ _ _ (H3 t x Ht Hx)).
  - clear - H2. induction ts as [|t ts IH]; [exact I|]. cbn [one_by_one map disjoint_increasing] in *. destruct H2 as [A B].
    split; [|now apply IH]. intros t' x y Ht' Hx Hy. apply in_map_iff in Ht' as (u & <- & Hu).
    apply in_map_iff in Hx as (x' & <- & Hx). apply in_map_iff in Hy as (y' & <- & Hy). exact (A u x' y' Hu Hx Hy).
  - rewrite Forall_map. rewrite Forall_forall in *. intros t Ht. apply shape_asked; [now apply H1|]. intros x Hx. now apply (H3 t).
Qed.

Lemma found_asked i pp gs : search_found R D log i pp gs -> per_list D i pp gs (asked_groups R D log).
Proof.
  intros (par & g0 & gs' & Hp & H0 & (gss & HF & ->) & ->). exists (g0 :: gss). split; [reflexivity|].
  unfold lists_searched. rewrite Hp. constructor; [now apply groups_asked|].
  clear H0. revert gss HF. induction (elements_from D pp i (siblings_seen par i)) as [|q qs IH]; intros gss HF.
  - inversion HF. constructor.
  - inversion HF as [|? g ? gss' Hg HF' E1 E2]; subst. cbn [map]. constructor; [now apply groups_asked|now apply IH].
Qed.

End Found.

Lemma search_asked W (act : match_action W) R D i pp t n w gs w' log :
  nget D (i :: pp) = Some t -> search_does act R D (Some (i :: pp)) n w (Ok gs, (w', log)) ->
  per_list D i pp gs (asked_groups R D log).
Proof. intros Ht H. apply found_asked. exact (search_shape W act R D i pp t n w gs w' log Ht H). Qed.
