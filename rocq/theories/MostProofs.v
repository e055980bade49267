(** The number of groups (C78). *)

From Coq Require Import Arith NArith Bool List Lia Sorted.
From Verif Require Import Base Dom Values Match Rule RuleMatching RuleProofs GroupAlg GroupSpec GroupFacts
  MatchSpec MatchProofs ExtractSpec ExtractProofs SpecUnique SearchSpec SearchFacts ExtractMain RewriteSpec MostSpec.
Import ListNotations.

Section Groups.
Variables rules nodes : nat.
Variables optional greedy : nat -> bool.
Variable matches : nat -> nat -> Prop.
Notation emb := (embedding rules nodes optional matches).
Variables (f : nat) (ms : list nat).
Hypothesis Em : mandatory_rules rules optional = f :: ms.
Hypothesis El : lone rules optional greedy = false.

Lemma emb_not_nil lo js : emb lo js -> js <> [].
Proof. intros [H _] ->. rewrite Em in H. inversion H. Qed.

Lemma emb_first lo js : emb lo js -> In (hd 0 js) js /\ matches f (hd 0 js).
Proof. intros [H _]. rewrite Em in H. inversion H as [|? i ? l [_ HM] _]; subst. split; [now left|exact HM]. Qed.

Lemma sorted_hd js x : StronglySorted lt js -> In x js -> hd 0 js <= x.
Proof.
  intros H. destruct H as [|a l H HF]; [intros []|]. cbn [hd In]. rewrite Forall_forall in HF. intros [-> |Hx]; [lia|]. specialize (HF x Hx). lia.
Qed.

Lemma sorted_last js x : StronglySorted lt js -> In x js -> x <= last js 0.
Proof.
  intros H. revert x. induction H as [|a l H IH HF]; [intros x []|]. intros x. rewrite Forall_forall in HF. destruct l as [|b l].
  - intros [-> |[]]. apply le_n.
  - change (last (a :: b :: l) 0) with (last (b :: l) 0). intros [<-|Hx]; [|now apply IH].
    pose proof (HF b (or_introl eq_refl)). pose proof (IH b (or_introl eq_refl)). lia.
Qed.

Lemma le_last js ks : Forall2 le js ks -> js <> [] -> last js 0 <= last ks 0.
Proof.
  intros H. induction H as [|a b js ks Hab H IH]; [easy|]. intros _. destruct H as [|a' b' js ks Hab' H]; [exact Hab|].
  apply IH. discriminate.
Qed.

Lemma emb_raise lo lo' js : (forall x, In x js -> lo' <= x) -> emb lo js -> emb lo' js.
Proof.
  intros Hx [HF HS]. split; [|exact HS]. clear HS Em El. induction HF as [|j i l js [H1 H2] HF IH]; [constructor|constructor].
  - split; [|exact H2]. specialize (Hx i (or_introl eq_refl)). lia.
  - apply IH. intros x Hin. apply Hx. now right.
Qed.

Lemma resumes_after lo' js ks : resumes rules nodes optional greedy matches (last js 0) lo' -> emb 0 ks ->
  (forall k, In k ks -> last js 0 < k) -> forall k, In k ks -> lo' <= k.
Proof.
  intros Hres HE Hk k Hin. destruct (emb_first 0 ks HE) as [Hh HM]. pose proof (sorted_hd ks k (proj2 HE) Hin) as Hle.
  pose proof (Hk _ Hh) as Hl. unfold resumes in Hres. destruct (trails rules optional greedy); [|lia].
  destruct Hres as (_ & Hn & _). rewrite Em in Hn. cbn [hd] in Hn.
  destruct (Nat.le_gt_cases lo' (hd 0 ks)) as [|Hgt]; [lia|]. destruct (Hn (hd 0 ks)); [lia|exact HM].
Qed.

Lemma groups_most lo ts : are_groups rules nodes optional greedy matches lo ts ->
  forall kss, Forall (emb lo) kss -> apart kss -> length kss <= length ts.
Proof.
  revert lo. induction ts as [|t ts IH]; intros lo H kss Hk Ha.
  - inversion H as [? Hn|]; subst. destruct Hk as [|ks kss Hk _]; [apply le_n|]. now destruct (Hn ks).
  - inversion H as [|? js ? ? HG _ HR]; subst. destruct (HR El) as (lo' & Hres & HA). destruct Hk as [|ks kss Hks Hk]; [apply Nat.le_0_l|].
    cbn [length]. apply le_n_S. destruct Ha as [Ha Ha']. apply (IH lo' HA); [|exact Ha'].
    destruct HG as ((HE & Hmin) & _). specialize (Hmin ks Hks). apply le_last in Hmin; [|eapply emb_not_nil; eassumption].
    rewrite Forall_forall in *. intros ks' Hin. apply (emb_raise lo); [|now apply Hk].
    apply (resumes_after lo' js ks' Hres); [apply (emb_raise lo); [intros; lia|now apply Hk]|].
    intros k Hkin. assert (last ks 0 < k); [|lia]. apply (Ha ks' _ k Hin); [|exact Hkin].
    destruct (emb_first lo ks Hks) as [X _]. destruct ks as [|a ks]; [destruct X|]. apply last_in. discriminate.
Qed.

End Groups.

Section Reach.
Variables rules nodes : nat.
Variables optional greedy : nat -> bool.
Variable matches : nat -> nat -> Prop.
Notation emb := (embedding rules nodes optional matches).
Variables (f : nat) (ms : list nat).
Hypothesis Em : mandatory_rules rules optional = f :: ms.

Lemma groups_reach lo ts : are_groups rules nodes optional greedy matches lo ts ->
  exists kss, Forall (emb lo) kss /\ apart kss /\ length kss = length ts.
Proof.
  revert lo. induction ts as [|t ts IH]; intros lo H.
  - exists []. split; [constructor|]. split; [exact I|reflexivity].
  - inversion H as [|? js ? ? HG HL HR]; subst. destruct HG as ((HE & _) & _). destruct (lone rules optional greedy) eqn:El.
    { rewrite (HL eq_refl). exists [js]. split; [constructor; [exact HE|constructor]|]. split; [split; [intros ? ? ? []|exact I]|reflexivity]. }
    destruct (HR eq_refl) as (lo' & Hres & HA). destruct (IH lo' HA) as (kss & Hk & Ha & Hl). clear IH.
    assert (Hlo : last js 0 < lo') by (unfold resumes in Hres; destruct (trails rules optional greedy); lia).
    assert (Hin : forall ks x, In ks kss -> In x ks -> lo' <= x).
    { intros ks x Hks Hx. rewrite Forall_forall in Hk. destruct (Hk ks Hks) as [HF _]. clear - HF Hx. induction HF as [|j i l ks [H1 _] HF IH]; [destruct Hx|].
      destruct Hx as [-> |Hx]; [lia|]. now apply IH. }
    exists (js :: kss). split; [|split].
    + constructor; [exact HE|]. rewrite Forall_forall in *. intros ks Hks. apply (emb_raise _ _ _ _ lo'); [|now apply Hk].
      intros x Hx. specialize (Hin ks x Hks Hx). destruct (emb_first _ _ _ _ _ _ Em lo js HE) as [Hf _].
      assert (lo <= last js 0); [|lia]. pose proof (sorted_last js (hd 0 js) (proj2 HE) Hf).
      destruct HE as [HF _]. rewrite Em in HF. inversion HF as [|? i ? l [Hi _] _]; subst. cbn [hd] in *. lia.
    + split; [|exact Ha]. intros ks k k' Hks Hkin Hk'. pose proof (sorted_last js k (proj2 HE) Hkin). specialize (Hin ks k' Hks Hk'). lia.
    + cbn [length]. now rewrite Hl.
Qed.
End Reach.

Lemma apart_map s kss : apart kss -> apart (map (map (fun i => s + i)) kss).
Proof.
  induction kss as [|ks kss IH]; cbn [map apart]; [auto|]. intros [H H']. split; [|now apply IH].
  intros ks' k k' Hks Hk Hk'. apply in_map_iff in Hks as (u & <- & Hu). apply in_map_iff in Hk as (x & <- & Hx). apply in_map_iff in Hk' as (y & <- & Hy).
  specialize (H u x y Hu Hx Hy). lia.
Qed.

Lemma apart_unmap s kss : apart (map (map (fun i => s + i)) kss) -> apart kss.
Proof.
  induction kss as [|ks kss IH]; cbn [map apart]; [auto|]. intros [H H']. split; [|now apply IH].
  intros ks' k k' Hks Hk Hk'. specialize (H (map (fun i => s + i) ks') (s + k) (s + k') (in_map _ _ _ Hks) (in_map _ _ _ Hk) (in_map _ _ _ Hk')). lia.
Qed.

(** As many embeddings as groups, one after the other. *)
Definition reached (E : engine) (D : node) (R : rule) (L : npath * nat * nat) (G : list MatchingNodes) : Prop :=
  exists kss, Forall (embeds E D R L) kss /\ apart kss /\ length kss = length G.

Lemma list_reached E R D q s m G ts : mandatory_of R <> [] ->
  sibling_groups D (node_satisfies E D) R q s m ts -> map own G = map (fun t => pairs_at q (shift s t)) ts ->
  reached E D R (q, s, m) G.
Proof.
  intros Hm Hts HG. pose proof (with_mandatory _ _ _ _ _ _ _ Hm Hts) as HA. destruct (opts_mandatory R Hm) as (f & ms & Em).
  assert (Hlen : length G = length ts) by (rewrite <- (map_length own G), HG; apply map_length).
  destruct (groups_reach _ _ _ _ _ _ _ Em _ _ HA) as (kss & Hk & Ha & Hle). exists (map (map (fun i => s + i)) kss).
  split; [|split; [now apply apart_map|rewrite map_length; congruence]].
  apply Forall_forall. intros ks Hin. apply in_map_iff in Hin as (js & <- & Hjs). rewrite Forall_forall in Hk.
  apply (embeds_embedding D (node_satisfies E D) R q s m). exists js. split; [reflexivity|now apply Hk].
Qed.

Lemma search_reached : forall E R D i pp t n gs,
  nget D (i :: pp) = Some t -> search_yields E R D (Some (i :: pp)) n (Ok gs) ->
  mandatory_of R <> [] -> per_list D i pp gs (reached E D R).
Proof.
  intros E R D i pp t n gs Hp HS Hm. eapply per_list_intro; [exact (search_yields_result _ _ _ _ _ _ _ _ Hp HS)|].
  intros q s m G ts Hts HG. exact (list_reached E R D q s m G ts Hm Hts HG).
Qed.

Theorem search_most : forall E R D i pp t n gs,
  nget D (i :: pp) = Some t -> search_yields E R D (Some (i :: pp)) n (Ok gs) ->
  mandatory_of R <> [] -> ~ lone_greedy R -> per_list D i pp gs (most_groups E D R).
Proof.
  intros E R D i pp t n gs Hp HS Hm Hl. eapply per_list_intro; [exact (search_yields_result _ _ _ _ _ _ _ _ Hp HS)|].
  intros q s m G ts Hts HG. pose proof (with_mandatory _ _ _ _ _ _ _ Hm Hts) as HA. destruct (opts_mandatory R Hm) as (f & ms & Em).
  assert (El : lone (length (chain R)) (fun j => r_optional (rule_at R j)) (fun j => r_greedy (rule_at R j)) = false).
  { destruct (lone _ _ _) eqn:E0; [|reflexivity]. destruct Hl. destruct (lone_first _ _ _ Em E0) as (-> & -> & Hr).
    cbn [repeated] in Hr. apply andb_true_iff in Hr as [Hr _]. apply andb_true_iff in Hr as [H1 H2]. apply negb_true_iff in H1.
    assert (X : rule_at R 0 = R) by (unfold rule_at; destruct R; reflexivity). rewrite X in *. split; [exact H1|]. split; [exact H2|].
    rewrite mandatory_of_rules. now rewrite Em. }
  assert (Hlen : length G = length ts) by (rewrite <- (map_length own G), HG; apply map_length). split.
  - exact (list_reached E R D q s m G ts Hm Hts HG).
  - intros kss Hk Ha.
    assert (X : exists jss, kss = map (map (fun i => s + i)) jss /\ Forall (embedding (length (chain R)) m (fun j => r_optional (rule_at R j)) (fun j i => rule_matches D (node_satisfies E D) (rule_at R j) (s + i :: q)) 0) jss).
    { clear Ha. induction Hk as [|ks kss Hks Hk IH]; [exists []; split; [reflexivity|constructor]|]. destruct IH as (jss & -> & IH).
      apply (embeds_embedding D (node_satisfies E D) R q s m) in Hks as (js & -> & Hjs). exists (js :: jss). split; [reflexivity|now constructor]. }
    destruct X as (jss & -> & HF). apply apart_unmap in Ha. rewrite map_length, Hlen.
    exact (groups_most _ _ _ _ _ _ _ Em El _ _ HA jss HF Ha).
Qed.
