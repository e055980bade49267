(** A search as the searches of its parts. *)

From Coq Require Import Ascii String Arith NArith ZArith Bool List Lia Sorted.
From Verif Require Import Base Tags Dom Values Match Rule RuleMatching RuleProofs MatchSem MatchRefine MatchSim GroupAlg GroupSpec MatchSpec MatchProofs
  ExtractSpec LocalProofs ExtractProofs CountProofs SpecUnique SearchSpec SearchFacts ResultProofs ExtractMain FrameSpec FrameSim PartSpec.
Import ListNotations.

(** *** Limits *)

(** The limit [n'] allows at least as many searches as [n]. *)
Definition allows (n n' : N) : Prop := (n = 0 /\ n' = 0)%N \/ (0 < n <= n')%N.

Lemma allows_refl n : allows n n.
Proof. unfold allows. lia. Qed.
Lemma allows_trans a b c : allows a b -> allows b c -> allows a c.
Proof. unfold allows. lia. Qed.

Lemma lim_down {A} (m : M A) n a n' : lim m -> m n = Ok (a, n') -> allows n' n.
Proof.
  intros (c & _ & H2 & H3) H. unfold allows. destruct (N.eq_dec n 0) as [->|Hn]; [left; split; [exact (H2 _ _ H)|reflexivity]|].
  rewrite (H3 n ltac:(lia)) in H. destruct (N.leb_spec n c); [discriminate|]. destruct (m 0%N) as [[x y]|e|u|]; try discriminate. injection H as _ <-. lia.
Qed.

Lemma lim_up {A} (m : M A) n n1 a n' : lim m -> m n = Ok (a, n') -> allows n n1 -> exists n1', m n1 = Ok (a, n1').
Proof.
  intros (c & _ & H2 & H3) H [[-> ->]|Hn]; [eauto|].
  rewrite (H3 n ltac:(lia)) in H. destruct (N.leb_spec n c); [discriminate|]. rewrite (H3 n1 ltac:(lia)). destruct (N.leb_spec n1 c); [lia|].
  destruct (m 0%N) as [[x y]|e|u|]; try discriminate. injection H as -> _. eauto.
Qed.

Section Parts.
Variable E : engine.
Variable R : rule.
Variable D : node.
Notation Save := (SaveMatchingNodesRecursive R D (Rule_matches E D)).

Lemma save_lim f rp p : lim (Save f rp p).
Proof. exact (proj1 (lim_all R D (Rule_matches E D) (Rule_matches_no_mse E D) f) rp p). Qed.

Lemma save_yields f p n n1 gs n' : Save f (Some []) p n = Ok (gs, n') -> allows n n1 -> search_yields E R D p n1 (Ok gs).
Proof.
  intros H HA. destruct (lim_up _ _ _ _ _ (save_lim f (Some []) p) H HA) as [n1' H1]. exists f. intros f' Hf.
  rewrite (Save_mono R D (Rule_matches E D) f f' _ _ _ Hf); [now rewrite H1|now rewrite H1].
Qed.

Lemma content_dec t : is_element t && negb (Nat.eqb (length (children_of t)) 0) = true <-> has_content t.
Proof. unfold has_content. rewrite andb_true_iff, negb_true_iff, Nat.eqb_neq. destruct (children_of t); cbn [length]; intuition congruence. Qed.

Lemma bind_inv {A B} (m : M A) (g : A -> M B) n b n' : bind m g n = Ok (b, n') -> exists a n1, m n = Ok (a, n1) /\ g a n1 = Ok (b, n').
Proof. unfold bind. destruct (m n) as [[a n1]|e|u|]; cbn [obind]; try discriminate. eauto. Qed.

(** *** Below a list of siblings *)

Lemma below_parts limit pp par : nget D pp = Some par -> forall f k n bs n', allows n limit ->
  save_below R D (Rule_matches E D) f [] (k :: pp) n = Ok (bs, n') ->
  exists gss, bs = concat gss /\ Forall2 (fun j => groups_inside E R D limit (j :: pp)) (seq k (siblings_seen par k)) gss.
Proof.
  intros Hpar. induction f as [|f IH]; intros k n bs n' HA H; [discriminate|]. cbn [save_below] in H.
  apply bind_inv in H as (t & n1 & Ht & H). unfold lift, deref in Ht. destruct (nget D (k :: pp)) as [t'|] eqn:Ek; cbn [obind] in Ht; [|discriminate]. injection Ht as -> ->.
  apply bind_inv in H as (here & n2 & Hh & H).
  assert (Hhere : groups_inside E R D limit (k :: pp) here /\ allows n2 limit).
  { destruct (is_element t && negb (Nat.eqb (length (children_of t)) 0)) eqn:Ec.
    - split; [|exact (allows_trans _ _ _ (lim_down _ _ _ _ (save_lim _ _ _) Hh) HA)]. exists t. split; [exact Ek|]. left. split; [now apply content_dec|].
      exact (save_yields f _ _ _ _ _ Hh HA).
    - injection Hh as <- <-. split; [|exact HA]. exists t. split; [exact Ek|]. right. split; [rewrite <- content_dec; congruence|reflexivity]. }
  destruct Hhere as [Hhere HA2]. apply bind_inv in H as (nx & n3 & Hn & H). unfold lift, NextNode, deref in Hn. rewrite Ek, Hpar in Hn. cbn [obind] in Hn.
  assert (Hk : k < length (children_of par)). { cbn [nget] in Ek. rewrite Hpar in Ek. apply nth_error_Some. congruence. }
  unfold siblings_seen in *. destruct (is_element par) eqn:Ep; cbn [obind] in Hn.
  - destruct (Nat.ltb_spec (S k) (length (children_of par))) as [Hl|Hl]; cbn [obind] in Hn; injection Hn as <- <-.
    + apply bind_inv in H as (rest & n4 & Hr & H). injection H as <- <-.
      destruct (IH (S k) n2 rest n4 HA2 Hr) as (gss & -> & HF). exists (here :: gss). split; [reflexivity|].
      replace (length (children_of par) - k) with (S (length (children_of par) - S k)) by lia. constructor; assumption.
    + injection H as <- <-. replace (length (children_of par) - k) with 1 by lia. exists [here]. split; [cbn [concat]; now rewrite app_nil_r|]. constructor; [exact Hhere|constructor].
  - injection Hn as <- <-. injection H as <- <-. exists [here]. split; [cbn [concat]; now rewrite app_nil_r|]. constructor; [exact Hhere|constructor].
Qed.

Lemma inside_below limit p g : groups_inside E R D limit p g -> exists t, nget D p = Some t /\ g = it_below (sem (bq E D) t p) [] R.
Proof.
  intros (t & Ht & [[[He Hc] H]|[Hn ->]]); exists t; (split; [exact Ht|]); rewrite sem_unfold; cbn [it_below].
  - destruct t as [| ty a o cs | | | | |]; try discriminate. cbn [children_of] in Hc. destruct cs as [|x cs]; [now elim Hc|].
    assert (H0 : nget D (0 :: p) = Some x) by (cbn [nget]; now rewrite Ht).
    rewrite (search_result_unique _ _ _ _ _ _ _ (search_yields_result E R D 0 p x limit g H0 H) (search_meets_spec D (bq E D) (node_satisfies E D) (bq_spec E D) 0 p x R H0)).
    unfold sibling_items. rewrite Ht. reflexivity.
  - destruct t as [| ty a o cs | | | | |]; try reflexivity. destruct cs as [|x cs]; [reflexivity|]. elim Hn. now split.
Qed.

Theorem search_parts i pp par t limit gs : nget D pp = Some par -> nget D (i :: pp) = Some t ->
  search_yields E R D (Some (i :: pp)) limit (Ok gs) ->
  exists level gss, gs = level ++ concat gss /\
    complete_groups E D R (pp, i, siblings_seen par i) level /\
    (mandatory_of R <> [] -> found_iff_embeds E D R (pp, i, siblings_seen par i) level) /\
    Forall2 (fun k => groups_inside E R D limit (k :: pp)) (seq i (siblings_seen par i)) gss.
Proof.
  intros Ep Ht HY. pose proof (search_yields_result E R D i pp t limit gs Ht HY) as HSR. destruct HY as [f0 H]. specialize (H f0 (le_n _)).
  destruct (Save f0 (Some []) (Some (i :: pp)) limit) as [[gs1 n']|e|u|] eqn:HS; cbn [obind fst] in H; try discriminate. injection H as ->.
  destruct f0 as [|f]; [discriminate|]. cbn [SaveMatchingNodesRecursive] in HS.
  apply bind_inv in HS as (x1 & n1 & H1 & HS). apply bind_inv in HS as (level & n2 & H2 & HS). apply bind_inv in HS as (bs & n3 & H3 & HS). injection HS as HS _.
  pose proof (lim_down _ _ _ _ lim_tick H1) as A1.
  pose proof (lim_down _ _ _ _ (proj1 (proj2 (lim_all R D (Rule_matches E D) (Rule_matches_no_mse E D) f)) [] (Some (i :: pp))) H2) as A2.
  destruct (below_parts limit pp par Ep f i n2 bs n3 (allows_trans _ _ _ A2 A1) H3) as (gss & -> & HF).
  (* the same with the items of the proofs *)
  set (l := if is_element par then skipn i (children_of par) else [t]).
  assert (Hitems : sibling_items (bq E D) D (i :: pp) = sem_list (bq E D) l i pp).
  { unfold sibling_items. rewrite Ep. unfold l. destruct (is_element par); [reflexivity|]. cbn [nget] in Ht. rewrite Ep in Ht. now rewrite Ht. }
  assert (Hl : forall k c, nth_error l k = Some c -> nget D (i + k :: pp) = Some c).
  { intros k c. cbn [nget]. rewrite Ep. unfold l. destruct (is_element par).
    - intros Hk. rewrite <- Hk. clear. revert k. induction (children_of par) as [|x xs IH] in i |- *; intros k.
      + destruct i; destruct k; reflexivity.
      + destruct i as [|i]; [reflexivity|apply IH].
    - destruct k; [|destruct k; discriminate]. intros X. injection X as <-. rewrite Nat.add_0_r. cbn [nget] in Ht. now rewrite Ep in Ht. }
  assert (Hlen : siblings_seen par i = length l).
  { unfold l, siblings_seen. destruct (is_element par); [now rewrite skipn_length|reflexivity]. }
  rewrite (search_result_unique _ _ _ _ _ _ _ HSR (search_meets_spec D (bq E D) (node_satisfies E D) (bq_spec E D) i pp t R Ht)) in HS.
  unfold save in HS. rewrite Hitems in HS.
  assert (Hb : concat gss = concat (map (fun x => it_below x [] R) (sem_list (bq E D) l i pp))).
  { f_equal. rewrite Hlen in HF. clearbody l. clear - HF Hl. revert i gss HF Hl. induction l as [|x l IH]; intros i gss HF Hl; cbn [length seq] in HF; inversion HF as [|? g ? gss' Hg HF']; subst; [reflexivity|].
    cbn [sem_list map]. f_equal.
    - destruct (inside_below limit _ g Hg) as (t' & Ht' & ->). pose proof (Hl 0 x eq_refl) as H0. rewrite Nat.add_0_r in H0. congruence.
    - apply (IH (S i)); [exact HF'|]. intros k c Hk. replace (S i + k) with (i + S k) by lia. now apply Hl. }
  rewrite Hb in HS. apply app_inv_tail in HS. subst level.
  exists (groups (chain_of [] R) (sem_list (bq E D) l i pp)), gss. rewrite Hb.
  split; [|split; [|split; [|exact HF]]].
  - rewrite (search_result_unique _ _ _ _ _ _ _ HSR (search_meets_spec D (bq E D) (node_satisfies E D) (bq_spec E D) i pp t R Ht)). unfold save. now rewrite Hitems.
  - assert (HP : pair_groups D (node_satisfies E D) (pairs_below D (node_satisfies E D)) [] R pp i (length l) (groups (chain_of [] R) (sem_list (bq E D) l i pp))).
    { apply (list_ok D (bq E D) (node_satisfies E D)). intros k c Hk. apply (sem_spec D (bq E D) (node_satisfies E D) (bq_spec E D)). now apply Hl. }
    destruct (pair_groups_own D (node_satisfies E D) R _ _ _ _ HP) as (ts & Hts & Ho). rewrite Hlen. exact (groups_complete D (node_satisfies E D) R _ _ _ _ _ Hts Ho).
  - intros Hm. assert (HP : pair_groups D (node_satisfies E D) (pairs_below D (node_satisfies E D)) [] R pp i (length l) (groups (chain_of [] R) (sem_list (bq E D) l i pp))).
    { apply (list_ok D (bq E D) (node_satisfies E D)). intros k c Hk. apply (sem_spec D (bq E D) (node_satisfies E D) (bq_spec E D)). now apply Hl. }
    destruct (pair_groups_own D (node_satisfies E D) R _ _ _ _ HP) as (ts & Hts & Ho). rewrite Hlen. exact (groups_first D (node_satisfies E D) R _ _ _ _ _ Hm Hts Ho).
Qed.

(** *** Results *)

Lemma capture_groups_app a : forall b res, capture_groups E R D (a ++ b) = Ok res ->
  exists ra rb, capture_groups E R D a = Ok ra /\ capture_groups E R D b = Ok rb /\ res = ra ++ rb.
Proof.
  induction a as [|g a IH]; intros b res H; [exists [], res; auto|]. cbn [app capture_groups] in *.
  destruct (capture_group E R D g []) as [m|e|u|]; cbn [obind] in *; try discriminate.
  destruct (capture_groups E R D (a ++ b)) as [r|e|u|] eqn:Er; cbn [obind] in *; try discriminate.
  destruct (IH b r Er) as (ra & rb & -> & Hb & ->). injection H as <-. cbn [obind].
  exists (match m with [] => ra | _ => m :: ra end), rb. split; [reflexivity|]. split; [exact Hb|]. now destruct m.
Qed.

Lemma capture_groups_concat gss : forall res, capture_groups E R D (concat gss) = Ok res ->
  exists rs, Forall2 (fun g r => capture_groups E R D g = Ok r) gss rs /\ res = concat rs.
Proof.
  induction gss as [|g gss IH]; intros res H; cbn [concat] in H; [injection H as <-; exists []; split; [constructor|reflexivity]|].
  apply capture_groups_app in H as (ra & rb & Ha & Hb & ->). destruct (IH rb Hb) as (rs & HF & ->). exists (ra :: rs). split; [constructor; assumption|reflexivity].
Qed.

Lemma extract_split p limit res : extract_yields E R D p limit (Ok res) ->
  exists gs, search_yields E R D p limit (Ok gs) /\ capture_groups E R D gs = Ok res.
Proof.
  intros [f0 H]. specialize (H f0 (le_n _)). unfold extract in H.
  destruct (Save f0 (Some []) p limit) as [[gs n']|e|u|] eqn:HS; cbn [obind] in H; try discriminate.
  exists gs. split; [exact (save_yields f0 p limit limit gs n' HS (allows_refl _))|exact H].
Qed.

Lemma extract_join p limit gs res : search_yields E R D p limit (Ok gs) -> capture_groups E R D gs = Ok res -> extract_yields E R D p limit (Ok res).
Proof.
  intros [f0 H] HC. exists f0. intros f Hf. specialize (H f Hf). unfold extract.
  destruct (Save f (Some []) p limit) as [[gs' n']|e|u|]; cbn [obind fst] in *; try discriminate. injection H as ->. exact HC.
Qed.

Lemma inside_page limit p g r : near R -> groups_inside E R D limit p g -> capture_groups E R D g = Ok r ->
  exists t, nget D p = Some t /\ page_gives E R limit t r.
Proof.
  intros HN (t & Ht & [[Hc H]|[Hc ->]]) Hr; exists t; (split; [exact Ht|]).
  - left. split; [exact Hc|]. apply (extract_frame E R D (own_page t) p [] 0 limit (Ok r) HN).
    + exists t, (own_page t). destruct Hc as [He _]. repeat split; [exact Ht|]. exact He.
    + exact (extract_join _ _ _ _ H Hr).
  - right. split; [exact Hc|]. cbn in Hr. congruence.
Qed.

Lemma seen_nodes (P : node -> list ResultMap -> Prop) pp par n : nget D pp = Some par -> forall i rs,
  Forall2 (fun k r => exists t, nget D (k :: pp) = Some t /\ P t r) (seq i n) rs ->
  Forall2 P (firstn n (skipn i (children_of par))) rs.
Proof.
  intros Hp. induction n as [|n IH]; intros i rs H; inversion H as [|? r ? rs' (t & Ht & HP) H']; subst; [constructor|].
  cbn [nget] in Ht. rewrite Hp in Ht.
  assert (HS : skipn i (children_of par) = t :: skipn (S i) (children_of par)).
  { clear - Ht. revert i Ht. induction (children_of par) as [|x l IH]; intros [|i] Ht; cbn in Ht; try discriminate; [injection Ht as ->; reflexivity|]. exact (IH i Ht). }
  rewrite HS. cbn [firstn]. constructor; [exact HP|]. now apply IH.
Qed.

Theorem extract_parts i pp par t limit res : near R -> nget D pp = Some par -> nget D (i :: pp) = Some t ->
  extract_yields E R D (Some (i :: pp)) limit (Ok res) ->
  exists level parts, res = level ++ concat parts /\ (no_row_here E R D pp -> level = []) /\
    Forall2 (page_gives E R limit) (seen_from par i) parts.
Proof.
  intros HN Hp Ht H. destruct (extract_split _ _ _ H) as (gs & HS & HC).
  destruct (search_parts i pp par t limit gs Hp Ht HS) as (level & gss & -> & _ & Hf & HF).
  apply capture_groups_app in HC as (ra & rb & Ha & Hb & ->). apply capture_groups_concat in Hb as (rs & HR & ->).
  exists ra, rs. split; [reflexivity|]. split.
  - intros (r & Hr & Hno). assert (Hm : mandatory_of R <> []) by (intros X; rewrite X in Hr; destruct Hr).
    destruct level as [|g level]; [cbn in Ha; congruence|]. exfalso.
    destruct (proj1 (proj1 (Hf Hm)) ltac:(discriminate)) as [ks [HE _]].
    destruct (Forall2_in_l _ _ _ _ HE Hr) as (k & _ & _ & HM). apply (Hno k). now inversion HM.
  - unfold seen_from. apply (seen_nodes _ pp par _ Hp). clear - HF HR HN. revert HF HR. generalize (seq i (siblings_seen par i)). intros l. revert rs l.
    induction gss as [|g gss IH]; intros rs l HF HR; inversion HF as [|k ? l' ? Hk HF']; inversion HR as [|? r ? rs' Hr HR']; subst; constructor; [|now apply IH].
    exact (inside_page limit (k :: pp) g r HN Hk Hr).
Qed.

Theorem extract_cut i pp par t limit res : near R -> no_row_here E R D pp -> nget D pp = Some par -> nget D (i :: pp) = Some t ->
  extract_yields E R D (Some (i :: pp)) limit (Ok res) ->
  exists parts, Forall2 (page_gives E R limit) (seen_from par i) parts /\ res = concat parts.
Proof.
  intros HN Hno Hp Ht H. destruct (extract_parts i pp par t limit res HN Hp Ht H) as (level & parts & -> & HL & HF). rewrite (HL Hno). eauto.
Qed.

End Parts.
