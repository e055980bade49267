(** The search as described in MatchSem.v meets the specification of
    MatchSpec.v. *)

From Coq Require Import Arith Bool List Lia Sorted.
From Verif Require Import Base Dom Values Match Rule RuleMatching RuleProofs
  MatchSem MatchRefine GroupSpec GroupProofs GroupFacts MatchLink MatchSpec.
Import ListNotations.

(** ** Chains *)

Lemma address_next rp j : address (RNext :: rp) j = address rp (S j).
Proof.
  unfold address. induction j as [|j IH]; [reflexivity|]. simpl in *. now rewrite IH.
Qed.

Lemma chain_nonempty c : 0 < length (chain c).
Proof. destruct c as [? [?|] ? ? ? ? ? ? ?]; simpl; lia. Qed.

Lemma chain_of_nth r : forall rp j d, j < length (chain r) ->
  nth j (chain_of rp r) d = (address rp j, nth j (chain r) (snd d)).
Proof.
  induction r as [c n l ms cs t o g name IHc IHn IHl] using rule_ind2.
  intros rp j d Hj. destruct j as [|j]; [reflexivity|].
  destruct n as [n|]; simpl in Hj; [|lia].
  change (nth (S j) (chain_of rp (mk_rule c (Some n) l ms cs t o g name)) d) with (nth j (chain_of (RNext :: rp) n) d).
  rewrite (IHn n eq_refl) by lia. rewrite address_next. reflexivity.
Qed.

Lemma chain_of_length r : forall rp, length (chain_of rp r) = length (chain r).
Proof.
  induction r as [c n l ms cs t o g name IHc IHn IHl] using rule_ind2.
  intros rp. destruct n as [n|]; simpl; [|reflexivity]. now rewrite (IHn n eq_refl).
Qed.

Lemma rule_at_nth c j d : j < length (chain c) -> rule_at c j = nth j (chain c) d.
Proof. intros H. unfold rule_at. now apply nth_indep. Qed.

Lemma chain_seq c : chain c = map (rule_at c) (seq 0 (length (chain c))).
Proof.
  apply nth_ext with (d := c) (d' := rule_at c 0).
  - now rewrite map_length, seq_length.
  - intros i Hi. rewrite (map_nth (rule_at c)), seq_nth by exact Hi. reflexivity.
Qed.

Lemma filter_map_comm {A B} (f : A -> B) (p : B -> bool) l : filter p (map f l) = map f (filter (fun a => p (f a)) l).
Proof. induction l as [|a l IH]; simpl; [reflexivity|]. rewrite IH. destruct (p (f a)); reflexivity. Qed.

Lemma mandatory_of_seq c :
  mandatory_of c = map (rule_at c) (mandatory_rules (length (chain c)) (fun j => r_optional (rule_at c j))).
Proof. unfold mandatory_of, mandatory_rules. rewrite chain_seq at 1. now rewrite filter_map_comm. Qed.

Lemma find_mand_filter rs : find_mand rs = None <-> filter mandatory rs = [].
Proof.
  induction rs as [|cr rs IH]; simpl; [split; reflexivity|]. destruct (mandatory cr); [split; discriminate|].
  rewrite <- IH. destruct (find_mand rs) as [[[? ?] ?]|]; split; congruence.
Qed.

Lemma chain_of_snd r : forall rp, map snd (chain_of rp r) = chain r.
Proof.
  induction r as [c n l ms cs t o g name IHc IHn IHl] using rule_ind2.
  intros rp. destruct n as [n|]; simpl; [|reflexivity]. now rewrite (IHn n eq_refl).
Qed.

Lemma has_mand_spec rp c : has_mand (chain_of rp c) = true <-> mandatory_of c <> [].
Proof.
  unfold has_mand, mandatory_of. rewrite <- (chain_of_snd c rp), filter_map_comm.
  pose proof (find_mand_filter (chain_of rp c)) as H.
  change (filter _ (chain_of rp c)) with (filter mandatory (chain_of rp c)).
  destruct (find_mand (chain_of rp c)).
  - split; [|reflexivity]. intros _ E. apply map_eq_nil in E. apply H in E. discriminate.
  - split; [discriminate|]. intros E. exfalso. apply E. now rewrite (proj1 H eq_refl).
Qed.

Section Proofs.

Variable D : node.
Variable b : rule -> npath -> bool.
Variable satisfies : rule -> npath -> Prop.
Hypothesis b_spec : forall r p, b r p = true <-> satisfies r p.

Notation rule_matches := (rule_matches D satisfies).
Notation pairs_below := (pairs_below D satisfies).
Notation sibling_groups := (sibling_groups D satisfies).
Notation pair_groups := (pair_groups D satisfies pairs_below).
Notation groups_in := (groups_in D satisfies pairs_below).

(** What is to be shown for every node. *)
Definition node_ok (t : node) (p : npath) : Prop :=
  (forall rp r, is_some (it_eval (sem b t p) rp r) = true <-> rule_matches r p) /\
  (forall rp r m, it_eval (sem b t p) rp r = Some m -> pairs_below rp r p m).

Lemma sem_list_nth l s pp i d c : nth_error l i = Some c ->
  nth i (sem_list b l s pp) d = sem b c (s + i :: pp).
Proof.
  revert s i. induction l as [|x l IH]; intros s i H; [destruct i; discriminate|].
  destruct i as [|i]; simpl in *.
  - injection H as ->. now rewrite Nat.add_0_r.
  - rewrite (IH (S s) i H). f_equal. f_equal. lia.
Qed.

Lemma sem_list_length l s pp : length (sem_list b l s pp) = length l.
Proof. revert s; induction l as [|c l IH]; intros s; simpl; [reflexivity|]. now rewrite IH. Qed.

Lemma layout_ext o o' f f' g g' seen gap t :
  (forall j i, In (j, i) t -> o j = o' j /\ f j i = f' j i /\ g j i = g' j i) ->
  layout o f g seen gap t = layout o' f' g' seen gap t.
Proof.
  revert seen gap. induction t as [|[j i] t IH]; intros seen gap H; cbn [layout]; [reflexivity|].
  destruct (H j i (or_introl eq_refl)) as [-> [-> ->]].
  destruct (_ && _); [rewrite IH by (intros; apply H; now right)|apply IH; intros; apply H; now right].
  reflexivity.
Qed.

Lemma lay_layout chain items seen gap t :
  lay chain items seen gap t =
  layout (opt chain) (inner chain items) (fun j i => pr chain items (j, i)) seen gap t.
Proof.
  revert seen gap. induction t as [|[j i] t IH]; intros seen gap; cbn [layout lay]; [reflexivity|].
  rewrite !IH. reflexivity.
Qed.

(** The groups of a list of siblings. *)
Lemma list_ok l s pp :
  (forall i c, nth_error l i = Some c -> node_ok c (s + i :: pp)) ->
  forall rp c, pair_groups rp c pp s (length l) (groups (chain_of rp c) (sem_list b l s pp)).
Proof.
  intros Hl rp c.
  pose proof (chain_of_length c rp) as HL. pose proof (chain_nonempty c) as Hpos.
  assert (HR : forall j, j < length (chain c) -> ruleof (chain_of rp c) j = (address rp j, rule_at c j)).
  { intros j Hj. unfold ruleof. rewrite chain_of_nth by exact Hj. now rewrite <- rule_at_nth. }
  assert (HI : forall i, i < length l -> exists x, nth_error l i = Some x /\
            itemof (sem_list b l s pp) i = sem b x (s + i :: pp)).
  { intros i Hi. destruct (nth_error l i) as [x|] eqn:E; [|apply nth_error_None in E; lia].
    exists x. split; [reflexivity|]. unfold itemof. now apply sem_list_nth. }
  assert (HO : forall j, j < length (chain c) -> opt (chain_of rp c) j = r_optional (rule_at c j)).
  { intros j Hj. unfold opt. now rewrite HR. }
  assert (HGr : forall j, j < length (chain c) -> greedy (chain_of rp c) j = r_greedy (rule_at c j)).
  { intros j Hj. unfold greedy. now rewrite HR. }
  assert (HM : forall j i, j < length (chain c) -> i < length l ->
    (matchp (chain_of rp c) (sem_list b l s pp) j i = true <-> rule_matches (rule_at c j) (s + i :: pp))).
  { intros j i Hj Hi. unfold matchp, evalp. rewrite HR by exact Hj. destruct (HI i Hi) as [x [Ex ->]].
    apply (Hl i x Ex). }
  set (ts := pgroups (length (chain_of rp c)) (opt (chain_of rp c)) (greedy (chain_of rp c))
       (matchp (chain_of rp c) (sem_list b l s pp)) (length l) (seq 0 (length l))).
  assert (Hts : sibling_groups c pp s (length l) ts).
  { unfold MatchSpec.sibling_groups. rewrite mandatory_of_seq.
    rewrite <- (mandatory_rules_ext (length (chain c)) (opt (chain_of rp c))) by exact HO.
    destruct (mandatory_rules (length (chain c)) (opt (chain_of rp c))) as [|f ms] eqn:E; cbn [map].
    - apply (are_optional_groups_ext _ _ (opt (chain_of rp c)) (greedy (chain_of rp c)) _ _
        (fun j i => matchp (chain_of rp c) (sem_list b l s pp) j i = true)); auto.
      pose proof (pgroups_optional_spec (length (chain c)) (length l) (opt (chain_of rp c)) (greedy (chain_of rp c))
         (matchp (chain_of rp c) (sem_list b l s pp)) (length l) 0) as H.
      rewrite Nat.sub_0_r in H. unfold ts. rewrite HL. apply H; auto.
    - apply (are_groups_ext _ _ (opt (chain_of rp c)) (greedy (chain_of rp c)) _ _
        (fun j i => matchp (chain_of rp c) (sem_list b l s pp) j i = true)); auto.
      pose proof (pgroups_spec (length (chain c)) (length l) (opt (chain_of rp c)) (greedy (chain_of rp c))
         (matchp (chain_of rp c) (sem_list b l s pp)) (length l) 0) as H.
      rewrite Nat.sub_0_r in H. unfold ts. rewrite HL. apply H; auto. rewrite E. discriminate. }
  assert (Hrange : forall j i, In (j, i) (concat ts) -> j < length (chain c) /\ i < length l /\ rule_matches (rule_at c j) (s + i :: pp)).
  { intros j i Hin. unfold MatchSpec.sibling_groups in Hts. destruct (mandatory_of c).
    - now apply (are_optional_groups_range _ _ _ _ _ _ _ _ _ Hts).
    - now apply (are_groups_range _ _ _ _ _ _ _ _ _ Hts). }
  exists ts, (inner (chain_of rp c) (sem_list b l s pp)).
  split; [exact Hts|]. split.
  - intros j i Hin. destruct (Hrange j i Hin) as [Hj [Hi HMt]].
    apply HM in HMt; auto. unfold inner. unfold matchp in HMt.
    destruct (evalp (chain_of rp c) (sem_list b l s pp) j i) as [m|] eqn:E; [|discriminate].
    unfold evalp in E. rewrite HR in E by exact Hj. destruct (HI i Hi) as [x [Ex Ei]]. rewrite Ei in E.
    apply (Hl i x Ex) in E. exact E.
  - rewrite groups_link. rewrite sem_list_length. apply map_ext_in. intros t Ht. rewrite lay_layout.
    apply layout_ext. intros j i Hin.
    assert (Hc : In (j, i) (concat ts)) by (apply in_concat; eauto).
    destruct (Hrange j i Hc) as [Hj [Hi _]]. split; [now apply HO|]. split; [reflexivity|].
    unfold pr. cbn [fst snd]. rewrite HR by exact Hj. destruct (HI i Hi) as [x [Ex ->]].
    now rewrite it_path_sem.
Qed.

(** There are groups if the mandatory rules match. *)
Lemma pair_groups_nonempty rp c pp s n gs :
  mandatory_of c <> [] -> pair_groups rp c pp s n gs ->
  (gs <> [] <-> exists ks, Forall2 (fun r k => s <= k < s + n /\ rule_matches r (k :: pp)) (mandatory_of c) ks /\ StronglySorted lt ks).
Proof.
  intros Hne [ts [inn [Hts [_ ->]]]].
  assert (HA : are_groups (length (chain c)) n
    (fun j => r_optional (rule_at c j)) (fun j => r_greedy (rule_at c j))
    (fun j i => rule_matches (rule_at c j) (s + i :: pp)) 0 ts).
  { unfold MatchSpec.sibling_groups in Hts. destruct (mandatory_of c); [congruence|exact Hts]. }
  apply are_groups_nonempty in HA.
  assert (HE : forall (f : list (nat * nat) -> MatchingNodes), map f ts <> [] <-> ts <> []).
  { intros f. destruct ts; simpl; split; congruence. }
  rewrite HE, HA. rewrite mandatory_of_seq. unfold embedding. clear.
  split.
  - intros [js [H Hs]]. exists (map (Nat.add s) js). split.
    + induction H as [|j i ms js [Hi HM] H IH]; simpl; constructor.
      * split; [lia|exact HM].
      * apply IH. now inversion Hs.
    + clear H. induction Hs as [|i js Hs IH HF]; simpl; constructor; [exact IH|].
      apply Forall_map. eapply Forall_impl; [|exact HF]. simpl. intros. lia.
  - intros [ks [H Hs]]. exists (map (fun k => k - s) ks). split.
    + remember (map (rule_at c) _) as rs eqn:E. revert E.
      generalize (mandatory_rules (length (chain c)) (fun j => r_optional (rule_at c j))).
      induction H as [|r k rs ks [Hk HM] H IH]; intros ms E; destruct ms as [|j ms]; try discriminate; simpl in *; constructor.
      * injection E as -> _. split; [lia|]. now replace (s + (k - s)) with k by lia.
      * injection E as _ E. apply IH; [now inversion Hs|exact E].
    + assert (HF : Forall (fun k => s <= k) ks).
      { clear Hs. induction H as [|r k rs ks [Hk HM] H IH]; constructor; [lia|exact IH]. }
      clear H. induction Hs as [|k ks Hs IH HF']; simpl; constructor.
      * apply IH. now inversion HF.
      * apply Forall_map. inversion HF; subst. rewrite Forall_forall in *. intros k' Hk'. specialize (HF' k' Hk'). lia.
Qed.

Lemma rule_matches_valid r p : rule_matches r p -> exists n, nget D p = Some n.
Proof. intros H. inversion H; eauto. Qed.

Lemma pair_groups_all rp c p gs :
  mandatory_of c <> [] -> pair_groups rp c p 0 (child_count D p) gs ->
  (gs <> [] <-> embedded rule_matches (mandatory_of c) p).
Proof.
  intros Hne H. rewrite (pair_groups_nonempty _ _ _ _ _ _ Hne H). unfold embedded.
  split; intros [ks [HF Hs]]; exists ks; (split; [|exact Hs]);
    (eapply GroupProofs.Forall2_impl; [|exact HF]); cbn beta.
  - intros r k [_ HM]; exact HM.
  - intros r k HM. split; [|exact HM]. apply rule_matches_valid in HM as [n HM]. simpl in HM.
    unfold child_count. destruct (nget D p) as [par|]; [|discriminate].
    assert (k < length (children_of par)) by (apply nth_error_Some; congruence). lia.
Qed.

(** ** Elements *)

Fixpoint elements_list (l : list node) (i : nat) (p : npath) : list npath :=
  match l with
  | [] => []
  | c :: l' => elements c (i :: p) ++ elements_list l' (S i) p
  end.

Lemma elements_unfold t p :
  elements t p = match t with NElement _ _ _ cs => p :: elements_list cs 0 p | _ => [] end.
Proof.
  destruct t; try reflexivity. simpl. f_equal. generalize 0. induction children as [|c l IH]; intros i; simpl; [reflexivity|].
  now rewrite IH.
Qed.

Lemma groups_in_app rp c qs qs' gs gs' :
  groups_in rp c qs gs -> groups_in rp c qs' gs' -> groups_in rp c (qs ++ qs') (gs ++ gs').
Proof.
  intros [x [Hx ->]] [y [Hy ->]]. exists (x ++ y). split; [now apply Forall2_app|]. now rewrite concat_app.
Qed.

Lemma groups_in_nonempty rp c qs gs :
  mandatory_of c <> [] -> groups_in rp c qs gs ->
  (gs <> [] <-> exists q, In q qs /\ embedded rule_matches (mandatory_of c) q).
Proof.
  intros Hne [gss [HF ->]]. induction HF as [|q g qs gss Hg HF IH]; simpl.
  - split; [congruence|]. intros [q [[] _]].
  - apply pair_groups_all in Hg; [|exact Hne]. split.
    + intros H. destruct g as [|x g].
      * destruct (proj1 IH H) as [q' [Hq He]]. exists q'. auto.
      * exists q. split; [now left|]. apply Hg. discriminate.
    + intros [q' [[->|Hq] He]].
      * apply Hg in He. destruct g; [congruence|discriminate].
      * destruct g; [apply IH; eauto|discriminate].
Qed.

Definition below_spec (t : node) (p : npath) : Prop :=
  forall rp c, groups_in rp c (elements t p) (it_below (sem b t p) rp c).

Lemma below_list_ok l s pp :
  (forall i c, nth_error l i = Some c -> below_spec c (s + i :: pp)) ->
  forall rp c, groups_in rp c (elements_list l s pp) (concat (map (fun x => it_below x rp c) (sem_list b l s pp))).
Proof.
  revert s. induction l as [|x l IH]; intros s Hl rp c; simpl.
  - exists []. split; [constructor|reflexivity].
  - apply groups_in_app.
    + specialize (Hl 0 x eq_refl rp c). now rewrite Nat.add_0_r in Hl.
    + apply IH. intros i y Hy. specialize (Hl (S i) y Hy). now replace (S s + i) with (s + S i) by lia.
Qed.

Lemma nested_ok t p rp : forall l k,
  (forall rp c, groups_in rp c (elements t p) (save (kids_of b t p) rp c)) ->
  (is_some (nested_part (kids_of b t p) rp k l) = true <->
   forall c, In c l -> mandatory_of c <> [] -> exists q, In q (elements t p) /\ embedded rule_matches (mandatory_of c) q) /\
  (forall m, nested_part (kids_of b t p) rp k l = Some m ->
     exists nested, m = concat nested /\
       Forall2 (fun kc m => exists gs, groups_in (RNested (fst kc) :: rp) (snd kc) (elements t p) gs /\ m = concat gs)
         (combine (seq k (length l)) l) nested).
Proof.
  induction l as [|c l IH]; intros k Hs; cbn [nested_part].
  - split.
    + split; [intros _ c []|reflexivity].
    + intros m E. injection E as <-. exists []. split; [reflexivity|constructor].
  - destruct (IH (S k) Hs) as [IH1 IH2]. clear IH.
    pose proof (Hs (RNested k :: rp) c) as Hc.
    pose proof (has_mand_spec (RNested k :: rp) c) as Hm.
    destruct (has_mand (chain_of (RNested k :: rp) c)) eqn:Em.
    + pose proof (proj1 Hm eq_refl) as Hne.
      pose proof (groups_in_nonempty _ _ _ _ Hne Hc) as HN.
      destruct (save (kids_of b t p) (RNested k :: rp) c) as [|g gs] eqn:Es.
      * cbn [nonempty negb andb]. split; [|discriminate]. split; [discriminate|].
        intros H. exfalso. apply (proj2 HN); [|reflexivity]. apply H; [now left|exact Hne].
      * cbn [nonempty negb andb].
        assert (HE : exists q, In q (elements t p) /\ embedded rule_matches (mandatory_of c) q) by (apply HN; discriminate).
        destruct (nested_part (kids_of b t p) rp (S k) l) as [m'|].
        -- split.
           ++ split; [|reflexivity]. intros _ c' [<-|Hin] Hne'; [exact HE|]. now apply (proj1 IH1 eq_refl).
           ++ intros m E. injection E as <-. destruct (IH2 m' eq_refl) as [nested [-> HF]].
              exists ((concat (g :: gs)) :: nested). split; [reflexivity|].
              simpl combine. constructor; [|exact HF]. exists (g :: gs). split; [exact Hc|reflexivity].
        -- split; [|discriminate]. split; [discriminate|]. intros H. apply IH1. intros c' Hin. apply H. now right.
    + rewrite andb_false_r.
      assert (Hnil : mandatory_of c = []).
      { destruct (mandatory_of c); [reflexivity|]. discriminate (proj2 Hm). discriminate. }
      destruct (nested_part (kids_of b t p) rp (S k) l) as [m'|].
      * split.
        -- split; [|reflexivity]. intros _ c' [<-|Hin] Hne'; [congruence|]. now apply (proj1 IH1 eq_refl).
        -- intros m E. injection E as <-. destruct (IH2 m' eq_refl) as [nested [-> HF]].
           exists ((concat (save (kids_of b t p) (RNested k :: rp) c)) :: nested). split; [reflexivity|].
           simpl combine. constructor; [|exact HF]. eexists. split; [exact Hc|reflexivity].
      * split; [|discriminate]. split; [discriminate|]. intros H. apply IH1. intros c' Hin. apply H. now right.
Qed.

Lemma child_ok t p rp r :
  nget D p = Some t ->
  (forall rp c, pair_groups rp c p 0 (child_count D p) (groups (chain_of rp c) (kids_of b t p))) ->
  (is_some (child_part (kids_of b t p) rp r) = true <->
   forall c, r_child r = Some c -> embedded rule_matches (mandatory_of c) p) /\
  (forall m, child_part (kids_of b t p) rp r = Some m ->
     (r_child r = None -> m = []) /\
     (forall c, r_child r = Some c -> exists gs,
        pair_groups (RChild :: rp) c p 0 (child_count D p) gs /\ m = concat gs)).
Proof.
  intros Ht Hg. unfold child_part. destruct (r_child r) as [c|].
  - specialize (Hg (RChild :: rp) c). cbv zeta.
    pose proof (has_mand_spec (RChild :: rp) c) as Hm.
    destruct (has_mand (chain_of (RChild :: rp) c)) eqn:Em.
    + pose proof (proj1 Hm eq_refl) as Hne.
      pose proof (pair_groups_all _ _ _ _ Hne Hg) as HN.
      destruct (groups (chain_of (RChild :: rp) c) (kids_of b t p)) as [|g gs]; cbn [nonempty negb andb].
      * split; [|discriminate]. split; [discriminate|]. intros H. exfalso. apply (proj2 HN); [|reflexivity]. now apply H.
      * split.
        -- split; [|reflexivity]. intros _ c' E. injection E as <-. apply HN. discriminate.
        -- intros m E. injection E as <-. split; [discriminate|]. intros c' E. injection E as <-.
           exists (g :: gs). split; [exact Hg|reflexivity].
    + cbn [andb]. assert (Hnil : mandatory_of c = []).
      { destruct (mandatory_of c); [reflexivity|]. discriminate (proj2 Hm). discriminate. }
      split.
      * split; [|reflexivity]. intros _ c' E. injection E as <-. rewrite Hnil. exists []. split; constructor.
      * intros m E. injection E as <-. split; [discriminate|]. intros c' E. injection E as <-.
        eexists. split; [exact Hg|reflexivity].
  - split; [split; [intros _ c E; discriminate|reflexivity]|]. intros m E. injection E as <-. split; [reflexivity|].
    intros c E. discriminate.
Qed.

Lemma kids_element t p : nonempty (kids_of b t p) = is_element t && nonempty (children_of t).
Proof. destruct t; try reflexivity. simpl. destruct children; reflexivity. Qed.

Lemma eval_ok t p :
  nget D p = Some t ->
  (is_element t = true -> forall rp c, pair_groups rp c p 0 (child_count D p) (groups (chain_of rp c) (kids_of b t p))) ->
  (is_element t = true -> forall rp c, groups_in rp c (elements t p) (save (kids_of b t p) rp c)) ->
  node_ok t p.
Proof.
  intros Ht Hg Hs. unfold node_ok. rewrite sem_unfold. cbn [it_eval].
  assert (Hp : forall r, is_some (r_child r) = false -> nonempty (r_nested r) = false ->
     r_child r = None /\ r_nested r = []).
  { intros r H1 H2. destruct (r_child r), (r_nested r); try discriminate. auto. }
  assert (HE : forall rp r, eval_at b p (kids_of b t p) rp r =
     if b r p then
       if is_some (r_child r) || nonempty (r_nested r) then
         if is_element t && nonempty (children_of t) then
           match child_part (kids_of b t p) rp r, nested_part (kids_of b t p) rp 0 (r_nested r) with
           | Some m1, Some m2 => Some (m1 ++ m2)
           | _, _ => None
           end
         else None
       else Some []
     else None).
  { intros rp r. unfold eval_at. destruct (b r p); [|reflexivity]. rewrite <- (kids_element t p).
    destruct (r_child r), (r_nested r); cbn [is_some nonempty orb]; try reflexivity;
      destruct (kids_of b t p); cbn [nonempty]; try reflexivity;
      destruct (child_part _ rp r); try reflexivity; destruct (nested_part _ rp 0 _); reflexivity. }
  split.
  - intros rp r. rewrite HE. pose proof (b_spec r p) as Hb. destruct (b r p).
    2:{ split; [discriminate|]. intros H. inversion H; subst.
        assert (false = true) by (now apply Hb). discriminate. }
    destruct (is_some (r_child r) || nonempty (r_nested r)) eqn:Er.
    + destruct (is_element t && nonempty (children_of t)) eqn:Ec.
      * apply andb_true_iff in Ec as [Ec1 Ec2].
        destruct (child_ok t p rp r Ht (Hg Ec1)) as [HC _].
        destruct (nested_ok t p rp (r_nested r) 0 (Hs Ec1)) as [HN _].
        destruct (child_part (kids_of b t p) rp r) as [m1|]; [destruct (nested_part (kids_of b t p) rp 0 (r_nested r)) as [m2|]|].
        -- split; [|reflexivity]. intros _. econstructor; [exact Ht|now apply Hb| |now apply HC|now apply HN].
           intros _. split; [exact Ec1|]. destruct (children_of t); discriminate.
        -- split; [discriminate|]. intros H. inversion H as [r' p' n Hn _ _ _ Hnest]; subst.
           rewrite Ht in Hn. injection Hn as <-. now apply HN.
        -- split; [discriminate|]. intros H. inversion H as [r' p' n Hn _ _ Hch _]; subst. now apply HC.
      * split; [discriminate|]. intros H. inversion H as [r' p' n Hn _ Hel _ _]; subst.
        rewrite Ht in Hn. injection Hn as <-.
        destruct Hel as [H1 H2].
        { destruct (r_child r), (r_nested r); try discriminate; [left|left|right]; discriminate. }
        rewrite H1 in Ec. destruct (children_of t); [congruence|discriminate].
    + apply orb_false_iff in Er as [E1 E2]. destruct (Hp r E1 E2) as [R1 R2].
      split; [|reflexivity]. intros _. econstructor; [exact Ht|now apply Hb| | |].
      * rewrite R1, R2. intros [H|H]; congruence.
      * rewrite R1. discriminate.
      * rewrite R2. intros c [].
  - intros rp r m. rewrite HE. destruct (b r p); [|discriminate].
    destruct (is_some (r_child r) || nonempty (r_nested r)) eqn:Er.
    + destruct (is_element t && nonempty (children_of t)) eqn:Ec; [|discriminate].
      apply andb_true_iff in Ec as [Ec1 _].
      destruct (child_ok t p rp r Ht (Hg Ec1)) as [_ HC].
      destruct (nested_ok t p rp (r_nested r) 0 (Hs Ec1)) as [_ HN].
      destruct (child_part (kids_of b t p) rp r) as [m1|]; [|discriminate].
      destruct (nested_part (kids_of b t p) rp 0 (r_nested r)) as [m2|]; [|discriminate].
      intros E. injection E as <-. destruct (HC m1 eq_refl) as [C1 C2]. destruct (HN m2 eq_refl) as [nested [-> HF]].
      econstructor; eauto.
    + intros E. injection E as <-. apply orb_false_iff in Er as [E1 E2]. destruct (Hp r E1 E2) as [R1 R2].
      change (@nil (rpath * npath)) with (@nil (rpath * npath) ++ concat []).
      econstructor; [exact Ht|reflexivity| |].
      * rewrite R1. discriminate.
      * rewrite R2. constructor.
Qed.

Lemma sem_spec t : forall p, nget D p = Some t -> node_ok t p /\ below_spec t p.
Proof.
  induction t as [t IH] using node_ind2. intros p Ht.
  assert (HI : forall i c, nth_error (children_of t) i = Some c -> node_ok c (i :: p) /\ below_spec c (i :: p)).
  { intros i c Hc. rewrite Forall_forall in IH. apply IH; [now apply nth_error_In in Hc|].
    simpl. now rewrite Ht. }
  assert (Hcc : child_count D p = length (children_of t)) by (unfold child_count; now rewrite Ht).
  assert (Hg : is_element t = true -> forall rp c, pair_groups rp c p 0 (child_count D p) (groups (chain_of rp c) (kids_of b t p))).
  { intros He rp c. rewrite Hcc. replace (kids_of b t p) with (sem_list b (children_of t) 0 p) by (destruct t; try discriminate; reflexivity).
    apply list_ok. intros i x Hx. now apply HI. }
  assert (Hs : is_element t = true -> forall rp c, groups_in rp c (elements t p) (save (kids_of b t p) rp c)).
  { intros He rp c. unfold save. rewrite elements_unfold.
    assert (HB : groups_in rp c (elements_list (children_of t) 0 p) (concat (map (fun x => it_below x rp c) (kids_of b t p)))).
    { replace (kids_of b t p) with (sem_list b (children_of t) 0 p) by (destruct t; try discriminate; reflexivity).
      apply below_list_ok. intros i x Hx. now apply HI. }
    assert (HA : groups_in rp c [p] (groups (chain_of rp c) (kids_of b t p))).
    { exists [groups (chain_of rp c) (kids_of b t p)]. split; [constructor; [now apply Hg|constructor]|]. simpl. now rewrite app_nil_r. }
    pose proof (groups_in_app _ _ _ _ _ _ HA HB) as H. destruct t; try discriminate. exact H. }
  split; [now apply eval_ok|].
  intros rp c. rewrite sem_unfold. cbn [it_below]. destruct t; try (apply Hs; reflexivity);
    rewrite elements_unfold; exists []; split; [constructor|reflexivity|constructor|reflexivity|constructor|reflexivity
      |constructor|reflexivity|constructor|reflexivity|constructor|reflexivity].
Qed.

(** ** The search *)

Theorem search_meets_spec i pp t R :
  nget D (i :: pp) = Some t ->
  search_result D satisfies R i pp (save (sibling_items b D (i :: pp)) [] R).
Proof.
  intros Ht. simpl in Ht. destruct (nget D pp) as [par|] eqn:Ep; [|discriminate].
  unfold sibling_items. rewrite Ep. unfold search_result, siblings_seen.
  exists par. unfold save.
  set (l := if is_element par then skipn i (children_of par) else [t]).
  assert (Hitems : (if is_element par then sem_list b (skipn i (children_of par)) i pp
     else match nth_error (children_of par) i with Some n => [sem b n (i :: pp)] | None => [] end) = sem_list b l i pp).
  { unfold l. destruct (is_element par); [reflexivity|]. now rewrite Ht. }
  rewrite Hitems.
  assert (Hl : forall k c, nth_error l k = Some c -> nget D (i + k :: pp) = Some c).
  { intros k c. simpl. rewrite Ep. unfold l. destruct (is_element par).
    - intros Hk. rewrite <- Hk. clear. revert k. induction (children_of par) as [|x xs IH] in i |- *; intros k.
      + destruct i; simpl; destruct k; reflexivity.
      + destruct i as [|i]; simpl; [reflexivity|apply IH].
    - destruct k; simpl; [|destruct k; discriminate]. intros E. injection E as <-. now rewrite Nat.add_0_r. }
  assert (Hlen : (if is_element par then length (children_of par) - i else 1) = length l).
  { unfold l. destruct (is_element par); [now rewrite skipn_length|reflexivity]. }
  rewrite Hlen.
  exists (groups (chain_of [] R) (sem_list b l i pp)), (concat (map (fun x => it_below x [] R) (sem_list b l i pp))).
  split; [exact Ep|]. split; [|split; [|reflexivity]].
  - apply list_ok. intros k c Hk. apply sem_spec. now apply Hl.
  - replace (elements_from D pp i (length l)) with (elements_list l i pp).
    + apply below_list_ok. intros k c Hk. apply sem_spec. now apply Hl.
    + clear Hitems Hlen. unfold elements_from. clearbody l. clear Ht. revert i Hl.
      induction l as [|x l IH]; intros i Hl; cbn [length seq flat_map elements_list]; [reflexivity|].
      pose proof (Hl 0 x eq_refl) as H0. rewrite Nat.add_0_r in H0. rewrite H0.
      f_equal. apply IH. intros k c Hk. replace (S i + k) with (i + S k) by lia. now apply Hl.
Qed.

End Proofs.
