(** The algorithm of GroupAlg.v finds the groups that GroupSpec.v describes. *)

From Coq Require Import Arith Bool List Lia Sorted.
From Verif Require Import GroupSpec.
From Verif Require GroupAlg.
Import ListNotations.

Section Proofs.
Variable c n : nat.
Variable opt greedy : nat -> bool.
Variable M : nat -> nat -> bool.

Notation Mp := (fun j i => M j i = true).
Notation grp := (GroupAlg.grp opt greedy M).
Notation mand := (GroupAlg.mand opt).
Notation rep := (GroupAlg.rep opt greedy).
Notation MR := (mandatory_rules c opt).

(** All groups of a list of positions. *)
Fixpoint pgroups (k : nat) (ns : list nat) : list (list (nat * nat)) :=
  match k, ns with
  | S k', _ :: _ =>
      match grp (length ns) None false (seq 0 c) ns with
      | Some (next, t, _) =>
          let rest := pgroups k' next in
          match t with [] => rest | _ => t :: rest end
      | None => []
      end
  | _, _ => []
  end.

Lemma repeated_rep j : repeated opt greedy j = rep j.
Proof.
  induction j as [|j IH]; simpl; unfold mand; [now rewrite andb_true_r|].
  rewrite IH. now rewrite !andb_assoc.
Qed.

Lemma MR_eq : MR = filter mand (seq 0 c).
Proof. reflexivity. Qed.

Lemma seq_range lo i : In i (seq lo (n - lo)) <-> lo <= i < n.
Proof. rewrite in_seq. lia. Qed.

Lemma Forall2_impl {A B} (P Q : A -> B -> Prop) l l' :
  (forall x y, P x y -> Q x y) -> Forall2 P l l' -> Forall2 Q l l'.
Proof. induction 2; constructor; auto. Qed.

Lemma ss_impl {A} (P Q : A -> A -> Prop) l :
  (forall x y, P x y -> Q x y) -> StronglySorted P l -> StronglySorted Q l.
Proof.
  induction 2 as [|x l Hs IH HF]; constructor; [exact IH|]. eapply Forall_impl; [|exact HF]. auto.
Qed.

Lemma after_le g (p q : nat * nat) : GroupAlg.after g p q -> fst p <= fst q /\ snd p < snd q.
Proof. unfold GroupAlg.after. intros [H1 H2]. lia. Qed.

Lemma emb_embedding lo js :
  GroupAlg.Emb M MR (seq lo (n - lo)) js <-> embedding c n opt Mp lo js.
Proof.
  unfold GroupAlg.Emb, embedding. split; intros [H1 H2]; (split; [|exact H2]).
  - eapply Forall2_impl; [|exact H1]. intros j i [Hi HM]. apply seq_range in Hi. auto.
  - eapply Forall2_impl; [|exact H1]. intros j i [Hi HM]. split; [apply seq_range; exact Hi|exact HM].
Qed.

Lemma mr_lt j : In j MR -> j < c.
Proof. unfold mandatory_rules. intros H. apply filter_In in H as [H _]. apply in_seq in H. lia. Qed.

Lemma mr_mand j : In j MR -> opt j = false.
Proof. unfold mandatory_rules. intros H. apply filter_In in H as [_ H]. now apply negb_true_iff in H. Qed.

Lemma forall2_last {A B} (P : A -> B -> Prop) l l' a b :
  Forall2 P l l' -> l <> [] -> P (last l a) (last l' b).
Proof.
  induction 1 as [|x y l l' Hxy HF IH]; intros Hne; [congruence|].
  destruct HF as [|x' y' l l' H' HF]; [exact Hxy|].
  change (last (x :: x' :: l) a) with (last (x' :: l) a).
  change (last (y :: y' :: l') b) with (last (y' :: l') b).
  apply IH. discriminate.
Qed.

Lemma all_of_filter P (p : nat -> bool) lo :
  (forall i, P i <-> lo <= i < n /\ p i = true) -> all_of P (filter p (seq lo (n - lo))).
Proof.
  intros H. split.
  - apply GroupAlg.ss_filter, GroupAlg.seq_sorted.
  - intros i. rewrite filter_In, seq_range, H. tauto.
Qed.

Lemma first_of_filter P (p : nat -> bool) lo :
  (forall i, P i <-> lo <= i < n /\ p i = true) -> first_of P (firstn 1 (filter p (seq lo (n - lo)))).
Proof.
  intros H. destruct (all_of_filter P p lo H) as [Hs Hi].
  destruct (filter p (seq lo (n - lo))) as [|x l].
  - left. split; [reflexivity|]. intros i Hp. apply Hi in Hp. destruct Hp.
  - right. exists x. split; [reflexivity|]. split; [apply Hi; now left|].
    intros i Hp. apply Hi in Hp as [->|Hp]; [lia|].
    inversion Hs as [|? ? _ HF]; subst. rewrite Forall_forall in HF. specialize (HF _ Hp). lia.
Qed.

Lemma filter_filter {A} (f g : A -> bool) l : filter f (filter g l) = filter (fun x => g x && f x) l.
Proof.
  induction l as [|x l IH]; simpl; [reflexivity|]. destruct (g x); simpl; [|exact IH].
  destruct (f x); now rewrite IH.
Qed.

Lemma mr_sorted : StronglySorted lt MR.
Proof. apply GroupAlg.ss_filter, GroupAlg.seq_sorted. Qed.

Lemma lone_spec f ms : MR = f :: ms ->
  lone c opt greedy = (f =? last (f :: ms) 0) && rep f.
Proof.
  intros E. unfold lone. rewrite E. destruct ms as [|f' ms].
  - simpl. rewrite Nat.eqb_refl. apply repeated_rep.
  - pose proof mr_sorted as Hs. rewrite E in Hs. inversion Hs as [|? ? Hs' HF]; subst.
    rewrite Forall_forall in HF.
    change (last (f :: f' :: ms) 0) with (last (f' :: ms) 0).
    assert (Hl : f < last (f' :: ms) 0) by (apply HF, GroupAlg.last_in; discriminate).
    destruct (Nat.eqb_spec f (last (f' :: ms) 0)); [lia|reflexivity].
Qed.

(** ** From Post to is_group *)

Lemma seq_last lo m : 0 < m -> last (seq lo m) 0 = lo + m - 1.
Proof.
  destruct m as [|m]; [lia|]. intros _. replace (S m) with (m + 1) by lia.
  rewrite seq_app. simpl seq at 2. rewrite last_last. lia.
Qed.

Lemma hd_filter_spec (p : nat -> bool) lo y :
  hd_error (filter p (seq lo (n - lo))) = Some y ->
  lo <= y < n /\ p y = true /\ forall i, lo <= i < y -> p i = false.
Proof.
  intros H. destruct (first_of_filter (fun i => lo <= i < n /\ p i = true) p lo) as [[E _]|[i [E [Hi Hmin]]]].
  - tauto.
  - destruct (filter p (seq lo (n - lo))); discriminate.
  - destruct (filter p (seq lo (n - lo))) as [|x l]; [discriminate|].
    simpl in *. injection H as ->. injection E as ->. destruct Hi. repeat split; try tauto; try lia.
    intros i' Hi'. apply not_true_is_false. intros Hp.
    assert (i <= i') by (apply Hmin; split; [lia|exact Hp]). lia.
Qed.

Lemma hd_filter_none (p : nat -> bool) lo :
  hd_error (filter p (seq lo (n - lo))) = None -> forall i, lo <= i < n -> p i = false.
Proof.
  intros H i Hi. apply not_true_is_false. intros Hp.
  assert (Hin : In i (filter p (seq lo (n - lo)))) by (apply filter_In; split; [now apply seq_range|exact Hp]).
  destruct (filter p (seq lo (n - lo))); [destruct Hin|discriminate].
Qed.

Lemma filter_ltb_seq lo m : lo <= S m -> filter (Nat.ltb m) (seq lo (n - lo)) = seq (S m) (n - S m).
Proof.
  intros Hm.
  assert (H : forall k l0, filter (Nat.ltb m) (seq l0 k) =
     if m <? l0 then seq l0 k else seq (S m) (l0 + k - S m)).
  { induction k as [|k IH]; intros l0; cbn [seq filter].
    - destruct (Nat.ltb_spec m l0); [reflexivity|]. replace (l0 + 0 - S m) with 0 by lia. reflexivity.
    - rewrite IH. destruct (Nat.ltb_spec m l0).
      + destruct (Nat.ltb_spec m (S l0)); [reflexivity|lia].
      + destruct (Nat.ltb_spec m (S l0)).
        * assert (l0 = m) by lia. subst. f_equal. lia.
        * f_equal. lia. }
  rewrite H. destruct (Nat.ltb_spec m lo).
  - assert (lo = S m) by lia. subst. reflexivity.
  - f_equal. lia.
Qed.

Lemma filter_leb_seq lo y : lo <= y -> filter (Nat.leb y) (seq lo (n - lo)) = seq y (n - y).
Proof.
  intros Hy. destruct y as [|y].
  - assert (lo = 0) by lia. subst. apply GroupAlg.filter_all. reflexivity.
  - rewrite <- (filter_ltb_seq lo y) by lia. apply filter_ext. reflexivity.
Qed.

Lemma post_group lo next t bd :
  GroupAlg.Post opt greedy M None false (seq 0 c) (seq lo (n - lo)) next t bd -> 0 < c ->
  exists js, is_group c n opt greedy Mp lo js t /\
    match MR with
    | [] => js = [] /\ bd = None
    | f :: _ =>
        js <> [] /\
        if lone c opt greedy then forall x, In x next -> M f x = false
        else exists lo', resumes c n opt greedy Mp (last js 0) lo' /\ next = seq lo' (n - lo')
    end.
Proof.
  intros [Pin Psorted [js [Pemb [Pleft Phd]]] Pposs Pnext Pdisj Pbound Pbd] Hc.
  unfold GroupAlg.todo in *. rewrite <- MR_eq in *.
  exists js.
  assert (Hlm : leftmost_embedding c n opt Mp lo js).
  { split; [now apply emb_embedding|]. intros js' H'. apply Pleft. now apply emb_embedding. }
  assert (Hin : forall j i, In (j, i) t -> j < c /\ lo <= i < n /\ M j i = true).
  { intros j i H. destruct (Pin _ _ H) as [H1 [H2 H3]]. apply in_seq in H1. apply seq_range in H2.
    repeat split; try tauto; lia. }
  (* the last mandatory rule *)
  assert (Hm : MR <> [] -> In (last MR 0, last js 0) t /\ hd_error (GroupAlg.poss (last MR 0) t) = Some (last js 0)).
  { intros Hne. pose proof (forall2_last _ _ _ 0 0 Phd Hne) as H. split; [|exact H].
    now apply GroupAlg.hd_poss_in. }
  assert (Hjs : MR <> [] -> js <> []).
  { intros Hne ->. inversion Phd; congruence. }
  assert (Htr : trails c opt greedy = GroupAlg.trailing opt greedy (seq 0 c) \/ MR = []).
  { destruct MR as [|f ms] eqn:EM; [now right|left].
    unfold trails, GroupAlg.trailing. rewrite <- MR_eq, EM, seq_last, repeated_rep by exact Hc.
    now rewrite Nat.add_0_l. }
  (* where the group ends *)
  assert (Hends : forall j i, j < c -> lo <= i < n -> M j i = true ->
     (forall j' i', In (j', i') t -> j < j' -> opt j' = false -> i < i') ->
     (ends_before c opt greedy Mp (last js 0) i <-> (forall y, bd = Some y -> i < y)) \/
     (takes_all opt greedy j = false /\ j = last MR 0 /\ MR <> [] /\ bd = None)).
  { intros j i Hj Hi HMi Hup. unfold ends_before.
    destruct MR as [|f ms] eqn:EM.
    - left. unfold GroupAlg.trailing, GroupAlg.f_eff in Pbd. rewrite <- MR_eq, EM in Pbd.
      destruct (negb (length (seq 0 c) =? 0)).
      + rewrite Pbd. split; [discriminate|auto].
      + destruct Pbd as [-> _]. split; [discriminate|auto].
    - specialize (Hm ltac:(discriminate)) as [Hm1 Hm2].
      rewrite (lone_spec f ms EM). destruct Htr as [Htr|]; [|discriminate]. rewrite <- Htr in Pbd.
      unfold GroupAlg.f_eff in Pbd. rewrite <- MR_eq, EM in Pbd.
      assert (Hbase : GroupAlg.base opt false (seq 0 c) (seq lo (n - lo)) t = seq (S (last js 0)) (n - S (last js 0))).
      { unfold GroupAlg.base, GroupAlg.todo. rewrite <- MR_eq, EM, Hm2. apply filter_ltb_seq.
        destruct (Hin _ _ Hm1) as [_ [? _]]. lia. }
      rewrite Hbase in Pbd.
      destruct (trails c opt greedy) eqn:Etr.
      + left. destruct ((f =? last (f :: ms) 0) && rep f).
        * rewrite Pbd. split; [discriminate|]. intros _. now left.
        * destruct Pbd as [Ebd _]. destruct bd as [y|].
          -- symmetry in Ebd. apply hd_filter_spec in Ebd as [Hy [Hfy Hmin]]. split.
             ++ intros [?|H] y' E; [discriminate|]. injection E as <-.
                destruct (le_lt_dec y i); [|assumption]. exfalso. apply (H y); [lia|exact Hfy].
             ++ intros H. specialize (H y eq_refl). right. intros i' Hi' E.
                rewrite Hmin in E; [discriminate|lia].
          -- symmetry in Ebd. pose proof (hd_filter_none _ _ Ebd) as Hno. split; [discriminate|].
             intros _. right. intros i' Hi' E. rewrite Hno in E; [discriminate|lia].
      + destruct Pbd as [-> _].
        unfold trails in Etr. rewrite EM in Etr. apply orb_false_iff in Etr as [E1 E2].
        apply negb_false_iff, Nat.eqb_eq in E1.
        destruct (Nat.eq_dec j (last (f :: ms) 0)) as [->|Hne].
        * right. repeat split; [|discriminate].
          unfold takes_all. rewrite E2.
          replace (opt (last (f :: ms) 0)) with false; [apply andb_false_r|].
          symmetry. apply mr_mand. rewrite EM. apply GroupAlg.last_in. discriminate.
        * left. split; [discriminate|]. intros _. right. intros i' Hi' _.
          assert (Hlt : j < last (f :: ms) 0) by lia.
          assert (Hmd : opt (last (f :: ms) 0) = false).
          { apply mr_mand. rewrite EM. apply GroupAlg.last_in. discriminate. }
          specialize (Hup _ _ Hm1 Hlt Hmd). lia. }
  assert (Hcand : forall j, j < c -> (takes_all opt greedy j = false /\ j = last MR 0 /\ MR <> [] /\ bd = None) \/
     forall i, candidate c n opt greedy Mp lo (last js 0) t j i <->
       lo <= i < n /\ GroupAlg.win opt t bd j i && M j i = true).
  { intros j Hj.
    assert (Hdec : (takes_all opt greedy j = false /\ j = last MR 0 /\ MR <> [] /\ bd = None) \/
                   ~ (takes_all opt greedy j = false /\ j = last MR 0 /\ MR <> [] /\ bd = None)).
    { destruct (takes_all opt greedy j); [right; intros [? _]; discriminate|].
      destruct (Nat.eq_dec j (last MR 0)) as [E|E]; [|right; tauto].
      destruct bd as [y|]; [right; intros [_ [_ [_ ?]]]; discriminate|].
      destruct (list_eq_dec Nat.eq_dec MR []) as [E'|E']; [right; tauto|left; tauto]. }
    destruct Hdec as [Hd|Hd]; [now left|right].
    intros i. unfold candidate. rewrite andb_true_iff, (GroupAlg.win_spec opt greedy M). split.
    - intros [H1 [H2 [H3 [H4 H5]]]]. split; [exact H1|]. split; [|exact H2]. split; [exact H3|]. split.
      + intros j' i' Hp Hlt Hmd. apply (H4 j' i'); auto. unfold GroupAlg.mand in Hmd. now apply negb_true_iff in Hmd.
      + destruct (Hends j i Hj H1 H2 H4) as [Hw|]; [|contradiction]. now apply Hw.
    - intros [H1 [[H3 [H4 H5]] H2]].
      assert (H4' : forall j' i', In (j', i') t -> j < j' -> opt j' = false -> i < i').
      { intros j' i' Hp Hlt Hmd. apply (H4 j' i'); auto. unfold GroupAlg.mand. now rewrite Hmd. }
      split; [exact H1|]. split; [exact H2|]. split; [exact H3|]. split; [exact H4'|].
      destruct (Hends j i Hj H1 H2 H4') as [Hw|]; [|contradiction]. now apply Hw. }
  split.
  - repeat split.
    + apply Hlm.
    + apply Hlm.
    + apply Hlm.
    + exact Phd.
    + apply (ss_impl _ _ _ (after_le greedy) Psorted).
    + intros j i H. apply Hin in H. tauto.
    + intros j Hj. change (nodes_of j t) with (GroupAlg.poss j t).
      rewrite Pposs by (apply in_seq; lia). rewrite filter_filter. unfold GroupAlg.take.
      change (greedy j && (opt j || rep j)) with (greedy j && (opt j || rep j)).
      rewrite <- repeated_rep. change (greedy j && (opt j || repeated opt greedy j)) with (takes_all opt greedy j).
      destruct (Hcand j Hj) as [[Ht [Hjl [Hne Hbd]]]|Hc'].
      * rewrite Ht. right.
        destruct (Hm Hne) as [Hm1 Hm2]. rewrite <- Hjl in Hm1, Hm2.
        assert (E : firstn 1 (filter (fun x => GroupAlg.win opt t bd j x && M j x) (seq lo (n - lo))) = [last js 0]).
        { rewrite Pposs in Hm2 by (apply in_seq; lia). unfold GroupAlg.take in Hm2.
          rewrite <- repeated_rep in Hm2. unfold takes_all in Ht. rewrite Ht in Hm2.
          rewrite filter_filter in Hm2.
          destruct (filter (fun x => GroupAlg.win opt t bd j x && M j x) (seq lo (n - lo))); simpl in *; congruence. }
        exists (last js 0). split; [exact E|].
        destruct (Hin _ _ Hm1) as [_ [Hm3 Hm4]].
        assert (Hw : GroupAlg.win opt t bd j (last js 0) && M j (last js 0) = true).
        { assert (In (last js 0) (filter (fun x => GroupAlg.win opt t bd j x && M j x) (seq lo (n - lo)))).
          { destruct (filter (fun x => GroupAlg.win opt t bd j x && M j x) (seq lo (n - lo))); simpl in E; [discriminate|].
            injection E as ->. now left. }
          apply filter_In in H. tauto. }
        apply andb_true_iff in Hw as [Hw _]. apply (GroupAlg.win_spec opt greedy M) in Hw as [W1 [W2 W3]].
        assert (W2' : forall j' i', In (j', i') t -> j < j' -> opt j' = false -> last js 0 < i').
        { intros j' i' Hp Hlt Hmd. apply (W2 j' i'); auto. unfold GroupAlg.mand. now rewrite Hmd. }
        split.
        -- split; [exact Hm3|]. split; [exact Hm4|]. split; [exact W1|]. split; [exact W2'|].
           unfold ends_before. destruct MR; [congruence|]. right. intros i' Hi' _. lia.
        -- intros i' [C1 [C2 [C3 [C4 _]]]].
           assert (Hi' : In i' (filter (fun x => GroupAlg.win opt t bd j x && M j x) (seq lo (n - lo)))).
           { apply filter_In. split; [now apply seq_range|]. apply andb_true_iff. split; [|exact C2].
             apply (GroupAlg.win_spec opt greedy M). split; [exact C3|]. split.
             - intros j' i'' Hp Hlt Hmd. apply (C4 j' i''); auto. unfold GroupAlg.mand in Hmd. now apply negb_true_iff in Hmd.
             - rewrite Hbd. discriminate. }
           assert (Hs : StronglySorted lt (filter (fun x => GroupAlg.win opt t bd j x && M j x) (seq lo (n - lo))))
             by (apply GroupAlg.ss_filter, GroupAlg.seq_sorted).
           destruct (filter (fun x => GroupAlg.win opt t bd j x && M j x) (seq lo (n - lo))) as [|z zs]; [destruct Hi'|].
           simpl in E. injection E as ->. destruct Hi' as [->|Hi']; [lia|].
           inversion Hs as [|? ? _ HF]; subst. rewrite Forall_forall in HF. specialize (HF _ Hi'). lia.
      * destruct (takes_all opt greedy j); [now apply all_of_filter|now apply first_of_filter].
  - destruct MR as [|f ms] eqn:EM.
    + split.
      * inversion Phd. reflexivity.
      * unfold GroupAlg.trailing, GroupAlg.f_eff in Pbd. rewrite <- MR_eq, EM in Pbd.
        destruct (negb (length (seq 0 c) =? 0)); [exact Pbd|tauto].
    + split; [apply Hjs; discriminate|].
      destruct (Hm ltac:(discriminate)) as [Hm1 Hm2]. destruct (Hin _ _ Hm1) as [_ [Hm3 _]].
      destruct Htr as [Htr|]; [|discriminate]. rewrite <- Htr in Pbd.
      unfold GroupAlg.f_eff in Pbd. rewrite <- MR_eq, EM in Pbd.
      assert (Hbase : GroupAlg.base opt false (seq 0 c) (seq lo (n - lo)) t = seq (S (last js 0)) (n - S (last js 0))).
      { unfold GroupAlg.base, GroupAlg.todo. rewrite <- MR_eq, EM, Hm2. apply filter_ltb_seq. lia. }
      rewrite Hbase in Pbd. rewrite (lone_spec f ms EM).
      destruct ((f =? last (f :: ms) 0) && rep f) eqn:El.
      * (* the lone greedy rule has taken everything *)
        apply andb_true_iff in El as [El1 El2]. apply Nat.eqb_eq in El1.
        assert (ms = []).
        { destruct ms as [|f' ms]; [reflexivity|exfalso].
          pose proof mr_sorted as Hs. rewrite EM in Hs. inversion Hs as [|? ? Hs' HF]; subst.
          rewrite Forall_forall in HF.
          change (last (f :: f' :: ms) 0) with (last (f' :: ms) 0) in El1.
          assert (Hl : f < last (f' :: ms) 0) by (apply HF, GroupAlg.last_in; discriminate). lia. }
        subst ms. simpl last in *.
        assert (Hbd : bd = None).
        { unfold trails in Pbd. rewrite EM in Pbd. simpl last in Pbd. rewrite repeated_rep, El2, orb_true_r in Pbd. exact Pbd. }
        intros x Hx. apply not_true_is_false. intros HM.
        assert (Hfc : f < c) by (apply mr_lt; rewrite EM; now left).
        assert (Hxn : In x (seq lo (n - lo))).
        { destruct Pnext as [pre ->]. apply in_or_app. now right. }
        assert (Hx' : In x (GroupAlg.poss f t)).
        { rewrite Pposs by (apply in_seq; lia). unfold GroupAlg.take.
          destruct (GroupAlg.rep_mand _ _ _ El2) as [_ Hg]. rewrite Hg, El2, orb_true_r. simpl.
          apply filter_In. split; [|exact HM]. apply filter_In. split; [exact Hxn|].
          apply (GroupAlg.win_spec opt greedy M). split; [|split].
          - intros j' i' Hp _. eauto.
          - intros j' i' Hp Hlt Hmd. exfalso.
            assert (In j' MR). { unfold mandatory_rules. apply filter_In. split; [apply in_seq; apply Hin in Hp; lia|exact Hmd]. }
            rewrite EM in H. destruct H as [->|[]]. lia.
          - rewrite Hbd. discriminate. }
        apply GroupAlg.in_poss in Hx'. specialize (Pdisj _ _ _ Hx' Hx). lia.
      * unfold resumes. rewrite EM. simpl hd.
        destruct (trails c opt greedy).
        -- destruct Pbd as [Ebd ->]. destruct bd as [y|].
           ++ symmetry in Ebd. apply hd_filter_spec in Ebd as [Hy [Hfy Hmin]]. exists y. split.
              ** split; [lia|]. split; [|auto]. intros i H1 E. rewrite Hmin in E; [discriminate|lia].
              ** apply filter_leb_seq. lia.
           ++ symmetry in Ebd. pose proof (hd_filter_none _ _ Ebd) as Hno. exists n. split.
              ** split; [lia|]. split; [|lia]. intros i H1 E. rewrite Hno in E; [discriminate|lia].
              ** now rewrite Nat.sub_diag.
        -- destruct Pbd as [_ ->]. eauto.
Qed.

Lemma pgroups_no_first k ns f ms :
  StronglySorted lt ns -> 0 < c -> MR = f :: ms -> (forall x, In x ns -> M f x = false) ->
  pgroups k ns = [].
Proof.
  intros Hs Hc EM Hno. destruct k as [|k]; [reflexivity|]. destruct ns as [|x ns]; [reflexivity|].
  cbn [pgroups].
  pose proof (GroupAlg.grp_post opt greedy M (length (x :: ns)) None false 0 c (x :: ns) Hs (le_n _)) as HP.
  assert (Hinv : GroupAlg.inv opt greedy false 0 c).
  { intros _ H. simpl. now rewrite H. }
  specialize (HP Hinv).
  destruct (grp (length (x :: ns)) None false (seq 0 c) (x :: ns)) as [[[next t] bd]|]; [|reflexivity].
  destruct HP as [_ _ [js [[HE _] _]] _ _ _ _ _].
  unfold GroupAlg.todo in HE. rewrite <- MR_eq, EM in HE.
  inversion HE as [|? ? ? ? [H1 H2] _]; subst. rewrite Hno in H2 by exact H1. discriminate.
Qed.

Lemma inv0 : GroupAlg.inv opt greedy false 0 c.
Proof. intros _ H. simpl. now rewrite H. Qed.

Theorem pgroups_spec k lo :
  n - lo <= k -> 0 < c -> MR <> [] ->
  are_groups c n opt greedy Mp lo (pgroups k (seq lo (n - lo))).
Proof.
  intros Hk Hc Hne. revert lo Hk. induction k as [|k IH]; intros lo Hk.
  - replace (n - lo) with 0 by lia. apply no_group. intros js [HF _].
    destruct MR as [|f ms]; [congruence|]. inversion HF as [|? ? ? ? [? _] _]. lia.
  - destruct (n - lo) as [|d] eqn:En.
    { apply no_group. intros js [HF _].
      destruct MR as [|f ms]; [congruence|]. inversion HF as [|? ? ? ? [? _] _]. lia. }
    rewrite <- En. assert (Hlen : length (seq lo (n - lo)) = S d) by (rewrite seq_length; exact En).
    assert (Hunf : pgroups (S k) (seq lo (n - lo)) =
      match grp (length (seq lo (n - lo))) None false (seq 0 c) (seq lo (n - lo)) with
      | Some (next, t, _) =>
          let rest := pgroups k next in
          match t with [] => rest | _ => t :: rest end
      | None => []
      end).
    { rewrite En. reflexivity. }
    rewrite Hunf. clear Hunf.
    pose proof (GroupAlg.grp_post opt greedy M _ None false 0 c (seq lo (n - lo)) (GroupAlg.seq_sorted _ _) (le_n _) inv0) as HP.
    destruct (grp (length (seq lo (n - lo))) None false (seq 0 c) (seq lo (n - lo))) as [[[next t] bd]|].
    + pose proof (GroupAlg.post_next _ _ _ _ _ _ _ _ _ _ HP) as [pre Hpre].
      destruct (post_group _ _ _ _ HP Hc) as [js [Hg Hrest]].
      destruct MR as [|f ms] eqn:EM; [congruence|]. destruct Hrest as [Hjs Hrest].
      assert (Hm : In (last (f :: ms) 0, last js 0) t).
      { destruct Hg as [_ [HF _]]. rewrite EM in HF. pose proof (forall2_last _ _ _ 0 0 HF ltac:(discriminate)) as H.
        now apply GroupAlg.hd_poss_in. }
      assert (Hlo : lo <= last js 0 < n).
      { destruct Hg as [[[HF _] _] _]. rewrite EM in HF.
        now destruct (forall2_last _ _ _ 0 0 HF ltac:(discriminate)) as [H _]. }
      destruct t as [|p t]; [destruct Hm|]. cbv zeta.
      apply more_groups with (js := js).
      * exact Hg.
      * intros El. rewrite El in Hrest. apply (pgroups_no_first k next f ms); auto.
        pose proof (GroupAlg.seq_sorted lo (n - lo)) as Hs. rewrite Hpre in Hs.
        now apply GroupAlg.ss_app_inv in Hs as [_ [Hs _]].
      * intros El. rewrite El in Hrest. destruct Hrest as [lo' [Hres ->]]. exists lo'. split; [exact Hres|].
        apply IH. unfold resumes in Hres. destruct (trails c opt greedy); lia.
    + apply no_group. intros js He. apply emb_embedding in He. now apply (HP js).
Qed.

(** ** Optional rules only *)

Lemma range_next rs seg la :
  StronglySorted lt rs -> StronglySorted lt seg -> rs <> [] ->
  fst (GroupAlg.range greedy M rs seg la) =
  if greedy (last rs 0) then None
  else match GroupAlg.poss (last rs 0) (snd (GroupAlg.range greedy M rs seg la)) with
       | [] => None
       | i :: _ => Some (filter (Nat.ltb i) seg)
       end.
Proof.
  revert seg la. induction rs as [|j rs IH]; intros seg la Hrs Hseg Hne; [congruence|].
  inversion Hrs as [|? ? Hrs' HF]; subst. rewrite Forall_forall in HF.
  simpl GroupAlg.range.
  destruct rs as [|j' rs].
  - (* the last rule *)
    simpl last. destruct (greedy j).
    + destruct (GroupAlg.allg M j seg) as [[l rest]|]; reflexivity.
    + destruct (GroupAlg.once M j seg) as [[[pre y] rest]|] eqn:Eo; [|reflexivity].
      apply GroupAlg.once_some in Eo as [-> [H1 H2]]. simpl. rewrite GroupAlg.poss_cons_eq.
      f_equal. symmetry. apply GroupAlg.filter_gt_mid. exact Hseg.
  - change (last (j :: j' :: rs) 0) with (last (j' :: rs) 0).
    assert (Hjl : j < last (j' :: rs) 0) by (apply HF, GroupAlg.last_in; discriminate).
    specialize (fun seg la => IH seg la Hrs').
    destruct (greedy j).
    + pose proof (GroupAlg.allg_spec M j seg) as Ha.
      destruct (GroupAlg.allg M j seg) as [[l rest]|]; [|apply (IH seg None Hseg ltac:(discriminate))].
      destruct Ha as [-> [pre [y [-> [H1 [H2 H3]]]]]].
      destruct (GroupAlg.ss_mid _ _ _ Hseg) as [Hs1 [Hs2 [Hs3 Hs4]]].
      specialize (IH rest None Hs2 ltac:(discriminate)).
      pose proof (GroupAlg.range_in greedy M (j' :: rs) rest None) as Hin.
      destruct (GroupAlg.range greedy M (j' :: rs) rest None) as [la' t]. simpl fst in *. simpl snd in *.
      rewrite GroupAlg.poss_app, (GroupAlg.poss_none (last (j' :: rs) 0) (map _ _)).
      2:{ intros [a b] Hp E. apply in_map_iff in Hp as [x [Ex _]]. injection Ex as <- _. cbn [fst] in E. lia. }
      rewrite IH. cbn [app]. destruct (greedy (last (j' :: rs) 0)); [reflexivity|].
      destruct (GroupAlg.poss (last (j' :: rs) 0) t) as [|i l'] eqn:Ep; [reflexivity|].
      f_equal. assert (Hi : In (last (j' :: rs) 0, i) t) by (apply GroupAlg.in_poss; rewrite Ep; now left).
      apply Hin in Hi as [_ [Hi _]]. apply Hs4 in Hi. symmetry. apply GroupAlg.filter_skip_pre.
      * intros x Hx. apply Hs3 in Hx. apply Nat.ltb_ge. lia.
      * apply Nat.ltb_ge. lia.
    + destruct (GroupAlg.once M j seg) as [[[pre y] rest]|] eqn:Eo; [|apply (IH seg None Hseg ltac:(discriminate))].
      apply GroupAlg.once_some in Eo as [-> [H1 H2]].
      destruct (GroupAlg.ss_mid _ _ _ Hseg) as [Hs1 [Hs2 [Hs3 Hs4]]].
      specialize (IH rest (Some rest) Hs2 ltac:(discriminate)).
      pose proof (GroupAlg.range_in greedy M (j' :: rs) rest (Some rest)) as Hin.
      destruct (GroupAlg.range greedy M (j' :: rs) rest (Some rest)) as [la' t]. simpl fst in *. simpl snd in *.
      rewrite GroupAlg.poss_cons_neq by lia. rewrite IH.
      destruct (greedy (last (j' :: rs) 0)); [reflexivity|].
      destruct (GroupAlg.poss (last (j' :: rs) 0) t) as [|i l'] eqn:Ep; [reflexivity|].
      f_equal. assert (Hi : In (last (j' :: rs) 0, i) t) by (apply GroupAlg.in_poss; rewrite Ep; now left).
      apply Hin in Hi as [_ [Hi _]]. apply Hs4 in Hi. symmetry. apply GroupAlg.filter_skip_pre.
      * intros x Hx. apply Hs3 in Hx. apply Nat.ltb_ge. lia.
      * apply Nat.ltb_ge. lia.
Qed.

Lemma grp_optional k ns : 0 < c -> MR = [] -> ns <> [] -> 
  grp (S k) None false (seq 0 c) ns =
  let '(last, t) := GroupAlg.range greedy M (seq 0 c) ns None in
  Some (match last with Some rest => rest | None => [] end, t, None).
Proof.
  intros Hc EM Hns. destruct c as [|c']; [lia|]. destruct ns as [|x ns]; [congruence|].
  unfold mandatory_rules in EM. cbn [seq filter] in EM.
  destruct (opt 0) eqn:Ho; simpl in EM; [|discriminate].
  cbn [GroupAlg.grp seq]. rewrite Ho. cbn [orb].
  pose proof (GroupAlg.find_mand_spec opt (seq 1 c')) as Hf.
  destruct (GroupAlg.find_mand opt (seq 1 c')) as [[[bt s] post]|]; [|reflexivity].
  destruct Hf as [Hsplit [Hm _]]. exfalso.
  assert (Hin : In s (filter mand (seq 1 c'))).
  { apply filter_In. split; [rewrite Hsplit; apply in_or_app; right; now left|exact Hm]. }
  change (filter mand (seq 1 c') = []) in EM. rewrite EM in Hin. destruct Hin.
Qed.

Theorem pgroups_optional_spec k lo :
  n - lo <= k -> 0 < c -> MR = [] ->
  are_optional_groups c n opt greedy Mp lo (pgroups k (seq lo (n - lo))).
Proof.
  intros Hk Hc EM. revert lo Hk. induction k as [|k IH]; intros lo Hk.
  all: pose proof (GroupAlg.grp_post opt greedy M _ None false 0 c (seq lo (n - lo)) (GroupAlg.seq_sorted _ _) (le_n _) inv0) as HP.
  all: destruct (n - lo) as [|d] eqn:En; [clear IH || idtac|]; try lia.
  1,2: cbn [seq] in *; simpl pgroups; destruct (grp (length (@nil nat)) None false (seq 0 c) []) as [[[next t] bd]|];
    [ assert (Ht : t = []) by
        (destruct t as [|[j i] t]; [reflexivity|];
         exfalso; destruct (GroupAlg.post_in _ _ _ _ _ _ _ _ _ _ HP j i (or_introl eq_refl)) as [_ [[] _]]);
      subst t;
      assert (HP' : GroupAlg.Post opt greedy M None false (seq 0 c) (seq lo (n - lo)) next [] bd) by (rewrite En; exact HP);
      destruct (post_group _ _ _ _ HP' Hc) as [js [Hg Hr]]; rewrite EM in Hr; destruct Hr as [-> _];
      now apply no_optional_group
    | exfalso; apply (HP []); unfold GroupAlg.todo; rewrite <- MR_eq, EM; split; constructor ].
  rewrite <- En in *. assert (Hlen : length (seq lo (n - lo)) = S d) by (rewrite seq_length; exact En).
  assert (Hns : seq lo (n - lo) <> []) by (rewrite En; discriminate).
  assert (Hunf : pgroups (S k) (seq lo (n - lo)) =
      match grp (length (seq lo (n - lo))) None false (seq 0 c) (seq lo (n - lo)) with
      | Some (next, t, _) =>
          let rest := pgroups k next in
          match t with [] => rest | _ => t :: rest end
      | None => []
      end).
  { rewrite En. reflexivity. }
  rewrite Hunf. clear Hunf. rewrite Hlen in *. rewrite (grp_optional d _ Hc EM Hns) in *.
  pose proof (range_next (seq 0 c) (seq lo (n - lo)) None (GroupAlg.seq_sorted _ _) (GroupAlg.seq_sorted _ _)) as Hnx.
  assert (Hcne : seq 0 c <> []) by (destruct c; [lia|discriminate]). specialize (Hnx Hcne).
  pose proof (GroupAlg.range_in greedy M (seq 0 c) (seq lo (n - lo)) None) as Hin.
  destruct (GroupAlg.range greedy M (seq 0 c) (seq lo (n - lo)) None) as [la t]. simpl fst in *. simpl snd in *.
  rewrite seq_last, Nat.add_0_l in Hnx by exact Hc.
  destruct (post_group _ _ _ _ HP Hc) as [js [Hg Hr]]. rewrite EM in Hr. destruct Hr as [-> _].
  cbv zeta. unfold nodes_of in *.
  assert (Hstop : la = None -> greedy (c - 1) = true \/ nodes_of (c - 1) t = [] ->
    are_optional_groups c n opt greedy Mp lo
      (match t with [] => pgroups k (match la with Some rest => rest | None => [] end)
       | _ :: _ => t :: pgroups k (match la with Some rest => rest | None => [] end) end)).
  { intros -> Hor. assert (Hnil : pgroups k [] = []) by (destruct k; reflexivity). rewrite Hnil.
    destruct t as [|p t]; [now apply no_optional_group|]. apply last_optional_group; auto. discriminate. }
  destruct (greedy (c - 1)) eqn:Hgr; [apply Hstop; auto|].
  destruct (GroupAlg.poss (c - 1) t) as [|i l] eqn:Ep; [apply Hstop; auto|].
  assert (Hi : In (c - 1, i) t) by (apply GroupAlg.in_poss; rewrite Ep; now left).
  destruct (Hin _ _ Hi) as [_ [Hi2 _]]. apply seq_range in Hi2.
  subst la. destruct t as [|p t]; [destruct Hi|].
  rewrite filter_ltb_seq by lia.
  apply more_optional_groups with (i := i); auto.
  - change (nodes_of (c - 1) (p :: t)) with (GroupAlg.poss (c - 1) (p :: t)). rewrite Ep.
    destruct Hg as [_ [_ [_ [_ Hg]]]]. specialize (Hg (c - 1) ltac:(lia)).
    unfold takes_all in Hg. rewrite Hgr in Hg. simpl in Hg.
    change (nodes_of (c - 1) (p :: t)) with (GroupAlg.poss (c - 1) (p :: t)) in Hg. rewrite Ep in Hg.
    destruct Hg as [[? _]|[i' [E _]]]; [discriminate|]. now injection E as -> ->.
  - apply IH. lia.
Qed.

End Proofs.
