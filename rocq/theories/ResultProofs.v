(** The result maps of Rule::extract. *)

From Coq Require Import Ascii String NArith ZArith Bool List Lia Sorted Permutation.
From Verif Require Import Base StringUtil Dom Values Match Rule RuleMatching MatchSpec ExtractSpec
  StringProofs ExtractProofs SpecUnique.
Import ListNotations.

(** ** The order of names *)

Lemma str_ltb_trans a : forall b c, str_ltb a b = true -> str_ltb b c = true -> str_ltb a c = true.
Proof.
  induction a as [|x a IH]; intros b c H1 H2.
  - destruct b as [|y b]; [discriminate|]. destruct c as [|z c]; [discriminate|]. reflexivity.
  - destruct b as [|y b]; [discriminate|]. destruct c as [|z c]; [discriminate|]. cbn [str_ltb] in *.
    destruct (N.ltb_spec (N_of_ascii x) (N_of_ascii y)); destruct (N.ltb_spec (N_of_ascii y) (N_of_ascii z));
    destruct (N.ltb_spec (N_of_ascii x) (N_of_ascii z)); auto; try lia;
    destruct (N.ltb_spec (N_of_ascii y) (N_of_ascii x)); try discriminate; try lia;
    destruct (N.ltb_spec (N_of_ascii z) (N_of_ascii y)); try discriminate; try lia;
    destruct (N.ltb_spec (N_of_ascii z) (N_of_ascii x)); try lia.
    eapply IH; eauto.
Qed.

Lemma str_ltb_irrefl a : str_ltb a a = false.
Proof. induction a as [|x a IH]; [reflexivity|]. cbn [str_ltb]. rewrite N.ltb_irrefl. exact IH. Qed.

Lemma str_ltb_asym a b : str_ltb a b = true -> str_ltb b a = false.
Proof.
  intros H. destruct (str_ltb b a) eqn:E; [|reflexivity].
  pose proof (str_ltb_trans _ _ _ H E) as H'. now rewrite str_ltb_irrefl in H'.
Qed.

(** ** Insertion *)

Lemma insert_sorted x : forall m, StronglySorted name_le m -> StronglySorted name_le (multimap_insert m x).
Proof.
  induction m as [|y m IH]; intros H; simpl; [repeat constructor|].
  inversion H as [|? ? HS HF]; subst. rewrite Forall_forall in HF.
  destruct (str_ltb (fst x) (fst y)) eqn:E.
  - constructor; [exact H|]. constructor; [now apply str_ltb_asym|]. rewrite Forall_forall. intros z Hz.
    specialize (HF z Hz). unfold name_le in *. destruct (str_ltb (fst z) (fst x)) eqn:Ez; [|reflexivity].
    rewrite (str_ltb_trans _ _ _ Ez E) in HF. discriminate.
  - constructor; [now apply IH|]. rewrite Forall_forall. intros z Hz.
    assert (Hz' : In z (x :: m)).
    { clear - Hz. induction m as [|w m IHm]; simpl in Hz; [destruct Hz as [<-|[]]; now left|].
      destruct (str_ltb (fst x) (fst w)); [exact Hz|]. destruct Hz as [<-|Hz]; [right; now left|].
      apply IHm in Hz as [<-|Hz]; [now left|right; now right]. }
    destruct Hz' as [<-|Hz']; [exact E|auto].
Qed.

Lemma insert_permutation x : forall m, Permutation (multimap_insert m x) (m ++ [x]).
Proof.
  induction m as [|y m IH]; simpl; [constructor; constructor|].
  destruct (str_ltb (fst x) (fst y)).
  - change (y :: m ++ [x]) with ((y :: m) ++ [x]). apply Permutation_cons_append.
  - now constructor.
Qed.

Lemma values_of_cons name x m :
  values_of name (x :: m) = (if str_eqb (fst x) name then [snd x] else []) ++ values_of name m.
Proof. unfold values_of. simpl. destruct (str_eqb (fst x) name); reflexivity. Qed.

Lemma values_of_app name m m' : values_of name (m ++ m') = values_of name m ++ values_of name m'.
Proof. unfold values_of. now rewrite filter_app, map_app. Qed.

Lemma insert_values name x : forall m, StronglySorted name_le m ->
  values_of name (multimap_insert m x) = values_of name (m ++ [x]).
Proof.
  induction m as [|y m IH]; intros H; simpl; [reflexivity|].
  inversion H as [|? ? HS HF]; subst. rewrite Forall_forall in HF.
  destruct (str_ltb (fst x) (fst y)) eqn:E.
  - change (y :: m ++ [x]) with ((y :: m) ++ [x]). rewrite values_of_app, (values_of_cons name x).
    destruct (str_eqb (fst x) name) eqn:Ex.
    + apply str_eqb_eq in Ex. subst name.
      assert (Hno : values_of (fst x) (y :: m) = []).
      { unfold values_of. assert (Hall : forall z, In z (y :: m) -> str_eqb (fst z) (fst x) = false).
        { intros z Hz. destruct (str_eqb (fst z) (fst x)) eqn:Ez; [|reflexivity]. apply str_eqb_eq in Ez.
          destruct Hz as [<-|Hz].
          - rewrite Ez, str_ltb_irrefl in E. discriminate.
          - specialize (HF z Hz). unfold name_le in HF. rewrite Ez in HF. congruence. }
        revert Hall. generalize (y :: m) as l. induction l as [|w l IHl]; intros Hall; [reflexivity|]. simpl.
        rewrite (Hall w (or_introl eq_refl)). apply IHl. intros; apply Hall; now right. }
      rewrite Hno, values_of_cons. rewrite (proj2 (str_eqb_eq _ _) eq_refl). reflexivity.
    + rewrite (values_of_cons name x []), Ex. simpl. now rewrite app_nil_r.
  - rewrite !values_of_cons. f_equal. now apply IH.
Qed.

Lemma insert_all_spec l : forall m, StronglySorted name_le m ->
  StronglySorted name_le (multimap_insert_all m l) /\
  Permutation (multimap_insert_all m l) (m ++ l) /\
  forall name, values_of name (multimap_insert_all m l) = values_of name (m ++ l).
Proof.
  induction l as [|x l IH]; intros m H; unfold multimap_insert_all in *; simpl.
  - rewrite app_nil_r. auto.
  - destruct (IH (multimap_insert m x) (insert_sorted x m H)) as [H1 [H2 H3]]. split; [exact H1|]. split.
    + eapply Permutation_trans; [exact H2|]. replace (m ++ x :: l) with ((m ++ [x]) ++ l) by now rewrite <- app_assoc.
      apply Permutation_app_tail, insert_permutation.
    + intros name. rewrite H3. replace (m ++ x :: l) with ((m ++ [x]) ++ l) by now rewrite <- app_assoc.
      rewrite !(values_of_app name _ l). now rewrite insert_values.
Qed.

Lemma insert_all_app m l l' : multimap_insert_all m (l ++ l') = multimap_insert_all (multimap_insert_all m l) l'.
Proof. apply fold_left_app. Qed.

(** A sorted map is determined by the values of each name. *)

Lemma str_ltb_total a : forall b, str_ltb a b = false -> str_ltb b a = false -> a = b.
Proof.
  induction a as [|x a IH]; intros [|y b] H1 H2; try reflexivity; try discriminate. cbn [str_ltb] in *.
  destruct (N.ltb_spec (N_of_ascii x) (N_of_ascii y)); [discriminate|].
  destruct (N.ltb_spec (N_of_ascii y) (N_of_ascii x)); [discriminate|].
  f_equal; [|now apply IH].
  rewrite <- (ascii_N_embedding x), <- (ascii_N_embedding y). f_equal. lia.
Qed.

Lemma values_of_in name m : values_of name m <> [] -> exists z, In z m /\ fst z = name.
Proof.
  induction m as [|x m IH]; intros H; [now destruct H|]. rewrite values_of_cons in H.
  destruct (str_eqb (fst x) name) eqn:Ex.
  - apply str_eqb_eq in Ex. exists x. split; [now left|exact Ex].
  - destruct (IH H) as [z [H1 H2]]. exists z. split; [now right|exact H2].
Qed.

Lemma head_le y m z : StronglySorted name_le (y :: m) -> In z (y :: m) -> str_ltb (fst z) (fst y) = false.
Proof.
  intros H Hz. inversion H as [|? ? _ HF]; subst. destruct Hz as [<-|Hz]; [apply str_ltb_irrefl|].
  rewrite Forall_forall in HF. exact (HF z Hz).
Qed.

Lemma sorted_same_values m : forall m', StronglySorted name_le m -> StronglySorted name_le m' ->
  (forall name, values_of name m = values_of name m') -> m = m'.
Proof.
  induction m as [|x m IH]; intros m' Hm Hm' H.
  - destruct m' as [|y m']; [reflexivity|]. specialize (H (fst y)). rewrite values_of_cons in H.
    rewrite (proj2 (str_eqb_eq _ _) eq_refl) in H. discriminate.
  - destruct m' as [|y m'].
    { specialize (H (fst x)). rewrite values_of_cons, (proj2 (str_eqb_eq _ _) eq_refl) in H. discriminate. }
    assert (Hn : fst x = fst y).
    { apply str_ltb_total.
      - destruct (values_of_in (fst x) (y :: m')) as [z [Hz Ez]].
        { rewrite <- H, values_of_cons, (proj2 (str_eqb_eq _ _) eq_refl). discriminate. }
        rewrite <- Ez. eapply head_le; eauto.
      - destruct (values_of_in (fst y) (x :: m)) as [z [Hz Ez]].
        { rewrite H, values_of_cons, (proj2 (str_eqb_eq _ _) eq_refl). discriminate. }
        rewrite <- Ez. eapply head_le; eauto. }
    assert (Hv : snd x = snd y).
    { pose proof (H (fst x)) as H0. rewrite !values_of_cons in H0. rewrite <- Hn in H0.
      rewrite (proj2 (str_eqb_eq _ _) eq_refl) in H0. now injection H0. }
    assert (x = y) by (destruct x, y; simpl in *; congruence). subst y. f_equal.
    inversion Hm; subst. inversion Hm'; subst. apply IH; auto. intros name. specialize (H name).
    rewrite !values_of_cons in H. now apply app_inv_head in H.
Qed.

(** ** Groups *)

Section Captures.
Variable E : engine.
Variable R : rule.
Variable D : node.

Lemma capture_all_values p l : forall values,
  capture_all E D l p = Ok values <->
  exists outs, Forall2 (fun c o => capture_capture E D c p = Ok o) (present l) outs /\ values = present outs.
Proof.
  induction l as [|[c|] l IH]; intros values; cbn [capture_all].
  - split; [intros [= <-]; exists []; split; [constructor|reflexivity]|].
    intros (outs & HF & ->). inversion HF; subst. reflexivity.
  - change (present (Some c :: l)) with (c :: present l). split.
    + intros H. destruct (capture_capture E D c p) as [o|e|u|] eqn:Ho; try discriminate. cbn [obind] in H.
      destruct (capture_all E D l p) as [rest|e|u|]; try discriminate. cbn [obind] in H.
      destruct (proj1 (IH rest) eq_refl) as (outs & HF & ->). exists (o :: outs). split; [now constructor|].
      injection H as <-. destruct o; reflexivity.
    + intros (outs & HF & ->). inversion HF as [|c' o l' outs' Ho HF']; subst. rewrite Ho. cbn [obind].
      rewrite (proj2 (IH (present outs')) (ex_intro _ outs' (conj HF' eq_refl))). cbn [obind]. destruct o; reflexivity.
  - apply IH.
Qed.

Lemma Rule_capture_values r p values : Rule_capture E D r p = Ok values <-> rule_values E D r p values.
Proof. apply capture_all_values. Qed.

Lemma capture_group_captured g : forall m0 m, capture_group E R D g m0 = Ok m ->
  exists values, captured E R D g values /\ m = multimap_insert_all m0 values.
Proof.
  induction g as [|[rp p] g IH]; intros m0 m H; cbn [capture_group] in H.
  - injection H as <-. exists []. split; [constructor|reflexivity].
  - unfold rderef in H. destruct (rget R rp) as [r|] eqn:Hr; cbn [obind] in H; [|discriminate].
    destruct (Nat.eqb_spec (length (r_captures r)) 0) as [E0|E0].
    + destruct (IH m0 m H) as [values [H1 H2]]. exists ([] ++ values). split; [|exact H2].
      econstructor; eauto. apply Rule_capture_values. unfold Rule_capture. destruct (r_captures r); [reflexivity|discriminate].
    + destruct (Rule_capture E D r p) as [v|e|u|] eqn:Hv; cbn [obind] in H; try discriminate.
      destruct (IH _ m H) as [values [H1 H2]]. exists (v ++ values). split; [econstructor; eauto; now apply Rule_capture_values|].
      rewrite insert_all_app, H2. f_equal. destruct v; reflexivity.
Qed.

Lemma captured_capture_group g values : captured E R D g values ->
  forall m0, capture_group E R D g m0 = Ok (multimap_insert_all m0 values).
Proof.
  induction 1 as [|rp p r g values rest Hr Hv Hg IH]; intros m0; cbn [capture_group]; [reflexivity|].
  apply Rule_capture_values in Hv.
  unfold rderef. rewrite Hr. cbn [obind]. destruct (Nat.eqb_spec (length (r_captures r)) 0) as [E0|E0].
  - unfold Rule_capture in Hv. destruct (r_captures r); [|discriminate]. injection Hv as <-. apply IH.
  - rewrite Hv. cbn [obind]. rewrite IH, insert_all_app. destruct values; reflexivity.
Qed.

Lemma insert_nonempty x m : multimap_insert m x <> [].
Proof. destruct m as [|y m]; simpl; [discriminate|]. destruct (str_ltb (fst x) (fst y)); discriminate. Qed.

Lemma insert_all_nil l : multimap_insert_all [] l = [] <-> l = [].
Proof.
  split; [|intros ->; reflexivity]. intros H. destruct (insert_all_spec l [] (SSorted_nil _)) as [_ [HP _]].
  rewrite H in HP. now apply Permutation_nil in HP.
Qed.

Lemma capture_groups_iff gs : forall res,
  capture_groups E R D gs = Ok res <-> extract_result E R D gs res.
Proof.
  unfold extract_result. induction gs as [|g gs IH]; intros res; cbn [capture_groups].
  - split.
    + intros H. injection H as <-. exists []. split; [constructor|constructor].
    + intros [vss [HF Hr]]. inversion HF; subst. inversion Hr; subst. reflexivity.
  - split.
    + intros H. destruct (capture_group E R D g []) as [m|e|u|] eqn:Hm; cbn [obind] in H; try discriminate.
      destruct (capture_groups E R D gs) as [rest|e|u|] eqn:Hrest; cbn [obind] in H; try discriminate.
      destruct (capture_group_captured g [] m Hm) as [values [Hv ->]].
      destruct (proj1 (IH rest) eq_refl) as [vss [HF Hr]]. exists (values :: vss). split; [now constructor|].
      destruct (insert_all_spec values [] (SSorted_nil _)) as [S1 [S2 S3]].
      cbn [filter]. destruct values as [|v values].
      * cbn in H. injection H as <-. exact Hr.
      * cbn [nonempty_list]. destruct (multimap_insert_all [] (v :: values)) as [|y m] eqn:Em; [apply (proj1 (insert_all_nil _)) in Em; discriminate|].
        injection H as <-. constructor; [|exact Hr]. split; [exact S1|]. split; [exact S2|exact S3].
    + intros [vss [HF Hr]]. inversion HF as [|? values ? vss' Hv HF']; subst.
      rewrite (captured_capture_group g values Hv []). cbn [obind].
      destruct (insert_all_spec values [] (SSorted_nil _)) as [S1 [S2 S3]].
      cbn [filter] in Hr. destruct values as [|v values].
      * cbn [nonempty_list] in Hr. rewrite (proj2 (IH res)) by eauto. reflexivity.
      * cbn [nonempty_list] in Hr. inversion Hr as [|? m ? rest [M1 [M2 M3]] Hr']; subst.
        rewrite (proj2 (IH rest)) by eauto. cbn [obind].
        assert (Hm : multimap_insert_all [] (v :: values) = m).
        { apply sorted_same_values; auto. intros name. rewrite S3, M3. reflexivity. }
        rewrite Hm. destruct m; [|reflexivity]. apply Permutation_nil in M2. discriminate.
Qed.

End Captures.
