(** Proofs about the ownership in hext::Html and about copy assignment. *)

From Coq Require Import Ascii String NArith ZArith Bool List PeanoNat Lia.
From Verif Require Import Base Values Match Rule RuleProofs Ownership OwnershipSpec.
Import ListNotations.

Lemma lookup_split l x h : lookup l x = Some h ->
  exists l1 l2, l = l1 ++ (x, h) :: l2 /\ remove l x = l1 ++ l2 /\
    forall v, update l x v = l1 ++ (x, v) :: l2.
Proof.
  induction l as [|[y k] l IH]; simpl; [discriminate|]. destruct (Nat.eqb_spec x y) as [->|Hn].
  - intros [= ->]. exists [], l. repeat split.
  - intros H. destruct (IH H) as [l1 [l2 [-> [E1 E2]]]]. exists ((y, k) :: l1), l2. split; [reflexivity|].
    split; [simpl; now rewrite E1|]. intros v. simpl. now rewrite E2.
Qed.

Lemma member_of_spec x l : member_of x l = true <-> In x l.
Proof.
  unfold member_of. rewrite existsb_exists. split.
  - intros [y [H1 H2]]. apply Nat.eqb_eq in H2. now subst.
  - intros H. exists x. split; [exact H|apply Nat.eqb_refl].
Qed.

Lemma member_of_false x l : member_of x l = false <-> ~ In x l.
Proof.
  rewrite <- member_of_spec. destruct (member_of x l); split; intros H; try discriminate; try reflexivity.
  now destruct H.
Qed.

Definition handles (st : html_state) : list (option output_id) := map snd (living st).

(** Holds in every history. *)
Record sound (st : html_state) : Prop := {
  sound_made : NoDup (made st);
  sound_destroyed : NoDup (destroyed st);
  sound_incl : incl (destroyed st) (made st);
  sound_handles : forall h, In h (handles st) -> exists o, h = Some o /\ In o (made st);
  sound_count : length (made st) <= length (living st) + length (destroyed st)
}.

(** Every living object owns an output of its own. *)
Record clean (st : html_state) : Prop := {
  clean_unique : NoDup (handles st);
  clean_valid : forall o, In (Some o) (handles st) -> ~ In o (destroyed st);
  clean_count : length (made st) = length (living st) + length (destroyed st);
  clean_owned : forall o, In o (made st) -> In o (destroyed st) \/ In (Some o) (handles st)
}.

(** There are more objects than outputs that they could destroy, or an output
    that no object points to. *)
Definition bad (st : html_state) : Prop :=
  length (made st) < length (living st) + length (destroyed st) \/
  exists o, In o (made st) /\ ~ In o (destroyed st) /\ ~ In (Some o) (handles st).

Lemma start_sound : sound html_start.
Proof. constructor; simpl; try constructor. all: try (intros x H; destruct H). Qed.

Lemma start_clean : clean html_start.
Proof.
  constructor; simpl; [constructor| |reflexivity|]; intros x H; destruct H.
Qed.

Lemma lookup_in l x h : lookup l x = Some h -> In h (map snd l).
Proof.
  intros H. apply lookup_split in H as [l1 [l2 [-> _]]]. rewrite map_app. apply in_or_app. right. now left.
Qed.

Lemma step_sound st step st' : sound st -> html_do st step = Some (Ok st') -> sound st'.
Proof.
  intros [S1 S2 S3 S4 S5]. destruct step as [x o|x y|x y|x|x]; simpl.
  - destruct (lookup (living st) x); [discriminate|]. destruct (member_of o (made st)) eqn:Em; [discriminate|].
    apply member_of_false in Em. intros [= <-]. constructor; simpl.
    + now constructor.
    + exact S2.
    + intros z Hz. right. now apply S3.
    + intros h [<-|Hh]; [exists o; split; [reflexivity|now left]|]. destruct (S4 h Hh) as [o' [E H]]. exists o'. split; [exact E|now right].
    + lia.
  - destruct (lookup (living st) x); [discriminate|]. destruct (lookup (living st) y) as [h|] eqn:El; [|discriminate].
    intros [= <-]. constructor; simpl; auto.
    + intros h' [<-|Hh]; [|now apply S4]. apply S4. now apply lookup_in in El.
  - destruct (lookup (living st) x) as [hx|] eqn:Ex; [|discriminate]. destruct (lookup (living st) y) as [h|] eqn:El; [|discriminate].
    intros [= <-]. pose proof (lookup_in _ _ _ El) as Hin. apply lookup_split in Ex as [l1 [l2 [E [_ E2]]]].
    constructor; simpl; auto.
    + unfold handles in *. simpl. rewrite E2, map_app. intros h' Hh. apply S4.
      apply in_app_or in Hh as [Hh|[<-|Hh]]; [| exact Hin |]; rewrite E, map_app; apply in_or_app; [now left|right; now right].
    + rewrite E2, app_length. rewrite E, app_length in S5. simpl in *. lia.
  - destruct (lookup (living st) x) as [[o|]|]; [|intros [= <-]; now constructor|discriminate].
    destruct (member_of o (destroyed st)); [discriminate|]. intros [= <-]. now constructor.
  - destruct (lookup (living st) x) as [[o|]|] eqn:El; [| |discriminate].
    + destruct (member_of o (destroyed st)) eqn:Em; [discriminate|]. apply member_of_false in Em. intros [= <-].
      pose proof (lookup_in _ _ _ El) as Hin. destruct (S4 _ Hin) as [o' [[= <-] Ho]].
      apply lookup_split in El as [l1 [l2 [E [E1 _]]]]. constructor; simpl; auto.
      * apply NoDup_rev in S2. rewrite <- (rev_involutive (destroyed st)), <- (rev_involutive [o]), <- rev_app_distr.
        apply NoDup_rev. simpl. constructor; [|exact S2]. now rewrite <- in_rev.
      * intros z Hz. apply in_app_or in Hz as [Hz|[<-|[]]]; [now apply S3|exact Ho].
      * unfold handles in *. simpl. rewrite E1, map_app. intros h Hh. apply S4. rewrite E, map_app.
        apply in_app_or in Hh as [Hh|Hh]; apply in_or_app; [now left|right; now right].
      * rewrite E1, !app_length. rewrite E, app_length in S5. simpl in *. lia.
    + exfalso. destruct (S4 _ (lookup_in _ _ _ El)) as [o [H _]]. discriminate.
Qed.

Lemma step_clean st step st' : sound st -> clean st ->
  (forall x y, step <> MoveConstruct x y) -> (forall x y, step = MoveAssign x y -> x = y) ->
  html_do st step = Some (Ok st') -> clean st'.
Proof.
  intros HS [C1 C2 C3 C4] H1 H2. destruct step as [x o|x y|x y|x|x]; simpl.
  - destruct (lookup (living st) x); [discriminate|]. destruct (member_of o (made st)) eqn:Em; [discriminate|].
    apply member_of_false in Em. intros [= <-]. constructor; unfold handles in *; simpl.
    + constructor; [|exact C1]. intros Hin. destruct (sound_handles _ HS _ Hin) as [o' [[= <-] Ho]]. contradiction.
    + intros o' [[= <-]|Hh]; [|now apply C2]. intros Hd. apply Em. now apply (sound_incl _ HS).
    + lia.
    + intros o' [<-|Ho]; [right; now left|]. destruct (C4 o' Ho) as [H|H]; [now left|right; now right].
  - now destruct (H1 x y).
  - rewrite (H2 x y eq_refl). destruct (lookup (living st) y) as [h|] eqn:El; [|discriminate]. intros [= <-].
    apply lookup_split in El as [l1 [l2 [E [_ E2]]]].
    assert (Es : update (living st) y h = living st) by now rewrite E2, E.
    rewrite Es. now constructor.
  - destruct (lookup (living st) x) as [[o|]|]; [|intros [= <-]; now constructor|discriminate].
    destruct (member_of o (destroyed st)); [discriminate|]. intros [= <-]. now constructor.
  - destruct (lookup (living st) x) as [[o|]|] eqn:El; [| |discriminate].
    + destruct (member_of o (destroyed st)) eqn:Em; [discriminate|]. intros [= <-].
      apply lookup_split in El as [l1 [l2 [E [E1 _]]]]. unfold handles in *.
      assert (E' : map snd (living st) = map snd l1 ++ Some o :: map snd l2) by now rewrite E, map_app.
      rewrite E' in C1. apply NoDup_remove in C1 as [C1 C1'].
      constructor; unfold handles; simpl.
      * rewrite E1, map_app. exact C1.
      * rewrite E1, map_app. intros o' Ho Hd. apply in_app_or in Hd as [Hd|[<-|[]]]; [|contradiction].
        apply (C2 o'); [|exact Hd]. rewrite E'. apply in_app_or in Ho as [Ho|Ho]; apply in_or_app; [now left|right; now right].
      * rewrite E1, !app_length. rewrite E, app_length in C3. simpl in *. lia.
      * intros o' Ho. rewrite E1, map_app. destruct (C4 o' Ho) as [H|H]; [left; apply in_or_app; now left|].
        rewrite E' in H. apply in_app_or in H as [H|[[= <-]|H]].
        -- right. apply in_or_app. now left.
        -- left. apply in_or_app. right. now left.
        -- right. apply in_or_app. now right.
    + exfalso. destruct (sound_handles _ HS _ (lookup_in _ _ _ El)) as [o [H _]]. discriminate.
Qed.

Lemma step_becomes_bad st step st' : sound st -> clean st ->
  ((exists x y, step = MoveConstruct x y) \/ (exists x y, step = MoveAssign x y /\ x <> y)) ->
  html_do st step = Some (Ok st') -> bad st'.
Proof.
  intros HS [C1 C2 C3 C4] [[x [y ->]]|[x [y [-> Hxy]]]]; simpl.
  - destruct (lookup (living st) x); [discriminate|]. destruct (lookup (living st) y) as [h|] eqn:El; [|discriminate].
    intros [= <-]. left. simpl. lia.
  - destruct (lookup (living st) x) as [hx|] eqn:Ex; [|discriminate]. destruct (lookup (living st) y) as [h|] eqn:El; [|discriminate].
    intros [= <-]. right. pose proof (lookup_in _ _ _ Ex) as Hin.
    destruct (sound_handles _ HS _ Hin) as [o [-> Ho]]. exists o. simpl. split; [exact Ho|]. split; [now apply C2|].
    apply lookup_split in Ex as [l1 [l2 [E [_ E2]]]].
    apply lookup_split in El as [k1 [k2 [E' _]]].
    assert (Hy : In (y, h) (l1 ++ l2)).
    { assert (Hi : In (y, h) (l1 ++ (x, Some o) :: l2)) by (rewrite <- E, E'; apply in_or_app; right; now left).
      apply in_app_or in Hi as [Hi|[Hi|Hi]]; [| congruence |]; apply in_or_app; auto. }
    unfold handles in *. simpl. rewrite E2, map_app. rewrite E, map_app in C1. simpl in C1.
    apply NoDup_remove_2 in C1. intros Hc. apply C1. simpl in Hc.
    apply in_app_or in Hc as [Hc|[Hc|Hc]]; [apply in_or_app; now left| |apply in_or_app; now right].
    rewrite <- Hc. rewrite <- map_app. change h with (snd (y, h)). now apply in_map.
Qed.

Lemma step_stays_bad st step st' : sound st -> bad st -> html_do st step = Some (Ok st') -> bad st'.
Proof.
  intros HS HB. pose proof (sound_count _ HS) as Hcnt. destruct step as [x o|x y|x y|x|x]; simpl.
  - destruct (lookup (living st) x); [discriminate|]. destruct (member_of o (made st)) eqn:Em; [discriminate|].
    apply member_of_false in Em. intros [= <-]. destruct HB as [HB|[o' [B1 [B2 B3]]]].
    + left. simpl. lia.
    + right. exists o'. simpl. split; [now right|]. split; [exact B2|]. unfold handles in *. simpl. intros [[= <-]|H]; contradiction.
  - destruct (lookup (living st) x); [discriminate|]. destruct (lookup (living st) y) as [h|] eqn:El; [|discriminate].
    intros [= <-]. left. simpl. lia.
  - destruct (lookup (living st) x) as [hx|] eqn:Ex; [|discriminate]. destruct (lookup (living st) y) as [h|] eqn:El; [|discriminate].
    intros [= <-]. pose proof (lookup_in _ _ _ El) as Hin. apply lookup_split in Ex as [l1 [l2 [E [_ E2]]]].
    destruct HB as [HB|[o' [B1 [B2 B3]]]].
    + left. simpl. rewrite E2, app_length. rewrite E, app_length in HB. simpl in *. lia.
    + right. exists o'. simpl. split; [exact B1|]. split; [exact B2|]. unfold handles in *. simpl. intros Hc. apply B3.
      rewrite E2, map_app in Hc. rewrite E, map_app. apply in_app_or in Hc as [Hc|[Hc|Hc]].
      * apply in_or_app. now left.
      * simpl in Hc. subst h. rewrite E, map_app in Hin. exact Hin.
      * apply in_or_app. right. now right.
  - destruct (lookup (living st) x) as [[o|]|]; [|intros [= <-]; exact HB|discriminate].
    destruct (member_of o (destroyed st)); [discriminate|]. intros [= <-]. exact HB.
  - destruct (lookup (living st) x) as [[o|]|] eqn:El; [| |discriminate].
    + destruct (member_of o (destroyed st)) eqn:Em; [discriminate|]. intros [= <-].
      pose proof (lookup_in _ _ _ El) as Hin.
      apply lookup_split in El as [l1 [l2 [E [E1 _]]]]. destruct HB as [HB|[o' [B1 [B2 B3]]]].
      * left. simpl. rewrite E1, !app_length. rewrite E, app_length in HB. simpl in *. lia.
      * right. exists o'. simpl. split; [exact B1|]. unfold handles in *. simpl. split.
        -- intros Hd. apply in_app_or in Hd as [Hd|[<-|[]]]; contradiction.
        -- intros Hc. apply B3. rewrite E1, map_app in Hc. rewrite E, map_app.
           apply in_app_or in Hc as [Hc|Hc]; apply in_or_app; [now left|right; now right].
    + exfalso. destruct (sound_handles _ HS _ (lookup_in _ _ _ El)) as [o [H _]]. discriminate.
Qed.

Lemma run_cons st step h o : html_run st (step :: h) = Some o ->
  (exists st', html_do st step = Some (Ok st') /\ html_run st' h = Some o) \/
  (html_do st step = Some o /\ forall st', o <> Ok st').
Proof.
  simpl. destruct (html_do st step) as [[st'|e|u|]|]; try discriminate; intros H.
  - left. eauto.
  - right. split; [exact H|]. congruence.
  - right. split; [exact H|]. congruence.
  - right. split; [exact H|]. congruence.
Qed.

Lemma run_sound h : forall st st', sound st -> html_run st h = Some (Ok st') -> sound st'.
Proof.
  induction h as [|step h IH]; intros st st' HS H; [now injection H as <-|].
  apply run_cons in H as [[st1 [H1 H2]]|[_ H]]; [|now destruct (H st')].
  apply (IH st1); [eapply step_sound; eauto|exact H2].
Qed.

Lemma run_stays_bad h : forall st st', sound st -> bad st -> html_run st h = Some (Ok st') -> bad st'.
Proof.
  induction h as [|step h IH]; intros st st' HS HB H; [now injection H as <-|].
  apply run_cons in H as [[st1 [H1 H2]]|[_ H]]; [|now destruct (H st')].
  apply (IH st1); [eapply step_sound; eauto|eapply step_stays_bad; eauto|exact H2].
Qed.

Lemma bad_living st : sound st -> bad st -> living st <> [].
Proof.
  intros HS HB E. pose proof (sound_count _ HS) as Hc. rewrite E in Hc. simpl in Hc.
  pose proof (NoDup_incl_length (sound_destroyed _ HS) (sound_incl _ HS)) as Hle.
  destruct HB as [HB|[o [B1 [B2 _]]]].
  - rewrite E in HB. simpl in HB. lia.
  - assert (Hl : length (o :: destroyed st) <= length (made st)).
    { apply NoDup_incl_length; [constructor; [exact B2|apply (sound_destroyed _ HS)]|].
      intros z [<-|Hz]; [exact B1|now apply (sound_incl _ HS)]. }
    simpl in Hl. lia.
Qed.

Theorem moved_history h st : moves h -> history h (Ok st) -> living st <> [].
Proof.
  unfold history. intros Hm Hr. apply bad_living; [eapply run_sound; [exact start_sound|exact Hr]|].
  assert (G : forall h s0, sound s0 -> clean s0 -> moves h -> html_run s0 h = Some (Ok st) -> bad st).
  { clear. induction h as [|step h IH]; intros s0 HS HC [x [y Hm]] Hr.
    - destruct Hm as [[]|[[] _]].
    - apply run_cons in Hr as [[st1 [H1 H2]]|[_ H]]; [|now destruct (H st)].
      assert (HS1 : sound st1) by (eapply step_sound; eauto).
      assert (Dec : ((exists a b, step = MoveConstruct a b) \/ (exists a b, step = MoveAssign a b /\ a <> b)) \/
        ((forall a b, step <> MoveConstruct a b) /\ (forall a b, step = MoveAssign a b -> a = b))).
      { destruct step as [? ?|a b|a b|?|?]; try (right; split; congruence).
        - left. left. eauto.
        - destruct (Nat.eq_dec a b) as [->|Hn].
          + right. split; [congruence|]. intros ? ? [= -> ->]. reflexivity.
          + left. right. eauto. }
      destruct Dec as [Dec|[D1 D2]].
      + apply (run_stays_bad h st1); [exact HS1| |exact H2]. eapply step_becomes_bad; [exact HS|exact HC| |exact H1]. exact Dec.
      + apply (IH st1); auto.
        * exact (step_clean s0 step st1 HS HC D1 D2 H1).
        * exists x, y. destruct Hm as [[->|Hm]|[[->|Hm] Hn]].
          -- now destruct (D1 x y).
          -- now left.
          -- now destruct (Hn (D2 x y eq_refl)).
          -- now right. }
  exact (G h html_start start_sound start_clean Hm Hr).
Qed.

Theorem unmoved_history h o : ~ moves h -> history h o ->
  exists st, o = Ok st /\
    (forall x, times_destroyed st x <= 1) /\
    (living st = [] -> forall x, In x (made st) -> times_destroyed st x = 1).
Proof.
  unfold history. intros Hm Hr.
  assert (G : forall h s0, sound s0 -> clean s0 -> ~ moves h -> html_run s0 h = Some o ->
    exists st, o = Ok st /\ sound st /\ clean st).
  { clear. induction h as [|step h IH]; intros s0 HS HC Hm Hr.
    - injection Hr as <-. eauto.
    - assert (D1 : forall a b, step <> MoveConstruct a b).
      { intros a b ->. apply Hm. exists a, b. left. now left. }
      assert (D2 : forall a b, step = MoveAssign a b -> a = b).
      { intros a b ->. destruct (Nat.eq_dec a b) as [E|Hn]; [exact E|]. exfalso. apply Hm. exists a, b. right. split; [now left|exact Hn]. }
      apply run_cons in Hr as [[st1 [H1 H2]]|[H Hno]].
      + apply (IH st1); [eapply step_sound; eauto|exact (step_clean s0 step st1 HS HC D1 D2 H1)| |exact H2].
        intros [x [y [Hi|[Hi Hn]]]]; apply Hm; exists x, y; [left|right; split; [|exact Hn]]; now right.
      + exfalso. destruct step as [x v|x y|x y|x|x]; simpl in H.
        * destruct (lookup (living s0) x); [discriminate|]. destruct (member_of v (made s0)); [discriminate|].
          injection H as <-. now eapply Hno.
        * now destruct (D1 x y).
        * destruct (lookup (living s0) x); [|discriminate]. destruct (lookup (living s0) y); [|discriminate].
          injection H as <-. now eapply Hno.
        * destruct (lookup (living s0) x) as [[v|]|] eqn:El; [| injection H as <-; now eapply Hno |discriminate].
          destruct (member_of v (destroyed s0)) eqn:Em; [|injection H as <-; now eapply Hno].
          apply member_of_spec in Em. now destruct (clean_valid _ HC v (lookup_in _ _ _ El)).
        * destruct (lookup (living s0) x) as [[v|]|] eqn:El; [| injection H as <-; now eapply Hno |discriminate].
          destruct (member_of v (destroyed s0)) eqn:Em; [|injection H as <-; now eapply Hno].
          apply member_of_spec in Em. now destruct (clean_valid _ HC v (lookup_in _ _ _ El)). }
  destruct (G h html_start start_sound start_clean Hm Hr) as [st [-> [HS HC]]]. exists st. split; [reflexivity|].
  assert (Hle : forall x, times_destroyed st x <= 1).
  { intros x. unfold times_destroyed. pose proof (sound_destroyed _ HS) as Hn. rewrite (NoDup_count_occ Nat.eq_dec) in Hn. apply Hn. }
  split; [exact Hle|]. intros El x Hx. destruct (clean_owned _ HC x Hx) as [Hd|Hh].
  - apply (count_occ_In Nat.eq_dec) in Hd. specialize (Hle x). unfold times_destroyed in *. lia.
  - unfold handles in Hh. rewrite El in Hh. destruct Hh.
Qed.

(** ** Copy assignment *)

Lemma assign_defined this other o : match_assign this other = Some o -> o = Ok other.
Proof.
  intros H. rewrite <- (mtch_clone_id other). destruct this, other; try discriminate H; injection H as <-; reflexivity.
Qed.

Lemma vtest_clone_id_ t : vtest_clone t = t.
Proof.
  revert t. fix IH 1. intros [| | | | | |[t|]]; simpl; try reflexivity. now rewrite IH.
Qed.

Lemma test_assign_defined this other o : test_assign this other = Some o -> o = Ok other.
Proof.
  intros H. rewrite <- (vtest_clone_id_ other). destruct this, other; try discriminate H; injection H as <-; reflexivity.
Qed.

Definition capture_pipe (c : capture) : option pipe :=
  match c with AttributeCapture _ _ p => p | FunctionCapture _ _ p => p end.

Lemma capture_assign_defined same this other o :
  (same = true -> this = other) ->
  capture_assign same this other = Some o -> (same = true \/ capture_pipe other <> None) -> o = Ok other.
Proof.
  intros Hs. unfold capture_assign. destruct same.
  - intros [= <-] _. now rewrite Hs.
  - pose proof (capture_clone_id other) as Hid.
    destruct this as [? ? ?|? ? ?], other as [? ? [?|]|? ? [?|]]; try discriminate; intros [= <-]; simpl; intros H;
      try (destruct H as [H|H]; [discriminate|now destruct H]).
    + simpl in Hid. now rewrite Hid.
    + simpl in Hid. now rewrite Hid.
Qed.

Lemma capture_assign_null this other o :
  capture_assign false this other = Some o -> capture_pipe other = None -> o = UB NullDeref.
Proof.
  unfold capture_assign. destruct this as [? ? ?|? ? ?], other as [? ? [?|]|? ? [?|]]; try discriminate; intros [= <-]; simpl; congruence.
Qed.
