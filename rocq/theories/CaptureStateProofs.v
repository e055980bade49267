(** Proofs about captures with side effects. *)

From Coq Require Import Ascii String Arith NArith ZArith Bool List Sorted Permutation Lia.
From Verif Require Import Base StringUtil Dom Values Match Rule RuleMatching MatchSpec ExtractSpec TextSpec MatchRefine MatchSim
  ExtractProofs ResultProofs ExtractMain LocationProofs SearchSpec StringProofs CaptureState CaptureStateSpec.
Import ListNotations.

Definition cast {A B} (o : outcome A) : outcome B :=
  match o with Ok _ => OutOfFuel | Throw e => Throw e | UB u => UB u | OutOfFuel => OutOfFuel end.

Section Runs.
Context {W : Type}.
Variable act : capture_action W.
Notation performs := (performs act).
Notation do_call := (do_call act).

Definition broke (w : W) (calls : list call_of) (w' : W) (o : outcome (option result_pair)) : Prop :=
  exists before c after outs w1, calls = before ++ c :: after /\ performs w before outs w1 /\
    do_call c w1 = (w', o) /\ forall x, o <> Ok x.

Definition runs {A} (m : effect W A) (calls : list call_of) (Q : list (option result_pair) -> A -> Prop) : Prop :=
  forall w,
    (exists outs w' a, performs w calls outs w' /\ m w = (w', Ok a) /\ Q outs a) \/
    (exists w' o, broke w calls w' o /\ m w = (w', cast o)).

Lemma performs_length w calls outs w' : performs w calls outs w' -> length outs = length calls.
Proof. induction 1; simpl; auto. Qed.

Lemma performs_app w c1 o1 w1 c2 o2 w2 :
  performs w c1 o1 w1 -> performs w1 c2 o2 w2 -> performs w (c1 ++ c2) (o1 ++ o2) w2.
Proof. induction 1; intros H2; [exact H2|]. cbn [app]. econstructor; eauto. Qed.

Lemma broke_app_l w c1 c2 w' o : broke w c1 w' o -> broke w (c1 ++ c2) w' o.
Proof.
  intros (b & c & a & outs & w1 & -> & H1 & H2 & H3). exists b, c, (a ++ c2), outs, w1.
  split; [now rewrite <- app_assoc|auto].
Qed.

Lemma broke_app_r w c1 o1 w1 c2 w' o : performs w c1 o1 w1 -> broke w1 c2 w' o -> broke w (c1 ++ c2) w' o.
Proof.
  intros H (b & c & a & outs & w2 & -> & H1 & H2 & H3). exists (c1 ++ b), c, a, (o1 ++ outs), w2.
  split; [now rewrite app_assoc|]. split; [eapply performs_app; eauto|auto].
Qed.

Lemma runs_ret {A} (a : A) (Q : _ -> _ -> Prop) : Q [] a -> runs (lift (Ok a)) [] Q.
Proof. intros H w. left. exists [], w, a. split; [constructor|]. split; [reflexivity|exact H]. Qed.

Lemma runs_call rp k p : runs (act rp k p) [(rp, k, p)] (fun outs a => outs = [a]).
Proof.
  intros w. destruct (act rp k p w) as [w' o] eqn:Ha. destruct o as [a|e|u|].
  - left. exists [a], w', a. split; [|auto]. econstructor; [exact Ha|constructor].
  - right. exists w', (Throw e). split; [|reflexivity]. exists [], (rp, k, p), [], [], w.
    split; [reflexivity|]. split; [constructor|]. split; [exact Ha|discriminate].
  - right. exists w', (UB u). split; [|reflexivity]. exists [], (rp, k, p), [], [], w.
    split; [reflexivity|]. split; [constructor|]. split; [exact Ha|discriminate].
  - right. exists w', OutOfFuel. split; [|reflexivity]. exists [], (rp, k, p), [], [], w.
    split; [reflexivity|]. split; [constructor|]. split; [exact Ha|discriminate].
Qed.

Lemma runs_bind {A B} (m : effect W A) (f : A -> effect W B) c1 c2 (Q1 : _ -> _ -> Prop) (Q2 : A -> _ -> _ -> Prop) (Q : _ -> _ -> Prop) :
  runs m c1 Q1 -> (forall a, runs (f a) c2 (Q2 a)) ->
  (forall o1 o2 a b, length o1 = length c1 -> length o2 = length c2 -> Q1 o1 a -> Q2 a o2 b -> Q (o1 ++ o2) b) ->
  runs (ebind m f) (c1 ++ c2) Q.
Proof.
  intros H1 H2 HQ w. unfold ebind. destruct (H1 w) as [(o1 & w1 & a & P1 & Em & Qa)|(w1 & o & Bo & Em)]; rewrite Em.
  - destruct (H2 a w1) as [(o2 & w2 & b & P2 & Ef & Qb)|(w2 & o & Bo & Ef)].
    + left. exists (o1 ++ o2), w2, b. split; [eapply performs_app; eauto|]. split; [exact Ef|].
      eapply HQ; eauto using performs_length.
    + right. exists w2, o. split; [eapply broke_app_r; eauto|exact Ef].
  - right. exists w1, o. split; [now apply broke_app_l|]. destruct Bo as (? & ? & ? & ? & ? & _ & _ & _ & N).
    destruct o; reflexivity.
Qed.

Lemma runs_weaken {A} (m : effect W A) calls (Q Q' : _ -> _ -> Prop) :
  runs m calls Q -> (forall o a, length o = length calls -> Q o a -> Q' o a) -> runs m calls Q'.
Proof.
  intros H HQ w. destruct (H w) as [(o & w1 & a & P & Em & Qa)|H']; [left|right; exact H'].
  exists o, w1, a. repeat split; eauto using performs_length.
Qed.

Lemma runs_lift_bind {A B} (a : A) (f : A -> effect W B) calls Q : runs (f a) calls Q -> runs (ebind (lift (Ok a)) f) calls Q.
Proof. exact (fun H => H). Qed.

(** ** The calls of a rule *)

Fixpoint positions {A} (k : nat) (l : list (option A)) : list nat :=
  match l with
  | [] => []
  | None :: l' => positions (S k) l'
  | Some _ :: l' => k :: positions (S k) l'
  end.

Lemma positions_spec {A} (l : list (option A)) : forall k,
  StronglySorted lt (positions k l) /\
  forall j, In j (positions k l) <-> k <= j /\ exists c, nth_error l (j - k) = Some (Some c).
Proof.
  induction l as [|[c|] l IH]; intros k; cbn [positions].
  - split; [constructor|]. intros j. split; [intros []|]. intros [_ [c Hc]]. destruct (j - k); discriminate.
  - destruct (IH (S k)) as [HS HI]. split.
    + constructor; [exact HS|]. apply Forall_forall. intros j Hj. apply HI in Hj. lia.
    + intros j. cbn [In]. rewrite HI. split.
      * intros [<-|[Hj [c' Hc']]]; [split; [lia|]; rewrite Nat.sub_diag; exists c; reflexivity|].
        split; [lia|]. exists c'. replace (j - k) with (S (j - S k)) by lia. exact Hc'.
      * intros [Hj [c' Hc']]. destruct (Nat.eq_dec k j) as [->|N]; [now left|right]. split; [lia|].
        exists c'. replace (j - k) with (S (j - S k)) in Hc' by lia. exact Hc'.
  - destruct (IH (S k)) as [HS HI]. split; [exact HS|]. intros j. rewrite HI. split.
    + intros [Hj [c' Hc']]. split; [lia|]. exists c'. replace (j - k) with (S (j - S k)) by lia. exact Hc'.
    + intros [Hj [c' Hc']]. destruct (Nat.eq_dec k j) as [->|N]; [rewrite Nat.sub_diag in Hc'; discriminate|].
      split; [lia|]. exists c'. replace (j - k) with (S (j - S k)) in Hc' by lia. exact Hc'.
Qed.

Definition calls_for (rp : rpath) (p : npath) (k : nat) (l : list (option capture)) : list call_of :=
  map (fun j => (rp, j, p)) (positions k l).

Lemma present_app {A} (a b : list (option A)) : present (a ++ b) = present a ++ present b.
Proof. apply flat_map_app. Qed.

Lemma capture_all_runs rp p l : forall k,
  runs (capture_all_in W act rp k l p) (calls_for rp p k l) (fun outs a => a = present outs).
Proof.
  induction l as [|[c|] l IH]; intros k; cbn [capture_all_in].
  - now apply runs_ret.
  - change (calls_for rp p k (Some c :: l)) with ([(rp, k, p)] ++ calls_for rp p (S k) l).
    eapply runs_bind; [apply runs_call| |].
    + intros o. rewrite <- (app_nil_r (calls_for rp p (S k) l)).
      eapply runs_bind with (Q := fun outs a => a = match o with Some x => x :: present outs | None => present outs end);
        [apply IH|intros rest; apply runs_ret with (Q := fun outs a => outs = [] /\ a = match o with Some x => x :: rest | None => rest end); auto|].
      intros o1 o2 a b _ _ -> [-> ->]. now rewrite app_nil_r.
    + intros o1 o2 a b _ _ -> H. cbn beta in H. rewrite H. destruct a; reflexivity.
  - apply IH.
Qed.

Definition pair_calls_of (R : rule) (x : rpath * npath) : list call_of :=
  match rget R (fst x) with Some r => calls_for (fst x) (snd x) 0 (r_captures r) | None => [] end.

Lemma pair_calls_ok R x r : rget R (fst x) = Some r -> pair_calls R x (pair_calls_of R x).
Proof.
  intros Hr. unfold pair_calls_of. rewrite Hr. exists r, (positions 0 (r_captures r)). split; [exact Hr|].
  split; [reflexivity|]. destruct (positions_spec (r_captures r) 0) as [HS HI]. split; [exact HS|].
  intros k. rewrite HI, Nat.sub_0_r. split; [intros [_ H]; exact H|intros H; split; [lia|exact H]].
Qed.

Lemma capture_group_runs R g : (forall x, In x g -> exists r, rget R (fst x) = Some r) -> forall m0,
  runs (capture_group_in W act R g m0) (concat (map (pair_calls_of R) g))
    (fun outs m => m = multimap_insert_all m0 (present outs)).
Proof.
  induction g as [|[rp p] g IH]; intros HV m0; cbn [capture_group_in map concat].
  - now apply runs_ret.
  - destruct (HV (rp, p) (or_introl eq_refl)) as [r Hr]. cbn [fst] in Hr.
    unfold pair_calls_of at 1. cbn [fst snd]. unfold rderef. rewrite Hr. apply runs_lift_bind.
    assert (HV' : forall x, In x g -> exists r, rget R (fst x) = Some r) by (intros; apply HV; now right).
    specialize (IH HV'). destruct (r_captures r) as [|c cs] eqn:Hc.
    + cbn. apply IH.
    + cbn [length Nat.eqb]. eapply runs_bind; [apply capture_all_runs|intros values; apply IH|].
      intros o1 o2 a b _ _ -> ->. rewrite present_app. destruct (present o1) as [|v vs]; [reflexivity|].
      cbn [length Nat.eqb]. now rewrite insert_all_app.
Qed.

Definition group_calls_of R g := concat (map (pair_calls_of R) g).

Lemma group_calls_ok R g : (forall x, In x g -> exists r, rget R (fst x) = Some r) -> group_calls R g (group_calls_of R g).
Proof.
  intros HV. exists (map (pair_calls_of R) g). split; [|reflexivity].
  induction g as [|x g IH]; constructor.
  - destruct (HV x (or_introl eq_refl)) as [r Hr]. eapply pair_calls_ok; eauto.
  - apply IH. intros; apply HV; now right.
Qed.

Lemma capture_groups_runs R gs : (forall x, In x (concat gs) -> exists r, rget R (fst x) = Some r) ->
  runs (capture_groups_in W act R gs) (concat (map (group_calls_of R) gs))
    (fun outs res => exists outss, outs = concat outss /\
       Forall2 (fun calls outs => length outs = length calls) (map (group_calls_of R) gs) outss /\
       Forall2 map_of (filter nonempty_list (map present outss)) res).
Proof.
  induction gs as [|g gs IH]; intros HV; cbn [capture_groups_in map concat].
  - apply runs_ret. exists []. repeat constructor.
  - eapply runs_bind.
    + apply capture_group_runs. intros x Hx. apply HV. cbn [concat]. apply in_or_app. now left.
    + intros m. rewrite <- (app_nil_r (concat (map (group_calls_of R) gs))).
      eapply runs_bind with (Q := fun outs res => exists outss rest, outs = concat outss /\
         Forall2 (fun calls outs => length outs = length calls) (map (group_calls_of R) gs) outss /\
         Forall2 map_of (filter nonempty_list (map present outss)) rest /\
         res = match m with [] => rest | _ => m :: rest end).
      * apply IH. intros x Hx. apply HV. cbn [concat]. apply in_or_app. now right.
      * intros rest. apply runs_ret with (Q := fun outs a => outs = [] /\ a = match m with [] => rest | _ => m :: rest end). auto.
      * intros o1 o2 a b _ _ (outss & -> & HL & HM) [-> ->]. exists outss, a. rewrite app_nil_r. auto.
    + intros o1 o2 m res L1 L2 -> (outss & rest & -> & HL & HM & ->). exists (o1 :: outss). split; [reflexivity|].
      split; [constructor; [exact L1|exact HL]|]. cbn [map filter].
      destruct (insert_all_spec (present o1) [] (SSorted_nil _)) as [S1 [S2 S3]].
      destruct (present o1) as [|v vs] eqn:Ev; cbn [nonempty_list].
      * exact HM.
      * destruct (multimap_insert_all [] (v :: vs)) as [|y m] eqn:Em; [apply (proj1 (insert_all_nil _)) in Em; discriminate|].
        constructor; [|exact HM]. split; [exact S1|]. split; [exact S2|exact S3].
Qed.

End Runs.

(** ** The calls that extract makes *)

Section Main.
Context {W : Type}.
Variable act : capture_action W.
Variable E : engine.
Variable R : rule.
Variable D : node.

Lemma search_valid i pp t n gs : nget D (i :: pp) = Some t -> search_yields E R D (Some (i :: pp)) n (Ok gs) ->
  forall x, In x (concat gs) -> exists r, rget R (fst x) = Some r.
Proof.
  intros Hp [f0 Hf] x Hx. specialize (Hf f0 (le_n _)).
  destruct (SaveMatchingNodesRecursive R D (Rule_matches E D) f0 (Some []) (Some (i :: pp)) n) as [[gs' n']|e|u|] eqn:HS;
    cbn [obind fst] in Hf; try discriminate.
  injection Hf as ->. pose proof (search_returns E R D f0 i pp t n gs n' Hp HS) as HR.
  destruct (search_result_valid E R D i pp gs HR x Hx) as [r [_ [Hr _]]]. eauto.
Qed.

Lemma extract_in_search p n gs w : search_yields E R D p n (Ok gs) ->
  extract_yields_in act E R D p n w (capture_groups_in W act R gs w).
Proof.
  intros [f0 Hf]. exists f0. intros f Hle. specialize (Hf f Hle). unfold extract_in.
  destruct (SaveMatchingNodesRecursive R D (Rule_matches E D) f (Some []) p n) as [[gs' n']|e|u|];
    cbn [obind fst] in Hf; try discriminate.
  injection Hf as ->. reflexivity.
Qed.

Lemma extract_in_fails p n (o : outcome (list MatchingNodes)) w : search_yields E R D p n o -> (forall gs, o <> Ok gs) ->
  extract_yields_in act E R D p n w (w, cast o).
Proof.
  intros [f0 Hf] HN. exists f0. intros f Hle. specialize (Hf f Hle). unfold extract_in.
  destruct (SaveMatchingNodesRecursive R D (Rule_matches E D) f (Some []) p n) as [[gs' n']|e|u|];
    cbn [obind fst] in Hf; subst o; try reflexivity. now destruct (HN gs').
Qed.

Theorem extract_calls i pp t n gs : nget D (i :: pp) = Some t -> search_yields E R D (Some (i :: pp)) n (Ok gs) ->
  exists css, Forall2 (group_calls R) gs css /\
  forall w, exists w' o, extract_yields_in act E R D (Some (i :: pp)) n w (w', o) /\
    ((exists outss res, performs act w (concat css) (concat outss) w' /\
        Forall2 (fun calls outs => length outs = length calls) css outss /\
        o = Ok res /\ Forall2 map_of (filter nonempty_list (map present outss)) res) \/
     breaks_off act w (concat css) w' o).
Proof.
  intros Hp HS. pose proof (search_valid i pp t n gs Hp HS) as HV.
  exists (map (group_calls_of R) gs). split.
  { clear HS. induction gs as [|g gs IH]; constructor.
    - apply group_calls_ok. intros x Hx. apply HV. cbn [concat]. apply in_or_app. now left.
    - apply IH. intros x Hx. apply HV. cbn [concat]. apply in_or_app. now right. }
  intros w. pose proof (extract_in_search (Some (i :: pp)) n gs w HS) as HX.
  destruct (capture_groups_runs act R gs HV w) as [(outs & w' & res & HP & Em & outss & -> & HL & HM)|(w' & o & HB & Em)];
    rewrite Em in HX.
  - exists w', (Ok res). split; [exact HX|]. left. exists outss, res. auto.
  - exists w', (cast o). split; [exact HX|]. right. destruct HB as (b & c & a & outs & w1 & E1 & E2 & E3 & N).
    exists b, c, a, outs, w1, o. repeat split; auto. destruct o as [x0|x0|x0|]; cbn; auto. now destruct (N x0).
Qed.

Theorem extract_no_calls p n e w : search_yields E R D p n (Throw e) ->
  extract_yields_in act E R D p n w (w, Throw e).
Proof. intros H. apply (extract_in_fails p n (Throw e) w H). discriminate. Qed.

(** ** Functions whose values do not depend on the state *)

Lemma ebind_snd {A B} (m : effect W A) (f : A -> effect W B) w (o : outcome A) (g : A -> outcome B) :
  snd (m w) = o -> (forall a w', snd (f a w') = g a) -> snd (ebind m f w) = obind o g.
Proof. intros <- H. unfold ebind. destruct (m w) as [w1 [a|e|u|]]; cbn [snd obind]; auto. Qed.

Hypothesis Hsame : same_values act E R D.

Lemma capture_all_same rp p l : forall k w,
  (forall j c, nth_error l j = Some (Some c) -> capture_at R rp (k + j) = Some c) ->
  snd (capture_all_in W act rp k l p w) = capture_all E D l p.
Proof.
  induction l as [|[c|] l IH]; intros k w H; cbn [capture_all_in capture_all]; [reflexivity| |].
  - apply ebind_snd.
    + apply Hsame. specialize (H 0 c eq_refl). now rewrite Nat.add_0_r in H.
    + intros o w1. apply ebind_snd; [|reflexivity]. apply IH. intros j c' Hj.
      replace (S k + j) with (k + S j) by lia. now apply H.
  - apply IH. intros j c' Hj. replace (S k + j) with (k + S j) by lia. now apply H.
Qed.

Lemma capture_group_same g : forall m0 w, snd (capture_group_in W act R g m0 w) = capture_group E R D g m0.
Proof.
  induction g as [|[rp p] g IH]; intros m0 w; cbn [capture_group_in capture_group]; [reflexivity|].
  unfold rderef. destruct (rget R rp) as [r|] eqn:Hr; [|reflexivity]. cbn [obind].
  unfold ebind at 1, lift at 1.
  destruct (Nat.eqb (length (r_captures r)) 0); [apply IH|].
  apply ebind_snd; [|intros; apply IH]. apply capture_all_same. intros j c Hj. unfold capture_at. rewrite Hr. cbn [Nat.add].
  now rewrite Hj.
Qed.

Lemma capture_groups_same gs : forall w, snd (capture_groups_in W act R gs w) = capture_groups E R D gs.
Proof.
  induction gs as [|g gs IH]; intros w; cbn [capture_groups_in capture_groups]; [reflexivity|].
  apply ebind_snd; [apply capture_group_same|]. intros m w1. apply ebind_snd; [apply IH|reflexivity].
Qed.

Theorem extract_same f p n w : snd (extract_in W act f E R D p n w) = extract f E R D p n.
Proof.
  unfold extract_in, extract.
  apply ebind_snd; [reflexivity|]. intros [mn ?] w1. apply capture_groups_same.
Qed.

End Main.

(** ** The counter *)

Section Counter.
Variable E : engine.
Variable R : rule.
Variable D : node.
Variable rp0 : rpath.
Variable k0 : nat.
Variable name : str.
Hypothesis Honly : only_here R rp0 k0 name.

Notation act := (action_of E R D (one_user rp0 k0 count_captures)).

Definition here (c : call_of) : bool := rpath_eqb (fst (fst c)) rp0 && Nat.eqb (snd (fst c)) k0.
Definition valid_call (c : call_of) : Prop := exists x, capture_at R (fst (fst c)) (snd (fst c)) = Some x.

Lemma capture_capture_name c p x v : capture_capture E D c p = Ok (Some (x, v)) -> x = capture_name c.
Proof.
  unfold capture_capture. destruct (deref D p) as [nd|e|u|]; cbn [obind]; try discriminate.
  destruct c as [an rn pp|[f|] rn pp]; cbn [capture_name].
  - destruct nd; try discriminate. destruct (gumbo_get_attribute _ _) as [a|]; [|discriminate].
    destruct (a_value a) as [y|]; [|discriminate]. destruct (apply_pipe E pp (c_str y)); cbn [obind]; try discriminate.
    intros [= -> ->]. reflexivity.
  - destruct (call_capture_function f D p) as [y| | |]; cbn [obind]; try discriminate.
    destruct (apply_pipe E pp y); cbn [obind]; try discriminate. intros [= -> ->]. reflexivity.
  - discriminate.
Qed.

Lemma here_true c : here c = true <-> fst (fst c) = rp0 /\ snd (fst c) = k0.
Proof.
  unfold here. rewrite andb_true_iff, Nat.eqb_eq. destruct (rpath_eqb_spec (fst (fst c)) rp0); intuition congruence.
Qed.

Lemma counting_call c w w1 o : valid_call c -> do_call act c w = (w1, Ok o) ->
  if here c then w1 = (w + 1)%N /\ exists x, o = Some (name, x) /\ decimal_of (w + 1) x
  else w1 = w /\ forall x v, o = Some (x, v) -> x <> name.
Proof.
  intros [x Hx]. unfold do_call, action_of, one_user. destruct c as [[rp k] p]. cbn [fst snd] in *. rewrite Hx.
  destruct (here (rp, k, p)) eqn:Hh.
  - apply here_true in Hh as [H1 H2]. cbn [fst snd] in *. subst rp k. destruct Honly as [[f Hf] _]. rewrite Hx in Hf.
    injection Hf as ->. rewrite rpath_eqb_refl, Nat.eqb_refl. cbn [andb]. unfold ebind, count_captures.
    destruct (Z.of_N w =? INT_MAX)%Z; [discriminate|]. cbn. intros H. injection H as <- <-.
    split; [reflexivity|]. exists (decimal (w + 1)). split; [reflexivity|apply decimal_spec].
  - unfold here in Hh. cbn [fst snd] in Hh. rewrite Hh.
    assert (HN : capture_name x <> name).
    { intros HN. destruct Honly as [_ HU]. destruct (HU rp k x Hx HN) as [-> ->].
      rewrite rpath_eqb_refl, Nat.eqb_refl in Hh. discriminate. }
    assert (HL : lift (capture_capture E D x p) w = (w1, Ok o) -> w1 = w /\ (forall y v, o = Some (y, v) -> y <> name)).
    { unfold lift. intros H. injection H as <- H. split; [reflexivity|]. intros y v ->.
      apply capture_capture_name in H. now subst y. }
    destruct x as [an rn pp|[f|] rn pp]; exact HL.
Qed.

Lemma counting w calls outs w' : performs act w calls outs w' -> Forall valid_call calls ->
  numbers_from (w + 1) (values_of name (present outs)) /\
  length (values_of name (present outs)) = length (filter here calls) /\
  w' = (w + N.of_nat (length (filter here calls)))%N.
Proof.
  induction 1 as [w|w c w1 o calls outs w2 Hc Hp IH]; intros HV.
  - cbn. split; [exact I|]. split; [reflexivity|lia].
  - inversion HV as [|? ? V1 V2]; subst. specialize (IH V2). pose proof (counting_call c w w1 o V1 Hc) as H1.
    cbn [filter]. destruct (here c).
    + destruct H1 as [-> [x [-> Hx]]]. change (present (Some (name, x) :: outs)) with ((name, x) :: present outs).
      rewrite values_of_cons. cbn [fst snd]. rewrite (proj2 (str_eqb_eq name name) eq_refl).
      destruct IH as [I1 [I2 I3]]. cbn [app numbers_from length]. split; [split; [exact Hx|exact I1]|].
      split; [now f_equal|]. rewrite I3. lia.
    + destruct H1 as [-> HN]. destruct o as [[x v]|].
      * change (present (Some (x, v) :: outs)) with ((x, v) :: present outs). rewrite values_of_cons. cbn [fst snd].
        destruct (str_eqb x name) eqn:Ex; [apply str_eqb_eq in Ex; now destruct (HN x v eq_refl)|]. exact IH.
      * exact IH.
Qed.

Lemma sorted_filter_one ks : StronglySorted lt ks -> In k0 ks -> forall (p : npath),
  length (filter here (map (fun k => (rp0, k, p)) ks)) = 1.
Proof.
  intros HS HI p.
  assert (HX : forall l, StronglySorted lt l -> length (filter here (map (fun k => (rp0, k, p)) l)) = if in_dec Nat.eq_dec k0 l then 1 else 0).
  { induction 1 as [|k l Hl IH HF]; [reflexivity|]. cbn [map filter].
    unfold here at 1. cbn [fst snd]. rewrite rpath_eqb_refl. cbn [andb].
    destruct (Nat.eqb_spec k k0) as [->|N].
    - cbn [length]. rewrite IH. destruct (in_dec Nat.eq_dec k0 l) as [HI'|_].
      + rewrite Forall_forall in HF. specialize (HF k0 HI'). lia.
      + destruct (in_dec Nat.eq_dec k0 (k0 :: l)) as [_|N]; [reflexivity|]. destruct N. now left.
    - rewrite IH. destruct (in_dec Nat.eq_dec k0 l) as [HI'|N'], (in_dec Nat.eq_dec k0 (k :: l)) as [H1|H1]; try reflexivity.
      + destruct H1. now right.
      + destruct H1 as [H1|H1]; [congruence|contradiction]. }
  rewrite HX by exact HS. now destruct (in_dec Nat.eq_dec k0 ks).
Qed.

Lemma pair_calls_valid x calls : pair_calls R x calls -> Forall valid_call calls.
Proof.
  intros (r & ks & Hr & -> & _ & HI). apply Forall_forall. intros c Hc. apply in_map_iff in Hc as [k [<- Hk]].
  apply HI in Hk as [y Hy]. exists y. unfold capture_at. cbn [fst snd]. now rewrite Hr, Hy.
Qed.

Lemma pair_calls_count x calls : pair_calls R x calls ->
  length (filter here calls) = if rpath_eqb (fst x) rp0 then 1 else 0.
Proof.
  intros (r & ks & Hr & -> & HS & HI). destruct (rpath_eqb_spec (fst x) rp0) as [Ex|N].
  - rewrite Ex. apply sorted_filter_one; [exact HS|]. apply HI. rewrite Ex in Hr.
    destruct Honly as [[f Hf] _]. unfold capture_at in Hf. rewrite Hr in Hf.
    destruct (nth_error (r_captures r) k0) as [[c|]|]; try discriminate. eauto.
  - clear HS HI. induction ks as [|k ks IH]; [reflexivity|]. cbn [map filter]. unfold here at 1. cbn [fst].
    destruct (rpath_eqb_spec (fst x) rp0); [contradiction|]. exact IH.
Qed.

Lemma group_calls_count g calls : group_calls R g calls ->
  Forall valid_call calls /\
  length (filter here calls) = length (filter (fun x : rpath * npath => rpath_eqb (fst x) rp0) g).
Proof.
  intros [css [HF ->]]. induction HF as [|x cs g css Hx HF IH]; [split; [constructor|reflexivity]|].
  destruct IH as [I1 I2]. cbn [concat]. split; [apply Forall_app; split; [eapply pair_calls_valid; eauto|exact I1]|].
  rewrite filter_app, app_length, I2, (pair_calls_count x cs Hx). cbn [filter].
  destruct (rpath_eqb (fst x) rp0); reflexivity.
Qed.

Lemma groups_calls_count gs css : Forall2 (group_calls R) gs css ->
  Forall valid_call (concat css) /\ length (filter here (concat css)) = length (nodes_of rp0 gs).
Proof.
  unfold nodes_of. induction 1 as [|g cs gs css Hg HF IH]; [split; [constructor|reflexivity]|].
  destruct IH as [I1 I2], (group_calls_count g cs Hg) as [G1 G2]. cbn [concat].
  split; [apply Forall_app; auto|]. rewrite filter_app, app_length, G2, I2.
  rewrite filter_app, map_app, app_length, !map_length. reflexivity.
Qed.

Lemma values_of_app x a b : values_of x (a ++ b) = values_of x a ++ values_of x b.
Proof. unfold values_of. now rewrite filter_app, map_app. Qed.

Lemma maps_values vss : forall res, Forall2 map_of (filter nonempty_list vss) res ->
  concat (map (values_of name) res) = values_of name (concat vss).
Proof.
  induction vss as [|vs vss IH]; intros res H; cbn [filter] in H.
  - inversion H; subst. reflexivity.
  - destruct vs as [|v vs]; cbn [nonempty_list] in H; [exact (IH res H)|].
    inversion H as [|? m ? rest [_ [_ Hm]] Hr]; subst. cbn [map concat]. rewrite (IH _ Hr), Hm.
    symmetry. apply values_of_app.
Qed.

Lemma present_concat (outss : list (list (option result_pair))) : present (concat outss) = concat (map present outss).
Proof. induction outss as [|o outss IH]; [reflexivity|]. cbn [concat map]. now rewrite present_app, IH. Qed.

Theorem counter_values i pp t n gs w' res : nget D (i :: pp) = Some t ->
  search_yields E R D (Some (i :: pp)) n (Ok gs) ->
  extract_yields_in act E R D (Some (i :: pp)) n 0%N (w', Ok res) ->
  numbers_from 1 (concat (map (values_of name) res)) /\
  length (concat (map (values_of name) res)) = length (nodes_of rp0 gs) /\ w' = N.of_nat (length (nodes_of rp0 gs)).
Proof.
  intros Hp HS [f1 H1]. destruct (extract_calls act E R D i pp t n gs Hp HS) as [css [HC HX]].
  destruct (HX 0%N) as (w2 & o & [f2 H2] & HO).
  assert (HE : (w2, o) = (w', Ok res)).
  { rewrite <- (H1 (Nat.max f1 f2)), <- (H2 (Nat.max f1 f2)) by lia. reflexivity. }
  injection HE as -> ->. destruct HO as [(outss & res' & HP & _ & Er & HM)|HB].
  - injection Er as <-. destruct (groups_calls_count gs css HC) as [V1 V2].
    destruct (counting _ _ _ _ HP V1) as [N1 [N2 N3]]. rewrite (maps_values _ _ HM), <- present_concat.
    rewrite <- V2. split; [exact N1|]. split; [exact N2|exact N3].
  - destruct HB as (? & ? & ? & ? & ? & o1 & _ & _ & _ & HN). destruct o1; contradiction.
Qed.

End Counter.

(** The last step of a path is the first one from the top. *)
Lemma rget_app_last : forall R p st,
  rget R (p ++ [st]) = match rstep_get R st with Some r => rget r p | None => None end.
Proof.
  intros R p st. induction p as [|x p IH]; cbn [rget app].
  - now destruct (rstep_get R st).
  - rewrite IH. now destruct (rstep_get R st).
Qed.

Lemma search_throws_at E R D p n f e :
  SaveMatchingNodesRecursive R D (Rule_matches E D) f (Some []) p n = Throw e -> search_yields E R D p n (Throw e).
Proof.
  intros H. exists f. intros f' Hf. rewrite (Save_mono R D (Rule_matches E D) f f' _ _ _ Hf); rewrite H; [reflexivity|discriminate].
Qed.
