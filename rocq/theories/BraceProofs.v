(** Rules whose braces stand in another order. *)

From Coq Require Import Ascii String Arith NArith ZArith Bool List Lia Permutation Sorted.
From Verif Require Import Base Tags Dom Values Match Rule RuleMatching MatchSem MatchRefine AlikeSim MatchSpec ExtractSpec RewriteSpec BraceSpec.
Import ListNotations.

(** ** Addresses *)

Lemma rget_snoc st : forall rp R, rget R (rp ++ [st]) = match rstep_get R st with Some r => rget r rp | None => None end.
Proof.
  induction rp as [|st' rp IH]; intros R; cbn [app rget]; [now destruct (rstep_get R st)|]. rewrite IH. now destruct (rstep_get R st).
Qed.

Lemma rget_app R rp : forall q, rget R (q ++ rp) = match rget R rp with Some r => rget r q | None => None end.
Proof.
  induction q as [|st q IH]; cbn [app rget]; [now destruct (rget R rp)|]. rewrite IH. now destruct (rget R rp).
Qed.

Lemma same_rule_refl r : same_rule r r.
Proof. repeat split; auto. Qed.

Lemma same_rule_trans a b c : same_rule a b -> same_rule b c -> same_rule a c.
Proof.
  intros (A1 & A2 & A3 & A4 & A5 & A6 & A7 & A8 & A9) (B1 & B2 & B3 & B4 & B5 & B6 & B7 & B8 & B9).
  repeat split; try congruence; tauto.
Qed.

Lemma renumbered_same R : renumbered R R (fun rp => rp).
Proof.
  split; [reflexivity|]. split; [intros rp r H; exists r; split; [exact H|apply same_rule_refl]|]. split; [reflexivity|]. split; [reflexivity|].
  split; [intros k rp _; now exists k|]. intros i j rp _ _ H. now injection H.
Qed.

Lemma keeps_same R name : keeps R (fun rp => rp) name.
Proof. intros i j i' j' rp a b _ _ _ _ H H1 H2. injection H1 as <-. injection H2 as <-. exact H. Qed.

Lemma renumbered_known R R' g rp : renumbered R R' g -> rget R rp <> None -> rget R' (g rp) <> None.
Proof. intros (_ & H & _) Hr. destruct (rget R rp) as [r|] eqn:E; [|congruence]. destruct (H rp r E) as [r' [-> _]]. discriminate. Qed.

Lemma renumbered_below R R' g rp : renumbered R R' g -> forall q, rget R (q ++ rp) <> None -> exists q', g (q ++ rp) = q' ++ g rp.
Proof.
  intros Hg. induction q as [|st q IH]; intros H; [now exists []|]. cbn [app] in *.
  assert (Hq : rget R (q ++ rp) <> None) by (cbn [rget] in H; destruct (rget R (q ++ rp)); congruence).
  destruct (IH Hq) as [q' Hq']. destruct Hg as (_ & _ & H1 & H2 & H3 & _). destruct st as [| |k].
  - exists (RChild :: q'). rewrite (H1 _ H), Hq'. reflexivity.
  - exists (RNext :: q'). rewrite (H2 _ H), Hq'. reflexivity.
  - destruct (H3 k _ H) as [k' Hk]. exists (RNested k' :: q'). rewrite Hk, Hq'. reflexivity.
Qed.

Lemma stored_moved R R' g rp a a' name : renumbered R R' g -> rget R rp = Some a -> rget R' (g rp) = Some a' -> stored_in a name -> stored_in a' name.
Proof.
  intros Hg Ha Ha' (q & r & c & Hr & Hc & Hn). assert (HR : rget R (q ++ rp) = Some r) by now rewrite rget_app, Ha.
  destruct (renumbered_below R R' g rp Hg q ltac:(congruence)) as [q' Hq]. destruct Hg as (_ & H & _). destruct (H _ _ HR) as [r' [Hr' HS]].
  rewrite Hq, rget_app, Ha' in Hr'. exists q', r', c. split; [exact Hr'|]. split; [|exact Hn]. destruct HS as (_ & _ & _ & <- & _). exact Hc.
Qed.

Lemma renumbered_trans R R' R'' g g' : renumbered R R' g -> renumbered R' R'' g' -> renumbered R R'' (fun rp => g' (g rp)).
Proof.
  intros Hg Hg'. pose proof (renumbered_known R R' g) as HK.
  pose proof Hg as (A1 & A2 & A3 & A4 & A5 & A6).
  destruct Hg' as (B1 & B2 & B3 & B4 & B5 & B6). split; [now rewrite A1|]. split.
  - intros rp r H. destruct (A2 rp r H) as [r' [H' S]]. destruct (B2 _ _ H') as [r'' [H'' S']]. exists r''. split; [exact H''|exact (same_rule_trans _ _ _ S S')].
  - split; [|split; [|split]].
    + intros rp H. pose proof (HK _ Hg H) as H'. rewrite (A3 rp H) in *. now apply B3.
    + intros rp H. pose proof (HK _ Hg H) as H'. rewrite (A4 rp H) in *. now apply B4.
    + intros k rp H. pose proof (HK _ Hg H) as H'. destruct (A5 k rp H) as [k' Hk]. rewrite Hk in *. now apply B5.
    + intros i j rp Hi Hj H. pose proof (HK _ Hg Hi) as Hi'. pose proof (HK _ Hg Hj) as Hj'.
      destruct (A5 i rp Hi) as [i' Ei]. destruct (A5 j rp Hj) as [j' Ej]. apply (A6 i j rp Hi Hj). rewrite Ei, Ej in *. f_equal. f_equal. exact (B6 i' j' (g rp) Hi' Hj' H).
Qed.

Lemma keeps_trans R R' R'' g g' name : renumbered R R' g -> renumbered R' R'' g' -> keeps R g name -> keeps R' g' name -> keeps R (fun rp => g' (g rp)) name.
Proof.
  intros Hg Hg' HK HK' i j i' j' rp a b Ha Hb Sa Sb Hij Hi Hj.
  pose proof Hg as (_ & A2 & _ & _ & A5 & _).
  destruct (A5 i rp ltac:(congruence)) as [i1 Hi1]. destruct (A5 j rp ltac:(congruence)) as [j1 Hj1].
  destruct (A2 _ _ Ha) as [a' [Ha' _]]. destruct (A2 _ _ Hb) as [b' [Hb' _]].
  pose proof (stored_moved R R' g _ a a' name Hg Ha Ha' Sa) as Sa'. pose proof (stored_moved R R' g _ b b' name Hg Hb Hb' Sb) as Sb'.
  rewrite Hi1 in Hi, Ha'. rewrite Hj1 in Hj, Hb'.
  exact (HK' i1 j1 i' j' (g rp) a' b' Ha' Hb' Sa' Sb' (HK i j i1 j1 rp a b Ha Hb Sa Sb Hij Hi1 Hj1) Hi Hj).
Qed.

(** ** Exchanging gives new addresses *)

Definition by_step (at_ : rstep -> rstep) (gs : rstep -> rpath -> rpath) (rp : rpath) : rpath :=
  match rev rp with [] => [] | st :: r => gs st (rev r) ++ [at_ st] end.

Lemma by_step_snoc at_ gs rp st : by_step at_ gs (rp ++ [st]) = gs st rp ++ [at_ st].
Proof. unfold by_step. rewrite rev_app_distr. cbn [rev app]. now rewrite rev_involutive. Qed.

Definition step_map (at_ : rstep -> rstep) : Prop :=
  at_ RChild = RChild /\ at_ RNext = RNext /\ (forall k, exists k', at_ (RNested k) = RNested k') /\
  (forall i j, at_ (RNested i) = at_ (RNested j) -> i = j).

Lemma renumbered_steps R R' at_ gs : same_rule R R' -> step_map at_ ->
  (forall st r, rstep_get R st = Some r -> exists r', rstep_get R' (at_ st) = Some r' /\ renumbered r r' (gs st)) ->
  renumbered R R' (by_step at_ gs).
Proof.
  intros HS (M1 & M2 & M3 & M4) H. split; [reflexivity|].
  assert (H0 : forall st, rget R [st] <> None -> by_step at_ gs [st] = [at_ st]).
  { intros st Hst. change [st] with ([] ++ [st]). rewrite by_step_snoc. cbn [rget] in Hst. destruct (rstep_get R st) as [r|] eqn:E; [|congruence].
    destruct (H st r E) as [r' [_ [-> _]]]. reflexivity. }
  assert (HI : forall rp st st', rget R (st' :: rp ++ [st]) <> None -> exists r r', rstep_get R st = Some r /\ rget r (st' :: rp) <> None /\ renumbered r r' (gs st)).
  { intros rp st st' Hst. rewrite app_comm_cons, rget_snoc in Hst. destruct (rstep_get R st) as [r|] eqn:E; [|congruence]. destruct (H st r E) as [r' [_ Hr]].
    exists r, r'. auto. }
  split; [|split; [|split; [|split]]].
  - intros rp r. destruct rp as [|st rp _] using rev_ind; [intros Hr; injection Hr as <-; now exists R'|].
    rewrite rget_snoc, by_step_snoc, rget_snoc. destruct (rstep_get R st) as [r0|] eqn:E; [|discriminate]. destruct (H st r0 E) as [r' [-> Hr]]. apply Hr.
  - intros rp. destruct rp as [|st rp _] using rev_ind; [intros Hr; now rewrite H0, M1|]. intros Hr.
    destruct (HI rp st RChild Hr) as (r & r' & E & Hk & _ & _ & Hc & _). rewrite app_comm_cons, !by_step_snoc. rewrite (Hc _ Hk). reflexivity.
  - intros rp. destruct rp as [|st rp _] using rev_ind; [intros Hr; now rewrite H0, M2|]. intros Hr.
    destruct (HI rp st RNext Hr) as (r & r' & E & Hk & _ & _ & _ & Hc & _). rewrite app_comm_cons, !by_step_snoc. rewrite (Hc _ Hk). reflexivity.
  - intros k rp. destruct rp as [|st rp _] using rev_ind.
    + intros Hr. destruct (M3 k) as [k' Hk]. exists k'. now rewrite H0, Hk.
    + intros Hr. destruct (HI rp st (RNested k) Hr) as (r & r' & E & Hk & _ & _ & _ & _ & Hc & _). rewrite app_comm_cons, !by_step_snoc.
      destruct (Hc k rp Hk) as [k' ->]. now exists k'.
  - intros i j rp. destruct rp as [|st rp _] using rev_ind.
    + intros Hi Hj. rewrite !H0 by assumption. intros E. apply M4. now injection E.
    + intros Hi Hj. destruct (HI rp st (RNested i) Hi) as (r & r' & E & Hk & _ & _ & _ & _ & _ & Hc).
      rewrite !app_comm_cons, !by_step_snoc. intros Heq. apply app_inj_tail in Heq as [Heq _].
      apply (Hc i j rp Hk); [|exact Heq]. destruct (HI rp st (RNested j) Hj) as (r2 & _ & E2 & Hk2 & _). assert (r2 = r) by congruence. now subst r2.
Qed.

Lemma keeps_steps R R' at_ gs name : step_map at_ ->
  (forall st r, rstep_get R st = Some r -> exists r', rstep_get R' (at_ st) = Some r' /\ renumbered r r' (gs st)) ->
  (forall i j i' j' a b, nth_error (r_nested R) i = Some a -> nth_error (r_nested R) j = Some b -> stored_in a name -> stored_in b name -> i < j ->
     at_ (RNested i) = RNested i' -> at_ (RNested j) = RNested j' -> i' < j') ->
  (forall st r, rstep_get R st = Some r -> keeps r (gs st) name) -> keeps R (by_step at_ gs) name.
Proof.
  intros HM H H0 HK i j i' j' rp a b. destruct rp as [|st rp _] using rev_ind.
  - intros Ha Hb Sa Sb Hij. change [RNested i] with ([] ++ [RNested i]). change [RNested j] with ([] ++ [RNested j]). rewrite !by_step_snoc.
    destruct (H (RNested i) a Ha) as [x [_ [-> _]]]. destruct (H (RNested j) b Hb) as [y [_ [-> _]]]. cbn [app]. intros Hi Hj. injection Hi as Hi. injection Hj as Hj.
    exact (H0 i j i' j' a b Ha Hb Sa Sb Hij Hi Hj).
  - rewrite !app_comm_cons, !rget_snoc, !by_step_snoc. destruct (rstep_get R st) as [r|] eqn:E; [|discriminate]. intros Ha Hb Sa Sb Hij Hi Hj.
    rewrite app_comm_cons in Hi, Hj. apply app_inj_tail in Hi as [Hi _]. apply app_inj_tail in Hj as [Hj _]. exact (HK st r E i j i' j' rp a b Ha Hb Sa Sb Hij Hi Hj).
Qed.

Definition swap (k : nat) (st : rstep) : rstep :=
  match st with RNested i => RNested (if i =? k then S k else if i =? S k then k else i) | _ => st end.

Lemma swap_map k : step_map (swap k).
Proof.
  split; [reflexivity|]. split; [reflexivity|]. split; [intros i; eexists; reflexivity|]. intros i j H. cbn [swap] in H. injection H as H.
  destruct (Nat.eqb_spec i k), (Nat.eqb_spec i (S k)), (Nat.eqb_spec j k), (Nat.eqb_spec j (S k)); lia.
Qed.

Lemma same_map : step_map (fun st => st).
Proof. split; [reflexivity|]. split; [reflexivity|]. split; [intros i; now exists i|]. intros i j H. now injection H. Qed.

Lemma nth_swap {A} (l : list A) a b l' i :
  nth_error (l ++ b :: a :: l') (if i =? length l then S (length l) else if i =? S (length l) then length l else i) = nth_error (l ++ a :: b :: l') i.
Proof.
  assert (HB : forall (x y : A), nth_error (l ++ x :: y :: l') (length l) = Some x) by (intros; rewrite nth_error_app2, Nat.sub_diag by lia; reflexivity).
  assert (HC : forall (x y : A), nth_error (l ++ x :: y :: l') (S (length l)) = Some y).
  { intros. rewrite nth_error_app2 by lia. replace (S (length l) - length l) with 1 by lia. reflexivity. }
  destruct (Nat.eqb_spec i (length l)) as [-> |H1]; [now rewrite HB, HC|]. destruct (Nat.eqb_spec i (S (length l))) as [-> |H2]; [now rewrite HB, HC|].
  destruct (Nat.ltb_spec i (length l)); [now rewrite !nth_error_app1 by assumption|]. rewrite !nth_error_app2 by assumption.
  destruct (i - length l) as [|[|k]] eqn:E; [lia|lia|reflexivity].
Qed.

Lemma exchanged_renumbered may R R' : exchanged may R R' ->
  exists g, renumbered R R' g /\ forall name, (forall a b, may a b -> apart_for name a b) -> keeps R g name.
Proof.
  induction 1 as [c n l a b l' ms cs t o g name HM|c c' n l ms cs t o g name _ (g0 & Hg & HK)|c n n' l ms cs t o g name _ (g0 & Hg & HK)|c n l a a' l' ms cs t o g name _ (g0 & Hg & HK)].
  - assert (HS : forall st r, rstep_get (mk_rule c n (l ++ a :: b :: l') ms cs t o g name) st = Some r ->
      exists r', rstep_get (mk_rule c n (l ++ b :: a :: l') ms cs t o g name) (swap (length l) st) = Some r' /\ renumbered r r' (fun rp => rp)).
    { intros st r H. exists r. split; [|apply renumbered_same]. destruct st as [| |i]; [exact H|exact H|]. cbn [rstep_get swap r_nested] in *. now rewrite nth_swap. }
    exists (by_step (swap (length l)) (fun _ rp => rp)). split.
    + apply renumbered_steps; [|apply swap_map|exact HS]. repeat split; auto. cbn [r_nested]. now rewrite !app_length.
    + intros nm Hnm. apply (keeps_steps _ _ _ _ _ (swap_map (length l)) HS); [|intros; apply keeps_same].
      intros i j i' j' x y Hx Hy Sx Sy Hij Hi Hj. cbn [r_nested swap] in *. injection Hi as Hi. injection Hj as Hj.
      destruct (Nat.eqb_spec i (length l)) as [-> |H1]; [destruct (Nat.eqb_spec j (S (length l))) as [-> |H2]|].
      * exfalso. apply (Hnm a b HM). rewrite nth_error_app2, Nat.sub_diag in Hx by lia. injection Hx as ->.
        rewrite nth_error_app2 in Hy by lia. replace (S (length l) - length l) with 1 in Hy by lia. injection Hy as ->. now split.
      * destruct (Nat.eqb_spec j (length l)); lia.
      * destruct (Nat.eqb_spec i (S (length l))), (Nat.eqb_spec j (length l)), (Nat.eqb_spec j (S (length l))); lia.
  - assert (HS : forall st r, rstep_get (mk_rule (Some c) n l ms cs t o g name) st = Some r ->
      exists r', rstep_get (mk_rule (Some c') n l ms cs t o g name) st = Some r' /\ renumbered r r' (match st with RChild => g0 | _ => fun rp => rp end)).
    { intros st r H. destruct st as [| |i]; cbn [rstep_get r_child r_next r_nested] in *; [injection H as <-; now exists c'|exists r; split; [exact H|apply renumbered_same]..]. }
    exists (by_step (fun st => st) (fun st => match st with RChild => g0 | _ => fun rp => rp end)). split.
    + apply renumbered_steps; [|apply same_map|exact HS]. repeat split; auto; discriminate.
    + intros nm Hnm. apply (keeps_steps _ _ _ _ _ same_map HS); [intros; congruence|]. intros st r H.
      destruct st as [| |i]; [|apply keeps_same..]. injection H as <-. now apply HK.
  - assert (HS : forall st r, rstep_get (mk_rule c (Some n) l ms cs t o g name) st = Some r ->
      exists r', rstep_get (mk_rule c (Some n') l ms cs t o g name) st = Some r' /\ renumbered r r' (match st with RNext => g0 | _ => fun rp => rp end)).
    { intros st r H. destruct st as [| |i]; cbn [rstep_get r_child r_next r_nested] in *; [exists r; split; [exact H|apply renumbered_same]|injection H as <-; now exists n'|exists r; split; [exact H|apply renumbered_same]]. }
    exists (by_step (fun st => st) (fun st => match st with RNext => g0 | _ => fun rp => rp end)). split.
    + apply renumbered_steps; [|apply same_map|exact HS]. repeat split; auto; discriminate.
    + intros nm Hnm. apply (keeps_steps _ _ _ _ _ same_map HS); [intros; congruence|]. intros st r H.
      destruct st as [| |i]; [apply keeps_same| |apply keeps_same]. injection H as <-. now apply HK.
  - set (gs := fun st => match st with RNested i => if i =? length l then g0 else fun rp => rp | _ => fun rp : rpath => rp end).
    assert (HS : forall st r, rstep_get (mk_rule c n (l ++ a :: l') ms cs t o g name) st = Some r ->
      exists r', rstep_get (mk_rule c n (l ++ a' :: l') ms cs t o g name) st = Some r' /\ renumbered r r' (gs st)).
    { intros st r H. destruct st as [| |i]; [exists r; split; [exact H|apply renumbered_same]..|]. cbn [rstep_get r_nested gs] in *.
      destruct (Nat.eqb_spec i (length l)) as [-> |Hi].
      - rewrite nth_error_app2, Nat.sub_diag in * by lia. injection H as <-. now exists a'.
      - exists r. split; [|apply renumbered_same]. destruct (Nat.ltb_spec i (length l)); [rewrite nth_error_app1 in * by assumption; exact H|].
        rewrite nth_error_app2 in * by assumption. destruct (i - length l) as [|k] eqn:E; [lia|exact H]. }
    exists (by_step (fun st => st) gs). split.
    + apply renumbered_steps; [|apply same_map|exact HS]. repeat split; auto. cbn [r_nested]. now rewrite !app_length.
    + intros nm Hnm. apply (keeps_steps _ _ _ _ _ same_map HS); [intros; congruence|]. intros st r H.
      destruct st as [| |i]; [apply keeps_same..|]. cbn [gs rstep_get r_nested] in *. destruct (Nat.eqb_spec i (length l)) as [-> |Hi]; [|apply keeps_same].
      rewrite nth_error_app2, Nat.sub_diag in H by lia. injection H as <-. now apply HK.
Qed.

Theorem rearranged_renumbered may R R' : rearranged may R R' ->
  exists g, renumbered R R' g /\ forall name, (forall a b, may a b -> apart_for name a b) -> keeps R g name.
Proof.
  induction 1 as [R|R R' R'' HX _ (g' & Hg' & HK')]; [exists (fun rp => rp); split; [apply renumbered_same|intros; apply keeps_same]|].
  destruct (exchanged_renumbered may R R' HX) as (g & Hg & HK). exists (fun rp => g' (g rp)). split; [exact (renumbered_trans R R' R'' g g' Hg Hg')|].
  intros name Hn. exact (keeps_trans R R' R'' g g' name Hg Hg' (HK name Hn) (HK' name Hn)).
Qed.
