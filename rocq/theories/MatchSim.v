(** Two facts about all runs of the search, proved by induction on the fuel:
    how the limit affects a run, and how a run in which Rule::matches fails
    (throws, or has undefined behaviour) relates to a run in which it just
    returns false. *)

From Coq Require Import Arith NArith Bool List Lia.
From Verif Require Import Base Dom Values Match Rule RuleMatching.
Import ListNotations.

(** ** The limit *)

Section Limit.
Variable R : rule.
Variable D : node.
Variable matches : rule -> npath -> outcome bool.
(** Rule::matches does not itself use the exception of the search limit. *)
Hypothesis no_mse : forall r p, matches r p <> Throw MaxSearchError.

(** There is a number [c] such that the run with limit [n > 0] stops with
    MaxSearchError if [n <= c] and is like the unlimited run otherwise. *)
Definition lim {A} (m : M A) : Prop :=
  exists c, m 0%N <> Throw MaxSearchError /\
    (forall a n0, m 0%N = Ok (a, n0) -> n0 = 0%N) /\
    forall n, (0 < n)%N ->
      m n = if (n <=? c)%N then Throw MaxSearchError
            else match m 0%N with Ok (a, _) => Ok (a, (n - c)%N) | o => o end.

Lemma lim_ret {A} (a : A) : lim (ret a).
Proof.
  exists 0%N. unfold ret. split; [discriminate|]. split; [congruence|]. intros n Hn.
  destruct (N.leb_spec n 0); [lia|]. now rewrite N.sub_0_r.
Qed.

Lemma lim_fuel {A} : lim (@out_of_fuel A).
Proof.
  exists 0%N. unfold out_of_fuel. split; [discriminate|]. split; [discriminate|]. intros n Hn.
  destruct (N.leb_spec n 0); [lia|]. reflexivity.
Qed.

Lemma lim_lift {A} (m : outcome A) : m <> Throw MaxSearchError -> lim (lift m).
Proof.
  intros H. exists 0%N. unfold lift. destruct m as [a|e|u|]; cbn [obind].
  - split; [discriminate|]. split; [congruence|]. intros n Hn. destruct (N.leb_spec n 0); [lia|]. now rewrite N.sub_0_r.
  - split; [congruence|]. split; [discriminate|]. intros n Hn. destruct (N.leb_spec n 0); [lia|]. reflexivity.
  - split; [congruence|]. split; [discriminate|]. intros n Hn. destruct (N.leb_spec n 0); [lia|]. reflexivity.
  - split; [congruence|]. split; [discriminate|]. intros n Hn. destruct (N.leb_spec n 0); [lia|]. reflexivity.
Qed.

Lemma lim_tick : lim tick.
Proof.
  exists 1%N. unfold tick. simpl. split; [discriminate|]. split; [congruence|]. intros n Hn.
  destruct (N.eqb_spec n 0); [lia|].
  destruct (N.eqb_spec (n - 1) 0); destruct (N.leb_spec n 1); try lia; reflexivity.
Qed.

Lemma lim_bind {A B} (m : M A) (k : A -> M B) : lim m -> (forall a, lim (k a)) -> lim (bind m k).
Proof.
  intros [c [H1 [H2 H3]]] Hk. unfold lim, bind.
  destruct (m 0%N) as [[a n0]|e|u|] eqn:E; cbn [obind].
  - specialize (H2 a n0 eq_refl). subst n0. destruct (Hk a) as [c' [K1 [K2 K3]]].
    exists (c + c')%N. split; [exact K1|]. split; [exact K2|]. intros n Hn. rewrite (H3 n Hn).
    destruct (N.leb_spec n c); cbn [obind].
    + destruct (N.leb_spec n (c + c')); [reflexivity|lia].
    + rewrite K3 by lia.
      destruct (N.leb_spec (n - c) c'); destruct (N.leb_spec n (c + c')); try lia; [reflexivity|].
      now rewrite N.sub_add_distr.
  - exists c. split; [congruence|]. split; [discriminate|]. intros n Hn. rewrite (H3 n Hn).
    destruct (N.leb_spec n c); reflexivity.
  - exists c. split; [congruence|]. split; [discriminate|]. intros n Hn. rewrite (H3 n Hn).
    destruct (N.leb_spec n c); reflexivity.
  - exists c. split; [congruence|]. split; [discriminate|]. intros n Hn. rewrite (H3 n Hn).
    destruct (N.leb_spec n c); reflexivity.
Qed.

Lemma rderef_no_mse p : rderef R p <> Throw MaxSearchError.
Proof. unfold rderef. destruct (rget R p); discriminate. Qed.
Lemma deref_no_mse p : deref D p <> Throw MaxSearchError.
Proof. unfold deref. destruct (nget D p); discriminate. Qed.
Lemma next_no_mse p : NextNode D p <> Throw MaxSearchError.
Proof.
  unfold NextNode. destruct p as [q|]; [|discriminate]. unfold deref.
  destruct (nget D q); simpl; [|discriminate]. destruct q as [|i pp]; [discriminate|].
  destruct (nget D pp) as [par|]; cbn [obind]; [|discriminate].
  destruct (is_element par); [|discriminate]. now destruct (Nat.ltb _ _).
Qed.
Lemma find_no_mse a e : FindMandatoryRule R a e <> Throw MaxSearchError.
Proof.
  unfold FindMandatoryRule. destruct a as [p|]; [|discriminate]. unfold rderef.
  destruct (rget R p); discriminate.
Qed.
Lemma tail_no_mse a nd sub : group_tail R a nd sub <> Throw MaxSearchError.
Proof.
  unfold group_tail, rderef. destruct a as [p|]; simpl; [|discriminate].
  destruct (rget R p) as [r|]; simpl; [|discriminate].
  destruct (r_greedy r && back_is sub p); simpl.
  - unfold rnext. destruct (r_next r); simpl; [|discriminate].
    destruct (rget R p) as [r'|]; simpl; [|discriminate]. destruct (r_next r'); simpl; [|discriminate].
    destruct (skip_optional _ _); discriminate.
  - destruct (rget R p) as [r'|]; simpl; [|discriminate]. destruct (skip_optional _ _); discriminate.
Qed.

End Limit.

Ltac lim_auto :=
  repeat (match goal with
          | |- forall _, _ => intro
          | H : forall _, _ |- _ => solve [apply H]
          | |- lim (ret _) => apply lim_ret
          | |- lim out_of_fuel => apply lim_fuel
          | |- lim tick => apply lim_tick
          | |- lim (lift (rderef _ _)) => apply lim_lift, rderef_no_mse
          | |- lim (lift (deref _ _)) => apply lim_lift, deref_no_mse
          | |- lim (lift (NextNode _ _)) => apply lim_lift, next_no_mse
          | |- lim (lift (FindMandatoryRule _ _ _)) => apply lim_lift, find_no_mse
          | |- lim (lift (group_tail _ _ _ _)) => apply lim_lift, tail_no_mse
          | |- lim (lift (Ok _)) => apply lim_lift; discriminate
          | H : forall r p, ?m r p <> Throw MaxSearchError |- lim (lift (?m _ _)) => apply lim_lift, H
          | |- lim (bind _ _) => apply lim_bind
          | |- lim (match ?x with _ => _ end) => destruct x
          | |- lim (lift (match ?x with _ => _ end)) => destruct x
          end).

Section Limit2.
Variable R : rule.
Variable D : node.
Variable matches : rule -> npath -> outcome bool.
Hypothesis no_mse : forall r p, matches r p <> Throw MaxSearchError.

Lemma lim_all fuel :
  (forall rp np, lim (SaveMatchingNodesRecursive R D matches fuel rp np)) /\
  (forall rp np, lim (save_groups R D matches fuel rp np)) /\
  (forall rp np, lim (save_below R D matches fuel rp np)) /\
  (forall rp np, lim (MatchRuleGroup R D matches fuel rp np)) /\
  (forall a rp np sub, lim (group_loop R D matches fuel a rp np sub)) /\
  (forall rp np, lim (RuleMatchesNodeRecursive R D matches fuel rp np)) /\
  (forall cp np, lim (child_loop R D matches fuel cp np)) /\
  (forall rp k n np, lim (nested_loop R D matches fuel rp k n np)) /\
  (forall rp a e, lim (MatchRuleOnce R D matches fuel rp a e)) /\
  (forall a e na ne, lim (MatchRange R D matches fuel a e na ne)) /\
  (forall a e na ne mn, lim (range_loop R D matches fuel a e na ne mn)).
Proof.
  induction fuel as [|f [I1 [I2 [I3 [I4 [I5 [I6 [I7 [I8 [I9 [I10 I11]]]]]]]]]]].
  - repeat split; intros; apply lim_fuel.
  - split; [|split; [|split; [|split; [|split; [|split; [|split; [|split; [|split; [|split]]]]]]]]].
    all: intros; cbn [SaveMatchingNodesRecursive save_groups save_below MatchRuleGroup group_loop
      RuleMatchesNodeRecursive child_loop nested_loop MatchRuleOnce MatchRange range_loop].
    all: lim_auto.
Qed.
End Limit2.

(** ** Failing matches *)

Section Sim.
Variable R : rule.
Variable D : node.
Variable matches : rule -> npath -> outcome bool.

(** [o] is the failure of Rule::matches for a rule below [R] on a node of the
    document. *)
Definition fails {A} (o : outcome A) : Prop :=
  exists rp r p nd, rget R rp = Some r /\ nget D p = Some nd /\
    match matches r p with
    | Ok _ => False
    | Throw e => o = Throw e
    | UB u => o = UB u
    | OutOfFuel => o = OutOfFuel
    end.

Definition quiet (r : rule) (p : npath) : outcome bool :=
  match matches r p with Ok c => Ok c | _ => Ok false end.

Definition sim {A} (m m' : M A) : Prop := forall n, m n = m' n \/ fails (m n).

Lemma sim_refl {A} (m : M A) : sim m m.
Proof. intros n. now left. Qed.

Lemma fails_bind {A B} (o : outcome A) (k : A -> outcome B) : fails o -> fails (obind o k).
Proof.
  intros [rp [r [p [nd [H1 [H2 H3]]]]]]. exists rp, r, p, nd. repeat split; auto.
  destruct (matches r p); [contradiction| | |]; subst o; reflexivity.
Qed.

Lemma sim_bind {A B} (m m' : M A) (k k' : A -> M B) :
  sim m m' -> (forall a, sim (k a) (k' a)) -> sim (bind m k) (bind m' k').
Proof.
  intros Hm Hk n. unfold bind. destruct (Hm n) as [E|F].
  - rewrite E. destruct (m' n) as [[a n']|e|u|]; cbn [obind]; auto. apply Hk.
  - right. now apply fails_bind.
Qed.

Lemma sim_matches {B} rp r p nd (k k' : bool -> M B) :
  rget R rp = Some r -> nget D p = Some nd -> (forall a, sim (k a) (k' a)) ->
  sim (bind (lift (matches r p)) k) (bind (lift (quiet r p)) k').
Proof.
  intros Hr Hp Hk n. unfold bind, lift, quiet. destruct (matches r p) as [c|e|u|] eqn:E; cbn [obind].
  - apply Hk.
  - right. exists rp, r, p, nd. rewrite E. auto.
  - right. exists rp, r, p, nd. rewrite E. auto.
  - right. exists rp, r, p, nd. rewrite E. auto.
Qed.

Lemma sim_recursive {B} rp np (k k' : rule -> node -> bool -> M B) :
  (forall r n a, sim (k r n a) (k' r n a)) ->
  sim (bind (lift (rderef R rp)) (fun r => bind (lift (deref D np)) (fun n =>
         bind (lift (matches r np)) (k r n))))
      (bind (lift (rderef R rp)) (fun r => bind (lift (deref D np)) (fun n =>
         bind (lift (quiet r np)) (k' r n)))).
Proof.
  intros Hk. unfold rderef, deref.
  destruct (rget R rp) as [r|] eqn:Hr; [|apply sim_refl].
  destruct (nget D np) as [nd|] eqn:Hn; [|apply sim_refl].
  intros n. exact (sim_matches rp r np nd (k r nd) (k' r nd) Hr Hn (Hk r nd) n).
Qed.

End Sim.

Ltac sim_auto :=
  repeat (match goal with
          | |- forall _, _ => intro
          | |- sim _ _ _ ?m ?m => apply sim_refl
          | H : forall _, _ |- _ => solve [apply H]
          | |- sim ?R ?D ?m (bind (lift (rderef _ ?rp)) (fun r => bind (lift (deref _ ?np)) _)) _ =>
              apply (sim_recursive R D m rp np)
          | |- sim _ _ _ (bind _ _) (bind _ _) => apply sim_bind
          | |- sim _ _ _ (match ?x with _ => _ end) (match ?x with _ => _ end) => destruct x
          end).

Section Sim2.
Variable R : rule.
Variable D : node.
Variable matches : rule -> npath -> outcome bool.
Notation q := (quiet matches).

Lemma sim_all fuel :
  (forall rp np, sim R D matches (SaveMatchingNodesRecursive R D matches fuel rp np) (SaveMatchingNodesRecursive R D q fuel rp np)) /\
  (forall rp np, sim R D matches (save_groups R D matches fuel rp np) (save_groups R D q fuel rp np)) /\
  (forall rp np, sim R D matches (save_below R D matches fuel rp np) (save_below R D q fuel rp np)) /\
  (forall rp np, sim R D matches (MatchRuleGroup R D matches fuel rp np) (MatchRuleGroup R D q fuel rp np)) /\
  (forall a rp np sub, sim R D matches (group_loop R D matches fuel a rp np sub) (group_loop R D q fuel a rp np sub)) /\
  (forall rp np, sim R D matches (RuleMatchesNodeRecursive R D matches fuel rp np) (RuleMatchesNodeRecursive R D q fuel rp np)) /\
  (forall cp np, sim R D matches (child_loop R D matches fuel cp np) (child_loop R D q fuel cp np)) /\
  (forall rp k n np, sim R D matches (nested_loop R D matches fuel rp k n np) (nested_loop R D q fuel rp k n np)) /\
  (forall rp a e, sim R D matches (MatchRuleOnce R D matches fuel rp a e) (MatchRuleOnce R D q fuel rp a e)) /\
  (forall a e na ne, sim R D matches (MatchRange R D matches fuel a e na ne) (MatchRange R D q fuel a e na ne)) /\
  (forall a e na ne mn, sim R D matches (range_loop R D matches fuel a e na ne mn) (range_loop R D q fuel a e na ne mn)).
Proof.
  induction fuel as [|f [I1 [I2 [I3 [I4 [I5 [I6 [I7 [I8 [I9 [I10 I11]]]]]]]]]]].
  - repeat split; intros; apply sim_refl.
  - split; [|split; [|split; [|split; [|split; [|split; [|split; [|split; [|split; [|split]]]]]]]]].
    all: intros; cbn [SaveMatchingNodesRecursive save_groups save_below MatchRuleGroup group_loop
      RuleMatchesNodeRecursive child_loop nested_loop MatchRuleOnce MatchRange range_loop].
    all: sim_auto.
Qed.
End Sim2.

(** ** More fuel *)

(** Unless it runs out of fuel, a run gives the same with more fuel. *)
Definition mono {A} (m m' : M A) : Prop := forall n, m n = OutOfFuel \/ m' n = m n.

Lemma mono_refl {A} (m : M A) : mono m m.
Proof. intros n. now right. Qed.
Lemma mono_fuel {A} (m : M A) : mono out_of_fuel m.
Proof. intros n. now left. Qed.
Lemma mono_trans {A} (m m' m'' : M A) : mono m m' -> mono m' m'' -> mono m m''.
Proof.
  intros H H' n. destruct (H n) as [E|E]; [now left|]. destruct (H' n) as [E'|E']; [left; congruence|right; congruence].
Qed.
Lemma mono_bind {A B} (m m' : M A) (k k' : A -> M B) :
  mono m m' -> (forall a, mono (k a) (k' a)) -> mono (bind m k) (bind m' k').
Proof.
  intros Hm Hk n. unfold bind. destruct (Hm n) as [E|E]; rewrite E; [now left|].
  destruct (m n) as [[a n']|e|u|]; cbn [obind]; auto. apply Hk.
Qed.

Ltac mono_auto :=
  repeat (match goal with
          | |- forall _, _ => intro
          | |- mono ?m ?m => apply mono_refl
          | H : forall _, _ |- _ => solve [apply H]
          | |- mono (bind _ _) (bind _ _) => apply mono_bind
          | |- mono (match ?x with _ => _ end) (match ?x with _ => _ end) => destruct x
          end).

Section Mono.
Variable R : rule.
Variable D : node.
Variable matches : rule -> npath -> outcome bool.

Lemma mono_all fuel :
  (forall rp np, mono (SaveMatchingNodesRecursive R D matches fuel rp np) (SaveMatchingNodesRecursive R D matches (S fuel) rp np)) /\
  (forall rp np, mono (save_groups R D matches fuel rp np) (save_groups R D matches (S fuel) rp np)) /\
  (forall rp np, mono (save_below R D matches fuel rp np) (save_below R D matches (S fuel) rp np)) /\
  (forall rp np, mono (MatchRuleGroup R D matches fuel rp np) (MatchRuleGroup R D matches (S fuel) rp np)) /\
  (forall a rp np sub, mono (group_loop R D matches fuel a rp np sub) (group_loop R D matches (S fuel) a rp np sub)) /\
  (forall rp np, mono (RuleMatchesNodeRecursive R D matches fuel rp np) (RuleMatchesNodeRecursive R D matches (S fuel) rp np)) /\
  (forall cp np, mono (child_loop R D matches fuel cp np) (child_loop R D matches (S fuel) cp np)) /\
  (forall rp k n np, mono (nested_loop R D matches fuel rp k n np) (nested_loop R D matches (S fuel) rp k n np)) /\
  (forall rp a e, mono (MatchRuleOnce R D matches fuel rp a e) (MatchRuleOnce R D matches (S fuel) rp a e)) /\
  (forall a e na ne, mono (MatchRange R D matches fuel a e na ne) (MatchRange R D matches (S fuel) a e na ne)) /\
  (forall a e na ne mn, mono (range_loop R D matches fuel a e na ne mn) (range_loop R D matches (S fuel) a e na ne mn)).
Proof.
  induction fuel as [|f [I1 [I2 [I3 [I4 [I5 [I6 [I7 [I8 [I9 [I10 I11]]]]]]]]]]].
  - repeat split; intros; apply mono_fuel.
  - remember (S f) as f1 eqn:Ef. 
    split; [|split; [|split; [|split; [|split; [|split; [|split; [|split; [|split; [|split]]]]]]]]].
    all: intros; rewrite Ef at 1; cbn [SaveMatchingNodesRecursive save_groups save_below MatchRuleGroup group_loop
      RuleMatchesNodeRecursive child_loop nested_loop MatchRuleOnce MatchRange range_loop].
    all: mono_auto.
Qed.

Lemma Save_mono f f' rp np n : f <= f' ->
  SaveMatchingNodesRecursive R D matches f rp np n <> OutOfFuel ->
  SaveMatchingNodesRecursive R D matches f' rp np n = SaveMatchingNodesRecursive R D matches f rp np n.
Proof.
  intros H Hn. assert (HM : mono (SaveMatchingNodesRecursive R D matches f rp np) (SaveMatchingNodesRecursive R D matches f' rp np)).
  { induction H as [|f' H IH]; [apply mono_refl|]. eapply mono_trans; [exact IH|]. apply mono_all. }
  destruct (HM n) as [E|E]; congruence.
Qed.
End Mono.

(** ** Searches of rules without nested rules *)

(** The run leaves the counter alone. *)
Definition free {A} (m : M A) : Prop :=
  forall n, m n = match m 0%N with Ok (a, _) => Ok (a, n) | o => o end.

Lemma free_ret {A} (a : A) : free (ret a).
Proof. intros n. reflexivity. Qed.
Lemma free_fuel {A} : free (@out_of_fuel A).
Proof. intros n. reflexivity. Qed.
Lemma free_lift {A} (m : outcome A) : free (lift m).
Proof. intros n. unfold lift. destruct m; reflexivity. Qed.
Lemma free_bind {A B} (m : M A) (k : A -> M B) : free m -> (forall a, free (k a)) -> free (bind m k).
Proof.
  intros Hm Hk n. unfold bind. rewrite (Hm n). pose proof (Hm 0%N) as H0.
  destruct (m 0%N) as [[a n0]|e|u|]; cbn [obind]; [|reflexivity|reflexivity|reflexivity].
  injection H0 as ->. apply Hk.
Qed.

Section Free.
Variable R : rule.
Variable D : node.
Variable matches : rule -> npath -> outcome bool.
Hypothesis no_nested : forall rp r, rget R rp = Some r -> r_nested r = [].

Lemma free_deref {B} rp (k : rule -> M B) :
  (forall r, r_nested r = [] -> free (k r)) -> free (bind (lift (rderef R rp)) k).
Proof.
  intros Hk. unfold rderef. destruct (rget R rp) as [r|] eqn:E; [|intros n; reflexivity].
  intros n. exact (Hk r (no_nested rp r E) n).
Qed.

Ltac free_auto :=
  repeat (match goal with
          | |- forall _, _ => intro
          | H : forall _, _ |- _ => solve [apply H]
          | H : r_nested ?r = [] |- _ => rewrite H in *; cbn [length]
          | |- context [Nat.ltb ?k 0] => change (Nat.ltb k 0) with false; cbv iota
          | |- free (ret _) => apply free_ret
          | |- free out_of_fuel => apply free_fuel
          | |- free (lift _) => apply free_lift
          | |- free (bind (lift (rderef R _)) _) => apply free_deref
          | |- free (bind _ _) => apply free_bind
          | |- free (match ?x with _ => _ end) => destruct x
          end).

Lemma free_all fuel :
  (forall rp np, free (MatchRuleGroup R D matches fuel rp np)) /\
  (forall a rp np sub, free (group_loop R D matches fuel a rp np sub)) /\
  (forall rp np, free (RuleMatchesNodeRecursive R D matches fuel rp np)) /\
  (forall cp np, free (child_loop R D matches fuel cp np)) /\
  (forall rp k np, free (nested_loop R D matches fuel rp k 0 np)) /\
  (forall rp a e, free (MatchRuleOnce R D matches fuel rp a e)) /\
  (forall a e na ne, free (MatchRange R D matches fuel a e na ne)) /\
  (forall a e na ne mn, free (range_loop R D matches fuel a e na ne mn)).
Proof.
  induction fuel as [|f [I4 [I5 [I6 [I7 [I8 [I9 [I10 I11]]]]]]]].
  - repeat split; intros; apply free_fuel.
  - split; [|split; [|split; [|split; [|split; [|split; [|split]]]]]].
    all: intros; cbn [MatchRuleGroup group_loop
      RuleMatchesNodeRecursive child_loop nested_loop MatchRuleOnce MatchRange range_loop].
    all: free_auto.
Qed.

Lemma free_save_groups fuel : forall rp np, free (save_groups R D matches fuel rp np).
Proof.
  induction fuel as [|f IH]; intros; cbn [save_groups]; [apply free_fuel|].
  pose proof (proj1 (free_all f)) as HG. free_auto.
Qed.

End Free.
