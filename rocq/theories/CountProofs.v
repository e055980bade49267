(** The number of searches of a rule without nested rules. *)

From Coq Require Import Ascii String Arith NArith ZArith Bool List Lia.
From Verif Require Import Base Dom Values Match Rule RuleMatching MatchSem
  MatchRefine MatchSim MatchSpec MatchProofs ExtractSpec LocalProofs ExtractProofs.
Import ListNotations.

Open Scope nat_scope.

(** A computation that, if it succeeds without a limit, makes [c] searches. *)
Definition costs {A} (m : M A) (c : N) : Prop :=
  forall v n0, m 0%N = Ok (v, n0) -> forall n, m n = limited n v c.

Lemma costs_free {A} (m : M A) : free m -> costs m 0.
Proof. intros H v n0 H0 n. rewrite limited_0, (H n), H0. reflexivity. Qed.

Lemma costs_tick : costs tick 1.
Proof.
  intros v n0 H n. destruct v. unfold tick, limited.
  destruct (N.eqb_spec n 0); [subst; reflexivity|].
  destruct (N.eqb_spec (n - 1) 0); destruct (N.leb_spec n 1); try lia; reflexivity.
Qed.

Lemma costs_bind {A B} (m : M A) (k : A -> M B) c c' :
  costs m c -> (forall a, costs (k a) c') -> costs (bind m k) (c + c').
Proof.
  intros Hm Hk v n0 H n. unfold bind in *.
  destruct (m 0%N) as [[a n1]|e|u|] eqn:E0; cbn [obind] in H; try discriminate.
  pose proof (Hm a n1 E0 0%N) as H1. rewrite E0 in H1. unfold limited in H1. simpl in H1.
  injection H1 as ->. rewrite (Hm a 0%N E0 n). unfold limited.
  destruct (N.eqb_spec n 0); cbn [obind].
  - rewrite (Hk a v n0 H 0%N). reflexivity.
  - destruct (N.leb_spec n c); cbn [obind].
    + destruct (N.leb_spec n (c + c')); [reflexivity|lia].
    + rewrite (Hk a v n0 H (n - c)%N). unfold limited.
      destruct (N.eqb_spec (n - c) 0); [lia|].
      destruct (N.leb_spec (n - c) c'); destruct (N.leb_spec n (c + c')); try lia; [reflexivity|].
      now rewrite N.sub_add_distr.
Qed.

Lemma costs_lift_bind {A B} (m : outcome A) (k : A -> M B) c :
  (forall a, m = Ok a -> costs (k a) c) -> costs (bind (lift m) k) c.
Proof.
  intros H v n0 H0 n. unfold bind, lift in *. destruct m as [a|e|u|]; cbn [obind] in *; try discriminate.
  eapply (H a eq_refl); eauto.
Qed.

Section Count.
Variable R : rule.
Variable D : node.
Variable matches : rule -> npath -> outcome bool.
Hypothesis no_nested : forall rp r, rget R rp = Some r -> r_nested r = [].

Notation Save := (SaveMatchingNodesRecursive R D matches).
Notation Below := (save_below R D matches).

Definition searched (i : nat) (pp : npath) : N := N.of_nat (length (elements_with_children D i pp)).

Lemma elements_list_from l : forall s pp,
  (forall j c, nth_error l j = Some c -> nget D (s + j :: pp) = Some c) ->
  elements_list l s pp = elements_from D pp s (length l).
Proof.
  induction l as [|c l IH]; intros s pp H; [reflexivity|].
  unfold elements_from. cbn [length seq flat_map elements_list].
  pose proof (H 0 c eq_refl) as H0. rewrite Nat.add_0_r in H0. rewrite H0. f_equal.
  apply IH. intros j c' Hj. replace (S s + j) with (s + S j) by lia. now apply H.
Qed.

Lemma nget_child p t j c : nget D p = Some t -> nth_error (children_of t) j = Some c -> nget D (j :: p) = Some c.
Proof. intros Hp Hc. simpl. now rewrite Hp. Qed.

(** What the elements with children below a node add. *)
Definition below_count (t : node) (p : npath) : N :=
  N.of_nat (length (filter (fun q => negb (Nat.eqb (child_count D q) 0)) (elements t p))).

Lemma below_count_eq t p : nget D p = Some t ->
  below_count t p = if is_element t && negb (Nat.eqb (length (children_of t)) 0) then (1 + searched 0 p)%N else 0%N.
Proof.
  intros Hp. unfold below_count. rewrite elements_unfold.
  destruct t as [|tg o a cs| | | | |]; try reflexivity.
  cbn [filter is_element children_of andb]. unfold child_count at 1. rewrite Hp. cbn [children_of].
  rewrite (elements_list_from cs 0 p) by (intros j c Hc; apply (nget_child p _ j c Hp Hc)).
  destruct (Nat.eqb_spec (length cs) 0) as [E|E].
  - destruct cs; [reflexivity|discriminate].
  - cbn [negb length]. unfold searched, elements_with_children. rewrite Hp. unfold siblings_seen.
    cbn [is_element children_of]. rewrite Nat.sub_0_r. lia.
Qed.

Lemma searched_step i pp par t :
  nget D pp = Some par -> nget D (i :: pp) = Some t ->
  searched i pp = (below_count t (i :: pp) +
    if is_element par && Nat.ltb (S i) (length (children_of par)) then searched (S i) pp else 0)%N.
Proof.
  intros Hpar Ht. unfold searched, elements_with_children, below_count. rewrite Hpar. unfold siblings_seen.
  assert (Hi : i < length (children_of par)).
  { apply nth_error_Some. simpl in Ht. rewrite Hpar in Ht. now rewrite Ht. }
  destruct (is_element par) eqn:Hel; cbn [andb].
  - destruct (Nat.ltb_spec (S i) (length (children_of par))) as [Hl|Hl].
    + replace (length (children_of par) - i) with (S (length (children_of par) - S i)) by lia.
      unfold elements_from. cbn [seq flat_map]. rewrite Ht. rewrite filter_app, app_length. lia.
    + replace (length (children_of par) - i) with 1 by lia.
      unfold elements_from. cbn [seq flat_map]. rewrite Ht, app_nil_r. lia.
  - unfold elements_from. cbn [seq flat_map]. rewrite Ht, app_nil_r. lia.
Qed.

Lemma search_costs fuel :
  (forall rp i pp t, nget D (i :: pp) = Some t -> costs (Save fuel (Some rp) (Some (i :: pp))) (1 + searched i pp)) /\
  (forall rp i pp t, nget D (i :: pp) = Some t -> costs (Below fuel rp (i :: pp)) (searched i pp)).
Proof.
  induction fuel as [|f [IH1 IH2]].
  - split; intros; intros v n0 H0; discriminate.
  - split; intros rp i pp t Ht.
    + change (costs (bind tick (fun _ => bind (save_groups R D matches f rp (Some (i :: pp)))
          (fun gs => bind (Below f rp (i :: pp)) (fun bs => ret (gs ++ bs))))) (1 + searched i pp)).
      apply costs_bind; [apply costs_tick|]. intros _.
      replace (searched i pp) with (0 + (searched i pp + 0))%N by lia.
      apply costs_bind; [apply costs_free, free_save_groups, no_nested|]. intros gs.
      apply costs_bind; [eapply IH2; eauto|]. intros bs. apply costs_free, free_ret.
    + change (costs (bind (lift (deref D (i :: pp))) (fun n =>
         bind (if is_element n && negb (Nat.eqb (length (children_of n)) 0)
               then Save f (Some rp) (Some (0 :: i :: pp)) else ret []) (fun here =>
         bind (lift (NextNode D (Some (i :: pp)))) (fun next =>
         match next with
         | None => ret here
         | Some np' => bind (Below f rp np') (fun rest => ret (here ++ rest))
         end)))) (searched i pp)).
      apply costs_lift_bind. intros n Hn. unfold deref in Hn. rewrite Ht in Hn. injection Hn as <-.
      pose proof Ht as Ht'. cbn [nget] in Ht'. destruct (nget D pp) as [par|] eqn:Hpar; [|discriminate].
      rewrite (searched_step i pp par t Hpar Ht). apply costs_bind.
      * rewrite (below_count_eq t (i :: pp) Ht).
        destruct (is_element t && negb (length (children_of t) =? 0)) eqn:Ek; [|apply costs_free, free_ret].
        apply andb_true_iff in Ek as [_ Ek]. apply negb_true_iff, Nat.eqb_neq in Ek.
        destruct (children_of t) as [|c cs] eqn:Ec; [now simpl in Ek|].
        apply (IH1 rp 0 (i :: pp) c). apply (nget_child _ t); [exact Ht|now rewrite Ec].
      * intros here. unfold NextNode. unfold deref. rewrite Ht. cbn [obind]. rewrite Hpar. cbn [obind].
        destruct (is_element par); cbn [andb]; [|apply costs_free; intros n; reflexivity].
        destruct (Nat.ltb_spec (S i) (length (children_of par))) as [Hl|Hl]; [|apply costs_free; intros n; reflexivity].
        apply costs_lift_bind. intros a Ha. injection Ha as <-.
        destruct (nth_error (children_of par) (S i)) as [c|] eqn:Ec; [|apply nth_error_None in Ec; lia].
        replace (searched (S i) pp) with (searched (S i) pp + 0)%N by lia.
        apply costs_bind; [apply (IH2 rp (S i) pp c); now apply (nget_child _ par)|]. intros; apply costs_free, free_ret.
Qed.

End Count.

(** C04: the number of searches. *)
Theorem extract_search_count E R D i pp t gs o :
  without_nested R ->
  nget D (i :: pp) = Some t ->
  search_yields E R D (Some (i :: pp)) 0 (Ok gs) ->
  extract_yields E R D (Some (i :: pp)) 0 o ->
  forall n, (0 < n)%N ->
  extract_yields E R D (Some (i :: pp)) n
    (if (n <=? 1 + N.of_nat (length (elements_with_children D i pp)))%N then Throw MaxSearchError else o).
Proof.
  intros HN Hp [f0 Hs] [f1 Ho] n Hn.
  exists (Nat.max f0 f1). intros f Hf. specialize (Hs f ltac:(lia)). specialize (Ho f ltac:(lia)).
  assert (HN' : forall rp r, rget R rp = Some r -> r_nested r = []) by (intros rp r Hr; apply HN; exists rp; exact Hr).
  pose proof (proj1 (search_costs R D (Rule_matches E D) HN' f) [] i pp t Hp) as HC.
  unfold extract in *. destruct (SaveMatchingNodesRecursive R D (Rule_matches E D) f (Some []) (Some (i :: pp)) 0%N)
    as [[v n0]|e|u|] eqn:E0; cbn [obind] in Hs; try discriminate. simpl in Hs. injection Hs as ->.
  match goal with |- obind ?X _ = _ => assert (HX : X = limited n gs (1 + searched D i pp)) by exact (HC gs n0 E0 n) end.
  rewrite HX. unfold limited, searched.
  destruct (N.eqb_spec n 0); [lia|].
  destruct (N.leb_spec n (1 + N.of_nat (length (elements_with_children D i pp)))); [reflexivity|].
  cbn [obind] in *. exact Ho.
Qed.
