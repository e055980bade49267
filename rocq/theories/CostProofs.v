(** The number of tests of a search. *)

From Coq Require Import Ascii String NArith ZArith Bool List Lia.
From Verif Require Import Base StringUtil Tags Dom NodeUtil Values Match Rule RuleMatching RuleProofs MatchSem MatchRefine
  MatchSpec MatchProofs ExtractSpec DepthSpec Cost CostSpec ExtractMain.
Import ListNotations.

(** ** The counting copy computes the same *)

Section Same.

Variable R : rule.
Variable D : node.
Variable matches : rule -> npath -> outcome bool.

Definition same {A} (m : W A) (m0 : M A) : Prop := forall n, fst (m n) = m0 n.

Lemma same_no_test {A} (a : A) : same (no_test a) (ret a).
Proof. intros n. reflexivity. Qed.
Lemma same_call {A} (o : outcome A) : same (call_w o) (lift o).
Proof. intros n. reflexivity. Qed.
Lemma same_test o : same (test o) (lift o).
Proof. intros n. reflexivity. Qed.
Lemma same_tick : same tick_w tick.
Proof. intros n. reflexivity. Qed.
Lemma same_fuel {A} : same (@no_fuel_w A) out_of_fuel.
Proof. intros n. reflexivity. Qed.
Lemma same_bind {A B} (m : W A) m0 (f : A -> W B) g :
  same m m0 -> (forall a, same (f a) (g a)) -> same (bind_w m f) (bind m0 g).
Proof.
  intros Hm Hf n. unfold bind_w, bind. rewrite <- (Hm n).
  destruct (m n) as [[[a n']| | |] c]; cbn [fst obind]; try reflexivity.
  rewrite <- (Hf a n'). now destruct (f a n').
Qed.

Ltac walk :=
  repeat first
    [ assumption
    | apply same_no_test | apply same_call | apply same_test | apply same_tick | apply same_fuel
    | apply same_bind; [|intros ?]
    | match goal with
      | |- same (match ?x with _ => _ end) _ => destruct x
      | H : forall _, _ |- _ => apply H
      end ].

Lemma runs_same : forall f,
  (forall rl n, same (save_w R D matches f rl n) (SaveMatchingNodesRecursive R D matches f rl n)) /\
  (forall rp n, same (save_groups_w R D matches f rp n) (save_groups R D matches f rp n)) /\
  (forall rp np, same (save_below_w R D matches f rp np) (save_below R D matches f rp np)) /\
  (forall rl n, same (rule_group_w R D matches f rl n) (MatchRuleGroup R D matches f rl n)) /\
  (forall fr rl n sub, same (group_loop_w R D matches f fr rl n sub) (group_loop R D matches f fr rl n sub)) /\
  (forall rl n, same (matches_node_w R D matches f rl n) (RuleMatchesNodeRecursive R D matches f rl n)) /\
  (forall cp n, same (child_loop_w R D matches f cp n) (child_loop R D matches f cp n)) /\
  (forall rp k size n, same (nested_loop_w R D matches f rp k size n) (nested_loop R D matches f rp k size n)) /\
  (forall rl b e, same (once_w R D matches f rl b e) (MatchRuleOnce R D matches f rl b e)) /\
  (forall rb re nb ne, same (range_w R D matches f rb re nb ne) (MatchRange R D matches f rb re nb ne)) /\
  (forall rb re nb ne x, same (range_loop_w R D matches f rb re nb ne x) (range_loop R D matches f rb re nb ne x)).
Proof.
  induction f as [|f IH].
  { repeat split; intros; apply same_fuel. }
  destruct IH as (I1 & I2 & I3 & I4 & I5 & I6 & I7 & I8 & I9 & I10 & I11).
  repeat split; intros;
    cbn [save_w save_groups_w save_below_w rule_group_w group_loop_w matches_node_w child_loop_w nested_loop_w once_w
         range_w range_loop_w SaveMatchingNodesRecursive save_groups save_below MatchRuleGroup group_loop
         RuleMatchesNodeRecursive child_loop nested_loop MatchRuleOnce MatchRange range_loop].
  all: walk.
Qed.

End Same.

Lemma extract_same f E R D p n : fst (extract_w f E R D p n) = extract f E R D p n.
Proof.
  unfold extract_w, extract. rewrite <- (proj1 (runs_same R D (Rule_matches E D) f) (Some []) p n).
  now destruct (save_w R D (Rule_matches E D) f (Some []) p n).
Qed.

(** ** Triples *)

Definition costs {A} (B : nat) (Q : A -> nat -> Prop) (x : outcome (A * N) * nat) : Prop :=
  snd x <= B /\ forall a n', fst x = Ok (a, n') -> Q a (snd x).

Definition any {A} : A -> nat -> Prop := fun _ _ => True.

Lemma costs_weaken {A} B B' (Q Q' : A -> nat -> Prop) x :
  costs B Q x -> B <= B' -> (forall a c, Q a c -> c <= B -> Q' a c) -> costs B' Q' x.
Proof. intros [H1 H2] HB HQ. split; [lia|]. intros a n' E. apply HQ; [now apply (H2 a n')|exact H1]. Qed.

Lemma costs_no_test {A} B (Q : A -> nat -> Prop) a n : Q a 0 -> costs B Q (no_test a n).
Proof. intros H. split; [simpl; lia|]. intros a' n' E. injection E as <- <-. exact H. Qed.

Lemma costs_fuel {A} B (Q : A -> nat -> Prop) n : costs B Q (no_fuel_w n).
Proof. split; [simpl; lia|]. discriminate. Qed.

Lemma costs_call {A} B (Q : A -> nat -> Prop) o n : (forall a, o = Ok a -> Q a 0) -> costs B Q (call_w o n).
Proof.
  intros H. split; [simpl; lia|]. intros a n' E. unfold call_w, lift in *. cbn [fst snd] in *.
  destruct o as [a0| | |]; try discriminate. injection E as -> _. now apply H.
Qed.

Lemma costs_tick n : costs 0 any (tick_w n).
Proof. split; [simpl; lia|]. intros. exact I. Qed.

Lemma costs_test o n : costs 1 any (test o n).
Proof. split; [simpl; lia|]. intros. exact I. Qed.

Lemma costs_bind {A X} B1 B (P : A -> nat -> Prop) (Q : X -> nat -> Prop) (m : W A) (f : A -> W X) n :
  costs B1 P (m n) -> B1 <= B ->
  (forall a n' c, P a c -> c <= B1 -> costs (B - c) (fun x c' => Q x (c + c')) (f a n')) ->
  costs B Q (bind_w m f n).
Proof.
  intros [H1 H2] HB Hf. unfold bind_w. destruct (m n) as [[[a n']| | |] c]; cbn [fst snd] in *.
  - specialize (Hf a n' c (H2 a n' eq_refl) H1). destruct (f a n') as [o c']. destruct Hf as [F1 F2]. cbn [fst snd] in *.
    split; cbn [fst snd]; [lia|]. exact F2.
  - split; cbn [fst snd]; [lia|discriminate].
  - split; cbn [fst snd]; [lia|discriminate].
  - split; cbn [fst snd]; [lia|discriminate].
Qed.

(** A step that tests nothing. *)
Lemma costs_bind0 {A X} B (Q : X -> nat -> Prop) o (f : A -> W X) n :
  (forall a, o = Ok a -> costs B Q (f a n)) -> costs B Q (bind_w (call_w o) f n).
Proof.
  intros H. unfold bind_w, call_w, lift. destruct o as [a| | |]; cbn [obind].
  - specialize (H a eq_refl). destruct (f a n) as [x c]. exact H.
  - split; cbn; [lia|discriminate].
  - split; cbn; [lia|discriminate].
  - split; cbn; [lia|discriminate].
Qed.

(** ** Sums *)

Lemma sum_app a b : sum (a ++ b) = sum a + sum b.
Proof. unfold sum. rewrite fold_right_app. induction a as [|x a IH]; simpl; [reflexivity|]. rewrite IH. lia. Qed.

Lemma sum_add {X} (f g : X -> nat) l : sum (map (fun x => f x + g x) l) = sum (map f l) + sum (map g l).
Proof. induction l as [|x l IH]; simpl; [reflexivity|]. rewrite IH. lia. Qed.

Lemma sum_le {X} (f g : X -> nat) l : (forall x, In x l -> f x <= g x) -> sum (map f l) <= sum (map g l).
Proof.
  induction l as [|x l IH]; simpl; intros H; [lia|].
  pose proof (H x (or_introl eq_refl)). pose proof (IH (fun y Hy => H y (or_intror Hy))). lia.
Qed.

Section Lists.

Variable R : rule.
Variable D : node.
Variable matches : rule -> npath -> outcome bool.
(** The bound for one rule at one node, and whether it matches there. *)
Variable T : rule -> npath -> nat.
Variable good : rule -> npath -> Prop.

Notation Once := (once_w R D matches).
Notation Range := (range_w R D matches).
Notation Range_loop := (range_loop_w R D matches).
Notation Group := (rule_group_w R D matches).
Notation Group_loop := (group_loop_w R D matches).
Notation Node := (matches_node_w R D matches).

Definition ptrn (ns : list npath) : nptr := match ns with [] => None | p :: _ => Some p end.

Fixpoint walk_ok (ns : list npath) : Prop :=
  match ns with
  | [] => True
  | p :: ns' => (exists t, nget D p = Some t) /\ ~ In p ns' /\ NextNode D (Some p) = Ok (ptrn ns') /\ walk_ok ns'
  end.

Lemma walk_app a b : walk_ok (a ++ b) -> walk_ok b.
Proof. induction a as [|x a IH]; simpl; [auto|]. intros (_ & _ & _ & H). auto. Qed.

Definition tot (r : rule) (ns : list npath) : nat := sum (map (T r) ns).
Definition Tot (rs : list crule) (ns : list npath) : nat := sum (map (fun c => tot (snd c) ns) rs).

Lemma tot_app r a b : tot r (a ++ b) = tot r a + tot r b.
Proof. unfold tot. now rewrite map_app, sum_app. Qed.
Lemma tot_cons r x b : tot r (x :: b) = T r x + tot r b.
Proof. reflexivity. Qed.
Lemma Tot_cons c rs ns : Tot (c :: rs) ns = tot (snd c) ns + Tot rs ns.
Proof. reflexivity. Qed.
Lemma Tot_rules a b ns : Tot (a ++ b) ns = Tot a ns + Tot b ns.
Proof. unfold Tot. now rewrite map_app, sum_app. Qed.
Lemma Tot_nodes rs a b : Tot rs (a ++ b) = Tot rs a + Tot rs b.
Proof.
  unfold Tot. rewrite <- sum_add. f_equal. apply map_ext. intros c. apply tot_app.
Qed.
Lemma Tot_in c rs ns : In c rs -> tot (snd c) ns <= Tot rs ns.
Proof.
  induction rs as [|x rs IH]; [intros []|]. rewrite Tot_cons. intros [->|H]; [lia|]. specialize (IH H). lia.
Qed.
Lemma Tot_nil rs : Tot rs [] = 0.
Proof. induction rs as [|x rs IH]; [reflexivity|]. rewrite Tot_cons, IH. reflexivity. Qed.

Variable F : nat.
Hypothesis node_ok : forall f rp r p t n, f < F -> rget R rp = Some r -> nget D p = Some t ->
  costs (T r p) (fun x _ => fst x = true <-> good r p) (Node f (Some rp) (Some p) n).

Definition in_seg (seg : list npath) (x : nptr) : Prop :=
  exists pre y post, seg = pre ++ y :: post /\ x = Some y.

Definition once_post (r : rule) (seg endl : list npath) (x : nptr * MatchingNodes) (c : nat) : Prop :=
  (fst x = ptrn endl /\ Forall (fun p => ~ good r p) seg) \/
  (exists pre y post, seg = pre ++ y :: post /\ fst x = Some y /\ good r y /\ c <= tot r (pre ++ [y])).

Lemma once_cost f : f <= F -> forall seg endl rp r n,
  rget R rp = Some r -> walk_ok (seg ++ endl) ->
  costs (tot r seg) (once_post r seg endl) (Once f (Some rp) (ptrn (seg ++ endl)) (ptrn endl) n).
Proof.
  induction f as [|f IH]; intros Hf seg endl rp r n Hr Hw; [apply costs_fuel|].
  cbn [once_w]. destruct seg as [|p seg].
  { cbn [app]. destruct endl as [|e endl]; cbn [ptrn].
    - apply costs_no_test. left. split; [reflexivity|constructor].
    - destruct (nptr_eqb_spec (Some e) (Some e)) as [_|Hn]; [|now destruct Hn].
      apply costs_no_test. left. split; [reflexivity|constructor]. }
  cbn [app ptrn]. cbn [app walk_ok] in Hw. destruct Hw as ([t Ht] & Hin & Hnext & Hw).
  destruct (nptr_eqb_spec (Some p) (ptrn endl)) as [E|_].
  { exfalso. destruct endl as [|e endl]; [discriminate|]. injection E as ->. apply Hin, in_or_app. right. now left. }
  eapply costs_bind; [apply (node_ok f rp r p t n); [lia|assumption|assumption]|rewrite tot_cons; lia|].
  intros [m inner] n' c Hm Hc. cbn [fst] in Hm. destruct m.
  - apply costs_no_test. right. exists [], p, seg. repeat split; [now apply Hm|]. cbn [app]. rewrite tot_cons. lia.
  - apply costs_bind0. intros nx Hnx. rewrite Hnext in Hnx. injection Hnx as <-.
    eapply costs_weaken; [apply (IH ltac:(lia) seg endl rp r n' Hr Hw)|rewrite tot_cons; lia|].
    intros [x inn] c' Hpost Hc'. unfold once_post in *. cbn [fst] in *.
    destruct Hpost as [[Hx Hg]|(pre & y & post & Hs & Hx & Hy & Hcy)].
    + left. split; [assumption|]. constructor; [|assumption]. intros Hp. apply Hm in Hp. discriminate.
    + right. exists (p :: pre), y, post. rewrite Hs. repeat split; auto. cbn [app]. rewrite tot_cons. lia.
Qed.

Lemma in_seg_not_end seg endl y pre post : walk_ok (seg ++ endl) -> seg = pre ++ y :: post -> Some y <> ptrn endl.
Proof.
  intros Hw -> E. rewrite <- app_assoc in Hw. apply walk_app in Hw. cbn [app walk_ok] in Hw. destruct Hw as (_ & Hn & _).
  destruct endl as [|e endl]; [discriminate|]. injection E as ->. apply Hn, in_or_app. right. now left.
Qed.

Lemma seg_next seg endl y pre post : walk_ok (seg ++ endl) -> seg = pre ++ y :: post ->
  NextNode D (Some y) = Ok (ptrn (post ++ endl)) /\ walk_ok (post ++ endl).
Proof.
  intros Hw ->. rewrite <- app_assoc in Hw. apply walk_app in Hw. cbn [app walk_ok] in Hw.
  destruct Hw as (_ & _ & H1 & H2). now split.
Qed.

Definition range_post (seg endl : list npath) (mn : nptr) (x : nptr * MatchingNodes) (c : nat) : Prop :=
  fst x = mn \/ fst x = ptrn endl \/ in_seg seg (fst x).

Lemma in_seg_later seg pre y post x : seg = pre ++ y :: post -> in_seg post x -> in_seg seg x.
Proof.
  intros -> (a & z & b & -> & ->). exists (pre ++ y :: a), z, b. split; [|reflexivity].
  now rewrite <- app_assoc.
Qed.

Lemma range_loop_cost f : f <= F -> forall rs e seg endl mn n,
  linked R rs e -> (e = None \/ rs <> []) -> walk_ok (seg ++ endl) ->
  costs (Tot rs seg) (range_post seg endl mn) (Range_loop f (rptr_of rs e) e (ptrn (seg ++ endl)) (ptrn endl) mn n).
Proof.
  induction f as [|f IH]; intros Hf rs e seg endl mn n Hl He Hw; [apply costs_fuel|].
  cbn [range_loop_w]. destruct rs as [|[rp r] rs].
  { cbn [rptr_of]. destruct He as [->|He]; [|now destruct He]. apply costs_no_test. now left. }
  cbn [rptr_of]. pose proof Hl as Hl0. destruct Hl as (Hr & Hne & Hnx & Hl).
  destruct (rptr_eqb_spec (Some rp) e) as [E|_]; [now destruct Hne|].
  apply costs_bind0. intros r' Hr'. rewrite (rderef_ok _ _ _ Hr) in Hr'. injection Hr' as <-.
  eapply costs_bind; [apply (once_cost f ltac:(lia) seg endl rp r n Hr Hw)|rewrite Tot_cons; cbn [snd]; lia|].
  assert (Hnext : forall mn' n', costs (Tot rs seg) (range_post seg endl mn')
            (Range_loop f (rnext r rp) e (ptrn (seg ++ endl)) (ptrn endl) mn' n')).
  { intros mn' n'. replace (rnext r rp) with (rptr_of rs e) by (symmetry; exact Hnx).
    destruct rs as [|c rs].
    - cbn [rptr_of]. destruct f as [|f]; [apply costs_fuel|]. cbn [range_loop_w].
      destruct e as [ep|]; [|apply costs_no_test; now left].
      destruct (rptr_eqb_spec (Some ep) (Some ep)) as [_|Hn]; [|now destruct Hn]. apply costs_no_test. now left.
    - apply IH; [lia|assumption|right; discriminate|assumption]. }
  intros [x inner] n' c Hpost Hc. unfold once_post in Hpost. cbn [fst] in Hpost.
  assert (Hrest : forall mn',
            (mn' = ptrn endl) ->
            costs (Tot ((rp, r) :: rs) seg - c) (fun x c' => range_post seg endl mn x (c + c'))
              (bind_w (Range_loop f (rnext r rp) e (ptrn (seg ++ endl)) (ptrn endl) mn')
                 (fun '(last, rest) => no_test (last, inner ++ rest)) n')).
  { intros mn' Hmn'. eapply costs_bind; [apply Hnext|rewrite Tot_cons; cbn [snd]; lia|].
    intros [last rest] n'' c' Hp _. apply costs_no_test. unfold range_post in *. cbn [fst] in *. subst mn'. tauto. }
  destruct Hpost as [[Hx _]|(pre & y & post & Hs & Hx & _ & Hcy)].
  - subst x. destruct (ptrn endl) as [q|] eqn:Eq.
    + destruct (nptr_eqb_spec (Some q) (Some q)) as [_|Hn]; [|now destruct Hn]. now apply Hrest.
    + now apply Hrest.
  - subst x. destruct (nptr_eqb_spec (Some y) (ptrn endl)) as [E|_].
    { exfalso. now apply (in_seg_not_end seg endl y pre post Hw Hs). }
    destruct (seg_next seg endl y pre post Hw Hs) as [Hny Hwp].
    apply costs_bind0. intros nx Hnx'. rewrite Hny in Hnx'. injection Hnx' as <-.
    assert (Hgo : costs (Tot ((rp, r) :: rs) post) (range_post post endl (Some y))
              (Range_loop f (if r_greedy r then Some rp else rnext r rp) e (ptrn (post ++ endl)) (ptrn endl) (Some y) n')).
    { destruct (r_greedy r).
      - apply (IH ltac:(lia) ((rp, r) :: rs) e post endl (Some y) n'); [exact Hl0|right; discriminate|assumption].
      - eapply costs_weaken with (B := Tot rs post); [|rewrite Tot_cons; lia|intros a c0 H _; exact H].
        replace (rnext r rp) with (rptr_of rs e) by (symmetry; exact Hnx).
        destruct rs as [|cr rs].
        + cbn [rptr_of]. destruct f as [|f]; [apply costs_fuel|]. cbn [range_loop_w].
          destruct e as [ep|]; [|apply costs_no_test; now left].
          destruct (rptr_eqb_spec (Some ep) (Some ep)) as [_|Hn]; [|now destruct Hn]. apply costs_no_test. now left.
        + apply IH; [lia|assumption|right; discriminate|assumption]. }
    eapply costs_bind; [exact Hgo| |].
    + assert (Hsum : Tot ((rp, r) :: rs) seg = Tot ((rp, r) :: rs) (pre ++ [y]) + Tot ((rp, r) :: rs) post).
      { rewrite <- Tot_nodes. rewrite <- app_assoc. now rewrite Hs. }
      pose proof (Tot_in (rp, r) ((rp, r) :: rs) (pre ++ [y]) (or_introl eq_refl)) as Hin. cbn [snd] in Hin. unfold crule in *. lia.
    + intros [last rest] n'' c' Hp _. apply costs_no_test. unfold range_post in *. cbn [fst] in *.
      destruct Hp as [->|[->|Hp]]; [|now right; left|].
      * right. right. now exists pre, y, post.
      * right. right. now apply (in_seg_later seg pre y post).
Qed.

(** A greedy rule that may be repeated until the end takes all its matches. *)
Lemma range_lone f : f <= F -> forall rp r rs seg mn n,
  linked R ((rp, r) :: rs) None -> r_greedy r = true -> walk_ok seg ->
  costs (Tot ((rp, r) :: rs) seg)
    (fun x _ => fst x = None \/
       exists pre y post, seg = pre ++ y :: post /\ fst x = Some y /\ Forall (fun p => ~ good r p) post)
    (Range_loop f (Some rp) None (ptrn seg) None mn n).
Proof.
  induction f as [|f IH]; intros Hf rp r rs seg mn n Hl Hg Hw; [apply costs_fuel|].
  cbn [range_loop_w]. cbn [rptr_eqb]. pose proof Hl as Hl0. destruct Hl as (Hr & _ & Hnx & Hl).
  apply costs_bind0. intros r' Hr'. rewrite (rderef_ok _ _ _ Hr) in Hr'. injection Hr' as <-.
  assert (Hw' : walk_ok (seg ++ [])) by now rewrite app_nil_r.
  pose proof (once_cost f ltac:(lia) seg [] rp r n Hr Hw') as Ho. rewrite app_nil_r in Ho. cbn [ptrn] in Ho.
  eapply costs_bind; [exact Ho|rewrite Tot_cons; cbn [snd]; lia|].
  intros [x inner] n' c Hpost Hc. unfold once_post in Hpost. cbn [fst ptrn] in Hpost.
  cbn beta match.
  destruct Hpost as [[-> Hng]|(pre & y & post & Hs & -> & _ & Hcy)].
  - pose proof (range_loop_cost f ltac:(lia) rs None seg [] None n' Hl (or_introl eq_refl) Hw') as Hrl.
    rewrite app_nil_r in Hrl. cbn [ptrn] in Hrl. replace (rptr_of rs None) with (rnext r rp) in Hrl by exact Hnx.
    eapply costs_bind; [exact Hrl|rewrite Tot_cons; cbn [snd]; lia|].
    intros [last rest] n'' c' Hp _. apply costs_no_test. unfold range_post in Hp. cbn [fst ptrn] in *.
    destruct Hp as [->|[->|(pre & y & post & Hs & ->)]]; [tauto|tauto|].
    right. exists pre, y, post. repeat split; auto. rewrite Hs in Hng. apply Forall_app in Hng as [_ Hng].
    now inversion Hng.
  - destruct (seg_next seg [] y pre post Hw' Hs) as [Hny Hwp]. rewrite app_nil_r in Hny, Hwp.
    cbn [nptr_eqb]. apply costs_bind0. intros nx Hnx'. rewrite Hny in Hnx'. injection Hnx' as <-. rewrite Hg.
    eapply costs_bind; [apply (IH ltac:(lia) rp r rs post (Some y) n' Hl0 Hg Hwp)| |].
    + assert (Hsum : Tot ((rp, r) :: rs) seg = Tot ((rp, r) :: rs) (pre ++ [y]) + Tot ((rp, r) :: rs) post).
      { rewrite <- Tot_nodes. rewrite <- app_assoc. now rewrite Hs. }
      pose proof (Tot_in (rp, r) ((rp, r) :: rs) (pre ++ [y]) (or_introl eq_refl)) as Hin. cbn [snd] in Hin. unfold crule in *. lia.
    + intros [last rest] n'' c' Hp _. apply costs_no_test. cbn [fst] in *.
      destruct Hp as [->|(a & z & b & Hs' & -> & Hb)]; [tauto|].
      right. exists (pre ++ y :: a), z, b. repeat split; auto. rewrite Hs, Hs'. now rewrite <- app_assoc.
Qed.

(** ** MatchRuleGroup *)

Variable cp : rpath.
Variable c : rule.
Hypothesis Hc : rget R cp = Some c.
Notation rs0 := (chain_of cp c).

Definition one (ns : list npath) : list npath := match ns with [] => [] | y :: _ => [y] end.

Definition group_post (start : bool) (ns : list npath) (x : nptr * MatchingNodes) (k : nat) : Prop :=
  exists seg ns', ns = seg ++ ns' /\ fst x = ptrn ns' /\ (start = true -> ns <> [] -> seg <> []) /\
  ( (exists fm, first_mand rs0 = Some fm /\ k <= Tot rs0 seg + tot (snd fm) (one ns'))
    \/ first_mand rs0 = None
    \/ (exists rs fm, rs0 = fm :: rs /\ mandatory fm = true /\ Forall (fun p => ~ good (snd fm) p) ns')).

Definition is_start (pre : list crule) : bool := match pre with [] => true | _ => false end.

Lemma first_mand_in rs m : first_mand rs = Some m -> In m rs /\ mandatory m = true.
Proof.
  unfold first_mand. pose proof (find_mand_eq rs) as H. destruct (find_mand rs) as [[[a x] b]|]; [|discriminate].
  intros E. injection E as <-. destruct H as (-> & H & _). split; [apply in_or_app; right; now left|exact H].
Qed.

Lemma first_mand_split rs m : first_mand rs = Some m ->
  exists a b, rs = a ++ m :: b /\ mandatory m = true /\ first_mand a = None.
Proof.
  unfold first_mand. pose proof (find_mand_eq rs) as H. destruct (find_mand rs) as [[[a x] b]|]; [|discriminate].
  intros E. injection E as <-. destruct H as (-> & H & Ha). exists a, b. repeat split; auto.
  clear -Ha. induction Ha as [|y a Hy Ha IH]; [reflexivity|]. cbn [find_mand]. rewrite Hy. destruct (find_mand a) as [[[? ?] ?]|]; [discriminate|reflexivity].
Qed.

(** The rest of a group after its first [seg] nodes. *)
Lemma group_post_later start start' pre_seg ns ns2 x k k1 :
  ns = pre_seg ++ ns2 -> pre_seg <> [] -> k1 <= Tot rs0 pre_seg ->
  group_post start' ns2 x k -> group_post start ns x (k1 + k).
Proof.
  intros -> Hne Hk1 (seg & ns' & -> & Hx & _ & H). exists (pre_seg ++ seg), ns'.
  repeat split; [now rewrite app_assoc|exact Hx|intros _ _; now destruct pre_seg|].
  destruct H as [(fm & Hfm & Hk)|[H|H]]; [left|tauto|tauto].
  exists fm. split; [exact Hfm|]. rewrite Tot_nodes. lia.
Qed.

Lemma group_post_none start ns k inner : k <= Tot rs0 ns -> group_post start ns (None, inner) k.
Proof.
  intros Hk. exists ns, []. rewrite app_nil_r. repeat split; [auto|].
  destruct (first_mand rs0) as [fm|] eqn:E; [left|tauto]. exists fm. cbn [one]. split; [reflexivity|].
  unfold tot at 1. simpl. lia.
Qed.

Lemma once_end f rp r ns n : f <= F -> rget R rp = Some r -> walk_ok ns ->
  costs (tot r ns) (once_post r ns []) (Once f (Some rp) (ptrn ns) None n).
Proof.
  intros Hf Hr Hw. pose proof (once_cost f Hf ns [] rp r n Hr) as H. rewrite app_nil_r in H. now apply H.
Qed.

Lemma group_tail_shape rule node sub x :
  group_tail R rule node sub = Ok x -> (fst x = node /\ snd x = sub /\ (rule = None \/ True)) \/ fst x = None.
Proof.
  unfold group_tail. intros H.
  destruct rule as [rp|]; cbn [obind] in H; [|injection H as <-; left; auto].
  destruct (rderef R rp) as [r| | |]; cbn [obind] in H; try discriminate.
  destruct (r_greedy r && back_is sub rp); cbn [obind] in H.
  - destruct (rnext r rp) as [q|]; cbn [obind] in H; [|injection H as <-; left; auto].
    destruct (rderef R q) as [r2| | |]; cbn [obind] in H; try discriminate.
    destruct (skip_optional r2 q); injection H as <-; [now right|left; auto].
  - destruct (rderef R rp) as [r2| | |]; cbn [obind] in H; try discriminate.
    destruct (skip_optional r2 rp); injection H as <-; [now right|left; auto].
Qed.

Lemma first_mand_last l m : mandatory m = true -> first_mand (l ++ [m]) <> None.
Proof.
  intros Hm. rewrite first_mand_app. destruct (first_mand l); [discriminate|]. unfold first_mand. cbn [find_mand]. rewrite Hm. discriminate.
Qed.

Lemma nodup_right {X} (a b : list X) : NoDup (a ++ b) -> NoDup b.
Proof. induction a as [|x a IH]; [auto|]. cbn [app]. intros H. inversion H. auto. Qed.

Lemma chain_addresses : NoDup (map fst rs0).
Proof. apply chain_NoDup. Qed.

Lemma group_loop_cost f : f <= F -> forall pre rules ns sub n,
  rs0 = pre ++ rules -> (pre = [] \/ first_mand pre <> None) -> walk_ok ns ->
  costs (Tot rs0 ns) (group_post (is_start pre) ns) (Group_loop f (Some cp) (rptr_of rules None) (ptrn ns) sub n).
Proof.
  induction f as [|f IH]; intros Hf pre rules ns sub n Hrs Hinv Hw; [apply costs_fuel|].
  assert (Htail : rules = [] \/ ns = [] ->
    costs (Tot rs0 ns) (group_post (is_start pre) ns) (call_w (group_tail R (rptr_of rules None) (ptrn ns) sub) n)).
  { intros Hor. apply costs_call. intros x Hx. destruct (group_tail_shape _ _ _ _ Hx) as [[Hx1 _]|Hx1].
    - exists [], ns. repeat split; [exact Hx1| |].
      + intros Hs Hn. destruct Hor as [->| ->]; [|now destruct Hn].
        destruct pre; [|discriminate]. rewrite chain_of_eq in Hrs. discriminate.
      + destruct (first_mand rs0) as [fm|]; [left|tauto]. exists fm. split; [reflexivity|]. lia.
    - destruct x as [x1 x2]. cbn [fst] in Hx1. subst x1. apply group_post_none. lia. }
  destruct rules as [|[rp r] rs]; [destruct ns as [|p ns]; cbn [group_loop_w rptr_of ptrn]; apply Htail; now left|].
  destruct ns as [|p ns]; [cbn [group_loop_w rptr_of ptrn]; apply Htail; now right|]. clear Htail.
  cbn [group_loop_w rptr_of ptrn]. change (Some p) with (ptrn (p :: ns)).
  set (nodes := p :: ns) in *.
  pose proof (chain_of_rget R cp c Hc) as HF. rewrite Hrs in HF. apply Forall_app in HF as [HFpre HF].
  inversion HF as [|? ? Hr HFrs]; subst. cbn [fst snd] in Hr.
  pose proof (chain_suffix _ _ _ _ _ _ Hrs) as Hsuf.
  assert (Hl : linked R ((rp, r) :: rs) None) by (rewrite Hsuf; now apply chain_linked).
  apply costs_bind0. intros r' Hr'. rewrite (rderef_ok _ _ _ Hr) in Hr'. injection Hr' as <-.
  assert (Hsum : forall l, Tot rs0 l = Tot pre l + tot r l + Tot rs l).
  { intros l. rewrite Hrs, Tot_rules, Tot_cons. cbn [snd]. lia. }
  assert (Hcut : forall a y b, nodes = a ++ y :: b -> nodes = (a ++ [y]) ++ b) by (intros a y b ->; now rewrite <- app_assoc).
  assert (Hcut2 : forall a y b, nodes = a ++ y :: b -> Tot rs0 nodes = Tot rs0 (a ++ [y]) + Tot rs0 b).
  { intros a y b H. rewrite <- Tot_nodes. f_equal. now apply Hcut. }
  assert (Hne : forall (a : list npath) y, a ++ [y] <> []) by (intros a y; now destruct a).
  assert (Hstep : forall a y b, nodes = a ++ y :: b -> NextNode D (Some y) = Ok (ptrn b) /\ walk_ok b).
  { intros a y b H. assert (Hw' : walk_ok (nodes ++ [])) by now rewrite app_nil_r.
    pose proof (seg_next nodes [] y a b Hw' H) as Hs. now rewrite app_nil_r in Hs. }
  destruct (r_optional r || (r_greedy r && back_is sub rp)) eqn:Ebranch.
  - apply costs_bind0. intros stop Hstop. rewrite (FindMandatoryRule_next R rp r rs Hr Hsuf) in Hstop. injection Hstop as <-.
    destruct (first_mand rs) as [[srp sr]|] eqn:Efm; cbn [crule_ptr fst].
    + (* the stop rule belongs to this group *)
      destruct (first_mand_split rs (srp, sr) Efm) as (opts & post & Hrs' & Hsm & _).
      assert (Hsr : rget R srp = Some sr).
      { rewrite Hrs' in HFrs. apply Forall_app in HFrs as [_ HFrs]. now inversion HFrs. }
      assert (Hstop_le : forall l, tot sr l + (tot r l + Tot opts l) <= Tot rs0 l).
      { intros l. rewrite (Hsum l), Hrs', Tot_rules, Tot_cons. cbn [snd]. lia. }
      eapply costs_bind; [apply (once_end f srp sr nodes n); [lia|assumption|assumption]| |].
      { specialize (Hstop_le nodes). lia. }
      intros [x inner] n1 k1 Hp Hk1. destruct Hp as [[Hx _]|(a & y & b & Hs & Hx & _ & Hky)]; cbn [fst ptrn] in Hx; subst x.
      { apply costs_no_test. apply group_post_none. specialize (Hstop_le nodes). lia. }
      destruct (Hstep a y b Hs) as [Hny Hwb].
      assert (Hseg : linked R ((rp, r) :: opts) (Some srp)).
      { apply (linked_seg R ((rp, r) :: opts) srp sr post None).
        - pose proof Hl as Hl'. rewrite Hrs' in Hl'. exact Hl'.
        - pose proof chain_addresses as Hnd. rewrite Hrs, map_app in Hnd. apply nodup_right in Hnd.
          rewrite Hrs' in Hnd. exact Hnd. }
      assert (Hrange : costs (Tot ((rp, r) :: opts) a) any (Range f (Some rp) (Some srp) (ptrn nodes) (Some y) n1)).
      { destruct f as [|f']; [apply costs_fuel|]. cbn [range_w]. unfold nodes at 1. cbn [ptrn].
        replace (ptrn nodes) with (ptrn (a ++ y :: b)) by now rewrite <- Hs.
        change (Some y) with (ptrn (y :: b)).
        eapply costs_weaken; [apply (range_loop_cost f' ltac:(lia) ((rp, r) :: opts) (Some srp) a (y :: b) (ptrn (y :: b)) n1 Hseg)|exact (Nat.le_refl _)|now unfold any].
        - right. discriminate.
        - now rewrite <- Hs. }
      assert (Hk : tot sr (a ++ [y]) + Tot ((rp, r) :: opts) a <= Tot rs0 (a ++ [y])).
      { pose proof (Hstop_le (a ++ [y])) as H. rewrite Tot_cons. cbn [snd].
        assert (tot r a <= tot r (a ++ [y])) by (rewrite tot_app; lia).
        assert (Tot opts a <= Tot opts (a ++ [y])) by (rewrite Tot_nodes; lia). lia. }
      pose proof (Hcut2 a y b Hs) as Htot.
      eapply costs_bind; [exact Hrange|lia|].
      intros [last more] n2 k2 _ Hk2.
      apply costs_bind0. intros sr' Hsr'. rewrite (rderef_ok _ _ _ Hsr) in Hsr'. injection Hsr' as <-.
      apply costs_bind0. intros nx Hnx. rewrite Hny in Hnx. injection Hnx as <-.
      assert (Hrs2 : rs0 = (pre ++ (rp, r) :: opts ++ [(srp, sr)]) ++ post).
      { rewrite Hrs, Hrs'. rewrite <- !app_assoc. cbn [app]. now rewrite <- app_assoc. }
      assert (E2 : rs0 = (pre ++ (rp, r) :: opts) ++ (srp, sr) :: post) by (rewrite Hrs, Hrs', <- app_assoc; reflexivity).
      pose proof (chain_suffix _ _ _ _ _ _ E2) as Hsuf2.
      assert (Hl2 : linked R ((srp, sr) :: post) None) by (rewrite Hsuf2; now apply chain_linked).
      rewrite (linked_next R _ _ _ _ Hl2).
      eapply costs_weaken; [apply (IH ltac:(lia) _ post b _ n2 Hrs2)|lia|].
      * right. rewrite app_comm_cons, app_assoc. now apply first_mand_last.
      * exact Hwb.
      * intros x k3 Hpost _. rewrite Nat.add_assoc. eapply group_post_later; [apply (Hcut a y b Hs)|apply Hne| |exact Hpost]. lia.
    + (* no mandatory rule follows *)
      apply costs_bind0. intros wrapped Hwrapped.
      assert (Hwr : wrapped = match crule_ptr (first_mand pre) with Some m => Some m | None => Some rp end).
      { unfold FindMandatoryRule in Hwrapped. rewrite (rderef_ok _ _ _ Hc) in Hwrapped. cbn [obind] in Hwrapped.
        rewrite (find_mandatory_to c cp pre rp r rs Hrs) in Hwrapped. now injection Hwrapped. }
      clear Hwrapped. subst wrapped. destruct (first_mand pre) as [[frp fr]|] eqn:Efp; cbn [crule_ptr fst].
      * (* stop before the next match of the first mandatory rule *)
        destruct (first_mand_in pre (frp, fr) Efp) as [Hin _].
        assert (Hfr : rget R frp = Some fr) by (rewrite Forall_forall in HFpre; now apply (HFpre (frp, fr))).
        destruct (rptr_eqb_spec (Some frp) (Some rp)) as [E|_].
        { exfalso. injection E as ->. pose proof chain_addresses as Hnd. rewrite Hrs, map_app in Hnd. cbn [map fst] in Hnd.
          apply NoDup_remove_2 in Hnd. apply Hnd. apply in_or_app. left. now apply (in_map fst) in Hin. }
        cbn beta iota.
        assert (Hfm0 : first_mand rs0 = Some (frp, fr)) by (rewrite Hrs, first_mand_app, Efp; reflexivity).
        assert (Hle : forall l, tot fr l + Tot ((rp, r) :: rs) l <= Tot rs0 l).
        { intros l. rewrite (Hsum l), Tot_cons. cbn [snd]. pose proof (Tot_in (frp, fr) pre l Hin). cbn [snd] in *. lia. }
        assert (Hpre : is_start pre = false) by (destruct pre; [destruct Hin|reflexivity]). rewrite Hpre.
        eapply costs_bind; [apply (once_end f frp fr nodes n); [lia|assumption|assumption]| |].
        { specialize (Hle nodes). unfold crule in *. lia. }
        intros [x inner] n1 k1 Hp Hk1. destruct Hp as [[Hx _]|(a & y & b & Hs & Hx & _ & Hky)]; cbn [fst ptrn] in Hx; subst x.
        -- eapply costs_bind with (B1 := Tot ((rp, r) :: rs) nodes) (P := any).
           ++ destruct f as [|f']; [apply costs_fuel|]. cbn [range_w]. unfold nodes at 1. cbn [ptrn].
              pose proof (range_loop_cost f' ltac:(lia) ((rp, r) :: rs) None nodes [] None n1 Hl (or_introl eq_refl)) as Hrl.
              rewrite app_nil_r in Hrl. eapply costs_weaken; [apply (Hrl Hw)|exact (Nat.le_refl _)|now unfold any].
           ++ specialize (Hle nodes). unfold crule in *. lia.
           ++ intros [last more] n2 k2 _ Hk2. apply costs_no_test. apply group_post_none. specialize (Hle nodes). unfold crule in *. lia.
        -- eapply costs_bind with (B1 := Tot ((rp, r) :: rs) a) (P := any).
           ++ destruct f as [|f']; [apply costs_fuel|]. cbn [range_w]. unfold nodes at 1. cbn [ptrn].
              replace (ptrn nodes) with (ptrn (a ++ y :: b)) by now rewrite <- Hs.
              change (Some y) with (ptrn (y :: b)).
              eapply costs_weaken; [apply (range_loop_cost f' ltac:(lia) ((rp, r) :: rs) None a (y :: b) (ptrn (y :: b)) n1 Hl)|exact (Nat.le_refl _)|now unfold any].
              ** now left.
              ** now rewrite <- Hs.
           ++ pose proof (Hcut2 a y b Hs). pose proof (Hle (a ++ [y])).
              assert (Tot ((rp, r) :: rs) a <= Tot ((rp, r) :: rs) (a ++ [y])) by (rewrite (Tot_nodes _ a [y]); lia).
              unfold crule in *. lia.
           ++ intros [last more] n2 k2 _ Hk2. apply costs_no_test.
              exists a, (y :: b). repeat split; [exact Hs|discriminate|]. left. exists (frp, fr). split; [exact Hfm0|].
              cbn [snd one]. rewrite tot_app in Hky. specialize (Hle a). unfold crule in *. lia.
      * (* no other mandatory rule *)
        destruct (rptr_eqb_spec (Some rp) (Some rp)) as [_|Hn]; [|now destruct Hn]. cbn beta iota.
        assert (Hpre : pre = []) by (destruct Hinv as [H|H]; [exact H|now destruct H]).
        subst pre. cbn [app is_start] in *.
        assert (Hrest : forall last, (last = None \/ in_seg nodes last) ->
                  (first_mand rs0 = None \/ forall a y b, nodes = a ++ y :: b -> last = Some y -> mandatory (rp, r) = true /\ Forall (fun q => ~ good r q) b) ->
                  forall more k nx, k <= Tot rs0 nodes ->
                  match last with None => Ok None | Some _ => NextNode D last end = Ok nx -> group_post true nodes (nx, more) k).
        { intros last Hlast Hgood more k nx Hk Hnx. destruct Hlast as [->|(a & y & b & Hs & ->)].
          - injection Hnx as <-. now apply group_post_none.
          - destruct (Hstep a y b Hs) as [Hny _]. rewrite Hny in Hnx. injection Hnx as <-.
            exists (a ++ [y]), b. repeat split; [now apply Hcut|intros _ _; apply Hne|].
            right. destruct Hgood as [H|H]; [now left|right]. destruct (H a y b Hs eq_refl) as [H1 H2].
            exists rs, (rp, r). now repeat split. }
        destruct (mandatory (rp, r)) eqn:Em.
        -- (* it is greedy and has matched before *)
           assert (Hg : r_greedy r = true).
           { unfold mandatory in Em. cbn [snd] in Em. destruct (r_optional r); [discriminate|]. cbn [orb] in Ebranch.
             now apply andb_true_iff in Ebranch. }
           eapply costs_bind with (B1 := Tot rs0 nodes).
           ++ destruct f as [|f']; [apply costs_fuel|]. cbn [range_w]. unfold nodes at 1. cbn [ptrn].
              rewrite Hrs. apply (range_lone f' ltac:(lia) rp r rs nodes None n Hl Hg Hw).
           ++ lia.
           ++ intros [last more] n2 k2 Hp Hk2. cbn [fst] in Hp. apply costs_bind0. intros nx Hnx. apply costs_no_test.
              rewrite Nat.add_0_r. destruct Hp as [->|(a & y & b & Hs & -> & Hb)].
              ** apply (Hrest None); [now left| |exact Hk2|exact Hnx]. right. discriminate.
              ** apply (Hrest (Some y)); [right; now exists a, y, b| |exact Hk2|exact Hnx].
                 right. intros a' y' b' Hs' E. injection E as ->. split; [reflexivity|].
                 assert (b' = b); [|now subst].
                 clear -Hs Hs' Hw. rewrite Hs in Hs'. rewrite Hs in Hw. clear Hs nodes.
                 revert a' Hs'. induction a as [|z a IHa]; intros a' E.
                 --- destruct a' as [|z' a']; [now injection E|]. exfalso. injection E as -> ->.
                     cbn [app walk_ok] in Hw. destruct Hw as (_ & Hn & _). apply Hn, in_or_app. right. now left.
                 --- destruct a' as [|z' a'].
                     +++ exfalso. injection E as -> <-. cbn [app walk_ok] in Hw. destruct Hw as (_ & Hn & _). apply Hn, in_or_app. right. now left.
                     +++ injection E as -> E. apply (IHa (proj2 (proj2 (proj2 Hw))) a' E).
        -- assert (Hnone : first_mand rs0 = None).
           { rewrite Hrs. unfold first_mand in *. cbn [find_mand]. rewrite Em. destruct (find_mand rs) as [[[? ?] ?]|]; [discriminate|reflexivity]. }
           eapply costs_bind with (B1 := Tot rs0 nodes) (P := fun x _ => fst x = None \/ in_seg nodes (fst x)).
           ++ destruct f as [|f']; [apply costs_fuel|]. cbn [range_w]. unfold nodes at 1. cbn [ptrn].
              pose proof (range_loop_cost f' ltac:(lia) ((rp, r) :: rs) None nodes [] None n Hl (or_introl eq_refl)) as Hrl.
              rewrite app_nil_r in Hrl. rewrite Hrs. eapply costs_weaken; [apply (Hrl Hw)|exact (Nat.le_refl _)|].
              unfold range_post. cbn [ptrn]. tauto.
           ++ lia.
           ++ intros [last more] n2 k2 Hp Hk2. cbn [fst] in Hp. apply costs_bind0. intros nx Hnx. apply costs_no_test.
              rewrite Nat.add_0_r. apply (Hrest last); [exact Hp|now left|exact Hk2|exact Hnx].
  - (* a mandatory rule *)
    assert (Hle : forall l, tot r l <= Tot rs0 l) by (intros l; rewrite (Hsum l); lia).
    eapply costs_bind; [apply (once_end f rp r nodes n); [lia|assumption|assumption]|apply Hle|].
    intros [x inner] n1 k1 Hp Hk1. destruct Hp as [[Hx _]|(a & y & b & Hs & Hx & _ & Hky)]; cbn [fst ptrn] in Hx; subst x.
    { apply costs_no_test. apply group_post_none. specialize (Hle nodes). unfold crule in *. lia. }
    destruct (Hstep a y b Hs) as [Hny Hwb]. pose proof (Hcut2 a y b Hs) as Htot. pose proof (Hle (a ++ [y])) as Hle'.
    apply costs_bind0. intros nx Hnx. rewrite Hny in Hnx. injection Hnx as <-.
    assert (Hm : mandatory (rp, r) = true).
    { unfold mandatory. cbn [snd]. now destruct (r_optional r). }
    assert (Hgo : costs (Tot rs0 b) (fun x k => exists st, group_post st b x k)
              (Group_loop f (Some cp) (if r_greedy r then Some rp else rnext r rp) (ptrn b) (sub ++ inner ++ [(rp, y)]) n1)).
    { destruct (r_greedy r).
      - eapply costs_weaken; [apply (IH ltac:(lia) pre ((rp, r) :: rs) b _ n1 Hrs Hinv Hwb)|lia|].
        intros z k3 Hz _. now exists (is_start pre).
      - rewrite (linked_next R _ _ _ _ Hl).
        eapply costs_weaken; [apply (IH ltac:(lia) (pre ++ [(rp, r)]) rs b _ n1)|lia|].
        + rewrite Hrs, <- app_assoc. reflexivity.
        + right. now apply first_mand_last.
        + exact Hwb.
        + intros z k3 Hz _. now exists (is_start (pre ++ [(rp, r)])). }
    eapply costs_weaken; [exact Hgo|lia|].
    intros z k3 [st Hz] _. eapply group_post_later; [apply (Hcut a y b Hs)|apply Hne| |exact Hz]. lia.
Qed.

Lemma group_cost f p ns n : f <= F -> walk_ok (p :: ns) ->
  costs (Tot rs0 (p :: ns)) (group_post true (p :: ns)) (Group f (Some cp) (Some p) n).
Proof.
  intros Hf Hw. destruct f as [|f]; [apply costs_fuel|]. cbn [rule_group_w].
  pose proof (group_loop_cost f ltac:(lia) [] rs0 (p :: ns) [] n eq_refl (or_introl eq_refl) Hw) as H.
  destruct (chain_of_cons cp c) as [rs E]. rewrite E in H at 2. exact H.
Qed.

(** If the chain starts with a mandatory rule that matches nowhere, no other
    rule is tried. *)
Lemma group_hopeless f fm rs p ns n : f <= F -> walk_ok (p :: ns) ->
  rs0 = fm :: rs -> mandatory fm = true -> Forall (fun q => ~ good (snd fm) q) (p :: ns) ->
  costs (tot (snd fm) (p :: ns)) (fun x _ => fst x = None) (Group f (Some cp) (Some p) n).
Proof.
  intros Hf Hw E Hm Hg. destruct f as [|f]; [apply costs_fuel|]. cbn [rule_group_w].
  destruct f as [|f]; [apply costs_fuel|]. cbn [group_loop_w].
  rewrite chain_of_eq in E. injection E as <- _. cbn [snd] in *.
  apply costs_bind0. intros r' Hr'. rewrite (rderef_ok _ _ _ Hc) in Hr'. injection Hr' as <-.
  assert (Hb : r_optional c || (r_greedy c && back_is [] cp) = false).
  { unfold mandatory in Hm. cbn [snd] in Hm. destruct (r_optional c); [discriminate|]. cbn. apply andb_false_r. }
  rewrite Hb. eapply costs_bind; [apply (once_end f cp c (p :: ns) n); [lia|exact Hc|exact Hw]|lia|].
  intros [x inner] n1 k1 Hp Hk1. destruct Hp as [[Hx _]|(a & y & b & Hs & Hx & Hy & _)]; cbn [fst ptrn] in Hx; subst x.
  - now apply costs_no_test.
  - exfalso. rewrite Forall_forall in Hg. apply (Hg y); [|exact Hy]. rewrite Hs. apply in_or_app. right. now left.
Qed.

(** ** All groups of a list *)

Definition groups_bound (ns : list npath) : nat :=
  match first_mand rs0 with
  | Some fm => Tot rs0 ns + tot (snd fm) (tl ns)
  | None => length ns * Tot rs0 ns
  end.

Definition budget (ns : list npath) (B : nat) : Prop :=
  B = groups_bound ns \/
  exists fm rs, rs0 = fm :: rs /\ mandatory fm = true /\ Forall (fun q => ~ good (snd fm) q) ns /\ B = tot (snd fm) ns.

Lemma budget_nil : budget [] 0.
Proof. left. unfold groups_bound. destruct (first_mand rs0); rewrite Tot_nil; reflexivity. Qed.

Lemma group_budget f p ns n B : f <= F -> walk_ok (p :: ns) -> budget (p :: ns) B ->
  costs B (fun x k => exists ns' B', fst x = ptrn ns' /\ walk_ok ns' /\ budget ns' B' /\ k + B' <= B)
    (Group f (Some cp) (Some p) n).
Proof.
  intros Hf Hw [->|(fm & rs & E & Hm & Hg & ->)].
  - assert (Hle : Tot rs0 (p :: ns) <= groups_bound (p :: ns)).
    { unfold groups_bound. destruct (first_mand rs0); [lia|]. cbn [length]. lia. }
    eapply costs_weaken; [apply (group_cost f p ns n Hf Hw)|exact Hle|].
    intros x k (seg & ns' & Hs & Hx & Hne & H) Hk. specialize (Hne eq_refl ltac:(discriminate)).
    assert (Hw' : walk_ok ns') by (rewrite Hs in Hw; now apply walk_app in Hw).
    assert (Htl : forall r, tot r ns' <= tot r (tl (p :: ns))).
    { intros r. destruct seg as [|z seg]; [now destruct Hne|]. injection Hs as _ Hs. cbn [tl]. rewrite Hs, tot_app. lia. }
    assert (Htot : Tot rs0 (p :: ns) = Tot rs0 seg + Tot rs0 ns') by (rewrite Hs; apply Tot_nodes).
    exists ns'. destruct H as [(fm & Hfm & Hkk)|[Hno|(rs & fm & E & Hm & Hg)]].
    + exists (groups_bound ns'). repeat split; [exact Hx|exact Hw'|now left|].
      unfold groups_bound. rewrite Hfm. specialize (Htl (snd fm)).
      destruct ns' as [|y ns'].
      * rewrite Tot_nil in *. cbn [one tl] in *. unfold tot at 1 in Hkk. unfold tot at 1. simpl (sum (map _ [])) in *. lia.
      * cbn [one tl] in *. rewrite tot_cons in Htl. unfold tot in Hkk at 1. cbn [map sum fold_right] in Hkk. lia.
    + exists (groups_bound ns'). repeat split; [exact Hx|exact Hw'|now left|].
      unfold groups_bound. rewrite Hno. rewrite Htot in *.
      assert (Hlen : length (p :: ns) = length seg + length ns') by (rewrite Hs; apply app_length).
      assert (1 <= length seg) by (destruct seg; [now destruct Hne|simpl; lia]).
      rewrite Hlen. nia.
    + exists (tot (snd fm) ns'). repeat split; [exact Hx|exact Hw'|right; now exists fm, rs|].
      unfold groups_bound. assert (Hfm : first_mand rs0 = Some fm) by (rewrite E; unfold first_mand; cbn [find_mand]; now rewrite Hm).
      rewrite Hfm. specialize (Htl (snd fm)). lia.
  - eapply costs_weaken; [apply (group_hopeless f fm rs p ns n Hf Hw E Hm Hg)|lia|].
    intros x k Hx Hk. exists [], 0. repeat split; [exact Hx|apply budget_nil|lia].
Qed.

Lemma save_groups_cost f : f <= F -> forall ns B n, walk_ok ns -> budget ns B ->
  costs B any (save_groups_w R D matches f cp (ptrn ns) n).
Proof.
  induction f as [|f IH]; intros Hf ns B n Hw HB; [apply costs_fuel|]. cbn [save_groups_w].
  destruct ns as [|p ns]; cbn [ptrn]; [now apply costs_no_test|].
  eapply costs_bind; [apply (group_budget f p ns n B); [lia|exact Hw|exact HB]|lia|].
  intros [x sub] n1 k (ns' & B' & Hx & Hw' & HB' & Hk) _. cbn [fst] in Hx. subst x.
  eapply costs_bind; [apply (IH ltac:(lia) ns' B' n1 Hw' HB')|lia|].
  intros rest n2 k2 _ _. now apply costs_no_test.
Qed.

Lemma child_loop_cost f : f <= F -> forall p ns B n, walk_ok (p :: ns) -> budget (p :: ns) B ->
  costs B any (child_loop_w R D matches f cp p n).
Proof.
  induction f as [|f IH]; intros Hf p ns B n Hw HB; [apply costs_fuel|]. cbn [child_loop_w].
  eapply costs_bind; [apply (group_budget f p ns n B); [lia|exact Hw|exact HB]|lia|].
  intros [x sub] n1 k (ns' & B' & Hx & Hw' & HB' & Hk) _. cbn [fst] in Hx. subst x.
  apply costs_bind0. intros mand _. destruct ns' as [|y ns']; cbn [ptrn]; [now apply costs_no_test|].
  eapply costs_bind; [apply (IH ltac:(lia) y ns' B' n1 Hw' HB')|lia|].
  intros [m rest] n2 k2 _ _. now apply costs_no_test.
Qed.

End Lists.

(** ** The whole search *)

Definition own_tests (r : rule) (t : node) : nat :=
  1
  + match r_child r with Some c' => list_tests c' (kids t) | None => 0 end
  + sum (map (fun r' => below (list_tests r') t) (r_nested r)).

Lemma chain_tests_eq r t :
  chain_tests r t = own_tests r t + match r_next r with Some r' => chain_tests r' t | None => 0 end.
Proof. destruct r as [c nx l ms cs tt o g tn]. reflexivity. Qed.

Section Search.

Variable E : engine.
Variable R : rule.
Variable D : node.

Notation matches := (Rule_matches E D).
Notation good := (rule_matches D (node_satisfies E D)).

Definition look (p : npath) : node := match nget D p with Some t => t | None => NText [] end.
Definition T (r : rule) (p : npath) : nat := own_tests r (look p).

Lemma Tot_chain ns c : forall cp, Tot T (chain_of cp c) ns = sum (map (chain_tests c) (map look ns)).
Proof.
  induction c as [c IH] using rule_next_ind. intros cp. rewrite chain_of_eq.
  change (Tot T ((cp, c) :: ?l) ns) with (tot T c ns + Tot T l ns).
  assert (Hx : sum (map (chain_tests c) (map look ns)) =
    tot T c ns + match r_next c with Some c' => sum (map (chain_tests c') (map look ns)) | None => 0 end).
  { unfold tot, T. rewrite !map_map. destruct (r_next c) as [c'|] eqn:En.
    - rewrite map_map, <- sum_add. f_equal. apply map_ext. intros p. rewrite chain_tests_eq, En. reflexivity.
    - rewrite Nat.add_0_r. f_equal. apply map_ext. intros p. rewrite chain_tests_eq, En. lia. }
  rewrite Hx. f_equal. destruct (r_next c) as [c'|] eqn:En; [now apply IH|reflexivity].
Qed.

Lemma groups_bound_le cp c ns : groups_bound T cp c ns <= list_tests c (map look ns).
Proof.
  unfold groups_bound, list_tests, passes. rewrite Tot_chain.
  pose proof (has_mand_spec cp c) as Hm. rewrite <- first_mand_has in Hm.
  destruct (first_mand (chain_of cp c)) as [fm|] eqn:Ef; cbn [crule_ptr is_some] in Hm.
  - destruct (mandatory_of c) as [|m l]; [exfalso; now apply Hm|].
    assert (Hin : tot T (snd fm) (tl ns) <= Tot T (chain_of cp c) ns).
    { eapply Nat.le_trans; [|apply Tot_in, (first_mand_in _ _ Ef)]. destruct ns as [|p ns]; [simpl; lia|].
      cbn [tl]. rewrite tot_cons. lia. }
    rewrite Tot_chain in Hin. lia.
  - destruct (mandatory_of c) as [|m l]; [|exfalso; destruct Hm as [_ Hm]; discriminate Hm; discriminate].
    rewrite map_length. lia.
Qed.

(** *** Lists of siblings *)

Definition places (pp : npath) (i k : nat) : list npath := map (fun j => j :: pp) (seq i k).

Lemma places_walk pp par i : nget D pp = Some par -> i < length (children_of par) ->
  walk_ok D (places pp i (siblings_seen par i)).
Proof.
  intros Hp Hi. unfold siblings_seen. destruct (is_element par) eqn:He.
  - remember (length (children_of par) - i) as k eqn:Hk. revert i Hi Hk.
    induction k as [|k IH]; intros i Hi Hk; [lia|]. cbn [places seq map]. cbn [walk_ok].
    assert (Hd : exists t, nth_error (children_of par) i = Some t).
    { destruct (nth_error (children_of par) i) eqn:En; [eauto|]. apply nth_error_None in En. lia. }
    destruct Hd as [t Ht].
    assert (Hg : nget D (i :: pp) = Some t) by (cbn [nget]; now rewrite Hp).
    split; [now exists t|]. split; [|split].
    + intros Hin. apply in_map_iff in Hin as (j & Ej & Hj). apply in_seq in Hj. injection Ej as ->. lia.
    + unfold NextNode, deref. rewrite Hg. cbn [obind]. rewrite Hp. cbn [obind]. rewrite He.
      destruct (Nat.ltb_spec (S i) (length (children_of par))) as [H|H].
      * destruct k as [|k]; [lia|]. reflexivity.
      * destruct k as [|k]; [reflexivity|lia].
    + destruct k as [|k]; [exact I|]. apply IH; lia.
  - cbn [places seq map walk_ok].
    assert (Hd : exists t, nth_error (children_of par) i = Some t).
    { destruct (nth_error (children_of par) i) eqn:En; [eauto|]. apply nth_error_None in En. lia. }
    destruct Hd as [t Ht].
    assert (Hg : nget D (i :: pp) = Some t) by (cbn [nget]; now rewrite Hp).
    split; [now exists t|]. split; [easy|split; [|exact I]].
    unfold NextNode, deref. rewrite Hg. cbn [obind]. rewrite Hp. cbn [obind]. now rewrite He.
Qed.

Lemma look_places pp par : nget D pp = Some par -> forall k i,
  i + k <= length (children_of par) -> map look (places pp i k) = firstn k (skipn i (children_of par)).
Proof.
  intros Hp. induction k as [|k IH]; intros i Hi; [reflexivity|]. cbn [places seq map].
  destruct (skipn i (children_of par)) as [|t l] eqn:Es.
  { apply (f_equal (@length _)) in Es. rewrite skipn_length in Es. simpl in Es. lia. }
  cbn [firstn]. f_equal.
  - unfold look. cbn [nget]. rewrite Hp.
    rewrite <- (firstn_skipn i (children_of par)), nth_error_app2; rewrite firstn_length; [|lia].
    replace (i - Nat.min i (length (children_of par))) with 0 by lia. now rewrite Es.
  - change (map (fun j => j :: pp) (seq (S i) k)) with (places pp (S i) k). rewrite IH by lia.
    f_equal. clear -Es. revert i Es. induction (children_of par) as [|x cs IHc]; intros i Es; [destruct i; discriminate|].
    destruct i as [|i]; [injection Es as -> ->; reflexivity|]. cbn [skipn] in *. now apply IHc.
Qed.

Lemma look_siblings pp par i : nget D pp = Some par -> i < length (children_of par) ->
  map look (places pp i (siblings_seen par i)) = siblings_from par i.
Proof.
  intros Hp Hi. apply look_places; [exact Hp|]. unfold siblings_seen. destruct (is_element par); lia.
Qed.

Lemma siblings_first t : is_element t = true -> siblings_from t 0 = kids t.
Proof.
  intros H. unfold siblings_from, siblings_seen, kids. rewrite H. cbn [skipn]. rewrite Nat.sub_0_r. apply firstn_all.
Qed.

(** *** The functions that call each other *)

Definition node_bound (f : nat) : Prop := forall rp r p t n,
  rget R rp = Some r -> nget D p = Some t ->
  costs (own_tests r t) (fun x _ => fst x = true <-> good r p) (matches_node_w R D matches f (Some rp) (Some p) n).
Definition save_bound (f : nat) : Prop := forall rp r i pp par n,
  rget R rp = Some r -> nget D pp = Some par -> i < length (children_of par) ->
  costs (search_tests r (siblings_from par i)) any (save_w R D matches f (Some rp) (Some (i :: pp)) n).

Lemma node_ok_T F : (forall f, f < F -> node_bound f) ->
  forall f rp r p t n, f < F -> rget R rp = Some r -> nget D p = Some t ->
  costs (T r p) (fun x _ => fst x = true <-> good r p) (matches_node_w R D matches f (Some rp) (Some p) n).
Proof.
  intros H f rp r p t n Hf Hr Hp. unfold T, look. rewrite Hp. now apply (H f Hf).
Qed.

Lemma groups_cost F f cp c i pp par n : (forall f, f < F -> node_bound f) -> f <= F ->
  rget R cp = Some c -> nget D pp = Some par -> i < length (children_of par) ->
  costs (list_tests c (siblings_from par i)) any (save_groups_w R D matches f cp (Some (i :: pp)) n).
Proof.
  intros HN Hf Hc Hp Hi. pose proof (places_walk pp par i Hp Hi) as Hw.
  pose proof (groups_bound_le cp c (places pp i (siblings_seen par i))) as Hb. rewrite (look_siblings pp par i Hp Hi) in Hb.
  assert (Hk : exists ns, places pp i (siblings_seen par i) = (i :: pp) :: ns).
  { unfold siblings_seen. destruct (is_element par); [|now exists []].
    destruct (length (children_of par) - i) as [|k] eqn:Ek; [lia|]. cbn [places seq map]. eauto. }
  destruct Hk as [ns Hns]. rewrite Hns in *.
  eapply costs_weaken; [|exact Hb|intros a k H _; exact H].
  apply (save_groups_cost R D matches T good F (node_ok_T F HN) cp c Hc f Hf ((i :: pp) :: ns)); [exact Hw|now left].
Qed.

Lemma children_cost F f cp c p t n : (forall f, f < F -> node_bound f) -> f <= F ->
  rget R cp = Some c -> nget D p = Some t -> is_element t = true -> children_of t <> [] ->
  costs (list_tests c (kids t)) any (child_loop_w R D matches f cp (0 :: p) n).
Proof.
  intros HN Hf Hc Hp He Hne.
  assert (Hi : 0 < length (children_of t)) by (destruct (children_of t); [now destruct Hne|simpl; lia]).
  pose proof (places_walk p t 0 Hp Hi) as Hw.
  pose proof (groups_bound_le cp c (places p 0 (siblings_seen t 0))) as Hb.
  rewrite (look_siblings p t 0 Hp Hi), (siblings_first t He) in Hb.
  assert (Hk : exists ns, places p 0 (siblings_seen t 0) = (0 :: p) :: ns).
  { unfold siblings_seen. rewrite He. destruct (length (children_of t) - 0) as [|k] eqn:Ek; [lia|]. cbn [places seq map]. eauto. }
  destruct Hk as [ns Hns]. rewrite Hns in *.
  eapply costs_weaken; [|exact Hb|intros a k H _; exact H].
  apply (child_loop_cost R D matches T good F (node_ok_T F HN) cp c Hc f Hf (0 :: p) ns); [exact Hw|now left].
Qed.

Lemma below_eq f t : is_element t = true -> below f t = f (kids t) + sum (map (below f) (kids t)).
Proof. destruct t; try discriminate. reflexivity. Qed.

Lemma below_cost F rp r : (forall f, f < F -> save_bound f) -> rget R rp = Some r ->
  forall f, f <= F -> forall p ns n, walk_ok D (p :: ns) ->
  costs (sum (map (below (list_tests r)) (map look (p :: ns)))) any (save_below_w R D matches f rp p n).
Proof.
  intros HS Hr. induction f as [|f IH]; intros Hf p ns n Hw; [apply costs_fuel|]. cbn [save_below_w].
  cbn [walk_ok] in Hw. destruct Hw as ([t Ht] & _ & Hnx & Hw). cbn [map sum fold_right].
  assert (Hl : look p = t) by (unfold look; now rewrite Ht). rewrite Hl.
  change (fold_right Nat.add 0 ?l) with (sum l).
  apply costs_bind0. intros t' Ht'. unfold deref in Ht'. rewrite Ht in Ht'. injection Ht' as <-.
  eapply costs_bind with (B1 := below (list_tests r) t) (P := any).
  - destruct (is_element t && negb (Nat.eqb (length (children_of t)) 0)) eqn:Eb; [|now apply costs_no_test].
    apply andb_true_iff in Eb as [He Hne]. apply negb_true_iff, Nat.eqb_neq in Hne.
    rewrite (below_eq _ t He). eapply costs_weaken; [apply (HS f ltac:(lia) rp r 0 p t n Hr Ht)|..].
    + lia.
    + rewrite (siblings_first t He). unfold search_tests. lia.
    + now unfold any.
  - lia.
  - intros here n1 k _ Hk. apply costs_bind0. intros nx Hnx'. rewrite Hnx in Hnx'. injection Hnx' as <-.
    destruct ns as [|q ns]; cbn [ptrn]; [now apply costs_no_test|].
    eapply costs_bind; [apply (IH ltac:(lia) q ns n1 Hw)|lia|].
    intros rest n2 k2 _ _. now apply costs_no_test.
Qed.

Lemma nested_cost F rp r p t : (forall f, f < F -> save_bound f) -> rget R rp = Some r -> nget D p = Some t ->
  is_element t = true -> children_of t <> [] -> forall f, f <= F -> forall k n,
  costs (sum (map (fun r' => below (list_tests r') t) (skipn k (r_nested r)))) any
    (nested_loop_w R D matches f rp k (length (r_nested r)) (0 :: p) n).
Proof.
  intros HS Hr Hp He Hne. induction f as [|f IH]; intros Hf k n; [apply costs_fuel|]. cbn [nested_loop_w].
  destruct (Nat.ltb_spec k (length (r_nested r))) as [Hk|Hk]; [|now apply costs_no_test].
  destruct (nth_error (r_nested r) k) as [r'|] eqn:En; [|apply nth_error_None in En; lia].
  assert (Hs : skipn k (r_nested r) = r' :: skipn (S k) (r_nested r)).
  { clear -En. revert k En. induction (r_nested r) as [|x l IHl]; intros k En; [destruct k; discriminate|].
    destruct k as [|k]; [injection En as ->; reflexivity|]. now apply IHl. }
  rewrite Hs. cbn [map sum fold_right]. change (fold_right Nat.add 0 ?l) with (sum l).
  assert (Hr' : rget R (RNested k :: rp) = Some r') by (cbn [rget]; now rewrite Hr).
  eapply costs_bind with (B1 := below (list_tests r') t) (P := any).
  - rewrite (below_eq _ t He). eapply costs_weaken; [apply (HS f ltac:(lia) (RNested k :: rp) r' 0 p t n Hr' Hp)|..].
    + destruct (children_of t); [now destruct Hne|simpl; lia].
    + rewrite (siblings_first t He). unfold search_tests. lia.
    + now unfold any.
  - lia.
  - intros mn n1 c1 _ Hc1. apply costs_bind0. intros mand _.
    destruct (Nat.eqb (length mn) 0 && is_some mand); [now apply costs_no_test|].
    eapply costs_bind; [apply (IH ltac:(lia) (S k) n1)|lia|].
    intros [m rest] n2 c2 _ _. now apply costs_no_test.
Qed.

Lemma both_bounds f : node_bound f /\ save_bound f.
Proof.
  induction f as [F IH] using lt_wf_ind.
  assert (HN : forall f, f < F -> node_bound f) by (intros f Hf; apply (IH f Hf)).
  assert (HS : forall f, f < F -> save_bound f) by (intros f Hf; apply (IH f Hf)). clear IH.
  split.
  - intros rp r p t n Hr Hp.
    enough (Hcost : costs (own_tests r t) any (matches_node_w R D matches F (Some rp) (Some p) n)).
    { destruct Hcost as [H1 _]. split; [exact H1|]. intros [m inner] n' HX. cbn [fst].
      rewrite (proj1 (proj2 (proj2 (proj2 (proj2 (proj2 (runs_same R D matches F)))))) (Some rp) (Some p) n) in HX.
      now destruct (recursive_match E R D F rp r p t n m inner n' Hr Hp HX). }
    destruct F as [|f]; [apply costs_fuel|]. cbn [matches_node_w].
    apply costs_bind0. intros r' Hr'. rewrite (rderef_ok _ _ _ Hr) in Hr'. injection Hr' as <-.
    apply costs_bind0. intros t' Ht'. unfold deref in Ht'. rewrite Hp in Ht'. injection Ht' as <-.
    eapply costs_bind; [apply costs_test|unfold own_tests; lia|].
    intros m n1 k1 _ Hk1. destruct m; cbn [negb]; [|now apply costs_no_test].
    destruct (negb (is_some (r_child r)) && Nat.eqb (length (r_nested r)) 0); [now apply costs_no_test|].
    destruct (negb (is_element t) || Nat.eqb (length (children_of t)) 0) eqn:Eb; [now apply costs_no_test|].
    apply orb_false_iff in Eb as [He Hne]. apply negb_false_iff in He. apply Nat.eqb_neq in Hne.
    assert (Hne' : children_of t <> []) by (intros Z; rewrite Z in Hne; now apply Hne).
    set (c1 := match r_child r with Some c' => list_tests c' (kids t) | None => 0 end).
    set (c2 := sum (map (fun r' => below (list_tests r') t) (r_nested r))).
    assert (Hown : own_tests r t = 1 + c1 + c2) by reflexivity. rewrite Hown.
    eapply costs_bind with (B1 := c1) (P := any).
    + unfold rchild, c1. destruct (r_child r) as [c'|] eqn:Ec; [|now apply costs_no_test].
      apply (children_cost (S f) f (RChild :: rp) c' p t n1 HN ltac:(lia)); auto.
      cbn [rget]. now rewrite Hr.
    + lia.
    + intros [m sub1] n2 k2 _ Hk2. destruct m; cbn [negb]; [|now apply costs_no_test].
      eapply costs_bind with (B1 := c2) (P := any).
      * apply (nested_cost (S f) rp r p t HS Hr Hp He Hne' f ltac:(lia) 0 n2).
      * lia.
      * intros [m2 sub2] n3 k3 _ _. destruct m2; now apply costs_no_test.
  - intros rp r i pp par n Hr Hp Hi. destruct F as [|f]; [apply costs_fuel|]. cbn [save_w].
    eapply costs_bind; [apply costs_tick|lia|]. intros _ n1 k0 _ Hk0.
    eapply costs_bind; [apply (groups_cost (S f) f rp r i pp par n1 HN ltac:(lia) Hr Hp Hi)|unfold search_tests; lia|].
    intros gs n2 k1 _ Hk1.
    pose proof (places_walk pp par i Hp Hi) as Hw. pose proof (look_siblings pp par i Hp Hi) as Hls.
    assert (Hk : exists ns, places pp i (siblings_seen par i) = (i :: pp) :: ns).
    { unfold siblings_seen. destruct (is_element par); [|now exists []].
      destruct (length (children_of par) - i) as [|k] eqn:Ek; [lia|]. cbn [places seq map]. eauto. }
    destruct Hk as [ns Hns]. rewrite Hns in *.
    eapply costs_bind with (B1 := sum (map (below (list_tests r)) (siblings_from par i))) (P := any).
    { eapply costs_weaken; [apply (below_cost (S f) rp r HS Hr f ltac:(lia) (i :: pp) ns n2 Hw)| |now unfold any].
      apply Nat.eq_le_incl. f_equal. f_equal. exact Hls. }
    { unfold search_tests. lia. }
    intros bs n3 k2 _ _. now apply costs_no_test.
Qed.

Lemma extract_w_count f p n : snd (extract_w f E R D p n) = snd (save_w R D matches f (Some []) p n).
Proof. unfold extract_w. now destruct (save_w R D matches f (Some []) p n). Qed.

Lemma extract_tests f i pp par n : nget D pp = Some par -> i < length (children_of par) ->
  snd (extract_w f E R D (Some (i :: pp)) n) <= search_tests R (siblings_from par i).
Proof.
  intros Hp Hi. rewrite extract_w_count. exact (proj1 (proj2 (both_bounds f) [] R i pp par n eq_refl Hp Hi)).
Qed.

End Search.

(** ** Closed forms *)

(** [h] for all nodes of a tree. *)
Fixpoint everywhere (h : node -> nat) (t : node) : nat :=
  h t + match t with NElement _ _ _ cs => sum (map (everywhere h) cs) | _ => 0 end.

Lemma everywhere_eq h t : everywhere h t = h t + sum (map (everywhere h) (kids t)).
Proof. destruct t; try reflexivity; cbn; lia. Qed.

Lemma tree_ind (P : node -> Prop) : (forall t, (forall k, In k (kids t) -> P k) -> P t) -> forall t, P t.
Proof.
  intros H t. induction t as [t IH] using node_ind2. apply H. intros k Hk. unfold kids in Hk.
  destruct (is_element t); [|destruct Hk]. rewrite Forall_forall in IH. now apply IH.
Qed.

Lemma sum_scale {X} k (f : X -> nat) l : sum (map (fun x => k * f x) l) = k * sum (map f l).
Proof. induction l as [|x l IH]; simpl; [lia|]. rewrite IH. lia. Qed.

Lemma everywhere_add f g t : everywhere (fun x => f x + g x) t = everywhere f t + everywhere g t.
Proof.
  induction t as [t IH] using tree_ind. rewrite !everywhere_eq.
  assert (Hs : sum (map (everywhere (fun x => f x + g x)) (kids t)) = sum (map (fun k => everywhere f k + everywhere g k) (kids t))).
  { f_equal. apply map_ext_in. exact IH. }
  rewrite Hs, sum_add. lia.
Qed.

Lemma everywhere_le f g t : (forall x, f x <= g x) -> everywhere f t <= everywhere g t.
Proof.
  intros H. induction t as [t IH] using tree_ind. rewrite !everywhere_eq. specialize (H t).
  pose proof (sum_le (everywhere f) (everywhere g) (kids t) IH). lia.
Qed.

Lemma everywhere_ext f g t : (forall x, f x = g x) -> everywhere f t = everywhere g t.
Proof. intros H. apply Nat.le_antisymm; apply everywhere_le; intros x; now rewrite H. Qed.

Lemma everywhere_sum {X} (f : X -> node -> nat) l t :
  everywhere (fun x => sum (map (fun a => f a x) l)) t = sum (map (fun a => everywhere (f a) t) l).
Proof.
  induction l as [|a l IH].
  - cbn [map sum fold_right]. induction t as [t IH] using tree_ind. rewrite everywhere_eq.
    cbn [Nat.add]. rewrite (map_ext_in _ (fun _ => 0) _ IH). clear. induction (kids t); simpl; auto.
  - cbn [map sum fold_right]. change (fold_right Nat.add 0 ?x) with (sum x).
    rewrite <- IH, <- everywhere_add. reflexivity.
Qed.

Lemma everywhere_one t : everywhere (fun _ => 1) t = node_count t.
Proof.
  induction t as [t IH] using tree_ind. rewrite everywhere_eq. rewrite (map_ext_in _ _ _ IH).
  destruct t; reflexivity.
Qed.

Lemma height_eq t : height t = S (largest (map height (kids t))).
Proof. destruct t; reflexivity. Qed.

Lemma width_eq t : width t = Nat.max (length (kids t)) (largest (map width (kids t))).
Proof. destruct t; reflexivity. Qed.

Lemma largest_in x l : In x l -> x <= largest l.
Proof. induction l as [|y l IH]; [intros []|]. cbn [largest fold_right]. fold (largest l). intros [->|H]; [lia|]. specialize (IH H). lia. Qed.

Lemma below_kids f t : below f t = match t with NElement _ _ _ _ => f (kids t) | _ => 0 end + sum (map (below f) (kids t)).
Proof. destruct t; reflexivity. Qed.

Section Closed.

(** The number of passes, and of levels. *)
Variables K H W : nat.
Hypothesis K_pos : 1 <= K.
Hypothesis H_pos : 1 <= H.

Definition few (r : rule) : Prop := forall n, n <= W -> passes r n <= K.

Lemma list_le r ts : few r -> length ts <= W -> list_tests r ts <= K * sum (map (chain_tests r) ts).
Proof. intros Hf Hl. unfold list_tests. apply Nat.mul_le_mono_r. now apply Hf. Qed.

Lemma kids_le r t : few r -> width t <= W -> list_tests r (kids t) <= K * sum (map (chain_tests r) (kids t)).
Proof. intros Hf Hw. apply list_le; [exact Hf|]. rewrite width_eq in Hw. lia. Qed.

Lemma kid_width t k : width t <= W -> In k (kids t) -> width k <= W.
Proof. intros Hw Hk. rewrite width_eq in Hw. pose proof (largest_in _ _ (in_map width _ _ Hk)). lia. Qed.

Lemma everywhere_kids r t : few r -> width t <= W ->
  everywhere (fun x => list_tests r (kids x)) t + K * chain_tests r t <= K * everywhere (chain_tests r) t.
Proof.
  intros Hf. induction t as [t IH] using tree_ind. intros Hw. rewrite !everywhere_eq.
  pose proof (kids_le r t Hf Hw) as H1.
  assert (H2 : sum (map (everywhere (fun x => list_tests r (kids x))) (kids t)) + K * sum (map (chain_tests r) (kids t))
               <= K * sum (map (everywhere (chain_tests r)) (kids t))).
  { rewrite <- !sum_scale, <- sum_add. apply sum_le. intros k Hk. apply IH; [exact Hk|]. now apply (kid_width t). }
  lia.
Qed.

Lemma below_le r t : few r -> width t <= W -> below (list_tests r) t + K * chain_tests r t <= K * everywhere (chain_tests r) t.
Proof.
  intros Hf. induction t as [t IH] using tree_ind. intros Hw. rewrite below_kids, everywhere_eq.
  pose proof (kids_le r t Hf Hw) as H1.
  assert (H2 : sum (map (below (list_tests r)) (kids t)) + K * sum (map (chain_tests r) (kids t))
               <= K * sum (map (everywhere (chain_tests r)) (kids t))).
  { rewrite <- !sum_scale, <- sum_add. apply sum_le. intros k Hk. apply IH; [exact Hk|]. now apply (kid_width t). }
  destruct t; lia.
Qed.

Lemma everywhere_below r t : few r -> width t <= W ->
  everywhere (below (list_tests r)) t <= height t * (K * everywhere (chain_tests r) t).
Proof.
  intros Hf. induction t as [t IH] using tree_ind. intros Hw. rewrite (everywhere_eq (below (list_tests r))).
  pose proof (below_le r t Hf Hw) as H1.
  assert (H2 : sum (map (everywhere (below (list_tests r))) (kids t))
               <= largest (map height (kids t)) * (K * sum (map (everywhere (chain_tests r)) (kids t)))).
  { rewrite <- !sum_scale. apply sum_le. intros k Hk. eapply Nat.le_trans; [apply IH; [exact Hk|now apply (kid_width t)]|].
    apply Nat.mul_le_mono_r. apply largest_in. now apply (in_map height). }
  rewrite height_eq. rewrite (everywhere_eq (chain_tests r)) in *. nia.
Qed.

(** The bound for one node, for all nodes together. *)
Definition unit_bound (r : rule) : nat := K ^ (rule_depth r - 1) * H ^ nestings r * rule_count r.

Lemma depth_pos r : 1 <= rule_depth r.
Proof. destruct r. cbn [rule_depth]. lia. Qed.

Lemma powers a b a' b' : a <= a' -> b <= b' -> K ^ a * H ^ b <= K ^ a' * H ^ b'.
Proof. intros Ha Hb. apply Nat.mul_le_mono; apply Nat.pow_le_mono_r; lia. Qed.

Lemma sum_const {X} k (f : X -> nat) l : sum (map (fun x => k * f x) l) = k * sum (map f l).
Proof. apply sum_scale. Qed.

Lemma everywhere_chain r : Forall few (inner_chains r) -> forall t, width t <= W -> height t <= H ->
  everywhere (chain_tests r) t <= unit_bound r * node_count t.
Proof.
  induction r as [c nx l ms cs tt o g name IHc IHn IHl] using rule_ind2. intros Hfew t Hw Hh.
  cbn [inner_chains] in Hfew. apply Forall_app in Hfew as [Fc Hfew]. apply Forall_app in Hfew as [Fl Fn].
  set (r := mk_rule c nx l ms cs tt o g name).
  set (P := K ^ (rule_depth r - 1) * H ^ nestings r).
  assert (HP : 1 <= P) by (unfold P; change 1 with (1 * 1); apply Nat.mul_le_mono; rewrite <- (Nat.pow_1_l) at 1; apply Nat.pow_le_mono_l; lia).
  assert (Hsplit : everywhere (chain_tests r) t =
    node_count t
    + match c with Some c' => everywhere (fun x => list_tests c' (kids x)) t | None => 0 end
    + sum (map (fun r' => everywhere (below (list_tests r')) t) l)
    + match nx with Some n' => everywhere (chain_tests n') t | None => 0 end).
  { rewrite <- everywhere_one, <- everywhere_sum.
    assert (Hz : everywhere (fun _ => 0) t = 0).
    { pose proof (everywhere_sum (fun (_ : nat) _ => 0) [] t) as Hz. exact Hz. }
    rewrite (everywhere_ext (chain_tests r)
      (fun x => 1 + match c with Some c' => list_tests c' (kids x) | None => 0 end
                + sum (map (fun r' => below (list_tests r') x) l)
                + match nx with Some n' => chain_tests n' x | None => 0 end)) by reflexivity.
    rewrite !everywhere_add. destruct c, nx; rewrite ?Hz; reflexivity. }
  rewrite Hsplit. clear Hsplit.
  assert (Hc : match c with Some c' => everywhere (fun x => list_tests c' (kids x)) t | None => 0 end
               <= P * match c with Some c' => rule_count c' | None => 0 end * node_count t).
  { destruct c as [c'|]; [|lia]. inversion Fc as [|? ? F1 F2]; subst.
    pose proof (everywhere_kids c' t F1 Hw) as H1. pose proof (IHc c' eq_refl F2 t Hw Hh) as H2.
    assert (Hpp : K * (K ^ (rule_depth c' - 1) * H ^ nestings c') <= P).
    { rewrite Nat.mul_assoc, <- Nat.pow_succ_r'. unfold P. apply powers; unfold r; cbn [rule_depth nestings].
      - pose proof (depth_pos c'). lia.
      - lia. }
    unfold unit_bound in H2. set (Q := K ^ (rule_depth c' - 1) * H ^ nestings c') in *.
    assert (H3 : K * everywhere (chain_tests c') t <= K * (Q * rule_count c' * node_count t)) by (apply Nat.mul_le_mono_l; exact H2).
    assert (H4 : K * Q * (rule_count c' * node_count t) <= P * (rule_count c' * node_count t)) by (apply Nat.mul_le_mono_r; exact Hpp).
    lia. }
  assert (Hl : sum (map (fun r' => everywhere (below (list_tests r')) t) l)
               <= P * sum (map rule_count l) * node_count t).
  { rewrite <- Nat.mul_assoc, (Nat.mul_comm (sum _)), Nat.mul_assoc, <- sum_scale. apply sum_le. intros r' Hr'.
    rewrite Forall_forall in Fl, IHl.
    assert (F1 : few r') by (apply Fl, in_flat_map; exists r'; split; [exact Hr'|now left]).
    assert (F2 : Forall few (inner_chains r')).
    { apply Forall_forall. intros x Hx. apply Fl, in_flat_map. exists r'. split; [exact Hr'|now right]. }
    pose proof (everywhere_below r' t F1 Hw) as H1. pose proof (IHl r' Hr' F2 t Hw Hh) as H2.
    assert (Hpp : H * (K * (K ^ (rule_depth r' - 1) * H ^ nestings r')) <= P).
    { replace (H * (K * (K ^ (rule_depth r' - 1) * H ^ nestings r')))
        with ((K * K ^ (rule_depth r' - 1)) * (H * H ^ nestings r')) by lia.
      rewrite <- !Nat.pow_succ_r'. unfold P. apply powers; unfold r; cbn [rule_depth nestings].
      - pose proof (depth_pos r'). pose proof (largest_in _ _ (in_map rule_depth _ _ Hr')). lia.
      - pose proof (largest_in _ _ (in_map (fun x => S (nestings x)) _ _ Hr')). cbn beta in *. lia. }
    unfold unit_bound in H2.
    assert (H3 : height t * (K * everywhere (chain_tests r') t) <= H * (K * (K ^ (rule_depth r' - 1) * H ^ nestings r' * rule_count r' * node_count t))).
    { apply Nat.mul_le_mono; [exact Hh|]. apply Nat.mul_le_mono_l. exact H2. }
    replace (H * (K * (K ^ (rule_depth r' - 1) * H ^ nestings r' * rule_count r' * node_count t)))
      with (H * (K * (K ^ (rule_depth r' - 1) * H ^ nestings r')) * (rule_count r' * node_count t)) in H3 by lia.
    assert (H4 : H * (K * (K ^ (rule_depth r' - 1) * H ^ nestings r')) * (rule_count r' * node_count t) <= P * (rule_count r' * node_count t))
      by (apply Nat.mul_le_mono_r; exact Hpp).
    replace (P * node_count t * rule_count r') with (P * (rule_count r' * node_count t)) by lia. lia. }
  assert (Hn : match nx with Some n' => everywhere (chain_tests n') t | None => 0 end
               <= P * match nx with Some n' => rule_count n' | None => 0 end * node_count t).
  { destruct nx as [n'|]; [|lia]. pose proof (IHn n' eq_refl Fn t Hw Hh) as H2. unfold unit_bound in H2.
    eapply Nat.le_trans; [exact H2|]. apply Nat.mul_le_mono_r, Nat.mul_le_mono_r. unfold P. apply powers; unfold r; cbn [rule_depth nestings]; lia. }
  unfold unit_bound. fold P. unfold r. cbn [rule_count]. nia.
Qed.

Lemma search_le r ts : Forall few (r :: inner_chains r) -> length ts <= W ->
  (forall t, In t ts -> width t <= W /\ height t <= H) ->
  search_tests r ts <= K ^ rule_depth r * H ^ nestings r * rule_count r * sum (map node_count ts).
Proof.
  intros Hfew Hlen Hts. inversion Hfew as [|? ? F1 F2]; subst. unfold search_tests.
  pose proof (list_le r ts F1 Hlen) as H1.
  assert (H2 : sum (map (below (list_tests r)) ts) + K * sum (map (chain_tests r) ts) <= K * sum (map (everywhere (chain_tests r)) ts)).
  { rewrite <- !sum_scale, <- sum_add. apply sum_le. intros t Ht. apply below_le; [exact F1|exact (proj1 (Hts t Ht))]. }
  assert (H3 : sum (map (everywhere (chain_tests r)) ts) <= unit_bound r * sum (map node_count ts)).
  { rewrite <- sum_scale. apply sum_le. intros t Ht. destruct (Hts t Ht). now apply everywhere_chain. }
  assert (H4 : K ^ rule_depth r * H ^ nestings r * rule_count r * sum (map node_count ts) = K * (unit_bound r * sum (map node_count ts))).
  { unfold unit_bound. pose proof (depth_pos r). destruct (rule_depth r) as [|d]; [lia|]. cbn [Nat.sub]. rewrite Nat.sub_0_r, Nat.pow_succ_r'. lia. }
  rewrite H4. nia.
Qed.

End Closed.

Lemma in_siblings par i t : In t (siblings_from par i) -> In t (children_of par).
Proof.
  unfold siblings_from. intros H. rewrite <- (firstn_skipn i (children_of par)). apply in_or_app. right.
  rewrite <- (firstn_skipn (siblings_seen par i) (skipn i (children_of par))). apply in_or_app. now left.
Qed.

Lemma bound_levels ts : 1 <= Nat.max 1 (largest (map height ts)).
Proof. lia. Qed.

Lemma mandatory_bound r ts : no_optional_chain r ->
  search_tests r ts <= 2 ^ rule_depth r * largest (map height ts) ^ nestings r * rule_count r * sum (map node_count ts).
Proof.
  intros Hm. destruct ts as [|t ts].
  { unfold search_tests, list_tests. cbn [map sum fold_right]. lia. }
  apply (search_le 2 (largest (map height (t :: ts))) (Nat.max (length (t :: ts)) (largest (map width (t :: ts))))).
  - lia.
  - cbn [map largest fold_right]. rewrite (height_eq t). lia.
  - eapply Forall_impl; [|exact Hm]. intros x Hx n _. unfold passes. destruct (mandatory_of x) eqn:Ex; [now destruct Hx|lia].
  - lia.
  - intros x Hx. split.
    + pose proof (largest_in _ _ (in_map width _ _ Hx)). lia.
    + apply largest_in. now apply in_map.
Qed.

Lemma general_bound r ts :
  search_tests r ts <=
  Nat.max 2 (Nat.max (length ts) (largest (map width ts))) ^ rule_depth r
  * largest (map height ts) ^ nestings r * rule_count r * sum (map node_count ts).
Proof.
  destruct ts as [|t ts].
  { unfold search_tests, list_tests. cbn [map sum fold_right]. lia. }
  apply (search_le _ (largest (map height (t :: ts))) (Nat.max (length (t :: ts)) (largest (map width (t :: ts))))).
  - lia.
  - cbn [map largest fold_right]. rewrite (height_eq t). lia.
  - apply Forall_forall. intros x _ n Hn. unfold passes. destruct (mandatory_of x); lia.
  - lia.
  - intros x Hx. split.
    + pose proof (largest_in _ _ (in_map width _ _ Hx)). lia.
    + apply largest_in. now apply in_map.
Qed.
