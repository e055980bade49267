(** Proofs about the number of stack frames (C59). *)

From Coq Require Import Ascii String NArith ZArith Bool List Lia.
From Verif Require Import Base StringUtil Tags Dom NodeUtil Values Match Rule RuleMatching RuleProofs MatchRefine Depth DepthSpec ExtractSpec.
Import ListNotations.

Lemma largest_in l x : In x l -> x <= largest l.
Proof. induction l as [|y l IH]; intros H; [easy|]. cbn [largest fold_right]. fold (largest l). destruct H as [->|H]; [lia|]. specialize (IH H). lia. Qed.

Lemma largest_le l b : (forall x, In x l -> x <= b) -> largest l <= b.
Proof.
  induction l as [|y l IH]; intros H; cbn [largest fold_right]; [lia|]. fold (largest l).
  pose proof (H y (or_introl eq_refl)). assert (largest l <= b) by (apply IH; intros; apply H; now right). lia.
Qed.

Lemma height_pos n : 1 <= height n.
Proof. destruct n; cbn [height]; lia. Qed.

Lemma height_child n j m : is_element n = true -> nth_error (children_of n) j = Some m -> S (height m) <= height n.
Proof.
  destruct n; try discriminate. intros _ H. cbn [height]. cbn [children_of] in H. apply le_n_S. apply largest_in. apply in_map.
  eapply nth_error_In; eauto.
Qed.

Lemma depth_pos r : 1 <= rule_depth r.
Proof. destruct r. cbn [rule_depth]. lia. Qed.
Lemma depth_next r r' : r_next r = Some r' -> rule_depth r' <= rule_depth r.
Proof. destruct r. cbn [r_next]. intros ->. cbn [rule_depth]. lia. Qed.
Lemma depth_child r r' : r_child r = Some r' -> S (rule_depth r') <= rule_depth r.
Proof. destruct r. cbn [r_child]. intros ->. cbn [rule_depth]. lia. Qed.
Lemma depth_nested r k r' : nth_error (r_nested r) k = Some r' -> S (rule_depth r') <= rule_depth r.
Proof.
  destruct r as [c n l]. cbn [r_nested]. intros H. cbn [rule_depth].
  assert (rule_depth r' <= largest (map rule_depth l)) by (apply largest_in, in_map; eapply nth_error_In; eauto).
  destruct c, n; lia.
Qed.

Ltac parts := repeat match goal with |- _ /\ _ => split end.

(** ** A run either overflows or is the run without the frames *)

Section Same.

Variable R : rule.
Variable doc : node.
Variable matches : rule -> npath -> outcome bool.

Definition same {A} (m : D A) (m0 : M A) : Prop := forall n, m n = None \/ m n = Some (m0 n).

Lemma same_give {A} (a : A) : same (give a) (ret a).
Proof. intros n. now right. Qed.
Lemma same_plain {A} (o : outcome A) : same (plain_call o) (lift o).
Proof. intros n. now right. Qed.
Lemma same_tick : same tick_d tick.
Proof. intros n. now right. Qed.
Lemma same_overflow {A} (m : M A) : same overflow m.
Proof. intros n. now left. Qed.
Lemma same_fuel {A} : same (@no_fuel A) out_of_fuel.
Proof. intros n. now right. Qed.
Lemma same_bind {A B} (m : D A) m0 (f : A -> D B) g :
  same m m0 -> (forall a, same (f a) (g a)) -> same (bind_d m f) (bind m0 g).
Proof.
  intros Hm Hf n. unfold bind_d, bind. destruct (Hm n) as [->| ->]; [now left|].
  destruct (m0 n) as [[a n']| | |]; cbn [obind]; [apply Hf|now right|now right|now right].
Qed.

Ltac walk :=
  repeat first
    [ assumption
    | apply same_give | apply same_plain | apply same_tick | apply same_overflow | apply same_fuel
    | apply same_bind; [|intros ?]
    | match goal with
      | |- same (match ?x with _ => _ end) _ => destruct x
      | H : forall _, _ |- _ => apply H
      end ].

Lemma runs_same : forall f,
  (forall d rl n, same (save_d R doc matches d f rl n) (SaveMatchingNodesRecursive R doc matches f rl n)) /\
  (forall d rp n, same (save_groups_d R doc matches d f rp n) (save_groups R doc matches f rp n)) /\
  (forall d rp np, same (save_below_d R doc matches d f rp np) (save_below R doc matches f rp np)) /\
  (forall d rl n, same (rule_group_d R doc matches d f rl n) (MatchRuleGroup R doc matches f rl n)) /\
  (forall d fr rl n sub, same (group_loop_d R doc matches d f fr rl n sub) (group_loop R doc matches f fr rl n sub)) /\
  (forall d rl n, same (matches_node_d R doc matches d f rl n) (RuleMatchesNodeRecursive R doc matches f rl n)) /\
  (forall d cp n, same (child_loop_d R doc matches d f cp n) (child_loop R doc matches f cp n)) /\
  (forall d rp k size n, same (nested_loop_d R doc matches d f rp k size n) (nested_loop R doc matches f rp k size n)) /\
  (forall d rl b e, same (once_d R doc matches d f rl b e) (MatchRuleOnce R doc matches f rl b e)) /\
  (forall d rl b e, same (once_loop_d R doc matches d f rl b e) (MatchRuleOnce R doc matches f rl b e)) /\
  (forall d rb re nb ne, same (range_d R doc matches d f rb re nb ne) (MatchRange R doc matches f rb re nb ne)) /\
  (forall d rb re nb ne x, same (range_loop_d R doc matches d f rb re nb ne x) (range_loop R doc matches f rb re nb ne x)).
Proof.
  induction f as [|f IH].
  { repeat split; intros; try destruct d; first [apply same_overflow|apply same_fuel]. }
  destruct IH as (I1 & I2 & I3 & I4 & I5 & I6 & I7 & I8 & I9 & I10 & I11 & I12).
  repeat split; intros; try destruct d;
    cbn [save_d save_groups_d save_below_d rule_group_d group_loop_d matches_node_d child_loop_d nested_loop_d once_d once_loop_d
         range_d range_loop_d SaveMatchingNodesRecursive save_groups save_below MatchRuleGroup group_loop
         RuleMatchesNodeRecursive child_loop nested_loop MatchRuleOnce MatchRange range_loop];
    try apply same_overflow.
  all: walk.
Qed.

End Same.

(** ** Enough frames *)

Section Enough.

Variable R : rule.
Variable doc : node.
Variable matches : rule -> npath -> outcome bool.

Definition low (h : nat) (p : npath) : Prop := forall n, nget doc p = Some n -> height n <= h.
Definition level (h : nat) (x : nptr) : Prop :=
  match x with
  | None => True
  | Some [] => low h []
  | Some (_ :: pp) => forall j, low h (j :: pp)
  end.

Lemma level_here h p : level h (Some p) -> low h p.
Proof. destruct p as [|i pp]; [easy|]. intros H. apply H. Qed.

Lemma level_mono h h' x : h <= h' -> level h x -> level h' x.
Proof.
  intros Hle. destruct x as [[|i pp]|]; [| |easy].
  - intros H n Hn. specialize (H n Hn). lia.
  - intros H j n Hn. specialize (H j n Hn). lia.
Qed.

Lemma level_next h x y : NextNode doc x = Ok y -> level h x -> level h y.
Proof.
  destruct x as [[|i pp]|]; cbn [NextNode]; intros H HL.
  - destruct (deref doc []); discriminate.
  - destruct (deref doc (i :: pp)); try discriminate. cbn [obind] in H. destruct (deref doc pp); try discriminate. cbn [obind] in H.
    destruct (is_element _); [|injection H as <-; exact I]. destruct (Nat.ltb _ _); injection H as <-; [exact HL|exact I].
  - injection H as <-. exact I.
Qed.

Lemma level_child t np n : level (S t) (Some np) -> nget doc np = Some n -> is_element n = true -> level t (Some (0 :: np)).
Proof.
  intros HL Hn He j m Hm. cbn [nget] in Hm. rewrite Hn in Hm. pose proof (height_child n j m He Hm). pose proof (level_here _ _ HL n Hn). lia.
Qed.

Lemma level_room t np n : level (S t) (Some np) -> nget doc np = Some n -> is_element n = true -> length (children_of n) <> 0 -> 1 <= t.
Proof.
  intros HL Hn He Hc. destruct (children_of n) as [|m cs] eqn:Ec; [easy|].
  assert (Hm : nth_error (children_of n) 0 = Some m) by (rewrite Ec; reflexivity).
  pose proof (height_child n 0 m He Hm). pose proof (level_here _ _ HL n Hn). pose proof (height_pos m). lia.
Qed.

Definition ok (h b : nat) (x : nptr) (c : N) : Prop := level h x \/ ((0 < c)%N /\ N.to_nat c <= b).
Definition dec (c c' : N) : Prop := (c' <= c)%N /\ ((0 < c)%N -> (0 < c')%N).

Lemma dec_refl c : dec c c.
Proof. split; [lia|easy]. Qed.
Lemma dec_trans a b c : dec a b -> dec b c -> dec a c.
Proof. intros [H1 H2] [H3 H4]. split; [lia|auto]. Qed.
Lemma ok_dec h b x c c' : ok h b x c -> dec c c' -> ok h b x c'.
Proof. intros [H|[H1 H2]] [H3 H4]; [now left|right]. split; [auto|lia]. Qed.
Lemma ok_none h b c : ok h b None c.
Proof. left. exact I. Qed.
Lemma ok_next h b x y c : NextNode doc x = Ok y -> ok h b x c -> ok h b y c.
Proof. intros H [HL|HL]; [left; eapply level_next; eauto|now right]. Qed.

Definition deep (k : nat) (p : rptr) : Prop :=
  match p with None => True | Some rp => forall r, rget R rp = Some r -> rule_depth r <= k end.

Lemma rderef_get rp r : rderef R rp = Ok r -> rget R rp = Some r.
Proof. unfold rderef. destruct (rget R rp); [now intros [= ->]|discriminate]. Qed.
Lemma deref_get np n : deref doc np = Ok n -> nget doc np = Some n.
Proof. unfold deref. destruct (nget doc np); [now intros [= ->]|discriminate]. Qed.

Lemma deep_next k rp r : rget R rp = Some r -> deep k (Some rp) -> deep k (rnext r rp).
Proof.
  intros Hr HD. unfold rnext. destruct (r_next r) as [r'|] eqn:E; [|exact I]. intros r'' H. cbn [rget] in H. rewrite Hr in H.
  cbn [rstep_get] in H. rewrite E in H. injection H as <-. pose proof (depth_next r r' E). specialize (HD r Hr). lia.
Qed.

Lemma deep_child k rp r cp : rget R rp = Some r -> deep (S k) (Some rp) -> rchild r rp = Some cp -> deep k (Some cp).
Proof.
  intros Hr HD Hc. unfold rchild in Hc. destruct (r_child r) as [c|] eqn:E; [|discriminate]. injection Hc as <-.
  intros r' H. cbn [rget] in H. rewrite Hr in H. cbn [rstep_get] in H. rewrite E in H. injection H as <-.
  pose proof (depth_child r c E). specialize (HD r Hr). lia.
Qed.

Lemma deep_nested k rp r j : rget R rp = Some r -> deep (S k) (Some rp) -> deep k (Some (RNested j :: rp)).
Proof.
  intros Hr HD r' H. cbn [rget] in H. rewrite Hr in H. cbn [rstep_get] in H. pose proof (depth_nested r j r' H). specialize (HD r Hr). lia.
Qed.

Lemma find_deep k : forall r p e, rget R p = Some r -> deep k (Some p) -> deep k e -> deep k (find_mandatory r p e).
Proof.
  fix IH 1. intros r p e Hr HD HE. destruct r as [c n l ms cs t o g nm]. cbn [find_mandatory].
  destruct (rptr_eqb (Some p) e); [exact HE|]. destruct (negb _); [exact HD|]. destruct n as [r'|]; [|exact HE].
  assert (Hr' : rget R (RNext :: p) = Some r') by (cbn [rget]; rewrite Hr; reflexivity).
  apply IH; [exact Hr'| |exact HE].
  intros r'' H. rewrite Hr' in H. injection H as <-. specialize (HD _ Hr). cbn [rule_depth] in HD. lia.
Qed.

Lemma mandatory_deep k b e y : FindMandatoryRule R b e = Ok y -> deep k b -> deep k e -> deep k y.
Proof.
  destruct b as [p|]; cbn [FindMandatoryRule]; intros H HB HE; [|now injection H as <-].
  destruct (rderef R p) as [r| | |] eqn:E; try discriminate. injection H as <-. apply find_deep; auto using rderef_get.
Qed.

Lemma group_tail_node rl x sub y l : group_tail R rl x sub = Ok (y, l) -> y = x \/ y = None.
Proof.
  unfold group_tail.
  match goal with |- obind ?o _ = _ -> _ => destruct o as [rule1| | |]; try discriminate end. cbn [obind].
  match goal with |- obind ?o _ = _ -> _ => destruct o as [rule2| | |]; try discriminate end. cbn [obind].
  intros H. repeat match type of H with context [match ?z with _ => _ end] => destruct z end; injection H as <- <-; auto.
Qed.

Definition fits {A} (Q : A -> N -> Prop) (m : D A) (m0 : M A) (n : N) : Prop :=
  m n = Some (m0 n) /\ forall a n', m0 n = Ok (a, n') -> Q a n'.

Lemma fits_give {A} (Q : A -> N -> Prop) a n : Q a n -> fits Q (give a) (ret a) n.
Proof. intros H. split; [reflexivity|]. intros b n' [= -> ->]. exact H. Qed.
Lemma fits_plain {A} (o : outcome A) n : fits (fun a n' => o = Ok a /\ n' = n) (plain_call o) (lift o) n.
Proof. split; [reflexivity|]. intros a n'. unfold lift. destruct o; try discriminate. cbn [obind]. now intros [= -> ->]. Qed.
Lemma fits_fuel {A} (Q : A -> N -> Prop) n : fits Q no_fuel out_of_fuel n.
Proof. split; [reflexivity|discriminate]. Qed.
Lemma fits_bind {A B} (P : A -> N -> Prop) (Q : B -> N -> Prop) m m0 f g n :
  fits P m m0 n -> (forall a n', P a n' -> fits Q (f a) (g a) n') -> fits Q (bind_d m f) (bind m0 g) n.
Proof.
  intros [H1 H2] Hf. unfold fits, bind_d, bind. rewrite H1. destruct (m0 n) as [[a n']| | |]; cbn [obind]; [|now split..].
  apply Hf, H2. reflexivity.
Qed.
Lemma fits_weaken {A} (P Q : A -> N -> Prop) m m0 n : (forall a n', P a n' -> Q a n') -> fits P m m0 n -> fits Q m m0 n.
Proof. intros H [H1 H2]. split; [exact H1|]. intros a n' E. apply H, H2, E. Qed.
Lemma fits_tick n : fits (fun _ n' => n' = n /\ n = 0%N \/ (n' = n - 1)%N /\ (0 < n')%N) tick_d tick n.
Proof.
  split; [reflexivity|]. intros [] n'. unfold tick. destruct (N.eqb_spec n 0); [intros [= <-]; now left|].
  destruct (N.eqb_spec (n - 1) 0); [discriminate|]. intros [= <-]. right. split; [reflexivity|lia].
Qed.

(** The postcondition of functions that return a node: the node is as good as
    the arguments. *)
Definition node_post (h b : nat) (c : N) (y : nptr * MatchingNodes) (c' : N) : Prop := ok h b (fst y) c' /\ dec c c'.
Definition any_post {A} (c : N) (_ : A) (c' : N) : Prop := dec c c'.

Ltac side :=
  solve [ assumption | exact I | lia | apply dec_refl | apply ok_none
        | eauto 5 using dec_trans, dec_refl, ok_dec ].
Ltac giving := apply fits_give; first [red; side | split; cbn [fst]; side].
Ltac plains a Ha := eapply fits_bind; [apply fits_plain|]; intros a ? [Ha ->].
Ltac calls H :=
  eapply fits_bind; [apply H; side|];
  let a := fresh "a" in let c := fresh "c" in let P := fresh "P" in
  intros a c P;
  lazymatch type of P with
  | node_post _ _ _ _ _ => destruct a as [? ?]; destruct P as [? ?]; cbn [fst] in *
  | any_post _ _ _ => red in P
  end.

Lemma enough : forall f k t, 1 <= k ->
  (forall d rl x c, deep k rl -> ok (S t) (S t) x c -> S t + 4 * k <= d ->
     fits (any_post c) (save_d R doc matches d f rl x) (SaveMatchingNodesRecursive R doc matches f rl x) c) /\
  (forall d rp x c, deep k (Some rp) -> ok (S t) t x c -> t + 4 * k <= d ->
     fits (any_post c) (save_groups_d R doc matches d f rp x) (save_groups R doc matches f rp x) c) /\
  (forall d rp np c, deep k (Some rp) -> ok (S t) t (Some np) c -> t + 4 * k <= d ->
     fits (any_post c) (save_below_d R doc matches d f rp np) (save_below R doc matches f rp np) c) /\
  (forall d rl x c, deep k rl -> ok (S t) t x c -> t + 4 * k <= d ->
     fits (node_post (S t) t c) (rule_group_d R doc matches d f rl x) (MatchRuleGroup R doc matches f rl x) c) /\
  (forall d fr rl x sub c, deep k fr -> deep k rl -> ok (S t) t x c -> t + 4 * k <= S d ->
     fits (node_post (S t) t c) (group_loop_d R doc matches d f fr rl x sub) (group_loop R doc matches f fr rl x sub) c) /\
  (forall d rl x c, deep k rl -> ok (S t) t x c -> t + 4 * k <= S (S (S d)) ->
     fits (any_post c) (matches_node_d R doc matches d f rl x) (RuleMatchesNodeRecursive R doc matches f rl x) c) /\
  (forall d cp np c, deep k (Some cp) -> ok (S t) t (Some np) c -> t + 4 * k <= d ->
     fits (any_post c) (child_loop_d R doc matches d f cp np) (child_loop R doc matches f cp np) c) /\
  (forall d rp j size np c, (forall i, deep k (Some (RNested i :: rp))) -> ok (S t) (S t) (Some np) c -> S t + 4 * k <= d ->
     fits (any_post c) (nested_loop_d R doc matches d f rp j size np) (nested_loop R doc matches f rp j size np) c) /\
  (forall d rl b e c, deep k rl -> ok (S t) t b c -> ok (S t) t e c -> t + 4 * k <= S (S d) ->
     fits (node_post (S t) t c) (once_d R doc matches d f rl b e) (MatchRuleOnce R doc matches f rl b e) c) /\
  (forall d rl b e c, deep k rl -> ok (S t) t b c -> ok (S t) t e c -> t + 4 * k <= S (S (S d)) ->
     fits (node_post (S t) t c) (once_loop_d R doc matches d f rl b e) (MatchRuleOnce R doc matches f rl b e) c) /\
  (forall d rb re nb ne c, deep k rb -> ok (S t) t nb c -> ok (S t) t ne c -> t + 4 * k <= S d ->
     fits (node_post (S t) t c) (range_d R doc matches d f rb re nb ne) (MatchRange R doc matches f rb re nb ne) c) /\
  (forall d rb re nb ne y c, deep k rb -> ok (S t) t nb c -> ok (S t) t ne c -> ok (S t) t y c -> t + 4 * k <= S (S d) ->
     fits (node_post (S t) t c) (range_loop_d R doc matches d f rb re nb ne y) (range_loop R doc matches f rb re nb ne y) c).
Proof.
  induction f as [|f IH]; intros k t Hk.
  { parts; intros; try (destruct d; [lia|]); apply fits_fuel. }
  destruct (IH k t Hk) as (I1 & I2 & I3 & I4 & I5 & I6 & I7 & I8 & I9 & I10 & I11 & I12).
  parts.
  - (* SaveMatchingNodesRecursive *)
    intros d rl x c HD HO Hd. destruct d as [|d]; [lia|]. cbn [save_d SaveMatchingNodesRecursive].
    destruct rl as [rp|]; [|giving]. destruct x as [np|]; [|giving].
    eapply fits_bind; [apply fits_tick|]. intros u n' Hn'. cbv beta in Hn'.
    assert (HO' : ok (S t) t (Some np) n').
    { destruct HO as [HL|[HO1 HO2]]; [now left|]. right. lia. }
    assert (Hdec : dec c n') by (unfold dec; lia).
    calls I2. calls I3. giving.
  - (* save_groups *)
    intros d rp x c HD HO Hd. cbn [save_groups_d save_groups]. destruct x as [np|]; [|giving].
    calls I4. calls I2. giving.
  - (* save_below *)
    intros d rp np c HD HO Hd. cbn [save_below_d save_below].
    plains n Hn. apply deref_get in Hn.
    eapply fits_bind with (P := any_post c).
    { destruct (is_element n) eqn:He; cbn [andb]; [|giving]. destruct (Nat.eqb_spec (length (children_of n)) 0); cbn [negb]; [giving|].
      assert (Hc : exists t', t = S t' /\ ok (S t') (S t') (Some (0 :: np)) c).
      { destruct HO as [HL|[HO1 HO2]].
        - pose proof (level_room t np n HL Hn He n0). destruct t as [|t']; [lia|]. exists t'. split; [reflexivity|]. left.
          eapply level_child; eauto.
        - destruct t as [|t']; [lia|]. exists t'. split; [reflexivity|]. right. lia. }
      destruct Hc as (t' & -> & Hc). destruct (IH k t' Hk) as (J1 & _). apply J1; [exact HD|exact Hc|lia]. }
    intros here c1 H1. red in H1. plains nx Hnx. destruct nx as [np'|]; [|giving].
    assert (ok (S t) t (Some np') c1) by (eapply ok_next; [exact Hnx|side]).
    calls I3. giving.
  - (* MatchRuleGroup *)
    intros d rl x c HD HO Hd. destruct d as [|d]; [lia|]. cbn [rule_group_d MatchRuleGroup].
    destruct rl as [rp|]; [|giving]. destruct x as [np|]; [|giving]. apply I5; side.
  - (* group_loop *)
    intros d fr rl x sub c HF HD HO Hd. cbn [group_loop_d group_loop].
    assert (HT : forall rl, fits (node_post (S t) t c) (plain_call (group_tail R rl x sub)) (lift (group_tail R rl x sub)) c).
    { intros rl0. eapply fits_weaken; [|apply fits_plain]. intros [y ?] c' [Ht ->]. split; [|apply dec_refl]. cbn [fst].
      apply group_tail_node in Ht. destruct Ht as [->| ->]; [exact HO|apply ok_none]. }
    destruct rl as [rp|]; [|apply HT]. destruct x as [np|]; [|apply HT].
    plains r Hr. apply rderef_get in Hr. destruct (r_optional r || _).
    + plains st Hst. apply (mandatory_deep k) in Hst; [|now apply deep_next|exact I]. destruct st as [srp|].
      * calls I9. match goal with |- fits _ (match ?y with _ => _ end) _ _ => destruct y as [sn|] end; [|giving].
        calls I11. plains sr Hsr. apply rderef_get in Hsr. plains nx Hnx.
        match goal with |- fits _ _ _ ?c2 => assert (ok (S t) t nx c2) by (eapply ok_next; [exact Hnx|side]) end.
        eapply fits_weaken; [|apply I5; [side|now apply deep_next|side|side]].
        intros [y ?] c3 [Hy1 Hy2]. split; side.
      * plains w Hw. apply (mandatory_deep k) in Hw; [|side|side].
        assert (HN : forall c2 l nx, ok (S t) t l c2 ->
          match l with None => Ok None | Some _ => NextNode doc l end = Ok nx -> ok (S t) t nx c2).
        { intros c2 l nx H2 H3. destruct l; [eapply ok_next; [exact H3|exact H2]|]. injection H3 as <-. apply ok_none. }
        destruct (rptr_eqb w (Some rp)); [|destruct w as [srp|]].
        -- calls I11. plains nx Hnx. match goal with H : ok _ _ _ _ |- _ => apply (HN _ _ _ H) in Hnx end. giving.
        -- calls I9. calls I11. giving.
        -- calls I11. plains nx Hnx. match goal with H : ok _ _ _ _ |- _ => apply (HN _ _ _ H) in Hnx end. giving.
    + calls I9. match goal with |- fits _ (match ?y with _ => _ end) _ _ => destruct y as [sn|] end; [|giving].
      plains nx Hnx.
      match goal with |- fits _ _ _ ?c2 => assert (ok (S t) t nx c2) by (eapply ok_next; [exact Hnx|side]) end.
      eapply fits_weaken; [|apply I5; [side|destruct (r_greedy r); [side|now apply deep_next]|side|side]].
      intros [y ?] c3 [Hy1 Hy2]. split; side.
  - (* RuleMatchesNodeRecursive *)
    intros d rl x c HD HO Hd. destruct d as [|d]; [lia|]. cbn [matches_node_d RuleMatchesNodeRecursive].
    destruct rl as [rp|]; [|giving]. destruct x as [np|]; [|giving].
    plains r Hr. apply rderef_get in Hr. plains n Hn. apply deref_get in Hn. plains m Hm. destruct m; cbn [negb]; [|giving].
    destruct (negb (is_some (r_child r)) && _) eqn:Eleaf; [giving|].
    destruct (is_element n) eqn:He; cbn [negb orb]; [|giving].
    destruct (Nat.eqb_spec (length (children_of n)) 0) as [|Hlen]; [giving|].
    assert (Hk2 : exists k', k = S k' /\ 1 <= k').
    { pose proof (HD r Hr). destruct (r_child r) as [r'|] eqn:Ec.
      - pose proof (depth_child r r' Ec). pose proof (depth_pos r'). exists (k - 1). lia.
      - cbn [is_some negb andb] in Eleaf. destruct (r_nested r) as [|r' l] eqn:En; [discriminate|].
        assert (Hn' : nth_error (r_nested r) 0 = Some r') by (rewrite En; reflexivity).
        pose proof (depth_nested r 0 r' Hn'). pose proof (depth_pos r'). exists (k - 1). lia. }
    destruct Hk2 as (k' & -> & Hk').
    assert (Ht : exists t', t = S t' /\ ok (S t') (S t') (Some (0 :: np)) c).
    { destruct HO as [HL|[HO1 HO2]].
      - pose proof (level_room t np n HL Hn He Hlen). destruct t as [|t']; [lia|]. exists t'. split; [reflexivity|]. left.
        eapply level_child; eauto.
      - destruct t as [|t']; [lia|]. exists t'. split; [reflexivity|]. right. lia. }
    destruct Ht as (t' & -> & Hc).
    assert (Hc2 : ok (S (S t')) (S t') (Some (0 :: np)) c).
    { destruct Hc as [Hc|Hc]; [left; eapply level_mono; [|exact Hc]; lia|now right]. }
    eapply fits_bind with (P := any_post c).
    { destruct (rchild r rp) as [cp|] eqn:Erc; [|giving]. destruct (IH k' (S t') Hk') as (_ & _ & _ & _ & _ & _ & J7 & _).
      apply J7; [eapply deep_child; eauto|exact Hc2|lia]. }
    intros [matched sub1] c1 H1. red in H1. destruct matched; cbn [negb]; [|giving].
    eapply fits_bind with (P := any_post c1).
    { destruct (IH k' t' Hk') as (_ & _ & _ & _ & _ & _ & _ & J8 & _).
      apply J8; [intros i; eapply deep_nested; eauto|side|lia]. }
    intros [matched2 sub2] c2 H2. red in H2. destruct matched2; cbn [negb]; giving.
  - (* child_loop *)
    intros d cp np c HD HO Hd. cbn [child_loop_d child_loop]. calls I4. plains md Hmd.
    match goal with |- fits _ (match ?y with _ => _ end) _ _ => destruct y as [np'|] end; [|giving].
    calls I7. destruct a as [? ?]. giving.
  - (* nested_loop *)
    intros d rp j size np c HD HO Hd. cbn [nested_loop_d nested_loop]. destruct (Nat.ltb j size); [|giving].
    calls I1. plains md Hmd. destruct (Nat.eqb (length a) 0 && is_some md); [giving|]. calls I8. destruct a0 as [? ?]. giving.
  - (* MatchRuleOnce *)
    intros d rl b e c HD HB HE Hd. destruct d as [|d]; [lia|]. cbn [once_d MatchRuleOnce].
    destruct rl as [rp|]; [|giving]. destruct b as [np|]; [|giving]. destruct (nptr_eqb (Some np) e); [giving|].
    calls I6. destruct a as [matched inner]. destruct matched; [giving|]. plains nx Hnx.
    match goal with |- fits _ _ _ ?c2 => assert (ok (S t) t nx c2) by (eapply ok_next; [exact Hnx|side]) end.
    eapply fits_weaken; [|apply I10; side]. intros [y ?] c3 [Hy1 Hy2]. split; side.
  - intros d rl b e c HD HB HE Hd. cbn [once_loop_d MatchRuleOnce].
    destruct rl as [rp|]; [|giving]. destruct b as [np|]; [|giving]. destruct (nptr_eqb (Some np) e); [giving|].
    calls I6. destruct a as [matched inner]. destruct matched; [giving|]. plains nx Hnx.
    match goal with |- fits _ _ _ ?c2 => assert (ok (S t) t nx c2) by (eapply ok_next; [exact Hnx|side]) end.
    eapply fits_weaken; [|apply I10; side]. intros [y ?] c3 [Hy1 Hy2]. split; side.
  - (* MatchRange *)
    intros d rb re nb ne c HD HB HE Hd. destruct d as [|d]; [lia|]. cbn [range_d MatchRange].
    destruct nb as [np|]; [|giving]. apply I12; side.
  - (* range_loop *)
    intros d rb re nb ne y c HD HB HE HY Hd. cbn [range_loop_d range_loop].
    destruct rb as [rp|]; [|giving]. destruct (rptr_eqb (Some rp) re); [giving|].
    plains r Hr. apply rderef_get in Hr. pose proof (deep_next k rp r Hr HD) as Hnext. calls I9.
    match goal with |- fits _ (match ?z with _ => _ end) _ _ => destruct z as [found|] end.
    + destruct (nptr_eqb (Some found) ne).
      * calls I12. giving.
      * plains nx Hnx.
        match goal with |- fits _ _ _ ?c2 => assert (ok (S t) t nx c2) by (eapply ok_next; [exact Hnx|side]) end.
        assert (deep k (if r_greedy r then Some rp else rnext r rp)) by (destruct (r_greedy r); side).
        calls I12. giving.
    + calls I12. giving.
Qed.

End Enough.

(** ** How many frames it takes *)

Section Takes.

Variable R : rule.
Variable doc : node.
Variable matches : rule -> npath -> outcome bool.

Lemma bind_d_ok {A B} (m : D A) (f : A -> D B) n b n2 :
  bind_d m f n = Some (Ok (b, n2)) -> exists a n1, m n = Some (Ok (a, n1)) /\ f a n1 = Some (Ok (b, n2)).
Proof. unfold bind_d. destruct (m n) as [[[a n1]| | |]|]; try discriminate. intros H. now exists a, n1. Qed.

Lemma plain_ok {A} (o : outcome A) n a n1 : plain_call o n = Some (Ok (a, n1)) -> o = Ok a /\ n1 = n.
Proof. unfold plain_call, lift. destruct o; cbn [obind]; try discriminate. now intros [= -> ->]. Qed.

Lemma takes : forall f,
  (forall d rp i pp n c gs c', nget doc (i :: pp) = Some n ->
     save_d R doc matches d f (Some rp) (Some (i :: pp)) c = Some (Ok (gs, c')) -> height n <= d) /\
  (forall d rp i pp par c gs c', nget doc pp = Some par -> is_element par = true ->
     save_d R doc matches d f (Some rp) (Some (i :: pp)) c = Some (Ok (gs, c')) ->
     forall j n, i <= j -> nth_error (children_of par) j = Some n -> height n <= d) /\
  (forall d rp i pp n c gs c', nget doc (i :: pp) = Some n ->
     save_below_d R doc matches d f rp (i :: pp) c = Some (Ok (gs, c')) -> height n <= S d) /\
  (forall d rp i pp par c gs c', nget doc pp = Some par -> is_element par = true ->
     save_below_d R doc matches d f rp (i :: pp) c = Some (Ok (gs, c')) ->
     forall j n, i <= j -> nth_error (children_of par) j = Some n -> height n <= S d).
Proof.
  induction f as [|f IH].
  { parts; intros; try (destruct d; discriminate); discriminate. }
  destruct IH as (I1 & I2 & I3 & I4).
  assert (J1 : forall d rp i pp n c gs c', nget doc (i :: pp) = Some n ->
     save_below_d R doc matches d (S f) rp (i :: pp) c = Some (Ok (gs, c')) -> height n <= S d).
  { intros d rp i pp n c gs c' Hn H. cbn [save_below_d] in H.
    apply bind_d_ok in H as (n0 & c0 & H0 & H). apply plain_ok in H0 as [H0 ->]. apply deref_get in H0.
    assert (n0 = n) by congruence. subst n0.
    apply bind_d_ok in H as (here & c1 & H1 & H).
    destruct n as [| t o a cs| | | | |]; cbn [height]; try lia. cbn [is_element andb children_of] in H1.
    destruct cs as [|m cs]; [cbn [map largest fold_right]; lia|]. cbn [length Nat.eqb negb] in H1.
    apply le_n_S. apply largest_le. intros x Hx. apply in_map_iff in Hx as (y & <- & Hy). apply In_nth_error in Hy as [j Hj].
    exact (I2 d rp 0 (i :: pp) _ c here c1 Hn eq_refl H1 j y (Nat.le_0_l j) Hj). }
  assert (J2 : forall d rp i pp par c gs c', nget doc pp = Some par -> is_element par = true ->
     save_below_d R doc matches d (S f) rp (i :: pp) c = Some (Ok (gs, c')) ->
     forall j n, i <= j -> nth_error (children_of par) j = Some n -> height n <= S d).
  { intros d rp i pp par c gs c' Hpar He H j n Hij Hn. destruct (Nat.eq_dec i j) as [->|Hne].
    - apply (J1 d rp j pp n c gs c'); [cbn [nget]; rewrite Hpar; exact Hn|exact H].
    - cbn [save_below_d] in H.
      apply bind_d_ok in H as (n0 & c0 & H0 & H). apply plain_ok in H0 as [H0 ->].
      apply bind_d_ok in H as (here & c1 & H1 & H).
      apply bind_d_ok in H as (nx & c2 & H2 & H). apply plain_ok in H2 as [H2 ->].
      cbn [NextNode] in H2. rewrite H0 in H2. cbn [obind] in H2. unfold deref in H2. rewrite Hpar in H2. cbn [obind] in H2.
      rewrite He in H2. assert (Hlt : j < length (children_of par)) by (apply nth_error_Some; congruence).
      destruct (Nat.ltb_spec (S i) (length (children_of par))); [|lia]. injection H2 as <-.
      apply bind_d_ok in H as (rest & c3 & H8 & _).
      apply (I4 d rp (S i) pp par c1 rest c3 Hpar He H8 j n); [lia|exact Hn]. }
  assert (K : forall d rp p c gs c', save_d R doc matches d (S f) (Some rp) (Some p) c = Some (Ok (gs, c')) ->
    exists d' c1 bs c2, d = S d' /\ save_below_d R doc matches d' f rp p c1 = Some (Ok (bs, c2))).
  { intros d rp p c gs c' H. destruct d as [|d]; [discriminate|]. cbn [save_d] in H.
    apply bind_d_ok in H as (u & c0 & H0 & H). apply bind_d_ok in H as (g & c1 & H1 & H). apply bind_d_ok in H as (bs & c2 & H2 & _).
    now exists d, c1, bs, c2. }
  parts; [| |exact J1|exact J2].
  - intros d rp i pp n c gs c' Hn H. destruct (K _ _ _ _ _ _ H) as (d' & c1 & bs & c2 & -> & H1). eapply I3; eauto.
  - intros d rp i pp par c gs c' Hpar He H j n Hij Hn. destruct (K _ _ _ _ _ _ H) as (d' & c1 & bs & c2 & -> & H1). eapply I4; eauto.
Qed.

End Takes.

(** ** Rule::extract *)

Lemma level_of D i pp : level D (level_height D (i :: pp)) (Some (i :: pp)).
Proof.
  intros j n Hn. cbn [nget] in Hn. cbn [level_height]. destruct (nget D pp) as [par|]; [|discriminate].
  apply largest_in, in_map. eapply nth_error_In; eauto.
Qed.

Lemma extract_d_fits d f E R D p n :
  save_d R D (Rule_matches E D) d f (Some []) p n = Some (SaveMatchingNodesRecursive R D (Rule_matches E D) f (Some []) p n) ->
  extract_d (S d) f E R D p n = Some (extract f E R D p n).
Proof.
  intros H. unfold extract_d, extract. rewrite H.
  destruct (SaveMatchingNodesRecursive R D (Rule_matches E D) f (Some []) p n) as [[mn c]| | |]; reflexivity.
Qed.

Lemma extract_same frames f E R D p n :
  extract_d frames f E R D p n = None \/ extract_d frames f E R D p n = Some (extract f E R D p n).
Proof.
  destruct frames as [|d]; [now left|].
  destruct (proj1 (runs_same R D (Rule_matches E D) f) d (Some []) p n) as [H|H].
  - left. unfold extract_d. now rewrite H.
  - right. now apply extract_d_fits.
Qed.

Lemma extract_enough frames f E R D i pp t n :
  nget D (i :: pp) = Some t ->
  S (level_height D (i :: pp) + 4 * rule_depth R) <= frames ->
  extract_d frames f E R D (Some (i :: pp)) n = Some (extract f E R D (Some (i :: pp)) n).
Proof.
  intros Ht Hf. destruct frames as [|d]; [lia|]. apply extract_d_fits.
  pose proof (level_of D i pp) as HL. pose proof (height_pos t). specialize (HL i t Ht) as Hpos.
  destruct (level_height D (i :: pp)) as [|h] eqn:Eh; [lia|].
  destruct (enough R D (Rule_matches E D) f (rule_depth R) h (depth_pos R)) as (H1 & _).
  refine (proj1 (H1 d (Some []) (Some (i :: pp)) n _ _ _)).
  - intros r Hr. injection Hr as <-. lia.
  - left. rewrite <- Eh. apply level_of.
  - lia.
Qed.

Lemma extract_limited frames f E R D p n :
  (0 < n)%N -> S (N.to_nat n + 4 * rule_depth R) <= frames ->
  extract_d frames f E R D p n = Some (extract f E R D p n).
Proof.
  intros Hn Hf. destruct frames as [|d]; [lia|]. apply extract_d_fits.
  destruct (N.to_nat n) as [|h] eqn:Eh; [lia|].
  destruct (enough R D (Rule_matches E D) f (rule_depth R) h (depth_pos R)) as (H1 & _).
  refine (proj1 (H1 d (Some []) p n _ _ _)); [|right; lia|lia].
  intros r Hr. injection Hr as <-. lia.
Qed.

Lemma extract_takes frames f E R D i pp t n res :
  nget D (i :: pp) = Some t ->
  extract_d frames f E R D (Some (i :: pp)) n = Some (Ok res) -> height t < frames.
Proof.
  intros Ht H. destruct frames as [|d]; [discriminate|]. unfold extract_d in H.
  destruct (save_d R D (Rule_matches E D) d f (Some []) (Some (i :: pp)) n) as [[[gs c]| | |]|] eqn:Hs; try discriminate.
  pose proof (proj1 (takes R D (Rule_matches E D) f) d [] i pp t n gs c Ht Hs). lia.
Qed.

Lemma extract_overflows E R D i pp t n res frames :
  nget D (i :: pp) = Some t -> extract_yields E R D (Some (i :: pp)) n (Ok res) -> frames <= height t ->
  exists f0, forall f, f0 <= f -> extract_d frames f E R D (Some (i :: pp)) n = None.
Proof.
  intros Ht [f0 H] Hf. exists f0. intros f Hff. destruct (extract_same frames f E R D (Some (i :: pp)) n) as [HN|HS]; [exact HN|].
  rewrite (H f Hff) in HS. pose proof (extract_takes frames f E R D i pp t n res Ht HS). lia.
Qed.

Lemma divs_height n : height (divs n) = S n.
Proof. induction n as [|n IH]; [reflexivity|]. cbn [divs height map]. rewrite IH. cbn [largest fold_right]. lia. Qed.

(** ** Text and HTML of a node *)

Lemma largest_cons x l : largest (x :: l) = Nat.max x (largest l).
Proof. reflexivity. Qed.

Lemma strip_frames w : forall n d, StripTags_d w d n = if d <? height n then None else Some (StripTags w n).
Proof.
  induction n as [n IH] using node_ind2. intros d. destruct d as [|d].
  { pose proof (height_pos n). destruct (Nat.ltb_spec 0 (height n)); [|lia]. destruct n; reflexivity. }
  destruct n as [| t o a cs| | | | |]; try reflexivity. cbn [height].
  change (S d <? S (largest (map height cs))) with (d <? largest (map height cs)). cbn [StripTags_d StripTags].
  cbn [children_of] in IH. induction IH as [|c cs IH1 _ IHcs].
  - cbn [map largest fold_right]. destruct (Nat.ltb_spec d 0); [lia|reflexivity].
  - cbn [map]. rewrite largest_cons, IH1.
    destruct (Nat.ltb_spec d (height c)) as [H1|H1].
    + destruct (Nat.ltb_spec d (Nat.max (height c) (largest (map height cs)))); [reflexivity|lia].
    + rewrite IHcs. clear IHcs. destruct (Nat.ltb_spec d (largest (map height cs))) as [H2|H2];
        destruct (Nat.ltb_spec d (Nat.max (height c) (largest (map height cs)))); try lia; [reflexivity|].
      destruct w, c as [| t' o' a' cs'| | | | |]; reflexivity.
Qed.

Lemma serial_pos n : 1 <= serial_height n.
Proof. destruct n; cbn [serial_height]; try destruct (TagIsSelfClosing _); lia. Qed.

Lemma serial_frames : forall n d, SerializeNode_d d n = if d <? serial_height n then None else Some (SerializeNode n).
Proof.
  induction n as [n IH] using node_ind2. intros d. destruct d as [|d].
  { pose proof (serial_pos n). destruct (Nat.ltb_spec 0 (serial_height n)); [|lia]. destruct n; reflexivity. }
  assert (HC : forall cs d, Forall (fun n => forall d, SerializeNode_d d n = if d <? serial_height n then None else Some (SerializeNode n)) cs ->
    (fix loop (l : list node) : option str :=
      match l with
      | [] => Some []
      | c :: l' => match SerializeNode_d d c with
                   | None => None
                   | Some x => match loop l' with None => None | Some rest => Some (x ++ rest) end
                   end
      end) cs = if d <? largest (map serial_height cs) then None
                else Some ((fix loop (l : list node) : str := match l with [] => [] | c :: l' => SerializeNode c ++ loop l' end) cs)).
  { clear n d IH. intros cs d IH. induction IH as [|c cs IH1 _ IHcs].
    - cbn [map largest fold_right]. destruct (Nat.ltb_spec d 0); [lia|reflexivity].
    - cbn [map]. rewrite largest_cons, IH1. destruct (Nat.ltb_spec d (serial_height c)) as [H1|H1].
      + destruct (Nat.ltb_spec d (Nat.max (serial_height c) (largest (map serial_height cs)))); [reflexivity|lia].
      + rewrite IHcs. destruct (Nat.ltb_spec d (largest (map serial_height cs))) as [H2|H2];
          destruct (Nat.ltb_spec d (Nat.max (serial_height c) (largest (map serial_height cs)))); try lia; reflexivity. }
  destruct n as [| t o a cs|t o a cs| | | |]; try reflexivity; cbn [serial_height SerializeNode_d SerializeNode];
    (destruct d as [|d]; [destruct (TagIsSelfClosing t); reflexivity|]);
    (destruct (TagIsSelfClosing t); [cbn [Nat.ltb Nat.leb]; now rewrite <- !app_assoc|]);
    change (S (S d) <? S (S (largest (map serial_height cs)))) with (d <? largest (map serial_height cs));
    rewrite (HC cs d IH); destruct (d <? largest (map serial_height cs)); try reflexivity; now rewrite <- !app_assoc.
Qed.

(** ** Rule objects *)

Lemma chain_pos r : 1 <= rule_chain r.
Proof. destruct r. cbn [rule_chain]. lia. Qed.

Lemma copy_frames : forall r d, rule_copy_d d r = if d <? rule_chain r then None else Some (rule_copy r).
Proof.
  induction r as [c n l ms cs t o g name IHc IHn IHl] using rule_ind2. intros d. destruct d as [|d].
  { set (r := mk_rule c n l ms cs t o g name). pose proof (chain_pos r). destruct (Nat.ltb_spec 0 (rule_chain r)); [|lia]. reflexivity. }
  cbn [rule_chain rule_copy_d rule_copy].
  match goal with |- context [S d <? S ?x] => change (S d <? S x) with (d <? x) end. rewrite !largest_cons.
  assert (HL : (fix loop (l : list rule) : option (list rule) :=
     match l with
     | [] => Some []
     | x :: l' => match rule_copy_d d x with
                  | None => None
                  | Some y => match loop l' with None => None | Some rest => Some (y :: rest) end
                  end
     end) l = if d <? largest (map rule_chain l) then None else Some (map rule_copy l)).
  { clear - IHl. induction IHl as [|x l IH _ IHl].
    - cbn [map largest fold_right]. destruct (Nat.ltb_spec d 0); [lia|reflexivity].
    - cbn [map]. rewrite largest_cons, IH. destruct (Nat.ltb_spec d (rule_chain x)) as [H1|H1].
      + destruct (Nat.ltb_spec d (Nat.max (rule_chain x) (largest (map rule_chain l)))); [reflexivity|lia].
      + rewrite IHl. destruct (Nat.ltb_spec d (largest (map rule_chain l))) as [H2|H2];
          destruct (Nat.ltb_spec d (Nat.max (rule_chain x) (largest (map rule_chain l)))); try lia; reflexivity. }
  rewrite HL. clear HL.
  assert (HC : match c with Some x => option_map Some (rule_copy_d d x) | None => Some None end
    = if d <? match c with Some c' => rule_chain c' | None => 0 end then None
      else Some (match c with Some c' => Some (rule_copy c') | None => None end)).
  { destruct c as [x|]; [|reflexivity]. rewrite (IHc x eq_refl). destruct (d <? rule_chain x); reflexivity. }
  assert (HN : match n with Some x => option_map Some (rule_copy_d d x) | None => Some None end
    = if d <? match n with Some c' => rule_chain c' | None => 0 end then None
      else Some (match n with Some c' => Some (rule_copy c') | None => None end)).
  { destruct n as [x|]; [|reflexivity]. rewrite (IHn x eq_refl). destruct (d <? rule_chain x); reflexivity. }
  rewrite HC, HN. clear.
  set (a := match c with Some c' => rule_chain c' | None => 0 end).
  set (b := match n with Some c' => rule_chain c' | None => 0 end).
  destruct (Nat.ltb_spec d (largest (map rule_chain l))), (Nat.ltb_spec d a), (Nat.ltb_spec d b),
    (Nat.ltb_spec d (Nat.max a (Nat.max b (largest (map rule_chain l))))); try lia; reflexivity.
Qed.

Lemma destroy_frames : forall r d, rule_destroy_d d r = (rule_chain r <=? d).
Proof.
  induction r as [c n l ms cs t o g name IHc IHn IHl] using rule_ind2. intros d. destruct d as [|d].
  { set (r := mk_rule c n l ms cs t o g name). pose proof (chain_pos r). destruct (Nat.leb_spec (rule_chain r) 0); [lia|]. reflexivity. }
  cbn [rule_chain rule_destroy_d].
  match goal with |- context [S ?x <=? S d] => change (S x <=? S d) with (x <=? d) end. rewrite !largest_cons.
  assert (HL : forallb (rule_destroy_d d) l = (largest (map rule_chain l) <=? d)).
  { clear - IHl. induction IHl as [|x l IH _ IHl]; [reflexivity|]. cbn [forallb map]. rewrite largest_cons, IH, IHl.
    destruct (Nat.leb_spec (rule_chain x) d), (Nat.leb_spec (largest (map rule_chain l)) d),
      (Nat.leb_spec (Nat.max (rule_chain x) (largest (map rule_chain l))) d); try lia; reflexivity. }
  rewrite HL. clear HL.
  assert (HC : match c with Some x => rule_destroy_d d x | None => true end
    = (match c with Some c' => rule_chain c' | None => 0 end <=? d)) by (destruct c; [now apply IHc|reflexivity]).
  assert (HN : match n with Some x => rule_destroy_d d x | None => true end
    = (match n with Some c' => rule_chain c' | None => 0 end <=? d)) by (destruct n; [now apply IHn|reflexivity]).
  rewrite HC, HN. clear.
  set (a := match c with Some c' => rule_chain c' | None => 0 end).
  set (b := match n with Some c' => rule_chain c' | None => 0 end).
  destruct (Nat.leb_spec (largest (map rule_chain l)) d), (Nat.leb_spec a d), (Nat.leb_spec b d),
    (Nat.leb_spec (Nat.max a (Nat.max b (largest (map rule_chain l)))) d); try lia; reflexivity.
Qed.
