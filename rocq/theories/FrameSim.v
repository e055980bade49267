(** Two documents that agree below a node: the search and extract. *)

From Coq Require Import Ascii String Arith NArith ZArith Bool List Lia.
From Verif Require Import Base StringUtil Tags Dom NodeUtil Values Match Rule RuleMatching ExtractSpec FrameSpec.
Import ListNotations.

(** ** Related outcomes *)

Definition orel {A B} (Q : A -> B -> Prop) (o : outcome A) (o' : outcome B) : Prop :=
  match o, o' with
  | Ok a, Ok b => Q a b
  | Throw e, Throw e' => e = e'
  | UB u, UB u' => u = u'
  | OutOfFuel, OutOfFuel => True
  | _, _ => False
  end.
Definition mrel {A B} (Q : A -> B -> Prop) (m : M A) (m' : M B) : Prop :=
  forall n, orel (fun x y => Q (fst x) (fst y) /\ snd x = snd y) (m n) (m' n).

Lemma orel_bind {A A' B B'} (P : A -> A' -> Prop) (Q : B -> B' -> Prop) o o' k k' :
  orel P o o' -> (forall a a', P a a' -> orel Q (k a) (k' a')) -> orel Q (obind o k) (obind o' k').
Proof. intros H Hk. destruct o, o'; cbn [orel] in H; try contradiction; cbn [obind orel]; auto. Qed.
Lemma orel_refl {A} (o : outcome A) : orel eq o o.
Proof. destruct o; cbn; auto. Qed.
Lemma orel_eq {A} (o o' : outcome A) : orel eq o o' -> o = o'.
Proof. destruct o, o'; cbn; intros H; try contradiction; congruence. Qed.

Lemma mrel_bind {A A' B B'} (P : A -> A' -> Prop) (Q : B -> B' -> Prop) m m' k k' :
  mrel P m m' -> (forall a a', P a a' -> mrel Q (k a) (k' a')) -> mrel Q (bind m k) (bind m' k').
Proof.
  intros H Hk n. unfold bind. eapply orel_bind; [apply H|]. intros [a x] [a' x'] [Ha Hx]. cbn [fst snd] in *. subst x'. now apply Hk.
Qed.
Lemma mrel_ret {A B} (Q : A -> B -> Prop) a b : Q a b -> mrel Q (ret a) (ret b).
Proof. intros H n. cbn. auto. Qed.
Lemma mrel_fuel {A B} (Q : A -> B -> Prop) : mrel Q out_of_fuel out_of_fuel.
Proof. intros n. exact I. Qed.
Lemma mrel_tick : mrel eq tick tick.
Proof. intros n. unfold tick. destruct (n =? 0)%N; [cbn; auto|]. destruct (n - 1 =? 0)%N; cbn; auto. Qed.
Lemma mrel_lift {A B} (Q : A -> B -> Prop) o o' : orel Q o o' -> mrel Q (lift o) (lift o').
Proof. intros H n. unfold lift. eapply orel_bind; [exact H|]. intros. cbn. auto. Qed.

(** ** Places *)

Section Search.
Variables D D' : node.
Variables pp pp' : npath.
Hypothesis Hpp : same_children D D' pp pp'.

(** The same node below [pp] and below [pp']. *)
Definition at_place (p p' : npath) : Prop := exists i x, p = i :: x ++ pp /\ p' = i :: x ++ pp'.
Definition ptrs (a b : nptr) : Prop :=
  match a, b with Some p, Some p' => at_place p p' | None, None => True | _, _ => False end.
Definition nodes (a b : MatchingNodes) : Prop := Forall2 (fun x y => fst x = fst y /\ at_place (snd x) (snd y)) a b.
Definition found (a b : nptr * MatchingNodes) : Prop := ptrs (fst a) (fst b) /\ nodes (snd a) (snd b).
Definition matched (a b : bool * MatchingNodes) : Prop := fst a = fst b /\ nodes (snd a) (snd b).

Lemma nget_place i x : nget D (i :: x ++ pp) = nget D' (i :: x ++ pp').
Proof.
  destruct Hpp as (par & par' & H & H' & Hc & _). revert i. induction x as [|j x IH]; intros i.
  - cbn [app nget]. now rewrite H, H', Hc.
  - change ((j :: x) ++ pp) with (j :: x ++ pp). change ((j :: x) ++ pp') with (j :: x ++ pp').
    change (nget D (i :: j :: x ++ pp)) with (match nget D (j :: x ++ pp) with Some n => nth_error (children_of n) i | None => None end).
    change (nget D' (i :: j :: x ++ pp')) with (match nget D' (j :: x ++ pp') with Some n => nth_error (children_of n) i | None => None end).
    now rewrite IH.
Qed.

Lemma deref_place p p' : at_place p p' -> deref D p = deref D' p'.
Proof. intros (i & x & -> & ->). unfold deref. now rewrite nget_place. Qed.

(** The parents may be different nodes, but not in what the code looks at. *)
Definition parents (a b : node) : Prop := children_of a = children_of b /\ is_element a = is_element b.
Lemma parent_place x : orel parents (deref D (x ++ pp)) (deref D' (x ++ pp')).
Proof.
  destruct x as [|i x].
  - destruct Hpp as (par & par' & H & H' & Hc & He). cbn [app]. unfold deref. rewrite H, H'. now split.
  - change ((i :: x) ++ pp) with (i :: x ++ pp). change ((i :: x) ++ pp') with (i :: x ++ pp'). unfold deref. rewrite nget_place.
    destruct (nget D' (i :: x ++ pp')); cbn; [now split|reflexivity].
Qed.

Lemma place_child j p p' : at_place p p' -> at_place (j :: p) (j :: p').
Proof. intros (i & x & -> & ->). exists j, (i :: x). split; reflexivity. Qed.

Lemma place_eqb p p' q q' : at_place p p' -> at_place q q' -> npath_eqb p q = npath_eqb p' q'.
Proof.
  intros (i & x & -> & ->) (j & y & -> & ->). unfold npath_eqb.
  destruct (list_eq_dec _ (i :: x ++ pp) (j :: y ++ pp)) as [H|H], (list_eq_dec _ (i :: x ++ pp') (j :: y ++ pp')) as [H'|H']; try reflexivity.
  - injection H as -> H. apply app_inv_tail in H. subst. contradiction.
  - injection H' as -> H'. apply app_inv_tail in H'. subst. contradiction.
Qed.
Lemma ptrs_eqb a a' b b' : ptrs a a' -> ptrs b b' -> nptr_eqb a b = nptr_eqb a' b'.
Proof.
  destruct a, a'; cbn; try contradiction; destruct b, b'; cbn; try contradiction; intros; try reflexivity. now apply place_eqb.
Qed.

Lemma NextNode_place a a' : ptrs a a' -> orel ptrs (NextNode D a) (NextNode D' a').
Proof.
  intros H. destruct a as [p|], a' as [p'|]; try contradiction; [|exact I]. unfold NextNode.
  cbn [ptrs] in H. rewrite (deref_place p p' H). destruct H as (i & x & -> & ->).
  destruct (deref D' (i :: x ++ pp')); cbn [obind]; [|reflexivity|reflexivity|exact I].
  eapply orel_bind; [apply parent_place|]. intros n n' [Hc He]. rewrite He, Hc.
  destruct (is_element n'); [|exact I]. destruct (S i <? length (children_of n')); [|exact I]. cbn [orel ptrs].
  exists (S i), x. split; reflexivity.
Qed.

Variable matches matches' : rule -> npath -> outcome bool.
Variable R : rule.
Hypothesis Hm : forall rp r p p', rget R rp = Some r -> at_place p p' -> matches r p = matches' r p'.

Lemma nodes_app a b c d : nodes a b -> nodes c d -> nodes (a ++ c) (b ++ d).
Proof. intros; now apply Forall2_app. Qed.
Lemma nodes_length a b : nodes a b -> length a = length b.
Proof. induction 1; cbn; congruence. Qed.
Lemma nodes_one rp p p' : at_place p p' -> nodes [(rp, p)] [(rp, p')].
Proof. intros H. constructor; [now split|constructor]. Qed.
Lemma nodes_nil : nodes [] [].
Proof. constructor. Qed.
Lemma nodes_back a b rp : nodes a b -> back_is a rp = back_is b rp.
Proof.
  intros H. unfold back_is. assert (X : nodes (rev a) (rev b)).
  { induction H; [constructor|]. cbn [rev]. apply nodes_app; [assumption|]. constructor; [assumption|constructor]. }
  destruct X as [|[q x] [q' y] a' b' [Hq _] _]; [reflexivity|]. cbn [fst] in Hq. now subst.
Qed.
Lemma nodes_concat a b : Forall2 nodes a b -> nodes (concat a) (concat b).
Proof. induction 1; [constructor|]. now apply nodes_app. Qed.

Lemma Forall2_len a b : Forall2 nodes a b -> length a = length b.
Proof. induction 1; cbn; congruence. Qed.

Lemma group_tail_place rule n n' sub sub' : ptrs n n' -> nodes sub sub' ->
  orel found (group_tail R rule n sub) (group_tail R rule n' sub').
Proof.
  intros Hn Hs. unfold group_tail. eapply orel_bind with (P := eq).
  - destruct rule as [rp|]; [|reflexivity]. eapply orel_bind; [apply orel_refl|]. intros r r' <-.
    rewrite (nodes_back sub sub' rp Hs). destruct (r_greedy r && back_is sub' rp); reflexivity.
  - intros r1 r1' <-. eapply orel_bind with (P := eq).
    + destruct r1 as [rp|]; [|reflexivity]. eapply orel_bind; [apply orel_refl|]. intros r r' <-. reflexivity.
    + intros r2 r2' <-. destruct r2; cbn; split; cbn; auto. constructor.
Qed.

Lemma mrel_deref {B B'} (Q : B -> B' -> Prop) rp k k' :
  (forall r, rget R rp = Some r -> mrel Q (k r) (k' r)) -> mrel Q (bind (lift (rderef R rp)) k) (bind (lift (rderef R rp)) k').
Proof.
  intros H. unfold rderef. destruct (rget R rp) as [r|] eqn:Hr; [|intros n; reflexivity]. intros n. exact (H r eq_refl n).
Qed.

Ltac rel_auto :=
  repeat (match goal with
          | |- forall _, _ => intro
          | H : found (_, _) (_, _) |- _ => destruct H as [? ?]; cbn [fst snd] in *
          | H : matched (_, _) (_, _) |- _ => destruct H as [? ?]; cbn [fst snd] in *
          | H : found ?a ?b |- _ => is_var a; is_var b; destruct a, b
          | H : matched ?a ?b |- _ => is_var a; is_var b; destruct a, b
          | H : @eq _ ?a ?b |- _ => is_var b; subst b
          | H : ptrs (Some _) None |- _ => destruct H
          | H : ptrs None (Some _) |- _ => destruct H
          | H : ptrs (Some _) (Some _) |- _ => cbn [ptrs] in H
          | H : nodes ?a ?b |- context [length ?a] => rewrite (nodes_length a b H)
          | H : Forall2 nodes ?a ?b |- context [length ?a] => rewrite (Forall2_len a b H)
          | H : nodes ?a ?b |- context [back_is ?a ?rp] => rewrite (nodes_back a b rp H)
          | H : ptrs ?a ?a', H' : ptrs ?b ?b' |- context [nptr_eqb ?a ?b] => rewrite (ptrs_eqb a a' b b' H H')
          | |- mrel _ (ret _) (ret _) => apply mrel_ret
          | |- mrel _ out_of_fuel out_of_fuel => apply mrel_fuel
          | |- mrel _ tick tick => apply mrel_tick
          | |- found _ _ => split; cbn [fst snd]
          | |- matched _ _ => split; cbn [fst snd]
          | |- nodes (_ ++ _) (_ ++ _) => apply nodes_app
          | |- nodes (concat _) (concat _) => apply nodes_concat
          | |- nodes [] [] => apply nodes_nil
          | |- nodes [(_, _)] [(_, _)] => apply nodes_one
          | |- Forall2 nodes (_ ++ _) (_ ++ _) => apply Forall2_app
          | |- Forall2 nodes [] [] => constructor
          | |- ptrs None None => exact I
          | |- ptrs (Some _) (Some _) => cbn [ptrs]
          | |- at_place (_ :: _) (_ :: _) => apply place_child
          | |- ?a = ?a => reflexivity
          | H : ?P |- ?P => exact H
          | |- mrel _ (bind (lift (rderef R _)) _) _ => apply mrel_deref
          | H : at_place ?p ?p' |- mrel _ (bind (lift (deref D ?p)) _) _ =>
              rewrite (deref_place p p' H); eapply mrel_bind; [apply mrel_lift, orel_refl|]
          | H : at_place ?p ?p', Hr : rget R _ = Some ?r |- mrel _ (bind (lift (matches ?r ?p)) _) _ =>
              rewrite (Hm _ r p p' Hr H); eapply mrel_bind; [apply mrel_lift, orel_refl|]
          | |- mrel _ (bind (lift (NextNode D _)) _) _ => eapply mrel_bind; [apply mrel_lift, NextNode_place|]
          | |- mrel _ (bind (lift (FindMandatoryRule R _ _)) _) _ => eapply mrel_bind; [apply mrel_lift, orel_refl|]
          | |- mrel _ (bind tick _) (bind tick _) => eapply mrel_bind; [apply mrel_tick|]
          | |- mrel _ (@bind ?A _ _ _) _ =>
              first [unify A (list MatchingNodes); apply (mrel_bind (Forall2 nodes))
                    |unify A (nptr * MatchingNodes)%type; apply (mrel_bind found)
                    |unify A (bool * MatchingNodes)%type; apply (mrel_bind matched)
                    |unify A nptr; apply (mrel_bind ptrs)]
          | |- mrel _ (lift (match ?a with _ => _ end)) (lift (match ?b with _ => _ end)) => apply mrel_lift
          | |- orel ptrs (NextNode D _) (NextNode D' _) => apply NextNode_place
          | |- orel ptrs (Ok None) (Ok None) => exact I
          | |- mrel _ (lift (group_tail R _ _ _)) _ => apply mrel_lift, group_tail_place
          | H : ptrs ?a ?b |- context [match ?a with _ => _ end] => is_var a; is_var b; destruct a, b
          | |- mrel _ (match ?x with _ => _ end) (match ?x with _ => _ end) => destruct x
          | H : forall _, _ |- mrel _ _ _ => eapply H
          end).

Lemma frame_all fuel :
  (forall rp np np', ptrs np np' -> mrel (Forall2 nodes) (SaveMatchingNodesRecursive R D matches fuel rp np) (SaveMatchingNodesRecursive R D' matches' fuel rp np')) /\
  (forall rp np np', ptrs np np' -> mrel (Forall2 nodes) (save_groups R D matches fuel rp np) (save_groups R D' matches' fuel rp np')) /\
  (forall rp np np', at_place np np' -> mrel (Forall2 nodes) (save_below R D matches fuel rp np) (save_below R D' matches' fuel rp np')) /\
  (forall rp np np', ptrs np np' -> mrel found (MatchRuleGroup R D matches fuel rp np) (MatchRuleGroup R D' matches' fuel rp np')) /\
  (forall a rp np np' sub sub', ptrs np np' -> nodes sub sub' -> mrel found (group_loop R D matches fuel a rp np sub) (group_loop R D' matches' fuel a rp np' sub')) /\
  (forall rp np np', ptrs np np' -> mrel matched (RuleMatchesNodeRecursive R D matches fuel rp np) (RuleMatchesNodeRecursive R D' matches' fuel rp np')) /\
  (forall cp np np', at_place np np' -> mrel matched (child_loop R D matches fuel cp np) (child_loop R D' matches' fuel cp np')) /\
  (forall rp k n np np', at_place np np' -> mrel matched (nested_loop R D matches fuel rp k n np) (nested_loop R D' matches' fuel rp k n np')) /\
  (forall rp a a' e e', ptrs a a' -> ptrs e e' -> mrel found (MatchRuleOnce R D matches fuel rp a e) (MatchRuleOnce R D' matches' fuel rp a' e')) /\
  (forall a e na na' ne ne', ptrs na na' -> ptrs ne ne' -> mrel found (MatchRange R D matches fuel a e na ne) (MatchRange R D' matches' fuel a e na' ne')) /\
  (forall a e na na' ne ne' mn mn', ptrs na na' -> ptrs ne ne' -> ptrs mn mn' ->
     mrel found (range_loop R D matches fuel a e na ne mn) (range_loop R D' matches' fuel a e na' ne' mn')).
Proof.
  induction fuel as [|f [I1 [I2 [I3 [I4 [I5 [I6 [I7 [I8 [I9 [I10 I11]]]]]]]]]]].
  - repeat split; intros; apply mrel_fuel.
  - split; [|split; [|split; [|split; [|split; [|split; [|split; [|split; [|split; [|split]]]]]]]]].
    all: intros; cbn [SaveMatchingNodesRecursive save_groups save_below MatchRuleGroup group_loop
      RuleMatchesNodeRecursive child_loop nested_loop MatchRuleOnce MatchRange range_loop].
    all: rel_auto.
    match goal with H : nodes ?m ?m', H' : Forall2 nodes ?a ?a' |- Forall2 nodes (match ?m with _ => _ end) _ => 
      destruct H; [exact H'|]; constructor; [now constructor|exact H'] end.
Qed.

Lemma frame_search fuel rp np np' n : ptrs np np' ->
  orel (fun x y => Forall2 nodes (fst x) (fst y) /\ snd x = snd y)
    (SaveMatchingNodesRecursive R D matches fuel rp np n) (SaveMatchingNodesRecursive R D' matches' fuel rp np' n).
Proof. intros H. now apply (proj1 (frame_all fuel)). Qed.
End Search.

(** ** Conditions and captures *)

Section Local.
Variable E : engine.
Variables D D' : node.
Variables pp pp' : npath.
Hypothesis Hpp : same_children D D' pp pp'.
Notation at_place := (at_place pp pp').

(** What holds for the children of [pp] holds for all nodes below. *)
Lemma near_place {A} (f : node -> npath -> A) p p' n : stays_near f -> at_place p p' -> nget D p = Some n -> f D p = f D' p'.
Proof.
  intros Hf (i & x & -> & ->) Hn. apply Hf. destruct x as [|j x]; [exact Hpp|].
  change ((j :: x) ++ pp) with (j :: x ++ pp) in *. change ((j :: x) ++ pp') with (j :: x ++ pp') in *.
  change (nget D (i :: j :: x ++ pp)) with (match nget D (j :: x ++ pp) with Some n => nth_error (children_of n) i | None => None end) in Hn.
  destruct (nget D (j :: x ++ pp)) as [par|] eqn:Hp; [|discriminate]. exists par, par. split; [exact Hp|].
  rewrite <- (nget_place D D' pp pp' Hpp). now repeat split.
Qed.

Lemma call_place f p p' n : function_near f -> at_place p p' -> nget D p = Some n ->
  call_capture_function f D p = call_capture_function f D' p'.
Proof.
  intros Hf Hp Hn. destruct f; cbn [call_capture_function]; try (now rewrite (deref_place D D' pp pp' Hpp p p' Hp)).
  now rewrite (near_place _ p p' n Hf Hp Hn).
Qed.

Lemma counting_place ct p p' : at_place p p' ->
  count_preceding_siblings D p ct = count_preceding_siblings D' p' ct /\ count_following_siblings D p ct = count_following_siblings D' p' ct.
Proof.
  intros (i & x & -> & ->). pose proof (parent_place D D' pp pp' Hpp x) as X.
  unfold count_preceding_siblings, count_following_siblings.
  destruct (deref D (x ++ pp)), (deref D' (x ++ pp')); cbn [orel] in X; try contradiction; try (split; cbn; congruence).
  destruct X as [Xc Xe]. cbn [obind]. now rewrite Xc, Xe.
Qed.

Lemma condition_place m : condition_near m -> forall p p', at_place p p' -> mtch_matches E D m p = mtch_matches E D' m p'.
Proof.
  intros Hm. induction Hm as [c|a t|c| |f Hf|t|f t Hf|ms Hms IH|a b o|o|rx]; intros p p' Hp; cbn [mtch_matches];
    pose proof (deref_place D D' pp pp' Hpp p p' Hp) as X; rewrite <- X; unfold deref;
    destruct (nget D p) as [n|] eqn:Hn; cbn [obind]; try reflexivity.
  - now rewrite (near_place f p p' n Hf Hp Hn).
  - destruct t as [t|]; [|reflexivity]. now rewrite (call_place f p p' n Hf Hp Hn).
  - induction ms as [|[m|] ms IHl]; [reflexivity| |].
    + rewrite <- (IH m (or_introl eq_refl) p p' Hp). destruct (mtch_matches E D m p) as [[]| | |]; cbn [obind]; try reflexivity.
      apply IHl; intros m' Hm'; [apply Hms|apply IH]; now right.
    + apply IHl; intros m' Hm'; [apply Hms|apply IH]; now right.
  - unfold NthChildMatch_matches. destruct n as [|t orig attrs cs| | | | |]; try reflexivity.
    destruct (counting_place (if opt_of_type o then Some t else None) p p' Hp) as [H1 H2]. now rewrite H1, H2.
  - unfold OnlyChildMatch_matches. destruct n as [|t orig attrs cs| | | | |]; try reflexivity.
    destruct Hp as (i & x & -> & ->). pose proof (parent_place D D' pp pp' Hpp x) as Y.
    destruct (deref D (x ++ pp)), (deref D' (x ++ pp')); cbn [orel] in Y; try contradiction; try (cbn; congruence).
    destruct Y as [Yc Ye]. cbn [obind]. now rewrite Yc, Ye.
Qed.

Lemma all_match_place l p p' : (forall m, In (Some m) l -> condition_near m) -> at_place p p' -> all_match E D l p = all_match E D' l p'.
Proof.
  intros H Hp. induction l as [|[m|] l IH]; cbn [all_match]; [reflexivity| |apply IH; intros; apply H; now right].
  rewrite (condition_place m (H m (or_introl eq_refl)) p p' Hp). destruct (mtch_matches E D' m p') as [[]| | |]; cbn [obind]; try reflexivity.
  apply IH; intros; apply H; now right.
Qed.

Lemma rule_place r p p' : (forall m, In (Some m) (r_matches r) -> condition_near m) -> at_place p p' ->
  Rule_matches E D r p = Rule_matches E D' r p'.
Proof.
  intros H Hp. unfold Rule_matches. rewrite (deref_place D D' pp pp' Hpp p p' Hp).
  destruct (deref D' p') as [n| | |]; cbn [obind]; try reflexivity. destruct (tag_matches r n); [|reflexivity]. now apply all_match_place.
Qed.

Lemma capture_place c p p' : capture_near c -> at_place p p' -> capture_capture E D c p = capture_capture E D' c p'.
Proof.
  intros Hc Hp. unfold capture_capture. pose proof (deref_place D D' pp pp' Hpp p p' Hp) as X. rewrite <- X. unfold deref.
  destruct (nget D p) as [n|] eqn:Hn; cbn [obind]; [|reflexivity]. destruct c as [a name q|[f|] name q]; try reflexivity.
  cbn [capture_near] in Hc. now rewrite (call_place f p p' n Hc Hp Hn).
Qed.

Lemma captures_place l p p' : (forall c, In (Some c) l -> capture_near c) -> at_place p p' -> capture_all E D l p = capture_all E D' l p'.
Proof.
  intros H Hp. induction l as [|[c|] l IH]; cbn [capture_all]; [reflexivity| |apply IH; intros; apply H; now right].
  rewrite (capture_place c p p' (H c (or_introl eq_refl)) Hp), IH; [reflexivity|]. intros; apply H; now right.
Qed.

Section Rule.
Variable R : rule.
Hypothesis HR : near R.

Lemma capture_group_place g g' : nodes pp pp' g g' -> forall m, capture_group E R D g m = capture_group E R D' g' m.
Proof.
  induction 1 as [|[rp p] [rp' p'] g g' [Hrp Hp] H IH]; intros m; [reflexivity|]. cbn [fst snd] in *. subst rp'. cbn [capture_group].
  unfold rderef. destruct (rget R rp) as [r|] eqn:Hr; cbn [obind]; [|reflexivity]. destruct (Nat.eqb (length (r_captures r)) 0); [apply IH|].
  unfold Rule_capture. rewrite (captures_place (r_captures r) p p'); [|intros c Hc; now apply (proj2 (HR r (ex_intro _ rp Hr)))|exact Hp].
  destruct (capture_all E D' (r_captures r) p'); cbn [obind]; try reflexivity. apply IH.
Qed.

Lemma capture_groups_place gs gs' : Forall2 (nodes pp pp') gs gs' -> capture_groups E R D gs = capture_groups E R D' gs'.
Proof.
  induction 1 as [|g g' gs gs' Hg H IH]; [reflexivity|]. cbn [capture_groups]. now rewrite (capture_group_place g g' Hg), IH.
Qed.

Lemma extract_place f i n : extract f E R D (Some (i :: pp)) n = extract f E R D' (Some (i :: pp')) n.
Proof.
  unfold extract.
  assert (X : orel (fun x y => Forall2 (nodes pp pp') (fst x) (fst y) /\ snd x = snd y)
    (SaveMatchingNodesRecursive R D (Rule_matches E D) f (Some []) (Some (i :: pp)) n)
    (SaveMatchingNodesRecursive R D' (Rule_matches E D') f (Some []) (Some (i :: pp')) n)).
  { apply (frame_search D D' pp pp' Hpp).
    - intros rp r p p' Hr Hp. apply rule_place; [|exact Hp]. exact (proj1 (HR r (ex_intro _ rp Hr))).
    - exists i, []. split; reflexivity. }
  destruct (SaveMatchingNodesRecursive R D (Rule_matches E D) f (Some []) (Some (i :: pp)) n) as [[gs c]| | |],
    (SaveMatchingNodesRecursive R D' (Rule_matches E D') f (Some []) (Some (i :: pp')) n) as [[gs' c']| | |]; cbn [orel] in X; try contradiction; cbn [obind]; try congruence.
  apply capture_groups_place. apply X.
Qed.
End Rule.
End Local.

Theorem extract_frame : forall E R D D' pp pp' i limit o, near R -> same_children D D' pp pp' ->
  (extract_yields E R D (Some (i :: pp)) limit o <-> extract_yields E R D' (Some (i :: pp')) limit o).
Proof.
  intros E R D D' pp pp' i limit o HR Hpp. unfold extract_yields.
  split; intros [f0 H]; exists f0; intros f Hf; rewrite <- (H f Hf); [symmetry|]; now apply extract_place.
Qed.
