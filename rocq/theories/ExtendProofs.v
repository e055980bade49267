(** Errors of the regex library never change a result. *)

From Coq Require Import Ascii String NArith ZArith Bool List Lia.
From Verif Require Import Base StringUtil Tags Dom NodeUtil Values Match Rule RuleMatching RuleProofs ExtractSpec ExtractProofs ExtractMain
  RewriteProofs RegexSpec RegexProofs ExtendSpec.
Import ListNotations.

Section Extend.
Variables E E' : engine.
Variable D : node.
Variable R : rule.
Notation all := (rule_uses R).
Hypothesis HE : extends E E' all.

(** The first gives up because of a regex of the rule, or both do the same. *)
Definition ole {A} (o o' : outcome A) : Prop := o = o' \/ (o = Throw RegexRuntimeError /\ gives_up E all).
Lemma ole_refl {A} (o : outcome A) : ole o o.
Proof. now left. Qed.
Lemma ole_bind {A B} (o o' : outcome A) (k k' : A -> outcome B) :
  ole o o' -> (forall a, ole (k a) (k' a)) -> ole (obind o k) (obind o' k').
Proof. intros [->|[-> H]] Hk; [|right; now split]. destruct o'; cbn [obind]; [apply Hk| | |]; apply ole_refl. Qed.

Lemma search_ole rx x : In (Searches rx) all -> ole (regex_search E rx x) (regex_search E' rx x).
Proof.
  intros H. unfold regex_search. destruct (eng_search E rx x) as [a|] eqn:Ha.
  - rewrite (proj1 HE rx H x a Ha). apply ole_refl.
  - right. split; [reflexivity|]. now apply (up_search E all rx x).
Qed.
Lemma replace_ole rx fmt x : In (Replaces rx fmt) all -> ole (regex_replace E x rx fmt) (regex_replace E' x rx fmt).
Proof.
  intros H. unfold regex_replace. destruct (eng_replace E rx x fmt) as [a|] eqn:Ha.
  - rewrite (proj2 HE rx fmt H x a Ha). apply ole_refl.
  - right. split; [reflexivity|]. now apply (up_replace E all rx fmt x).
Qed.

Lemma incl_l {l l' : list use} : incl (l ++ l') all -> incl l all.
Proof. intros H u Hu. apply H, in_or_app. now left. Qed.
Lemma incl_r {l l' : list use} : incl (l ++ l') all -> incl l' all.
Proof. intros H u Hu. apply H, in_or_app. now right. Qed.

Lemma test_ole : forall t x, incl (test_uses t) all -> ole (vtest_test E t x) (vtest_test E' t x).
Proof.
  fix IH 1. intros [l|l|l|l|l|rx|[t|]] x H; try apply ole_refl; cbn [vtest_test test_uses] in *.
  - destruct x as [x|]; [|apply ole_refl]. apply ole_bind; [apply search_ole, H; now left|]. intros. apply ole_refl.
  - apply ole_bind; [now apply IH|]. intros. apply ole_refl.
Qed.

Lemma condition_ole m : forall p, incl (condition_uses m) all -> ole (mtch_matches E D m p) (mtch_matches E' D m p).
Proof.
  induction m as [ms IH|m Hm] using mtch_ind2; intros p H.
  - cbn [mtch_matches condition_uses] in *. apply ole_bind; [apply ole_refl|]. intros _.
    induction ms as [|om ms IHms]; [apply ole_refl|]. inversion IH as [|? ? IHm IHr]; subst. cbn [flat_map] in H.
    destruct om as [m'|]; [|now apply IHms]. apply ole_bind; [exact (IHm m' eq_refl p (incl_l H))|].
    intros b. destruct b; [apply ole_refl|]. apply IHms; [exact IHr|exact (incl_r H)].
  - destruct m as [count|name test|count|f|f test|ms|step shift o|of_type|rx]; cbn [mtch_matches condition_uses] in *; try apply ole_refl.
    + apply ole_bind; [apply ole_refl|]. intros n. destruct n; try apply ole_refl. cbn [AttributeMatch_matches].
      destruct test as [vt|]; [|apply ole_refl]. cbn [of_option] in H. destruct (gumbo_get_attribute _ _) as [a|]; [|now apply test_ole].
      destruct (a_value a); [now apply test_ole|apply ole_refl].
    + apply ole_bind; [apply ole_refl|]. intros n. destruct f as [f|]; [|apply ole_refl]. destruct test as [t|]; [|apply ole_refl].
      apply ole_bind; [apply ole_refl|]. intros x. now apply test_ole.
    + now destruct (Hm ms).
    + apply ole_bind; [apply ole_refl|]. intros n. unfold TypeRegexMatch_matches. apply ole_bind; [apply search_ole, H; now left|]. intros. apply ole_refl.
Qed.

Lemma all_ole p : forall l, incl (flat_map (of_option condition_uses) l) all -> ole (all_match E D l p) (all_match E' D l p).
Proof.
  induction l as [|[m|] l IH]; intros H; [apply ole_refl| |]; cbn [all_match flat_map of_option] in *.
  - apply ole_bind; [exact (condition_ole m p (incl_l H))|]. intros b. destruct b; [|apply ole_refl]. exact (IH (incl_r H)).
  - now apply IH.
Qed.

Lemma transform_ole t x : incl (transform_uses t) all -> ole (transform_str E t x) (transform_str E' t x).
Proof.
  intros H. destruct t as [| | |[]| |rx|rx fmt]; try apply ole_refl; cbn [transform_str transform_uses] in *.
  - apply ole_bind; [apply search_ole, H; now left|]. intros. apply ole_refl.
  - apply replace_ole, H. now left.
Qed.
Lemma pipe_ole : forall p x, incl (pipe_uses p) all -> ole (pipe_pipe E p x) (pipe_pipe E' p x).
Proof.
  fix IH 1. intros [t next] x H. cbn [pipe_pipe pipe_uses] in *. apply ole_bind; [exact (transform_ole t x (incl_l H))|].
  intros y. apply incl_r in H. destruct next as [p'|]; [|apply ole_refl]. now apply IH.
Qed.
Lemma apply_ole o x : incl (of_option pipe_uses o) all -> ole (apply_pipe E o x) (apply_pipe E' o x).
Proof. destruct o; [apply pipe_ole|intros; apply ole_refl]. Qed.

Lemma capture_ole c p : incl (capture_uses c) all -> ole (capture_capture E D c p) (capture_capture E' D c p).
Proof.
  intros H. unfold capture_capture. apply ole_bind; [apply ole_refl|]. intros n. destruct c as [a name pp|f name pp]; cbn [capture_uses] in H.
  - destruct n; try apply ole_refl. destruct (gumbo_get_attribute _ _) as [b|]; [|apply ole_refl]. destruct (a_value b); [|apply ole_refl].
    apply ole_bind; [now apply apply_ole|]. intros. apply ole_refl.
  - destruct f as [f|]; [|apply ole_refl]. apply ole_bind; [apply ole_refl|]. intros x. apply ole_bind; [now apply apply_ole|]. intros. apply ole_refl.
Qed.
Lemma captures_ole p : forall l, incl (flat_map (of_option capture_uses) l) all -> ole (capture_all E D l p) (capture_all E' D l p).
Proof.
  induction l as [|[c|] l IH]; intros H; [apply ole_refl| |]; cbn [capture_all flat_map of_option] in *.
  - apply ole_bind; [exact (capture_ole c p (incl_l H))|]. intros o. apply ole_bind; [exact (IH (incl_r H))|]. intros. apply ole_refl.
  - now apply IH.
Qed.

Lemma own_incl rp r : rget R rp = Some r -> incl (own_uses (r_matches r) (r_captures r)) all.
Proof.
  intros H. apply path_uses in H. intros u Hu. apply H. destruct r. cbn [rule_uses]. apply in_or_app. now left.
Qed.

Definition mle {A} (m m' : M A) : Prop := forall n, ole (m n) (m' n).
Lemma mle_refl {A} (m : M A) : mle m m.
Proof. intros n. apply ole_refl. Qed.
Lemma mle_bind {A B} (m m' : M A) (k k' : A -> M B) : mle m m' -> (forall a, mle (k a) (k' a)) -> mle (bind m k) (bind m' k').
Proof. intros H Hk n. apply ole_bind; [apply H|]. intros [a n']. apply Hk. Qed.
Lemma mle_deref {A} rp (k k' : rule -> M A) :
  (forall r, rget R rp = Some r -> mle (k r) (k' r)) -> mle (bind (lift (rderef R rp)) k) (bind (lift (rderef R rp)) k').
Proof. intros H n. unfold bind, lift, rderef. destruct (rget R rp) as [r|]; [|apply ole_refl]. cbn [obind]. now apply H. Qed.
Lemma mle_matches rp r p : rget R rp = Some r -> mle (lift (Rule_matches E D r p)) (lift (Rule_matches E' D r p)).
Proof.
  intros H n. unfold lift. apply ole_bind; [|intros; apply ole_refl]. unfold Rule_matches. apply ole_bind; [apply ole_refl|]. intros t.
  destruct (tag_matches r t); [|apply ole_refl]. apply all_ole. exact (incl_l (own_incl rp r H)).
Qed.

Notation q := (Rule_matches E D).
Notation q' := (Rule_matches E' D).
Ltac mle_auto :=
  repeat (match goal with
          | |- forall _, _ => intro
          | |- mle ?m ?m => apply mle_refl
          | H : forall _, _ |- _ => solve [apply H]
          | H : rget R ?rp = Some ?r |- mle (lift (q ?r _)) _ => apply (mle_matches rp r _ H)
          | |- mle (bind (lift (rderef R _)) _) _ => apply mle_deref
          | |- mle (bind _ _) (bind _ _) => apply mle_bind
          | |- mle (match ?x with _ => _ end) (match ?x with _ => _ end) => destruct x
          end).

Lemma mle_all fuel :
  (forall rp np, mle (SaveMatchingNodesRecursive R D q fuel rp np) (SaveMatchingNodesRecursive R D q' fuel rp np)) /\
  (forall rp np, mle (save_groups R D q fuel rp np) (save_groups R D q' fuel rp np)) /\
  (forall rp np, mle (save_below R D q fuel rp np) (save_below R D q' fuel rp np)) /\
  (forall rp np, mle (MatchRuleGroup R D q fuel rp np) (MatchRuleGroup R D q' fuel rp np)) /\
  (forall a rp np sub, mle (group_loop R D q fuel a rp np sub) (group_loop R D q' fuel a rp np sub)) /\
  (forall rp np, mle (RuleMatchesNodeRecursive R D q fuel rp np) (RuleMatchesNodeRecursive R D q' fuel rp np)) /\
  (forall cp np, mle (child_loop R D q fuel cp np) (child_loop R D q' fuel cp np)) /\
  (forall rp k n np, mle (nested_loop R D q fuel rp k n np) (nested_loop R D q' fuel rp k n np)) /\
  (forall rp a e, mle (MatchRuleOnce R D q fuel rp a e) (MatchRuleOnce R D q' fuel rp a e)) /\
  (forall a e na ne, mle (MatchRange R D q fuel a e na ne) (MatchRange R D q' fuel a e na ne)) /\
  (forall a e na ne mn, mle (range_loop R D q fuel a e na ne mn) (range_loop R D q' fuel a e na ne mn)).
Proof.
  induction fuel as [|f [I1 [I2 [I3 [I4 [I5 [I6 [I7 [I8 [I9 [I10 I11]]]]]]]]]]].
  - repeat split; intros; apply mle_refl.
  - split; [|split; [|split; [|split; [|split; [|split; [|split; [|split; [|split; [|split]]]]]]]]].
    all: intros; cbn [SaveMatchingNodesRecursive save_groups save_below MatchRuleGroup group_loop
      RuleMatchesNodeRecursive child_loop nested_loop MatchRuleOnce MatchRange range_loop].
    all: mle_auto.
Qed.

Lemma group_ole g : forall m, ole (capture_group E R D g m) (capture_group E' R D g m).
Proof.
  induction g as [|[rp np] g IH]; intros m; [apply ole_refl|]. cbn [capture_group]. unfold rderef. destruct (rget R rp) as [r|] eqn:H; [|apply ole_refl].
  cbn [obind]. destruct (Nat.eqb _ 0); [apply IH|]. apply ole_bind; [apply captures_ole; exact (incl_r (own_incl rp r H))|]. intros. apply IH.
Qed.
Lemma groups_ole mn : ole (capture_groups E R D mn) (capture_groups E' R D mn).
Proof.
  induction mn as [|g mn IH]; [apply ole_refl|]. cbn [capture_groups]. apply ole_bind; [apply group_ole|]. intros m.
  apply ole_bind; [exact IH|]. intros. apply ole_refl.
Qed.
Lemma extract_ole f p n : ole (extract f E R D p n) (extract f E' R D p n).
Proof.
  unfold extract. apply ole_bind; [apply (proj1 (mle_all f))|]. intros [mn k]. apply groups_ole.
Qed.
End Extend.

Theorem extends_same E E' R : extends E E' (rule_uses R) -> forall D p n o, extract_yields E R D p n o ->
  o <> Throw RegexRuntimeError -> extract_yields E' R D p n o.
Proof.
  intros H D p n o [f0 Hf] Ho. exists f0. intros f Hle. destruct (extract_ole E E' D R H f p n) as [He|[He _]]; rewrite (Hf f Hle) in He; congruence.
Qed.

Lemma patched_extends E l : extends E (patched E) l.
Proof. split; intros; cbn [patched eng_search eng_replace]; now rewrite H0. Qed.

Theorem error_cause E R D i pp t n : nget D (i :: pp) = Some t ->
  extract_yields E R D (Some (i :: pp)) n (Throw RegexRuntimeError) -> gives_up E (rule_uses R).
Proof.
  intros Hp [f1 H]. destruct (extract_total (patched E) R D i pp t n Hp) as [o [[f0 Ho] Hok]].
  destruct (extract_ole E (patched E) D R (patched_extends E _) (Nat.max f0 f1) (Some (i :: pp)) n) as [He|[_ He]]; [|exact He].
  rewrite (H (Nat.max f0 f1) ltac:(lia)), (Ho (Nat.max f0 f1) ltac:(lia)) in He. subst o. destruct (Hok (patched_total E)).
Qed.
