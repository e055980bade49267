(** The regex library is only asked about texts of the document. *)

From Coq Require Import Ascii String NArith ZArith Bool List Lia.
From Verif Require Import Base StringUtil Tags Dom NodeUtil Values Match Rule RuleMatching RuleProofs StringSpec ValueSpec NodeSpec NodeProofs
  MeaningSpec MeaningProofs ExtractSpec ExtractProofs ExtractMain RewriteProofs RegexProofs AskSpec.
Import ListNotations.

Section Ask.
Variables E E' : engine.
Variable D : node.
Variable R : rule.
Hypothesis HE : forall q, asked E R D q -> same_answer E E' q \/ no_answer E q.

(** The first gives up on a question that the second answers otherwise. *)
Definition blame : Prop := exists q, asked E R D q /\ no_answer E q /\ ~ same_answer E E' q.
Definition ole {A} (o o' : outcome A) : Prop := o = o' \/ (o = Throw RegexRuntimeError /\ blame).
Lemma ole_refl {A} (o : outcome A) : ole o o.
Proof. now left. Qed.
Lemma ole_bind {A B} (o o' : outcome A) (k k' : A -> outcome B) :
  ole o o' -> (forall a, o = Ok a -> ole (k a) (k' a)) -> ole (obind o k) (obind o' k').
Proof. intros [->|[-> H]] Hk; [|right; now split]. destruct o'; cbn [obind]; [now apply Hk| | |]; apply ole_refl. Qed.
Lemma ole_same {A B} (o : outcome A) (k k' : A -> outcome B) : (forall a, o = Ok a -> ole (k a) (k' a)) -> ole (obind o k) (obind o k').
Proof. apply ole_bind, ole_refl. Qed.

Lemma search_ole rx x : asked E R D (Find rx x) -> ole (regex_search E rx x) (regex_search E' rx x).
Proof.
  intros H. unfold regex_search. destruct (HE _ H) as [Hs|Hn]; cbn [same_answer no_answer] in *; [rewrite Hs; apply ole_refl|].
  destruct (eng_search E' rx x) as [a|] eqn:Ha; rewrite Hn; [|apply ole_refl]. right. split; [reflexivity|]. exists (Find rx x).
  split; [exact H|]. cbn [same_answer no_answer]. split; [exact Hn|]. rewrite Hn, Ha. discriminate.
Qed.
Lemma replace_ole rx fmt x : asked E R D (Change rx fmt x) -> ole (regex_replace E x rx fmt) (regex_replace E' x rx fmt).
Proof.
  intros H. unfold regex_replace. destruct (HE _ H) as [Hs|Hn]; cbn [same_answer no_answer] in *; [rewrite Hs; apply ole_refl|].
  destruct (eng_replace E' rx x fmt) as [a|] eqn:Ha; rewrite Hn; [|apply ole_refl]. right. split; [reflexivity|]. exists (Change rx fmt x).
  split; [exact H|]. cbn [same_answer no_answer]. split; [exact Hn|]. rewrite Hn, Ha. discriminate.
Qed.

Lemma test_ole x : forall t, (forall q, test_asks x t q -> asked E R D q) -> ole (vtest_test E t (Some x)) (vtest_test E' t (Some x)).
Proof.
  fix IH 1. intros [l|l|l|l|l|rx|[t|]] H; try apply ole_refl; cbn [vtest_test].
  - apply ole_bind; [apply search_ole, H; constructor|]. intros. apply ole_refl.
  - apply ole_bind; [apply IH; intros q Hq; apply H; now constructor|]. intros. apply ole_refl.
Qed.
Lemma test_nothing : forall t, vtest_test E t None = vtest_test E' t None.
Proof. fix IH 1. intros [l|l|l|l|l|rx|[t|]]; try reflexivity. cbn [vtest_test]. now rewrite (IH t). Qed.

Lemma deref_get p n : deref D p = Ok n -> nget D p = Some n.
Proof. unfold deref. destruct (nget D p); congruence. Qed.
Lemma function_value f p n x : nget D p = Some n -> call_capture_function f D p = Ok x -> function_gives D p f x.
Proof. intros Hn H. apply function_gives_iff; eauto. Qed.

Lemma condition_ole p m : (forall q, condition_asks D p m q -> asked E R D q) -> ole (mtch_matches E D m p) (mtch_matches E' D m p).
Proof.
  induction m as [ms IH|m Hm] using mtch_ind2; intros H.
  - cbn [mtch_matches]. apply ole_same. intros n _.
    assert (HA : forall m q, In (Some m) ms -> condition_asks D p m q -> asked E R D q) by (intros m q Hi Hq; apply H; now apply (ask_not D p ms m)).
    clear H. induction ms as [|om ms IHms]; [apply ole_refl|]. inversion IH as [|? ? IHm IHr]; subst.
    destruct om as [m'|]; [|apply IHms; [exact IHr|intros m q Hi; apply HA; now right]].
    apply ole_bind; [apply (IHm m' eq_refl); intros q; apply HA; now left|].
    intros b _. destruct b; [apply ole_refl|]. apply IHms; [exact IHr|intros m q Hi; apply HA; now right].
  - destruct m as [count|name test|count|f|f test|ms|step shift o|of_type|rx]; cbn [mtch_matches]; try apply ole_refl.
    + apply ole_same. intros n Hn. apply deref_get in Hn. destruct n; try apply ole_refl. cbn [AttributeMatch_matches].
      destruct test as [vt|]; [|apply ole_refl]. destruct (gumbo_get_attribute _ _) as [a|] eqn:Ha; [|rewrite test_nothing; apply ole_refl].
      destruct (a_value a) as [v|] eqn:Hv; [|apply ole_refl]. apply test_ole. intros q Hq. apply H. apply get_attribute_some in Ha.
      eapply ask_attribute; eauto.
    + apply ole_same. intros n Hn. apply deref_get in Hn. destruct f as [f|]; [|apply ole_refl]. destruct test as [t|]; [|apply ole_refl].
      apply ole_same. intros x Hx. apply test_ole. intros q Hq. apply H. eapply ask_function; [|exact Hq]. now apply (function_value f p n).
    + now destruct (Hm ms).
    + apply ole_same. intros n Hn. apply deref_get in Hn. unfold TypeRegexMatch_matches. apply ole_bind; [|intros; apply ole_refl].
      apply search_ole, H. destruct (is_element n) eqn:Hel.
      * destruct n as [| t orig attrs cs| | | | | ]; try discriminate Hel. eapply ask_name; [exact Hn|]. unfold source_name.
        destruct (t =? TAG_UNKNOWN)%N eqn:Ht; [right; split; [now apply N.eqb_eq|reflexivity]|left; split; [now apply N.eqb_neq|reflexivity]].
      * destruct n; try discriminate Hel; now apply (ask_no_name D p rx _ Hn).
Qed.

Lemma all_ole p : forall l, (forall m q, In (Some m) l -> condition_asks D p m q -> asked E R D q) -> ole (all_match E D l p) (all_match E' D l p).
Proof.
  induction l as [|[m|] l IH]; intros H; [apply ole_refl| |]; cbn [all_match].
  - apply ole_bind; [apply condition_ole; intros q; apply H; now left|]. intros b _. destruct b; [|apply ole_refl]. apply IH. intros m' q Hi. apply H. now right.
  - apply IH. intros m' q Hi. apply H. now right.
Qed.

Lemma transform_ole t x : (forall q, transform_asks x t q -> asked E R D q) -> ole (transform_str E t x) (transform_str E' t x).
Proof.
  intros H. destruct t as [| | |[]| |rx|rx fmt]; try apply ole_refl; cbn [transform_str].
  - apply ole_bind; [apply search_ole, H; constructor|]. intros. apply ole_refl.
  - apply replace_ole, H. constructor.
Qed.
Lemma pipe_ole : forall p x, (forall q, pipes_ask E x (Some p) q -> asked E R D q) -> ole (pipe_pipe E p x) (pipe_pipe E' p x).
Proof.
  fix IH 1. intros [t next] x H. cbn [pipe_pipe]. apply ole_bind.
  - apply transform_ole. intros q Hq. apply H. exists (Pipe t next), [], t. eexists _, x. split; [reflexivity|]. split; [reflexivity|]. split; [constructor|exact Hq].
  - intros y Hy. destruct next as [p'|]; [|apply ole_refl]. apply IH. intros q [p0 [ts [t0 [ts' [z [He [Hp [Ht Hq]]]]]]]]. injection He as <-. apply H.
    exists (Pipe t (Some p')), (t :: ts), t0, ts', z. split; [reflexivity|]. split; [cbn; now f_equal|]. split; [|exact Hq].
    econstructor; [apply turned_iff; exact Hy|exact Ht].
Qed.
Lemma apply_ole o x : (forall q, pipes_ask E x o q -> asked E R D q) -> ole (apply_pipe E o x) (apply_pipe E' o x).
Proof. destruct o; [apply pipe_ole|intros; apply ole_refl]. Qed.

Lemma capture_ole c p : (forall q, capture_asks E D p c q -> asked E R D q) -> ole (capture_capture E D c p) (capture_capture E' D c p).
Proof.
  intros H. unfold capture_capture. apply ole_same. intros n Hn. apply deref_get in Hn. destruct c as [a name pp|f name pp].
  - destruct n; try apply ole_refl. destruct (gumbo_get_attribute _ _) as [b|] eqn:Hb; [|apply ole_refl]. destruct (a_value b) as [v|] eqn:Hv; [|apply ole_refl].
    apply ole_bind; [|intros; apply ole_refl]. apply apply_ole. intros q Hq. apply H. apply get_attribute_some in Hb. eapply ask_attribute_value; eauto.
  - destruct f as [f|]; [|apply ole_refl]. apply ole_same. intros x Hx. apply ole_bind; [|intros; apply ole_refl]. apply apply_ole. intros q Hq. apply H.
    eapply ask_function_value; [|exact Hq]. now apply (function_value f p n).
Qed.
Lemma captures_ole p : forall l, (forall c q, In (Some c) l -> capture_asks E D p c q -> asked E R D q) -> ole (capture_all E D l p) (capture_all E' D l p).
Proof.
  induction l as [|[c|] l IH]; intros H; [apply ole_refl| |]; cbn [capture_all].
  - apply ole_bind; [apply capture_ole; intros q; apply H; now left|]. intros o _. apply ole_bind; [apply IH; intros c' q Hi; apply H; now right|]. intros. apply ole_refl.
  - apply IH. intros c' q Hi. apply H. now right.
Qed.

Lemma tag_right r n : tag_matches r n = true -> right_tag r n.
Proof.
  unfold tag_matches, right_tag. destruct (N.eqb_spec (r_tag r) TAG_ANY) as [Ha|_]; [now left|]. destruct n as [|t orig attrs cs| | | | |]; try discriminate.
  intros H. right. exists orig, attrs, cs. destruct (N.eqb_spec t (r_tag r)) as [->|Hn]; [reflexivity|].
  destruct (N.eqb_spec (r_tag r) t); [congruence|]. discriminate H.
Qed.

Definition mle {A} (m m' : M A) : Prop := forall n, ole (m n) (m' n).
Lemma mle_refl {A} (m : M A) : mle m m.
Proof. intros n. apply ole_refl. Qed.
Lemma mle_bind {A B} (m m' : M A) (k k' : A -> M B) : mle m m' -> (forall a, mle (k a) (k' a)) -> mle (bind m k) (bind m' k').
Proof. intros H Hk n. apply ole_bind; [apply H|]. intros [a n'] _. apply Hk. Qed.
Lemma mle_deref {A} rp (k k' : rule -> M A) :
  (forall r, rget R rp = Some r -> mle (k r) (k' r)) -> mle (bind (lift (rderef R rp)) k) (bind (lift (rderef R rp)) k').
Proof. intros H n. unfold bind, lift, rderef. destruct (rget R rp) as [r|]; [|apply ole_refl]. cbn [obind]. now apply H. Qed.
Lemma mle_matches rp r p : rget R rp = Some r -> mle (lift (Rule_matches E D r p)) (lift (Rule_matches E' D r p)).
Proof.
  intros H n. unfold lift. apply ole_bind; [|intros; apply ole_refl]. unfold Rule_matches. apply ole_same. intros t Ht.
  apply deref_get in Ht. destruct (tag_matches r t) eqn:Hm; [|apply ole_refl]. apply tag_right in Hm. apply all_ole.
  intros m q Hi Hq. now apply (asked_condition E R D rp r p t m).
Qed.

Notation q := (Rule_matches E D).
Notation q' := (Rule_matches E' D).
Ltac mle_auto :=
  repeat (match goal with
          | |- forall _, _ => intro
          | |- mle ?m ?m => apply mle_refl
          | H : forall _, _ |- _ => solve [apply H]
          | H : rget R ?rp = Some ?r |- mle (lift (q ?r _)) _ => apply (mle_matches rp r _ H)
          | |- mle (bind (lift (rderef R _)) _) _ => apply mle_deref
          | |- mle (bind _ _) (bind _ _) => apply mle_bind
          | |- mle (match ?x with _ => _ end) (match ?x with _ => _ end) => destruct x
          end).

Lemma mle_all fuel :
  (forall rp np, mle (SaveMatchingNodesRecursive R D q fuel rp np) (SaveMatchingNodesRecursive R D q' fuel rp np)) /\
  (forall rp np, mle (save_groups R D q fuel rp np) (save_groups R D q' fuel rp np)) /\
  (forall rp np, mle (save_below R D q fuel rp np) (save_below R D q' fuel rp np)) /\
  (forall rp np, mle (MatchRuleGroup R D q fuel rp np) (MatchRuleGroup R D q' fuel rp np)) /\
  (forall a rp np sub, mle (group_loop R D q fuel a rp np sub) (group_loop R D q' fuel a rp np sub)) /\
  (forall rp np, mle (RuleMatchesNodeRecursive R D q fuel rp np) (RuleMatchesNodeRecursive R D q' fuel rp np)) /\
  (forall cp np, mle (child_loop R D q fuel cp np) (child_loop R D q' fuel cp np)) /\
  (forall rp k n np, mle (nested_loop R D q fuel rp k n np) (nested_loop R D q' fuel rp k n np)) /\
  (forall rp a e, mle (MatchRuleOnce R D q fuel rp a e) (MatchRuleOnce R D q' fuel rp a e)) /\
  (forall a e na ne, mle (MatchRange R D q fuel a e na ne) (MatchRange R D q' fuel a e na ne)) /\
  (forall a e na ne mn, mle (range_loop R D q fuel a e na ne mn) (range_loop R D q' fuel a e na ne mn)).
Proof.
  induction fuel as [|f [I1 [I2 [I3 [I4 [I5 [I6 [I7 [I8 [I9 [I10 I11]]]]]]]]]]].
  - repeat split; intros; apply mle_refl.
  - split; [|split; [|split; [|split; [|split; [|split; [|split; [|split; [|split; [|split]]]]]]]]].
    all: intros; cbn [SaveMatchingNodesRecursive save_groups save_below MatchRuleGroup group_loop
      RuleMatchesNodeRecursive child_loop nested_loop MatchRuleOnce MatchRange range_loop].
    all: mle_auto.
Qed.

Lemma group_ole g : forall m, ole (capture_group E R D g m) (capture_group E' R D g m).
Proof.
  induction g as [|[rp np] g IH]; intros m; [apply ole_refl|]. cbn [capture_group]. unfold rderef. destruct (rget R rp) as [r|] eqn:H; [|apply ole_refl].
  cbn [obind]. destruct (Nat.eqb _ 0); [apply IH|]. apply ole_bind; [|intros; apply IH]. apply captures_ole. intros c x Hi Hx. now apply (asked_capture E R D rp r np c).
Qed.
Lemma groups_ole mn : ole (capture_groups E R D mn) (capture_groups E' R D mn).
Proof.
  induction mn as [|g mn IH]; [apply ole_refl|]. cbn [capture_groups]. apply ole_bind; [apply group_ole|]. intros m _.
  apply ole_bind; [exact IH|]. intros. apply ole_refl.
Qed.
Lemma extract_ole f p n : ole (extract f E R D p n) (extract f E' R D p n).
Proof.
  unfold extract. apply ole_bind; [apply (proj1 (mle_all f))|]. intros [mn k] _. apply groups_ole.
Qed.
End Ask.

Theorem asked_same E E' R D : (forall q, asked E R D q -> same_answer E E' q) ->
  forall p n o, extract_yields E R D p n o <-> extract_yields E' R D p n o.
Proof.
  intros H p n o.
  assert (He : forall f, extract f E R D p n = extract f E' R D p n).
  { intros f. destruct (extract_ole E E' D R (fun q Hq => or_introl (H q Hq)) f p n) as [He|[_ [q [Hq [_ Hn]]]]]; [exact He|]. destruct (Hn (H q Hq)). }
  split; intros [f0 Hf]; exists f0; intros f Hle; [rewrite <- He|rewrite He]; now apply Hf.
Qed.

Theorem asked_extends E E' R D : (forall q, asked E R D q -> same_answer E E' q \/ no_answer E q) ->
  forall p n o, extract_yields E R D p n o -> o <> Throw RegexRuntimeError -> extract_yields E' R D p n o.
Proof.
  intros H p n o [f0 Hf] Ho. exists f0. intros f Hle. destruct (extract_ole E E' D R H f p n) as [He|[He _]]; rewrite (Hf f Hle) in He; congruence.
Qed.

Theorem asked_cause E R D i pp t n : nget D (i :: pp) = Some t ->
  extract_yields E R D (Some (i :: pp)) n (Throw RegexRuntimeError) -> exists q, asked E R D q /\ no_answer E q.
Proof.
  intros Hp [f1 H]. destruct (extract_total (patched E) R D i pp t n Hp) as [o [[f0 Ho] Hok]].
  assert (HP : forall q, asked E R D q -> same_answer E (patched E) q \/ no_answer E q).
  { intros [rx x|rx fmt x] _; cbn [same_answer no_answer patched eng_search eng_replace];
      [destruct (eng_search E rx x)|destruct (eng_replace E rx x fmt)]; auto. }
  destruct (extract_ole E (patched E) D R HP (Nat.max f0 f1) (Some (i :: pp)) n) as [He|[_ [q [H1 [H2 _]]]]]; [|eauto].
  rewrite (H (Nat.max f0 f1) ltac:(lia)), (Ho (Nat.max f0 f1) ltac:(lia)) in He. subst o. destruct (Hok (patched_total E)).
Qed.
