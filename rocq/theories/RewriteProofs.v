(** Trees of equal rules: the search and extract give the same. *)

From Coq Require Import Ascii String Arith NArith ZArith Bool List Lia Permutation.
From Verif Require Import Base StringUtil Tags Dom NodeUtil Values Match Rule RuleMatching RuleProofs MatchSim GroupSpec MatchSpec
  StringSpec StringProofs ValueSpec ValueProofs ExtractSpec LocalProofs NodeProofs ExtractProofs ResultProofs ExtractMain NodeSpec RewriteSpec.
Import ListNotations.

(** ** The search *)

Definition meq {A} (m m' : M A) : Prop := forall n, m n = m' n.

Lemma meq_refl {A} (m : M A) : meq m m.
Proof. intros n. reflexivity. Qed.
Lemma meq_bind {A B} (m m' : M A) (k k' : A -> M B) : meq m m' -> (forall a, meq (k a) (k' a)) -> meq (bind m k) (bind m' k').
Proof. intros H Hk n. unfold bind. rewrite H. destruct (m' n) as [[a n']| | |]; cbn [obind]; [apply Hk|reflexivity..]. Qed.

Section Search.
Variables R R' : rule.
Variable D : node.
Variables q q' : rule -> npath -> outcome bool.
(** What the search looks at in a rule. *)
Definition looks_same (r r' : rule) : Prop :=
  r_optional r = r_optional r' /\ r_greedy r = r_greedy r' /\
  is_some (r_next r) = is_some (r_next r') /\ is_some (r_child r) = is_some (r_child r') /\
  length (r_nested r) = length (r_nested r') /\ forall p, q r p = q' r' p.
Hypothesis HT : forall rp,
  match rget R rp, rget R' rp with Some r, Some r' => looks_same r r' | None, None => True | _, _ => False end.

Lemma looks_at rp r r' : rget R rp = Some r -> rget R' rp = Some r' -> looks_same r r'.
Proof. intros H H'. specialize (HT rp). now rewrite H, H' in HT. Qed.

Lemma rnext_same rp r r' : looks_same r r' -> rnext r rp = rnext r' rp.
Proof. intros (_ & _ & H & _). unfold rnext. destruct (r_next r), (r_next r'); try discriminate; reflexivity. Qed.
Lemma rchild_same rp r r' : looks_same r r' -> rchild r rp = rchild r' rp.
Proof. intros (_ & _ & _ & H & _). unfold rchild. destruct (r_child r), (r_child r'); try discriminate; reflexivity. Qed.

Lemma next_at rp r c : rget R rp = Some r -> r_next r = Some c -> rget R (RNext :: rp) = Some c.
Proof. intros H Hc. cbn [rget]. now rewrite H. Qed.
Lemma next_at' rp r c : rget R' rp = Some r -> r_next r = Some c -> rget R' (RNext :: rp) = Some c.
Proof. intros H Hc. cbn [rget]. now rewrite H. Qed.

Lemma find_mandatory_step r p e : find_mandatory r p e =
  if rptr_eqb (Some p) e then e else if negb (r_optional r) then Some p
  else match r_next r with Some r' => find_mandatory r' (RNext :: p) e | None => e end.
Proof. destruct r as [c [n|] l ms cs t o g name]; reflexivity. Qed.
Lemma skip_optional_step r p : skip_optional r p =
  if r_optional r then match r_next r with Some r' => skip_optional r' (RNext :: p) | None => None end else Some p.
Proof. destruct r as [c [n|] l ms cs t o g name]; reflexivity. Qed.

(** Following [next_] ends. *)
Fixpoint chain_length (r : rule) : nat :=
  match r with
  | mk_rule _ (Some r') _ _ _ _ _ _ _ => S (chain_length r')
  | mk_rule _ None _ _ _ _ _ _ _ => 0
  end.
Lemma chain_length_next r c : r_next r = Some c -> chain_length r = S (chain_length c).
Proof. destruct r as [? [n|] ? ? ? ? ? ? ?]; cbn; intros [= <-]. reflexivity. Qed.

Lemma find_same e : forall k r r' p, chain_length r = k -> rget R p = Some r -> rget R' p = Some r' ->
  find_mandatory r p e = find_mandatory r' p e.
Proof.
  induction k as [|k IH]; intros r r' p Hk H H'; rewrite !find_mandatory_step; pose proof (looks_at p r r' H H') as L;
    destruct L as (Lo & _ & Ln & _); rewrite <- Lo;
    destruct (rptr_eqb (Some p) e), (negb (r_optional r)); try reflexivity;
    destruct (r_next r) as [c|] eqn:Ec, (r_next r') as [c'|] eqn:Ec'; try discriminate; try reflexivity.
  - rewrite (chain_length_next r c Ec) in Hk. discriminate.
  - rewrite (chain_length_next r c Ec) in Hk. injection Hk as Hk. apply IH; [exact Hk|now apply (next_at p r)|now apply (next_at' p r')].
Qed.
Lemma skip_same : forall k r r' p, chain_length r = k -> rget R p = Some r -> rget R' p = Some r' ->
  skip_optional r p = skip_optional r' p.
Proof.
  induction k as [|k IH]; intros r r' p Hk H H'; rewrite !skip_optional_step; pose proof (looks_at p r r' H H') as L;
    destruct L as (Lo & _ & Ln & _); rewrite <- Lo; destruct (r_optional r); try reflexivity;
    destruct (r_next r) as [c|] eqn:Ec, (r_next r') as [c'|] eqn:Ec'; try discriminate; try reflexivity.
  - rewrite (chain_length_next r c Ec) in Hk. discriminate.
  - rewrite (chain_length_next r c Ec) in Hk. injection Hk as Hk. apply IH; [exact Hk|now apply (next_at p r)|now apply (next_at' p r')].
Qed.

Lemma FindMandatoryRule_same a e : FindMandatoryRule R a e = FindMandatoryRule R' a e.
Proof.
  destruct a as [p|]; [|reflexivity]. unfold FindMandatoryRule, rderef. pose proof (HT p) as X.
  destruct (rget R p) as [r|] eqn:H, (rget R' p) as [r'|] eqn:H'; try contradiction; [|reflexivity].
  cbn [obind]. now rewrite (find_same e _ r r' p eq_refl H H').
Qed.

Lemma group_tail_same rule node sub : group_tail R rule node sub = group_tail R' rule node sub.
Proof.
  unfold group_tail.
  assert (X : match rule with
     | None => Ok None
     | Some rp => obind (rderef R rp) (fun r => if r_greedy r && back_is sub rp then Ok (rnext r rp) else Ok rule)
     end = match rule with
     | None => Ok None
     | Some rp => obind (rderef R' rp) (fun r => if r_greedy r && back_is sub rp then Ok (rnext r rp) else Ok rule)
     end).
  { destruct rule as [rp|]; [|reflexivity]. unfold rderef. pose proof (HT rp) as X.
    destruct (rget R rp) as [r|], (rget R' rp) as [r'|]; try contradiction; [|reflexivity]. cbn [obind].
    rewrite (rnext_same rp r r' X). destruct X as (_ & -> & _). reflexivity. }
  rewrite X. match goal with |- obind ?x _ = obind ?x _ => destruct x as [[rp|]| | |] end; cbn [obind]; try reflexivity.
  unfold rderef. pose proof (HT rp) as Y.
  destruct (rget R rp) as [r|] eqn:H, (rget R' rp) as [r'|] eqn:H'; try contradiction; [|reflexivity]. cbn [obind].
  now rewrite (skip_same _ r r' rp eq_refl H H').
Qed.

Lemma meq_deref {A} rp (k k' : rule -> M A) :
  (forall r r', looks_same r r' -> meq (k r) (k' r')) -> meq (bind (lift (rderef R rp)) k) (bind (lift (rderef R' rp)) k').
Proof.
  intros H n. unfold bind, lift, rderef. pose proof (HT rp) as X.
  destruct (rget R rp) as [r|], (rget R' rp) as [r'|]; try contradiction; [|reflexivity]. cbn [obind]. now apply H.
Qed.

Ltac meq_auto :=
  repeat (match goal with
          | |- forall _, _ => intro
          | L : looks_same ?r ?r' |- context [rnext ?r ?rp] => rewrite (rnext_same rp r r' L)
          | L : looks_same ?r ?r' |- context [rchild ?r ?rp] => rewrite (rchild_same rp r r' L)
          | L : looks_same ?r ?r' |- context [r_optional ?r] => rewrite (proj1 L)
          | L : looks_same ?r ?r' |- context [r_greedy ?r] => rewrite (proj1 (proj2 L))
          | L : looks_same ?r ?r' |- context [is_some (r_child ?r)] => rewrite (proj1 (proj2 (proj2 (proj2 L))))
          | L : looks_same ?r ?r' |- context [length (r_nested ?r)] => rewrite (proj1 (proj2 (proj2 (proj2 (proj2 L)))))
          | L : looks_same ?r ?r' |- context [q ?r ?p] => rewrite (proj2 (proj2 (proj2 (proj2 (proj2 L)))) p)
          | |- context [FindMandatoryRule R ?a ?e] => rewrite (FindMandatoryRule_same a e)
          | |- context [group_tail R ?a ?b ?c] => rewrite (group_tail_same a b c)
          | |- meq ?m ?m => apply meq_refl
          | H : forall _, _ |- _ => solve [apply H]
          | |- meq (bind (lift (rderef R _)) _) _ => apply meq_deref
          | |- meq (bind _ _) (bind _ _) => apply meq_bind
          | |- meq (match ?x with _ => _ end) (match ?x with _ => _ end) => destruct x
          end).

Lemma meq_all fuel :
  (forall rp np, meq (SaveMatchingNodesRecursive R D q fuel rp np) (SaveMatchingNodesRecursive R' D q' fuel rp np)) /\
  (forall rp np, meq (save_groups R D q fuel rp np) (save_groups R' D q' fuel rp np)) /\
  (forall rp np, meq (save_below R D q fuel rp np) (save_below R' D q' fuel rp np)) /\
  (forall rp np, meq (MatchRuleGroup R D q fuel rp np) (MatchRuleGroup R' D q' fuel rp np)) /\
  (forall a rp np sub, meq (group_loop R D q fuel a rp np sub) (group_loop R' D q' fuel a rp np sub)) /\
  (forall rp np, meq (RuleMatchesNodeRecursive R D q fuel rp np) (RuleMatchesNodeRecursive R' D q' fuel rp np)) /\
  (forall cp np, meq (child_loop R D q fuel cp np) (child_loop R' D q' fuel cp np)) /\
  (forall rp k n np, meq (nested_loop R D q fuel rp k n np) (nested_loop R' D q' fuel rp k n np)) /\
  (forall rp a e, meq (MatchRuleOnce R D q fuel rp a e) (MatchRuleOnce R' D q' fuel rp a e)) /\
  (forall a e na ne, meq (MatchRange R D q fuel a e na ne) (MatchRange R' D q' fuel a e na ne)) /\
  (forall a e na ne mn, meq (range_loop R D q fuel a e na ne mn) (range_loop R' D q' fuel a e na ne mn)).
Proof.
  induction fuel as [|f [I1 [I2 [I3 [I4 [I5 [I6 [I7 [I8 [I9 [I10 I11]]]]]]]]]]].
  - repeat split; intros; apply meq_refl.
  - split; [|split; [|split; [|split; [|split; [|split; [|split; [|split; [|split; [|split]]]]]]]]].
    all: intros; cbn [SaveMatchingNodesRecursive save_groups save_below MatchRuleGroup group_loop
      RuleMatchesNodeRecursive child_loop nested_loop MatchRuleOnce MatchRange range_loop].
    all: meq_auto.
Qed.
End Search.

(** ** Conditions *)

Section Conditions.
Variable E : engine.
Variable D : node.
Variable size : Z.
Hypothesis Hsmall : small_document size D.

Lemma only_position of_type first t (l : list node) i n : nth_error l i = Some n -> kind of_type t n = true ->
  position (mk_nth_option first of_type) t l i = 1%Z ->
  forall j c, nth_error l j = Some c -> (if first then j < i else i < j) -> kind of_type t c = false.
Proof.
  intros Hi Hk Hp j c Hj Hlt. apply nth_error_split in Hi as (a & b & -> & Ha).
  unfold position in Hp. cbn [opt_of_type opt_first] in Hp. destruct (kind of_type t c) eqn:Hc; [|reflexivity]. exfalso.
  assert (Hin : forall x, In c x -> In c (filter (kind of_type t) x)) by (intros x Hx; now apply filter_In).
  destruct first.
  - rewrite firstn_app, firstn_all2 in Hp by lia. replace (S i - length a) with 1 in Hp by lia. cbn [firstn] in Hp.
    rewrite filter_app, app_length in Hp. cbn [filter] in Hp. rewrite Hk in Hp. cbn [length] in Hp.
    rewrite nth_error_app1 in Hj by lia. apply nth_error_In in Hj. specialize (Hin a Hj).
    destruct (filter (kind of_type t) a); [destruct Hin|cbn [length] in Hp; lia].
  - rewrite skipn_app, skipn_all2 in Hp by lia. replace (i - length a) with 0 in Hp by lia. cbn [skipn app filter] in Hp. rewrite Hk in Hp. cbn [length] in Hp.
    rewrite nth_error_app2 in Hj by lia. replace (j - length a) with (S (j - length a - 1)) in Hj by lia. cbn [nth_error] in Hj.
    apply nth_error_In in Hj. specialize (Hin b Hj). destruct (filter (kind of_type t) b); [destruct Hin|cbn [length] in Hp; lia].
Qed.

Lemma alone_position of_type first t (l : list node) i n : nth_error l i = Some n -> kind of_type t n = true ->
  (forall j c, nth_error l j = Some c -> j <> i -> kind of_type t c = false) ->
  position (mk_nth_option first of_type) t l i = 1%Z.
Proof.
  intros Hi Hk H. apply nth_error_split in Hi as (a & b & -> & Ha). unfold position. cbn [opt_of_type opt_first].
  assert (X : forall x, (forall c, In c x -> kind of_type t c = false) -> filter (kind of_type t) x = []).
  { induction x as [|c x IH]; intros Hx; [reflexivity|]. cbn [filter]. rewrite (Hx c (or_introl eq_refl)). apply IH. intros; apply Hx; now right. }
  destruct first.
  - rewrite firstn_app, firstn_all2 by lia. replace (S i - length a) with 1 by lia. cbn [firstn].
    rewrite filter_app, app_length, (X a); [cbn [filter]; rewrite Hk; reflexivity|].
    intros c Hc. apply In_nth_error in Hc as [j Hj]. assert (j < length a) by (apply nth_error_Some; congruence).
    apply (H j c); [now rewrite nth_error_app1|lia].
  - rewrite skipn_app, skipn_all2 by lia. replace (i - length a) with 0 by lia. cbn [skipn app filter]. rewrite Hk, (X b); [reflexivity|].
    intros c Hc. apply In_nth_error in Hc as [j Hj]. apply (H (length a + S j) c); [|lia].
    rewrite nth_error_app2 by lia. replace (length a + S j - length a) with (S j) by lia. exact Hj.
Qed.

Lemma first_answers first of_type p n : nget D p = Some n ->
  exists r, mtch_matches E D (NthChildMatch 0 1 (mk_nth_option first of_type)) p = Ok r.
Proof.
  intros Hp. apply (nth_child_answers E D p n 0 1 _ Hp). exists size. split; [exact Hsmall|]. destruct Hsmall as [Hs _].
  cbn [nth_params_safe]. unfold INT_MIN, INT_MAX in *. lia.
Qed.

Lemma only_is_first_and_last of_type p n : nget D p = Some n ->
  (mtch_matches E D (OnlyChildMatch of_type) p = Ok true <->
   forall first, mtch_matches E D (NthChildMatch 0 1 (mk_nth_option first of_type)) p = Ok true).
Proof.
  intros Hp. rewrite (only_child_spec E D p n of_type Hp). split.
  - intros (t & orig & attrs & cs & i & pp & par & -> & -> & Hpar & He & Ho) first.
    destruct (first_answers first of_type (i :: pp) _ Hp) as [r Hr]. rewrite Hr. f_equal.
    apply (nth_child_spec E D i pp par t orig attrs cs 0 1 _ r Hp Hpar He Hr). apply of_form_zero.
    destruct (nget_parent D i pp _ Hp) as (par' & Hpar' & Hi & _). rewrite Hpar in Hpar'. injection Hpar' as <-.
    eapply alone_position; [exact Hi| |exact Ho]. cbn [kind]. rewrite N.eqb_refl. apply orb_true_r.
  - intros H. destruct n as [|t orig attrs cs| | | | |];
      try (specialize (H true); cbn [mtch_matches] in H; unfold deref in H; rewrite Hp in H; discriminate H).
    destruct p as [|i pp].
    { specialize (H true). cbn [mtch_matches] in H. unfold deref in H. rewrite Hp in H. discriminate H. }
    destruct (nget_parent D i pp _ Hp) as (par & Hpar & Hi & _).
    destruct (is_element par) eqn:He.
    2:{ specialize (H true). pose proof (proj1 (nth_child_root E D i pp par t orig attrs cs 0 1 _ true Hp Hpar He H) eq_refl) as X.
        apply of_form_zero in X. discriminate X. }
    exists t, orig, attrs, cs, i, pp, par. repeat (split; [assumption || reflexivity|]). intros j c Hj Hne.
    assert (Hk : kind of_type t (NElement t orig attrs cs) = true) by (cbn [kind]; rewrite N.eqb_refl; apply orb_true_r).
    assert (Q : forall first, position (mk_nth_option first of_type) t (children_of par) i = 1%Z).
    { intros first. apply of_form_zero. exact (proj1 (nth_child_spec E D i pp par t orig attrs cs 0 1 _ true Hp Hpar He (H first)) eq_refl). }
    destruct (Nat.lt_ge_cases j i).
    + apply (only_position of_type true t _ i _ Hi Hk (Q true) j c Hj). assumption.
    + apply (only_position of_type false t _ i _ Hi Hk (Q false) j c Hj). lia.
Qed.

Lemma test_implied t t' x : test_implies t t' -> vtest_test E t x = Ok true -> vtest_test E t' x = Ok true.
Proof.
  intros H. destruct H as [u v|u v|u v w|u v|u v w|u v|u v w|u v w|t|t];
    rewrite ?equals_test, ?begins_test, ?ends_test, ?contains_test, ?negate_test; cbn [negb]; try tauto.
  - intros ->. eexists. split; [reflexivity|]. now exists v.
  - intros ->. eexists. split; [reflexivity|]. now exists u.
  - intros ->. eexists. split; [reflexivity|]. now exists u, w.
  - intros (y & -> & z & ->). eexists. split; [reflexivity|]. exists (v ++ z). now rewrite app_assoc.
  - intros (y & -> & z & ->). eexists. split; [reflexivity|]. exists u, (w ++ z). now rewrite !app_assoc.
  - intros (y & -> & z & ->). eexists. split; [reflexivity|]. exists (z ++ u). now rewrite app_assoc.
  - intros (y & -> & z & ->). eexists. split; [reflexivity|]. exists (z ++ u), w. now rewrite !app_assoc.
  - intros (y & -> & z & z' & ->). eexists. split; [reflexivity|]. exists (z ++ u), (w ++ z'). now rewrite !app_assoc.
Qed.

Lemma condition_implied m m' p : implies m m' -> mtch_matches E D m p = Ok true -> mtch_matches E D m' p = Ok true.
Proof.
  intros H. destruct H as [a t Ht|a t t' Ht|f t t' Ht]; cbn [mtch_matches]; destruct (deref D p) as [n| | |]; cbn [obind]; try discriminate.
  - unfold AttributeMatch_matches. destruct n as [|tt orig attrs cs| | | | |]; try discriminate.
    destruct (gumbo_get_attribute attrs (c_str a)) as [x|]; [reflexivity|]. pose proof (literal_tests_reject_null E t) as X.
    destruct t; try (rewrite X; discriminate). now destruct (Ht t).
  - unfold AttributeMatch_matches. destruct n as [|tt orig attrs cs| | | | |]; try discriminate.
    destruct (gumbo_get_attribute attrs (c_str a)) as [x|]; [destruct (a_value x); [|discriminate]|]; now apply test_implied.
  - destruct f as [f|]; [|discriminate]. destruct (call_capture_function f D p); cbn [obind]; try discriminate. now apply test_implied.
Qed.

Lemma conditions_same p n l l' : nget D p = Some n -> conditions_equal l l' ->
  (all_match E D l p = Ok true <-> all_match E D l' p = Ok true).
Proof.
  intros Hp H. rewrite !all_match_spec.
  induction H as [l l' H|m|l l'|of_type|m m' H|before after l l' H IH|l l' H IH|l l' l'' H IH H' IH'].
  - split; intros X m Hm; apply X; now apply H.
  - assert (Y : mtch_matches E D (NegateMatch [Some (NegateMatch [Some m])]) p = Ok true <-> mtch_matches E D m p = Ok true).
    { rewrite (negate_spec E D _ p n Hp). split.
      - intros X. specialize (X _ (or_introl eq_refl)). apply (negate_false E D _ p n Hp) in X as (l1 & m' & l2 & Hl & X & _).
        destruct l1 as [|x [|y l1]]; inversion Hl; subst; exact X.
      - intros X m' [Hm|[]]. injection Hm as <-. apply (negate_false E D _ p n Hp). exists [], m, []. split; [reflexivity|]. split; [exact X|intros ? []]. }
    split; intros X m' [Hm|[]]; injection Hm as <-; apply Y; apply X; now left.
  - assert (Y : mtch_matches E D (NegateMatch (l ++ l')) p = Ok true <->
      mtch_matches E D (NegateMatch l) p = Ok true /\ mtch_matches E D (NegateMatch l') p = Ok true).
    { rewrite !(negate_spec E D _ p n Hp). split.
      - intros X. split; intros m Hm; apply X; apply in_or_app; auto.
      - intros [X X'] m Hm. apply in_app_or in Hm as [Hm|Hm]; auto. }
    split.
    + intros X. specialize (X _ (or_introl eq_refl)). apply Y in X as [X X']. intros m [Hm|[Hm|[]]]; injection Hm as <-; assumption.
    + intros X m [Hm|[]]. injection Hm as <-. apply Y. split; apply X; [now left|right; now left].
  - pose proof (only_is_first_and_last of_type p n Hp) as Y. split.
    + intros X. specialize (X _ (or_introl eq_refl)). intros m [Hm|[Hm|[]]]; injection Hm as <-; now apply Y.
    + intros X m [Hm|[]]. injection Hm as <-. apply Y. intros [|]; apply X; [now left|right; now left].
  - split.
    + intros X m0 [Hm|[]]. apply X. now left.
    + intros X m0 [Hm|[Hm|[]]]; injection Hm as <-; [apply X; now left|]. apply (condition_implied m m' p H). apply X. now left.
  - split; intros X m Hm; rewrite !in_app_iff in Hm; destruct Hm as [Hm|[Hm|Hm]];
      try (apply X; rewrite !in_app_iff; tauto).
    + revert m Hm. apply IH. intros m Hm. apply X. rewrite !in_app_iff. tauto.
    + revert m Hm. apply IH. intros m Hm. apply X. rewrite !in_app_iff. tauto.
  - now symmetry.
  - now rewrite IH.
Qed.

Lemma c_str_nocase a b : equal_ignoring_case a b -> equal_ignoring_case (c_str a) (c_str b).
Proof.
  unfold equal_ignoring_case. induction 1 as [|c d a b Hcd H IH]; cbn [c_str]; [constructor|].
  pose proof (same_letter_nul c d Hcd) as X.
  destruct (Ascii.eqb_spec c NUL) as [Hc|Hc], (Ascii.eqb_spec d NUL) as [Hd|Hd]; try tauto; [constructor|]. now constructor.
Qed.

Lemma equals_nocase_left a b x : equal_ignoring_case a b ->
  gumbo_string_equals_ignore_case a x = gumbo_string_equals_ignore_case b x.
Proof.
  intros H. unfold gumbo_string_equals_ignore_case. rewrite (Forall2_same_length _ _ _ H). f_equal.
  apply c_str_nocase, str_eqb_nocase_spec in H. unfold str_eqb_nocase in *. apply str_eqb_eq in H. now rewrite H.
Qed.

Lemma tag_same r r' n : r_tag r = r_tag r' -> tag_names_equal (r_tag r) (r_tagname r) (r_tagname r') ->
  tag_matches r n = tag_matches r' n.
Proof.
  intros Ht H. unfold tag_matches. rewrite <- Ht. destruct (r_tag r =? TAG_ANY)%N; [reflexivity|].
  destruct n as [|t orig attrs cs| | | | |]; try reflexivity. destruct (negb (t =? r_tag r)%N); [reflexivity|].
  destruct (N.eqb_spec (r_tag r) TAG_UNKNOWN) as [Hu|Hu]; [|reflexivity].
  unfold tag_names_equal in H. destruct (r_tagname r) as [x|], (r_tagname r') as [x'|]; try (now destruct H); try reflexivity.
  specialize (H Hu). destruct orig as [[|c o]|]; try reflexivity. cbv zeta.
  rewrite (Forall2_same_length _ _ _ H), (equals_nocase_left x x' _ H). reflexivity.
Qed.

Lemma rule_same r r' p : rules_equal r r' -> (Rule_matches E D r p = Ok true <-> Rule_matches E D r' p = Ok true).
Proof.
  intros (_ & _ & Ht & Hn & Hc & _). unfold Rule_matches, deref. destruct (nget D p) as [n|] eqn:Hp; cbn [obind]; [|tauto].
  rewrite (tag_same r r' n Ht Hn). destruct (tag_matches r' n); [|tauto]. now apply (conditions_same p n).
Qed.

Lemma quiet_same r r' p : rules_equal r r' -> quiet (Rule_matches E D) r p = quiet (Rule_matches E D) r' p.
Proof.
  intros H. pose proof (rule_same r r' p H) as X. unfold quiet.
  destruct (Rule_matches E D r p) as [[]| | |], (Rule_matches E D r' p) as [[]| | |]; try reflexivity;
    solve [destruct (proj1 X eq_refl); discriminate | discriminate (proj1 X eq_refl) | discriminate (proj2 X eq_refl)].
Qed.

(** ** Captures *)

Lemma capture_stores c p o : capture_capture E D c p = Ok (Some o) -> fst o = stores_as c.
Proof.
  unfold capture_capture. destruct (deref D p) as [n| | |]; cbn [obind]; try discriminate.
  destruct c as [a name pp|[f|] name pp]; cbn [stores_as]; [| |discriminate].
  - destruct n as [|t orig attrs cs| | | | |]; try discriminate. destruct (gumbo_get_attribute attrs (c_str a)) as [x|]; [|discriminate].
    destruct (a_value x); [|discriminate]. destruct (apply_pipe E pp _); cbn [obind]; try discriminate. now intros [= <-].
  - destruct (call_capture_function f D p); cbn [obind]; try discriminate.
    destruct (apply_pipe E pp _); cbn [obind]; try discriminate. now intros [= <-].
Qed.

Lemma values_by_name name p l outs : Forall2 (fun c o => capture_capture E D c p = Ok o) l outs ->
  exists outs', Forall2 (fun c o => capture_capture E D c p = Ok o) (filter (fun c => str_eqb (stores_as c) name) l) outs' /\
    values_of name (present outs) = map snd (present outs').
Proof.
  induction 1 as [|c o l outs Hc H (outs' & HF & HV)]; [exists []; split; [constructor|reflexivity]|].
  assert (X : forall x : option result_pair, present (x :: outs) = match x with Some y => y :: present outs | None => present outs end) by (now intros [x|]).
  rewrite X. cbn [filter]. destruct (str_eqb (stores_as c) name) eqn:Hs.
  - exists (o :: outs'). split; [now constructor|]. destruct o as [y|]; [|exact HV].
    unfold values_of in *. cbn [filter]. rewrite (capture_stores c p y Hc), Hs. cbn [map]. rewrite HV. reflexivity.
  - exists outs'. split; [exact HF|]. destruct o as [y|]; [|exact HV].
    unfold values_of in *. cbn [filter]. rewrite (capture_stores c p y Hc), Hs. exact HV.
Qed.

Lemma captures_unique p l : forall outs outs', Forall2 (fun c o => capture_capture E D c p = Ok o) l outs ->
  Forall2 (fun c o => capture_capture E D c p = Ok o) l outs' -> outs = outs'.
Proof.
  induction l as [|c l IH]; intros outs outs' H H'; inversion H; inversion H'; subst; [reflexivity|].
  f_equal; [congruence|now apply IH].
Qed.

Lemma values_same r r' p values values' name : rules_equal r r' -> rule_values E D r p values -> rule_values E D r' p values' ->
  values_of name values = values_of name values'.
Proof.
  intros (_ & _ & _ & _ & _ & Hc) (outs & HF & ->) (outs' & HF' & ->).
  destruct (values_by_name name p _ _ HF) as (o1 & F1 & ->). destruct (values_by_name name p _ _ HF') as (o2 & F2 & ->).
  rewrite (Hc name) in F1. now rewrite (captures_unique p _ _ _ F1 F2).
Qed.
End Conditions.

Lemma values_app name l l' : values_of name (l ++ l') = values_of name l ++ values_of name l'.
Proof. unfold values_of. now rewrite filter_app, map_app. Qed.

Lemma pair_dec (x y : result_pair) : {x = y} + {x <> y}.
Proof. decide equality; apply list_eq_dec, ascii_dec. Qed.
Definition str_dec : forall x y : str, {x = y} + {x <> y} := list_eq_dec ascii_dec.

Lemma count_values x l : count_occ pair_dec l x = count_occ str_dec (values_of (fst x) l) (snd x).
Proof.
  induction l as [|y l IH]; [reflexivity|]. unfold values_of in *. cbn [count_occ filter].
  destruct (pair_dec y x) as [->|Hne].
  - replace (str_eqb (fst x) (fst x)) with true by (symmetry; now apply str_eqb_eq). cbn [map count_occ].
    destruct (str_dec (snd x) (snd x)); [congruence|contradiction].
  - destruct (str_eqb (fst y) (fst x)) eqn:He; [|exact IH]. cbn [map count_occ].
    destruct (str_dec (snd y) (snd x)) as [Hs|Hs]; [|exact IH]. apply str_eqb_eq in He.
    destruct Hne. destruct x, y; cbn [fst snd] in *; congruence.
Qed.

Lemma values_permutation l l' : (forall name, values_of name l = values_of name l') -> Permutation l l'.
Proof. intros H. apply (Permutation_count_occ pair_dec). intros x. now rewrite !count_values, H. Qed.

Lemma map_same vs vs' m : (forall name, values_of name vs = values_of name vs') -> map_of vs m -> map_of vs' m.
Proof.
  intros H (HS & HP & HV). split; [exact HS|]. split.
  - eapply Permutation_trans; [exact HP|]. now apply values_permutation.
  - intros name. now rewrite HV.
Qed.

Section Extract.
Variable E : engine.
Variables R R' : rule.
Variable D : node.
Hypothesis HT : trees_equal R R'.
Hypothesis HD : exists size, small_document size D.

Lemma tree_at rp r r' : rget R rp = Some r -> rget R' rp = Some r' -> rules_equal r r'.
Proof. intros H H'. specialize (HT rp). now rewrite H, H' in HT. Qed.

Lemma captured_same g : forall vs vs', captured E R D g vs -> captured E R' D g vs' ->
  forall name, values_of name vs = values_of name vs'.
Proof.
  induction g as [|[rp p] g IH]; intros vs vs' H H' name; inversion H; inversion H'; subst; [reflexivity|].
  rewrite !values_app. f_equal; [|now apply IH].
  eapply values_same; [|eassumption|eassumption]. eapply tree_at; eassumption.
Qed.

Lemma groups_same gs : forall vss vss', Forall2 (captured E R D) gs vss -> Forall2 (captured E R' D) gs vss' ->
  forall res, Forall2 map_of (filter nonempty_list vss) res -> Forall2 map_of (filter nonempty_list vss') res.
Proof.
  induction gs as [|g gs IH]; intros vss vss' H H' res HM; inversion H as [|? vs ? vss0 Hv Hvs]; inversion H' as [|? vs' ? vss0' Hv' Hvs']; subst; [exact HM|].
  pose proof (captured_same g vs vs' Hv Hv') as X. pose proof (values_permutation vs vs' X) as P. cbn [filter] in *.
  destruct vs as [|v vs], vs' as [|v' vs']; cbn [nonempty_list] in *.
  - now apply (IH vss0).
  - apply Permutation_nil in P. discriminate.
  - apply Permutation_sym, Permutation_nil in P. discriminate.
  - inversion HM; subst. constructor; [now apply (map_same (v :: vs))|]. now apply (IH vss0).
Qed.

Lemma capture_groups_same gs res res' : capture_groups E R D gs = Ok res -> capture_groups E R' D gs = Ok res' -> res = res'.
Proof.
  intros H H'. apply capture_groups_iff in H as (vss & HF & HM). pose proof H' as H2. apply capture_groups_iff in H2 as (vss' & HF' & HM').
  assert (X : extract_result E R' D gs res) by (exists vss'; split; [exact HF'|exact (groups_same gs vss vss' HF HF' res HM)]).
  apply capture_groups_iff in X. congruence.
Qed.

Lemma looks : forall rp,
  match rget R rp, rget R' rp with
  | Some r, Some r' => looks_same (quiet (Rule_matches E D)) (quiet (Rule_matches E D)) r r'
  | None, None => True
  | _, _ => False
  end.
Proof.
  intros rp. pose proof (HT rp) as X. destruct (rget R rp) as [r|] eqn:Hr, (rget R' rp) as [r'|] eqn:Hr'; try exact X.
  destruct HD as [size Hs]. split; [apply X|]. split; [apply X|].
  assert (Y : forall st, is_some (rstep_get r st) = is_some (rstep_get r' st)).
  { intros st. specialize (HT (st :: rp)). cbn [rget] in HT. rewrite Hr, Hr' in HT.
    destruct (rstep_get r st), (rstep_get r' st); try contradiction; reflexivity. }
  split; [apply (Y RNext)|]. split; [apply (Y RChild)|]. split.
  - assert (Z : forall k, k < length (r_nested r) <-> k < length (r_nested r')).
    { intros k. rewrite <- !nth_error_Some. specialize (Y (RNested k)). cbn [rstep_get] in Y.
      destruct (nth_error (r_nested r) k), (nth_error (r_nested r') k); try discriminate Y; split; congruence. }
    pose proof (Z (length (r_nested r))). pose proof (Z (length (r_nested r'))). lia.
  - intros p. now apply (quiet_same E D size Hs).
Qed.

Lemma save_same f p n :
  SaveMatchingNodesRecursive R D (quiet (Rule_matches E D)) f (Some []) p n =
  SaveMatchingNodesRecursive R' D (quiet (Rule_matches E D)) f (Some []) p n.
Proof. apply (proj1 (meq_all R R' D _ _ looks f)). Qed.
End Extract.

(** The search does not fail. *)
Lemma search_quiet E R D f p n : engine_total E -> rule_calls_return R ->
  (exists size, small_document size D /\ rule_params_safe size R) ->
  SaveMatchingNodesRecursive R D (Rule_matches E D) f (Some []) p n =
  SaveMatchingNodesRecursive R D (quiet (Rule_matches E D)) f (Some []) p n.
Proof.
  intros HE HR (size & HS & HP). destruct (proj1 (sim_all R D (Rule_matches E D) f) (Some []) p n) as [H|H]; [exact H|].
  exfalso. apply fails_explained in H as [H1 H2].
  destruct (SaveMatchingNodesRecursive R D (Rule_matches E D) f (Some []) p n) as [x|[]|[]|]; cbn [explained] in H2; try contradiction.
  - now destruct (H1 x).
  - exact (H2 size HS HP).
Qed.

Theorem extract_equal_one E R R' D i pp t n o :
  trees_equal R R' -> nget D (i :: pp) = Some t -> engine_total E -> rule_calls_return R -> rule_calls_return R' ->
  (exists size, small_document size D /\ rule_params_safe size R) -> (exists size, small_document size D /\ rule_params_safe size R') ->
  extract_yields E R D (Some (i :: pp)) n o -> extract_yields E R' D (Some (i :: pp)) n o.
Proof.
  intros HT Hp HE HR HR' HS HS' [f0 H0].
  destruct (extract_returns E R D i pp t n Hp HE HR HS) as (o1 & [f1 H1] & Ho1).
  destruct (extract_returns E R' D i pp t n Hp HE HR' HS') as (o2 & [f2 H2] & Ho2).
  assert (o = o1) by (rewrite <- (H0 (f0 + f1)), <- (H1 (f0 + f1)) by lia; reflexivity). subst o1.
  assert (Hsmall : exists size, small_document size D) by (destruct HS as (size & HS & _); eauto).
  assert (o = o2); [|subst o2; exists f2; exact H2].
  set (f := f0 + f2). specialize (H0 f ltac:(unfold f; lia)). specialize (H2 f ltac:(unfold f; lia)).
  unfold extract in H0, H2. rewrite (search_quiet E R D f _ n HE HR HS) in H0. rewrite (search_quiet E R' D f _ n HE HR' HS') in H2.
  rewrite (save_same E R R' D HT Hsmall f (Some (i :: pp)) n) in H0.
  destruct (SaveMatchingNodesRecursive R' D (quiet (Rule_matches E D)) f (Some []) (Some (i :: pp)) n) as [[gs c]| | |]; cbn [obind] in H0, H2;
    try congruence.
  destruct Ho1 as [[res ->]| ->]; [|now destruct (capture_groups_no_mse E R D gs)].
  destruct Ho2 as [[res' ->]| ->]; [|now destruct (capture_groups_no_mse E R' D gs)].
  f_equal. exact (capture_groups_same E R R' D HT gs res res' H0 H2).
Qed.

Theorem extract_equal : forall E R R' D i pp t n o,
  trees_equal R R' -> nget D (i :: pp) = Some t -> engine_total E -> rule_calls_return R -> rule_calls_return R' ->
  (exists size, small_document size D /\ rule_params_safe size R) -> (exists size, small_document size D /\ rule_params_safe size R') ->
  (extract_yields E R D (Some (i :: pp)) n o <-> extract_yields E R' D (Some (i :: pp)) n o).
Proof.
  intros E R R' D i pp t n o HT Hp HE HR HR' HS HS'. split; [now apply (extract_equal_one E R R' D i pp t)|].
  intros [f2 H2]. destruct (extract_returns E R D i pp t n Hp HE HR HS) as (o1 & Ho1 & _).
  destruct (extract_equal_one E R R' D i pp t n o1 HT Hp HE HR HR' HS HS' Ho1) as [f1 H1].
  assert (o = o1) by (rewrite <- (H2 (f2 + f1)), <- (H1 (f2 + f1)) by lia; reflexivity). now subst o1.
Qed.
