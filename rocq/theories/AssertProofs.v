(** No assertion fails in Rule::extract. *)

From Coq Require Import Ascii String NArith ZArith Bool List Lia.
From Verif Require ExpressSpec.
From Verif Require Import Base StringUtil Tags Dom NodeUtil Values Match Rule RuleMatching ExtractSpec Parser Asserts AssertSpec AssertParse ParsedProofs.
Import ListNotations.
Open Scope outcome_scope.

Section Debug.

Variable abort : forall A : Type, outcome A.

(** ** nth-child *)

Lemma count_up_same ct l : forall i index count, i <= index < i + length l ->
  count_up_a abort ct l i index count = count_up ct l i index count.
Proof.
  induction l as [|c l IH]; intros i index count H; cbn [length] in H; [lia|]. cbn [count_up_a count_up].
  destruct (if counts ct c then int_op (count + 1) else Ok count) as [k| | |]; cbn [obind]; try reflexivity.
  destruct (Nat.eqb_spec i index); [reflexivity|]. apply IH. lia.
Qed.

Lemma child_index D i pp n par : nget D (i :: pp) = Some n -> deref D pp = Ok par -> i < length (children_of par).
Proof.
  unfold deref. cbn [nget]. destruct (nget D pp) as [q|]; [|discriminate]. intros H H'. injection H' as ->.
  apply nth_error_Some. congruence.
Qed.

Lemma preceding_same D p n ct : nget D p = Some n -> count_preceding_a abort D p ct = count_preceding_siblings D p ct.
Proof.
  intros Hp. destruct p as [|i pp]; [reflexivity|]. cbn [count_preceding_a count_preceding_siblings].
  destruct (deref D pp) as [par| | |] eqn:Ed; cbn [obind]; try reflexivity. destruct (is_element par); [|reflexivity].
  pose proof (child_index D i pp n par Hp Ed) as Hi. unfold check. rewrite (proj2 (Nat.ltb_lt _ _) Hi).
  apply count_up_same. lia.
Qed.

Lemma following_same D p n ct : nget D p = Some n -> count_following_a abort D p ct = count_following_siblings D p ct.
Proof.
  intros Hp. destruct p as [|i pp]; [reflexivity|]. cbn [count_following_a count_following_siblings].
  destruct (deref D pp) as [par| | |] eqn:Ed; cbn [obind]; try reflexivity. destruct (is_element par); [|reflexivity].
  pose proof (child_index D i pp n par Hp Ed) as Hi. destruct (Nat.eqb_spec (length (children_of par)) 0); [lia|].
  unfold check. now rewrite (proj2 (Nat.ltb_lt _ _) Hi).
Qed.

(** ** Matches and captures *)

Lemma mtch_ind' (P : mtch -> Prop) :
  (forall m, (forall ms, m <> NegateMatch ms) -> P m) ->
  (forall ms, (forall m, In (Some m) ms -> P m) -> P (NegateMatch ms)) -> forall m, P m.
Proof.
  intros H0 HN. fix IH 1. intros m. destruct m; try (apply H0; intros ? H; discriminate H).
  apply HN. induction ms as [|[x|] ms IHms]; intros m Hm; [destruct Hm| |].
  - destruct Hm as [Hm|Hm]; [injection Hm as <-; apply IH|now apply IHms].
  - destruct Hm as [Hm|Hm]; [discriminate Hm|now apply IHms].
Qed.

Lemma match_same E D m : functions_set m -> forall p, match_a abort E D m p = mtch_matches E D m p.
Proof.
  induction m as [m Hm|ms IH] using mtch_ind'; intros HF p.
  - destruct m as [c|a t|c|f|f t|ms|step shift o|b|rx]; cbn [match_a mtch_matches functions_set] in *;
      try (destruct (deref D p); reflexivity).
    + destruct f as [f|]; [|contradiction]. destruct (deref D p); reflexivity.
    + destruct f as [f|]; [|contradiction]. destruct (deref D p); reflexivity.
    + exfalso. eapply Hm. reflexivity.
    + unfold deref. destruct (nget D p) as [n|] eqn:Hp; cbn [obind]; [|reflexivity].
      destruct n; try reflexivity. unfold nth_child_a, NthChildMatch_matches.
      now rewrite (preceding_same D p _ _ Hp), (following_same D p _ _ Hp).
  - cbn [match_a mtch_matches]. destruct (deref D p) as [n| | |]; cbn [obind]; try reflexivity.
    cbn [functions_set] in HF. induction ms as [|[m|] ms IHms]; [reflexivity| |].
    + destruct HF as [HF1 HF2]. rewrite (IH m (or_introl eq_refl) HF1).
      destruct (mtch_matches E D m p) as [[]| | |]; cbn [obind]; try reflexivity.
      apply IHms; [intros x Hx; apply IH; now right|exact HF2].
    + apply IHms; [intros x Hx; apply IH; now right|exact HF].
Qed.

Lemma all_match_same E D l p : (forall m, In (Some m) l -> functions_set m) -> all_match_a abort E D l p = all_match E D l p.
Proof.
  induction l as [|[m|] l IH]; intros H; cbn [all_match_a all_match]; [reflexivity| |].
  - rewrite (match_same E D m (H m (or_introl eq_refl))). destruct (mtch_matches E D m p) as [[]| | |]; cbn [obind]; try reflexivity.
    apply IH. intros x Hx. apply H. now right.
  - apply IH. intros x Hx. apply H. now right.
Qed.

Lemma capture_all_same E D l p : (forall c, In (Some c) l -> function_set c) -> capture_all_a abort E D l p = capture_all E D l p.
Proof.
  induction l as [|[c|] l IH]; intros H; cbn [capture_all_a capture_all]; [reflexivity| |].
  - assert (Hc : capture_a abort E D c p = capture_capture E D c p).
    { specialize (H c (or_introl eq_refl)). destruct c as [|[f|] nm pp]; try reflexivity. now cbn in H. }
    rewrite Hc, IH; [reflexivity|]. intros x Hx. apply H. now right.
  - apply IH. intros x Hx. apply H. now right.
Qed.

(** ** The search *)

Section Search.

Variable R : rule.
Variable D : node.
Variables matches matches' : rule -> npath -> outcome bool.
Hypothesis Hm : forall r rp p, rget R rp = Some r -> matches' r p = matches r p.

Lemma bind_same {A B} (m m' : M A) (f f' : A -> M B) n :
  (forall k, m k = m' k) -> (forall a k, m' n = Ok (a, k) -> f a k = f' a k) -> bind m f n = bind m' f' n.
Proof. intros H1 H2. unfold bind. rewrite H1. destruct (m' n) as [[a k]| | |]; cbn [obind]; auto. Qed.

Lemma lift_rderef rp n r k : lift (rderef R rp) n = Ok (r, k) -> rget R rp = Some r.
Proof. unfold lift, rderef. destruct (rget R rp); cbn [obind]; congruence. Qed.

Ltac same := repeat first
  [ reflexivity
  | match goal with
    | IH : forall _, _ |- _ => apply IH
    | |- bind _ _ _ = bind _ _ _ => apply bind_same; [intros ?|intros ? ? ?]
    | |- lift (matches' ?r ?p) _ = _ =>
        match goal with H : lift (rderef R _) _ = Ok (r, _) |- _ => unfold lift; rewrite (Hm _ _ p (lift_rderef _ _ _ _ H)) end
    | |- match ?x with _ => _ end _ = match ?x with _ => _ end _ => destruct x
    | |- match ?x with _ => _ end = match ?x with _ => _ end => destruct x
    end ].

Lemma search_same f :
  (forall rp np n, save_a abort R D matches' f (Some rp) (Some np) n = SaveMatchingNodesRecursive R D matches f (Some rp) (Some np) n) /\
  (forall rp nd n, save_groups_a abort R D matches' f rp nd n = save_groups R D matches f rp nd n) /\
  (forall rp np n, save_below_a abort R D matches' f rp np n = save_below R D matches f rp np n) /\
  (forall r nd n, group_a abort R D matches' f r nd n = MatchRuleGroup R D matches f r nd n) /\
  (forall fr r nd sub n, group_loop_a abort R D matches' f fr r nd sub n = group_loop R D matches f fr r nd sub n) /\
  (forall r nd n, rule_matches_node_a abort R D matches' f r nd n = RuleMatchesNodeRecursive R D matches f r nd n) /\
  (forall cp np n, child_loop_a abort R D matches' f cp np n = child_loop R D matches f cp np n) /\
  (forall rp k size fc n, nested_loop_a abort R D matches' f rp k size fc n = nested_loop R D matches f rp k size fc n) /\
  (forall rp b e n, once_a abort R D matches' f (Some rp) b e n = MatchRuleOnce R D matches f (Some rp) b e n) /\
  (forall rb re np e n, range_a abort R D matches' f rb re (Some np) e n = MatchRange R D matches f rb re (Some np) e n) /\
  (forall rb re b e m n, range_loop_a abort R D matches' f rb re b e m n = range_loop R D matches f rb re b e m n).
Proof.
  induction f as [|f (I1 & I2 & I3 & I4 & I5 & I6 & I7 & I8 & I9 & I10 & I11)]; [repeat split; intros; reflexivity|].
  split; [|split; [|split; [|split; [|split; [|split; [|split; [|split; [|split; [|split]]]]]]]]];
    intros; cbn [save_a save_groups_a save_below_a group_a group_loop_a rule_matches_node_a child_loop_a nested_loop_a once_a range_a range_loop_a
      SaveMatchingNodesRecursive save_groups save_below MatchRuleGroup group_loop RuleMatchesNodeRecursive child_loop nested_loop MatchRuleOnce MatchRange range_loop].
  all: try (same; fail).
  all: same.
Qed.

End Search.

(** ** Rule::extract *)

Section Extract.

Variable E : engine.
Variable R : rule.
Variable D : node.
Hypothesis HF : rule_functions_set R.

Lemma rule_matches_same r rp p : rget R rp = Some r -> rule_matches_a abort E D r p = Rule_matches E D r p.
Proof.
  intros Hr. unfold rule_matches_a, Rule_matches. destruct (deref D p); cbn [obind]; try reflexivity.
  destruct (tag_matches r a); [|reflexivity]. apply all_match_same. intros m Hm. apply (HF r); [now exists rp|exact Hm].
Qed.

Lemma capture_group_same g : forall m, capture_group_a abort E R D g m = capture_group E R D g m.
Proof.
  induction g as [|[rp np] g IH]; intros m; cbn [capture_group_a capture_group]; [reflexivity|].
  unfold rderef. destruct (rget R rp) as [r|] eqn:Er; cbn [obind]; [|reflexivity].
  destruct (Nat.eqb _ 0); [apply IH|]. unfold Rule_capture. rewrite (capture_all_same E D (r_captures r) np).
  - destruct (capture_all E D (r_captures r) np); cbn [obind]; try reflexivity. apply IH.
  - intros c Hc. apply (HF r); [now exists rp|exact Hc].
Qed.

Lemma capture_groups_same mn : capture_groups_a abort E R D mn = capture_groups E R D mn.
Proof.
  induction mn as [|g mn IH]; cbn [capture_groups_a capture_groups]; [reflexivity|]. rewrite capture_group_same, IH. reflexivity.
Qed.

Theorem extract_no_assertion f p n : extract_a abort f E R D (Some p) n = extract f E R D (Some p) n.
Proof.
  unfold extract_a, extract.
  rewrite (proj1 (search_same R D (Rule_matches E D) (rule_matches_a abort E D) rule_matches_same f)).
  destruct (SaveMatchingNodesRecursive _ _ _ _ _ _ _) as [[mn k]| | |]; cbn [obind]; try reflexivity. apply capture_groups_same.
Qed.

End Extract.

End Debug.

(** ** The rules of Hext snippets *)

Section Parsed.

Variable E : engine.

Lemma trait_functions fl m fl' : ExpressSpec.trait_at E fl m fl' -> functions_set m.
Proof. intros []; exact I || (cbn [functions_set]; discriminate). Qed.
Lemma condition_functions fl m fl' : ExpressSpec.condition_at E fl m fl' -> functions_set m.
Proof.
  intros [m' fl1 H|ms fl1 _ H]; [now apply trait_functions in H|]. cbn [functions_set].
  induction H as [|fl x fl1 l fl2 Hx Hl IH]; [exact I|]. cbn [map]. split; [now apply trait_functions in Hx|exact IH].
Qed.
Lemma match_functions fl m : ExpressSpec.match_at E fl m -> functions_set m.
Proof. intros [a ng Ha|a t ng Ha Ht|f t ng Hf Ht]; try exact I. cbn [functions_set]. discriminate. Qed.
Lemma capture_functions fl c : ExpressSpec.capture_at E fl c -> function_set c.
Proof. intros [a n ts fl' Ha Hn Hts|f n ts fl' Hf Hn Hts]; try exact I. cbn [function_set]. discriminate. Qed.

Theorem parsed_functions x R : ParseHext E x = Ok R -> rule_functions_set R.
Proof.
  intros H r Hr. destruct (parsed_rules E x R r H Hr) as [H1 [H2 _]]. rewrite Forall_forall in H1, H2. split.
  - intros m Hm. destruct (H1 _ Hm) as [m' [Em [[fl [fl' HC]]|[fl HC]]]]; injection Em as <-.
    + eapply condition_functions; eauto.
    + eapply match_functions; eauto.
  - intros c Hc. destruct (H2 _ Hc) as [c' [Ec [fl HC]]]. injection Ec as <-. eapply capture_functions; eauto.
Qed.

End Parsed.

Theorem snippet_no_assertion abort E x R : ParseHext_debug abort E x = Ok R ->
  forall f D p n, extract_debug abort f E R D (Some p) n = extract f E R D (Some p) n.
Proof.
  intros H f D p n. rewrite parse_no_assertion in H. apply extract_no_assertion. now apply (parsed_functions E x).
Qed.

(** ** Where the builds differ *)

Theorem null_asserts u E R D n f :
  extract (S f) E R D None n = Ok [] /\ extract_debug (fun _ => UB u) (S f) E R D None n = UB u.
Proof. split; reflexivity. Qed.

Theorem function_asserts u : exists m c D,
  ~ functions_set m /\ ~ function_set c /\ forall E,
  extract 20 E (mk_rule None None [] [Some m] [] TAG_ANY false false None) D (Some [0]) 0 = Ok [] /\
  extract_debug (fun _ => UB u) 20 E (mk_rule None None [] [Some m] [] TAG_ANY false false None) D (Some [0]) 0 = UB u /\
  extract 20 E (mk_rule None None [] [] [Some c] TAG_ANY false false None) D (Some [0]) 0 = Ok [] /\
  extract_debug (fun _ => UB u) 20 E (mk_rule None None [] [] [Some c] TAG_ANY false false None) D (Some [0]) 0 = UB u.
Proof.
  exists (FunctionMatch None), (FunctionCapture None [] None), (NDocument true [] [] [] [NElement TAG_DIV None [] []]).
  split; [intros H; now apply H|]. split; [intros H; now apply H|]. intros E. repeat split; vm_compute; reflexivity.
Qed.
