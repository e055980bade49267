(** A rule only uses its own regexes. *)

From Coq Require Import Ascii String NArith ZArith Bool List Lia.
From Verif Require Import Base StringUtil Tags Dom NodeUtil Values Match Rule RuleMatching RuleProofs ExtractSpec ExtractProofs ExtractMain
  RewriteProofs RegexSpec.
Import ListNotations.

Section Agree.
Variables E E' : engine.
Variable D : node.

Lemma agree_l l l' : agree E E' (l ++ l') -> agree E E' l.
Proof. intros [H1 H2]. split; intros; [apply H1|apply H2]; rewrite in_app_iff; tauto. Qed.
Lemma agree_r l l' : agree E E' (l ++ l') -> agree E E' l'.
Proof. intros [H1 H2]. split; intros; [apply H1|apply H2]; rewrite in_app_iff; tauto. Qed.
Lemma agree_incl l l' : incl l l' -> agree E E' l' -> agree E E' l.
Proof. intros Hi [H1 H2]. split; intros; [apply H1|apply (H2 rx format)]; auto. Qed.

Lemma search_agree rx l x : agree E E' l -> In (Searches rx) l -> regex_search E rx x = regex_search E' rx x.
Proof. intros [H _] Hi. unfold regex_search. now rewrite (H rx Hi x). Qed.

Lemma test_agree : forall t x, agree E E' (test_uses t) -> vtest_test E t x = vtest_test E' t x.
Proof.
  fix IH 1. intros [l|l|l|l|l|rx|[t|]] x H; try reflexivity; cbn [vtest_test test_uses] in *.
  - destruct x as [x|]; [|reflexivity]. now rewrite (search_agree rx _ x H (or_introl eq_refl)).
  - now rewrite (IH t x H).
Qed.

Lemma condition_agree m : forall p, agree E E' (condition_uses m) -> mtch_matches E D m p = mtch_matches E' D m p.
Proof.
  induction m as [ms IH|m Hm] using mtch_ind2; intros p H.
  - cbn [mtch_matches condition_uses] in *. destruct (deref D p); try reflexivity. cbn [obind].
    induction ms as [|om ms IHms]; [reflexivity|]. inversion IH as [|? ? IHm IHr]; subst. cbn [flat_map] in H.
    destruct om as [m'|]; [|now apply IHms]. rewrite (IHm m' eq_refl p (agree_l _ _ H)).
    destruct (mtch_matches E' D m' p) as [b|e|u|]; try reflexivity. cbn [obind].
    destruct b; [reflexivity|]. apply IHms; [exact IHr|now apply agree_r in H].
  - destruct m as [count|name test|count|f|f test|ms|step shift o|of_type|rx]; cbn [mtch_matches condition_uses] in *; try reflexivity.
    + destruct (deref D p) as [n| | |]; try reflexivity. cbn [obind]. destruct n; try reflexivity. cbn [AttributeMatch_matches].
      destruct test as [vt|]; [|reflexivity]. cbn [of_option] in H. destruct (gumbo_get_attribute _ _) as [a|]; [|now apply test_agree].
      destruct (a_value a); [now apply test_agree|reflexivity].
    + destruct (deref D p); try reflexivity. cbn [obind]. destruct f as [f|]; [|reflexivity]. destruct test as [t|]; [|reflexivity].
      destruct (call_capture_function f D p); try reflexivity. cbn [obind]. now apply test_agree.
    + now destruct (Hm ms).
    + destruct (deref D p); try reflexivity. cbn [obind]. unfold TypeRegexMatch_matches. now rewrite (search_agree rx _ _ H (or_introl eq_refl)).
Qed.

Lemma all_agree p : forall l, agree E E' (flat_map (of_option condition_uses) l) -> all_match E D l p = all_match E' D l p.
Proof.
  induction l as [|[m|] l IH]; intros H; [reflexivity| |]; cbn [all_match flat_map of_option] in *.
  - rewrite (condition_agree m p (agree_l _ _ H)). destruct (mtch_matches E' D m p) as [b| | |]; try reflexivity. cbn [obind].
    destruct b; [|reflexivity]. apply IH. now apply agree_r in H.
  - now apply IH.
Qed.

Lemma transform_agree t x : agree E E' (transform_uses t) -> transform_str E t x = transform_str E' t x.
Proof.
  intros H. destruct t as [| | |[]| |rx|rx fmt]; try reflexivity; cbn [transform_str transform_uses] in *.
  - now rewrite (search_agree rx _ _ H (or_introl eq_refl)).
  - destruct H as [_ H]. unfold regex_replace. now rewrite (H rx fmt (or_introl eq_refl) x).
Qed.
Lemma pipe_agree : forall p x, agree E E' (pipe_uses p) -> pipe_pipe E p x = pipe_pipe E' p x.
Proof.
  fix IH 1. intros [t next] x H. cbn [pipe_pipe pipe_uses] in *. rewrite (transform_agree t x (agree_l _ _ H)).
  destruct (transform_str E' t x); try reflexivity. cbn [obind]. apply agree_r in H. destruct next as [p'|]; [|reflexivity]. now apply IH.
Qed.
Lemma apply_agree o x : agree E E' (of_option pipe_uses o) -> apply_pipe E o x = apply_pipe E' o x.
Proof. destruct o; [apply pipe_agree|reflexivity]. Qed.

Lemma capture_agree c p : agree E E' (capture_uses c) -> capture_capture E D c p = capture_capture E' D c p.
Proof.
  intros H. unfold capture_capture. destruct (deref D p) as [n| | |]; try reflexivity. cbn [obind]. destruct c as [a name pp|f name pp]; cbn [capture_uses] in H.
  - destruct n; try reflexivity. destruct (gumbo_get_attribute _ _) as [b|]; [|reflexivity]. destruct (a_value b); [|reflexivity].
    now rewrite (apply_agree pp _ H).
  - destruct f as [f|]; [|reflexivity]. destruct (call_capture_function f D p); try reflexivity. cbn [obind]. now rewrite (apply_agree pp _ H).
Qed.
Lemma captures_agree p : forall l, agree E E' (flat_map (of_option capture_uses) l) -> capture_all E D l p = capture_all E' D l p.
Proof.
  induction l as [|[c|] l IH]; intros H; [reflexivity| |]; cbn [capture_all flat_map of_option] in *.
  - rewrite (capture_agree c p (agree_l _ _ H)), IH; [reflexivity|now apply agree_r in H].
  - now apply IH.
Qed.

Variable R : rule.
Hypothesis HR : agree E E' (rule_uses R).

Lemma step_uses r st r' : rstep_get r st = Some r' -> incl (rule_uses r') (rule_uses r).
Proof.
  destruct r as [c nx l ms cs t o g name]. intros H u Hu. cbn [rule_uses]. rewrite !in_app_iff. destruct st; cbn [rstep_get r_child r_next r_nested] in H.
  - subst c. tauto.
  - subst nx. tauto.
  - apply nth_error_In in H. right. right. left. apply in_flat_map. eauto.
Qed.
Lemma path_uses : forall rp r, rget R rp = Some r -> incl (rule_uses r) (rule_uses R).
Proof.
  induction rp as [|st rp IH]; intros r H; cbn [rget] in H; [injection H as <-; apply incl_refl|].
  destruct (rget R rp) as [r'|] eqn:Hr; [|discriminate]. apply (incl_tran (step_uses r' st r H)). now apply IH.
Qed.
Lemma own_agree rp r : rget R rp = Some r -> agree E E' (own_uses (r_matches r) (r_captures r)).
Proof.
  intros H. apply path_uses in H. apply (agree_incl _ (rule_uses R)); [|exact HR]. intros u Hu. apply H. destruct r. cbn [rule_uses]. apply in_or_app. now left.
Qed.

Lemma search_same f p n :
  SaveMatchingNodesRecursive R D (Rule_matches E D) f (Some []) p n = SaveMatchingNodesRecursive R D (Rule_matches E' D) f (Some []) p n.
Proof.
  apply (proj1 (meq_all R R D (Rule_matches E D) (Rule_matches E' D)
    ltac:(intros rp; destruct (rget R rp) as [r|] eqn:H; [|exact I]; repeat (split; [reflexivity|]); intros q;
          unfold Rule_matches; destruct (deref D q); try reflexivity; cbn [obind]; destruct (tag_matches r _); [|reflexivity];
          apply all_agree; apply own_agree in H; exact (agree_l _ _ H)) f)).
Qed.

Lemma group_same g : forall m, capture_group E R D g m = capture_group E' R D g m.
Proof.
  induction g as [|[rp np] g IH]; intros m; [reflexivity|]. cbn [capture_group]. unfold rderef. destruct (rget R rp) as [r|] eqn:H; [|reflexivity].
  cbn [obind]. destruct (Nat.eqb _ 0); [apply IH|]. unfold Rule_capture. rewrite (captures_agree np (r_captures r)) by (apply own_agree in H; exact (agree_r _ _ H)).
  destruct (capture_all E' D (r_captures r) np); try reflexivity. cbn [obind]. apply IH.
Qed.
Lemma groups_same mn : capture_groups E R D mn = capture_groups E' R D mn.
Proof.
  induction mn as [|g mn IH]; [reflexivity|]. cbn [capture_groups]. rewrite group_same, IH. reflexivity.
Qed.

Lemma extract_agree f p n : extract f E R D p n = extract f E' R D p n.
Proof.
  unfold extract. rewrite search_same. destruct (SaveMatchingNodesRecursive _ _ _ _ _ _ _) as [[mn k]| | |]; try reflexivity. cbn [obind]. apply groups_same.
Qed.
End Agree.

Theorem extract_same E E' R : agree E E' (rule_uses R) -> forall D p n o, extract_yields E R D p n o <-> extract_yields E' R D p n o.
Proof.
  intros H D p n o. split; intros [f0 Hf]; exists f0; intros f Hle; rewrite <- (Hf f Hle); [symmetry|]; now apply extract_agree.
Qed.

(** An engine that never gives up, and otherwise does the same. *)
Definition patched (E : engine) : engine := mk_engine (eng_compile E)
  (fun rx x => match eng_search E rx x with None => Some None | r => r end)
  (fun rx x fmt => match eng_replace E rx x fmt with None => Some x | r => r end).
Lemma patched_total E : engine_total (patched E).
Proof.
  split; intros; cbn [patched eng_search eng_replace]; [destruct (eng_search E rx x)|destruct (eng_replace E rx x fmt)]; discriminate.
Qed.
Lemma patched_agree E l : answers E l -> agree E (patched E) l.
Proof.
  intros [H1 H2]. split; intros; cbn [patched eng_search eng_replace].
  - specialize (H1 rx H x). now destruct (eng_search E rx x).
  - specialize (H2 rx format H x). now destruct (eng_replace E rx x format).
Qed.

Theorem regexes_answer E R D i pp t n : nget D (i :: pp) = Some t -> answers E (rule_uses R) ->
  ~ extract_yields E R D (Some (i :: pp)) n (Throw RegexRuntimeError).
Proof.
  intros Hp HA H. apply (extract_same E (patched E) R (patched_agree E _ HA)) in H.
  destruct (extract_total (patched E) R D i pp t n Hp) as [o [[f0 Ho] Hok]]. destruct H as [f1 H].
  pose proof (Ho (Nat.max f0 f1) ltac:(lia)) as E1. rewrite (H (Nat.max f0 f1) ltac:(lia)) in E1. subst o. exact (Hok (patched_total E)).
Qed.
