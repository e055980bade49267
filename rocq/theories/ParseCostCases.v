(** The texts for which building the rule takes longest. *)

From Coq Require Import Ascii String NArith ZArith Bool List Lia.
From Verif Require Import Base StringUtil Tags Dom NodeUtil Values Match Samples Rule ParserTables Parser ParseCost ParseCostProofs.
Import ListNotations.

(** [n] rules next to each other. *)
Fixpoint siblings (n : nat) : str := match n with O => [] | S n' => s "<a/>" ++ siblings n' end.

Lemma siblings_length n : length (siblings n) = 4 * n.
Proof. induction n as [|n IH]; [reflexivity|]. cbn [siblings]. rewrite app_length, IH. change (length (s "<a/>")) with 4. lia. Qed.

Fixpoint later (r : rule) : nat :=
  let 'mk_rule _ n _ _ _ _ _ _ _ := r in match n with Some r' => S (later r') | None => 0 end.
Lemma later_walk x : forall r, snd (append_next_c r x) = later r.
Proof.
  fix IH 1. intros [c [n|] l ms cs t o g name]; [|reflexivity]. cbn [append_next_c later]. specialize (IH n).
  destruct (append_next_c n x). cbn [snd] in *. now rewrite IH.
Qed.
Lemma later_append x : later x = 0 -> forall r, later (append_next r x) = S (later r).
Proof.
  intros Hx. fix IH 1. intros [c [n|] l ms cs t o g name]; cbn [append_next later]; [now rewrite IH|now rewrite Hx].
Qed.

Section Cases.
Variable E : engine.
Variable input : str.

Lemma step_open c : c = 816%N \/ c = 817%N -> machine_step c "<"%char = Ok (2%N, if (c =? 817)%N then [83%N] else []).
Proof. intros [-> | ->]; vm_compute; reflexivity. Qed.
Lemma step_name : machine_step 2 "a"%char = Ok (812%N, [76%N; 79%N]). Proof. vm_compute. reflexivity. Qed.
Lemma step_slash : machine_step 812 "/"%char = Ok (5%N, [80%N]). Proof. vm_compute. reflexivity. Qed.
Lemma step_close : machine_step 5 ">"%char = Ok (817%N, []). Proof. vm_compute. reflexivity. Qed.
Lemma step_end : machine_eof 817 = Ok [83%N]. Proof. vm_compute. reflexivity. Qed.

Lemma pair_eta (m : counted) : (let (o, k) := m in (o, 0 + k)) = m.
Proof. now destruct m. Qed.

(** One more rule. *)
Lemma one_rule rest st S0 : ps_stacks st = [] :: S0 ->
  exists st' x, ps_stacks st' = [x] :: S0 /\ later x = 0 /\
    exec_c E input ("a"%char :: "/"%char :: ">"%char :: rest) 2 st = exec_c E input rest 817 st'.
Proof.
  intros Hs. destruct st as [stacks p tb tok v]. cbn [ps_stacks] in Hs. subst stacks.
  set (name := firstn (S p - p) (skipn p input)).
  assert (HA : run_actions_c (run_action_c E input) [76%N; 79%N] (mk_ps ([] :: S0) p tb tok v) =
    (Ok (mk_ps ([rule_of_tag TAG_ANY false false] :: S0) p (Some p) tok v), 0)) by reflexivity.
  assert (HO : exists x, later x = 0 /\ set_open_tag_or_throw (mk_ps ([rule_of_tag TAG_ANY false false] :: S0) (S p) (Some p) name v) name =
    Ok (mk_ps ([x] :: S0) (S p) (Some p) name v)).
  { unfold set_open_tag_or_throw, top_stack. cbn [ps_stacks obind]. destruct (is_star name).
    - eexists. split; [|reflexivity]. reflexivity.
    - cbv zeta. eexists. split; [|reflexivity]. now destruct (gumbo_tag_enum (c_str name) =? TAG_UNKNOWN)%N. }
  destruct HO as [x [Hx HO]].
  assert (HB : run_actions_c (run_action_c E input) [80%N] (mk_ps ([rule_of_tag TAG_ANY false false] :: S0) (S p) (Some p) tok v) =
    (Ok (mk_ps ([x] :: S0) (S p) (Some p) name v), 0)).
  { cbn [run_actions_c]. change (run_action_c E input 80) with (fun st => (run_action E input 80 st, 0)). cbv beta. cbn [run_action].
    unfold tk_stop. cbn [ps_tok_begin ps_p]. replace (Nat.leb p (S p)) with true by (symmetry; apply Nat.leb_le; lia).
    cbn [obind ps_tok ps_stacks ps_pv]. fold name. now rewrite HO. }
  exists (mk_ps ([x] :: S0) (S (S (S p))) (Some p) name v), x. split; [reflexivity|]. split; [exact Hx|].
  cbn [exec_c]. rewrite step_name. cbn [then_c]. rewrite HA. cbn [also].
  change (812 =? hext_error)%N with false. cbn iota. unfold with_p at 1. cbn [ps_p ps_stacks ps_tok_begin ps_tok ps_pv].
  rewrite step_slash. cbn [then_c]. rewrite HB. cbn [also].
  change (5 =? hext_error)%N with false. cbn iota. rewrite step_close. cbn [then_c run_actions_c also].
  change (817 =? hext_error)%N with false. cbn iota. rewrite !pair_eta. reflexivity.
Qed.

(** What is still to be done when [k] rules are in the list and one more waits
    to be appended. *)
Lemma more_rules n : forall st x top, ps_stacks st = [[x]; [top]] -> later x = 0 ->
  exists st' r, exec_c E input (siblings n) 817 st = (Ok st', later top * (n + 1) + n * (n + 1) / 2) /\ ps_stacks st' = [[]; [r]].
Proof.
  induction n as [|n IH]; intros st x top Hs Hx.
  - cbn [siblings exec_c]. rewrite step_end. cbn [then_c run_actions_c].
    change (run_eof_action_c E input 83 st) with (pop_rule_c input st). unfold pop_rule_c. rewrite Hs.
    pose proof (append_next_same top x) as HA. pose proof (later_walk x top) as HL. destruct (append_next_c top x) as [y k]. cbn [fst snd] in *. subst k.
    cbn [also]. exists (with_stacks st [[]; [y]]), y. split; [|reflexivity]. f_equal. change (0 * (0 + 1) / 2) with 0. lia.
  - change (siblings (S n)) with ("<"%char :: "a"%char :: "/"%char :: ">"%char :: siblings n).
    remember ("a"%char :: "/"%char :: ">"%char :: siblings n) as w. cbn [exec_c].
    rewrite (step_open 817) by now right. cbn [then_c]. change (817 =? 817)%N with true. cbn iota. cbn [run_actions_c].
    change (run_action_c E input 83 st) with (pop_rule_c input st). unfold pop_rule_c. rewrite Hs.
    pose proof (append_next_same top x) as HA. pose proof (later_walk x top) as HL. destruct (append_next_c top x) as [y k]. cbn [fst snd] in *. subst k.
    cbn [also]. change (2 =? hext_error)%N with false. cbn iota.
    destruct (one_rule (siblings n) (with_p (with_stacks st [[]; [y]]) (S (ps_p (with_stacks st [[]; [y]])))) [[y]] eq_refl)
      as [st' [x' [H1 [H2 H3]]]].
    subst w. rewrite H3. destruct (IH st' x' y H1 H2) as [st2 [r [H4 H5]]]. rewrite H4. exists st2, r. split; [|exact H5].
    f_equal. subst y. rewrite (later_append x Hx).
    assert (HD : S n * (S n + 1) / 2 = n * (n + 1) / 2 + S n).
    { replace (S n * (S n + 1)) with (n * (n + 1) + S n * 2) by lia. now rewrite Nat.div_add by discriminate. }
    rewrite HD. nia.
Qed.
End Cases.

Lemma siblings_walk E n : exists r, parse_counted E (siblings (S (S n))) = (Ok r, n * (n + 1) / 2).
Proof.
  unfold parse_counted, parse_c. set (input := siblings (S (S n))).
  change input with ("<"%char :: "a"%char :: "/"%char :: ">"%char :: siblings (S n)) at 2.
  remember ("a"%char :: "/"%char :: ">"%char :: siblings (S n)) as w. cbn [exec_c].
  change hext_start with 816%N. rewrite (step_open 816) by now left. cbn [then_c]. change (816 =? 817)%N with false. cbn iota. cbn [run_actions_c also].
  change (2 =? hext_error)%N with false. cbn iota.
  destruct (one_rule E input (siblings (S n)) (with_p (mk_ps [[]; []] 0 None [] pv_initial) 1) [[]] eq_refl) as [st1 [x1 [H1 [H2 H3]]]].
  cbn [with_p ps_p ps_stacks ps_tok_begin ps_tok ps_pv] in *. subst w. rewrite H3. clear H3.
  change (siblings (S n)) with ("<"%char :: "a"%char :: "/"%char :: ">"%char :: siblings n).
  remember ("a"%char :: "/"%char :: ">"%char :: siblings n) as w. cbn [exec_c].
  rewrite (step_open 817) by now right. cbn [then_c]. change (817 =? 817)%N with true. cbn iota. cbn [run_actions_c].
  change (run_action_c E input 83 st1) with (pop_rule_c input st1). unfold pop_rule_c, pop_rule. rewrite H1.
  cbn [also]. change (2 =? hext_error)%N with false. cbn iota.
  destruct (one_rule E input (siblings n) (with_p (with_stacks st1 [[]; [x1]]) (S (ps_p (with_stacks st1 [[]; [x1]])))) [[x1]] eq_refl)
    as [st2 [x2 [H4 [H5 H6]]]].
  subst w. rewrite H6. destruct (more_rules E input n st2 x2 x1 H4 H5) as [st3 [r [H7 H8]]]. rewrite H7, H2.
  exists r. cbn [also]. rewrite H2 in *. unfold finish. cbn [obind]. rewrite H8. reflexivity.
Qed.

Lemma no_linear k : exists x, (forall E, exists r, ParseHext E x = Ok r) /\ forall E, k * length x < snd (parse_counted E x).
Proof.
  exists (siblings (S (S (8 * k + 100)))). split; intros E; destruct (siblings_walk E (8 * k + 100)) as [r H].
  - exists r. now rewrite <- parse_same, H.
  - rewrite H, siblings_length. cbn [snd]. apply Nat.lt_le_trans with ((8 * k + 100) * (8 * k + 100) / 2).
    + apply Nat.div_le_lower_bound; [discriminate|]. nia.
    + apply Nat.div_le_mono; [discriminate|]. nia.
Qed.
