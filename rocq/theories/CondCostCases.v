(** Cases of the work of conditions. *)

From Coq Require Import Ascii String Arith NArith ZArith Bool List Lia Sorted.
From Verif Require Import Base StringUtil Tags Dom NodeUtil Values Match Rule RuleMatching MatchSpec ExtractSpec SearchSpec DepthSpec CostSpec
  StringSpec PipeProofs Samples ExtractMain HrefSpec HrefProofs GrowProofs TextCost TextCostSpec TextCostProofs CaptureState CondState CondSpec CondMain
  CondCost CondCostSpec CondCostProofs.
From Verif Require Import Cost CostProofs.
Import ListNotations.

Lemma works_yields E R D p n o w : search_works E R D p n o w -> search_yields E R D p n o.
Proof.
  intros [log [f0 H]]. exists f0. intros f Hf. specialize (H f Hf).
  pose proof (proj1 (runs_like (fun _ => True) (working E R D) E R D (working_same E R D) f) (Some []) p n 0 I) as HL.
  pose proof (proj1 (runs_same R D (Rule_matches E D) f) (Some []) p n) as HS. unfold same in HS. rewrite <- HS.
  destruct (save_c nat (working E R D) R D f (Some []) p n 0) as [o1 [w1 log1]]. destruct HL as (-> & _ & _). now injection H.
Qed.

Lemma heard_reply E R D w calls w' : heard (working E R D) w calls w' ->
  forall rp k p x, In (rp, k, p, x) calls -> exists w1, x = snd (working E R D rp k p w1).
Proof.
  induction 1 as [w|rp k p w x w1 calls w2 Hw H IH]; intros rp' k' p' x' Hin; [destruct Hin|].
  destruct Hin as [Hin|Hin]; [|now apply IH]. injection Hin as <- <- <- <-. exists w. now rewrite Hw.
Qed.

Section Lone.
Variables (E : engine) (R : rule) (m : mtch) (D : node) (i : nat) (pp : npath) (t : node).
Hypothesis HR : alone R.
Hypothesis Hm : r_matches R = [Some m].
Hypothesis Ht : nget D (i :: pp) = Some t.
Hypothesis Hquiet : forall p n, nget D p = Some n -> exists b, mtch_matches E D m p = Ok b.

Lemma replies_say rp k p n w : nget D p = Some n -> answers (snd (working E R D rp k p w)).
Proof.
  intros Hp. unfold working. destruct (rget R rp) as [r|] eqn:Hr; [|exists false; reflexivity].
  destruct (alone_rget R rp r HR Hr) as [_ ->]. rewrite Hm. destruct k as [|k]; cbn [nth_error].
  - destruct (Hquiet p n Hp) as [b ->]. exists b. reflexivity.
  - destruct k; exists false; reflexivity.
Qed.

Lemma lone_ends : exists gs w, search_works E R D (Some (i :: pp)) 0 (Ok gs) w.
Proof.
  destruct (search_finishes (working E R D) R D i pp t 0 0 Ht) as (o & w & log & Hd & Hh & Hok & He).
  assert (HA : forall rp k p x, In (rp, k, p, x) (calls_of log) -> answers x).
  { intros rp k p x Hin. destruct (heard_reply _ _ _ _ _ _ Hh _ _ _ _ Hin) as [w1 ->].
    unfold calls_of in Hin. apply in_flat_map in Hin as [[[rp' p'] calls] [Hl Hin]].
    apply in_map_iff in Hin as [[k' x'] [Heq _]]. injection Heq as <- <- <- _.
    rewrite Forall_forall in Hok. destruct (Hok _ Hl) as [_ [r [n [_ [Hn _]]]]]. exact (replies_say rp' k' p' n w1 Hn). }
  assert (HB : forall x, broken_by x log -> answers x).
  { intros x (rest & rp & k & p & Hc & _). apply (HA rp k p). rewrite Hc. apply in_or_app. right. now left. }
  destruct o as [gs|e|u|]; cbn in He.
  - exists gs, w, log. exact Hd.
  - destruct He as [(_ & He & _)|He]; [congruence|]. destruct (HB _ He) as [b Hb]. discriminate.
  - destruct (HB _ He) as [b Hb]. discriminate.
  - destruct He.
Qed.

Lemma lone_work nodes gs w : search_works E R D (Some (i :: pp)) 0 (Ok gs) w -> NoDup nodes ->
  (forall p, In p nodes -> exists k q a n, p = k :: q /\ In (q, a, n) (lists_searched D i pp) /\ a <= k < a + n /\ node_satisfies E D R p) ->
  sum (map (condition_work E D m) nodes) <= w.
Proof.
  intros HW HN Hin. pose proof (works_yields _ _ _ _ _ _ _ HW) as HY.
  pose proof (search_yields_result E R D i pp t 0 gs Ht HY) as HS.
  destruct HW as [log Hd].
  destruct (alone_groups E R D i pp HR gs HS) as [found [[nss [-> HF]] ->]].
  pose proof (search_passed (working E R D) R D i pp t 0 0 _ w log Ht Hd) as HP.
  destruct (search_finishes (working E R D) R D i pp t 0 0 Ht) as (o & w' & log' & Hd' & Hh & _).
  injection (does_unique _ _ _ _ _ _ _ _ Hd Hd') as _ <- <-.
  apply heard_work in Hh. cbn [plus] in Hh. subst w.
  apply Nat.le_trans with (sum (map (call_work E R D) (map (fun p => ([], 0, p, Says true)) nodes))).
  - apply Nat.eq_le_incl. rewrite map_map. f_equal. apply map_ext. intros p. cbn [call_work rget]. rewrite Hm. reflexivity.
  - apply sum_incl; [apply FinFun.Injective_map_NoDup; [|exact HN]; intros a b Hab; now injection Hab|].
    intros x Hx. apply in_map_iff in Hx as [p [<- Hp]]. destruct (Hin p Hp) as (k & q & a & n & -> & HL & Hk & Hsat).
    assert (Hfound : In (k :: q) (concat nss)).
    { clear -HF HL Hk Hsat. induction HF as [|L ns Ls nss [ks (-> & _ & H)] HF IH]; [destruct HL|]. cbn [concat]. apply in_or_app.
      destruct HL as [-> |HL]; [left|right; now apply IH]. cbn [fst snd] in *. apply in_map_iff. exists k. split; [reflexivity|]. apply H. split; [exact Hk|exact Hsat]. }
    destruct (HP [([], k :: q)] [] (k :: q)) as (r & n' & calls & Hr & Hn & _ & Hl & Hc).
    { apply in_map_iff. exists (k :: q). auto. }
    { now left. }
    cbn [rget] in Hr. injection Hr as <-. unfold calls_of. apply in_flat_map. exists ([], k :: q, calls). split; [exact Hl|].
    apply in_map_iff. exists (0, Says true). split; [reflexivity|]. apply (Hc 0 m). now rewrite Hm.
Qed.
End Lone.

(** ** The text of each element of a deep document *)

(** <b @text^="a"/> *)
Definition text_rule : rule :=
  mk_rule None None [] [Some (FunctionValueMatch (Some TextBuiltin) (Some (BeginsWithTest (s "a"))))] [] TAG_B false false None.
Definition deep (n : nat) : node := el TAG_BODY [deep_text n].

Section Deep.
Variable E : engine.
Variable n : nat.
Hypothesis Hn : 0 < n.
Notation letters := (NText (repeat "a"%char n)).

Lemma deep_at j : j <= n -> nget (deep n) (repeat 0 (S j)) = Some (wrapped (n - j) letters).
Proof.
  induction j as [|j IH]; intros Hj; [cbn; now rewrite Nat.sub_0_r|].
  change (repeat 0 (S (S j))) with (0 :: repeat 0 (S j)). cbn [nget]. rewrite IH by lia.
  replace (n - j) with (S (n - S j)) by lia. reflexivity.
Qed.
Lemma wrapped_elements c : forall j k p, j < k -> In (repeat 0 j ++ p) (elements (wrapped k c) p).
Proof.
  induction j as [|j IH]; intros [|k] p Hj; try lia; [now left|]. cbn [wrapped el elements]. right. apply in_or_app. left.
  change (repeat 0 (S j) ++ p) with (0 :: repeat 0 j ++ p). rewrite app_comm_cons.
  replace (0 :: repeat 0 j) with (repeat 0 j ++ [0]) by (symmetry; apply repeat_cons). rewrite <- app_assoc. apply IH. lia.
Qed.
Lemma deep_listed j : j < n -> In (repeat 0 j, 0, 1) (lists_searched (deep n) 0 []).
Proof.
  intros Hj. unfold lists_searched. cbn [nget]. destruct j as [|j]; [now left|]. right. apply in_map_iff. exists (repeat 0 (S j)). split.
  - f_equal. unfold child_count. rewrite deep_at by lia. replace (n - j) with (S (n - S j)) by lia. reflexivity.
  - apply elements_from_in. exists 0, (deep_text n). split; [cbn; lia|]. split; [reflexivity|].
    change (repeat 0 (S j)) with (0 :: repeat 0 j). rewrite (repeat_cons j 0). apply wrapped_elements. lia.
Qed.
Lemma letters_begin : is_prefix (s "a") (c_str (TrimAndCollapseWs (repeat "a"%char n))) = true.
Proof. rewrite collapsed_value. destruct n as [|k]; [lia|]. reflexivity. Qed.
Lemma deep_satisfies j : j < n -> node_satisfies E (deep n) text_rule (repeat 0 (S j)).
Proof.
  intros Hj. unfold node_satisfies, Rule_matches, deref. rewrite deep_at by lia. cbn [obind].
  replace (n - j) with (S (n - S j)) by lia. cbn [text_rule r_matches]. change (tag_matches text_rule (wrapped (S (n - S j)) letters)) with true.
  cbn [all_match mtch_matches]. unfold deref. rewrite deep_at by lia. cbn [obind call_capture_function]. unfold deref. rewrite deep_at by lia. cbn [obind].
  unfold NodeText. rewrite deep_strip. cbn [vtest_test]. rewrite letters_begin. reflexivity.
Qed.
Lemma deep_work j : j <= n -> condition_work E (deep n) (FunctionValueMatch (Some TextBuiltin) (Some (BeginsWithTest (s "a")))) (repeat 0 (S j)) = (n - j + 1) * n.
Proof. intros Hj. cbn [condition_work]. rewrite deep_at by exact Hj. cbn [function_work]. apply deep_copies. Qed.

Lemma deep_sum k : k <= n -> 2 * sum (map (condition_work E (deep n) (FunctionValueMatch (Some TextBuiltin) (Some (BeginsWithTest (s "a")))))
    (map (fun j => repeat 0 (S j)) (seq 0 k))) + n * (k * k) = n * (k * (2 * n + 3)).
Proof.
  induction k as [|k IH]; intros Hk; [unfold sum; cbn; lia|]. specialize (IH ltac:(lia)). rewrite seq_S, !map_app, sum_app. cbn [map plus].
  rewrite deep_work by lia. unfold sum in *. cbn [fold_right]. remember (fold_right _ _ _) as x.
  assert (exists d, n = k + d) as [d Hd] by (exists (n - k); lia). replace (n - k + 1) with (d + 1) by lia. nia.
Qed.
Lemma deep_nodup : NoDup (map (fun j => repeat 0 (S j)) (seq 0 n)).
Proof.
  apply FinFun.Injective_map_NoDup; [|apply seq_NoDup]. intros a b H. apply (f_equal (@length nat)) in H. rewrite !repeat_length in H. lia.
Qed.
Lemma deep_quiet p x : nget (deep n) p = Some x -> exists b, mtch_matches E (deep n) (FunctionValueMatch (Some TextBuiltin) (Some (BeginsWithTest (s "a")))) p = Ok b.
Proof. intros H. cbn [mtch_matches call_capture_function]. unfold deref. rewrite H. cbn [obind vtest_test]. eauto. Qed.

Lemma deep_takes : exists gs w, search_works E text_rule (deep n) (Some [0]) 0 (Ok gs) w /\ n * (n * (n + 3)) <= 2 * w.
Proof.
  assert (HA : alone text_rule) by (repeat split).
  destruct (lone_ends E text_rule _ (deep n) 0 [] (deep_text n) HA eq_refl eq_refl deep_quiet) as [gs [w HW]]. exists gs, w. split; [exact HW|].
  pose proof (lone_work E text_rule _ (deep n) 0 [] (deep_text n) HA eq_refl eq_refl _ gs w HW deep_nodup) as H.
  pose proof (deep_sum n (le_n n)) as HS. rewrite Nat.mul_add_distr_l in HS.
  enough (HX : sum (map (condition_work E (deep n) (FunctionValueMatch (Some TextBuiltin) (Some (BeginsWithTest (s "a")))))
    (map (fun j => repeat 0 (S j)) (seq 0 n))) <= w) by nia.
  apply H. intros p Hp. apply in_map_iff in Hp as [j [<- Hj]]. apply in_seq in Hj.
  exists 0, (repeat 0 j), 0, 1. split; [reflexivity|]. split; [apply deep_listed; lia|]. split; [lia|]. apply deep_satisfies; lia.
Qed.
Lemma deep_document : document_size (deep n) = 2 * n + 2.
Proof.
  assert (H : forall m, document_size (wrapped m letters) = m + n + 1).
  { induction m as [|m IH]; [cbn; rewrite repeat_length; lia|]. cbn [wrapped el document_size map]. unfold sum. cbn [fold_right]. rewrite IH. lia. }
  unfold deep, deep_text, el. cbn [document_size map]. unfold sum. cbn [fold_right]. rewrite H. lia.
Qed.
End Deep.

Lemma texts_cubic E c : exists D gs w, search_works E text_rule D (Some [0]) 0 (Ok gs) w /\ c * (document_size D * document_size D) < w.
Proof.
  exists (deep (16 * c + 16)). destruct (deep_takes E (16 * c + 16) ltac:(lia)) as (gs & w & HW & Hw). exists gs, w. split; [exact HW|].
  rewrite deep_document by lia. nia.
Qed.

(** ** Siblings *)

(** <b:not(:only-child)/> *)
Definition sibling_rule : rule :=
  mk_rule None None [] [Some (NegateMatch [Some (OnlyChildMatch false)])] [] TAG_B false false None.
(** Comments and elements. *)
Definition row (n : nat) : node := el TAG_BODY (repeat (NComment []) n ++ repeat (el TAG_B []) (S (S n))).

Section Row.
Variable E : engine.
Variable n : nat.
Notation cond := (NegateMatch [Some (OnlyChildMatch false)]).

Lemma row_length : length (repeat (NComment []) n ++ repeat (el TAG_B []) (S (S n))) = 2 * n + 2.
Proof. rewrite app_length, !repeat_length. lia. Qed.
Lemma row_at j : j < S (S n) -> nget (row n) [n + j] = Some (el TAG_B []).
Proof.
  intros Hj. unfold row, el. cbn [nget children_of]. rewrite nth_error_app2 by (rewrite repeat_length; lia). rewrite repeat_length.
  replace (n + j - n) with j by lia. now apply nth_error_repeat.
Qed.
Lemma looks_comments b t k : forall l i index, only_child_looks b t (repeat (NComment []) k ++ l) i index = k + only_child_looks b t l (i + k) index.
Proof.
  induction k as [|k IH]; intros l i index; [cbn; now rewrite Nat.add_0_r|]. cbn [repeat app only_child_looks]. rewrite IH.
  replace (S i + k) with (i + S k) by lia. lia.
Qed.
Lemma loop_comments b t k : forall l i index, only_child_loop b t (repeat (NComment []) k ++ l) i index = only_child_loop b t l (i + k) index.
Proof.
  induction k as [|k IH]; intros l i index; [cbn; now rewrite Nat.add_0_r|]. cbn [repeat app only_child_loop]. rewrite IH. f_equal. lia.
Qed.
Lemma row_loop b t j : b = false -> only_child_loop b t (repeat (NComment []) n ++ repeat (el TAG_B []) (S (S n))) 0 (n + j) = false.
Proof.
  intros ->. rewrite loop_comments. cbn [plus repeat only_child_loop el]. destruct (Nat.eqb_spec n (n + j)) as [H|H]; cbn [negb andb orb]; [|reflexivity].
  destruct (Nat.eqb_spec (S n) (n + j)) as [H'|H']; [lia|reflexivity].
Qed.
Lemma only_child_answers p : forall x, nget (row n) p = Some x -> exists b, mtch_matches E (row n) (OnlyChildMatch false) p = Ok b.
Proof.
  intros x H. cbn [mtch_matches]. unfold deref. rewrite H. cbn [obind]. unfold OnlyChildMatch_matches. destruct x; eauto.
  destruct p as [|i pp]; eauto. cbn [nget] in H. unfold deref. destruct (nget (row n) pp) as [par|]; [|discriminate]. cbn [obind]. destruct (is_element par); eauto.
Qed.
Lemma row_quiet p x : nget (row n) p = Some x -> exists b, mtch_matches E (row n) cond p = Ok b.
Proof.
  intros H. destruct (only_child_answers p x H) as [b Hb].
  assert (HX : mtch_matches E (row n) cond p = obind (mtch_matches E (row n) (OnlyChildMatch false) p) (fun b => if b then Ok false else Ok true)).
  { cbn [mtch_matches]. unfold deref. rewrite H. reflexivity. }
  rewrite HX, Hb. destruct b; cbn; eauto.
Qed.
Lemma row_only j : j < S (S n) -> mtch_matches E (row n) (OnlyChildMatch false) [n + j] = Ok false.
Proof.
  intros Hj. cbn [mtch_matches]. unfold deref. rewrite row_at by exact Hj. cbn [obind el OnlyChildMatch_matches]. unfold deref.
  cbn [nget obind]. unfold row, el at 1. cbn [is_element children_of]. now rewrite row_loop.
Qed.
Lemma row_satisfies j : j < S (S n) -> node_satisfies E (row n) sibling_rule [n + j].
Proof.
  intros Hj. unfold node_satisfies, Rule_matches, deref. rewrite row_at by exact Hj. cbn [obind].
  change (tag_matches sibling_rule (el TAG_B [])) with true. cbn [sibling_rule r_matches all_match].
  assert (HX : mtch_matches E (row n) cond [n + j] = obind (mtch_matches E (row n) (OnlyChildMatch false) [n + j]) (fun b => if b then Ok false else Ok true)).
  { cbn [mtch_matches]. unfold deref. rewrite row_at by exact Hj. reflexivity. }
  rewrite HX, row_only by exact Hj. reflexivity.
Qed.
Lemma row_work j : j < S (S n) -> n <= condition_work E (row n) cond [n + j].
Proof.
  intros Hj.
  assert (HX : condition_work E (row n) (OnlyChildMatch false) [n + j] <= condition_work E (row n) cond [n + j]).
  { cbn [condition_work]. rewrite row_at by exact Hj. lia. }
  apply Nat.le_trans with (2 := HX). cbn [condition_work]. rewrite row_at by exact Hj. unfold el at 1. cbn [nget]. unfold row, el at 1. rewrite looks_comments. lia.
Qed.
Lemma row_takes : exists gs w, search_works E sibling_rule (row n) (Some [0]) 0 (Ok gs) w /\ n * n <= w.
Proof.
  assert (HA : alone sibling_rule) by (repeat split).
  assert (Ht : exists t, nget (row n) [0] = Some t).
  { unfold row, el at 1. cbn [nget children_of]. destruct n; cbn; eauto. }
  destruct Ht as [t Ht].
  destruct (lone_ends E sibling_rule _ (row n) 0 [] t HA eq_refl Ht row_quiet) as [gs [w HW]]. exists gs, w. split; [exact HW|].
  pose proof (lone_work E sibling_rule _ (row n) 0 [] t HA eq_refl Ht (map (fun j => [n + j]) (seq 0 n)) gs w HW) as H.
  apply Nat.le_trans with (sum (map (condition_work E (row n) cond) (map (fun j => [n + j]) (seq 0 n)))).
  - assert (HS : forall k, k <= n -> k * n <= sum (map (condition_work E (row n) cond) (map (fun j => [n + j]) (seq 0 k)))); [|now apply HS].
    induction k as [|k IH]; intros Hk; [lia|]. rewrite seq_S, !map_app, sum_app. cbn [map plus]. specialize (IH ltac:(lia)).
    pose proof (row_work k ltac:(lia)). unfold sum in *. cbn [fold_right]. rewrite Nat.mul_succ_l, Nat.add_0_r. apply Nat.add_le_mono; assumption.
  - apply H.
    + apply FinFun.Injective_map_NoDup; [|apply seq_NoDup]. intros a b Hab. injection Hab as Hab. lia.
    + intros p Hp. apply in_map_iff in Hp as [j [<- Hj]]. apply in_seq in Hj. exists (n + j), [], 0, (2 * n + 2).
      split; [reflexivity|]. split; [|split; [lia|apply row_satisfies; lia]].
      unfold lists_searched. cbn [nget]. left. f_equal.
      change (siblings_seen (row n) 0) with (length (repeat (NComment []) n ++ repeat (el TAG_B []) (S (S n))) - 0). now rewrite row_length, Nat.sub_0_r.
Qed.
Lemma row_size : document_size (row n) = 2 * n + 3.
Proof.
  unfold row, el at 1. cbn [document_size]. rewrite map_app, sum_app.
  assert (H : forall x k, document_size x = 1 -> sum (map document_size (repeat x k)) = k).
  { intros x k Hx. unfold sum. induction k as [|k IH]; [reflexivity|]. cbn [repeat map fold_right]. rewrite Hx, IH. reflexivity. }
  rewrite !H by reflexivity. lia.
Qed.
Lemma row_height : height (row n) <= 2.
Proof.
  unfold row, el at 1. cbn [height]. apply le_n_S. rewrite map_app.
  assert (H : forall l, Forall (fun x => x <= 1) l -> largest l <= 1).
  { unfold largest. induction 1; cbn [fold_right]; lia. }
  apply H, Forall_app. split; apply Forall_forall; intros x Hx; apply in_map_iff in Hx as [y [<- Hy]]; apply repeat_spec in Hy; subst y; cbn; lia.
Qed.
End Row.

Lemma siblings_quadratic E c : exists D gs w, search_works E sibling_rule D (Some [0]) 0 (Ok gs) w /\ c * document_size D < w /\ height D <= 2.
Proof.
  exists (row (5 * c + 5)). destruct (row_takes E (5 * c + 5)) as (gs & w & HW & Hw). exists gs, w. split; [exact HW|].
  split; [rewrite row_size; nia|apply row_height].
Qed.
