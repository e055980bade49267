(** Cases for C67. *)

From Coq Require Import Ascii String NArith ZArith Bool List Lia.
From Verif Require Import Samples Base StringUtil Tags Dom NodeUtil Values Match Rule RuleMatching MatchSpec DepthSpec
  Cost CostSpec.
Import ListNotations.

(** ** <?a/><?b/> and [n] elements <b> *)

Definition two_optional : rule := plain TAG_A true false (Some (plain TAG_B true false None)).
Definition many_b (n : nat) : node := el TAG_BODY (repeat (el TAG_B []) n).

Section Quadratic.

Variable E : engine.
Variable len : nat.
Notation D := (many_b len).
Notation matches := (Rule_matches E D).

Definition at_ (i : nat) : nptr := if Nat.ltb i len then Some [i] else None.

Lemma at_in i : i < len -> at_ i = Some [i].
Proof. intros H. unfold at_. now destruct (Nat.ltb_spec i len); [|lia]. Qed.
Lemma at_end : at_ len = None.
Proof. unfold at_. now destruct (Nat.ltb_spec len len); [lia|]. Qed.

Lemma b_at i : i < len -> nget D [i] = Some (el TAG_B []).
Proof.
  intros H. cbn [nget many_b el children_of]. rewrite (nth_error_nth' _ (el TAG_B [])) by (rewrite repeat_length; exact H).
  f_equal. apply nth_repeat.
Qed.

Lemma next_at i : i < len -> NextNode D (Some [i]) = Ok (at_ (S i)).
Proof.
  intros H. unfold NextNode, deref. rewrite (b_at i H). cbn [obind nget]. cbn [many_b el is_element children_of].
  rewrite repeat_length. unfold at_. now destruct (S i <? len).
Qed.

Notation A := two_optional.
Notation B := (plain TAG_B true false None).

Lemma test_a i : i < len -> matches A [i] = Ok false.
Proof. intros H. unfold Rule_matches, deref. rewrite (b_at i H). reflexivity. Qed.
Lemma test_b i : i < len -> matches B [i] = Ok true.
Proof. intros H. unfold Rule_matches, deref. rewrite (b_at i H). reflexivity. Qed.

Lemma bind_ok {X Y} (m : W X) (g : X -> W Y) n n1 a c o c' d :
  m n = (Ok (a, n1), c) -> g a n1 = (o, c') -> c + c' = d -> bind_w m g n = (o, d).
Proof. intros H1 H2 <-. unfold bind_w. now rewrite H1, H2. Qed.

Lemma call_ok {X Y} (m : outcome X) (g : X -> W Y) n a r : m = Ok a -> g a n = r -> bind_w (call_w m) g n = r.
Proof. intros -> <-. unfold bind_w, call_w, lift. cbn [obind]. now destruct (g a n). Qed.

Lemma node_a f i n : i < len ->
  matches_node_w A D matches (S f) (Some []) (Some [i]) n = (Ok ((false, []), n), 1).
Proof.
  intros H. cbn [matches_node_w]. eapply call_ok; [reflexivity|]. eapply call_ok; [unfold deref; now rewrite (b_at i H)|].
  eapply bind_ok with (c := 1) (c' := 0); [unfold test, lift; rewrite (test_a i H); reflexivity|reflexivity|reflexivity].
Qed.
Lemma node_b f i n : i < len ->
  matches_node_w A D matches (S f) (Some [RNext]) (Some [i]) n = (Ok ((true, []), n), 1).
Proof.
  intros H. cbn [matches_node_w]. eapply call_ok; [reflexivity|]. eapply call_ok; [unfold deref; now rewrite (b_at i H)|].
  eapply bind_ok with (c := 1) (c' := 0); [unfold test, lift; rewrite (test_b i H); reflexivity|reflexivity|reflexivity].
Qed.

Lemma once_a k : forall f i n, i + k = len -> k + 2 <= f ->
  once_w A D matches f (Some []) (at_ i) None n = (Ok ((None, []), n), k).
Proof.
  induction k as [|k IH]; intros f i n Hi Hf; destruct f as [|[|f]]; try lia.
  - replace i with len by lia. rewrite at_end. reflexivity.
  - rewrite (at_in i) by lia. eapply bind_ok with (c' := k); [apply (node_a f i n); lia| |reflexivity].
    eapply call_ok; [apply (next_at i); lia|]. exact (IH (S f) (S i) n ltac:(lia) ltac:(lia)).
Qed.

Lemma once_b f i n : i < len -> 2 <= f ->
  once_w A D matches f (Some [RNext]) (at_ i) None n = (Ok ((Some [i], []), n), 1).
Proof.
  intros Hi Hf. destruct f as [|[|f]]; try lia. rewrite (at_in i Hi).
  eapply bind_ok with (c' := 0); [apply (node_b f i n Hi)|reflexivity|reflexivity].
Qed.

Lemma group_b k f i n : i + S k = len -> k + 9 <= f ->
  rule_group_w A D matches f (Some []) (at_ i) n = (Ok ((at_ (S i), [([RNext], [i])]), n), S k + 1).
Proof.
  intros Hi Hf. destruct f as [|[|[|[|[|[|[|f]]]]]]]; try lia.
  assert (Ha : forall g, k + 3 <= g -> once_w A D matches g (Some []) (Some [i]) None n = (Ok ((None, []), n), S k)).
  { intros g Hg. pose proof (once_a (S k) g i n Hi ltac:(lia)) as H. now rewrite (at_in i) in H by lia. }
  assert (Hb : forall g, 2 <= g -> once_w A D matches g (Some [RNext]) (Some [i]) None n = (Ok ((Some [i], []), n), 1)).
  { intros g Hg. pose proof (once_b g i n ltac:(lia) Hg) as H. now rewrite (at_in i) in H by lia. }
  rewrite (at_in i) by lia.
  assert (Hr : range_loop_w A D matches (S (S (S (S f)))) (Some []) None (Some [i]) None None n
               = (Ok ((Some [i], [([RNext], [i])]), n), S k + 1)).
  { eapply call_ok; [reflexivity|]. eapply bind_ok with (c' := 1); [exact (Ha (S (S (S f))) ltac:(lia))| |reflexivity].
    apply (bind_ok _ _ n n (Some [i], [([RNext], [i])]) 1 _ 0); [|reflexivity|reflexivity].
    eapply call_ok; [reflexivity|]. eapply bind_ok with (c := 1) (c' := 0); [exact (Hb (S (S f)) ltac:(lia))| |reflexivity].
    eapply call_ok; [apply (next_at i); lia|].
    apply (bind_ok _ _ n n (Some [i], []) 0 _ 0); reflexivity. }
  eapply call_ok; [reflexivity|]. eapply call_ok; [reflexivity|]. eapply call_ok; [reflexivity|].
  eapply bind_ok with (c := S k + 1) (c' := 0); [exact Hr| |lia].
  eapply call_ok; [apply (next_at i); lia|]. reflexivity.
Qed.

Lemma groups_b k : forall f i n, i + k = len -> 2 * k + 10 <= f ->
  exists gs, save_groups_w A D matches f [] (at_ i) n = (Ok (gs, n), k * (k + 3) / 2).
Proof.
  induction k as [|k IH]; intros f i n Hi Hf; destruct f as [|f]; try lia.
  - replace i with len by lia. rewrite at_end. exists []. reflexivity.
  - destruct (IH f (S i) n ltac:(lia) ltac:(lia)) as [gs Hgs].
    pose proof (group_b k f i n ltac:(lia) ltac:(lia)) as Hg. rewrite (at_in i) in * by lia.
    exists ([([RNext], [i])] :: gs). eapply bind_ok; [exact Hg| |].
    + eapply bind_ok with (c' := 0); [exact Hgs|reflexivity|reflexivity].
    + rewrite Nat.add_0_r.
      replace (S k * (S k + 3)) with (k * (k + 3) + (k + 2) * 2) by lia. rewrite Nat.div_add by lia. lia.
Qed.

Lemma below_b k : forall f i n, i + S k = len -> k + 1 <= f ->
  save_below_w A D matches f [] [i] n = (Ok ([], n), 0).
Proof.
  induction k as [|k IH]; intros f i n Hi Hf; destruct f as [|f]; try lia;
    (eapply call_ok; [unfold deref; rewrite (b_at i) by lia; reflexivity|]);
    (eapply bind_ok with (c := 0) (c' := 0); [reflexivity| |reflexivity]);
    (eapply call_ok; [apply (next_at i); lia|]).
  - replace (S i) with len by lia. rewrite at_end. reflexivity.
  - rewrite (at_in (S i)) by lia. eapply bind_ok with (c := 0) (c' := 0); [apply (IH f (S i) n); lia|reflexivity|reflexivity].
Qed.

Lemma save_b f : 0 < len -> 2 * len + 11 <= f ->
  exists gs, save_w A D matches f (Some []) (Some [0]) 0%N = (Ok (gs, 0%N), len * (len + 3) / 2).
Proof.
  intros Hl Hf. destruct f as [|f]; [lia|].
  destruct (groups_b len f 0 0%N eq_refl ltac:(lia)) as [gs Hgs]. rewrite (at_in 0 Hl) in Hgs.
  exists (gs ++ []). eapply bind_ok with (c := 0); [reflexivity| |reflexivity].
  eapply bind_ok; [exact Hgs| |apply Nat.add_0_r].
  apply (bind_ok _ _ 0%N 0%N [] 0 _ 0); [|reflexivity|reflexivity].
  apply (below_b (len - 1)); lia.
Qed.

End Quadratic.

Lemma two_optional_tests E n : 0 < n -> exists f0, forall f, f0 <= f ->
  snd (extract_w f E two_optional (many_b n) (Some [0]) 0%N) = n * (n + 3) / 2.
Proof.
  intros Hn. exists (2 * n + 11). intros f Hf. destruct (save_b E n f Hn Hf) as [gs H].
  unfold extract_w. rewrite H. reflexivity.
Qed.

Lemma siblings_many_b n : siblings_from (many_b n) 0 = repeat (el TAG_B []) n.
Proof.
  unfold siblings_from, siblings_seen. cbn [many_b el is_element children_of skipn]. rewrite Nat.sub_0_r. apply firstn_all.
Qed.

Lemma count_many_b n : sum (map node_count (siblings_from (many_b n) 0)) = n.
Proof.
  rewrite siblings_many_b. induction n as [|n IH]; [reflexivity|]. cbn [repeat map]. unfold sum in *. cbn [fold_right].
  rewrite IH. reflexivity.
Qed.

Lemma more_than_linear E C : exists D f0, forall f, f0 <= f ->
  C * sum (map node_count (siblings_from D 0)) < snd (extract_w f E two_optional D (Some [0]) 0%N).
Proof.
  exists (many_b (S (2 * C))). destruct (two_optional_tests E (S (2 * C)) ltac:(lia)) as [f0 H].
  exists f0. intros f Hf. rewrite (H f Hf), count_many_b.
  assert (Hd : S (2 * C) * (S (2 * C) + 3) / 2 = S (2 * C) * (C + 2)).
  { replace (S (2 * C) * (S (2 * C) + 3)) with (S (2 * C) * (C + 2) * 2) by lia. apply Nat.div_mul. lia. }
  rewrite Hd. nia.
Qed.
