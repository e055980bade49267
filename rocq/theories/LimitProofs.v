(** The search limit in the Node binding. *)

From Coq Require Import NArith ZArith Lia.
From Verif Require Import Base Convert ConvertSpec.

Lemma node_limit_value m e :
  Z.of_N (node_max_searches (Some (JsFinite m e))) = (js_truncate m e mod 4294967296)%Z.
Proof.
  cbn [node_max_searches Uint32Value]. change UINT_MOD with 4294967296%Z. apply Z2N.id.
  apply Z.mod_pos_bound. reflexivity.
Qed.

Lemma node_limit_exact m e n : (0 <= n < 4294967296)%Z -> js_truncate m e = n ->
  Z.of_N (node_max_searches (Some (JsFinite m e))) = n.
Proof. intros H <-. rewrite node_limit_value. now apply Z.mod_small. Qed.

Lemma js_truncate_nonneg m e : (0 <= m)%Z -> (0 <= js_truncate m e)%Z.
Proof.
  intros H. unfold js_truncate. destruct (Z.leb_spec 0 e).
  - apply Z.mul_nonneg_nonneg; [exact H|]. now apply Z.pow_nonneg.
  - apply Z.quot_pos; [exact H|]. apply Z.pow_pos_nonneg; lia.
Qed.

Lemma node_limit_limits m e : (0 <= m)%Z ->
  ((node_max_searches (Some (JsFinite m e)) <> 0%N) <-> ~ (4294967296 | js_truncate m e)%Z) /\
  (Z.of_N (node_max_searches (Some (JsFinite m e))) <= js_truncate m e)%Z.
Proof.
  intros Hm. pose proof (node_limit_value m e) as Hv. pose proof (js_truncate_nonneg m e Hm) as Hp. split.
  - rewrite <- Z.mod_divide by discriminate. rewrite <- Hv. lia.
  - rewrite Hv. apply Z.mod_le; [exact Hp|reflexivity].
Qed.

Lemma whole_part_truncate m e w : whole_part m e w -> js_truncate m e = w.
Proof.
  intros [[H ->]|[H [HS [H1 H2]]]]; unfold js_truncate; destruct (Z.leb_spec 0 e); try lia.
  assert (HP : (0 < 2 ^ (- e))%Z) by (apply Z.pow_pos_nonneg; lia). set (k := (2 ^ (- e))%Z) in *.
  symmetry. destruct (Z.le_gt_cases 0 m) as [Hm|Hm].
  - assert (Hw : (0 <= w)%Z) by nia. apply (Z.quot_unique m k w (m - k * w)); [exact Hm| |lia]. rewrite (Z.abs_eq w Hw), (Z.abs_eq m Hm) in *. nia.
  - assert (Hw : (w <= 0)%Z) by nia. rewrite (Z.abs_neq w Hw) in *. rewrite (Z.abs_neq m) in * by lia.
    assert (E : Z.quot (- m) k = (- w)%Z) by (symmetry; apply (Z.quot_unique (- m) k (- w) (- m - k * - w)); [lia|nia|lia]).
    rewrite Z.quot_opp_l in E by lia. lia.
Qed.

Theorem node_limit_every m e w : whole_part m e w ->
  exists k, (w = k * 4294967296 + Z.of_N (node_max_searches (Some (JsFinite m e))))%Z /\
    (0 <= Z.of_N (node_max_searches (Some (JsFinite m e))) < 4294967296)%Z.
Proof.
  intros H. rewrite node_limit_value, (whole_part_truncate m e w H). exists (w / 4294967296)%Z. split.
  - pose proof (Z.div_mod w 4294967296). lia.
  - apply Z.mod_pos_bound. reflexivity.
Qed.

Theorem whole_part_exists m e : exists w, whole_part m e w.
Proof.
  unfold whole_part. destruct (Z.le_gt_cases 0 e) as [H|H]; [exists (m * 2 ^ e)%Z; now left|].
  assert (HP : (0 < 2 ^ (- e))%Z) by (apply Z.pow_pos_nonneg; lia). set (k := (2 ^ (- e))%Z) in *.
  exists (Z.quot m k). right. split; [exact H|]. destruct (Z.le_gt_cases 0 m) as [Hm|Hm].
  - pose proof (Z.quot_pos m k Hm HP). pose proof (Z.quot_rem m k). pose proof (Z.rem_bound_pos m k Hm HP). split; nia.
  - assert (E : Z.quot m k = (- (Z.quot (- m) k))%Z) by (rewrite Z.quot_opp_l; lia). rewrite E.
    pose proof (Z.quot_pos (- m) k ltac:(lia) HP). pose proof (Z.quot_rem (- m) k). pose proof (Z.rem_bound_pos (- m) k ltac:(lia) HP). split; nia.
Qed.
