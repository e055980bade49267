(** C67: rules inside rules, each row with an optional rule at its end, take a
    number of tests that is exponential in their depth. *)

From Coq Require Import Ascii String NArith ZArith Bool List Lia.
From Verif Require Import Samples Base StringUtil Tags Dom NodeUtil Values Match Rule RuleMatching MatchSpec DepthSpec
  Cost CostSpec MatchRefine CostCases.
Import ListNotations.

(** <div> ... <div/><?p/> ... </div><?p/> *)
Fixpoint rows (j : nat) : rule :=
  match j with
  | O => mk_rule None (Some (plain TAG_P true false None)) [] [] [] TAG_DIV false false None
  | S j' => mk_rule (Some (rows j')) (Some (plain TAG_P true false None)) [] [] [] TAG_DIV false false None
  end.

(** <div><div>...</div></div> *)
Fixpoint chain (j : nat) : node := match j with O => el TAG_DIV [] | S j' => el TAG_DIV [chain j'] end.
(** A <div> with a chain and a smaller tower. *)
Fixpoint tower (j : nat) : node := match j with O => el TAG_DIV [] | S j' => el TAG_DIV [chain j'; tower j'] end.
Definition tower_page (j : nat) : node := el TAG_BODY [tower j].

Fixpoint tower_tests (j : nat) : nat := match j with O => 1 | S j' => 1 + S j' + 2 * tower_tests j' end.

Section Deep.
Variable E : engine.
Variable R : rule.
Variable D : node.
Notation matches := (Rule_matches E D).

Lemma rptr_next rp : rptr_eqb (Some rp) (Some (RNext :: rp)) = false.
Proof.
  destruct (rptr_eqb_spec (Some rp) (Some (RNext :: rp))) as [H|_]; [|reflexivity].
  exfalso. injection H as H. apply (f_equal (@length _)) in H. cbn in H. lia.
Qed.
Lemma nptr_self p : nptr_eqb (Some p) (Some p) = true.
Proof. destruct (nptr_eqb_spec (Some p) (Some p)) as [_|H]; [reflexivity|now elim H]. Qed.

Lemma rows_plain j : r_optional (rows j) = false /\ r_greedy (rows j) = false /\ r_next (rows j) = Some (plain TAG_P true false None).
Proof. destruct j; repeat split. Qed.

Lemma next_rule rp j : rget R rp = Some (rows j) -> rget R (RNext :: rp) = Some (plain TAG_P true false None).
Proof. intros H. cbn [rget]. rewrite H. apply (proj2 (proj2 (rows_plain j))). Qed.

Lemma div_matches j rp p cs : rget R rp = Some (rows j) -> nget D p = Some (el TAG_DIV cs) -> matches (rows j) p = Ok true.
Proof. intros _ Hp. unfold Rule_matches, deref. rewrite Hp. destruct j; reflexivity. Qed.

Lemma last_kid p t cs i n : nget D p = Some (el t cs) -> nth_error cs i = Some n -> S i = length cs -> NextNode D (Some (i :: p)) = Ok None.
Proof.
  intros Hp Hi HL. unfold NextNode, deref. cbn [nget]. rewrite Hp. cbn [el children_of is_element]. rewrite Hi. cbn [obind].
  cbn [el children_of is_element obind]. replace (Nat.ltb (S i) (length cs)) with false; [reflexivity|]. symmetry. apply Nat.ltb_ge. lia.
Qed.
Lemma next_kid p t cs i n m : nget D p = Some (el t cs) -> nth_error cs i = Some n -> nth_error cs (S i) = Some m -> NextNode D (Some (i :: p)) = Ok (Some (S i :: p)).
Proof. intros Hp Hi HL. unfold NextNode, deref. cbn [nget]. rewrite Hp. cbn [el children_of is_element]. rewrite Hi. cbn [obind].
  cbn [el children_of is_element obind]. replace (Nat.ltb (S i) (length cs)) with true; [reflexivity|]. symmetry. apply Nat.ltb_lt. apply nth_error_Some. congruence.
Qed.

Lemma once_first cp q n f m c : matches_node_w R D matches f (Some cp) (Some q) n = (Ok ((true, m), n), c) ->
  once_w R D matches (S f) (Some cp) (Some q) None n = (Ok ((Some q, m), n), c).
Proof. intros H. cbn [once_w nptr_eqb]. eapply bind_ok with (c' := 0); [exact H|reflexivity|apply Nat.add_0_r]. Qed.

Lemma group_here j cp q nx n f m c o c' : rget R cp = Some (rows j) -> NextNode D (Some q) = Ok nx ->
  once_w R D matches f (Some cp) (Some q) None n = (Ok ((Some q, m), n), c) ->
  group_loop_w R D matches f (Some cp) (Some (RNext :: cp)) nx (m ++ [(cp, q)]) n = (o, c') ->
  group_loop_w R D matches (S f) (Some cp) (Some cp) (Some q) [] n = (o, c + c').
Proof.
  intros Hr HN Hm Ho'. destruct (rows_plain j) as (Ho & Hgr & Hn).
  cbn [group_loop_w]. eapply call_ok; [unfold rderef; now rewrite Hr|]. rewrite Ho, Hgr. cbn [orb andb].
  eapply bind_ok; [exact Hm| |reflexivity]. cbn iota. eapply call_ok; [exact HN|]. unfold rnext. rewrite Hn. exact Ho'.
Qed.

Lemma group_end j cp n f sub : rget R cp = Some (rows j) ->
  group_loop_w R D matches (S f) (Some cp) (Some (RNext :: cp)) None sub n = (Ok ((None, sub), n), 0).
Proof.
  intros Hr. cbn [group_loop_w]. unfold call_w, lift, group_tail, rderef.
  rewrite (next_rule cp j Hr). cbn [plain r_greedy andb obind]. rewrite (next_rule cp j Hr). reflexivity.
Qed.

Lemma range_none f n nb ne m : range_loop_w R D matches (S f) None None nb ne m n = (Ok ((m, []), n), 0).
Proof. reflexivity. Qed.
Lemma once_none f n cp q : once_w R D matches (S f) (Some cp) (Some q) (Some q) n = (Ok ((Some q, []), n), 0).
Proof. cbn [once_w]. rewrite nptr_self. reflexivity. Qed.

Lemma range_loop_empty j cp q n f : rget R cp = Some (rows j) ->
  range_loop_w R D matches (S (S f)) (Some (RNext :: cp)) None (Some q) (Some q) (Some q) n = (Ok ((Some q, []), n), 0).
Proof.
  intros Hr. pose proof (once_none f n (RNext :: cp) q) as H1. pose proof (range_none f n (Some q) (Some q) (Some q)) as H2.
  remember (S f) as g eqn:Eg. clear Eg.
  cbn [range_loop_w rptr_eqb]. eapply call_ok; [unfold rderef; now rewrite (next_rule cp j Hr)|].
  eapply bind_ok with (c := 0) (c' := 0); [exact H1| |reflexivity].
  cbn iota. rewrite nptr_self. eapply bind_ok with (c := 0) (c' := 0); [exact H2|reflexivity|reflexivity].
Qed.

Lemma group_wrap j cp q n f m c sub : rget R cp = Some (rows j) -> 3 <= f ->
  once_w R D matches f (Some cp) (Some q) None n = (Ok ((Some q, m), n), c) ->
  group_loop_w R D matches (S f) (Some cp) (Some (RNext :: cp)) (Some q) sub n = (Ok ((Some q, sub), n), c).
Proof.
  intros Hr Hf Hm. destruct (rows_plain j) as (Ho & Hgr & Hn).
  assert (HR : range_w R D matches f (Some (RNext :: cp)) None (Some q) (Some q) n = (Ok ((Some q, []), n), 0)).
  { destruct f as [|[|[|f]]]; try lia. apply (range_loop_empty j cp q n f Hr). }
  clear Hf. cbn [group_loop_w].
  eapply call_ok; [unfold rderef; now rewrite (next_rule cp j Hr)|]. cbn [plain r_optional orb].
  eapply call_ok; [reflexivity|]. cbn iota.
  eapply call_ok; [unfold FindMandatoryRule, rderef; rewrite Hr; cbn [obind]; reflexivity|].
  assert (HF : find_mandatory (rows j) cp (Some (RNext :: cp)) = Some cp) by (destruct j; cbn [rows find_mandatory]; rewrite rptr_next; reflexivity).
  rewrite HF, rptr_next. cbn iota.
  eapply bind_ok with (c' := 0); [exact Hm| |apply Nat.add_0_r]. cbn iota.
  eapply bind_ok with (c := 0) (c' := 0); [exact HR| |reflexivity]. cbn iota. rewrite app_nil_r. reflexivity.
Qed.

(** A row of rules, its first one matching at a node without a following sibling. *)
Lemma group_last j cp q n f m c : rget R cp = Some (rows j) -> NextNode D (Some q) = Ok None ->
  (forall g, f <= g -> matches_node_w R D matches g (Some cp) (Some q) n = (Ok ((true, m), n), c)) ->
  forall g, f + 4 <= g -> rule_group_w R D matches g (Some cp) (Some q) n = (Ok ((None, m ++ [(cp, q)]), n), c).
Proof.
  intros Hr HN Hm g Hg. destruct g as [|[|[|g]]]; try lia.
  replace c with (c + 0) by lia. apply (group_here j cp q None n (S g) m c _ 0 Hr HN).
  - apply once_first. apply Hm. lia.
  - apply (group_end j). exact Hr.
Qed.

(** ... and at a node that is followed by one where it matches as well. *)
Lemma group_two j cp q q' n f m c m' c' : rget R cp = Some (rows j) -> NextNode D (Some q) = Ok (Some q') ->
  (forall g, f <= g -> matches_node_w R D matches g (Some cp) (Some q) n = (Ok ((true, m), n), c)) ->
  (forall g, f <= g -> matches_node_w R D matches g (Some cp) (Some q') n = (Ok ((true, m'), n), c')) ->
  forall g, f + 6 <= g -> rule_group_w R D matches g (Some cp) (Some q) n = (Ok ((Some q', m ++ [(cp, q)]), n), c + c').
Proof.
  intros Hr HN Hm Hm' g Hg. destruct g as [|[|[|[|g]]]]; try lia.
  apply (group_here j cp q (Some q') n (S (S g)) m c _ c' Hr HN).
  - apply once_first. apply Hm. lia.
  - apply (group_wrap j cp q' n (S g) m'); [exact Hr|lia|]. apply once_first. apply Hm'. lia.
Qed.

Lemma children_last j cp q n f m c : rget R cp = Some (rows j) -> NextNode D (Some q) = Ok None ->
  (forall g, f <= g -> matches_node_w R D matches g (Some cp) (Some q) n = (Ok ((true, m), n), c)) ->
  forall g, f + 5 <= g -> child_loop_w R D matches g cp q n = (Ok ((true, m ++ [(cp, q)]), n), c).
Proof.
  intros Hr HN Hm g Hg. destruct g as [|g]; [lia|]. cbn [child_loop_w].
  eapply bind_ok with (c' := 0); [apply (group_last j cp q n f m c Hr HN Hm); lia| |apply Nat.add_0_r]. cbn iota.
  eapply call_ok; [unfold FindMandatoryRule, rderef; rewrite Hr; reflexivity|]. rewrite app_length, Nat.add_comm. reflexivity.
Qed.

Lemma children_two j cp q q' n f m c m' c' : rget R cp = Some (rows j) -> NextNode D (Some q) = Ok (Some q') -> NextNode D (Some q') = Ok None ->
  (forall g, f <= g -> matches_node_w R D matches g (Some cp) (Some q) n = (Ok ((true, m), n), c)) ->
  (forall g, f <= g -> matches_node_w R D matches g (Some cp) (Some q') n = (Ok ((true, m'), n), c')) ->
  forall g, f + 7 <= g -> child_loop_w R D matches g cp q n = (Ok ((true, (m ++ [(cp, q)]) ++ (m' ++ [(cp, q')])), n), c + 2 * c').
Proof.
  intros Hr HN HN' Hm Hm' g Hg. destruct g as [|g]; [lia|]. cbn [child_loop_w].
  eapply bind_ok with (c := c + c') (c' := c'); [apply (group_two j cp q q' n f m c m' c' Hr HN Hm Hm'); lia| |lia]. cbn iota.
  eapply call_ok; [unfold FindMandatoryRule, rderef; rewrite Hr; reflexivity|].
  eapply bind_ok with (c := c') (c' := 0); [apply (children_last j cp q' n f m' c' Hr HN' Hm'); lia| |apply Nat.add_0_r]. cbn iota.
  rewrite app_length, Nat.add_comm. reflexivity.
Qed.

Lemma node_leaf rp p n f : rget R rp = Some (rows 0) -> nget D p = Some (el TAG_DIV []) -> 1 <= f ->
  matches_node_w R D matches f (Some rp) (Some p) n = (Ok ((true, []), n), 1).
Proof.
  intros Hr Hp Hf. destruct f as [|f]; [lia|]. cbn [matches_node_w]. eapply call_ok; [unfold rderef; now rewrite Hr|]. eapply call_ok; [unfold deref; now rewrite Hp|].
  eapply bind_ok with (c := 1) (c' := 0); [unfold test, lift; rewrite (div_matches 0 rp p [] Hr Hp); reflexivity|reflexivity|reflexivity].
Qed.

Lemma node_inner j rp p cs k n f ms c : rget R rp = Some (rows (S j)) -> nget D p = Some (el TAG_DIV (k :: cs)) ->
  child_loop_w R D matches f (RChild :: rp) (0 :: p) n = (Ok ((true, ms), n), c) -> 1 <= f ->
  matches_node_w R D matches (S f) (Some rp) (Some p) n = (Ok ((true, ms ++ []), n), S c).
Proof.
  intros Hr Hp Hc Hf. cbn [matches_node_w]. eapply call_ok; [unfold rderef; now rewrite Hr|]. eapply call_ok; [unfold deref; now rewrite Hp|].
  eapply bind_ok with (c := 1) (c' := c); [unfold test, lift; rewrite (div_matches (S j) rp p _ Hr Hp); reflexivity| |reflexivity].
  cbn [negb rows r_child is_some r_nested length Nat.eqb andb el is_element children_of orb rchild].
  eapply bind_ok with (c := c) (c' := 0); [exact Hc| |apply Nat.add_0_r]. cbn [negb]. destruct f as [|f]; [lia|]. reflexivity.
Qed.

Lemma child_rule rp j : rget R rp = Some (rows (S j)) -> rget R (RChild :: rp) = Some (rows j).
Proof. intros H. cbn [rget]. now rewrite H. Qed.

Lemma node_chain j : forall rp p n, rget R rp = Some (rows j) -> nget D p = Some (chain j) ->
  exists m, forall f, 10 * j + 1 <= f -> matches_node_w R D matches f (Some rp) (Some p) n = (Ok ((true, m), n), S j).
Proof.
  induction j as [|j IH]; intros rp p n Hr Hp.
  - exists []. intros f Hf. apply node_leaf; [exact Hr|exact Hp|lia].
  - cbn [chain] in Hp. assert (H0 : nget D (0 :: p) = Some (chain j)) by (cbn [nget]; rewrite Hp; reflexivity).
    destruct (IH (RChild :: rp) (0 :: p) n (child_rule rp j Hr) H0) as [m Hm].
    exists ((m ++ [(RChild :: rp, 0 :: p)]) ++ []). intros f Hf. destruct f as [|f]; [lia|].
    apply (node_inner j rp p [] (chain j)); [exact Hr|exact Hp| |lia].
    apply (children_last j (RChild :: rp) (0 :: p) n (10 * j + 1)); [exact (child_rule rp j Hr)|exact (last_kid p TAG_DIV [chain j] 0 _ Hp eq_refl eq_refl)|exact Hm|lia].
Qed.

Lemma node_tower j : forall rp p n, rget R rp = Some (rows j) -> nget D p = Some (tower j) ->
  exists m, forall f, 10 * j + 1 <= f -> matches_node_w R D matches f (Some rp) (Some p) n = (Ok ((true, m), n), tower_tests j).
Proof.
  induction j as [|j IH]; intros rp p n Hr Hp.
  - exists []. intros f Hf. apply node_leaf; [exact Hr|exact Hp|lia].
  - cbn [tower] in Hp. assert (H0 : nget D (0 :: p) = Some (chain j)) by (cbn [nget]; rewrite Hp; reflexivity).
    assert (H1 : nget D (1 :: p) = Some (tower j)) by (cbn [nget]; rewrite Hp; reflexivity).
    destruct (node_chain j (RChild :: rp) (0 :: p) n (child_rule rp j Hr) H0) as [m Hm].
    destruct (IH (RChild :: rp) (1 :: p) n (child_rule rp j Hr) H1) as [m' Hm'].
    pose proof (children_two j (RChild :: rp) (0 :: p) (1 :: p) n (10 * j + 1) m (S j) m' (tower_tests j) (child_rule rp j Hr)
      (next_kid p TAG_DIV _ 0 (chain j) (tower j) Hp eq_refl eq_refl) (last_kid p TAG_DIV _ 1 (tower j) Hp eq_refl eq_refl) Hm Hm') as HC.
    exists (((m ++ [(RChild :: rp, 0 :: p)]) ++ (m' ++ [(RChild :: rp, 1 :: p)])) ++ []). intros f Hf. destruct f as [|f]; [lia|].
    change (tower_tests (S j)) with (S (S j + 2 * tower_tests j)).
    apply (node_inner j rp p [tower j] (chain j)); [exact Hr|exact Hp| |lia].
    apply HC. lia.
Qed.

End Deep.

Lemma bind_first {X Y} (m : W X) (g : X -> W Y) n k : k <= snd (m n) -> k <= snd (bind_w m g n).
Proof.
  unfold bind_w. destruct (m n) as [[[a n']|e|u|] c]; cbn [snd]; intros H; try exact H.
  destruct (g a n') as [o c']. cbn [snd]. lia.
Qed.
Lemma bind_second {X Y} (m : W X) (g : X -> W Y) n a n' c k : m n = (Ok (a, n'), c) -> k <= snd (g a n') -> k <= snd (bind_w m g n).
Proof. unfold bind_w. intros -> H. destruct (g a n') as [o c']. cbn [snd] in *. lia. Qed.

Lemma tick_ok n : n <> 1%N -> exists n', tick_w n = (Ok (tt, n'), 0).
Proof.
  intros H. unfold tick_w, tick. destruct (N.eqb_spec n 0) as [->|H0]; [eexists; reflexivity|].
  destruct (N.eqb_spec (n - 1) 0) as [H1|_]; [lia|eexists; reflexivity].
Qed.

Lemma groups_first R D M f rp q n k : k <= snd (rule_group_w R D M f (Some rp) (Some q) n) -> k <= snd (save_groups_w R D M (S f) rp (Some q) n).
Proof. intros H. cbn [save_groups_w]. apply bind_first. exact H. Qed.
Lemma save_first R D M f rp q n n' k : tick_w n = (Ok (tt, n'), 0) -> k <= snd (save_groups_w R D M f rp (Some q) n') -> k <= snd (save_w R D M (S f) (Some rp) (Some q) n).
Proof. intros Ht H. cbn [save_w]. eapply bind_second; [exact Ht|]. apply bind_first. exact H. Qed.

Lemma tower_search E d n f : n <> 1%N -> 10 * d + 8 <= f ->
  tower_tests d <= snd (extract_w f E (rows d) (tower_page d) (Some [0]) n).
Proof.
  intros Hn Hf. unfold extract_w.
  enough (H : tower_tests d <= snd (save_w (rows d) (tower_page d) (Rule_matches E (tower_page d)) f (Some []) (Some [0]) n))
    by (destruct (save_w _ _ _ _ _ _ _) as [o c]; exact H).
  destruct f as [|[|f]]; try lia. destruct (tick_ok n Hn) as [n' Ht]. apply (save_first _ _ _ _ _ _ _ n' _ Ht). apply groups_first.
  assert (HN : NextNode (tower_page d) (Some [0]) = Ok None) by (apply (last_kid (tower_page d) [] TAG_BODY [tower d] 0 (tower d)); reflexivity).
  destruct (node_tower E (rows d) (tower_page d) d [] [0] n' eq_refl eq_refl) as [m Hm].
  pose proof (group_last E (rows d) (tower_page d) d [] [0] n' (10 * d + 1) m (tower_tests d) eq_refl HN Hm f ltac:(lia)) as HG.
  rewrite HG. cbn [snd]. lia.
Qed.

Lemma tower_tests_pow d : 2 ^ d <= tower_tests d.
Proof. induction d as [|d IH]; [cbn; lia|]. cbn [tower_tests]. rewrite Nat.pow_succ_r'. lia. Qed.

Lemma rows_depth d : rule_depth (rows d) = S d.
Proof. induction d as [|d IH]; [reflexivity|]. cbn [rows rule_depth]. rewrite IH. cbn. lia. Qed.
Lemma rows_count d : rule_count (rows d) = 2 * (d + 1).
Proof. induction d as [|d IH]; [reflexivity|]. cbn [rows rule_count]. rewrite IH. cbn. lia. Qed.
Lemma rows_mandatory d : no_optional_chain (rows d).
Proof.
  unfold no_optional_chain. assert (H : forall d, mandatory_of (rows d) <> []) by (intros []; discriminate).
  constructor; [apply H|]. induction d as [|d IH]; [constructor|].
  cbn [rows inner_chains flat_map app plain]. constructor; [apply H|]. rewrite app_nil_r. exact IH.
Qed.
Lemma rows_nestings d : nestings (rows d) = 0.
Proof. induction d as [|d IH]; [reflexivity|]. cbn [rows nestings]. rewrite IH. reflexivity. Qed.

Lemma chain_count d : node_count (chain d) = S d.
Proof. induction d as [|d IH]; [reflexivity|]. cbn [chain el node_count map sum fold_right]. rewrite IH. lia. Qed.
Lemma tower_count d : node_count (tower d) <= (d + 1) * (d + 1).
Proof.
  induction d as [|d IH]; [cbn; lia|]. cbn [tower el node_count map sum fold_right]. rewrite chain_count. lia.
Qed.
Lemma page_count d : sum (map node_count (siblings_from (tower_page d) 0)) = node_count (tower d).
Proof. unfold siblings_from, siblings_seen, tower_page. cbn [el is_element children_of skipn length firstn Nat.sub map sum fold_right]. apply Nat.add_0_r. Qed.

Lemma exponential E d n : n <> 1%N ->
  no_optional_chain (rows d) /\ nestings (rows d) = 0 /\ rule_depth (rows d) = S d /\ rule_count (rows d) = 2 * (d + 1) /\
  sum (map node_count (siblings_from (tower_page d) 0)) <= (d + 1) * (d + 1) /\
  exists f0, forall f, f0 <= f -> 2 ^ d <= snd (extract_w f E (rows d) (tower_page d) (Some [0]) n).
Proof.
  intros Hn. split; [apply rows_mandatory|]. split; [apply rows_nestings|]. split; [apply rows_depth|]. split; [apply rows_count|]. split; [rewrite page_count; apply tower_count|].
  exists (10 * d + 8). intros f Hf. pose proof (tower_search E d n f Hn Hf). pose proof (tower_tests_pow d). lia.
Qed.

Lemma square_pow m : 8 <= m -> 2 * m * m + 5 * m <= 2 ^ m.
Proof.
  intros H. induction H as [|m H IH]; [vm_compute; repeat constructor|]. rewrite Nat.pow_succ_r'. nia.
Qed.
Lemma below_pow c : c < 2 ^ c.
Proof. apply Nat.pow_gt_lin_r. lia. Qed.

Lemma growth c k : exists d, c * (2 * (d + 1) + (d + 1) * (d + 1)) ^ k < 2 ^ d.
Proof.
  remember (c + k + 8) as m eqn:Em. exists (2 ^ m).
  assert (H1 : 2 * (2 ^ m + 1) + (2 ^ m + 1) * (2 ^ m + 1) <= 2 ^ (2 * m + 4)).
  { replace (2 * m + 4) with (m + m + 4) by lia. rewrite !Nat.pow_add_r. change (2 ^ 4) with 16.
    assert (1 <= 2 ^ m) by (pose proof (Nat.pow_nonzero 2 m); lia). nia. }
  apply (Nat.pow_le_mono_l _ _ k) in H1. rewrite <- Nat.pow_mul_r in H1.
  pose proof (below_pow c) as Hc. pose proof (square_pow m ltac:(lia)) as Hs.
  assert (H2 : c + (2 * m + 4) * k <= 2 ^ m) by nia.
  apply (Nat.pow_le_mono_r 2) in H2; [|lia]. rewrite Nat.pow_add_r in H2.
  assert (H3 : 1 <= 2 ^ ((2 * m + 4) * k)) by (pose proof (Nat.pow_nonzero 2 ((2 * m + 4) * k)); lia).
  eapply Nat.lt_le_trans; [|exact H2]. eapply Nat.le_lt_trans; [apply Nat.mul_le_mono_l; exact H1|].
  apply Nat.mul_lt_mono_pos_r; lia.
Qed.

Lemma more_than_polynomial E c k : exists R D, no_optional_chain R /\ exists f0, forall f, f0 <= f ->
  c * (rule_count R + sum (map node_count (siblings_from D 0))) ^ k < snd (extract_w f E R D (Some [0]) 0%N).
Proof.
  destruct (growth c k) as [d Hd]. exists (rows d), (tower_page d).
  destruct (exponential E d 0%N ltac:(discriminate)) as (Hm & _ & _ & Hr & Hn & f0 & Hf). split; [exact Hm|]. exists f0. intros f H. specialize (Hf f H).
  eapply Nat.lt_le_trans; [|exact Hf]. eapply Nat.le_lt_trans; [|exact Hd].
  apply Nat.mul_le_mono_l. apply Nat.pow_le_mono_l. lia.
Qed.
