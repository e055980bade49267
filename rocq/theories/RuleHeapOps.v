(** Assignments, moves and the append functions on rules with addresses. *)

From Coq Require Import Ascii String NArith ZArith Bool List Permutation Lia.
From Verif Require Import Base Tags Values Match Rule RuleProofs RuleMatching RuleHeap RuleHeapSpec PermTac RuleHeapProofs.
Import ListNotations.
Open Scope outcome_scope.

Definition reroot (x : atree) (b : addr) : atree :=
  match x with ANode _ c n l ms cs t o g name => ANode b c n l ms cs t o g name end.

Lemma value_reroot x b : value (reroot x b) = value x.
Proof. destruct x. reflexivity. Qed.
Lemma root_reroot x b : root (reroot x b) = b.
Proof. destruct x. reflexivity. Qed.
Lemma acells_reroot x b : acells (reroot x b) = (b, CRule (members_of x)) :: below x.
Proof. destruct x. reflexivity. Qed.

Lemma root_distinct h x L : heap_is h (acells x ++ L) -> forall a c, In (a, c) L -> a <> root x.
Proof.
  intros [H1 H2] a c Hin ->. pose proof (alive_nodup h H2) as HN.
  assert (HP : NoDup (map fst (acells x ++ L))) by (eapply Permutation_NoDup; [apply Permutation_map; exact H1|exact HN]).
  cbn [acells app map fst] in HP. inversion HP as [|? ? HX _]. apply HX. rewrite map_app. apply in_or_app. right.
  now apply (in_map fst) in Hin.
Qed.

Lemma swap_ok h x y F : heap_is h (acells x ++ acells y ++ F) ->
  exists h', swap_rules h (root x) (root y) = Ok h' /\ heap_is h' (acells (reroot y (root x)) ++ acells (reroot x (root y)) ++ F).
Proof.
  intros H. unfold swap_rules.
  assert (HD : root y <> root x) by (eapply root_distinct; [exact H|]; now left).
  destruct (Nat.eqb_spec (root x) (root y)) as [E|_]; [congruence|].
  assert (Hx : In (root x, CRule (members_of x)) (acells x ++ acells y ++ F)) by (now left).
  assert (Hy : In (root y, CRule (members_of y)) (acells x ++ acells y ++ F)) by (apply in_or_app; right; now left).
  rewrite (read_ok _ _ _ _ H Hx), (read_ok _ _ _ _ H Hy). cbn [obind].
  destruct (write_ok h (below x ++ acells y ++ F) (root x) (members_of x) (members_of y)) as [h1 [E1 H1]]; [exact H|].
  rewrite E1. cbn [obind].
  destruct (write_ok h1 ((root x, CRule (members_of y)) :: below x ++ below y ++ F) (root y) (members_of y) (members_of x)) as [h2 [E2 H2]].
  { eapply heap_is_perm; [exact H1|]. unfold acells. perm. }
  rewrite E2. exists h2. split; [reflexivity|]. eapply heap_is_perm; [exact H2|]. rewrite !acells_reroot. perm.
Qed.

(** The source [y] may be anywhere: within [x], around it, or elsewhere. *)
Lemma copy_assign_ok f h x y F G : heap_is h (acells x ++ F) -> Permutation (acells x ++ F) (acells y ++ G) ->
  vdepth (value x) < f -> vdepth (value y) < f ->
  exists z h', copy_assign f h (root x) (root y) = Ok h' /\ heap_is h' (acells z ++ F) /\ root z = root x /\ value z = value y.
Proof.
  intros H HP Hx Hy. unfold copy_assign.
  destruct (copy_ok y f Hy h G (heap_is_perm _ _ _ H HP)) as [z [h1 [E1 [H1 V1]]]]. rewrite E1. cbn [obind].
  assert (H1' : heap_is h1 (acells x ++ acells z ++ F)).
  { eapply heap_is_perm; [exact H1|]. rewrite <- HP. perm. }
  destruct (swap_ok h1 x z F H1') as [h2 [E2 H2]]. rewrite E2. cbn [obind].
  destruct (destroy_ok (reroot x (root z)) f) with (h := h2) (F := acells (reroot z (root x)) ++ F) as [h3 [E3 H3]].
  { rewrite value_reroot. exact Hx. }
  { eapply heap_is_perm; [exact H2|]. perm. }
  rewrite root_reroot in E3. exists (reroot z (root x)), h3. split; [exact E3|]. split; [exact H3|].
  split; [apply root_reroot|]. now rewrite value_reroot.
Qed.

Section Moves.
Variable rest : str -> str.

Definition ahollow (x : atree) : atree :=
  match x with ANode a _ _ _ _ _ t o g name => ANode a None None [] [] [] t o g (option_map rest name) end.

Lemma root_ahollow x : root (ahollow x) = root x.
Proof. destruct x. reflexivity. Qed.
Lemma value_ahollow x : value (ahollow x) = emptied rest (value x).
Proof. destruct x. reflexivity. Qed.
Lemma acells_ahollow x : acells (ahollow x) = [(root x, CRule (hollow rest (members_of x)))].
Proof. destruct x. reflexivity. Qed.

Lemma move_construct_ok h x F : heap_is h (acells x ++ F) ->
  exists b h', move_construct rest h (root x) = Ok (b, h') /\ heap_is h' (acells (reroot x b) ++ acells (ahollow x) ++ F).
Proof.
  intros H. unfold move_construct. rewrite (read_ok _ _ _ (members_of x) H) by (now left). cbn [obind].
  destruct (write_ok h (below x ++ F) (root x) (members_of x) (hollow rest (members_of x)) H) as [h1 [E1 H1]]. rewrite E1. cbn [obind].
  destruct (alloc h1 _) as [b h2] eqn:E2. pose proof (alloc_ok _ _ _ _ _ H1 E2) as H2. exists b, h2. split; [reflexivity|].
  eapply heap_is_perm; [exact H2|]. rewrite acells_reroot, acells_ahollow. perm.
Qed.

Lemma destroy_hollow f h x F : heap_is h (acells (ahollow x) ++ F) -> exists h', destroy (S f) h (root x) = Ok h' /\ heap_is h' F.
Proof.
  intros H. rewrite acells_ahollow in H. cbn [destroy]. rewrite (read_ok _ _ _ (hollow rest (members_of x)) H) by (now left). cbn [obind hollow o_captures o_matches o_nested o_next o_child each if_any].
  eapply release_ok. exact H.
Qed.

(** *** Move assignment *)

(** Both rules are given by their parts, so that the members can be exchanged
    one by one. *)
Lemma move_child_ok f h a c n l ms cs t o g name b c' n' l' ms' cs' t' o' g' name' F :
  let x := ANode a c n l ms cs t o g name in
  let y := ANode b c' n' l' ms' cs' t' o' g' name' in
  heap_is h (acells x ++ acells y ++ F) -> vdepth (value x) < f ->
  exists h', move_pointer f o_child with_child h a b = Ok h' /\
    heap_is h' (acells (ANode a c' n l ms cs t o g name) ++ acells (ANode b None n' l' ms' cs' t' o' g' name') ++ F).
Proof.
  intros x y H Hf. unfold move_pointer.
  assert (HD : b <> a) by (change b with (root y); change a with (root x); eapply root_distinct; [exact H|]; now left).
  assert (Hy : In (b, CRule (members_of y)) (acells x ++ acells y ++ F)) by (apply in_or_app; right; now left).
  rewrite (read_ok _ _ _ _ H Hy). cbn [obind].
  destruct (write_ok h (acells x ++ below y ++ F) b (members_of y) (with_child (members_of y) None)) as [h1 [E1 H1]].
  { eapply heap_is_perm; [exact H|]. unfold acells at 2. cbn [root y]. perm. }
  rewrite E1. cbn [obind].
  rewrite (read_ok h1 _ a (members_of x) H1) by (right; now left). cbn [obind].
  destruct (write_ok h1 ((b, CRule (with_child (members_of y) None)) :: below x ++ below y ++ F) a (members_of x) (with_child (members_of x) (o_child (members_of y)))) as [h2 [E2 H2]].
  { eapply heap_is_perm; [exact H1|]. unfold acells at 1. cbn [root x]. perm. }
  rewrite E2. cbn [obind].
  assert (HW : forall z, c = Some z -> destroy_works f z).
  { intros z ->. apply destroy_ok. unfold x in Hf. rewrite value_eq, vdepth_eq in Hf. cbn [option_map opt_max] in Hf. lia. }
  apply (destroy_any f c HW). eapply heap_is_perm; [exact H2|].
  unfold x, y. rewrite !acells_eq, !below_eq. unfold with_child. cbn [members_of option_map opt_list o_child o_next o_nested o_matches o_captures o_tag o_optional o_greedy o_name]. perm.
Qed.

Lemma move_next_ok f h a c n l ms cs t o g name b c' n' l' ms' cs' t' o' g' name' F :
  let x := ANode a c n l ms cs t o g name in
  let y := ANode b c' n' l' ms' cs' t' o' g' name' in
  heap_is h (acells x ++ acells y ++ F) -> opt_max vdepth (option_map value n) < f ->
  exists h', move_pointer f o_next with_next h a b = Ok h' /\
    heap_is h' (acells (ANode a c n' l ms cs t o g name) ++ acells (ANode b c' None l' ms' cs' t' o' g' name') ++ F).
Proof.
  intros x y H Hf. unfold move_pointer.
  assert (HD : b <> a) by (change b with (root y); change a with (root x); eapply root_distinct; [exact H|]; now left).
  assert (Hy : In (b, CRule (members_of y)) (acells x ++ acells y ++ F)) by (apply in_or_app; right; now left).
  rewrite (read_ok _ _ _ _ H Hy). cbn [obind].
  destruct (write_ok h (acells x ++ below y ++ F) b (members_of y) (with_next (members_of y) None)) as [h1 [E1 H1]].
  { eapply heap_is_perm; [exact H|]. unfold acells at 2. cbn [root y]. perm. }
  rewrite E1. cbn [obind].
  rewrite (read_ok h1 _ a (members_of x) H1) by (right; now left). cbn [obind].
  destruct (write_ok h1 ((b, CRule (with_next (members_of y) None)) :: below x ++ below y ++ F) a (members_of x) (with_next (members_of x) (o_next (members_of y)))) as [h2 [E2 H2]].
  { eapply heap_is_perm; [exact H1|]. unfold acells at 1. cbn [root x]. perm. }
  rewrite E2. cbn [obind].
  assert (HW : forall z, n = Some z -> destroy_works f z).
  { intros z ->. apply destroy_ok. exact Hf. }
  apply (destroy_any f n HW). eapply heap_is_perm; [exact H2|].
  unfold x, y. rewrite !acells_eq, !below_eq. unfold with_next. cbn [members_of option_map opt_list o_child o_next o_nested o_matches o_captures o_tag o_optional o_greedy o_name]. perm.
Qed.

(** The vectors. *)
Lemma move_vector_ok {A} (kill : heap -> A -> outcome heap) get set h x y F ma' mb' K :
  heap_is h ((root x, CRule (members_of x)) :: (root y, CRule (members_of y)) :: F) ->
  root y <> root x ->
  set (members_of x) (get (members_of y)) = ma' -> set (members_of y) [] = mb' ->
  (forall h2, heap_is h2 ((root x, CRule ma') :: (root y, CRule mb') :: F) -> exists h3, each kill h2 (get (members_of x)) = Ok h3 /\ heap_is h3 K) ->
  exists h', move_vector kill get set h (root x) (root y) = Ok h' /\ heap_is h' K.
Proof.
  intros H HD Ha Hb HK. unfold move_vector.
  rewrite (read_ok _ _ (root y) (members_of y) H) by (right; now left).
  rewrite (read_ok _ _ (root x) (members_of x) H) by (now left). cbn [obind].
  destruct (write_ok h ((root y, CRule (members_of y)) :: F) (root x) (members_of x) ma') as [h1 [E1 H1]]; [exact H|].
  rewrite Ha, E1. cbn [obind].
  rewrite (read_ok h1 _ (root y) (members_of y) H1) by (right; now left). cbn [obind].
  destruct (write_ok h1 ((root x, CRule ma') :: F) (root y) (members_of y) mb') as [h2 [E2 H2]].
  { eapply heap_is_perm; [exact H1|]. perm. }
  rewrite Hb, E2. cbn [obind]. apply HK. eapply heap_is_perm; [exact H2|]. perm.
Qed.

Lemma move_assign_ok f h x y F : heap_is h (acells x ++ acells y ++ F) -> vdepth (value x) < f ->
  exists h', move_assign rest f h (root x) (root y) = Ok h' /\
    heap_is h' (acells (reroot y (root x)) ++ acells (ahollow y) ++ F).
Proof.
  destruct x as [a c n l ms cs t o g name], y as [b c' n' l' ms' cs' t' o' g' name']. intros H Hf. cbn [root].
  assert (HD : b <> a).
  { change b with (root (ANode b c' n' l' ms' cs' t' o' g' name')). change a with (root (ANode a c n l ms cs t o g name)).
    eapply root_distinct; [exact H|]; now left. }
  pose proof Hf as Hf'. rewrite value_eq, vdepth_eq in Hf'. unfold move_assign.
  destruct (move_child_ok f h a c n l ms cs t o g name b c' n' l' ms' cs' t' o' g' name' F H Hf) as [h1 [E1 H1]]. rewrite E1. cbn [obind].
  destruct (move_next_ok f h1 a c' n l ms cs t o g name b None n' l' ms' cs' t' o' g' name' F H1) as [h2 [E2 H2]]; [lia|]. rewrite E2. cbn [obind].
  destruct (move_vector_ok (destroy f) o_nested with_nested h2 (ANode a c' n' l ms cs t o g name) (ANode b None None l' ms' cs' t' o' g' name')
    (opt_list acells c' ++ opt_list acells n' ++ flat_map acells l ++ flat_map acells l' ++ match_cells ms ++ match_cells ms' ++ capture_cells cs ++ capture_cells cs' ++ F)
    (members_of (ANode a c' n' l' ms cs t o g name)) (members_of (ANode b None None [] ms' cs' t' o' g' name'))
    (acells (ANode a c' n' l' ms cs t o g name) ++ acells (ANode b None None [] ms' cs' t' o' g' name') ++ F)) as [h3 [E3 H3]].
  { eapply heap_is_perm; [exact H2|]. rewrite !acells_eq. cbn [root opt_list]. perm. }
  { exact HD. } { reflexivity. } { reflexivity. }
  { intros h' H'. cbn [members_of o_nested]. apply destroy_each.
    - intros z Hz. apply destroy_ok. apply depth_nested with l; [exact Hz|lia].
    - eapply heap_is_perm; [exact H'|]. rewrite !acells_eq. cbn [root opt_list flat_map]. perm. }
  cbn [root] in E3. rewrite E3. cbn [obind].
  destruct (move_vector_ok (if_any release) o_matches with_matches h3 (ANode a c' n' l' ms cs t o g name) (ANode b None None [] ms' cs' t' o' g' name')
    (opt_list acells c' ++ opt_list acells n' ++ flat_map acells l' ++ match_cells ms ++ match_cells ms' ++ capture_cells cs ++ capture_cells cs' ++ F)
    (members_of (ANode a c' n' l' ms' cs t o g name)) (members_of (ANode b None None [] [] cs' t' o' g' name'))
    (acells (ANode a c' n' l' ms' cs t o g name) ++ acells (ANode b None None [] [] cs' t' o' g' name') ++ F)) as [h4 [E4 H4]].
  { eapply heap_is_perm; [exact H3|]. rewrite !acells_eq. cbn [root opt_list flat_map]. perm. }
  { exact HD. } { reflexivity. } { reflexivity. }
  { intros h' H'. cbn [members_of o_matches]. apply release_matches.
    eapply heap_is_perm; [exact H'|]. rewrite !acells_eq. unfold match_cells at 5. cbn [root opt_list flat_map]. perm. }
  cbn [root] in E4. rewrite E4. cbn [obind].
  destruct (move_vector_ok (if_any release) o_captures with_captures h4 (ANode a c' n' l' ms' cs t o g name) (ANode b None None [] [] cs' t' o' g' name')
    (opt_list acells c' ++ opt_list acells n' ++ flat_map acells l' ++ match_cells ms' ++ capture_cells cs ++ capture_cells cs' ++ F)
    (members_of (ANode a c' n' l' ms' cs' t o g name)) (members_of (ANode b None None [] [] [] t' o' g' name'))
    (acells (ANode a c' n' l' ms' cs' t o g name) ++ acells (ANode b None None [] [] [] t' o' g' name') ++ F)) as [h5 [E5 H5]].
  { eapply heap_is_perm; [exact H4|]. rewrite !acells_eq. cbn [root opt_list flat_map match_cells]. perm. }
  { exact HD. } { reflexivity. } { reflexivity. }
  { intros h' H'. cbn [members_of o_captures]. apply release_captures.
    eapply heap_is_perm; [exact H'|]. rewrite !acells_eq. cbn [root opt_list flat_map match_cells capture_cells]. perm. }
  cbn [root] in E5. rewrite E5. cbn [obind].
  rewrite (read_ok h5 _ b (members_of (ANode b None None [] [] [] t' o' g' name')) H5) by (apply in_or_app; right; now left).
  cbn [obind].
  destruct (change_ok h5 (below (ANode a c' n' l' ms' cs' t o g name) ++ acells (ANode b None None [] [] [] t' o' g' name') ++ F) a
    (members_of (ANode a c' n' l' ms' cs' t o g name)) (fun m => with_flags m t' o' g' name')) as [h6 [E6 H6]].
  { eapply heap_is_perm; [exact H5|]. unfold acells at 1. cbn [root]. perm. }
  cbn [members_of o_tag o_optional o_greedy o_name]. rewrite E6. cbn [obind].
  destruct (change_ok h6 (acells (ANode a c' n' l' ms' cs' t' o' g' name') ++ F) b (members_of (ANode b None None [] [] [] t' o' g' name'))
    (fun m => with_flags m (o_tag m) (o_optional m) (o_greedy m) (option_map rest (o_name m)))) as [h7 [E7 H7]].
  { eapply heap_is_perm; [exact H6|]. unfold with_flags. unfold acells. rewrite !below_eq. cbn [root members_of opt_list flat_map match_cells capture_cells map o_child o_next o_nested o_matches o_captures]. perm. }
  rewrite E7. exists h7. split; [reflexivity|]. eapply heap_is_perm; [exact H7|]. cbn [reroot ahollow]. unfold with_flags.
  cbn [members_of o_child o_next o_nested o_matches o_captures o_tag o_optional o_greedy o_name option_map map].
  rewrite !acells_eq. cbn [root members_of opt_list flat_map match_cells capture_cells map option_map app]. perm.
Qed.

(** *** Appending *)

Lemma append_next_ok x : forall f h y F, heap_is h (acells x ++ acells y ++ F) -> vdepth (value x) < f ->
  exists z h', append_next_rule rest f h (root x) (root y) = Ok h' /\
    heap_is h' (acells z ++ acells (ahollow y) ++ F) /\ root z = root x /\ value z = append_next (value x) (value y).
Proof.
  induction x as [a c n l ms cs t o g name _ IHn _] using atree_ind2. intros f h y F H Hf.
  destruct f as [|f]; [lia|]. rewrite value_eq, vdepth_eq in Hf. cbn [append_next_rule root].
  rewrite (read_ok h _ a (members_of (ANode a c n l ms cs t o g name)) H) by (now left). cbn [obind members_of o_next].
  destruct n as [n|]; cbn [option_map].
  - destruct (IHn n eq_refl f h y ((a, CRule (members_of (ANode a c (Some n) l ms cs t o g name))) :: opt_list acells c ++ flat_map acells l ++ match_cells ms ++ capture_cells cs ++ F))
      as [z [h1 [E1 [H1 [R1 V1]]]]].
    { eapply heap_is_perm; [exact H|]. rewrite acells_eq. cbn [opt_list]. perm. }
    { cbn [option_map opt_max] in Hf. lia. }
    exists (ANode a c (Some z) l ms cs t o g name), h1. split; [exact E1|]. split.
    + eapply heap_is_perm; [exact H1|]. rewrite (acells_eq a). cbn [opt_list members_of option_map]. rewrite R1. perm.
    + split; [reflexivity|]. rewrite !value_eq. cbn [append_next option_map]. now rewrite V1.
  - destruct (move_construct_ok h y (acells (ANode a c None l ms cs t o g name) ++ F)) as [b [h1 [E1 H1]]].
    { eapply heap_is_perm; [exact H|]. perm. }
    rewrite E1. cbn [obind].
    destruct (change_ok h1 (acells (reroot y b) ++ acells (ahollow y) ++ below (ANode a c None l ms cs t o g name) ++ F) a
      (members_of (ANode a c None l ms cs t o g name)) (fun m => with_next m (Some b))) as [h2 [E2 H2]].
    { eapply heap_is_perm; [exact H1|]. unfold acells at 3. cbn [root]. perm. }
    rewrite E2. exists (ANode a c (Some (reroot y b)) l ms cs t o g name), h2. split; [reflexivity|]. split.
    + eapply heap_is_perm; [exact H2|]. rewrite (acells_eq a), below_eq. unfold with_next.
      cbn [opt_list members_of option_map o_child o_next o_nested o_matches o_captures o_tag o_optional o_greedy o_name]. rewrite root_reroot. perm.
    + split; [reflexivity|]. rewrite !value_eq. cbn [append_next option_map]. now rewrite value_reroot.
Qed.

Lemma append_child_ok f h x y F : heap_is h (acells x ++ acells y ++ F) -> vdepth (value x) < f ->
  exists z h', append_child_rule rest f h (root x) (root y) = Ok h' /\
    heap_is h' (acells z ++ acells (ahollow y) ++ F) /\ root z = root x /\ value z = append_child (value x) (value y).
Proof.
  destruct x as [a c n l ms cs t o g name]. intros H Hf. destruct f as [|f]; [lia|]. rewrite value_eq, vdepth_eq in Hf.
  unfold append_child_rule. cbn [root].
  rewrite (read_ok h _ a (members_of (ANode a c n l ms cs t o g name)) H) by (now left). cbn [obind members_of o_child].
  destruct (move_construct_ok h y (acells (ANode a c n l ms cs t o g name) ++ F)) as [b [h1 [E1 H1]]].
  { eapply heap_is_perm; [exact H|]. perm. }
  destruct c as [c|]; cbn [option_map]; rewrite E1; cbn [obind].
  - destruct (append_next_ok c (S f) h1 (reroot y b) (acells (ahollow y) ++ (a, CRule (members_of (ANode a (Some c) n l ms cs t o g name))) :: opt_list acells n ++ flat_map acells l ++ match_cells ms ++ capture_cells cs ++ F))
      as [z [h2 [E2 [H2 [R2 V2]]]]].
    { eapply heap_is_perm; [exact H1|]. rewrite (acells_eq a). cbn [opt_list]. perm. }
    { cbn [option_map opt_max] in Hf. lia. }
    rewrite root_reroot in E2. rewrite E2. cbn [obind].
    destruct (destroy_hollow f h2 (reroot y b) (acells z ++ acells (ahollow y) ++ (a, CRule (members_of (ANode a (Some c) n l ms cs t o g name))) :: opt_list acells n ++ flat_map acells l ++ match_cells ms ++ capture_cells cs ++ F)) as [h3 [E3 H3]].
    { eapply heap_is_perm; [exact H2|]. perm. }
    rewrite root_reroot in E3. exists (ANode a (Some z) n l ms cs t o g name), h3. split; [exact E3|]. split.
    + eapply heap_is_perm; [exact H3|]. rewrite (acells_eq a). cbn [opt_list members_of option_map]. rewrite R2. perm.
    + split; [reflexivity|]. rewrite !value_eq. cbn [append_child option_map]. now rewrite V2, value_reroot.
  - destruct (change_ok h1 (acells (reroot y b) ++ acells (ahollow y) ++ below (ANode a None n l ms cs t o g name) ++ F) a
      (members_of (ANode a None n l ms cs t o g name)) (fun m => with_child m (Some b))) as [h2 [E2 H2]].
    { eapply heap_is_perm; [exact H1|]. unfold acells at 3. cbn [root]. perm. }
    rewrite E2. exists (ANode a (Some (reroot y b)) n l ms cs t o g name), h2. split; [reflexivity|]. split.
    + eapply heap_is_perm; [exact H2|]. rewrite (acells_eq a), below_eq. unfold with_child.
      cbn [opt_list members_of option_map o_child o_next o_nested o_matches o_captures o_tag o_optional o_greedy o_name]. rewrite root_reroot. perm.
    + split; [reflexivity|]. rewrite !value_eq. cbn [append_child option_map]. now rewrite value_reroot.
Qed.

Lemma move_each l : forall h F, heap_is h (flat_map acells l ++ F) ->
  exists l' h', make_each (move_construct rest) h (map root l) = Ok (map root l', h') /\
    heap_is h' (flat_map acells l' ++ flat_map acells (map ahollow l) ++ F) /\ map value l' = map value l.
Proof.
  induction l as [|x l IH]; intros h F H; cbn [map make_each].
  - exists [], h. split; [reflexivity|]. split; [exact H|reflexivity].
  - destruct (move_construct_ok h x (flat_map acells l ++ F)) as [b [h1 [E1 H1]]].
    { eapply heap_is_perm; [exact H|]. cbn [flat_map]. perm. }
    rewrite E1. cbn [obind].
    destruct (IH h1 (acells (reroot x b) ++ acells (ahollow x) ++ F)) as [l' [h2 [E2 [H2 V2]]]].
    { eapply heap_is_perm; [exact H1|]. perm. }
    rewrite E2. cbn [obind]. exists (reroot x b :: l'), h2. split; [cbn [map]; now rewrite root_reroot|]. split.
    + eapply heap_is_perm; [exact H2|]. cbn [flat_map]. perm.
    + cbn [map]. now rewrite value_reroot, V2.
Qed.

Lemma append_nested_ok f grow h x y F : heap_is h (acells x ++ acells y ++ F) -> 1 < f ->
  exists z h', append_nested_rule rest f grow h (root x) (root y) = Ok h' /\
    heap_is h' (acells z ++ acells (ahollow y) ++ F) /\ root z = root x /\ value z = append_nested (value x) (value y).
Proof.
  destruct x as [a c n l ms cs t o g name]. intros H Hf. unfold append_nested_rule. cbn [root].
  destruct (move_construct_ok h y (acells (ANode a c n l ms cs t o g name) ++ F)) as [b [h1 [E1 H1]]].
  { eapply heap_is_perm; [exact H|]. perm. }
  rewrite E1. cbn [obind].
  rewrite (read_ok h1 _ a (members_of (ANode a c n l ms cs t o g name)) H1) by (apply in_or_app; right; apply in_or_app; right; now left).
  cbn [obind members_of o_nested].
  set (m := (a, CRule (members_of (ANode a c n l ms cs t o g name)))).
  destruct grow.
  - destruct (move_each l h1 (m :: acells (reroot y b) ++ acells (ahollow y) ++ opt_list acells c ++ opt_list acells n ++ match_cells ms ++ capture_cells cs ++ F)) as [l' [h2 [E2 [H2 V2]]]].
    { eapply heap_is_perm; [exact H1|]. rewrite (acells_eq a). fold m. perm. }
    rewrite E2. cbn [obind].
    destruct (destroy_each f (map ahollow l)) with (h := h2) (F := flat_map acells l' ++ m :: acells (reroot y b) ++ acells (ahollow y) ++ opt_list acells c ++ opt_list acells n ++ match_cells ms ++ capture_cells cs ++ F) as [h3 [E3 H3]].
    { intros z Hz. apply in_map_iff in Hz as [z' [<- _]]. apply destroy_ok. destruct z'. cbn. lia. }
    { eapply heap_is_perm; [exact H2|]. perm. }
    rewrite map_map in E3. erewrite map_ext in E3 by apply root_ahollow. rewrite E3. cbn [obind].
    destruct (change_ok h3 (flat_map acells l' ++ acells (reroot y b) ++ acells (ahollow y) ++ opt_list acells c ++ opt_list acells n ++ match_cells ms ++ capture_cells cs ++ F) a
      (members_of (ANode a c n l ms cs t o g name)) (fun m => with_nested m (map root l' ++ [b]))) as [h4 [E4 H4]].
    { eapply heap_is_perm; [exact H3|]. fold m. perm. }
    rewrite E4. exists (ANode a c n (l' ++ [reroot y b]) ms cs t o g name), h4. split; [reflexivity|]. split.
    + eapply heap_is_perm; [exact H4|]. rewrite (acells_eq a). unfold with_nested.
      cbn [members_of o_child o_next o_nested o_matches o_captures o_tag o_optional o_greedy o_name].
      rewrite map_app, flat_map_app. cbn [map flat_map]. rewrite root_reroot. perm.
    + split; [reflexivity|]. rewrite !value_eq. cbn [append_nested]. rewrite map_app, V2. cbn [map]. now rewrite value_reroot.
  - destruct (change_ok h1 (flat_map acells l ++ acells (reroot y b) ++ acells (ahollow y) ++ opt_list acells c ++ opt_list acells n ++ match_cells ms ++ capture_cells cs ++ F) a
      (members_of (ANode a c n l ms cs t o g name)) (fun m => with_nested m (o_nested m ++ [b]))) as [h4 [E4 H4]].
    { eapply heap_is_perm; [exact H1|]. rewrite (acells_eq a). fold m. perm. }
    rewrite E4. exists (ANode a c n (l ++ [reroot y b]) ms cs t o g name), h4. split; [reflexivity|]. split.
    + eapply heap_is_perm; [exact H4|]. rewrite (acells_eq a). unfold with_nested.
      cbn [members_of o_child o_next o_nested o_matches o_captures o_tag o_optional o_greedy o_name].
      rewrite map_app, flat_map_app. cbn [map flat_map]. rewrite root_reroot. perm.
    + split; [reflexivity|]. rewrite !value_eq. cbn [append_nested]. rewrite map_app. cbn [map]. now rewrite value_reroot.
Qed.

Lemma append_match_ok h x m F : heap_is h (acells x ++ F) ->
  exists z h', append_match_rule h (root x) m = Ok h' /\ heap_is h' (acells z ++ F) /\ root z = root x /\ value z = append_match (value x) m.
Proof.
  destruct x as [a c n l ms cs t o g name]. intros H. unfold append_match_rule. cbn [root]. destruct m as [m|].
  - destruct (alloc h (CMatch m)) as [b h1] eqn:E1. pose proof (alloc_ok _ _ _ _ _ H E1) as H1.
    destruct (change_ok h1 ((b, CMatch m) :: below (ANode a c n l ms cs t o g name) ++ F) a (members_of (ANode a c n l ms cs t o g name))
      (fun x => with_matches x (o_matches x ++ [Some b]))) as [h2 [E2 H2]].
    { eapply heap_is_perm; [exact H1|]. unfold acells. cbn [root]. perm. }
    exists (ANode a c n l (ms ++ [Some (b, m)]) cs t o g name), h2. split; [exact E2|]. split.
    + eapply heap_is_perm; [exact H2|]. rewrite acells_eq, below_eq. unfold with_matches, match_cells.
      cbn [members_of o_child o_next o_nested o_matches o_captures o_tag o_optional o_greedy o_name].
      rewrite map_app, flat_map_app. cbn [map flat_map option_map fst app]. perm.
    + split; [reflexivity|]. rewrite !value_eq. cbn [append_match]. now rewrite map_app.
  - destruct (change_ok h (below (ANode a c n l ms cs t o g name) ++ F) a (members_of (ANode a c n l ms cs t o g name))
      (fun x => with_matches x (o_matches x ++ [None])) H) as [h2 [E2 H2]].
    exists (ANode a c n l (ms ++ [None]) cs t o g name), h2. split; [exact E2|]. split.
    + eapply heap_is_perm; [exact H2|]. rewrite acells_eq, below_eq. unfold with_matches, match_cells.
      cbn [members_of o_child o_next o_nested o_matches o_captures o_tag o_optional o_greedy o_name].
      rewrite map_app, flat_map_app. cbn [map flat_map option_map fst app]. perm.
    + split; [reflexivity|]. rewrite !value_eq. cbn [append_match]. now rewrite map_app.
Qed.

Lemma append_capture_ok h x m F : heap_is h (acells x ++ F) ->
  exists z h', append_capture_rule h (root x) m = Ok h' /\ heap_is h' (acells z ++ F) /\ root z = root x /\ value z = append_capture (value x) m.
Proof.
  destruct x as [a c n l ms cs t o g name]. intros H. unfold append_capture_rule. cbn [root]. destruct m as [m|].
  - destruct (alloc h (CCapture m)) as [b h1] eqn:E1. pose proof (alloc_ok _ _ _ _ _ H E1) as H1.
    destruct (change_ok h1 ((b, CCapture m) :: below (ANode a c n l ms cs t o g name) ++ F) a (members_of (ANode a c n l ms cs t o g name))
      (fun x => with_captures x (o_captures x ++ [Some b]))) as [h2 [E2 H2]].
    { eapply heap_is_perm; [exact H1|]. unfold acells. cbn [root]. perm. }
    exists (ANode a c n l ms (cs ++ [Some (b, m)]) t o g name), h2. split; [exact E2|]. split.
    + eapply heap_is_perm; [exact H2|]. rewrite acells_eq, below_eq. unfold with_captures, capture_cells.
      cbn [members_of o_child o_next o_nested o_matches o_captures o_tag o_optional o_greedy o_name].
      rewrite map_app, flat_map_app. cbn [map flat_map option_map fst app]. perm.
    + split; [reflexivity|]. rewrite !value_eq. cbn [append_capture]. now rewrite map_app.
  - destruct (change_ok h (below (ANode a c n l ms cs t o g name) ++ F) a (members_of (ANode a c n l ms cs t o g name))
      (fun x => with_captures x (o_captures x ++ [None])) H) as [h2 [E2 H2]].
    exists (ANode a c n l ms (cs ++ [None]) t o g name), h2. split; [exact E2|]. split.
    + eapply heap_is_perm; [exact H2|]. rewrite acells_eq, below_eq. unfold with_captures, capture_cells.
      cbn [members_of o_child o_next o_nested o_matches o_captures o_tag o_optional o_greedy o_name].
      rewrite map_app, flat_map_app. cbn [map flat_map option_map fst app]. perm.
    + split; [reflexivity|]. rewrite !value_eq. cbn [append_capture]. now rewrite map_app.
Qed.

Lemma set_flag_ok h x s F : heap_is h (acells x ++ F) ->
  exists z h', change h (root x) (fun m => set_flag m s) = Ok h' /\ heap_is h' (acells z ++ F) /\ root z = root x /\ value z = flag_set s (value x).
Proof.
  destruct x as [a c n l ms cs t o g name]. intros H.
  destruct (change_ok h (below (ANode a c n l ms cs t o g name) ++ F) a (members_of (ANode a c n l ms cs t o g name))
      (fun m => set_flag m s) H) as [h2 [E2 H2]].
  exists (match s with SetTag t' => ANode a c n l ms cs t' o g name | SetOptional o' => ANode a c n l ms cs t o' g name
          | SetGreedy g' => ANode a c n l ms cs t o g' name | SetTagname name' => ANode a c n l ms cs t o g (Some name') end), h2.
  split; [exact E2|]. destruct s; (split; [exact H2|split; reflexivity]).
Qed.

End Moves.
