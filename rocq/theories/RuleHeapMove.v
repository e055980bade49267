(** Move assignment of a rule from a part of itself. *)

From Coq Require Import Ascii String NArith ZArith Bool List Permutation Lia.
From Verif Require Import Base Tags Values Match Rule RuleProofs RuleMatching RuleHeap RuleHeapSpec PermTac RuleHeapProofs RuleHeapOps RuleHeapMain.
Import ListNotations.
Open Scope outcome_scope.

Lemma apart_set path : forall x y y', apart x path = Some y -> apart (aset_part x path y') path = Some y'.
Proof.
  induction path as [|st path IH]; intros x y y' H; cbn [apart aset_part] in *; [reflexivity|].
  destruct (aget_step x st) as [z|] eqn:E; [|discriminate]. rewrite (get_same_step x st _ z E). now apply IH with y.
Qed.

Lemma list_max_replace l : forall k (y y' : nat), nth_error l k = Some y -> y' <= y -> list_max (replace_nth l k y') <= list_max l.
Proof.
  induction l as [|z l IH]; intros [|k] y y' H Hy; cbn [nth_error replace_nth] in *; try discriminate.
  - injection H as ->. change (Nat.max y' (list_max l) <= Nat.max y (list_max l)). lia.
  - specialize (IH k y y' H Hy). change (Nat.max z (list_max (replace_nth l k y')) <= Nat.max z (list_max l)). lia.
Qed.

Lemma depth_set_step r st y y' : rstep_get r st = Some y -> vdepth y' <= vdepth y -> vdepth (set_step r st y') <= vdepth r.
Proof.
  destruct r as [c n l ms cs t o g name]. destruct st as [| |k]; cbn [rstep_get r_child r_next r_nested set_step]; intros H Hy; rewrite !vdepth_eq.
  - subst c. cbn [opt_max]. lia.
  - subst n. cbn [opt_max]. lia.
  - rewrite map_replace. pose proof (list_max_replace (map vdepth l) k (vdepth y) (vdepth y') (map_nth_error vdepth k l H) Hy). lia.
Qed.

Lemma depth_set path : forall r y y', part r path = Some y -> vdepth y' <= vdepth y -> vdepth (set_part r path y') <= vdepth r.
Proof.
  induction path as [|st path IH]; intros r y y' H Hy; cbn [part set_part] in *; [now injection H as ->|].
  destruct (rstep_get r st) as [z|] eqn:E; [|discriminate]. apply depth_set_step with z; [exact E|]. now apply IH with y.
Qed.

Lemma part_root path : forall x y, apart x path = Some y -> In (root y) (map fst (acells x)).
Proof.
  intros x y H. destruct (part_frame path x y H) as [F HF]. specialize (HF y eq_refl). rewrite (aset_same _ _ _ H) in HF.
  apply (Permutation_map fst) in HF. eapply Permutation_in; [symmetry; exact HF|]. rewrite map_app. apply in_or_app. left. now left.
Qed.

(** An address that was given back. *)
Lemma read_gone h h' L R b : heap_is h (L ++ R) -> heap_is h' R -> In b (map fst L) -> read_rule h' b = UB BadPointer.
Proof.
  intros [H1 H2] [H1' _] Hb. unfold read_rule.
  assert (HN : NoDup (map fst L ++ map fst R)).
  { rewrite <- map_app. eapply Permutation_NoDup; [apply Permutation_map; exact H1|now apply alive_nodup]. }
  assert (HX : ~ In b (map fst (h_cells h'))).
  { intros Hin. apply (Permutation_in _ (Permutation_map fst H1')) in Hin.
    apply in_split in Hb as [l1 [l2 E]]. rewrite E, <- app_assoc in HN. cbn [app] in HN. apply NoDup_remove_2 in HN. apply HN. apply in_or_app. right. apply in_or_app. now right. }
  assert (HG : cell_get (h_cells h') b = None).
  { revert HX. generalize (h_cells h'). intros l. induction l as [|[e d] l IH]; [reflexivity|]. cbn [map fst In cell_get]. intros HX.
    destruct (Nat.eqb_spec b e) as [->|]; [exfalso; apply HX; now left|]. apply IH. tauto. }
  now rewrite HG.
Qed.

Definition drop_child (y : atree) : atree := match y with ANode a c n l ms cs t o g name => ANode a None n l ms cs t o g name end.
Definition drop_next (y : atree) : atree := match y with ANode a c n l ms cs t o g name => ANode a c None l ms cs t o g name end.
Definition drop_nested (y : atree) : atree := match y with ANode a c n l ms cs t o g name => ANode a c n [] ms cs t o g name end.
Definition achild (y : atree) : option atree := match y with ANode a c n l ms cs t o g name => c end.
Definition anext (y : atree) : option atree := match y with ANode a c n l ms cs t o g name => n end.
Definition anested (y : atree) : list atree := match y with ANode a c n l ms cs t o g name => l end.
Definition put_child (y : atree) (c : option atree) : atree := match y with ANode a _ n l ms cs t o g name => ANode a c n l ms cs t o g name end.
Definition put_next (y : atree) (n : option atree) : atree := match y with ANode a c _ l ms cs t o g name => ANode a c n l ms cs t o g name end.

Lemma depth_drop_child y : vdepth (value (drop_child y)) <= vdepth (value y).
Proof. destruct y. cbn [drop_child]. rewrite !value_eq, !vdepth_eq. cbn [option_map opt_max]. lia. Qed.
Lemma depth_drop_next y : vdepth (value (drop_next y)) <= vdepth (value y).
Proof. destruct y. cbn [drop_next]. rewrite !value_eq, !vdepth_eq. cbn [option_map opt_max]. lia. Qed.
Lemma depth_drop_nested y : vdepth (value (drop_nested y)) <= vdepth (value y).
Proof. destruct y. cbn [drop_nested]. rewrite !value_eq, !vdepth_eq. cbn [map]. change (list_max []) with 0. lia. Qed.

Lemma acells_child x : Permutation (acells x) (opt_list acells (achild x) ++ (root x, CRule (members_of x)) :: below (drop_child x)).
Proof. destruct x. rewrite acells_eq. cbn [achild drop_child]. rewrite below_eq. cbn [opt_list root]. perm. Qed.
Lemma acells_next x : Permutation (acells x) (opt_list acells (anext x) ++ (root x, CRule (members_of x)) :: below (drop_next x)).
Proof. destruct x. rewrite acells_eq. cbn [anext drop_next]. rewrite below_eq. cbn [opt_list root]. perm. Qed.
Lemma acells_nested x : Permutation (acells x) (flat_map acells (anested x) ++ (root x, CRule (members_of x)) :: below (drop_nested x)).
Proof. destruct x. rewrite acells_eq. cbn [anested drop_nested]. rewrite below_eq. cbn [flat_map root]. perm. Qed.

(** Moving a member of a part [y] of [x] into [x]: after the two assignments
    of the pointer there is the old member of [x] besides the new [x]. *)
Lemma take_child h x st path y F : heap_is h (acells x ++ F) -> apart x (st :: path) = Some y ->
  exists h2, (let! mb := read_rule h (root y) in
    let! h1 := write_rule h (root y) (with_child mb None) in
    let! ma := read_rule h1 (root x) in
    let! h2 := write_rule h1 (root x) (with_child ma (o_child mb)) in Ok (ma, h2)) =
    Ok (members_of (aset_part x (st :: path) (drop_child y)), h2) /\
    heap_is h2 (opt_list acells (achild (aset_part x (st :: path) (drop_child y))) ++
                acells (put_child (aset_part x (st :: path) (drop_child y)) (achild y)) ++ F).
Proof.
  intros H Hp. destruct (part_frame _ _ _ Hp) as [G HG]. pose proof (HG y eq_refl) as HG0. rewrite (aset_same _ _ _ Hp) in HG0.
  assert (HR : root (drop_child y) = root y) by (destruct y; reflexivity).
  assert (H0 : heap_is h ((root y, CRule (members_of y)) :: opt_list acells (achild y) ++ below (drop_child y) ++ G ++ F)).
  { eapply heap_is_perm; [exact H|]. rewrite HG0, (acells_child y). perm. }
  rewrite (read_ok _ _ (root y) (members_of y) H0) by (now left). cbn [obind].
  destruct (write_ok _ _ _ _ (with_child (members_of y) None) H0) as [h1 [E1 H1]]. rewrite E1. cbn [obind].
  set (x1 := aset_part x (st :: path) (drop_child y)) in *.
  assert (HX : root x1 = root x) by (now apply root_set_part with y).
  assert (H1' : heap_is h1 ((root x, CRule (members_of x1)) :: opt_list acells (achild x1) ++ below (drop_child x1) ++ opt_list acells (achild y) ++ F)).
  { eapply heap_is_perm; [exact H1|]. transitivity (acells x1 ++ opt_list acells (achild y) ++ F).
    - unfold x1. rewrite (HG (drop_child y) HR). unfold acells at 2. rewrite HR.
      assert (HM : members_of (drop_child y) = with_child (members_of y) None) by (destruct y; reflexivity). rewrite HM. perm.
    - rewrite (acells_child x1), HX. perm. }
  rewrite (read_ok _ _ (root x) (members_of x1) H1') by (now left). cbn [obind].
  destruct (write_ok _ _ _ _ (with_child (members_of x1) (o_child (members_of y))) H1') as [h2 [E2 H2]]. rewrite E2. cbn [obind].
  exists h2. split; [reflexivity|]. eapply heap_is_perm; [exact H2|]. rewrite <- HX.
  assert (HP : Permutation (acells (put_child x1 (achild y))) ((root x1, CRule (with_child (members_of x1) (o_child (members_of y)))) :: opt_list acells (achild y) ++ below (drop_child x1))).
  { destruct x1, y. cbn [put_child achild drop_child]. rewrite acells_eq, below_eq. cbn [opt_list root]. unfold with_child. cbn [members_of o_child o_next o_nested o_matches o_captures o_tag o_optional o_greedy o_name]. perm. }
  rewrite HP. perm.
Qed.

Lemma take_next h x st path y F : heap_is h (acells x ++ F) -> apart x (st :: path) = Some y ->
  exists h2, (let! mb := read_rule h (root y) in
    let! h1 := write_rule h (root y) (with_next mb None) in
    let! ma := read_rule h1 (root x) in
    let! h2 := write_rule h1 (root x) (with_next ma (o_next mb)) in Ok (ma, h2)) =
    Ok (members_of (aset_part x (st :: path) (drop_next y)), h2) /\
    heap_is h2 (opt_list acells (anext (aset_part x (st :: path) (drop_next y))) ++
                acells (put_next (aset_part x (st :: path) (drop_next y)) (anext y)) ++ F).
Proof.
  intros H Hp. destruct (part_frame _ _ _ Hp) as [G HG]. pose proof (HG y eq_refl) as HG0. rewrite (aset_same _ _ _ Hp) in HG0.
  assert (HR : root (drop_next y) = root y) by (destruct y; reflexivity).
  assert (H0 : heap_is h ((root y, CRule (members_of y)) :: opt_list acells (anext y) ++ below (drop_next y) ++ G ++ F)).
  { eapply heap_is_perm; [exact H|]. rewrite HG0, (acells_next y). perm. }
  rewrite (read_ok _ _ (root y) (members_of y) H0) by (now left). cbn [obind].
  destruct (write_ok _ _ _ _ (with_next (members_of y) None) H0) as [h1 [E1 H1]]. rewrite E1. cbn [obind].
  set (x1 := aset_part x (st :: path) (drop_next y)) in *.
  assert (HX : root x1 = root x) by (now apply root_set_part with y).
  assert (H1' : heap_is h1 ((root x, CRule (members_of x1)) :: opt_list acells (anext x1) ++ below (drop_next x1) ++ opt_list acells (anext y) ++ F)).
  { eapply heap_is_perm; [exact H1|]. transitivity (acells x1 ++ opt_list acells (anext y) ++ F).
    - unfold x1. rewrite (HG (drop_next y) HR). unfold acells at 2. rewrite HR.
      assert (HM : members_of (drop_next y) = with_next (members_of y) None) by (destruct y; reflexivity). rewrite HM. perm.
    - rewrite (acells_next x1), HX. perm. }
  rewrite (read_ok _ _ (root x) (members_of x1) H1') by (now left). cbn [obind].
  destruct (write_ok _ _ _ _ (with_next (members_of x1) (o_next (members_of y))) H1') as [h2 [E2 H2]]. rewrite E2. cbn [obind].
  exists h2. split; [reflexivity|]. eapply heap_is_perm; [exact H2|]. rewrite <- HX.
  assert (HP : Permutation (acells (put_next x1 (anext y))) ((root x1, CRule (with_next (members_of x1) (o_next (members_of y)))) :: opt_list acells (anext y) ++ below (drop_next x1))).
  { destruct x1, y. cbn [put_next anext drop_next]. rewrite acells_eq, below_eq. cbn [opt_list root]. unfold with_next. cbn [members_of o_child o_next o_nested o_matches o_captures o_tag o_optional o_greedy o_name]. perm. }
  rewrite HP. perm.
Qed.

Definition put_nested (y : atree) (l : list atree) : atree := match y with ANode a c n _ ms cs t o g name => ANode a c n l ms cs t o g name end.

(** The vector of nested rules: first the target is written. *)
Lemma take_nested f h x k path y F : heap_is h (acells x ++ F) -> apart x (RNested k :: path) = Some y ->
  list_max (map vdepth (map value (anested x))) < f ->
  exists h2 h3, move_vector (destroy f) o_nested with_nested h (root x) (root y) = Ok h3 /\
    heap_is h2 (flat_map acells (anested (aset_part x (RNested k :: path) (drop_nested y))) ++
                acells (put_nested (aset_part x (RNested k :: path) (drop_nested y)) (anested y)) ++ F) /\
    heap_is h3 (acells (put_nested (aset_part x (RNested k :: path) (drop_nested y)) (anested y)) ++ F).
Proof.
  intros H Hp Hf. destruct (part_frame _ _ _ Hp) as [G HG]. pose proof (HG y eq_refl) as HG0. rewrite (aset_same _ _ _ Hp) in HG0.
  assert (HR : root (drop_nested y) = root y) by (destruct y; reflexivity).
  set (x1 := aset_part x (RNested k :: path) (drop_nested y)) in *.
  assert (HX : root x1 = root x) by (now apply root_set_part with y).
  assert (HM1 : members_of x1 = members_of x).
  { unfold x1. cbn [aset_part apart] in *. destruct (aget_step x (RNested k)) as [z|] eqn:Ez; [|discriminate].
    destruct x as [a c n l ms cs t o g name]. cbn [aget_step aset_step members_of] in *. f_equal.
    destruct (replace_split l k z Ez) as [l1 [l2 [-> [_ HRp]]]]. rewrite HRp, !map_app. cbn [map]. f_equal. f_equal. now apply root_set_part with y. }
  unfold move_vector.
  assert (Hy : In (root y, CRule (members_of y)) (acells x ++ F)).
  { apply in_or_app. left. eapply Permutation_in; [symmetry; exact HG0|]. now left. }
  rewrite (read_ok _ _ _ _ H Hy), (read_ok _ _ (root x) (members_of x) H) by (now left). cbn [obind].
  destruct (write_ok h (below x ++ F) (root x) (members_of x) (with_nested (members_of x) (o_nested (members_of y))) H) as [h1 [E1 H1]].
  rewrite E1. cbn [obind].
  (* the cells of the part without the cell of [x] *)
  assert (HB : exists G', forall y', root y' = root y -> Permutation (below (aset_part x (RNested k :: path) y')) (acells y' ++ G')).
  { cbn [apart aset_part] in Hp |- *. destruct (aget_step x (RNested k)) as [z|] eqn:Ez; [|discriminate]. destruct (part_frame _ _ _ Hp) as [G1 HG1].
    destruct x as [a c n l ms cs t o g name]. cbn [aget_step aset_step] in *. destruct (replace_split l k z Ez) as [l1 [l2 [-> [_ HRp]]]].
    exists (G1 ++ opt_list acells c ++ opt_list acells n ++ flat_map acells l1 ++ flat_map acells l2 ++ match_cells ms ++ capture_cells cs).
    intros y' Hr. rewrite below_eq, HRp, flat_map_app. cbn [flat_map]. rewrite (HG1 y' Hr). perm. }
  destruct HB as [G' HB]. pose proof (HB y eq_refl) as HB0. rewrite (aset_same _ _ _ Hp) in HB0.
  assert (H1' : heap_is h1 ((root y, CRule (members_of y)) :: below y ++ G' ++ (root x, CRule (with_nested (members_of x) (o_nested (members_of y)))) :: F)).
  { eapply heap_is_perm; [exact H1|]. rewrite HB0. unfold acells. perm. }
  rewrite (read_ok _ _ (root y) (members_of y) H1') by (now left). cbn [obind].
  destruct (write_ok _ _ _ _ (with_nested (members_of y) []) H1') as [h2 [E2 H2]]. rewrite E2. cbn [obind].
  assert (HM : with_nested (members_of y) [] = members_of (drop_nested y)) by (destruct y; reflexivity). rewrite HM in H2.
  assert (H2' : heap_is h2 (flat_map acells (anested x1) ++ acells (put_nested x1 (anested y)) ++ F)).
  { eapply heap_is_perm; [exact H2|].
    assert (HPx : Permutation (acells (put_nested x1 (anested y))) ((root x, CRule (with_nested (members_of x) (o_nested (members_of y)))) :: flat_map acells (anested y) ++ below (drop_nested x1))).
    { rewrite <- HX, <- HM1. destruct x1, y. cbn [put_nested anested drop_nested]. rewrite acells_eq, below_eq. cbn [flat_map root]. unfold with_nested.
      cbn [members_of o_child o_next o_nested o_matches o_captures o_tag o_optional o_greedy o_name]. perm. }
    assert (HBx : Permutation (below x1) (flat_map acells (anested x1) ++ below (drop_nested x1))).
    { destruct x1. cbn [anested drop_nested]. rewrite !below_eq. cbn [flat_map]. perm. }
    rewrite HPx. transitivity ((root x, CRule (with_nested (members_of x) (o_nested (members_of y)))) :: below x1 ++ flat_map acells (anested y) ++ F); [|rewrite HBx; perm].
    unfold x1. rewrite (HB (drop_nested y) HR). unfold acells at 1. rewrite HR.
    assert (HBy : Permutation (below y) (flat_map acells (anested y) ++ below (drop_nested y))).
    { destruct y. cbn [anested drop_nested]. rewrite !below_eq. cbn [flat_map]. perm. }
    rewrite HBy. perm. }
  assert (HL : o_nested (members_of x) = map root (anested x1)). { rewrite <- HM1. destruct x1. reflexivity. }
  rewrite HL. destruct (destroy_each f (anested x1)) with (h := h2) (F := acells (put_nested x1 (anested y)) ++ F) as [h3 [E3 H3]].
  - intros z Hz. apply destroy_ok.
    assert (HD : list_max (map vdepth (map value (anested x1))) <= list_max (map vdepth (map value (anested x)))).
    { unfold x1. cbn [aset_part apart] in *. destruct (aget_step x (RNested k)) as [w|] eqn:Ew; [|discriminate].
      destruct x as [a c n l ms cs t o g name]. cbn [aget_step aset_step anested] in *. rewrite map_map, map_replace, map_map.
      apply list_max_replace with (vdepth (value w)).
      - now apply (map_nth_error (fun x => vdepth (value x))).
      - rewrite value_set_part. apply depth_set with (value y); [rewrite part_value, Hp; reflexivity|apply depth_drop_nested]. }
    apply depth_nested with (anested x1); [exact Hz|lia].
  - exact H2'.
  - exists h2, h3. split; [exact E3|]. split; [exact H2'|exact H3].
Qed.

Lemma move_pointer_eq f get set h a b : move_pointer f get set h a b =
  let! (ma, h2) :=
    (let! mb := read_rule h b in
     let! h1 := write_rule h b (set mb None) in
     let! ma := read_rule h1 a in
     let! h2 := write_rule h1 a (set ma (get mb)) in Ok (ma, h2)) in
  if_any (destroy f) h2 (get ma).
Proof.
  unfold move_pointer. destruct (read_rule h b) as [mb|e|u|]; cbn [obind]; try reflexivity.
  destruct (write_rule h b (set mb None)) as [h1|e|u|]; cbn [obind]; try reflexivity.
  destruct (read_rule h1 a) as [ma|e|u|]; cbn [obind]; try reflexivity.
  destruct (write_rule h1 a _) as [h2|e|u|]; cbn [obind]; reflexivity.
Qed.

Lemma members_child x : o_child (members_of x) = option_map root (achild x).
Proof. destruct x. reflexivity. Qed.
Lemma members_next x : o_next (members_of x) = option_map root (anext x).
Proof. destruct x. reflexivity. Qed.

(** One pointer, if the part survives. *)
Lemma move_child_part f h x st path y F : heap_is h (acells x ++ F) -> apart x (st :: path) = Some y -> vdepth (value x) < f ->
  exists h2 h3, move_pointer f o_child with_child h (root x) (root y) = Ok h3 /\
    heap_is h2 (opt_list acells (achild (aset_part x (st :: path) (drop_child y))) ++ acells (put_child (aset_part x (st :: path) (drop_child y)) (achild y)) ++ F) /\
    heap_is h3 (acells (put_child (aset_part x (st :: path) (drop_child y)) (achild y)) ++ F).
Proof.
  intros H Hp Hf. rewrite move_pointer_eq. destruct (take_child h x st path y F H Hp) as [h2 [E2 H2]]. rewrite E2. cbn [obind].
  set (x1 := aset_part x (st :: path) (drop_child y)) in *. rewrite members_child.
  assert (HD : vdepth (value x1) <= vdepth (value x)).
  { unfold x1. rewrite value_set_part. apply depth_set with (value y); [rewrite part_value, Hp; reflexivity|apply depth_drop_child]. }
  destruct (destroy_any f (achild x1)) with (h := h2) (F := acells (put_child x1 (achild y)) ++ F) as [h3 [E3 H3]]; [|exact H2|eauto].
  intros z Hz. apply destroy_ok. assert (HS : rstep_get (value x1) RChild = Some (value z)). { rewrite step_value. destruct x1. cbn [achild aget_step] in *. now rewrite Hz. }
  apply depth_step in HS. lia.
Qed.

Lemma move_next_part f h x st path y F : heap_is h (acells x ++ F) -> apart x (st :: path) = Some y ->
  opt_max vdepth (option_map value (anext (aset_part x (st :: path) (drop_next y)))) < f ->
  exists h2 h3, move_pointer f o_next with_next h (root x) (root y) = Ok h3 /\
    heap_is h2 (opt_list acells (anext (aset_part x (st :: path) (drop_next y))) ++ acells (put_next (aset_part x (st :: path) (drop_next y)) (anext y)) ++ F) /\
    heap_is h3 (acells (put_next (aset_part x (st :: path) (drop_next y)) (anext y)) ++ F).
Proof.
  intros H Hp Hf. rewrite move_pointer_eq. destruct (take_next h x st path y F H Hp) as [h2 [E2 H2]]. rewrite E2. cbn [obind].
  set (x1 := aset_part x (st :: path) (drop_next y)) in *. rewrite members_next.
  destruct (destroy_any f (anext x1)) with (h := h2) (F := acells (put_next x1 (anext y)) ++ F) as [h3 [E3 H3]]; [|exact H2|eauto].
  intros z Hz. apply destroy_ok. rewrite Hz in Hf. exact Hf.
Qed.

Lemma set_first x st path y z : aget_step x st = Some z -> aset_part x (st :: path) y = aset_step x st (aset_part z path y).
Proof. intros H. cbn [aset_part]. now rewrite H. Qed.

Lemma move_part_ub rest f h x st path y F : heap_is h (acells x ++ F) -> apart x (st :: path) = Some y -> vdepth (value x) < f ->
  move_assign rest f h (root x) (root y) = UB BadPointer.
Proof.
  intros H Hp Hf. unfold move_assign.
  destruct (move_child_part f h x st path y F H Hp Hf) as [h2 [h3 [E3 [H2 H3]]]]. rewrite E3. cbn [obind].
  set (x1 := aset_part x (st :: path) (drop_child y)) in *.
  assert (Hp1 : apart x1 (st :: path) = Some (drop_child y)) by (now apply apart_set with y).
  assert (Ry : root (drop_child y) = root y) by (destruct y; reflexivity).
  assert (Hx1 : root x1 = root x) by (now apply root_set_part with y).
  assert (HD1 : vdepth (value x1) <= vdepth (value x)).
  { unfold x1. rewrite value_set_part. apply depth_set with (value y); [rewrite part_value, Hp; reflexivity|apply depth_drop_child]. }
  assert (HU : forall h4 a, read_rule h4 (root y) = UB BadPointer -> move_pointer f o_next with_next h4 a (root y) = UB BadPointer).
  { intros h4 a HR. unfold move_pointer. now rewrite HR. }
  destruct (aget_step x1 st) as [z1|] eqn:Ez1; [|cbn [apart] in Hp1; rewrite Ez1 in Hp1; discriminate].
  assert (Hz1 : apart z1 path = Some (drop_child y)) by (cbn [apart] in Hp1; now rewrite Ez1 in Hp1).
  assert (Hin1 : In (root y) (map fst (acells z1))) by (rewrite <- Ry; now apply part_root with path).
  assert (HDz : vdepth (value z1) < vdepth (value x1)) by (apply depth_step with st; rewrite step_value, Ez1; reflexivity).
  destruct st as [| |k].
  - (* child *)
    rewrite HU; [reflexivity|]. eapply read_gone; [exact H2|exact H3|]. destruct x1. cbn [aget_step achild] in *. subst. exact Hin1.
  - (* next *)
    set (x2 := put_child x1 (achild y)) in *. assert (Rx2 : root x2 = root x) by (unfold x2; rewrite <- Hx1; destruct x1; reflexivity).
    assert (Hp2 : apart x2 (RNext :: path) = Some (drop_child y)). { unfold x2. destruct x1. cbn [put_child apart aget_step] in *. exact Hp1. }
    assert (Ez2 : aget_step x2 RNext = Some z1). { unfold x2. destruct x1. exact Ez1. }
    destruct (move_next_part f h3 x2 RNext path (drop_child y) F H3 Hp2) as [h4 [h5 [E5 [H4 H5]]]].
    { rewrite (set_first x2 RNext path _ z1 Ez2). destruct x2. cbn [aset_step anext option_map opt_max].
      rewrite value_set_part. pose proof (depth_set path (value z1) (value (drop_child y)) (value (drop_next (drop_child y)))) as HX.
      rewrite part_value, Hz1 in HX. specialize (HX eq_refl (depth_drop_next _)). lia. }
    rewrite Rx2, Ry in E5. rewrite E5. cbn [obind]. unfold move_vector.
    assert (HR5 : read_rule h5 (root y) = UB BadPointer); [|now rewrite HR5].
    eapply read_gone; [exact H4|exact H5|]. rewrite (set_first x2 RNext path _ z1 Ez2). destruct x2. cbn [aset_step anext opt_list].
    rewrite <- Ry. assert (RR : root (drop_next (drop_child y)) = root (drop_child y)) by (destruct y; reflexivity). rewrite <- RR. apply part_root with path. now apply apart_set with (drop_child y).
  - (* nested *)
    set (x2 := put_child x1 (achild y)) in *. assert (Rx2 : root x2 = root x) by (unfold x2; rewrite <- Hx1; destruct x1; reflexivity).
    assert (Hp2 : apart x2 (RNested k :: path) = Some (drop_child y)). { unfold x2. destruct x1. cbn [put_child apart aget_step] in *. exact Hp1. }
    assert (Ez2 : aget_step x2 (RNested k) = Some z1). { unfold x2. destruct x1. exact Ez1. }
    assert (HN2 : anext x2 = anext x1) by (unfold x2; destruct x1; reflexivity).
    assert (HL2 : anested x2 = anested x1) by (unfold x2; destruct x1; reflexivity).
    assert (HDn : opt_max vdepth (option_map value (anext x1)) < f).
    { destruct x1 as [a1 c1 n1 l1 ms1 cs1 t1 o1 g1 name1]. cbn [anext]. rewrite value_eq, vdepth_eq in HD1. lia. }
    assert (HDl : list_max (map vdepth (map value (anested x1))) < f).
    { destruct x1 as [a1 c1 n1 l1 ms1 cs1 t1 o1 g1 name1]. cbn [anested]. rewrite value_eq, vdepth_eq in HD1. lia. }
    set (y2 := drop_child y) in *.
    destruct (move_next_part f h3 x2 (RNested k) path y2 F H3 Hp2) as [h4 [h5 [E5 [H4 H5]]]].
    { rewrite (set_first x2 (RNested k) path _ z1 Ez2). rewrite <- HN2 in HDn. destruct x2. exact HDn. }
    rewrite Rx2, Ry in E5. rewrite E5. cbn [obind]. clear H4.
    set (x3 := aset_part x2 (RNested k :: path) (drop_next y2)) in *. set (x4 := put_next x3 (anext y2)) in *.
    assert (Rx4 : root x4 = root x).
    { unfold x4. transitivity (root x3); [destruct x3; reflexivity|]. rewrite <- Rx2. apply root_set_part with y2; [exact Hp2|]. destruct y; reflexivity. }
    assert (Ry2 : root (drop_next y2) = root y) by (destruct y; reflexivity).
    assert (Hp4 : apart x4 (RNested k :: path) = Some (drop_next y2)).
    { assert (Hp3 : apart x3 (RNested k :: path) = Some (drop_next y2)) by (now apply apart_set with y2). unfold x4. destruct x3. exact Hp3. }
    destruct (take_nested f h5 x4 k path (drop_next y2) F H5 Hp4) as [h6 [h7 [E7 [H6 H7]]]].
    { unfold x4. transitivity (S (list_max (map vdepth (map value (anested x3)))) ); [destruct x3; cbn; lia|].
      apply Nat.le_lt_trans with (S (list_max (map vdepth (map value (anested x1))))).
      - apply le_n_S. unfold x3. rewrite (set_first x2 (RNested k) path _ z1 Ez2). rewrite <- HL2. destruct x2 as [a2 c2 n2 l2 ms2 cs2 t2 o2 g2 name2]. cbn [aset_step anested aget_step] in *.
        rewrite map_map, map_replace, map_map. apply list_max_replace with (vdepth (value z1)); [now apply (map_nth_error (fun x => vdepth (value x)))|].
        rewrite value_set_part. apply depth_set with (value y2); [rewrite part_value, Hz1; reflexivity|apply depth_drop_next].
      - destruct x1 as [a1 c1 n1 l1 ms1 cs1 t1 o1 g1 name1]. cbn [anested]. rewrite value_eq, vdepth_eq in HD1. lia. }
    rewrite Rx4, Ry2 in E7. rewrite E7. cbn [obind]. unfold move_vector.
    assert (HR7 : read_rule h7 (root y) = UB BadPointer); [|now rewrite HR7].
    eapply read_gone; [exact H6|exact H7|].
    cbn [apart] in Hp4. destruct (aget_step x4 (RNested k)) as [z4|] eqn:Ez4; [|discriminate].
    rewrite (set_first x4 (RNested k) path _ z4 Ez4). destruct x4 as [a4 c4 n4 l4 ms4 cs4 t4 o4 g4 name4]. cbn [aset_step anested aget_step] in *.
    destruct (replace_split l4 k z4 Ez4) as [l5 [l6 [_ [_ HRp]]]]. rewrite HRp, flat_map_app, map_app. apply in_or_app. right. cbn [flat_map]. rewrite map_app. apply in_or_app. left.
    rewrite <- Ry2. assert (RR : root (drop_nested (drop_next y2)) = root (drop_next y2)) by (destruct y; reflexivity). rewrite <- RR. apply part_root with path. now apply apart_set with (drop_next y2).
Qed.

(** ** Programs *)

Lemma run_app rest f l1 : forall s l2, run rest f s (l1 ++ l2) =
  match run rest f s l1 with Some (Ok s1) => run rest f s1 l2 | o => o end.
Proof.
  induction l1 as [|st l1 IH]; intros s l2; cbn [app run]; [reflexivity|]. destruct (step rest f s st) as [[s1|e|u|]|]; try reflexivity. apply IH.
Qed.


Theorem move_from_part rest l S x p st path v : effects rest [] l = Some S -> value_at S (mk_place x (p ++ st :: path)) = Some v ->
  exists f0, forall f, f0 <= f -> run rest f start (l ++ [Assign (mk_place x p) (ByMove (mk_place x (p ++ st :: path)))]) = Some (UB BadPointer).
Proof.
  intros HE Hv. destruct (run_inv rest l [] S HE) as [f0 H0]. exists (f0 + (1 + store_depth S)). intros f Hf.
  destruct (H0 f start []) as [s [T [E [HI HS]]]]; [lia|split; [reflexivity|split; [reflexivity|unfold whole; reflexivity]]|reflexivity|].
  rewrite run_app, E. cbn [run step].
  rewrite <- HS, fget_value in Hv. destruct (fget T (mk_place x (p ++ st :: path))) as [y|] eqn:Ey; [|discriminate].
  rewrite (locate_ok s T _ y HI Ey). unfold call.
  assert (HP : exists w, fget T (mk_place x p) = Some w /\ apart w (st :: path) = Some y).
  { unfold fget in *. cbn [pl_var pl_path] in *. destruct (var_get T x) as [t|]; [|discriminate]. clear - Ey. revert t Ey.
    induction p as [|a p IH]; intros t Ey; [exists t; split; [reflexivity|exact Ey]|]. cbn [app apart] in *. destruct (aget_step t a) as [z|]; [|discriminate]. now apply IH. }
  destruct HP as [w [Ew Hw]]. rewrite (locate_ok s T _ w HI Ew). cbn [obind].
  destruct (forest_frame T _ w Ew) as [F HF]. specialize (HF w eq_refl). rewrite (fset_same _ _ _ Ew) in HF.
  rewrite (move_part_ub rest f (mem s) w st path y F); [reflexivity|eapply heap_is_perm; [exact (proj2 HI)|exact HF]|exact Hw|].
  assert (HD : vdepth (value w) <= store_depth S); [|lia]. apply depth_at with (mk_place x p). now rewrite <- HS, fget_value, Ew.
Qed.
