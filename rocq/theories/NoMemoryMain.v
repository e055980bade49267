(** Programs on rules when memory is refused. *)

From Coq Require Import Ascii String NArith ZArith Bool List Lia Permutation.
From Verif Require Import Base Tags Values Match Rule RuleMatching RuleProofs RuleHeap RuleHeapSpec PermTac RuleHeapProofs RuleHeapOps RuleHeapMain
  NoMemory NoMemorySpec NoMemoryProofs.
Import ListNotations.
Open Scope outcome_scope.

Section NoMemory.
Variable rest : str -> str.
Variable grants : nat -> bool.

Notation refused := (first_refused grants).
Notation does := (does grants).

Lemma does_noexcept {A} (m : act A) h k Q (R R' : heap -> Prop) T T' :
  does m h k Q R T -> (forall i, i < k -> T' i = true) -> does (noexcept m) h k Q R' T'.
Proof.
  intros H HT n. destruct (H n) as [r [h' [n' [E HR]]]]. unfold noexcept. rewrite E. cbn [obind].
  destruct (refused n k) as [j|] eqn:E1.
  - pose proof (refused_range grants _ _ _ E1) as HJ. destruct HR as [-> HR].
    assert (HX : r = NoMemory \/ r = Terminated) by (destruct (T (j - n)); [now right|left; apply HR]).
    exists Terminated, h', (j + 1). split; [destruct HX as [-> | ->]; reflexivity|]. split; [reflexivity|]. now rewrite HT by lia.
  - destruct HR as [-> [x [-> HQ]]]. exists (Got x), h', (n + k). split; [reflexivity|]. eauto.
Qed.

Lemma does_read {B} h L a m (f : members -> act B) k Q R T : heap_is h L -> In (a, CRule m) L -> does (f m) h k Q R T ->
  does (andthen (quiet (fun h => let! m := read_rule h a in Ok (m, h))) f) h k Q R T.
Proof.
  intros H Hin HF. change k with (0 + k). eapply does_bind with (Q := fun x h' => x = m /\ h' = h).
  - apply does_quiet with (x := m) (h' := h); [rewrite (read_ok h L a m H Hin); reflexivity|auto].
  - intros x h' [-> ->]. exact HF.
Qed.

Lemma try_copy_assign_ok f h x y F G : heap_is h (acells x ++ F) -> Permutation (acells x ++ F) (acells y ++ G) ->
  vdepth (value x) < f -> vdepth (value y) < f ->
  does (try_copy_assign grants f (root x) (root y)) h (copy_needs (value y))
    (fun _ h' => exists z, heap_is h' (acells z ++ F) /\ root z = root x /\ value z = value y)
    (fun h' => heap_is h' (acells x ++ F)) alive_still.
Proof.
  intros H HP Hx Hy. unfold try_copy_assign. rewrite <- (Nat.add_0_r (copy_needs (value y))).
  eapply does_bind.
  - eapply does_weaken; [apply (copies_ok grants y f Hy h G)|reflexivity|intros a h'; exact (fun H => H)|].
    + now apply heap_is_perm with (acells x ++ F).
    + intros h' H'. eapply heap_is_perm; [exact H'|]. now symmetry.
  - intros a h1 [z [-> [H1 V1]]].
    assert (H1' : heap_is h1 (acells x ++ acells z ++ F)).
    { eapply heap_is_perm; [exact H1|]. rewrite <- HP. perm. }
    destruct (swap_ok h1 x z F H1') as [h2 [E2 H2]].
    destruct (destroy_ok (reroot x (root z)) f) with (h := h2) (F := acells (reroot z (root x)) ++ F) as [h3 [E3 H3]].
    { now rewrite value_reroot. } { eapply heap_is_perm; [exact H2|perm]. }
    rewrite root_reroot in E3. apply does_quietly with (h' := h3); [rewrite E2; exact E3|].
    exists (reroot z (root x)). split; [exact H3|]. split; [apply root_reroot|]. now rewrite value_reroot.
Qed.

Lemma try_append_next_ok x : forall f h y F, heap_is h (acells x ++ acells y ++ F) -> vdepth (value x) < f ->
  does (try_append_next rest grants f (root x) (root y)) h 1
    (fun _ h' => exists z, heap_is h' (acells z ++ acells (ahollow rest y) ++ F) /\ root z = root x /\ value z = append_next (value x) (value y))
    (fun h' => heap_is h' (acells x ++ acells y ++ F)) alive_still.
Proof.
  induction x as [a c n l ms cs t o g name _ IHn _] using atree_ind2. intros f h y F H Hf.
  destruct f as [|f]; [lia|]. rewrite value_eq, vdepth_eq in Hf. cbn [try_append_next root].
  eapply does_read; [exact H|now left|]. cbn [members_of o_next].
  destruct n as [n|]; cbn [option_map].
  - eapply does_weaken; [apply (IHn n eq_refl f h y ((a, CRule (members_of (ANode a c (Some n) l ms cs t o g name))) :: opt_list acells c ++ flat_map acells l ++ match_cells ms ++ capture_cells cs ++ F))|reflexivity| |].
    { eapply heap_is_perm; [exact H|]. rewrite acells_eq. cbn [opt_list]. perm. }
    { cbn [option_map opt_max] in Hf. lia. }
    + intros _ h1 [z [H1 [R1 V1]]]. exists (ANode a c (Some z) l ms cs t o g name). split.
      * eapply heap_is_perm; [exact H1|]. rewrite (acells_eq a). cbn [opt_list members_of option_map]. rewrite R1. perm.
      * split; [reflexivity|]. rewrite !value_eq. cbn [append_next option_map]. now rewrite V1.
    + intros h1 H1. eapply heap_is_perm; [exact H1|]. rewrite (acells_eq a). cbn [opt_list]. perm.
  - change 1 with (1 + 0). eapply does_bind; [apply does_request with (Q := fun _ h' => h' = h); [reflexivity|reflexivity|exact H]|].
    intros _ h' ->. destruct (move_construct_ok rest h y (acells (ANode a c None l ms cs t o g name) ++ F)) as [b [h1 [E1 H1]]].
    { eapply heap_is_perm; [exact H|]. perm. }
    change 0 with (0 + 0). eapply does_bind; [apply does_quiet with (1 := E1) (Q := fun x h' => x = b /\ h' = h1); auto|]. intros z h' [-> ->].
    destruct (change_ok h1 (acells (reroot y b) ++ acells (ahollow rest y) ++ below (ANode a c None l ms cs t o g name) ++ F) a
      (members_of (ANode a c None l ms cs t o g name)) (fun m => with_next m (Some b))) as [h2 [E2 H2]].
    { eapply heap_is_perm; [exact H1|]. unfold acells at 3. cbn [root]. perm. }
    apply does_quietly with (1 := E2). exists (ANode a c (Some (reroot y b)) l ms cs t o g name). split.
    + eapply heap_is_perm; [exact H2|]. rewrite (acells_eq a), below_eq. unfold with_next.
      cbn [opt_list members_of option_map o_child o_next o_nested o_matches o_captures o_tag o_optional o_greedy o_name]. rewrite root_reroot. perm.
    + split; [reflexivity|]. rewrite !value_eq. cbn [append_next option_map]. now rewrite value_reroot.
Qed.

Lemma vdepth_any r : 0 < vdepth r.
Proof. destruct r. rewrite vdepth_eq. lia. Qed.

(** The parameter of [append_child] is hollow while [append_next] runs; if that
    fails the rule dies with the parameter of [append_next]. *)
Lemma try_append_child_ok f h x y F : heap_is h (acells x ++ acells y ++ F) -> vdepth (value x) < f -> vdepth (value y) < f ->
  does (try_append_child rest grants f (root x) (root y)) h 1
    (fun _ h' => exists z, heap_is h' (acells z ++ acells (ahollow rest y) ++ F) /\ root z = root x /\ value z = append_child (value x) (value y))
    (fun h' => exists y', root y' = root y /\ vdepth (value y') < f /\ heap_is h' (acells x ++ acells y' ++ F)) alive_still.
Proof.
  destruct x as [a c n l ms cs t o g name]. intros H Hf Hy. rewrite value_eq, vdepth_eq in Hf.
  unfold try_append_child. cbn [root].
  eapply does_read; [exact H|now left|]. cbn [members_of o_child].
  destruct (move_construct_ok rest h y (acells (ANode a c n l ms cs t o g name) ++ F)) as [b [h1 [E1 H1]]].
  { eapply heap_is_perm; [exact H|]. perm. }
  destruct c as [c|]; cbn [option_map].
  - change 1 with (0 + (1 + 0)). eapply does_bind; [apply does_quiet with (1 := E1) (Q := fun x h' => x = b /\ h' = h1); auto|]. intros z h' [-> ->].
    set (m := (a, CRule (members_of (ANode a (Some c) n l ms cs t o g name)))) in *.
    eapply does_bind.
    + eapply does_undo.
      * pose proof (try_append_next_ok c f h1 (reroot y b) (acells (ahollow rest y) ++ m :: opt_list acells n ++ flat_map acells l ++ match_cells ms ++ capture_cells cs ++ F)) as HN.
        rewrite root_reroot in HN. apply HN.
        { eapply heap_is_perm; [exact H1|]. rewrite (acells_eq a). cbn [opt_list]. fold m. perm. }
        { cbn [option_map opt_max] in Hf. lia. }
      * intros h' H'. destruct (destroy_ok (reroot y b) f) with (h := h') (F := acells (ANode a (Some c) n l ms cs t o g name) ++ acells (ahollow rest y) ++ F) as [h2 [E2 H2]].
        { now rewrite value_reroot. } { eapply heap_is_perm; [exact H'|]. rewrite (acells_eq a). cbn [opt_list]. fold m. perm. }
        rewrite root_reroot in E2. exists h2. split; [exact E2|]. exists (ahollow rest y). split; [apply root_ahollow|]. split; [|exact H2].
        rewrite value_ahollow. destruct (value y). cbn [emptied]. rewrite vdepth_eq. cbn. lia.
    + intros _ h2 [z [H2 [R2 V2]]]. destruct f as [|f]; [lia|].
      destruct (destroy_hollow rest f h2 (reroot y b) (acells z ++ acells (ahollow rest y) ++ m :: opt_list acells n ++ flat_map acells l ++ match_cells ms ++ capture_cells cs ++ F)) as [h3 [E3 H3]].
      { eapply heap_is_perm; [exact H2|]. perm. }
      rewrite root_reroot in E3. apply does_quietly with (1 := E3). exists (ANode a (Some z) n l ms cs t o g name). split.
      * eapply heap_is_perm; [exact H3|]. rewrite (acells_eq a). unfold m. cbn [opt_list members_of option_map]. rewrite R2. perm.
      * split; [reflexivity|]. rewrite !value_eq. cbn [append_child option_map]. now rewrite V2, value_reroot.
  - change 1 with (1 + (0 + 0)). eapply does_bind.
    + apply does_request with (Q := fun _ h' => h' = h); [reflexivity|reflexivity|]. exists y. auto.
    + intros _ h' ->. eapply does_bind; [apply does_quiet with (1 := E1) (Q := fun x h' => x = b /\ h' = h1); auto|]. intros z h' [-> ->].
      destruct (change_ok h1 (acells (reroot y b) ++ acells (ahollow rest y) ++ below (ANode a None n l ms cs t o g name) ++ F) a
        (members_of (ANode a None n l ms cs t o g name)) (fun m => with_child m (Some b))) as [h2 [E2 H2]].
      { eapply heap_is_perm; [exact H1|]. unfold acells at 3. cbn [root]. perm. }
      apply does_quietly with (1 := E2). exists (ANode a (Some (reroot y b)) n l ms cs t o g name). split.
      * eapply heap_is_perm; [exact H2|]. rewrite (acells_eq a), below_eq. unfold with_child.
        cbn [opt_list members_of option_map o_child o_next o_nested o_matches o_captures o_tag o_optional o_greedy o_name]. rewrite root_reroot. perm.
      * split; [reflexivity|]. rewrite !value_eq. cbn [append_child option_map]. now rewrite value_reroot.
Qed.

Lemma try_append_nested_ok f grow h x y F : heap_is h (acells x ++ acells y ++ F) -> 1 < f ->
  does (try_append_nested rest grants f grow (root x) (root y)) h (one_if grow)
    (fun _ h' => exists z, heap_is h' (acells z ++ acells (ahollow rest y) ++ F) /\ root z = root x /\ value z = append_nested (value x) (value y))
    (fun h' => heap_is h' (acells x ++ acells y ++ F)) alive_still.
Proof.
  intros H Hf. unfold try_append_nested. rewrite <- (Nat.add_0_r (one_if grow)).
  eapply does_bind; [apply does_request_if with (Q := fun _ h' => h' = h); [reflexivity|reflexivity|exact H]|]. intros _ h' ->.
  destruct (append_nested_ok rest f grow h x y F H Hf) as [z [h2 [E2 HZ]]]. apply does_quietly with (1 := E2). eauto.
Qed.

Lemma try_append_match_ok h x m F : heap_is h (acells x ++ F) ->
  does (try_append_match grants (root x) m) h (match m with Some _ => 2 | None => 1 end)
    (fun _ h' => exists z, heap_is h' (acells z ++ F) /\ root z = root x /\ value z = append_match (value x) m)
    (fun h' => heap_is h' (acells x ++ F)) alive_still.
Proof.
  destruct x as [a c n l ms cs t o g name]. intros H. unfold try_append_match. cbn [root]. destruct m as [m|].
  - destruct (alloc h (CMatch m)) as [b h1] eqn:E1. pose proof (alloc_ok _ _ _ _ _ H E1) as H1.
    change 2 with (1 + (1 + 0)). eapply does_bind with (Q := fun x h' => x = Some b /\ h' = h1).
    { change 1 with (1 + (0 + 0)). eapply does_bind; [apply does_request with (Q := fun _ h' => h' = h); [reflexivity|reflexivity|exact H]|].
      intros _ h' ->. eapply does_bind; [apply does_quiet with (x := b) (h' := h1) (Q := fun x h' => x = b /\ h' = h1); [now rewrite E1|auto]|].
      intros x h' [-> ->]. now apply does_got. }
    intros x h' [-> ->]. eapply does_bind with (Q := fun _ h' => h' = h1).
    { apply does_undo with (R := fun h' => h' = h1); [now apply does_request|]. intros h' ->. cbn [if_any]. now apply release_ok with (CMatch m). }
    intros _ h' ->.
    destruct (change_ok h1 ((b, CMatch m) :: below (ANode a c n l ms cs t o g name) ++ F) a (members_of (ANode a c n l ms cs t o g name))
      (fun x => with_matches x (o_matches x ++ [Some b]))) as [h2 [E2 H2]].
    { eapply heap_is_perm; [exact H1|]. unfold acells. cbn [root]. perm. }
    apply does_quietly with (1 := E2). exists (ANode a c n l (ms ++ [Some (b, m)]) cs t o g name). split.
    + eapply heap_is_perm; [exact H2|]. rewrite acells_eq, below_eq. unfold with_matches, match_cells.
      cbn [members_of o_child o_next o_nested o_matches o_captures o_tag o_optional o_greedy o_name].
      rewrite map_app, flat_map_app. cbn [map flat_map option_map fst app]. perm.
    + split; [reflexivity|]. rewrite !value_eq. cbn [append_match]. now rewrite map_app.
  - change 1 with (0 + (1 + 0)). eapply does_bind with (Q := fun x h' => x = None /\ h' = h); [now apply does_got|].
    intros x h' [-> ->]. eapply does_bind with (Q := fun _ h' => h' = h).
    { apply does_undo with (R := fun h' => h' = h); [now apply does_request|]. intros h' ->. cbn [if_any]. eauto. }
    intros _ h' ->.
    destruct (change_ok h (below (ANode a c n l ms cs t o g name) ++ F) a (members_of (ANode a c n l ms cs t o g name))
      (fun x => with_matches x (o_matches x ++ [None])) H) as [h2 [E2 H2]].
    apply does_quietly with (1 := E2). exists (ANode a c n l (ms ++ [None]) cs t o g name). split.
    + eapply heap_is_perm; [exact H2|]. rewrite acells_eq, below_eq. unfold with_matches, match_cells.
      cbn [members_of o_child o_next o_nested o_matches o_captures o_tag o_optional o_greedy o_name].
      rewrite map_app, flat_map_app. cbn [map flat_map option_map fst app]. perm.
    + split; [reflexivity|]. rewrite !value_eq. cbn [append_match]. now rewrite map_app.
Qed.

Lemma try_append_capture_ok h x m F : heap_is h (acells x ++ F) ->
  does (try_append_capture grants (root x) m) h (match m with Some _ => 2 | None => 1 end)
    (fun _ h' => exists z, heap_is h' (acells z ++ F) /\ root z = root x /\ value z = append_capture (value x) m)
    (fun h' => heap_is h' (acells x ++ F)) alive_still.
Proof.
  destruct x as [a c n l ms cs t o g name]. intros H. unfold try_append_capture. cbn [root]. destruct m as [m|].
  - destruct (alloc h (CCapture m)) as [b h1] eqn:E1. pose proof (alloc_ok _ _ _ _ _ H E1) as H1.
    change 2 with (1 + (1 + 0)). eapply does_bind with (Q := fun x h' => x = Some b /\ h' = h1).
    { change 1 with (1 + (0 + 0)). eapply does_bind; [apply does_request with (Q := fun _ h' => h' = h); [reflexivity|reflexivity|exact H]|].
      intros _ h' ->. eapply does_bind; [apply does_quiet with (x := b) (h' := h1) (Q := fun x h' => x = b /\ h' = h1); [now rewrite E1|auto]|].
      intros x h' [-> ->]. now apply does_got. }
    intros x h' [-> ->]. eapply does_bind with (Q := fun _ h' => h' = h1).
    { apply does_undo with (R := fun h' => h' = h1); [now apply does_request|]. intros h' ->. cbn [if_any]. now apply release_ok with (CCapture m). }
    intros _ h' ->.
    destruct (change_ok h1 ((b, CCapture m) :: below (ANode a c n l ms cs t o g name) ++ F) a (members_of (ANode a c n l ms cs t o g name))
      (fun x => with_captures x (o_captures x ++ [Some b]))) as [h2 [E2 H2]].
    { eapply heap_is_perm; [exact H1|]. unfold acells. cbn [root]. perm. }
    apply does_quietly with (1 := E2). exists (ANode a c n l ms (cs ++ [Some (b, m)]) t o g name). split.
    + eapply heap_is_perm; [exact H2|]. rewrite acells_eq, below_eq. unfold with_captures, capture_cells.
      cbn [members_of o_child o_next o_nested o_matches o_captures o_tag o_optional o_greedy o_name].
      rewrite map_app, flat_map_app. cbn [map flat_map option_map fst app]. perm.
    + split; [reflexivity|]. rewrite !value_eq. cbn [append_capture]. now rewrite map_app.
  - change 1 with (0 + (1 + 0)). eapply does_bind with (Q := fun x h' => x = None /\ h' = h); [now apply does_got|].
    intros x h' [-> ->]. eapply does_bind with (Q := fun _ h' => h' = h).
    { apply does_undo with (R := fun h' => h' = h); [now apply does_request|]. intros h' ->. cbn [if_any]. eauto. }
    intros _ h' ->.
    destruct (change_ok h (below (ANode a c n l ms cs t o g name) ++ F) a (members_of (ANode a c n l ms cs t o g name))
      (fun x => with_captures x (o_captures x ++ [None])) H) as [h2 [E2 H2]].
    apply does_quietly with (1 := E2). exists (ANode a c n l ms (cs ++ [None]) t o g name). split.
    + eapply heap_is_perm; [exact H2|]. rewrite acells_eq, below_eq. unfold with_captures, capture_cells.
      cbn [members_of o_child o_next o_nested o_matches o_captures o_tag o_optional o_greedy o_name].
      rewrite map_app, flat_map_app. cbn [map flat_map option_map fst app]. perm.
    + split; [reflexivity|]. rewrite !value_eq. cbn [append_capture]. now rewrite map_app.
Qed.

Lemma try_set_ok h x s F : heap_is h (acells x ++ F) ->
  does (try_set grants (root x) s) h (match s with SetTagname name => 2 * text_needs name | _ => 0 end)
    (fun _ h' => exists z, heap_is h' (acells z ++ F) /\ root z = root x /\ value z = flag_set s (value x))
    (fun h' => heap_is h' (acells x ++ F)) alive_still.
Proof.
  intros H. unfold try_set. set (b := match s with SetTagname name => is_long name | _ => false end).
  replace (match s with SetTagname name => 2 * text_needs name | _ => 0 end) with (one_if b + (one_if b + 0)).
  2:{ unfold b. destruct s; cbn [one_if]; reflexivity. }
  eapply does_bind; [apply does_request_if with (Q := fun _ h' => h' = h); [reflexivity|reflexivity|exact H]|]. intros _ h' ->.
  eapply does_bind; [apply does_request_if with (Q := fun _ h' => h' = h); [reflexivity|reflexivity|exact H]|]. intros _ h' ->.
  destruct (set_flag_ok h x s F H) as [z [h2 [E2 HZ]]]. apply does_quietly with (1 := E2). eauto.
Qed.

Lemma try_new_name_ok h F name o g : heap_is h F ->
  does (try_new_name grants name o g) h (text_needs name + (if unknown_name name then text_needs name else 0))
    (fun a h' => heap_is h' (acells (ANode a None None [] [] [] (gumbo_tag_enum (c_str name)) o g (if unknown_name name then Some name else None)) ++ F))
    (fun h' => heap_is h' F) (fun i => Nat.eqb i 1).
Proof.
  intros H. unfold try_new_name. change (text_needs name) with (one_if (is_long name)).
  eapply does_bind; [apply does_request_if with (Q := fun _ h' => h' = h); [reflexivity|reflexivity|exact H]|]. intros _ h' ->.
  change ((gumbo_tag_enum (c_str name) =? TAG_UNKNOWN)%N) with (unknown_name name).
  apply does_noexcept with (R := fun h' => heap_is h' F) (T := alive_still).
  - replace (if unknown_name name then one_if (is_long name) else 0) with (one_if (unknown_name name && is_long name) + 0).
    2:{ destruct (unknown_name name), (is_long name); reflexivity. }
    eapply does_bind; [apply does_request_if with (Q := fun _ h' => h' = h); [reflexivity|reflexivity|exact H]|]. intros _ h' ->.
    destruct (alloc h (CRule (mk_members None None [] [] [] (gumbo_tag_enum (c_str name)) o g (if unknown_name name then Some name else None)))) as [a h1] eqn:E1.
    apply does_quiet with (x := a) (h' := h1); [now rewrite E1|]. exact (alloc_ok _ _ _ _ _ H E1).
  - intros i Hi. destruct (unknown_name name), (is_long name); cbn [one_if] in *; try lia. replace i with 0 by lia. reflexivity.
Qed.

(** ** Statements *)

Definition after {A} (s : state) (k : nat) (T : nat -> bool) (ok : state -> Prop) (fail : state -> Prop) (o : option (outcome (result A * state)))
  (val : A -> state) : Prop :=
  exists r s', o = Some (Ok (r, s')) /\
    match refused (w_asked (s_world s)) k with
    | None => exists x, r = Got x /\ w_asked (s_world (val x)) = w_asked (s_world s) + k /\ ok (val x)
    | Some j => if T (j - w_asked (s_world s)) then r = Terminated
                else r = NoMemory /\ w_asked (s_world s') = j + 1 /\ fail s'
    end.

Lemma finish_ok {A} s (m : act A) k Q R T env' (ok fail : state -> Prop) :
  does m (w_heap (s_world s)) k Q R T ->
  (forall x h n, Q x h -> ok (mk_state (env' x) (mk_world h n))) ->
  (forall h n, R h -> fail (mk_state (s_env s) (mk_world h n))) ->
  after s k T ok fail (Some (finish s m env')) (fun x => x).
Proof.
  intros H HQ HR. destruct s as [e [h n]]. cbn [s_world w_heap s_env] in *. destruct (H n) as [r [h' [n' [E HX]]]]. unfold after, finish. cbn [s_world w_asked s_env].
  rewrite E. cbn [obind]. destruct (refused n k) as [j|].
  - destruct HX as [-> HX]. destruct (T (j - n)).
    + subst r. do 2 eexists. split; [reflexivity|]. reflexivity.
    + destruct HX as [-> HX]. do 2 eexists. split; [reflexivity|]. split; [reflexivity|]. split; [reflexivity|]. now apply HR.
  - destruct HX as [-> [x [-> HX]]]. do 2 eexists. split; [reflexivity|]. eexists. split; [reflexivity|]. split; [reflexivity|]. now apply HQ.
Qed.

Definition holds (S : store) (s : state) : Prop := exists T, inv (machine_of s) T /\ fstore T = S.

Definition step_does (S : store) (st : statement) (S2 : store) : Prop :=
  exists f0, forall f s, f0 <= f -> holds S s ->
  after s (statement_needs S st) (deadly st) (holds S2) (holds (unchanged rest S st)) (try_step rest grants f s st) (fun x => x).

(** An argument. *)
Lemma try_argument_ok S arg v S' : argument_value rest S arg = Some (v, S') ->
  forall f s T, store_depth S < f -> inv (machine_of s) T -> fstore T = S ->
  exists m T', try_argument rest grants f s arg = Some m /\ fstore T' = S' /\ fenv T' = fenv T /\
    (forall p w, fget T' p = Some w -> exists w0, fget T p = Some w0 /\ root w0 = root w) /\
    does m (w_heap (s_world s)) (argument_needs S arg)
      (fun a h' => exists x, a = root x /\ value x = v /\ heap_is h' (acells x ++ fcells T'))
      (fun h' => heap_is h' (fcells T')) alive_still.
Proof.
  intros HA f s T Hf HI HS. destruct arg as [q|q]; cbn [argument_value argument_needs try_argument] in *.
  - destruct (value_at S q) as [v0|] eqn:Ev; [|discriminate]. injection HA as -> <-. pose proof (depth_at _ _ _ Ev) as HD.
    rewrite <- HS, fget_value in Ev. destruct (fget T q) as [u|] eqn:Eu; [|discriminate]. injection Ev as <-.
    rewrite (locate_ok (machine_of s) T q u HI Eu). cbn [obind]. destruct (forest_frame T q u Eu) as [F HF]. specialize (HF u eq_refl). rewrite (fset_same _ _ _ Eu) in HF.
    eexists. exists T. split; [reflexivity|]. split; [exact HS|]. split; [reflexivity|]. split; [eauto|].
    eapply does_weaken; [apply (copies_ok grants u f) with (F := F)|reflexivity| |].
    + lia.
    + eapply heap_is_perm; [exact (proj2 HI)|exact HF].
    + intros a h' [y [-> [H1 V1]]]. exists y. split; [reflexivity|]. split; [exact V1|]. eapply heap_is_perm; [exact H1|]. rewrite HF. perm.
    + intros h' H'. eapply heap_is_perm; [exact H'|]. now symmetry.
  - destruct (value_at S q) as [v0|] eqn:Ev; [|discriminate]. injection HA as -> <-.
    rewrite <- HS, fget_value in Ev. destruct (fget T q) as [u|] eqn:Eu; [|discriminate]. injection Ev as <-.
    rewrite (locate_ok (machine_of s) T q u HI Eu). cbn [obind]. destruct (forest_frame T q u Eu) as [F HF].
    destruct (move_construct_ok rest (w_heap (s_world s)) u F) as [b [h1 [E1 H1]]].
    { eapply heap_is_perm; [exact (proj2 HI)|]. specialize (HF u eq_refl). now rewrite (fset_same _ _ _ Eu) in HF. }
    eexists. exists (fset T q (ahollow rest u)). split; [reflexivity|].
    split; [rewrite fset_value, value_ahollow; now rewrite HS|]. split; [apply fset_env with u; [exact Eu|apply root_ahollow]|].
    split; [intros p w Hw; now apply fget_kept with rest q u|].
    apply does_quiet with (1 := E1). exists (reroot u b). split; [now rewrite root_reroot|]. split; [apply value_reroot|].
    eapply heap_is_perm; [exact H1|]. rewrite (HF (ahollow rest u) (root_ahollow rest u)). perm.
Qed.

(** A call with an argument by value. *)
Lemma try_call_with_ok S arg v S1 p g S2 k (F : nat -> addr -> addr -> act unit) :
  argument_value rest S arg = Some (v, S1) -> update_at S1 p (fun w => g w v) = Some S2 ->
  (forall f h x y G, heap_is h (acells x ++ acells y ++ G) -> vdepth (value x) < f -> vdepth (value y) < f -> 1 < f ->
     does (F f (root x) (root y)) h k
       (fun _ h' => exists z, heap_is h' (acells z ++ acells (ahollow rest y) ++ G) /\ root z = root x /\ value z = g (value x) (value y))
       (fun h' => exists y', root y' = root y /\ vdepth (value y') < f /\ heap_is h' (acells x ++ acells y' ++ G)) alive_still) ->
  exists f0, forall f s, f0 <= f -> holds S s ->
  after s (argument_needs S arg + k) alive_still (holds S2) (holds S1) (try_call_with rest grants f s p arg (F f)) (fun x => x).
Proof.
  intros HA HU HF. exists (2 + store_depth S + store_depth S1 + vdepth v). intros f s Hf [T [HI HS]].
  destruct (try_argument_ok S arg v S1 HA f s T ltac:(lia) HI HS) as [mx [T1 [E1 [HS1 [HE1 [HK HM]]]]]].
  unfold update_at in HU. destruct (value_at S1 p) as [w|] eqn:Ew; [|discriminate]. injection HU as <-. pose proof (depth_at _ _ _ Ew) as HD.
  rewrite <- HS1, fget_value in Ew. destruct (fget T1 p) as [u|] eqn:Eu; [|discriminate]. injection Ew as <-.
  destruct (HK p u Eu) as [u0 [Hu0 Ru0]]. unfold try_call_with. rewrite (locate_ok (machine_of s) T p u0 HI Hu0), E1. cbn [obind]. rewrite Ru0.
  destruct (forest_frame T1 p u Eu) as [G HG]. pose proof (HG u eq_refl) as HG0. rewrite (fset_same _ _ _ Eu) in HG0.
  assert (HIenv : s_env s = fenv T1). { rewrite HE1. exact (proj1 HI). }
  eapply finish_ok with
    (Q := fun _ h' => exists z, heap_is h' (acells z ++ G) /\ root z = root u /\ value z = g (value u) v)
    (R := fun h' => heap_is h' (fcells T1)).
  - eapply does_bind; [exact HM|]. intros a h1 [x [-> [Vx H1]]]. rewrite <- (Nat.add_0_r k). eapply does_bind.
    + eapply does_undo; [apply (HF f h1 u x G)| ].
      * eapply heap_is_perm; [exact H1|]. rewrite HG0. perm.
      * lia.
      * rewrite Vx. lia.
      * lia.
      * intros h' [y' [Ry [Dy H']]]. destruct (destroy_ok y' f Dy h' (fcells T1)) as [h2 [E2 H2]].
        { eapply heap_is_perm; [exact H'|]. rewrite HG0. perm. }
        rewrite Ry in E2. eauto.
    + intros _ h2 [z [H2 [R2 V2]]]. destruct f as [|f]; [lia|].
      destruct (destroy_hollow rest f h2 x (acells z ++ G)) as [h3 [E3 H3]]; [eapply heap_is_perm; [exact H2|perm]|].
      apply does_quietly with (1 := E3). exists z. rewrite <- Vx. auto.
  - intros _ h n [z [Hz [Rz Vz]]]. exists (fset T1 p z). split; [split|].
    + cbn [machine_of env s_env]. now rewrite (fset_env T1 p u z Eu Rz).
    + cbn [machine_of mem s_world w_heap]. eapply heap_is_perm; [exact Hz|]. now rewrite (HG z Rz).
    + rewrite fset_value, Vz, HS1. reflexivity.
  - intros h n Hh. exists T1. split; [split|]; [exact HIenv|exact Hh|exact HS1].
Qed.

Lemma try_call_ok S p g S2 k (F : addr -> act unit) :
  update_at S p g = Some S2 ->
  (forall h x G, heap_is h (acells x ++ G) ->
     does (F (root x)) h k (fun _ h' => exists z, heap_is h' (acells z ++ G) /\ root z = root x /\ value z = g (value x))
       (fun h' => heap_is h' (acells x ++ G)) alive_still) ->
  forall s, holds S s -> after s k alive_still (holds S2) (holds S) (try_call s p F) (fun x => x).
Proof.
  intros HU HF s [T [HI HS]]. unfold update_at in HU. destruct (value_at S p) as [w|] eqn:Ew; [|discriminate]. injection HU as <-.
  rewrite <- HS, fget_value in Ew. destruct (fget T p) as [u|] eqn:Eu; [|discriminate]. injection Ew as <-.
  unfold try_call. rewrite (locate_ok (machine_of s) T p u HI Eu). cbn [obind].
  destruct (forest_frame T p u Eu) as [G HG]. pose proof (HG u eq_refl) as HG0. rewrite (fset_same _ _ _ Eu) in HG0.
  eapply finish_ok; [apply (HF _ u G); eapply heap_is_perm; [exact (proj2 HI)|exact HG0]| |].
  - intros _ h n [z [Hz [Rz Vz]]]. exists (fset T p z). split; [split|].
    + cbn [machine_of env s_env]. rewrite (fset_env T p u z Eu Rz). exact (proj1 HI).
    + cbn [machine_of mem s_world w_heap]. eapply heap_is_perm; [exact Hz|]. now rewrite (HG z Rz).
    + rewrite fset_value, Vz, HS. reflexivity.
  - intros h n Hh. exists T. split; [split|]; [exact (proj1 HI)| |exact HS]. cbn [machine_of mem s_world w_heap]. eapply heap_is_perm; [exact Hh|]. now symmetry.
Qed.

Lemma try_declare_ok S x v S2 S1 s T m k D :
  new_variable S1 x v = Some S2 -> s_env s = fenv T -> fstore T = S1 ->
  does m (w_heap (s_world s)) k (fun a h' => exists y, a = root y /\ value y = v /\ heap_is h' (acells y ++ fcells T)) (fun h' => k <> 0 -> heap_is h' (fcells T)) D ->
  (k <> 0 -> S1 = S) ->
  after s k D (holds S2) (holds S) (try_declare s x (Some m)) (fun x => x).
Proof.
  intros HN HE HS HM HK. unfold new_variable in HN. rewrite <- HS in HN. unfold fstore in HN. rewrite (var_get_map value) in HN.
  unfold try_declare. rewrite HE. unfold fenv at 1. rewrite (var_get_map root). destruct (var_get T x); cbn [option_map] in *; [discriminate|]. injection HN as <-.
  destruct k as [|k].
  - destruct (HM (w_asked (s_world s))) as [r [h' [n' [E HX]]]]. cbn [first_refused] in HX. destruct HX as [-> [a [-> [y [-> [Vy Hy]]]]]].
    unfold after. cbn [first_refused]. unfold finish. destruct s as [e [h n]]. cbn [s_world w_asked s_env w_heap] in *. rewrite E. cbn [obind].
    do 2 eexists. split; [reflexivity|]. eexists. split; [reflexivity|]. split; [reflexivity|]. exists ((x, y) :: T). split; [split|].
    + cbn [machine_of env s_env fenv map fst snd]. reflexivity.
    + exact Hy.
    + cbn [fstore map fst snd]. now rewrite Vy.
  - eapply finish_ok; [exact HM| |].
    + intros a h n [y [-> [Vy Hy]]]. exists ((x, y) :: T). split; [split|].
      * cbn [machine_of env s_env fenv map fst snd]. reflexivity.
      * exact Hy.
      * cbn [fstore map fst snd]. now rewrite Vy.
    + intros h n Hh. exists T. split; [split|].
      * cbn [machine_of env s_env]. exact HE.
      * apply Hh. discriminate.
      * rewrite HS. apply HK. discriminate.
Qed.

Theorem step_does_ok S st S2 : effect rest S st = Some S2 -> step_does S st S2.
Proof.
  intros HE. unfold step_does. destruct st as [x t o g|x name o g|x arg|p [q|q]|p arg|p arg|p grow arg|p m|p c|p fl|x]; cbn [effect try_step statement_needs unchanged] in *.
  - exists 0. intros f s _ [T [HI HS]].
    eapply (try_declare_ok S x (rule_of_tag t o g) S2 S s T); [exact HE|exact (proj1 HI)|exact HS| |congruence].
    unfold try_new_tag. destruct (alloc (w_heap (s_world s)) (CRule (mk_members None None [] [] [] t o g None))) as [a h1] eqn:E1.
    apply does_quiet with (x := a) (h' := h1); [now rewrite E1|]. exists (ANode a None None [] [] [] t o g None). split; [reflexivity|]. split; [reflexivity|].
    exact (alloc_ok _ _ _ _ _ (proj2 HI) E1).
  - exists 0. intros f s _ [T [HI HS]].
    eapply (try_declare_ok S x (rule_of_name name o g) S2 S s T); [exact HE|exact (proj1 HI)|exact HS| |congruence].
    eapply does_weaken; [apply (try_new_name_ok (w_heap (s_world s)) (fcells T) name o g); exact (proj2 HI)|reflexivity| |auto].
    intros a h' H'. eexists. split; [|split; [|exact H']]; reflexivity.
  - destruct (argument_value rest S arg) as [[v S1]|] eqn:HA; [|discriminate]. exists (1 + store_depth S). intros f s Hf [T [HI HS]].
    destruct (try_argument_ok S arg v S1 HA f s T ltac:(lia) HI HS) as [mx [T1 [E1 [HS1 [HE1 [_ HM]]]]]]. rewrite E1.
    eapply (try_declare_ok S x v S2 S1 s T1); [exact HE|rewrite HE1; exact (proj1 HI)|exact HS1| |].
    + eapply does_weaken; [exact HM|reflexivity| |auto]. auto.
    + destruct arg as [q|q]; cbn [argument_value argument_needs] in *; [|congruence]. destruct (value_at S q); [|discriminate]. congruence.
  - destruct (value_at S q) as [v|] eqn:Ev; [|discriminate]. exists (1 + store_depth S). intros f s Hf [T [HI HS]].
    pose proof (depth_at _ _ _ Ev) as HDv. unfold update_at in HE. destruct (value_at S p) as [w|] eqn:Ew; [|discriminate]. injection HE as <-.
    pose proof (depth_at _ _ _ Ew) as HDw. cbn [argument_needs]. rewrite Ev.
    rewrite <- HS, fget_value in Ev, Ew. destruct (fget T q) as [u|] eqn:Eu; [|discriminate]. injection Ev as <-.
    destruct (fget T p) as [t|] eqn:Et; [|discriminate]. injection Ew as <-.
    rewrite (locate_ok (machine_of s) T q u HI Eu). unfold try_call. rewrite (locate_ok (machine_of s) T p t HI Et). cbn [obind].
    destruct (forest_frame T p t Et) as [F HF]. pose proof (HF t eq_refl) as HF0. rewrite (fset_same _ _ _ Et) in HF0.
    destruct (forest_frame T q u Eu) as [G HG]. specialize (HG u eq_refl). rewrite (fset_same _ _ _ Eu) in HG.
    eapply finish_ok; [apply (try_copy_assign_ok f (w_heap (s_world s)) t u F G)| |].
    + eapply heap_is_perm; [exact (proj2 HI)|exact HF0].
    + now rewrite <- HF0.
    + lia.
    + lia.
    + intros _ h n [z [Hz [Rz Vz]]]. exists (fset T p z). split; [split|].
      * cbn [machine_of env s_env]. rewrite (fset_env T p t z Et Rz). exact (proj1 HI).
      * cbn [machine_of mem s_world w_heap]. eapply heap_is_perm; [exact Hz|]. now rewrite (HF z Rz).
      * now rewrite fset_value, Vz, HS.
    + intros h n Hh. exists T. split; [split|]; [exact (proj1 HI)| |exact HS]. cbn [machine_of mem s_world w_heap]. eapply heap_is_perm; [exact Hh|]. now symmetry.
  - destruct (related p q) eqn:HR; [discriminate|]. cbn [argument_value argument_needs] in *.
    destruct (value_at S q) as [v|] eqn:Ev; [|discriminate]. unfold update_at in HE.
    destruct (value_at (set_value S q (emptied rest v)) p) as [w|] eqn:Ew; [|discriminate]. injection HE as <-.
    exists (1 + store_depth S). intros f s Hf [T [HI HS]].
    rewrite <- HS, fget_value in Ev. destruct (fget T q) as [u|] eqn:Eu; [|discriminate]. injection Ev as <-.
    rewrite <- HS, <- value_ahollow, <- fset_value, fget_value in Ew. rewrite (fget_other T p q _ u HR Eu) in Ew.
    destruct (fget T p) as [t|] eqn:Et; [|discriminate]. injection Ew as <-.
    assert (HD : vdepth (value t) <= store_depth S). { apply depth_at with p. rewrite <- HS, fget_value, Et. reflexivity. }
    rewrite (locate_ok (machine_of s) T q u HI Eu). unfold try_call. rewrite (locate_ok (machine_of s) T p t HI Et). cbn [obind].
    destruct (two_places_frame T p q t u HR Et Eu) as [F HF]. pose proof (HF t u eq_refl eq_refl) as HF0.
    rewrite (fset_same _ _ _ Eu), (fset_same _ _ _ Et) in HF0.
    destruct (move_assign_ok rest f (w_heap (s_world s)) t u F) as [h1 [E1 H1]]; [eapply heap_is_perm; [exact (proj2 HI)|exact HF0]|lia|].
    eapply finish_ok with (R := fun _ => False) (Q := fun _ h' => h' = h1); [apply does_quietly with (1 := E1); reflexivity| |intros h n []].
    intros _ h n ->. exists (fset (fset T q (ahollow rest u)) p (reroot u (root t))). split; [split|].
    + cbn [machine_of env s_env]. rewrite (fset_env _ p t); [|now rewrite (fget_other T p q _ u HR Eu)|apply root_reroot].
      rewrite (fset_env T q u _ Eu (root_ahollow rest u)). exact (proj1 HI).
    + cbn [machine_of mem s_world w_heap]. eapply heap_is_perm; [exact H1|]. rewrite HF; [reflexivity|apply root_reroot|apply root_ahollow].
    + now rewrite !fset_value, value_reroot, value_ahollow, HS.
  - destruct (argument_value rest S arg) as [[v S1]|] eqn:HA; [|discriminate].
    apply (try_call_with_ok S arg v S1 p append_child S2 1 (try_append_child rest grants) HA HE). intros f h x y G H Hx Hy _. now apply try_append_child_ok.
  - destruct (argument_value rest S arg) as [[v S1]|] eqn:HA; [|discriminate].
    apply (try_call_with_ok S arg v S1 p append_next S2 1 (try_append_next rest grants) HA HE). intros f h x y G H Hx Hy _.
    eapply does_weaken; [eapply try_append_next_ok; [exact H|exact Hx]|reflexivity|auto|]. intros h' H'. exists y. auto.
  - destruct (argument_value rest S arg) as [[v S1]|] eqn:HA; [|discriminate].
    apply (try_call_with_ok S arg v S1 p append_nested S2 (one_if grow) (fun f => try_append_nested rest grants f grow) HA HE). intros f h x y G H Hx Hy Hf.
    eapply does_weaken; [eapply try_append_nested_ok; [exact H|exact Hf]|reflexivity|auto|]. intros h' H'. exists y. auto.
  - exists 0. intros f s _ HS. apply (try_call_ok S p (fun w => append_match w m) S2); [exact HE| |exact HS]. intros h x G H. now apply try_append_match_ok.
  - exists 0. intros f s _ HS. apply (try_call_ok S p (fun w => append_capture w c) S2); [exact HE| |exact HS]. intros h x G H. now apply try_append_capture_ok.
  - exists 0. intros f s _ HS. replace (deadly (SetFlag p fl)) with alive_still by reflexivity.
    apply (try_call_ok S p (flag_set fl) S2); [exact HE| |exact HS]. intros h x G H. now apply try_set_ok.
  - destruct (var_get S x) as [r|] eqn:Ex; [|discriminate]. injection HE as <-. exists (1 + store_depth S). intros f s Hf [T [HI HS]].
    pose proof (var_depth _ _ _ Ex) as HD. rewrite <- HS in Ex. unfold fstore in Ex. rewrite (var_get_map value) in Ex.
    destruct (var_get T x) as [t|] eqn:Et; [|discriminate]. injection Ex as <-. pose proof (proj1 HI) as HIe. cbn [machine_of env] in HIe. rewrite HIe. unfold fenv at 1. rewrite (var_get_map root), Et. cbn [option_map].
    destruct (destroy_ok t f) with (h := w_heap (s_world s)) (F := fcells (var_del T x)) as [h1 [E1 H1]]; [lia|eapply heap_is_perm; [exact (proj2 HI)|now apply var_del_cells]|].
    eapply finish_ok with (R := fun _ => False) (Q := fun _ h' => h' = h1); [apply does_quietly with (1 := E1); reflexivity| |intros h n []].
    intros _ h n ->. exists (var_del T x). split; [split|].
    + cbn [machine_of env s_env]. now rewrite var_del_env.
    + exact H1.
    + now rewrite var_del_store, HS.
Qed.

(** ** Programs *)

Theorem try_run_ok p : forall n S x, expect rest grants n S p = Some x ->
  exists f0, forall f s, f0 <= f -> holds S s -> w_asked (s_world s) = n ->
  exists e, try_run rest grants f s p = Some (Ok e) /\ ends_as e x.
Proof.
  induction p as [|st done IHd failed IHf]; intros n S x H; cbn [expect try_run] in *.
  - injection H as <-. exists 0. intros f s _ [T [HI HS]] Hn. eexists. split; [reflexivity|]. split; [|exact Hn]. rewrite <- HS. now apply inv_sound.
  - destruct (effect rest S st) as [S2|] eqn:E; [|discriminate]. destruct (step_does_ok S st S2 E) as [f1 H1].
    destruct (refused n (statement_needs S st)) as [j|] eqn:ER.
    + destruct (deadly st (j - n)) eqn:ED.
      * injection H as <-. exists f1. intros f s Hf Hs Hn. destruct (H1 f s Hf Hs) as [r [s' [E1 HX]]]. rewrite Hn, ER, ED in HX. subst r. rewrite E1.
        exists Dead. split; [reflexivity|exact I].
      * destruct (IHf _ _ _ H) as [f2 H2]. exists (f1 + f2). intros f s Hf Hs Hn. destruct (H1 f s ltac:(lia) Hs) as [r [s' [E1 HX]]].
        rewrite Hn, ER, ED in HX. destruct HX as [-> [HN HX]]. rewrite E1. apply H2; [lia|exact HX|exact HN].
    + destruct (IHd _ _ _ H) as [f2 H2]. exists (f1 + f2). intros f s Hf Hs Hn. destruct (H1 f s ltac:(lia) Hs) as [r [s' [E1 HX]]].
      rewrite Hn, ER in HX. destruct HX as [y [-> [HN HX]]]. rewrite E1. apply H2; [lia|exact HX|exact HN].
Qed.

Theorem try_programs p x : expect rest grants 0 [] p = Some x ->
  exists f0, forall f, f0 <= f -> exists e, try_run rest grants f beginning p = Some (Ok e) /\ ends_as e x.
Proof.
  intros H. destruct (try_run_ok p 0 [] x H) as [f0 H0]. exists f0. intros f Hf. apply H0; [exact Hf| |reflexivity].
  exists []. split; [|reflexivity]. split; [reflexivity|]. split; [reflexivity|]. unfold whole. reflexivity.
Qed.

End NoMemory.

(** At the end of all variables nothing is left. *)
Theorem try_programs_end rest grants p n : expect rest grants 0 [] p = Some (Values [] n) ->
  exists f0, forall f, f0 <= f -> exists s, try_run rest grants f beginning p = Some (Ok (Ended s)) /\
    h_cells (w_heap (s_world s)) = [] /\
    Permutation (h_freed (w_heap (s_world s))) (seq 0 (h_fresh (w_heap (s_world s)))).
Proof.
  intros H. destruct (try_programs rest grants p _ H) as [f0 H0]. exists f0. intros f Hf. destruct (H0 f Hf) as [[s|] [E HE]]; [|destruct HE].
  destruct HE as [[[fps [HV HP]] HW] _]. exists s. split; [exact E|]. inversion HV; subst. apply Permutation_nil in HP. unfold alive in *.
  cbn [machine_of mem] in *. apply map_eq_nil in HP. rewrite HP in *. split; [reflexivity|]. cbn [map] in HW. now rewrite app_nil_r in HW.
Qed.

(** The process ends only in [Rule x(name)]. *)
Lemma first_refused_range grants k : forall n j, first_refused grants n k = Some j -> n <= j < n + k.
Proof. exact (refused_range grants k). Qed.

Lemma deadly_name S st grants n j : first_refused grants n (statement_needs S st) = Some j -> deadly st (j - n) = true ->
  exists x name o g, st = NewName x name o g /\ unknown_name name = true /\ 15 < length name.
Proof.
  intros HR HD. destruct st as [|x name o g| | | | | | | | |]; cbn [deadly] in HD; try discriminate. apply Nat.eqb_eq in HD.
  apply first_refused_range in HR. cbn [statement_needs] in HR. exists x, name, o, g. split; [reflexivity|]. unfold text_needs in HR.
  destruct (unknown_name name); [split; [reflexivity|]|]; destruct (Nat.leb 16 (length name)) eqn:EL; cbn [one_if] in HR; try lia.
  apply Nat.leb_le in EL. lia.
Qed.

Theorem death_needs_name rest grants p : forall n S, expect rest grants n S p = Some Death ->
  exists x name o g, tries p (NewName x name o g) /\ unknown_name name = true /\ 15 < length name.
Proof.
  induction p as [|st done IHd failed IHf]; intros n S H; cbn [expect] in H; [discriminate|].
  destruct (effect rest S st) as [S2|]; [|discriminate].
  destruct (first_refused grants n (statement_needs S st)) as [j|] eqn:ER.
  - destruct (deadly st (j - n)) eqn:ED.
    + destruct (deadly_name S st grants n j ER ED) as [x [name [o [g [-> HX]]]]]. exists x, name, o, g. split; [now left|exact HX].
    + destruct (IHf _ _ H) as [x [name [o [g [HT HX]]]]]. exists x, name, o, g. split; [right; now right|exact HX].
  - destruct (IHd _ _ H) as [x [name [o [g [HT HX]]]]]. exists x, name, o, g. split; [right; now left|exact HX].
Qed.

(** ... and then always. *)
Theorem name_dies rest grants x name o g done failed : unknown_name name = true -> 15 < length name ->
  grants 0 = true -> grants 1 = false ->
  exists f0, forall f, f0 <= f -> try_run rest grants f beginning (Try (NewName x name o g) done failed) = Some (Ok Dead).
Proof.
  intros HU HL G0 G1. destruct (try_programs rest grants (Try (NewName x name o g) done failed) Death) as [f0 H0].
  - cbn [expect effect new_variable var_get statement_needs]. rewrite HU. unfold text_needs.
    replace (Nat.leb 16 (length name)) with true by (symmetry; apply Nat.leb_le; lia). cbn [one_if Nat.add first_refused]. now rewrite G0, G1.
  - exists f0. intros f Hf. destruct (H0 f Hf) as [[s|] [E HE]]; [destruct HE|exact E].
Qed.
