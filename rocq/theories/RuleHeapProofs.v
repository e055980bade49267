(** Proofs about the memory of rules: every operation turns a description of
    the cells into another one, whatever other cells there are. *)

From Coq Require Import Ascii String NArith ZArith Bool List Permutation Lia.
From Verif Require Import Base Tags Values Match Rule RuleProofs RuleMatching RuleHeap RuleHeapSpec PermTac.
Import ListNotations.
Open Scope outcome_scope.

(** ** Rules with addresses *)

Inductive atree : Type :=
| ANode (a : addr) (c n : option atree) (l : list atree)
        (ms : list (option (addr * mtch))) (cs : list (option (addr * capture)))
        (t : tag) (o g : bool) (name : option str).

Definition root (x : atree) : addr := let (a, _, _, _, _, _, _, _, _, _) := x in a.

Section Ind.
Variable P : atree -> Prop.
Hypothesis H : forall a c n l ms cs t o g name,
  (forall x, c = Some x -> P x) -> (forall x, n = Some x -> P x) -> Forall P l -> P (ANode a c n l ms cs t o g name).
Fixpoint atree_ind2 (x : atree) : P x.
Proof.
  destruct x as [a c n l ms cs t o g name]. apply H.
  - destruct c as [c|]; intros x Hx; [injection Hx as <-; apply atree_ind2|discriminate].
  - destruct n as [n|]; intros x Hx; [injection Hx as <-; apply atree_ind2|discriminate].
  - induction l as [|x l IH]; constructor; [apply atree_ind2|exact IH].
Qed.
End Ind.

Definition members_of (x : atree) : members :=
  match x with
  | ANode a c n l ms cs t o g name =>
      mk_members (option_map root c) (option_map root n) (map root l)
        (map (option_map fst) ms) (map (option_map fst) cs) t o g name
  end.

Definition match_cells (ms : list (option (addr * mtch))) : list (addr * cell) :=
  flat_map (fun x => match x with Some (b, m) => [(b, CMatch m)] | None => [] end) ms.
Definition capture_cells (cs : list (option (addr * capture))) : list (addr * cell) :=
  flat_map (fun x => match x with Some (b, c) => [(b, CCapture c)] | None => [] end) cs.

Definition opt_list {A B} (f : A -> list B) (o : option A) : list B := match o with Some x => f x | None => [] end.

Fixpoint below (x : atree) : list (addr * cell) :=
  match x with
  | ANode a c n l ms cs t o g name =>
      match c with Some c' => (root c', CRule (members_of c')) :: below c' | None => [] end ++
      match n with Some n' => (root n', CRule (members_of n')) :: below n' | None => [] end ++
      flat_map (fun x' => (root x', CRule (members_of x')) :: below x') l ++
      match_cells ms ++ capture_cells cs
  end.
Definition acells (x : atree) : list (addr * cell) := (root x, CRule (members_of x)) :: below x.

Lemma below_eq a c n l ms cs t o g name :
  below (ANode a c n l ms cs t o g name) =
  opt_list acells c ++ opt_list acells n ++ flat_map acells l ++ match_cells ms ++ capture_cells cs.
Proof. destruct c, n; reflexivity. Qed.

Lemma acells_eq a c n l ms cs t o g name :
  acells (ANode a c n l ms cs t o g name) =
  (a, CRule (members_of (ANode a c n l ms cs t o g name))) ::
  opt_list acells c ++ opt_list acells n ++ flat_map acells l ++ match_cells ms ++ capture_cells cs.
Proof. unfold acells at 1. now rewrite below_eq. Qed.

Fixpoint value (x : atree) : rule :=
  match x with
  | ANode a c n l ms cs t o g name =>
      mk_rule (match c with Some c' => Some (value c') | None => None end)
              (match n with Some n' => Some (value n') | None => None end)
              (map value l) (map (option_map snd) ms) (map (option_map snd) cs) t o g name
  end.

Lemma value_eq a c n l ms cs t o g name :
  value (ANode a c n l ms cs t o g name) =
  mk_rule (option_map value c) (option_map value n) (map value l) (map (option_map snd) ms) (map (option_map snd) cs) t o g name.
Proof. destruct c, n; reflexivity. Qed.

(** ** The cells of a heap *)

Definition whole (h : heap) : Prop := Permutation (h_freed h ++ alive h) (seq 0 (h_fresh h)).

Definition heap_is (h : heap) (L : list (addr * cell)) : Prop := Permutation (h_cells h) L /\ whole h.

Lemma heap_is_perm h L L' : heap_is h L -> Permutation L L' -> heap_is h L'.
Proof. intros [H1 H2] H. split; [now rewrite H1|exact H2]. Qed.

Lemma alive_nodup h : whole h -> NoDup (map fst (h_cells h)).
Proof.
  intros H. assert (HN : NoDup (h_freed h ++ alive h)) by (eapply Permutation_NoDup; [symmetry; exact H|apply seq_NoDup]).
  clear H. unfold alive in *. induction (h_freed h) as [|x l IH]; [exact HN|]. apply IH. now inversion HN.
Qed.

Lemma cell_get_in l a c : NoDup (map fst l) -> In (a, c) l -> cell_get l a = Some c.
Proof.
  induction l as [|[b d] l IH]; intros HN H; [destruct H|]. cbn [map fst] in HN. inversion HN as [|? ? HX HN' E1]; subst.
  cbn [cell_get]. destruct H as [H|H].
  - injection H as -> ->. now rewrite Nat.eqb_refl.
  - destruct (Nat.eqb_spec a b) as [->|]; [|now apply IH]. exfalso. apply HX. now apply (in_map fst) in H.
Qed.

Lemma get_cell h L a c : heap_is h L -> In (a, c) L -> cell_get (h_cells h) a = Some c.
Proof.
  intros [H1 H2] H. apply cell_get_in; [now apply alive_nodup|]. eapply Permutation_in; [symmetry; exact H1|exact H].
Qed.

Lemma read_ok h L a m : heap_is h L -> In (a, CRule m) L -> read_rule h a = Ok m.
Proof. intros H Hin. unfold read_rule. now rewrite (get_cell _ _ _ _ H Hin). Qed.

Lemma cell_split (l : list (addr * cell)) a c : In (a, c) l -> NoDup (map fst l) ->
  exists l1 l2, l = l1 ++ (a, c) :: l2 /\ ~ In a (map fst l1).
Proof.
  intros H HN. apply in_split in H as [l1 [l2 ->]]. exists l1, l2. split; [reflexivity|]. intros Hin.
  rewrite map_app in HN. cbn [map fst] in HN. apply NoDup_remove_2 in HN. apply HN. apply in_or_app. now left.
Qed.

Lemma cell_set_split l1 a c l2 d : ~ In a (map fst l1) -> cell_set (l1 ++ (a, c) :: l2) a d = l1 ++ (a, d) :: l2.
Proof.
  induction l1 as [|[b e] l1 IH]; intros H; cbn [app cell_set]; [now rewrite Nat.eqb_refl|].
  destruct (Nat.eqb_spec a b) as [->|]; [exfalso; apply H; now left|]. rewrite IH; [reflexivity|]. intros Hin. apply H. now right.
Qed.

Lemma cell_del_split l1 a c l2 : ~ In a (map fst l1) -> cell_del (l1 ++ (a, c) :: l2) a = l1 ++ l2.
Proof.
  induction l1 as [|[b e] l1 IH]; intros H; cbn [app cell_del]; [now rewrite Nat.eqb_refl|].
  destruct (Nat.eqb_spec a b) as [->|]; [exfalso; apply H; now left|]. rewrite IH; [reflexivity|]. intros Hin. apply H. now right.
Qed.

Lemma write_ok h L a m m' : heap_is h ((a, CRule m) :: L) ->
  exists h', write_rule h a m' = Ok h' /\ heap_is h' ((a, CRule m') :: L).
Proof.
  intros H. pose proof H as [H1 H2]. unfold write_rule. rewrite (get_cell _ _ a (CRule m) H) by now left.
  assert (Hin : In (a, CRule m) (h_cells h)) by (eapply Permutation_in; [symmetry; exact H1|now left]).
  destruct (cell_split _ _ _ Hin (alive_nodup h H2)) as [l1 [l2 [E HX]]].
  eexists. split; [reflexivity|]. rewrite E, cell_set_split by exact HX. split; cbn [h_cells].
  - rewrite E in H1. etransitivity; [|apply perm_skip]; [|reflexivity].
    assert (HP : Permutation (l1 ++ l2) L).
    { apply (Permutation_cons_inv (a := (a, CRule m))). now rewrite Permutation_middle. }
    rewrite <- HP. symmetry. apply Permutation_middle.
  - unfold whole, alive in *. cbn [h_cells h_freed h_fresh]. rewrite E in H2. rewrite map_app in *. exact H2.
Qed.

Lemma release_ok h L a c : heap_is h ((a, c) :: L) -> exists h', release h a = Ok h' /\ heap_is h' L.
Proof.
  intros H. pose proof H as [H1 H2]. unfold release. rewrite (get_cell _ _ a c H) by now left.
  assert (Hin : In (a, c) (h_cells h)) by (eapply Permutation_in; [symmetry; exact H1|now left]).
  destruct (cell_split _ _ _ Hin (alive_nodup h H2)) as [l1 [l2 [E HX]]].
  eexists. split; [reflexivity|]. rewrite E, cell_del_split by exact HX. split; cbn [h_cells].
  - rewrite E in H1. apply (Permutation_cons_inv (a := (a, c))). now rewrite Permutation_middle.
  - unfold whole, alive in *. cbn [h_cells h_freed h_fresh]. rewrite <- H2, E. rewrite !map_app. cbn [map fst]. perm.
Qed.

Lemma alloc_ok h L c a h' : heap_is h L -> alloc h c = (a, h') -> heap_is h' ((a, c) :: L).
Proof.
  intros [H1 H2] E. unfold alloc in E. injection E as <- <-. split; cbn [h_cells]; [now apply perm_skip|].
  unfold whole, alive in *. cbn [h_cells h_freed h_fresh map fst]. rewrite seq_S, <- H2. cbn [Nat.add]. perm.
Qed.

Lemma change_ok h L a m f : heap_is h ((a, CRule m) :: L) ->
  exists h', change h a f = Ok h' /\ heap_is h' ((a, CRule (f m)) :: L).
Proof. intros H. unfold change. rewrite (read_ok _ _ a m H) by now left. cbn [obind]. now apply write_ok with m. Qed.

(** ** Destruction *)

Definition opt_max (f : rule -> nat) (o : option rule) : nat := match o with Some x => f x | None => 0 end.
Fixpoint vdepth (r : rule) : nat :=
  match r with
  | mk_rule c n l _ _ _ _ _ _ =>
      S (Nat.max (match c with Some x => vdepth x | None => 0 end)
        (Nat.max (match n with Some x => vdepth x | None => 0 end) (list_max (map vdepth l))))
  end.
Lemma vdepth_eq c n l ms cs t o g name : vdepth (mk_rule c n l ms cs t o g name) =
  S (Nat.max (opt_max vdepth c) (Nat.max (opt_max vdepth n) (list_max (map vdepth l)))).
Proof. destruct c, n; reflexivity. Qed.

Lemma release_matches ms : forall h F, heap_is h (match_cells ms ++ F) ->
  exists h', each (if_any release) h (map (option_map fst) ms) = Ok h' /\ heap_is h' F.
Proof.
  induction ms as [|[[b m]|] ms IH]; intros h F H; cbn [map option_map each if_any obind fst].
  - exists h. split; [reflexivity|exact H].
  - destruct (release_ok h (match_cells ms ++ F) b (CMatch m)) as [h1 [E1 H1]]; [exact H|]. rewrite E1. cbn [obind]. now apply IH.
  - apply IH. exact H.
Qed.

Lemma release_captures cs : forall h F, heap_is h (capture_cells cs ++ F) ->
  exists h', each (if_any release) h (map (option_map fst) cs) = Ok h' /\ heap_is h' F.
Proof.
  induction cs as [|[[b m]|] cs IH]; intros h F H; cbn [map option_map each if_any obind fst].
  - exists h. split; [reflexivity|exact H].
  - destruct (release_ok h (capture_cells cs ++ F) b (CCapture m)) as [h1 [E1 H1]]; [exact H|]. rewrite E1. cbn [obind]. now apply IH.
  - apply IH. exact H.
Qed.

Definition destroy_works f (x : atree) : Prop :=
  forall h F, heap_is h (acells x ++ F) -> exists h', destroy f h (root x) = Ok h' /\ heap_is h' F.

Lemma destroy_each f l : (forall x, In x l -> destroy_works f x) ->
  forall h F, heap_is h (flat_map acells l ++ F) -> exists h', each (destroy f) h (map root l) = Ok h' /\ heap_is h' F.
Proof.
  induction l as [|x l IH]; intros HW h F H; cbn [map each].
  - exists h. split; [reflexivity|exact H].
  - destruct (HW x (or_introl eq_refl) h (flat_map acells l ++ F)) as [h1 [E1 H1]].
    { eapply heap_is_perm; [exact H|]. cbn [flat_map]. perm. }
    rewrite E1. cbn [obind]. apply IH; [|exact H1]. intros y Hy. apply HW. now right.
Qed.

Lemma destroy_any f o : (forall x, o = Some x -> destroy_works f x) ->
  forall h F, heap_is h (opt_list acells o ++ F) -> exists h', if_any (destroy f) h (option_map root o) = Ok h' /\ heap_is h' F.
Proof.
  intros HW h F H. destruct o as [x|]; cbn [option_map if_any opt_list] in *; [now apply HW|]. exists h. split; [reflexivity|exact H].
Qed.

Lemma depth_nested l x f : In x l -> list_max (map vdepth (map value l)) < f -> vdepth (value x) < f.
Proof.
  intros H HL. assert (HM : vdepth (value x) <= list_max (map vdepth (map value l))); [|lia].
  assert (HA : list_max (map vdepth (map value l)) <= list_max (map vdepth (map value l))) by lia.
  apply list_max_le in HA. rewrite Forall_forall in HA. apply HA. apply in_map, in_map. exact H.
Qed.

Lemma destroy_ok x : forall f, vdepth (value x) < f -> destroy_works f x.
Proof.
  induction x as [a c n l ms cs t o g name IHc IHn IHl] using atree_ind2. intros f Hf h F H.
  rewrite value_eq, vdepth_eq in Hf. destruct f as [|f]; [lia|].
  assert (HWc : forall x, c = Some x -> destroy_works f x).
  { intros x ->. apply IHc; [reflexivity|]. cbn [option_map opt_max] in Hf. lia. }
  assert (HWn : forall x, n = Some x -> destroy_works f x).
  { intros x ->. apply IHn; [reflexivity|]. cbn [option_map opt_max] in Hf. lia. }
  assert (HWl : forall x, In x l -> destroy_works f x).
  { rewrite Forall_forall in IHl. intros x Hx. apply IHl; [exact Hx|]. apply depth_nested with l; [exact Hx|lia]. }
  rewrite acells_eq in H. cbn [root destroy].
  set (m := members_of _) in *.
  rewrite (read_ok _ _ a m H) by (now left). cbn [obind]. subst m. cbn [members_of o_captures o_matches o_nested o_next o_child].
  cbn [members_of] in H. set (r := (a, CRule (mk_members (option_map root c) (option_map root n) (map root l) (map (option_map fst) ms) (map (option_map fst) cs) t o g name))) in *.
  destruct (release_captures cs h (r :: opt_list acells c ++ opt_list acells n ++ flat_map acells l ++ match_cells ms ++ F)) as [h1 [E1 H1]].
  { eapply heap_is_perm; [exact H|]. fold r. perm. }
  rewrite E1. cbn [obind].
  destruct (release_matches ms h1 (r :: opt_list acells c ++ opt_list acells n ++ flat_map acells l ++ F)) as [h2 [E2 H2]].
  { eapply heap_is_perm; [exact H1|]. perm. }
  rewrite E2. cbn [obind].
  destruct (destroy_each f l HWl h2 (r :: opt_list acells c ++ opt_list acells n ++ F)) as [h3 [E3 H3]].
  { eapply heap_is_perm; [exact H2|]. perm. }
  rewrite E3. cbn [obind].
  destruct (destroy_any f n HWn h3 (r :: opt_list acells c ++ F)) as [h4 [E4 H4]].
  { eapply heap_is_perm; [exact H3|]. perm. }
  rewrite E4. cbn [obind].
  destruct (destroy_any f c HWc h4 (r :: F)) as [h5 [E5 H5]].
  { eapply heap_is_perm; [exact H4|]. perm. }
  rewrite E5. cbn [obind]. eapply release_ok. exact H5.
Qed.

(** ** Copies *)

Definition copy_works f (x : atree) : Prop :=
  forall h F, heap_is h (acells x ++ F) ->
  exists y h', copy_rule f h (root x) = Ok (root y, h') /\ heap_is h' (acells y ++ acells x ++ F) /\ value y = value x.

Lemma copy_each f l : (forall x, In x l -> copy_works f x) ->
  forall h F, heap_is h (flat_map acells l ++ F) ->
  exists l' h', make_each (copy_rule f) h (map root l) = Ok (map root l', h') /\
    heap_is h' (flat_map acells l' ++ flat_map acells l ++ F) /\ map value l' = map value l.
Proof.
  induction l as [|x l IH]; intros HW h F H; cbn [map make_each].
  - exists [], h. split; [reflexivity|]. split; [exact H|reflexivity].
  - destruct (HW x (or_introl eq_refl) h (flat_map acells l ++ F)) as [y [h1 [E1 [H1 V1]]]].
    { eapply heap_is_perm; [exact H|]. cbn [flat_map]. perm. }
    rewrite E1. cbn [obind].
    destruct (IH (fun x' Hx' => HW x' (or_intror Hx')) h1 (acells y ++ acells x ++ F)) as [l' [h2 [E2 [H2 V2]]]].
    { eapply heap_is_perm; [exact H1|]. perm. }
    rewrite E2. cbn [obind]. exists (y :: l'), h2. split; [reflexivity|]. split.
    + eapply heap_is_perm; [exact H2|]. cbn [flat_map]. perm.
    + cbn [map]. now rewrite V1, V2.
Qed.

Lemma copy_any f o : (forall x, o = Some x -> copy_works f x) ->
  forall h F, heap_is h (opt_list acells o ++ F) ->
  exists o' h', make_any (copy_rule f) h (option_map root o) = Ok (option_map root o', h') /\
    heap_is h' (opt_list acells o' ++ opt_list acells o ++ F) /\ option_map value o' = option_map value o.
Proof.
  intros HW h F H. destruct o as [x|]; cbn [option_map make_any opt_list] in *.
  - destruct (HW x eq_refl h F H) as [y [h1 [E1 [H1 V1]]]]. rewrite E1. cbn [obind]. exists (Some y), h1.
    split; [reflexivity|]. split; [exact H1|]. cbn [option_map]. now rewrite V1.
  - exists None, h. split; [reflexivity|]. split; [exact H|reflexivity].
Qed.

Lemma copy_matches ms : forall h F, heap_is h (match_cells ms ++ F) ->
  exists ms' h', make_each_any clone_match h (map (option_map fst) ms) = Ok (map (option_map fst) ms', h') /\
    heap_is h' (match_cells ms' ++ match_cells ms ++ F) /\ map (option_map snd) ms' = map (option_map snd) ms.
Proof.
  induction ms as [|[[b m]|] ms IH]; intros h F H; cbn [map option_map make_each_any make_any fst].
  - exists [], h. split; [reflexivity|]. split; [exact H|reflexivity].
  - unfold clone_match at 1. rewrite (get_cell h _ b (CMatch m) H) by (now left).
    destruct (alloc h (CMatch (mtch_clone m))) as [b' h1] eqn:E1. pose proof (alloc_ok _ _ _ _ _ H E1) as H1.
    cbn [obind]. destruct (IH h1 ((b', CMatch (mtch_clone m)) :: (b, CMatch m) :: F)) as [ms' [h2 [E2 [H2 V2]]]].
    { eapply heap_is_perm; [exact H1|]. unfold match_cells. cbn [flat_map]. perm. }
    rewrite E2. cbn [obind]. exists (Some (b', m) :: ms'), h2. split; [reflexivity|]. split.
    + eapply heap_is_perm; [exact H2|]. rewrite mtch_clone_id. unfold match_cells. cbn [flat_map]. perm.
    + cbn [map option_map snd]. now rewrite V2.
  - cbn [obind]. destruct (IH h F H) as [ms' [h2 [E2 [H2 V2]]]]. rewrite E2. cbn [obind].
    exists (None :: ms'), h2. split; [reflexivity|]. split; [exact H2|]. cbn [map option_map]. now rewrite V2.
Qed.

Lemma copy_captures cs : forall h F, heap_is h (capture_cells cs ++ F) ->
  exists cs' h', make_each_any clone_capture h (map (option_map fst) cs) = Ok (map (option_map fst) cs', h') /\
    heap_is h' (capture_cells cs' ++ capture_cells cs ++ F) /\ map (option_map snd) cs' = map (option_map snd) cs.
Proof.
  induction cs as [|[[b m]|] cs IH]; intros h F H; cbn [map option_map make_each_any make_any fst].
  - exists [], h. split; [reflexivity|]. split; [exact H|reflexivity].
  - unfold clone_capture at 1. rewrite (get_cell h _ b (CCapture m) H) by (now left).
    destruct (alloc h (CCapture (capture_clone m))) as [b' h1] eqn:E1. pose proof (alloc_ok _ _ _ _ _ H E1) as H1.
    cbn [obind]. destruct (IH h1 ((b', CCapture (capture_clone m)) :: (b, CCapture m) :: F)) as [cs' [h2 [E2 [H2 V2]]]].
    { eapply heap_is_perm; [exact H1|]. unfold capture_cells. cbn [flat_map]. perm. }
    rewrite E2. cbn [obind]. exists (Some (b', m) :: cs'), h2. split; [reflexivity|]. split.
    + eapply heap_is_perm; [exact H2|]. rewrite capture_clone_id. unfold capture_cells. cbn [flat_map]. perm.
    + cbn [map option_map snd]. now rewrite V2.
  - cbn [obind]. destruct (IH h F H) as [cs' [h2 [E2 [H2 V2]]]]. rewrite E2. cbn [obind].
    exists (None :: cs'), h2. split; [reflexivity|]. split; [exact H2|]. cbn [map option_map]. now rewrite V2.
Qed.

Lemma copy_ok x : forall f, vdepth (value x) < f -> copy_works f x.
Proof.
  induction x as [a c n l ms cs t o g name IHc IHn IHl] using atree_ind2. intros f Hf h F H.
  rewrite value_eq, vdepth_eq in Hf. destruct f as [|f]; [lia|].
  assert (HWc : forall x, c = Some x -> copy_works f x).
  { intros x ->. apply IHc; [reflexivity|]. cbn [option_map opt_max] in Hf. lia. }
  assert (HWn : forall x, n = Some x -> copy_works f x).
  { intros x ->. apply IHn; [reflexivity|]. cbn [option_map opt_max] in Hf. lia. }
  assert (HWl : forall x, In x l -> copy_works f x).
  { rewrite Forall_forall in IHl. intros x Hx. apply IHl; [exact Hx|]. apply depth_nested with l; [exact Hx|lia]. }
  rewrite acells_eq in H. cbn [root copy_rule].
  set (m := members_of _) in *.
  rewrite (read_ok _ _ a m H) by (now left). cbn [obind]. subst m. cbn [members_of o_captures o_matches o_nested o_next o_child o_tag o_optional o_greedy o_name].
  cbn [members_of] in H. set (r := (a, CRule (mk_members (option_map root c) (option_map root n) (map root l) (map (option_map fst) ms) (map (option_map fst) cs) t o g name))) in *.
  destruct (copy_each f l HWl h (r :: opt_list acells c ++ opt_list acells n ++ match_cells ms ++ capture_cells cs ++ F)) as [l' [h1 [E1 [H1 V1]]]].
  { eapply heap_is_perm; [exact H|]. fold r. perm. }
  rewrite E1. cbn [obind].
  destruct (copy_any f c HWc h1 (r :: opt_list acells n ++ flat_map acells l' ++ flat_map acells l ++ match_cells ms ++ capture_cells cs ++ F)) as [c' [h2 [E2 [H2 V2]]]].
  { eapply heap_is_perm; [exact H1|]. perm. }
  rewrite E2. cbn [obind].
  destruct (copy_any f n HWn h2 (r :: opt_list acells c' ++ opt_list acells c ++ flat_map acells l' ++ flat_map acells l ++ match_cells ms ++ capture_cells cs ++ F)) as [n' [h3 [E3 [H3 V3]]]].
  { eapply heap_is_perm; [exact H2|]. perm. }
  rewrite E3. cbn [obind].
  destruct (copy_matches ms h3 (r :: opt_list acells n' ++ opt_list acells n ++ opt_list acells c' ++ opt_list acells c ++ flat_map acells l' ++ flat_map acells l ++ capture_cells cs ++ F)) as [ms' [h4 [E4 [H4 V4]]]].
  { eapply heap_is_perm; [exact H3|]. perm. }
  rewrite E4. cbn [obind].
  destruct (copy_captures cs h4 (r :: opt_list acells n' ++ opt_list acells n ++ opt_list acells c' ++ opt_list acells c ++ flat_map acells l' ++ flat_map acells l ++ match_cells ms' ++ match_cells ms ++ F)) as [cs' [h5 [E5 [H5 V5]]]].
  { eapply heap_is_perm; [exact H4|]. perm. }
  rewrite E5. cbn [obind].
  destruct (alloc h5 _) as [b h6] eqn:E6. pose proof (alloc_ok _ _ _ _ _ H5 E6) as H6.
  exists (ANode b c' n' l' ms' cs' t o g name), h6. split; [reflexivity|]. split.
  - eapply heap_is_perm; [exact H6|]. rewrite !acells_eq. cbn [members_of]. fold r. perm.
  - rewrite !value_eq. now rewrite V1, V2, V3, V4, V5.
Qed.
