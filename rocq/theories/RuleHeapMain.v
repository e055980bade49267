(** Programs on rules: the machine follows the values. *)

From Coq Require Import Ascii String NArith ZArith Bool List Permutation Lia.
From Verif Require Import Base Tags Values Match Rule RuleProofs RuleMatching RuleHeap RuleHeapSpec PermTac RuleHeapProofs RuleHeapOps.
Import ListNotations.
Open Scope outcome_scope.

(** ** Places in a rule with addresses *)

Definition aget_step (x : atree) (st : rstep) : option atree :=
  match x with
  | ANode _ c n l _ _ _ _ _ _ => match st with RChild => c | RNext => n | RNested k => nth_error l k end
  end.
Definition aset_step (x : atree) (st : rstep) (y : atree) : atree :=
  match x with
  | ANode a c n l ms cs t o g name =>
      match st with
      | RChild => ANode a (Some y) n l ms cs t o g name
      | RNext => ANode a c (Some y) l ms cs t o g name
      | RNested k => ANode a c n (replace_nth l k y) ms cs t o g name
      end
  end.
Fixpoint apart (x : atree) (path : list rstep) : option atree :=
  match path with
  | [] => Some x
  | st :: path' => match aget_step x st with Some x' => apart x' path' | None => None end
  end.
Fixpoint aset_part (x : atree) (path : list rstep) (y : atree) : atree :=
  match path with
  | [] => y
  | st :: path' => match aget_step x st with Some x' => aset_step x st (aset_part x' path' y) | None => x end
  end.

Lemma step_value x st : rstep_get (value x) st = option_map value (aget_step x st).
Proof.
  destruct x as [a c n l ms cs t o g name]. rewrite value_eq. destruct st as [| |k]; cbn [rstep_get aget_step r_child r_next r_nested]; try reflexivity.
  revert k. induction l as [|y l IH]; intros [|k]; cbn [map nth_error option_map]; try reflexivity. apply IH.
Qed.

Lemma part_value x : forall path, part (value x) path = option_map value (apart x path).
Proof.
  intros path. revert x. induction path as [|st path IH]; intros x; cbn [part apart]; [reflexivity|].
  rewrite step_value. destruct (aget_step x st) as [y|]; cbn [option_map]; [apply IH|reflexivity].
Qed.

Lemma map_replace {A B} (f : A -> B) l : forall k x, map f (replace_nth l k x) = replace_nth (map f l) k (f x).
Proof. induction l as [|y l IH]; intros [|k] x; cbn [replace_nth map]; try reflexivity. now rewrite IH. Qed.

Lemma value_set_step x st y : value (aset_step x st y) = set_step (value x) st (value y).
Proof.
  destruct x as [a c n l ms cs t o g name]. rewrite value_eq. destruct st; cbn [aset_step set_step]; rewrite value_eq; cbn [option_map]; try reflexivity.
  now rewrite map_replace.
Qed.

Lemma value_set_part x path : forall y, value (aset_part x path y) = set_part (value x) path (value y).
Proof.
  revert x. induction path as [|st path IH]; intros x y; cbn [aset_part set_part]; [reflexivity|].
  rewrite step_value. destruct (aget_step x st) as [z|]; cbn [option_map]; [|reflexivity]. rewrite value_set_step. now rewrite IH.
Qed.

Lemma root_set_step x st y : root (aset_step x st y) = root x.
Proof. destruct x, st; reflexivity. Qed.

Lemma replace_split {A} (l : list A) : forall k y, nth_error l k = Some y ->
  exists l1 l2, l = l1 ++ y :: l2 /\ length l1 = k /\ forall x, replace_nth l k x = l1 ++ x :: l2.
Proof.
  induction l as [|z l IH]; intros [|k] y H; try discriminate.
  - injection H as <-. exists [], l. repeat split; reflexivity.
  - destruct (IH k y H) as [l1 [l2 [-> [H1 H2]]]]. exists (z :: l1), l2. split; [reflexivity|]. split; [cbn; now rewrite H1|].
    intros x. cbn [replace_nth app]. now rewrite H2.
Qed.

(** The cells around a place. *)
Lemma step_frame x st y : aget_step x st = Some y ->
  exists F, forall y', root y' = root y -> Permutation (acells (aset_step x st y')) (acells y' ++ F).
Proof.
  destruct x as [a c n l ms cs t o g name]. intros H. destruct st as [| |k]; cbn [aget_step] in H.
  - subst c. exists ((a, CRule (members_of (ANode a (Some y) n l ms cs t o g name))) :: opt_list acells n ++ flat_map acells l ++ match_cells ms ++ capture_cells cs).
    intros y' Hr. cbn [aset_step]. rewrite acells_eq. cbn [members_of option_map opt_list]. rewrite Hr. perm.
  - subst n. exists ((a, CRule (members_of (ANode a c (Some y) l ms cs t o g name))) :: opt_list acells c ++ flat_map acells l ++ match_cells ms ++ capture_cells cs).
    intros y' Hr. cbn [aset_step]. rewrite acells_eq. cbn [members_of option_map opt_list]. rewrite Hr. perm.
  - destruct (replace_split l k y H) as [l1 [l2 [-> [_ HR]]]].
    exists ((a, CRule (members_of (ANode a c n (l1 ++ y :: l2) ms cs t o g name))) :: opt_list acells c ++ opt_list acells n ++ flat_map acells l1 ++ flat_map acells l2 ++ match_cells ms ++ capture_cells cs).
    intros y' Hr. cbn [aset_step]. rewrite acells_eq, HR. cbn [members_of]. rewrite !map_app, flat_map_app. cbn [map flat_map]. rewrite Hr. perm.
Qed.

Lemma aset_same_step x st y : aget_step x st = Some y -> aset_step x st y = x.
Proof.
  destruct x as [a c n l ms cs t o g name]. destruct st as [| |k]; cbn [aget_step aset_step]; intros H; try now subst.
  destruct (replace_split l k y H) as [l1 [l2 [-> [_ HR]]]]. now rewrite HR.
Qed.

Lemma aset_same path : forall x y, apart x path = Some y -> aset_part x path y = x.
Proof.
  induction path as [|st path IH]; intros x y H; cbn [apart aset_part] in *; [now injection H as ->|].
  destruct (aget_step x st) as [z|] eqn:E; [|reflexivity]. rewrite (IH z y H). now apply aset_same_step.
Qed.

Lemma root_set_part path : forall x y y', apart x path = Some y -> root y' = root y -> root (aset_part x path y') = root x.
Proof.
  destruct path as [|st path]; intros x y y' H Hr; cbn [apart aset_part] in *; [injection H as ->; exact Hr|].
  destruct (aget_step x st); [apply root_set_step|reflexivity].
Qed.

Lemma part_frame path : forall x y, apart x path = Some y ->
  exists F, forall y', root y' = root y -> Permutation (acells (aset_part x path y')) (acells y' ++ F).
Proof.
  induction path as [|st path IH]; intros x y H; cbn [apart aset_part] in *.
  - exists []. intros y' _. now rewrite app_nil_r.
  - destruct (aget_step x st) as [z|] eqn:E; [|discriminate]. destruct (step_frame x st z E) as [F HF]. destruct (IH z y H) as [G HG].
    exists (G ++ F). intros y' Hr. rewrite (HF _ (root_set_part path z y y' H Hr)), (HG y' Hr). perm.
Qed.

(** Two places of which none is within the other one. *)
Lemma get_other_step x st st' y : st <> st' -> aget_step (aset_step x st y) st' = aget_step x st'.
Proof.
  destruct x as [a c n l ms cs t o g name]. destruct st as [| |k], st' as [| |j]; intros H; cbn [aget_step aset_step]; try congruence; try reflexivity.
  assert (HK : k <> j) by congruence. clear H. revert k j HK. induction l as [|z l IH]; intros [|k] [|j] HK; cbn [replace_nth nth_error]; try reflexivity; try congruence.
  apply IH. congruence.
Qed.

Lemma get_same_step x st y z : aget_step x st = Some z -> aget_step (aset_step x st y) st = Some y.
Proof.
  destruct x as [a c n l ms cs t o g name]. destruct st as [| |k]; intros H; cbn [aget_step aset_step] in *; try reflexivity.
  destruct (replace_split l k z H) as [l1 [l2 [-> [HL HR]]]]. rewrite HR, nth_error_app2 by lia. rewrite HL, Nat.sub_diag. reflexivity.
Qed.

Fixpoint prefix_related (a b : list rstep) : bool :=
  match a, b with
  | [], _ | _, [] => true
  | x :: a', y :: b' => rstep_eqb x y && prefix_related a' b'
  end.

Lemma related_prefix p q : related p q = Nat.eqb (pl_var p) (pl_var q) && prefix_related (pl_path p) (pl_path q).
Proof. reflexivity. Qed.

Lemma rstep_eqb_iff a b : rstep_eqb a b = true <-> a = b.
Proof.
  destruct a as [| |k], b as [| |j]; cbn [rstep_eqb]; split; intros H; try discriminate; try reflexivity.
  - apply Nat.eqb_eq in H. now subst.
  - injection H as ->. apply Nat.eqb_refl.
Qed.

(** Setting the one place leaves the other one. *)
Lemma part_other q : forall p x y u, prefix_related p q = false -> apart x q = Some u ->
  apart (aset_part x q y) p = apart x p.
Proof.
  induction q as [|st q IH]; intros [|st' p] x y u HR Hu; try discriminate. cbn [prefix_related] in HR. cbn [apart aset_part] in *.
  destruct (aget_step x st) as [z|] eqn:E; [|discriminate].
  destruct (rstep_eqb st' st) eqn:ES; cbn [andb] in HR.
  - apply rstep_eqb_iff in ES. subst st'. rewrite (get_same_step x st _ z E), E. now apply IH with u.
  - rewrite get_other_step; [reflexivity|]. intros ->. rewrite (proj2 (rstep_eqb_iff _ _) eq_refl) in ES. discriminate.
Qed.

Lemma other_step_frame x st st' y z : st <> st' -> aget_step x st = Some y -> aget_step x st' = Some z ->
  exists F, forall y' z', root y' = root y -> root z' = root z ->
    Permutation (acells (aset_step (aset_step x st' z') st y')) (acells y' ++ acells z' ++ F).
Proof.
  destruct x as [a c n l ms cs t o g name]. intros HD Hy Hz.
  destruct st as [| |k], st' as [| |j]; cbn [aget_step] in Hy, Hz; try congruence.
  - subst c n. exists ((a, CRule (members_of (ANode a (Some y) (Some z) l ms cs t o g name))) :: flat_map acells l ++ match_cells ms ++ capture_cells cs).
    intros y' z' Ry Rz. cbn [aset_step]. rewrite acells_eq. cbn [members_of option_map opt_list]. rewrite Ry, Rz. perm.
  - subst c. destruct (replace_split l j z Hz) as [l1 [l2 [-> [_ HR]]]].
    exists ((a, CRule (members_of (ANode a (Some y) n (l1 ++ z :: l2) ms cs t o g name))) :: opt_list acells n ++ flat_map acells l1 ++ flat_map acells l2 ++ match_cells ms ++ capture_cells cs).
    intros y' z' Ry Rz. cbn [aset_step]. rewrite acells_eq, HR. cbn [members_of option_map opt_list]. rewrite !map_app, flat_map_app. cbn [map flat_map]. rewrite Ry, Rz. perm.
  - subst c n. exists ((a, CRule (members_of (ANode a (Some z) (Some y) l ms cs t o g name))) :: flat_map acells l ++ match_cells ms ++ capture_cells cs).
    intros y' z' Ry Rz. cbn [aset_step]. rewrite acells_eq. cbn [members_of option_map opt_list]. rewrite Ry, Rz. perm.
  - subst n. destruct (replace_split l j z Hz) as [l1 [l2 [-> [_ HR]]]].
    exists ((a, CRule (members_of (ANode a c (Some y) (l1 ++ z :: l2) ms cs t o g name))) :: opt_list acells c ++ flat_map acells l1 ++ flat_map acells l2 ++ match_cells ms ++ capture_cells cs).
    intros y' z' Ry Rz. cbn [aset_step]. rewrite acells_eq, HR. cbn [members_of option_map opt_list]. rewrite !map_app, flat_map_app. cbn [map flat_map]. rewrite Ry, Rz. perm.
  - subst c. destruct (replace_split l k y Hy) as [l1 [l2 [-> [_ HR]]]].
    exists ((a, CRule (members_of (ANode a (Some z) n (l1 ++ y :: l2) ms cs t o g name))) :: opt_list acells n ++ flat_map acells l1 ++ flat_map acells l2 ++ match_cells ms ++ capture_cells cs).
    intros y' z' Ry Rz. cbn [aset_step]. rewrite acells_eq, HR. cbn [members_of option_map opt_list]. rewrite !map_app, flat_map_app. cbn [map flat_map]. rewrite Ry, Rz. perm.
  - subst n. destruct (replace_split l k y Hy) as [l1 [l2 [-> [_ HR]]]].
    exists ((a, CRule (members_of (ANode a c (Some z) (l1 ++ y :: l2) ms cs t o g name))) :: opt_list acells c ++ flat_map acells l1 ++ flat_map acells l2 ++ match_cells ms ++ capture_cells cs).
    intros y' z' Ry Rz. cbn [aset_step]. rewrite acells_eq, HR. cbn [members_of option_map opt_list]. rewrite !map_app, flat_map_app. cbn [map flat_map]. rewrite Ry, Rz. perm.
  - assert (HK : k <> j) by congruence. cbn [aset_step].
    assert (HL : exists L, forall y' z', root y' = root y -> root z' = root z ->
      Permutation (flat_map acells (replace_nth (replace_nth l j z') k y')) (acells y' ++ acells z' ++ L) /\
      map root (replace_nth (replace_nth l j z') k y') = map root l).
    { clear - HK Hy Hz. revert k j HK Hy Hz. induction l as [|w l IH]; intros [|k] [|j] HK Hy Hz; try discriminate; try congruence; cbn [nth_error] in Hy, Hz.
      - injection Hy as ->. destruct (replace_split l j z Hz) as [l1 [l2 [-> [_ HR]]]].
        exists (flat_map acells l1 ++ flat_map acells l2). intros y' z' Ry Rz. cbn [replace_nth flat_map map]. rewrite HR, flat_map_app, !map_app. cbn [flat_map map].
        rewrite Ry, Rz. split; [perm|reflexivity].
      - injection Hz as ->. destruct (replace_split l k y Hy) as [l1 [l2 [-> [_ HR]]]].
        exists (flat_map acells l1 ++ flat_map acells l2). intros y' z' Ry Rz. cbn [replace_nth flat_map map]. rewrite HR, flat_map_app, !map_app. cbn [flat_map map].
        rewrite Ry, Rz. split; [perm|reflexivity].
      - destruct (IH k j) as [L HL]; [congruence|exact Hy|exact Hz|]. exists (acells w ++ L). intros y' z' Ry Rz.
        destruct (HL y' z' Ry Rz) as [H1 H2]. cbn [replace_nth flat_map map]. rewrite H1, H2. split; [perm|reflexivity]. }
    destruct HL as [L HL]. exists ((a, CRule (members_of (ANode a c n l ms cs t o g name))) :: opt_list acells c ++ opt_list acells n ++ L ++ match_cells ms ++ capture_cells cs).
    intros y' z' Ry Rz. destruct (HL y' z' Ry Rz) as [H1 H2]. rewrite acells_eq. cbn [members_of]. rewrite H1, H2. perm.
Qed.

Lemma set_set_step x st y y' z : aget_step x st = Some z -> aset_step (aset_step x st y) st y' = aset_step x st y'.
Proof.
  destruct x as [a c n l ms cs t o g name]. destruct st as [| |k]; intros H; cbn [aset_step aget_step] in *; try reflexivity.
  f_equal. clear - l. revert k. induction l as [|w l IH]; intros [|k]; cbn [replace_nth]; try reflexivity. now rewrite IH.
Qed.

Lemma two_parts_frame q : forall p x t u, prefix_related p q = false -> apart x p = Some t -> apart x q = Some u ->
  exists F, forall t' u', root t' = root t -> root u' = root u ->
    Permutation (acells (aset_part (aset_part x q u') p t')) (acells t' ++ acells u' ++ F).
Proof.
  induction q as [|st q IH]; intros [|st' p] x t u HR Ht Hu; try discriminate. cbn [prefix_related] in HR. cbn [apart aset_part] in *.
  destruct (aget_step x st) as [z|] eqn:Ez; [|discriminate]. destruct (aget_step x st') as [w|] eqn:Ew; [|discriminate].
  destruct (rstep_eqb st' st) eqn:ES; cbn [andb] in HR.
  - apply rstep_eqb_iff in ES. subst st'. rewrite Ez in Ew. injection Ew as <-.
    destruct (IH p z t u HR Ht Hu) as [G HG]. destruct (step_frame x st z Ez) as [F HF]. exists (G ++ F). intros t' u' Rt Ru.
    rewrite (get_same_step x st _ z Ez), (set_set_step x st _ _ z Ez). rewrite HF.
    + rewrite HG by assumption. perm.
    + rewrite (root_set_part p _ t); [|now rewrite (part_other q p z u' u HR Hu)|exact Rt]. now apply root_set_part with u.
  - assert (HD : st' <> st). { intros ->. rewrite (proj2 (rstep_eqb_iff _ _) eq_refl) in ES. discriminate. }
    destruct (other_step_frame x st' st w z HD Ew Ez) as [F HF].
    destruct (part_frame p w t Ht) as [G1 HG1]. destruct (part_frame q z u Hu) as [G2 HG2].
    exists (G1 ++ G2 ++ F). intros t' u' Rt Ru. rewrite (get_other_step x st st' _ (not_eq_sym HD)), Ew.
    rewrite HF; [|now apply root_set_part with t|now apply root_set_part with u]. rewrite (HG1 t' Rt), (HG2 u' Ru). perm.
Qed.

(** ** Variables *)

Definition forest := list (nat * atree).
Definition fcells (T : forest) : list (addr * cell) := flat_map (fun v => acells (snd v)) T.
Definition fstore (T : forest) : store := map (fun v => (fst v, value (snd v))) T.
Definition fenv (T : forest) : list (nat * addr) := map (fun v => (fst v, root (snd v))) T.

Definition fget (T : forest) (p : place) : option atree :=
  match var_get T (pl_var p) with Some x => apart x (pl_path p) | None => None end.
Fixpoint fset (T : forest) (p : place) (y : atree) : forest :=
  match T with
  | [] => []
  | (v, x) :: T' => if Nat.eqb (pl_var p) v then (v, aset_part x (pl_path p) y) :: T' else (v, x) :: fset T' p y
  end.

Lemma var_get_map {A B} (f : A -> B) l x : var_get (map (fun v => (fst v, f (snd v))) l) x = option_map f (var_get l x).
Proof. induction l as [|[y v] l IH]; cbn [map var_get fst snd option_map]; [reflexivity|]. destruct (Nat.eqb x y); [reflexivity|exact IH]. Qed.

Lemma fget_value T p : value_at (fstore T) p = option_map value (fget T p).
Proof.
  unfold value_at, fget, fstore. rewrite (var_get_map value). destruct (var_get T (pl_var p)) as [x|]; cbn [option_map]; [apply part_value|reflexivity].
Qed.

Lemma fset_value T p y : fstore (fset T p y) = set_value (fstore T) p (value y).
Proof.
  induction T as [|[v x] T IH]; cbn [fset fstore map set_value fst snd]; [reflexivity|].
  destruct (Nat.eqb (pl_var p) v); cbn [map fst snd]; [now rewrite value_set_part|]. f_equal. exact IH.
Qed.

Lemma fset_same T p y : fget T p = Some y -> fset T p y = T.
Proof.
  unfold fget. induction T as [|[v x] T IH]; cbn [fset var_get]; [reflexivity|]. destruct (Nat.eqb (pl_var p) v).
  - intros H. now rewrite (aset_same _ _ _ H).
  - intros H. now rewrite IH.
Qed.

Lemma fset_env T p y y' : fget T p = Some y -> root y' = root y -> fenv (fset T p y') = fenv T.
Proof.
  unfold fget. induction T as [|[v x] T IH]; cbn [fset var_get fenv map fst snd]; [reflexivity|]. destruct (Nat.eqb (pl_var p) v).
  - intros H Hr. cbn [map fst snd]. now rewrite (root_set_part _ _ _ _ H Hr).
  - intros H Hr. cbn [map fst snd]. f_equal. now apply IH.
Qed.

Lemma forest_frame T p y : fget T p = Some y ->
  exists F, forall y', root y' = root y -> Permutation (fcells (fset T p y')) (acells y' ++ F).
Proof.
  unfold fget. induction T as [|[v x] T IH]; cbn [fset var_get]; [discriminate|]. destruct (Nat.eqb (pl_var p) v).
  - intros H. destruct (part_frame _ _ _ H) as [F HF]. exists (F ++ fcells T). intros y' Hr. cbn [fcells flat_map snd]. rewrite (HF y' Hr).
    fold (fcells T). perm.
  - intros H. destruct (IH H) as [F HF]. exists (acells x ++ F). intros y' Hr. cbn [fcells flat_map snd]. fold (fcells (fset T p y')). rewrite (HF y' Hr). perm.
Qed.

Lemma fget_other T p q y u : related p q = false -> fget T q = Some u -> fget (fset T q y) p = fget T p.
Proof.
  rewrite related_prefix. unfold fget. intros HR. induction T as [|[v x] T IH]; cbn [fset var_get]; [reflexivity|].
  destruct (Nat.eqb_spec (pl_var q) v) as [Eq|Nq]; intros Hu.
  - cbn [var_get]. destruct (Nat.eqb_spec (pl_var p) v) as [Ep|Np]; [|reflexivity].
    rewrite Ep, Eq, Nat.eqb_refl in HR. now apply part_other with u.
  - cbn [var_get]. destruct (Nat.eqb (pl_var p) v); [reflexivity|now apply IH].
Qed.

Lemma two_places_frame T p q t u : related p q = false -> fget T p = Some t -> fget T q = Some u ->
  exists F, forall t' u', root t' = root t -> root u' = root u ->
    Permutation (fcells (fset (fset T q u') p t')) (acells t' ++ acells u' ++ F).
Proof.
  rewrite related_prefix. unfold fget. intros HR. induction T as [|[v x] T IH]; cbn [fset var_get]; [discriminate|].
  destruct (Nat.eqb_spec (pl_var q) v) as [Eq|Nq], (Nat.eqb_spec (pl_var p) v) as [Ep|Np]; intros Ht Hu.
  - rewrite Ep, Eq, Nat.eqb_refl in HR. cbn [andb] in HR. destruct (two_parts_frame _ _ _ _ _ HR Ht Hu) as [F HF]. exists (F ++ fcells T).
    intros t' u' Rt Ru. cbn [fset]. rewrite Ep, Nat.eqb_refl. cbn [fcells flat_map snd]. rewrite (HF t' u' Rt Ru). fold (fcells T). perm.
  - destruct (part_frame _ _ _ Hu) as [F HF]. destruct (forest_frame T p t Ht) as [G HG]. exists (F ++ G). intros t' u' Rt Ru. cbn [fset].
    destruct (Nat.eqb_spec (pl_var p) v) as [?|_]; [congruence|]. cbn [fcells flat_map snd]. fold (fcells (fset T p t')). rewrite (HF u' Ru), (HG t' Rt). perm.
  - destruct (part_frame _ _ _ Ht) as [F HF]. destruct (forest_frame T q u Hu) as [G HG]. exists (F ++ G). intros t' u' Rt Ru. cbn [fset].
    rewrite Ep, Nat.eqb_refl. cbn [fcells flat_map snd]. fold (fcells (fset T q u')). rewrite (HF t' Rt), (HG u' Ru). perm.
  - destruct (IH Ht Hu) as [F HF]. exists (acells x ++ F). intros t' u' Rt Ru. cbn [fset]. destruct (Nat.eqb_spec (pl_var p) v) as [?|_]; [congruence|].
    cbn [fcells flat_map snd]. fold (fcells (fset (fset T q u') p t')). rewrite (HF t' u' Rt Ru). perm.
Qed.

(** Addresses of places. *)
Lemma get_step_cells x st y : aget_step x st = Some y -> exists F, Permutation (acells x) (acells y ++ (root x, CRule (members_of x)) :: F).
Proof.
  destruct x as [a c n l ms cs t o g name]. rewrite acells_eq. destruct st as [| |k]; cbn [aget_step]; intros H.
  - subst c. eexists (opt_list acells n ++ flat_map acells l ++ match_cells ms ++ capture_cells cs). cbn [opt_list root]. perm.
  - subst n. eexists (opt_list acells c ++ flat_map acells l ++ match_cells ms ++ capture_cells cs). cbn [opt_list root]. perm.
  - destruct (replace_split l k y H) as [l1 [l2 [-> _]]].
    exists (opt_list acells c ++ opt_list acells n ++ flat_map acells l1 ++ flat_map acells l2 ++ match_cells ms ++ capture_cells cs).
    cbn [root]. rewrite flat_map_app. cbn [flat_map]. perm.
Qed.

Lemma follow_ok path : forall x y h F, heap_is h (acells x ++ F) -> apart x path = Some y -> follow h (root x) path = Ok (root y).
Proof.
  induction path as [|st path IH]; intros x y h F H Hp; cbn [apart follow] in *; [now injection Hp as ->|].
  rewrite (read_ok h _ (root x) (members_of x) H) by (now left). cbn [obind].
  destruct (aget_step x st) as [z|] eqn:E; [|discriminate].
  destruct (get_step_cells x st z E) as [G HG].
  assert (HZ : heap_is h (acells z ++ (root x, CRule (members_of x)) :: G ++ F)).
  { eapply heap_is_perm; [exact H|]. rewrite HG. perm. }
  pose proof (IH z y h _ HZ Hp) as HF.
  destruct x as [a c n l ms cs t o g name]. destruct st as [| |k]; cbn [aget_step] in E; cbn [members_of o_child o_next o_nested].
  - subst c. exact HF.
  - subst n. exact HF.
  - assert (E' : nth_error (map root l) k = Some (root z)) by (now apply map_nth_error). now rewrite E'.
Qed.

Definition inv (s : machine) (T : forest) : Prop := env s = fenv T /\ heap_is (mem s) (fcells T).

Lemma var_cells T x t : var_get T x = Some t -> exists F, Permutation (fcells T) (acells t ++ F).
Proof.
  induction T as [|[v y] T IH]; cbn [var_get]; [discriminate|]. destruct (Nat.eqb x v).
  - intros H. injection H as ->. exists (fcells T). reflexivity.
  - intros H. destruct (IH H) as [F HF]. exists (acells y ++ F). cbn [fcells flat_map snd]. fold (fcells T). rewrite HF. perm.
Qed.

Lemma locate_ok s T p y : inv s T -> fget T p = Some y -> locate s p = Some (Ok (root y)).
Proof.
  intros [HE HH] Hp. unfold locate, fget in *. rewrite HE. unfold fenv. rewrite (var_get_map root).
  destruct (var_get T (pl_var p)) as [x|] eqn:E; [|discriminate]. cbn [option_map]. destruct (var_cells T _ x E) as [F HF].
  f_equal. apply follow_ok with F; [|exact Hp]. now apply heap_is_perm with (fcells T).
Qed.

(** ** Depth *)

Lemma depth_step r st y : rstep_get r st = Some y -> vdepth y < vdepth r.
Proof.
  destruct r as [c n l ms cs t o g name]. rewrite vdepth_eq. destruct st as [| |k]; cbn [rstep_get r_child r_next r_nested]; intros H.
  - subst c. cbn [opt_max]. lia.
  - subst n. cbn [opt_max]. lia.
  - assert (HM : vdepth y <= list_max (map vdepth l)); [|lia].
    assert (HA : list_max (map vdepth l) <= list_max (map vdepth l)) by lia. apply list_max_le in HA. rewrite Forall_forall in HA.
    apply HA, in_map. now apply nth_error_In in H.
Qed.

Lemma depth_part path : forall r y, part r path = Some y -> vdepth y <= vdepth r.
Proof.
  induction path as [|st path IH]; intros r y H; cbn [part] in H; [injection H as ->; lia|].
  destruct (rstep_get r st) as [z|] eqn:E; [|discriminate]. apply IH in H. apply depth_step in E. lia.
Qed.

Definition store_depth (S : store) : nat := list_max (map (fun v => vdepth (snd v)) S).

Lemma var_depth S x r : var_get S x = Some r -> vdepth r <= store_depth S.
Proof.
  unfold store_depth. induction S as [|[v y] S' IH]; cbn [var_get]; [discriminate|]. change (list_max (map (fun v => vdepth (snd v)) ((v, y) :: S'))) with (Nat.max (vdepth y) (list_max (map (fun v => vdepth (snd v)) S'))).
  destruct (Nat.eqb x v); intros H; [injection H as ->; lia|]. apply IH in H. lia.
Qed.

Lemma depth_at S p r : value_at S p = Some r -> vdepth r <= store_depth S.
Proof.
  unfold value_at. destruct (var_get S (pl_var p)) as [x|] eqn:E; [|discriminate]. intros H. apply depth_part in H. apply var_depth in E. lia.
Qed.

Section Steps.
Variable rest : str -> str.

(** What was at a place is there again, after another place was emptied. *)
Lemma hollow_leaf x : forall path y, apart (ahollow rest x) path = Some y -> path = [].
Proof. destruct x, path as [|[| |[]] path]; cbn; congruence. Qed.

Lemma part_kept q : forall p x u w, apart x q = Some u -> apart (aset_part x q (ahollow rest u)) p = Some w ->
  exists w0, apart x p = Some w0 /\ root w0 = root w.
Proof.
  induction q as [|st q IH]; intros p x u w Hu Hw; cbn [apart aset_part] in *.
  - injection Hu as ->. pose proof (hollow_leaf _ _ _ Hw) as ->. cbn [apart] in Hw. injection Hw as <-. exists u. split; [reflexivity|]. now rewrite root_ahollow.
  - destruct (aget_step x st) as [z|] eqn:E; [|discriminate]. destruct p as [|st' p]; cbn [apart] in *.
    + injection Hw as <-. exists x. split; [reflexivity|]. now rewrite root_set_step.
    + destruct (rstep_eqb st st') eqn:ES.
      * apply rstep_eqb_iff in ES. subst st'. rewrite (get_same_step x st _ z E) in Hw. rewrite E. eapply IH; eassumption.
      * rewrite get_other_step in Hw by (intros ->; rewrite (proj2 (rstep_eqb_iff _ _) eq_refl) in ES; discriminate). eauto.
Qed.

Lemma fget_kept T p q u w : fget T q = Some u -> fget (fset T q (ahollow rest u)) p = Some w ->
  exists w0, fget T p = Some w0 /\ root w0 = root w.
Proof.
  unfold fget. induction T as [|[v x] T IH]; cbn [fset var_get]; [discriminate|].
  destruct (Nat.eqb_spec (pl_var q) v) as [Eq|Nq]; intros Hu Hw; cbn [var_get] in Hw.
  - destruct (Nat.eqb (pl_var p) v); [|eauto]. eapply part_kept; eassumption.
  - destruct (Nat.eqb (pl_var p) v); [eauto|]. now apply IH.
Qed.

(** An argument. *)
Lemma argument_ok S arg v S' : argument_value rest S arg = Some (v, S') ->
  forall f s T, store_depth S < f -> inv s T -> fstore T = S ->
  exists x h' T', make_argument rest f s arg = Some (Ok (root x, h')) /\ value x = v /\ fstore T' = S' /\ fenv T' = fenv T /\
    heap_is h' (acells x ++ fcells T') /\
    (forall p w, fget T' p = Some w -> exists w0, fget T p = Some w0 /\ root w0 = root w).
Proof.
  intros HA f s T Hf HI HS. destruct arg as [q|q]; cbn [argument_value make_argument] in *.
  - destruct (value_at S q) as [v0|] eqn:Ev; [|discriminate]. injection HA as -> <-. pose proof (depth_at _ _ _ Ev) as HD.
    rewrite <- HS, fget_value in Ev. destruct (fget T q) as [u|] eqn:Eu; [|discriminate]. injection Ev as <-.
    rewrite (locate_ok s T q u HI Eu). cbn [obind]. destruct (forest_frame T q u Eu) as [F HF]. specialize (HF u eq_refl). rewrite (fset_same _ _ _ Eu) in HF.
    destruct (copy_ok u f) with (h := mem s) (F := F) as [y [h1 [E1 [H1 V1]]]]; [lia|eapply heap_is_perm; [exact (proj2 HI)|exact HF]|].
    exists y, h1, T. rewrite E1. split; [reflexivity|]. split; [exact V1|]. split; [exact HS|]. split; [reflexivity|]. split.
    + eapply heap_is_perm; [exact H1|]. rewrite HF. perm.
    + eauto.
  - destruct (value_at S q) as [v0|] eqn:Ev; [|discriminate]. injection HA as -> <-.
    rewrite <- HS, fget_value in Ev. destruct (fget T q) as [u|] eqn:Eu; [|discriminate]. injection Ev as <-.
    rewrite (locate_ok s T q u HI Eu). cbn [obind]. destruct (forest_frame T q u Eu) as [F HF].
    destruct (move_construct_ok rest (mem s) u F) as [b [h1 [E1 H1]]].
    { eapply heap_is_perm; [exact (proj2 HI)|]. specialize (HF u eq_refl). now rewrite (fset_same _ _ _ Eu) in HF. }
    exists (reroot u b), h1, (fset T q (ahollow rest u)). rewrite E1, root_reroot. split; [reflexivity|]. split; [apply value_reroot|].
    split; [rewrite fset_value, value_ahollow; now rewrite HS|]. split; [apply fset_env with u; [exact Eu|apply root_ahollow]|]. split.
    + eapply heap_is_perm; [exact H1|]. rewrite (HF (ahollow rest u) (root_ahollow rest u)). perm.
    + intros p w Hw. now apply fget_kept with q u.
Qed.

(** A call with an argument by value. *)
Lemma call_with_ok S arg v S1 p g S2 (F : nat -> heap -> addr -> addr -> outcome heap) :
  argument_value rest S arg = Some (v, S1) -> update_at S1 p (fun w => g w v) = Some S2 ->
  (forall f h x y G, heap_is h (acells x ++ acells y ++ G) -> vdepth (value x) < f -> 1 < f ->
     exists z h', F f h (root x) (root y) = Ok h' /\ heap_is h' (acells z ++ acells (ahollow rest y) ++ G) /\ root z = root x /\ value z = g (value x) (value y)) ->
  exists f0, forall f s T, f0 <= f -> inv s T -> fstore T = S ->
  exists s' T', call_with rest f s p arg (F f) = Some (Ok s') /\ inv s' T' /\ fstore T' = S2.
Proof.
  intros HA HU HF. exists (2 + store_depth S + store_depth S1). intros f s T Hf HI HS.
  destruct (argument_ok S arg v S1 HA f s T ltac:(lia) HI HS) as [x [h1 [T1 [E1 [V1 [HS1 [HE1 [H1 HK]]]]]]]].
  unfold update_at in HU. destruct (value_at S1 p) as [w|] eqn:Ew; [|discriminate]. injection HU as <-. pose proof (depth_at _ _ _ Ew) as HD.
  rewrite <- HS1, fget_value in Ew. destruct (fget T1 p) as [u|] eqn:Eu; [|discriminate]. injection Ew as <-.
  destruct (HK p u Eu) as [u0 [Hu0 Ru0]]. unfold call_with. rewrite (locate_ok s T p u0 HI Hu0), E1. cbn [obind]. rewrite Ru0.
  destruct (forest_frame T1 p u Eu) as [G HG]. pose proof (HG u eq_refl) as HG0. rewrite (fset_same _ _ _ Eu) in HG0.
  destruct (HF f h1 u x G) as [z [h2 [E2 [H2 [R2 V2]]]]]; [|lia|lia|].
  { eapply heap_is_perm; [exact H1|]. rewrite HG0. perm. }
  rewrite E2. cbn [obind]. destruct f as [|f]; [lia|].
  destruct (destroy_hollow rest f h2 x (acells z ++ G)) as [h3 [E3 H3]]; [eapply heap_is_perm; [exact H2|perm]|].
  rewrite E3. cbn [obind]. exists (mk_machine (env s) h3), (fset T1 p z). split; [reflexivity|]. split; [split|].
  - cbn [env]. rewrite (fset_env T1 p u z Eu R2), HE1. exact (proj1 HI).
  - cbn [mem]. eapply heap_is_perm; [exact H3|]. now rewrite (HG z R2).
  - rewrite fset_value, V2, V1, HS1. reflexivity.
Qed.

Lemma call_ok S p g S2 (F : nat -> heap -> addr -> outcome heap) :
  update_at S p g = Some S2 ->
  (forall f h x G, heap_is h (acells x ++ G) -> exists z h', F f h (root x) = Ok h' /\ heap_is h' (acells z ++ G) /\ root z = root x /\ value z = g (value x)) ->
  forall f s T, inv s T -> fstore T = S ->
  exists s' T', call s p (F f) = Some (Ok s') /\ inv s' T' /\ fstore T' = S2.
Proof.
  intros HU HF f s T HI HS. unfold update_at in HU. destruct (value_at S p) as [w|] eqn:Ew; [|discriminate]. injection HU as <-.
  rewrite <- HS, fget_value in Ew. destruct (fget T p) as [u|] eqn:Eu; [|discriminate]. injection Ew as <-.
  unfold call. rewrite (locate_ok s T p u HI Eu). cbn [obind].
  destruct (forest_frame T p u Eu) as [G HG]. pose proof (HG u eq_refl) as HG0. rewrite (fset_same _ _ _ Eu) in HG0.
  destruct (HF f (mem s) u G) as [z [h2 [E2 [H2 [R2 V2]]]]]; [eapply heap_is_perm; [exact (proj2 HI)|exact HG0]|].
  rewrite E2. cbn [obind]. exists (mk_machine (env s) h2), (fset T p z). split; [reflexivity|]. split; [split|].
  - cbn [env]. rewrite (fset_env T p u z Eu R2). exact (proj1 HI).
  - cbn [mem]. eapply heap_is_perm; [exact H2|]. now rewrite (HG z R2).
  - rewrite fset_value, V2, HS. reflexivity.
Qed.

Lemma declare_ok S x v S2 s T y h' : new_variable S x v = Some S2 -> fenv T = env s -> fstore T = S ->
  heap_is h' (acells y ++ fcells T) -> value y = v ->
  exists s' T', declare s x (Ok (root y, h')) = Some (Ok s') /\ inv s' T' /\ fstore T' = S2.
Proof.
  intros HN HE HS H HV. unfold new_variable, declare in *. rewrite <- HE. rewrite <- HS in HN. unfold fenv, fstore in *.
  rewrite (var_get_map root). rewrite (var_get_map value) in HN. destruct (var_get T x); cbn [option_map] in *; [discriminate|]. injection HN as <-. cbn [obind].
  exists (mk_machine ((x, root y) :: env s) h'), ((x, y) :: T). rewrite HE. split; [reflexivity|]. split; [split|].
  - cbn [env]. rewrite <- HE. reflexivity.
  - exact H.
  - cbn [map fst snd]. now rewrite HV.
Qed.

Lemma new_ok S x v S2 s T (t : tag) o g name : new_variable S x v = Some S2 -> inv s T -> fstore T = S ->
  v = mk_rule None None [] [] [] t o g name ->
  exists s' T', declare s x (Ok (alloc (mem s) (CRule (mk_members None None [] [] [] t o g name)))) = Some (Ok s') /\ inv s' T' /\ fstore T' = S2.
Proof.
  intros HN HI HS HV. destruct (alloc (mem s) _) as [a h1] eqn:E. pose proof (alloc_ok _ _ _ _ _ (proj2 HI) E) as H1.
  apply (declare_ok S x v S2 s T (ANode a None None [] [] [] t o g name) h1 HN (eq_sym (proj1 HI)) HS); [exact H1|now subst v].
Qed.

Lemma var_del_env T x : fenv (var_del T x) = var_del (fenv T) x.
Proof. induction T as [|[v y] T IH]; cbn [var_del fenv map fst snd]; [reflexivity|]. destruct (Nat.eqb x v); [reflexivity|]. cbn [map fst snd]. f_equal. exact IH. Qed.
Lemma var_del_store T x : fstore (var_del T x) = var_del (fstore T) x.
Proof. induction T as [|[v y] T IH]; cbn [var_del fstore map fst snd]; [reflexivity|]. destruct (Nat.eqb x v); [reflexivity|]. cbn [map fst snd]. f_equal. exact IH. Qed.
Lemma var_del_cells T x t : var_get T x = Some t -> Permutation (fcells T) (acells t ++ fcells (var_del T x)).
Proof.
  induction T as [|[v y] T IH]; cbn [var_get var_del]; [discriminate|]. destruct (Nat.eqb x v).
  - intros H. injection H as ->. reflexivity.
  - intros H. cbn [fcells flat_map snd]. fold (fcells T) (fcells (var_del T x)). rewrite (IH H). perm.
Qed.

Theorem step_ok S st S2 : effect rest S st = Some S2 ->
  exists f0, forall f s T, f0 <= f -> inv s T -> fstore T = S ->
  exists s' T', step rest f s st = Some (Ok s') /\ inv s' T' /\ fstore T' = S2.
Proof.
  intros HE. destruct st as [x t o g|x name o g|x arg|p [q|q]|p arg|p arg|p grow arg|p m|p c|p fl|x]; cbn [effect step] in *.
  - exists 0. intros f s T _ HI HS. eapply new_ok; [exact HE|exact HI|exact HS|reflexivity].
  - exists 0. intros f s T _ HI HS. eapply new_ok; [exact HE|exact HI|exact HS|reflexivity].
  - destruct (argument_value rest S arg) as [[v S1]|] eqn:HA; [|discriminate]. exists (1 + store_depth S). intros f s T Hf HI HS.
    destruct (argument_ok S arg v S1 HA f s T ltac:(lia) HI HS) as [y [h1 [T1 [E1 [V1 [HS1 [HE1 [H1 _]]]]]]]]. rewrite E1.
    apply (declare_ok S1 x v S2 s T1 y h1 HE); [rewrite HE1; symmetry; exact (proj1 HI)|exact HS1|exact H1|exact V1].
  - destruct (value_at S q) as [v|] eqn:Ev; [|discriminate]. exists (1 + store_depth S). intros f s T Hf HI HS.
    pose proof (depth_at _ _ _ Ev) as HDv. unfold update_at in HE. destruct (value_at S p) as [w|] eqn:Ew; [|discriminate]. injection HE as <-.
    pose proof (depth_at _ _ _ Ew) as HDw.
    rewrite <- HS, fget_value in Ev, Ew. destruct (fget T q) as [u|] eqn:Eu; [|discriminate]. injection Ev as <-.
    destruct (fget T p) as [t|] eqn:Et; [|discriminate]. injection Ew as <-.
    rewrite (locate_ok s T q u HI Eu). unfold call. rewrite (locate_ok s T p t HI Et). cbn [obind].
    destruct (forest_frame T p t Et) as [F HF]. pose proof (HF t eq_refl) as HF0. rewrite (fset_same _ _ _ Et) in HF0.
    destruct (forest_frame T q u Eu) as [G HG]. specialize (HG u eq_refl). rewrite (fset_same _ _ _ Eu) in HG.
    destruct (copy_assign_ok f (mem s) t u F G) as [z [h1 [E1 [H1 [R1 V1]]]]].
    { eapply heap_is_perm; [exact (proj2 HI)|exact HF0]. } { now rewrite <- HF0. } { lia. } { lia. }
    rewrite E1. cbn [obind]. exists (mk_machine (env s) h1), (fset T p z). split; [reflexivity|]. split; [split|].
    + cbn [env]. rewrite (fset_env T p t z Et R1). exact (proj1 HI).
    + cbn [mem]. eapply heap_is_perm; [exact H1|]. now rewrite (HF z R1).
    + now rewrite fset_value, V1, HS.
  - destruct (related p q) eqn:HR; [discriminate|]. cbn [argument_value] in HE.
    destruct (value_at S q) as [v|] eqn:Ev; [|discriminate]. unfold update_at in HE.
    destruct (value_at (set_value S q (emptied rest v)) p) as [w|] eqn:Ew; [|discriminate]. injection HE as <-.
    exists (1 + store_depth S). intros f s T Hf HI HS.
    rewrite <- HS, fget_value in Ev. destruct (fget T q) as [u|] eqn:Eu; [|discriminate]. injection Ev as <-.
    rewrite <- HS, <- value_ahollow, <- fset_value, fget_value in Ew. rewrite (fget_other T p q _ u HR Eu) in Ew.
    destruct (fget T p) as [t|] eqn:Et; [|discriminate]. injection Ew as <-.
    assert (HD : vdepth (value t) <= store_depth S). { apply depth_at with p. rewrite <- HS, fget_value, Et. reflexivity. }
    rewrite (locate_ok s T q u HI Eu). unfold call. rewrite (locate_ok s T p t HI Et). cbn [obind].
    destruct (two_places_frame T p q t u HR Et Eu) as [F HF]. pose proof (HF t u eq_refl eq_refl) as HF0.
    rewrite (fset_same _ _ _ Eu), (fset_same _ _ _ Et) in HF0.
    destruct (move_assign_ok rest f (mem s) t u F) as [h1 [E1 H1]]; [eapply heap_is_perm; [exact (proj2 HI)|exact HF0]|lia|].
    rewrite E1. cbn [obind]. exists (mk_machine (env s) h1), (fset (fset T q (ahollow rest u)) p (reroot u (root t))). split; [reflexivity|]. split; [split|].
    + cbn [env]. rewrite (fset_env _ p t); [|now rewrite (fget_other T p q _ u HR Eu)|apply root_reroot].
      rewrite (fset_env T q u _ Eu (root_ahollow rest u)). exact (proj1 HI).
    + cbn [mem]. eapply heap_is_perm; [exact H1|]. rewrite HF; [reflexivity|apply root_reroot|apply root_ahollow].
    + now rewrite !fset_value, value_reroot, value_ahollow, HS.
  - destruct (argument_value rest S arg) as [[v S1]|] eqn:HA; [|discriminate].
    apply (call_with_ok S arg v S1 p append_child S2 (append_child_rule rest) HA HE). intros f h x y G H Hd _. now apply append_child_ok.
  - destruct (argument_value rest S arg) as [[v S1]|] eqn:HA; [|discriminate].
    apply (call_with_ok S arg v S1 p append_next S2 (append_next_rule rest) HA HE). intros f h x y G H Hd _. now apply append_next_ok.
  - destruct (argument_value rest S arg) as [[v S1]|] eqn:HA; [|discriminate].
    apply (call_with_ok S arg v S1 p append_nested S2 (fun f => append_nested_rule rest f grow) HA HE). intros f h x y G H _ Hf. now apply append_nested_ok.
  - exists 0. intros f s T _ HI HS. refine (call_ok S p (fun w => append_match w m) S2 (fun _ h a => append_match_rule h a m) HE _ f s T HI HS).
    intros _ h x G H. now apply append_match_ok.
  - exists 0. intros f s T _ HI HS. refine (call_ok S p (fun w => append_capture w c) S2 (fun _ h a => append_capture_rule h a c) HE _ f s T HI HS).
    intros _ h x G H. now apply append_capture_ok.
  - exists 0. intros f s T _ HI HS. refine (call_ok S p (flag_set fl) S2 (fun _ h a => change h a (fun m => set_flag m fl)) HE _ f s T HI HS).
    intros _ h x' G H. now apply set_flag_ok.
  - destruct (var_get S x) as [r|] eqn:Ex; [|discriminate]. injection HE as <-. exists (1 + store_depth S). intros f s T Hf HI HS.
    pose proof (var_depth _ _ _ Ex) as HD. rewrite <- HS in Ex. unfold fstore in Ex. rewrite (var_get_map value) in Ex.
    destruct (var_get T x) as [t|] eqn:Et; [|discriminate]. injection Ex as <-. rewrite (proj1 HI). unfold fenv at 1. rewrite (var_get_map root), Et. cbn [option_map].
    destruct (destroy_ok t f) with (h := mem s) (F := fcells (var_del T x)) as [h1 [E1 H1]]; [lia|eapply heap_is_perm; [exact (proj2 HI)|now apply var_del_cells]|].
    rewrite E1. cbn [obind]. exists (mk_machine (var_del (fenv T) x) h1), (var_del T x). split; [reflexivity|]. split; [split|].
    + cbn [env]. now rewrite var_del_env.
    + exact H1.
    + now rewrite var_del_store, HS.
Qed.

Theorem run_inv l : forall S S2, effects rest S l = Some S2 ->
  exists f0, forall f s T, f0 <= f -> inv s T -> fstore T = S ->
  exists s' T', run rest f s l = Some (Ok s') /\ inv s' T' /\ fstore T' = S2.
Proof.
  induction l as [|st l IH]; intros S S2 H; cbn [effects run] in *.
  - injection H as <-. exists 0. intros f s T _ HI HS. eauto.
  - destruct (effect rest S st) as [S1|] eqn:E; [|discriminate]. destruct (step_ok S st S1 E) as [f1 H1]. destruct (IH S1 S2 H) as [f2 H2].
    exists (f1 + f2). intros f s T Hf HI HS. destruct (H1 f s T ltac:(lia) HI HS) as [s' [T' [E1 [HI1 HS1]]]]. rewrite E1.
    apply (H2 f s' T'); [lia|exact HI1|exact HS1].
Qed.

End Steps.

(** ** The statement for the specification *)

Lemma reads_ok h x : (forall a c, In (a, c) (acells x) -> cell_get (h_cells h) a = Some c) -> reads h (root x) (value x) (map fst (acells x)).
Proof.
  induction x as [a c n l ms cs t o g name IHc IHn IHl] using atree_ind2. intros H. rewrite acells_eq, value_eq in *.
  cbn [map fst root]. rewrite !map_app.
  set (m := members_of (ANode a c n l ms cs t o g name)) in *.
  change t with (o_tag m). change o with (o_optional m). change g with (o_greedy m). change name with (o_name m).
  apply reads_rule.
  - apply H. now left.
  - unfold m. cbn [members_of o_child]. destruct c as [c|]; cbn [option_map opt_list]; [|constructor]. constructor. apply IHc; [reflexivity|].
    intros b d Hb. apply H. right. cbn [opt_list]. rewrite in_app_iff. now left.
  - unfold m. cbn [members_of o_next]. destruct n as [n|]; cbn [option_map opt_list]; [|constructor]. constructor. apply IHn; [reflexivity|].
    intros b d Hb. apply H. right. cbn [opt_list]. rewrite !in_app_iff. right. now left.
  - assert (HL : forall b d, In (b, d) (flat_map acells l) -> cell_get (h_cells h) b = Some d).
    { intros b d Hb. apply H. right. rewrite !in_app_iff. right. right. now left. }
    unfold m. cbn [members_of o_nested]. clear - IHl HL. induction l as [|x l IH]; cbn [map flat_map]; [constructor|]. inversion IHl as [|? ? H1 H2]; subst.
    rewrite map_app. constructor.
    + apply H1. intros b d Hb. apply HL. cbn [flat_map]. rewrite in_app_iff. now left.
    + apply IH; [exact H2|]. intros b d Hb. apply HL. cbn [flat_map]. rewrite in_app_iff. now right.
  - assert (HL : forall b d, In (b, d) (match_cells ms) -> cell_get (h_cells h) b = Some d).
    { intros b d Hb. apply H. right. rewrite !in_app_iff. right. right. right. now left. }
    unfold m. cbn [members_of o_matches]. clear - HL. induction ms as [|[[b d]|] ms IH]; cbn [map option_map fst snd]; unfold match_cells in *; cbn [flat_map map app fst] in *; constructor.
    + apply HL. now left.
    + apply IH. intros b' d' Hb. apply HL. now right.
    + apply IH. exact HL.
  - assert (HL : forall b d, In (b, d) (capture_cells cs) -> cell_get (h_cells h) b = Some d).
    { intros b d Hb. apply H. right. rewrite !in_app_iff. right. right. right. now right. }
    unfold m. cbn [members_of o_captures]. clear - HL. induction cs as [|[[b d]|] cs IH]; cbn [map option_map fst snd]; unfold capture_cells in *; cbn [flat_map map app fst] in *; constructor.
    + apply HL. now left.
    + apply IH. intros b' d' Hb. apply HL. now right.
    + apply IH. exact HL.
Qed.

Lemma inv_sound s T : inv s T -> sound s (fstore T).
Proof.
  intros [HE [H1 H2]]. split; [|exact H2]. exists (map fst (fcells T)). split; [|symmetry; now apply Permutation_map].
  rewrite HE. assert (HG : forall a c, In (a, c) (fcells T) -> cell_get (h_cells (mem s)) a = Some c).
  { intros a c Hin. eapply get_cell; [split; [exact H1|exact H2]|exact Hin]. }
  clear - HG. induction T as [|[v x] T IH]; [constructor|]. cbn [fenv fstore map fst snd fcells flat_map]. rewrite map_app. constructor.
  - apply reads_ok. intros a c Hin. apply HG. cbn [fcells flat_map snd]. rewrite in_app_iff. now left.
  - apply IH. intros a c Hin. apply HG. cbn [fcells flat_map snd]. rewrite in_app_iff. now right.
Qed.

Theorem programs_sound rest l S : effects rest [] l = Some S ->
  exists f0, forall f, f0 <= f -> exists s, run rest f start l = Some (Ok s) /\ sound s S.
Proof.
  intros H. destruct (run_inv rest l [] S H) as [f0 H0]. exists f0. intros f Hf.
  destruct (H0 f start [] Hf) as [s [T [E [HI HS]]]].
  - split; [reflexivity|]. split; [reflexivity|]. unfold whole. reflexivity.
  - reflexivity.
  - exists s. split; [exact E|]. rewrite <- HS. now apply inv_sound.
Qed.

(** At the end of all variables every object has been destroyed, once. *)
Theorem programs_end rest l : effects rest [] l = Some [] ->
  exists f0, forall f, f0 <= f -> exists s, run rest f start l = Some (Ok s) /\
    h_cells (mem s) = [] /\ Permutation (h_freed (mem s)) (seq 0 (h_fresh (mem s))).
Proof.
  intros H. destruct (programs_sound rest l [] H) as [f0 H0]. exists f0. intros f Hf. destruct (H0 f Hf) as [s [E [[fps [HV HP]] HW]]].
  exists s. split; [exact E|]. inversion HV; subst. apply Permutation_nil in HP. unfold alive in *. apply map_eq_nil in HP. rewrite HP in *. split; [reflexivity|].
  cbn [map] in HW. now rewrite app_nil_r in HW.
Qed.
