(** Reference counts of the conversion to Python objects. *)

From Coq Require Import Ascii String Arith NArith Bool List Lia.
From Verif Require Import Base StringUtil Match RuleMatching Convert ConvertSpec ConvertProofs ExtractSpec ResultProofs PyRefs PySpec.
Import ListNotations.

Definition pycells := list (pyid * (nat * pydata)).
Definition occ (x : pyid) (l : list pyid) : nat := count_occ Nat.eq_dec l x.
Definition all_held (l : pycells) : list pyid := flat_map (fun c => held (snd (snd c))) l.
Definition refs (l : pycells) (x : pyid) : nat := occ x (all_held l).
Definition cnt (l : pycells) (x : pyid) : nat := match cell l x with Some (n, _) => n | None => 0 end.

Lemma occ_app x l m : occ x (l ++ m) = occ x l + occ x m.
Proof. apply count_occ_app. Qed.
Lemma occ_cons x y l : occ x (y :: l) = (if Nat.eqb x y then 1 else 0) + occ x l.
Proof.
  unfold occ. cbn [count_occ]. destruct (Nat.eq_dec y x) as [e|e]; destruct (Nat.eqb_spec x y); congruence || lia.
Qed.
Lemma occ_in x l : In x l <-> 0 < occ x l.
Proof. unfold occ. apply count_occ_In. Qed.

(** ** Cells *)

Lemma cell_in l x c : cell l x = Some c -> In (x, c) l.
Proof.
  induction l as [|[y d] l IH]; simpl; [discriminate|]. destruct (Nat.eqb_spec x y) as [->|_].
  - intros H. injection H as ->. now left.
  - intros H. right. now apply IH.
Qed.
Lemma cell_none l x : cell l x = None <-> ~ In x (map fst l).
Proof.
  induction l as [|[y d] l IH]; simpl; [tauto|]. destruct (Nat.eqb_spec x y) as [->|Hne].
  - split; [discriminate|]. intros H. exfalso. apply H. now left.
  - rewrite IH. intuition.
Qed.
Lemma cell_some_in l x c : cell l x = Some c -> In x (map fst l).
Proof. intros H. apply cell_in in H. apply in_map_iff. now exists (x, c). Qed.

Lemma map_fst_put l x c : map fst (put l x c) = map fst l.
Proof. induction l as [|[y d] l IH]; simpl; [reflexivity|]. destruct (Nat.eqb x y); simpl; congruence. Qed.

Lemma cell_put l x c y : In x (map fst l) ->
  cell (put l x c) y = if Nat.eqb y x then Some c else cell l y.
Proof.
  induction l as [|[z d] l IH]; simpl; [intros []|]. intros Hin.
  destruct (Nat.eqb_spec x z) as [->|Hne].
  - simpl. now destruct (Nat.eqb y z).
  - destruct Hin as [->|Hin]; [congruence|]. simpl. rewrite IH by exact Hin.
    destruct (Nat.eqb_spec y z) as [->|]; [|reflexivity]. destruct (Nat.eqb_spec z x); congruence.
Qed.

Lemma in_drop l x y : In y (map fst (drop l x)) -> In y (map fst l).
Proof.
  induction l as [|[z d] l IH]; simpl; [auto|]. destruct (Nat.eqb x z); simpl; [auto|]. intros [H|H]; auto.
Qed.
Lemma nodup_drop l x : NoDup (map fst l) -> NoDup (map fst (drop l x)).
Proof.
  induction l as [|[z d] l IH]; simpl; intros H; [constructor|]. inversion H; subst.
  destruct (Nat.eqb x z); simpl; [assumption|]. constructor; [|auto]. intros Hin. now apply in_drop in Hin.
Qed.
Lemma cell_drop l x y : NoDup (map fst l) -> cell (drop l x) y = if Nat.eqb y x then None else cell l y.
Proof.
  induction l as [|[z d] l IH]; simpl; intros H; [now destruct (Nat.eqb y x)|]. inversion H; subst.
  destruct (Nat.eqb_spec x z) as [->|Hne].
  - destruct (Nat.eqb_spec y z) as [e|]; [|reflexivity]. subst y. now apply cell_none.
  - simpl. destruct (Nat.eqb_spec y z) as [e|].
    + subst y. destruct (Nat.eqb_spec z x); congruence.
    + now apply IH.
Qed.

Lemma refs_put l x n d n' d' y : cell l x = Some (n, d) ->
  refs (put l x (n', d')) y + occ y (held d) = refs l y + occ y (held d').
Proof.
  unfold refs, all_held. induction l as [|[z c] l IH]; simpl; [discriminate|].
  destruct (Nat.eqb x z); intros H; simpl; rewrite !occ_app.
  - injection H as ->. simpl. lia.
  - specialize (IH H). lia.
Qed.
Lemma refs_drop l x n d y : cell l x = Some (n, d) -> refs (drop l x) y + occ y (held d) = refs l y.
Proof.
  unfold refs, all_held. induction l as [|[z c] l IH]; simpl; [discriminate|].
  destruct (Nat.eqb x z); intros H; simpl; rewrite !occ_app.
  - injection H as ->. simpl. lia.
  - specialize (IH H). lia.
Qed.
Lemma references_put l x n d n' d' : cell l x = Some (n, d) ->
  references (put l x (n', d')) + n = references l + n'.
Proof.
  unfold references. induction l as [|[z c] l IH]; simpl; [discriminate|].
  destruct (Nat.eqb x z); intros H; simpl.
  - injection H as ->. simpl. lia.
  - specialize (IH H). lia.
Qed.
Lemma references_drop l x n d : cell l x = Some (n, d) -> references (drop l x) + n = references l.
Proof.
  unfold references. induction l as [|[z c] l IH]; simpl; [discriminate|].
  destruct (Nat.eqb x z); intros H; simpl.
  - injection H as ->. simpl. lia.
  - specialize (IH H). lia.
Qed.
Lemma references_ge l x n d : cell l x = Some (n, d) -> n <= references l.
Proof. intros H. pose proof (references_drop l x n d H). lia. Qed.

Lemma refs_held l x n d y : cell l x = Some (n, d) -> In y (held d) -> 0 < refs l y.
Proof. intros H Hy. pose proof (refs_drop l x n d y H). apply occ_in in Hy. lia. Qed.
Lemma refs_in l y : 0 < refs l y -> exists x n d, In (x, (n, d)) l /\ In y (held d).
Proof.
  unfold refs. rewrite <- occ_in. unfold all_held. rewrite in_flat_map. intros [[x [n d]] [H1 H2]]. eauto.
Qed.
Lemma in_cell l x c : NoDup (map fst l) -> In (x, c) l -> cell l x = Some c.
Proof.
  induction l as [|[z d] l IH]; simpl; intros H Hin; [destruct Hin|]. inversion H; subst.
  destruct Hin as [Hin|Hin].
  - injection Hin as -> ->. now rewrite Nat.eqb_refl.
  - destruct (Nat.eqb_spec x z) as [->|]; [|auto]. exfalso. apply H2. apply in_map_iff. now exists (z, c).
Qed.

(** ** The invariant: every count is the number of references to the object,
    from other objects and from the owners [roots] *)

Record wf (l : pycells) (f : pyid) (roots : list pyid) : Prop := {
  w_nodup : NoDup (map fst l);
  w_bound : forall x c, cell l x = Some c -> x < f;
  w_pos : forall x n d, cell l x = Some (n, d) -> 0 < n;
  w_count : forall x, cnt l x = refs l x + occ x roots;
  w_up : forall x n d y, cell l x = Some (n, d) -> In y (held d) -> x < y
}.

Definition alive (l : pycells) (x : pyid) : Prop := exists c, cell l x = Some c.

Lemma wf_alive l f roots x : wf l f roots -> 0 < refs l x \/ In x roots -> exists n d, cell l x = Some (S n, d).
Proof.
  intros H Hx. pose proof (w_count _ _ _ H x) as Hc. unfold cnt in Hc.
  assert (0 < refs l x + occ x roots) by (destruct Hx as [Hx|Hx]; [lia|apply occ_in in Hx; lia]).
  destruct (cell l x) as [[[|n] d]|]; [lia|eauto|lia].
Qed.

Lemma wf_perm l f roots roots' : (forall x, occ x roots = occ x roots') -> wf l f roots -> wf l f roots'.
Proof.
  intros Ho [H1 H2 H3 H4 H5]. split; auto. intros x. now rewrite <- Ho.
Qed.

Lemma release_ok : forall fuel todo l f roots, wf l f (todo ++ roots) -> references l <= fuel ->
  exists l', release fuel todo l = Ok l' /\ wf l' f roots /\
    (forall x n d, cell l' x = Some (n, d) -> exists n', cell l x = Some (n', d)) /\
    (forall x, refs l' x <= refs l x).
Proof.
  induction fuel as [|fuel IH]; intros todo l f roots HW Hf.
  - destruct todo as [|x todo].
    + exists l. split; [reflexivity|]. split; [exact HW|]. split; eauto.
    + destruct (wf_alive _ _ _ x HW) as [n [d Hx]]; [right; now left|].
      pose proof (references_ge _ _ _ _ Hx). lia.
  - destruct todo as [|x todo]; cbn [release].
    { exists l. split; [reflexivity|]. split; [exact HW|]. split; eauto. }
    destruct (wf_alive _ _ _ x HW) as [n [d Hx]]; [right; now left|]. rewrite Hx.
    pose proof (cell_some_in _ _ _ Hx) as Hin. destruct HW as [W1 W2 W3 W4 W5].
    destruct n as [|n].
    + (* the object dies *)
      assert (HW' : wf (drop l x) f ((held d ++ todo) ++ roots)).
      { assert (Hrx : refs l x = 0 /\ occ x (todo ++ roots) = 0).
        { specialize (W4 x). unfold cnt in W4. rewrite Hx in W4. cbn [app] in W4. rewrite occ_cons, Nat.eqb_refl in W4. lia. }
        split.
        - now apply nodup_drop.
        - intros y c. rewrite cell_drop by exact W1. destruct (Nat.eqb y x); [discriminate|]. apply W2.
        - intros y m e. rewrite cell_drop by exact W1. destruct (Nat.eqb y x); [discriminate|]. apply W3.
        - intros y. unfold cnt. rewrite cell_drop by exact W1. pose proof (refs_drop _ _ _ _ y Hx).
          rewrite <- app_assoc, occ_app. destruct (Nat.eqb_spec y x) as [->|Hne]; [lia|].
          specialize (W4 y). unfold cnt in W4. rewrite W4. cbn [app]. rewrite occ_cons.
          destruct (Nat.eqb_spec y x); [congruence|]. lia.
        - intros y m e z. rewrite cell_drop by exact W1. destruct (Nat.eqb y x); [discriminate|]. apply W5. }
      destruct (IH _ _ _ _ HW') as [l' [H1 [H2 [H3 H4]]]].
      { pose proof (references_drop _ _ _ _ Hx). lia. }
      exists l'. split; [exact H1|]. split; [exact H2|]. split.
      * intros y m e Hy. destruct (H3 y m e Hy) as [m' Hm]. rewrite cell_drop in Hm by exact W1.
        destruct (Nat.eqb y x); [discriminate|]. eauto.
      * intros y. specialize (H4 y). pose proof (refs_drop _ _ _ _ y Hx). lia.
    + assert (Hr : forall y, refs (put l x (S n, d)) y = refs l y).
      { intros y. pose proof (refs_put l x _ _ (S n) d y Hx). lia. }
      assert (HW' : wf (put l x (S n, d)) f (todo ++ roots)).
      { split.
        - now rewrite map_fst_put.
        - intros y c. rewrite cell_put by exact Hin. destruct (Nat.eqb_spec y x) as [->|]; [intros _; eauto|apply W2].
        - intros y m e. rewrite cell_put by exact Hin. destruct (Nat.eqb_spec y x) as [->|]; [|apply W3].
          intros H. injection H as <- <-. lia.
        - intros y. unfold cnt. rewrite cell_put by exact Hin. rewrite Hr. specialize (W4 y). cbn [app] in W4.
          rewrite occ_cons in W4. unfold cnt in W4. revert W4. destruct (Nat.eqb_spec y x) as [e|]; intros W4; [|lia]. subst y. rewrite Hx in W4. lia.
        - intros y m e z. rewrite cell_put by exact Hin. destruct (Nat.eqb_spec y x) as [->|]; [|apply W5].
          intros H. injection H as <- <-. eapply W5; eauto. }
      destruct (IH _ _ _ _ HW') as [l' [H1 [H2 [H3 H4]]]].
      { pose proof (references_put _ _ _ _ (S n) d Hx). lia. }
      exists l'. split; [exact H1|]. split; [exact H2|]. split.
      * intros y m e Hy. destruct (H3 y m e Hy) as [m' Hm]. rewrite cell_put in Hm by exact Hin.
        revert Hm. destruct (Nat.eqb_spec y x) as [e0|]; [|eauto]. intros Hm. subst y. injection Hm as _ <-. eauto.
      * intros y. specialize (H4 y). rewrite Hr in H4. exact H4.
Qed.

(** Without owners there are no objects. *)
Lemma wf_empty l f : wf l f [] -> l = [].
Proof.
  intros HW.
  assert (H : forall k x, x < k -> cell l x = None).
  { induction k as [|k IH]; intros x Hx; [lia|].
    destruct (cell l x) as [[n d]|] eqn:Ex; [|reflexivity]. exfalso.
    pose proof (w_pos _ _ _ HW _ _ _ Ex). pose proof (w_count _ _ _ HW x) as Hc. unfold cnt in Hc. rewrite Ex in Hc.
    simpl in Hc. rewrite Nat.add_0_r in Hc.
    destruct (refs_in l x) as [y [m [e [Hin Hy]]]]; [lia|].
    apply in_cell in Hin; [|exact (w_nodup _ _ _ HW)].
    pose proof (w_up _ _ _ HW _ _ _ _ Hin Hy). rewrite IH in Hin by lia. discriminate. }
  destruct l as [|[x c] l]; [reflexivity|]. specialize (H (S x) x ltac:(lia)). simpl in H. now rewrite Nat.eqb_refl in H.
Qed.

(** ** What objects hold *)

Inductive shape : Type :=
| ShStr (x : str)
| ShMany (vs : list str)
| ShDict (o : object)
| ShResult (os : list object).

Definition hp (l : pycells) : pyheap := mk_pyheap l 0 0.
Definition has_shape (l : pycells) (x : pyid) (sh : shape) : Prop :=
  match sh with
  | ShStr v => is_str (hp l) x v
  | ShMany vs => is_member (hp l) x (Many vs)
  | ShDict o => is_dict (hp l) x o
  | ShResult os => is_list_of_dicts (hp l) x os
  end.

Section Closed.
Variables l l' : pycells.
Variable P : pyid -> Prop.
Hypothesis HP : forall x n d, P x -> cell l x = Some (n, d) ->
  (exists n', cell l' x = Some (n', d)) /\ forall y, In y (held d) -> P y.

Lemma str_closed x v : P x -> is_str (hp l) x v -> is_str (hp l') x v.
Proof. intros Hx [n H]. destruct (HP _ _ _ Hx H) as [[n' H'] _]. now exists n'. Qed.

Lemma strs_closed ids vs : (forall y, In y ids -> P y) -> Forall2 (is_str (hp l)) ids vs -> Forall2 (is_str (hp l')) ids vs.
Proof.
  intros Hi H. induction H as [|i v ids vs H1 H2 IH]; constructor.
  - apply str_closed; [apply Hi; now left|exact H1].
  - apply IH. intros; apply Hi; now right.
Qed.
Lemma member_closed x m : P x -> is_member (hp l) x m -> is_member (hp l') x m.
Proof.
  destruct m as [v|vs]; intros Hx H; simpl in *; [now apply str_closed|].
  destruct H as [n [ids [H1 H2]]]. destruct (HP _ _ _ Hx H1) as [[n' H'] Hc]. exists n', ids. split; [exact H'|].
  now apply strs_closed.
Qed.
Lemma members_closed (ml : list (str * pyid)) o : (forall y, In y (map snd ml) -> P y) ->
  Forall2 (fun a b => fst a = fst b /\ is_member (hp l) (snd a) (snd b)) ml o ->
  Forall2 (fun a b => fst a = fst b /\ is_member (hp l') (snd a) (snd b)) ml o.
Proof.
  intros Hi H. induction H as [|i v ids vs [H0 H1] H2 IH]; constructor.
  - split; [exact H0|]. apply member_closed; [apply Hi; now left|exact H1].
  - apply IH. intros; apply Hi; now right.
Qed.
Lemma dict_closed x o : P x -> is_dict (hp l) x o -> is_dict (hp l') x o.
Proof.
  intros Hx [n [ml [H1 H2]]]. destruct (HP _ _ _ Hx H1) as [[n' H'] Hc]. exists n', ml. split; [exact H'|].
  now apply members_closed.
Qed.
Lemma dicts_closed ids vs : (forall y, In y ids -> P y) -> Forall2 (is_dict (hp l)) ids vs -> Forall2 (is_dict (hp l')) ids vs.
Proof.
  intros Hi H. induction H as [|i v ids vs H1 H2 IH]; constructor.
  - apply dict_closed; [apply Hi; now left|exact H1].
  - apply IH. intros; apply Hi; now right.
Qed.
Lemma shape_closed x sh : P x -> has_shape l x sh -> has_shape l' x sh.
Proof.
  destruct sh; intros Hx H; simpl in *.
  - now apply str_closed.
  - now apply (member_closed x (Many vs)).
  - now apply dict_closed.
  - destruct H as [n [ids [H1 H2]]]. destruct (HP _ _ _ Hx H1) as [[n' H'] Hc]. exists n', ids. split; [exact H'|].
    now apply dicts_closed.
Qed.
End Closed.

(** ** The calls of the API *)

Definition fixed (l : pycells) (conts : list (pyid * shape)) : Prop :=
  NoDup (map fst conts) /\ Forall (fun c => refs l (fst c) = 0 /\ has_shape l (fst c) (snd c)) conts.
Definition inv (h : pyheap) (conts : list (pyid * shape)) : Prop :=
  wf (cells h) (fresh h) (map fst conts) /\ fixed (cells h) conts.

Lemma decref_inv h v extra conts :
  wf (cells h) (fresh h) (v :: extra ++ map fst conts) -> fixed (cells h) conts ->
  exists h', Py_DECREF (Some v) h = Ok h' /\ fresh h' = fresh h /\
    wf (cells h') (fresh h') (extra ++ map fst conts) /\ fixed (cells h') conts.
Proof.
  intros HW [HN HF]. unfold Py_DECREF.
  destruct (release_ok (S (references (cells h))) [v] (cells h) (fresh h) _ HW ltac:(lia)) as [l' [H1 [H2 [H3 H4]]]].
  rewrite H1. cbn [obind]. eexists. split; [reflexivity|]. cbn [cells fresh]. split; [reflexivity|]. split; [exact H2|].
  split; [exact HN|]. rewrite Forall_forall in *. intros c Hc. destruct (HF c Hc) as [F1 F2].
  split; [specialize (H4 (fst c)); lia|].
  eapply (shape_closed (cells h) l' (alive l')); [|..|exact F2].
  - intros x n d [[n' d'] Hx] Hc'. destruct (H3 _ _ _ Hx) as [n0 H0]. rewrite Hc' in H0. injection H0 as _ <-.
    split; [eauto|]. intros y Hy. destruct (wf_alive _ _ _ y H2) as [k [e He]]; [left; eapply refs_held; eauto|]. red. eauto.
  - destruct (wf_alive _ _ _ (fst c) H2) as [k [e He]]; [|red; eauto].
    right. apply in_or_app. right. now apply in_map.
Qed.

Lemma inv_called h conts : inv h conts -> inv (called h) conts.
Proof. intros H. exact H. Qed.

Lemma root_lt h conts y : inv h conts -> In y (map fst conts) -> y < fresh h.
Proof.
  intros [HW _] Hy. destruct (wf_alive _ _ _ y HW) as [n [d Hn]]; [now right|]. eapply w_bound; eauto.
Qed.

Lemma new_inv d sh h conts : held d = [] ->
  (forall l n x, cell l x = Some (n, d) -> has_shape l x sh) ->
  inv h conts ->
  inv (mk_pyheap ((fresh h, (1, d)) :: cells h) (S (fresh h)) (S (calls h))) ((fresh h, sh) :: conts).
Proof.
  intros Hd Hsh HI. pose proof (root_lt h conts) as Hlt. destruct HI as [HW [HN HF]].
  pose proof HW as HW0. destruct HW as [W1 W2 W3 W4 W5].
  assert (Hfr : cell (cells h) (fresh h) = None).
  { destruct (cell (cells h) (fresh h)) as [c|] eqn:Ec; [|reflexivity]. apply W2 in Ec. lia. }
  assert (Hrf : refs (cells h) (fresh h) = 0).
  { specialize (W4 (fresh h)). unfold cnt in W4. rewrite Hfr in W4. lia. }
  assert (Hnf : ~ In (fresh h) (map fst conts)).
  { intros Hin. specialize (Hlt (fresh h) (conj HW0 (conj HN HF)) Hin). lia. }
  assert (Hrefs : forall y, refs ((fresh h, (1, d)) :: cells h) y = refs (cells h) y).
  { intros y. unfold refs, all_held. simpl. now rewrite Hd. }
  split; [split|split]; cbn [cells fresh map fst].
  - constructor; [|exact W1]. now apply cell_none.
  - intros y c. simpl. destruct (Nat.eqb_spec y (fresh h)); [lia|]. intros H. apply W2 in H. lia.
  - intros y n e. simpl. destruct (Nat.eqb_spec y (fresh h)); [|apply W3]. intros H. injection H as <- <-. lia.
  - intros y. rewrite Hrefs, occ_cons. unfold cnt. cbn [cell]. specialize (W4 y). unfold cnt in W4.
    destruct (Nat.eqb_spec y (fresh h)) as [e|]; [|lia]. subst y. rewrite Hfr in W4. lia.
  - intros y n e z. simpl. destruct (Nat.eqb_spec y (fresh h)); [|apply W5]. intros H. injection H as <- <-.
    rewrite Hd. intros [].
  - constructor; assumption.
  - constructor.
    + cbn [fst snd]. rewrite Hrefs. split; [exact Hrf|]. apply (Hsh _ 1). simpl. now rewrite Nat.eqb_refl.
    + rewrite Forall_forall in *. intros c Hc. destruct (HF c Hc) as [F1 F2]. rewrite Hrefs. split; [exact F1|].
      eapply (shape_closed (cells h) _ (fun y => y <> fresh h)); [|..|exact F2].
      * intros x n e Hx Hc'. split.
        { exists n. simpl. destruct (Nat.eqb_spec x (fresh h)); [congruence|exact Hc']. }
        intros y Hy ->. pose proof (refs_held _ _ _ _ _ Hc' Hy). lia.
      * intros Hx. apply Hnf. rewrite <- Hx. now apply in_map.
Qed.

(** A container [p] takes a reference to [v] and gives up those of [old]. *)
Lemma link_wf l f roots v n dv p m dp dp' old :
  wf l f roots -> cell l v = Some (n, dv) -> cell l p = Some (m, dp) -> p < v ->
  (forall y, occ y (held dp') + occ y old = occ y (held dp) + occ y [v]) ->
  wf (put (put l v (S n, dv)) p (m, dp')) f (old ++ roots) /\
  (forall y, refs (put (put l v (S n, dv)) p (m, dp')) y + occ y old = refs l y + occ y [v]).
Proof.
  intros [W1 W2 W3 W4 W5] Hv Hp Hlt Ho.
  pose proof (cell_some_in _ _ _ Hv) as Iv. pose proof (cell_some_in _ _ _ Hp) as Ip.
  assert (Ip' : In p (map fst (put l v (S n, dv)))) by now rewrite map_fst_put.
  assert (Hp' : cell (put l v (S n, dv)) p = Some (m, dp)).
  { rewrite cell_put by exact Iv. destruct (Nat.eqb_spec p v); [lia|exact Hp]. }
  assert (Hrefs : forall y, refs (put (put l v (S n, dv)) p (m, dp')) y + occ y old = refs l y + occ y [v]).
  { intros y. pose proof (refs_put _ _ _ _ m dp' y Hp'). pose proof (refs_put _ _ _ _ (S n) dv y Hv).
    specialize (Ho y). lia. }
  split; [|exact Hrefs].
  assert (Hcell : forall y c, cell (put (put l v (S n, dv)) p (m, dp')) y = Some c ->
    (y = p /\ c = (m, dp')) \/ (y <> p /\ y = v /\ c = (S n, dv)) \/ (y <> p /\ y <> v /\ cell l y = Some c)).
  { intros y c. rewrite cell_put by exact Ip'. destruct (Nat.eqb_spec y p); [intros H; left; split; congruence|].
    rewrite cell_put by exact Iv. destruct (Nat.eqb_spec y v); [intros H; right; left; repeat split; congruence|].
    intros H. right. right. auto. }
  split.
  - now rewrite !map_fst_put.
  - intros y c H. destruct (Hcell y c H) as [[-> _]|[[_ [-> _]]|[_ [_ H']]]]; eauto.
  - intros y k e H. destruct (Hcell _ _ H) as [[-> H']|[[_ [-> H']]|[_ [_ H']]]].
    + injection H' as -> _. eauto.
    + injection H' as -> _. lia.
    + eauto.
  - intros y. specialize (Hrefs y). specialize (W4 y). rewrite occ_app. rewrite occ_cons in Hrefs.
    change (occ y []) with 0 in Hrefs. unfold cnt in *. rewrite cell_put by exact Ip'. rewrite cell_put by exact Iv.
    revert W4 Hrefs. destruct (Nat.eqb_spec y p) as [e|].
    + subst y. rewrite Hp. destruct (Nat.eqb_spec p v); [lia|]. lia.
    + destruct (Nat.eqb_spec y v) as [e|]; [|lia]. subst y. rewrite Hv. lia.
  - intros y k e z H Hz. destruct (Hcell _ _ H) as [[-> H']|[[_ [-> H']]|[_ [_ H']]]].
    + injection H' as -> ->. specialize (Ho z). rewrite occ_cons in Ho. change (occ z []) with 0 in Ho.
      apply occ_in in Hz. revert Ho. destruct (Nat.eqb_spec z v) as [->|]; [intros; exact Hlt|]. intros Ho.
      eapply W5; [exact Hp|]. apply occ_in. lia.
    + injection H' as -> ->. eapply W5; eauto.
    + eapply W5; eauto.
Qed.

Lemma link_shape l v n dv p m dp c x sh :
  cell l v = Some (n, dv) -> cell l p = Some (m, dp) -> refs l p = 0 -> x <> p ->
  has_shape l x sh -> has_shape (put (put l v (S n, dv)) p c) x sh.
Proof.
  intros Hv Hp Hr Hx. apply (shape_closed l _ (fun y => y <> p)); [|exact Hx].
  pose proof (cell_some_in _ _ _ Hv) as Iv. pose proof (cell_some_in _ _ _ Hp) as Ip.
  assert (Ip' : In p (map fst (put l v (S n, dv)))) by now rewrite map_fst_put.
  intros y k e Hy He. split.
  - rewrite cell_put by exact Ip'. destruct (Nat.eqb_spec y p); [congruence|]. rewrite cell_put by exact Iv.
    destruct (Nat.eqb_spec y v) as [E|]; [|eauto]. subst y. rewrite Hv in He. injection He as -> ->. eauto.
  - intros z Hz ->. pose proof (refs_held _ _ _ _ _ He Hz). lia.
Qed.

Lemma Forall2_snoc {A B} (R : A -> B -> Prop) l m a b : Forall2 R l m -> R a b -> Forall2 R (l ++ [a]) (m ++ [b]).
Proof. intros H H'. apply Forall2_app; [exact H|]. constructor; [exact H'|constructor]. Qed.

Lemma Forall2_impl' {A B} (R S : A -> B -> Prop) l m : (forall a b, In a l -> R a b -> S a b) -> Forall2 R l m -> Forall2 S l m.
Proof.
  intros H F. induction F as [|a b l m Hab F IH]; constructor.
  - apply H; [now left|exact Hab].
  - apply IH. intros x y Hx. apply H. now right.
Qed.

(** How the shape of a list changes. *)
Definition appended (sp sv sp' : shape) : Prop :=
  (exists vs x, sp = ShMany vs /\ sv = ShStr x /\ sp' = ShMany (vs ++ [x])) \/
  (exists os o, sp = ShResult os /\ sv = ShDict o /\ sp' = ShResult (os ++ [o])).

Section Calls.
Variable refuses : nat -> bool.

Lemma append_inv h v sv p sp sp' rest :
  inv h ((v, sv) :: (p, sp) :: rest) -> p < v -> appended sp sv sp' ->
  exists h', PyList_Append refuses p v h = Ok (h', negb (refuses (calls h))) /\
    if refuses (calls h) then h' = called h
    else fresh h' = fresh h /\ wf (cells h') (fresh h') (v :: p :: map fst rest) /\ fixed (cells h') ((p, sp') :: rest).
Proof.
  intros [HW [HN HF]] Hlt Hs. unfold PyList_Append. destruct (refuses (calls h)); [eexists; split; reflexivity|].
  cbn [map fst] in HW, HN. inversion HN as [|? ? Hv0 HN']; subst. inversion HN' as [|? ? Hp0 HN'']; subst.
  inversion HF as [|? ? [Rv Sv] HF']; subst. inversion HF' as [|? ? [Rp Sp] HF'']; subst. cbn [fst snd] in *.
  destruct (wf_alive _ _ _ v HW) as [n [dv Hv]]; [right; now left|]. rewrite Hv.
  assert (Hp : exists m items, cell (cells h) p = Some (m, PyList items)).
  { destruct Hs as [[vs [x [-> _]]]|[os [o [-> _]]]]; destruct Sp as [m [items [Sp _]]]; eauto. }
  destruct Hp as [m [items Hp]].
  rewrite cell_put by (eapply cell_some_in; eauto). destruct (Nat.eqb_spec p v); [lia|]. rewrite Hp.
  eexists. split; [reflexivity|]. cbn [cells fresh]. split; [reflexivity|].
  destruct (link_wf (cells h) (fresh h) _ v (S n) dv p m (PyList items) (PyList (items ++ [v])) [] HW Hv Hp Hlt) as [L1 L2].
  { intros y. cbn [held]. rewrite occ_app. change (occ y []) with 0. lia. }
  split; [exact L1|]. split; [constructor; [exact Hp0|exact HN'']|].
  assert (Hr : forall y, y <> v -> refs (put (put (cells h) v (S (S n), dv)) p (m, PyList (items ++ [v]))) y = refs (cells h) y).
  { intros y Hy. specialize (L2 y). rewrite occ_cons in L2. change (occ y []) with 0 in L2.
    destruct (Nat.eqb_spec y v); [congruence|]. lia. }
  constructor.
  - cbn [fst snd]. split; [rewrite Hr by lia; exact Rp|].
    assert (Hget : cell (put (put (cells h) v (S (S n), dv)) p (m, PyList (items ++ [v]))) p = Some (m, PyList (items ++ [v]))).
    { rewrite cell_put by (rewrite map_fst_put; eapply cell_some_in; eauto). now rewrite Nat.eqb_refl. }
    assert (Hit : forall i, In i items -> i <> p).
    { intros i Hi ->. pose proof (refs_held _ _ _ _ _ Hp Hi). lia. }
    destruct Hs as [[vs [x [-> [-> ->]]]]|[os [o [-> [-> ->]]]]].
    + destruct Sp as [m' [items' [Sp1 Sp2]]]. cbn [hp cells] in Sp1. rewrite Hp in Sp1. injection Sp1 as <- <-.
      exists m, (items ++ [v]). split; [exact Hget|]. apply Forall2_snoc.
      * eapply Forall2_impl'; [|exact Sp2]. intros i y Hi HS.
        apply (link_shape (cells h) v (S n) dv p m (PyList items) _ i (ShStr y)); auto.
      * apply (link_shape (cells h) v (S n) dv p m (PyList items) _ v (ShStr x)); auto; lia.
    + destruct Sp as [m' [items' [Sp1 Sp2]]]. cbn [hp cells] in Sp1. rewrite Hp in Sp1. injection Sp1 as <- <-.
      exists m, (items ++ [v]). split; [exact Hget|]. apply Forall2_snoc.
      * eapply Forall2_impl'; [|exact Sp2]. intros i y Hi HS.
        apply (link_shape (cells h) v (S n) dv p m (PyList items) _ i (ShDict y)); auto.
      * apply (link_shape (cells h) v (S n) dv p m (PyList items) _ v (ShDict o)); auto; lia.
  - rewrite Forall_forall in *. intros c Hc. destruct (HF'' c Hc) as [F1 F2].
    assert (fst c <> p) by (intros E; apply Hp0; rewrite <- E; now apply in_map).
    assert (fst c <> v) by (intros E; apply Hv0; right; rewrite <- E; now apply in_map).
    split; [rewrite Hr by assumption; exact F1|]. eapply link_shape; eauto.
Qed.

(** Members of a dict *)

Lemma dict_get_occ l key v y :
  occ y (map snd (dict_set l key v)) + occ y (match dict_get l key with Some old => [old] | None => [] end) =
  occ y (map snd l) + occ y [v].
Proof.
  induction l as [|[k w] l IH]; cbn [dict_set dict_get map snd].
  - rewrite occ_cons. change (occ y []) with 0. lia.
  - destruct (str_eqb k key); cbn [map snd].
    + rewrite !occ_cons. change (occ y []) with 0. lia.
    + rewrite !(occ_cons y w). rewrite <- Nat.add_assoc, IH. lia.
Qed.

Lemma dict_set_object (R : pyid -> member -> Prop) l o key v m : R v m ->
  Forall2 (fun a b => fst a = fst b /\ R (snd a) (snd b)) l o ->
  Forall2 (fun a b => fst a = fst b /\ R (snd a) (snd b)) (dict_set l key v) (object_set o key m).
Proof.
  intros Hv H. unfold object_set.
  assert (H0 : (FindMember o key = None -> dict_set l key v = l ++ [(key, v)]) /\
    (FindMember o key <> None ->
      Forall2 (fun a b => fst a = fst b /\ R (snd a) (snd b)) (dict_set l key v) (SetMember o key m))).
  { induction H as [|[k w] [k' w'] l o [E HR] H IH]; cbn [fst snd] in *.
    - split; [reflexivity|]. simpl. congruence.
    - subst k'. destruct IH as [IH1 IH2]. simpl. destruct (str_eqb k key); split; intros HF; try congruence.
      + constructor; [auto|exact H].
      + f_equal. auto.
      + constructor; auto. }
  destruct H0 as [H1 H2]. destruct (FindMember o key) as [x|] eqn:EF.
  - apply H2. congruence.
  - rewrite H1 by reflexivity. now apply Forall2_snoc.
Qed.

Definition as_member (sv : shape) (m : member) : Prop :=
  (exists x, sv = ShStr x /\ m = One x) \/ (exists vs, sv = ShMany vs /\ m = Many vs).

Lemma set_item_inv h v sv mem p o key rest :
  inv h ((v, sv) :: (p, ShDict o) :: rest) -> p < v -> as_member sv mem ->
  let ok := utf8 (c_str key) && negb (refuses (calls h)) in
  exists h', PyDict_SetItemString refuses p key v h = Ok (h', ok) /\
    if ok then fresh h' = fresh h /\ wf (cells h') (fresh h') (v :: p :: map fst rest) /\
               fixed (cells h') ((p, ShDict (object_set o (c_str key) mem)) :: rest)
    else h' = called h.
Proof.
  intros [HW [HN HF]] Hlt Hs ok. unfold ok, PyDict_SetItemString.
  destruct (utf8 (c_str key)); [|eexists; split; reflexivity].
  destruct (refuses (calls h)); [eexists; split; reflexivity|]. cbn [negb orb andb].
  cbn [map fst] in HW, HN. inversion HN as [|? ? Hv0 HN']; subst. inversion HN' as [|? ? Hp0 HN'']; subst.
  inversion HF as [|? ? [Rv Sv] HF']; subst. inversion HF' as [|? ? [Rp Sp] HF'']; subst. cbn [fst snd] in *.
  destruct (wf_alive _ _ _ v HW) as [n [dv Hv]]; [right; now left|]. rewrite Hv.
  destruct Sp as [m [items [Hp Sp]]]. cbn [hp cells] in Hp.
  rewrite cell_put by (eapply cell_some_in; eauto). destruct (Nat.eqb_spec p v); [lia|]. rewrite Hp.
  set (l' := put (put (cells h) v (S (S n), dv)) p (m, PyDict (dict_set items (c_str key) v))).
  set (old := match dict_get items (c_str key) with Some x => [x] | None => [] end).
  destruct (link_wf (cells h) (fresh h) _ v (S n) dv p m (PyDict items) (PyDict (dict_set items (c_str key) v)) old HW Hv Hp Hlt) as [L1 L2].
  { intros y. cbn [held]. apply dict_get_occ. }
  fold l' in L1, L2.
  assert (Hr : forall y, y <> v -> refs (cells h) y = 0 -> refs l' y = 0).
  { intros y Hy H0. specialize (L2 y). rewrite occ_cons in L2. change (occ y []) with 0 in L2.
    revert L2. destruct (Nat.eqb_spec y v); [congruence|]. lia. }
  assert (HFix : fixed l' ((p, ShDict (object_set o (c_str key) mem)) :: rest)).
  { split; [constructor; [exact Hp0|exact HN'']|]. constructor.
    - cbn [fst snd]. split; [apply Hr; [lia|exact Rp]|].
      exists m, (dict_set items (c_str key) v). split.
      { cbn [hp cells]. unfold l'. rewrite cell_put by (rewrite map_fst_put; eapply cell_some_in; eauto). now rewrite Nat.eqb_refl. }
      apply (dict_set_object (is_member (hp l'))).
      + destruct Hs as [[x [-> ->]]|[vs [-> ->]]].
        * apply (link_shape (cells h) v (S n) dv p m (PyDict items) _ v (ShStr x)); auto; lia.
        * apply (link_shape (cells h) v (S n) dv p m (PyDict items) _ v (ShMany vs)); auto; lia.
      + eapply Forall2_impl'; [|exact Sp]. intros [k i] [k' b] Hi [HE HS]. cbn [fst snd] in *. split; [exact HE|].
        assert (i <> p).
        { intros ->. assert (Hin : In p (held (PyDict items))) by (cbn [held]; apply in_map_iff; now exists (k, p)).
          pose proof (refs_held _ _ _ _ _ Hp Hin). lia. }
        destruct b as [x|vs].
        * apply (link_shape (cells h) v (S n) dv p m (PyDict items) _ i (ShStr x)); auto.
        * apply (link_shape (cells h) v (S n) dv p m (PyDict items) _ i (ShMany vs)); auto.
    - rewrite Forall_forall in *. intros c Hc. destruct (HF'' c Hc) as [F1 F2].
      assert (fst c <> p) by (intros E; apply Hp0; rewrite <- E; now apply in_map).
      assert (fst c <> v) by (intros E; apply Hv0; right; rewrite <- E; now apply in_map).
      split; [now apply Hr|]. eapply link_shape; eauto. }
  unfold old in L1. destruct (dict_get items (c_str key)) as [x|].
  - destruct (decref_inv (mk_pyheap l' (fresh h) (S (calls h))) x [v] ((p, ShDict (object_set o (c_str key) mem)) :: rest))
      as [h' [D1 [D2 [D3 D4]]]]; [exact L1|exact HFix|].
    rewrite D1. cbn [obind]. exists h'. split; [reflexivity|]. split; [exact D2|]. split; [exact D3|exact D4].
  - eexists. split; [reflexivity|]. cbn [cells fresh]. split; [reflexivity|]. split; [exact L1|exact HFix].
Qed.

End Calls.

(** ** The typemap *)

Lemma convert_total h h' m : forall f it o o', convert_loop h f m it o = Ok o' ->
  forall o2, exists o2', convert_loop h' f m it o2 = Ok o2'.
Proof.
  induction f as [|f IH]; intros [|[name value] it] o o' H o2; cbn [convert_loop] in *; eauto; try discriminate.
  destruct (Nat.ltb (multimap_count m name) 2); eapply IH; eauto.
Qed.

Section Typemap.
Variable refuses : nat -> bool.
(** The names and the values that are handed to Python. *)
Variable N T : str -> Prop.

Definition failure (X : str -> Prop) : Prop := (exists n, refuses n = true) \/ (exists x, X x /\ utf8 (c_str x) = false).

(** Outcomes: with the owners [conts] afterwards. *)
Definition post (conts : list (pyid * shape)) (o : outcome (pyheap * option unit)) : Prop :=
  match o with
  | Ok (h, Some _) => inv h conts
  | Ok (h, None) => wf (cells h) (fresh h) (map fst conts) /\ failure N
  | UB NullDeref => failure T
  | _ => False
  end.
(** The same for the body of a scope that owns [x], too. *)
Definition body_post (x : pyid) (conts : list (pyid * shape)) (o : outcome (pyheap * option unit)) : Prop :=
  match o with
  | Ok (h, Some _) => wf (cells h) (fresh h) (x :: map fst conts) /\ fixed (cells h) conts
  | Ok (h, None) => wf (cells h) (fresh h) (x :: map fst conts) /\ failure N
  | UB NullDeref => failure T
  | _ => False
  end.

Definition makes (make : pyheap -> pyheap * option pyid) (sh : shape) : Prop :=
  forall h conts, inv h conts ->
    (exists h1, make h = (h1, None) /\ failure T) \/
    (exists h1, make h = (h1, Some (fresh h)) /\ inv h1 ((fresh h, sh) :: conts)).

Lemma new_makes d sh : held d = [] -> (forall l n x, cell l x = Some (n, d) -> has_shape l x sh) ->
  makes (py_new refuses d) sh.
Proof.
  intros Hd Hs h conts HI. unfold py_new. destruct (refuses (calls h)) eqn:Er.
  - left. eexists. split; [reflexivity|]. left. eauto.
  - right. eexists. split; [reflexivity|]. now apply new_inv.
Qed.
Lemma list_makes : makes (PyList_New refuses) (ShMany []).
Proof. apply new_makes; [reflexivity|]. intros l n x H. exists n, []. split; [exact H|constructor]. Qed.
Lemma result_makes : makes (PyList_New refuses) (ShResult []).
Proof. apply new_makes; [reflexivity|]. intros l n x H. exists n, []. split; [exact H|constructor]. Qed.
Lemma dict_makes : makes (PyDict_New refuses) (ShDict []).
Proof. apply new_makes; [reflexivity|]. intros l n x H. exists n, []. split; [exact H|constructor]. Qed.
Lemma str_makes x : T x -> makes (PyString_FromString refuses x) (ShStr (c_str x)).
Proof.
  intros HT h conts HI. unfold PyString_FromString. destruct (utf8 (c_str x)) eqn:Eu.
  - apply new_makes; [reflexivity| |exact HI]. intros l n y H. exists n. exact H.
  - left. eexists. split; [reflexivity|]. right. eauto.
Qed.

Lemma scoped_post make sh body h conts conts' : makes make sh -> map fst conts' = map fst conts -> inv h conts ->
  (forall h1 x, inv h1 ((x, sh) :: conts) -> (forall y, In y (map fst conts) -> y < x) -> body_post x conts' (body x h1)) ->
  post conts' (scoped make body h).
Proof.
  intros HM Hids HI HB. unfold scoped. destruct (HM h conts HI) as [[h1 [E Ht]]|[h1 [E HI1]]]; rewrite E.
  - cbn [obind Py_DECREF post]. exact Ht.
  - specialize (HB h1 (fresh h) HI1 (fun y => root_lt h conts y HI)).
    destruct (body (fresh h) h1) as [[h2 [u|]]|e|u|]; cbn [body_post] in HB; cbn [obind]; try contradiction.
    + destruct HB as [B1 B2]. destruct (decref_inv h2 (fresh h) [] conts' B1 B2) as [h3 [D1 [D2 [D3 D4]]]].
      rewrite D1. cbn [obind post]. split; assumption.
    + destruct HB as [B1 B2]. rewrite <- (app_nil_r (map fst conts')) in B1.
      destruct (decref_inv h2 (fresh h) (map fst conts') []) as [h3 [D1 [D2 [D3 D4]]]]; [exact B1|split; constructor|].
      rewrite D1. cbn [obind post]. cbn [map] in D3. rewrite app_nil_r in D3. auto.
    + destruct u; cbn [post]; try contradiction. exact HB.
Qed.

Lemma then_post (m k : py unit) h conts1 conts2 : map fst conts1 = map fst conts2 ->
  post conts1 (m h) -> (forall h1, inv h1 conts1 -> post conts2 (k h1)) -> post conts2 (py_then m k h).
Proof.
  intros Hids Hm Hk. unfold py_then. destruct (m h) as [[h1 [u|]]|e|u|]; cbn [post] in Hm; cbn [obind]; try contradiction.
  - now apply Hk.
  - cbn [post]. rewrite <- Hids. exact Hm.
  - destruct u; try contradiction. exact Hm.
Qed.

Lemma body_then (m k : py unit) h x sh conts conts' : map fst conts = map fst conts' ->
  post ((x, sh) :: conts) (m h) -> (forall h1, inv h1 ((x, sh) :: conts) -> body_post x conts' (k h1)) ->
  body_post x conts' (py_then m k h).
Proof.
  intros Hids Hm Hk. unfold py_then. destruct (m h) as [[h1 [u|]]|e|u|]; cbn [post] in Hm; cbn [obind]; try contradiction.
  - now apply Hk.
  - cbn [body_post]. rewrite <- Hids. exact Hm.
  - destruct u; try contradiction. exact Hm.
Qed.

Lemma checked_append h v sv p sp sp' rest : inv h ((v, sv) :: (p, sp) :: rest) -> p < v -> appended sp sv sp' ->
  body_post v ((p, sp') :: rest) (checked (PyList_Append refuses p v) h).
Proof.
  intros HI Hlt Hs. unfold checked. destruct (append_inv refuses h v sv p sp sp' rest HI Hlt Hs) as [h' [E H]].
  rewrite E. cbn [obind]. destruct (refuses (calls h)) eqn:Er; cbn [negb body_post].
  - subst h'. split; [exact (proj1 HI)|]. left. eauto.
  - exact (proj2 H).
Qed.

Lemma checked_set h v sv mem p o key rest : inv h ((v, sv) :: (p, ShDict o) :: rest) -> p < v -> as_member sv mem -> N key ->
  body_post v ((p, ShDict (object_set o (c_str key) mem)) :: rest) (checked (PyDict_SetItemString refuses p key v) h).
Proof.
  intros HI Hlt Hs HT. unfold checked. destruct (set_item_inv refuses h v sv mem p o key rest HI Hlt Hs) as [h' [E H]].
  rewrite E. cbn [obind]. destruct (utf8 (c_str key)) eqn:Eu, (refuses (calls h)) eqn:Er; cbn [andb negb body_post] in *.
  - subst h'. split; [exact (proj1 HI)|]. left. eauto.
  - exact (proj2 H).
  - subst h'. split; [exact (proj1 HI)|]. left. eauto.
  - subst h'. split; [exact (proj1 HI)|]. right. eauto.
Qed.

Lemma values_post lst rest : forall values vs h,
  (forall x, In x values -> T (snd x)) -> inv h ((lst, ShMany vs) :: rest) ->
  post ((lst, ShMany (vs ++ map (fun x => c_str (snd x)) values)) :: rest) (py_values refuses lst values h).
Proof.
  induction values as [|[name value] values IH]; intros vs h HT HI; cbn [py_values map].
  - rewrite app_nil_r. exact HI.
  - eapply then_post with (conts1 := (lst, ShMany (vs ++ [c_str value])) :: rest); [reflexivity| |].
    + eapply scoped_post with (conts := (lst, ShMany vs) :: rest); [apply str_makes, (HT _ (or_introl eq_refl))| |exact HI|]; [reflexivity|].
      intros h1 x HI1 Hlt. cbn [fst] in Hlt. eapply checked_append; [exact HI1|apply Hlt; now left|]. left. eauto.
    + intros h1 HI1. cbn [snd]. specialize (IH (vs ++ [c_str value]) h1). rewrite <- app_assoc in IH.
      apply IH; [intros; apply HT; now right|exact HI1].
Qed.

Lemma members_post dict rest m : (forall x, In x m -> N (fst x) /\ T (snd x)) ->
  forall f it o o' h, (forall x, In x it -> In x m) ->
  convert_loop python_handover f m it o = Ok o' ->
  inv h ((dict, ShDict o) :: rest) ->
  post ((dict, ShDict o') :: rest) (py_members refuses f dict m it h).
Proof.
  intros HT. induction f as [|f IH]; intros [|[name value] it] o o' h Hin HC HI; cbn [convert_loop py_members] in *;
    try discriminate; try (injection HC as <-; exact HI).
  assert (Hnv : In (name, value) m) by (apply Hin; now left).
  destruct (HT _ Hnv) as [Tn Tv]. cbn [fst snd] in Tn, Tv.
  destruct (Nat.ltb (multimap_count m name) 2).
  - eapply then_post with (conts1 := (dict, ShDict (object_set o (c_str name) (One (c_str value)))) :: rest);
      [reflexivity| |].
    + eapply scoped_post with (conts := (dict, ShDict o) :: rest); [apply str_makes, Tv|reflexivity|exact HI|].
      intros h1 x HI1 Hlt. cbn [fst] in Hlt. eapply checked_set; [exact HI1|apply Hlt; now left| |exact Tn]. left. eauto.
    + intros h1 HI1. eapply IH; [intros; apply Hin; now right|exact HC|exact HI1].
  - set (values := range_between (lower_bound m name) (upper_bound m name)) in *.
    assert (Hvs : forall x, In x values -> In x m) by (intros x Hx; eapply lower_in, range_in; exact Hx).
    eapply then_post with
      (conts1 := (dict, ShDict (object_set o (c_str name) (Many (map (fun x => c_str (snd x)) values)))) :: rest);
      [reflexivity| |].
    + eapply scoped_post with (conts := (dict, ShDict o) :: rest); [apply list_makes|reflexivity|exact HI|].
      intros h1 x HI1 Hlt. cbn [fst] in Hlt.
      pose proof (values_post x ((dict, ShDict o) :: rest) values [] h1 (fun y Hy => proj2 (HT _ (Hvs _ Hy))) HI1) as HV.
      eapply body_then; [|exact HV|]; [reflexivity|]. intros h2 HV2.
      eapply checked_set; [exact HV2|apply Hlt; now left| |exact Tn]. right. eauto.
    + intros h1 HI1. eapply IH; [|exact HC|exact HI1]. intros x Hx. eapply upper_in; exact Hx.
Qed.

Lemma maps_post result rest : forall maps objs os h,
  (forall m x, In m maps -> In x m -> N (fst x) /\ T (snd x)) ->
  Forall2 (fun m o => convert_map python_handover m = Ok o) maps objs ->
  inv h ((result, ShResult os) :: rest) ->
  post ((result, ShResult (os ++ objs)) :: rest) (py_maps refuses result maps h).
Proof.
  induction maps as [|m maps IH]; intros objs os h HT HF HI; inversion HF as [|? o ? objs' HC HF']; subst; cbn [py_maps].
  - rewrite app_nil_r. exact HI.
  - eapply then_post with (conts1 := (result, ShResult (os ++ [o])) :: rest); [reflexivity| |].
    + eapply scoped_post with (conts := (result, ShResult os) :: rest); [apply dict_makes|reflexivity|exact HI|].
      intros h1 x HI1 Hlt. cbn [fst] in Hlt.
      pose proof (members_post x ((result, ShResult os) :: rest) m (fun y Hy => HT m y (or_introl eq_refl) Hy)
        (length m) m [] o h1 (fun y Hy => Hy) HC HI1) as HV.
      eapply body_then; [|exact HV|]; [reflexivity|]. intros h2 HV2.
      eapply checked_append; [exact HV2|apply Hlt; now left|]. right. eauto.
    + intros h1 HI1. specialize (IH objs' (os ++ [o]) h1). rewrite <- app_assoc in IH. apply IH; auto.
      intros m' y Hm'. apply HT. now right.
Qed.

End Typemap.

(** ** The result *)

Lemma py_start_inv : inv py_start [].
Proof.
  split; [|split; constructor]. split; simpl; try discriminate; [constructor|]. intros x. reflexivity.
Qed.

Lemma sole h r sh : inv h [(r, sh)] -> sole_owner h r.
Proof.
  intros [HW HF]. destruct (decref_inv h r [] [] HW) as [h' [D1 [_ [D3 _]]]]; [split; constructor|].
  exists h'. split; [exact D1|]. now apply wf_empty in D3.
Qed.
Lemma sole_wf h r : wf (cells h) (fresh h) [r] -> sole_owner h r.
Proof.
  intros HW. destruct (decref_inv h r [] [] HW) as [h' [D1 [_ [D3 _]]]]; [split; constructor|].
  exists h'. split; [exact D1|]. now apply wf_empty in D3.
Qed.

Lemma python_total m : Sorted.StronglySorted name_le m -> exists o, convert_map python_handover m = Ok o.
Proof.
  intros H. destruct (convert_map_spec node_handover m H) as [o [Ho _]].
  - repeat split.
  - eapply convert_total. exact Ho.
Qed.


(** ** What success tells *)

Lemma then_success {A B} (m : py A) (k : py B) h h' u : py_then m k h = Ok (h', Some u) ->
  exists h1 v, m h = Ok (h1, Some v) /\ k h1 = Ok (h', Some u).
Proof.
  unfold py_then. destruct (m h) as [[h1 [v|]]|e|z|]; cbn [obind]; try discriminate. eauto.
Qed.
Lemma scoped_success {A} make (body : pyid -> py A) h h' u : scoped make body h = Ok (h', Some u) ->
  exists h1 x h2, make h = (h1, Some x) /\ body x h1 = Ok (h2, Some u).
Proof.
  unfold scoped. destruct (make h) as [h1 [x|]]; cbn [obind]; [|discriminate].
  destruct (body x h1) as [[h2 r]|e|z|] eqn:Eb; cbn [obind]; try discriminate.
  destruct (Py_DECREF (Some x) h2); cbn [obind]; try discriminate. intros H. injection H as <- ->. now exists h1, x, h2.
Qed.
Lemma str_success refuses x h h' y : PyString_FromString refuses x h = (h', Some y) -> utf8 (c_str x) = true.
Proof. unfold PyString_FromString. now destruct (utf8 (c_str x)). Qed.
Lemma set_success refuses p key v h h' u : checked (PyDict_SetItemString refuses p key v) h = Ok (h', Some u) ->
  utf8 (c_str key) = true.
Proof.
  unfold checked, PyDict_SetItemString. now destruct (utf8 (c_str key)).
Qed.

Lemma values_success refuses lst : forall values h h' u, py_values refuses lst values h = Ok (h', Some u) ->
  forall x, In x values -> utf8 (c_str (snd x)) = true.
Proof.
  induction values as [|[n v] values IH]; intros h h' u H x Hx; [destruct Hx|]. cbn [py_values] in H.
  apply then_success in H as [h1 [w [H1 H2]]]. destruct Hx as [<-|Hx]; [|eapply IH; eauto].
  apply scoped_success in H1 as [h2 [y [h3 [H1 _]]]]. now apply str_success in H1.
Qed.

Lemma lower_suffix name value : forall pre it,
  exists a, lower_bound (pre ++ (name, value) :: it) name = a ++ (name, value) :: it.
Proof.
  induction pre as [|[k v] pre IH]; intros it; cbn [app lower_bound fst].
  - rewrite str_ltb_irrefl. now exists [].
  - destruct (str_ltb k name); [apply IH|]. now exists ((k, v) :: pre).
Qed.
Lemma upper_suffix name : forall m, exists a, m = a ++ upper_bound m name /\ Forall (fun x => str_ltb name (fst x) = false) a.
Proof.
  induction m as [|x m [a [IH1 IH2]]]; [now exists []|]. cbn [upper_bound]. destruct (str_ltb name (fst x)) eqn:E.
  - now exists [].
  - exists (x :: a). split; [cbn [app]; now f_equal|now constructor].
Qed.
Lemma upper_of_lower name : forall m, upper_bound (lower_bound m name) name = upper_bound m name.
Proof.
  induction m as [|x m IH]; [reflexivity|]. cbn [lower_bound]. destruct (str_ltb (fst x) name) eqn:E; [|reflexivity].
  rewrite IH. cbn [upper_bound]. now rewrite (str_ltb_asym _ _ E).
Qed.

Lemma upper_app name : forall pre it, Forall (fun x => str_ltb name (fst x) = false) pre ->
  upper_bound (pre ++ it) name = upper_bound it name.
Proof.
  induction pre as [|x pre IH]; intros it H; [reflexivity|]. inversion H as [|? ? H1 H2]; subst.
  cbn [app upper_bound]. rewrite H1. now apply IH.
Qed.
Lemma sorted_before : forall pre it x y, Sorted.StronglySorted name_le (pre ++ it) -> In x pre -> In y it -> name_le x y.
Proof.
  induction pre as [|z pre IH]; intros it x y H Hx Hy; [destruct Hx|]. inversion H as [|? ? HS HL]; subst.
  destruct Hx as [<-|Hx]; [|eapply IH; eauto]. rewrite Forall_forall in HL. apply HL, in_or_app. now right.
Qed.
Lemma sorted_rest : forall pre it, Sorted.StronglySorted name_le (pre ++ it) -> Sorted.StronglySorted name_le it.
Proof.
  induction pre as [|z pre IH]; intros it H; [exact H|]. inversion H; subst. now apply IH.
Qed.

Lemma members_success refuses dict m : Sorted.StronglySorted name_le m -> forall f it pre h h' u, m = pre ++ it ->
  py_members refuses f dict m it h = Ok (h', Some u) ->
  forall x, In x it -> utf8 (c_str (fst x)) = true /\ utf8 (c_str (snd x)) = true.
Proof.
  intros HS. induction f as [|f IH]; intros [|[name value] it] pre h h' u Em H x Hx; try (now destruct Hx);
    cbn [py_members] in H; try discriminate.
  assert (HL : forall y, In y it -> name_le (name, value) y).
  { intros y Hy. rewrite Em in HS. apply sorted_rest in HS. inversion HS as [|? ? _ HF]; subst.
    rewrite Forall_forall in HF. now apply HF. }
  assert (HP : Forall (fun x => str_ltb name (fst x) = false) pre).
  { rewrite Forall_forall. intros y Hy. rewrite Em in HS.
    exact (sorted_before pre ((name, value) :: it) y (name, value) HS Hy (or_introl eq_refl)). }
  destruct (Nat.ltb (multimap_count m name) 2).
  - apply then_success in H as [h1 [w [H1 H2]]].
    apply scoped_success in H1 as [h2 [y [h3 [H1 H3]]]]. apply str_success in H1. apply set_success in H3.
    destruct Hx as [<-|Hx]; [split; assumption|].
    eapply (IH it (pre ++ [(name, value)])); [|exact H2|exact Hx]. now rewrite <- app_assoc.
  - apply then_success in H as [h1 [w [H1 H2]]].
    apply scoped_success in H1 as [h2 [y [h3 [_ H3]]]].
    apply then_success in H3 as [h4 [w' [H3 H4]]]. apply set_success in H4.
    assert (Ea : exists a, lower_bound m name = a ++ (name, value) :: it) by (rewrite Em; apply lower_suffix).
    destruct Ea as [a Ea].
    destruct (upper_suffix name ((name, value) :: it)) as [d [Ed Fd]].
    assert (Eu : upper_bound m name = upper_bound ((name, value) :: it) name) by (rewrite Em; now apply upper_app).
    rewrite <- Eu in Ed.
    assert (Er : range_between (lower_bound m name) (upper_bound m name) = a ++ d).
    { rewrite Ea, Ed, app_assoc. apply range_app. }
    rewrite Er in H3.
    assert (Hd : In x (d ++ upper_bound m name)) by (rewrite <- Ed; exact Hx). apply in_app_or in Hd as [Hd|Hd].
    + split.
      * assert (Hn : fst x = name); [|now rewrite Hn].
        rewrite Forall_forall in Fd. apply str_ltb_total; [|now apply Fd].
        destruct Hx as [<-|Hx]; [apply str_ltb_irrefl|]. exact (HL x Hx).
      * eapply values_success; [exact H3|]. apply in_or_app. now right.
    + eapply (IH (upper_bound m name) (pre ++ d)); [|exact H2|exact Hd]. rewrite <- app_assoc, Em. f_equal. rewrite <- Em. exact Ed.
Qed.

Lemma maps_success refuses result : forall maps h h' u, Forall (Sorted.StronglySorted name_le) maps ->
  py_maps refuses result maps h = Ok (h', Some u) -> names_utf8 maps /\ values_utf8 maps.
Proof.
  intros maps h h' u HS H.
  enough (G : forall m x, In m maps -> In x m -> utf8 (c_str (fst x)) = true /\ utf8 (c_str (snd x)) = true)
    by (split; intros m x Hm Hx; apply (G m x Hm Hx)).
  revert h h' u HS H.
  induction maps as [|m maps IH]; intros h h' u HS H m' x Hm Hx; [destruct Hm|]. inversion HS as [|? ? S1 S2]; subst. cbn [py_maps] in H.
  apply then_success in H as [h1 [w [H1 H2]]]. destruct Hm as [<-|Hm]; [|eapply IH; eauto].
  apply scoped_success in H1 as [h2 [y [h3 [_ H3]]]]. apply then_success in H3 as [h4 [w' [H3 _]]].
  eapply (members_success refuses y m S1 _ m []); eauto.
Qed.

Theorem py_convert_outcome refuses maps :
  Forall (Sorted.StronglySorted name_le) maps ->
  match py_convert refuses maps py_start with
  | Ok (h, Some r) =>
      (exists objs, Forall2 (fun m o => convert_map python_handover m = Ok o) maps objs /\ is_list_of_dicts h r objs) /\
      sole_owner h r /\ names_utf8 maps /\ values_utf8 maps
  | Ok (h, None) => (cells h = [] \/ sole_owner h 0) /\ ~ (never_refuses refuses /\ names_utf8 maps)
  | UB NullDeref => ~ (never_refuses refuses /\ values_utf8 maps)
  | _ => False
  end.
Proof.
  intros HS.
  set (N := fun x => exists m p, In m maps /\ In p m /\ x = fst p).
  set (T := fun x => exists m p, In m maps /\ In p m /\ x = snd p).
  assert (HN : failure refuses N -> ~ (never_refuses refuses /\ names_utf8 maps)).
  { intros [[n Hn]|[x [[m [p [H1 [H2 ->]]]] Hx]]] [N1 N2]; [now rewrite N1 in Hn|].
    specialize (N2 m p H1 H2). congruence. }
  assert (HT : failure refuses T -> ~ (never_refuses refuses /\ values_utf8 maps)).
  { intros [[n Hn]|[x [[m [p [H1 [H2 ->]]]] Hx]]] [N1 N2]; [now rewrite N1 in Hn|].
    specialize (N2 m p H1 H2). congruence. }
  assert (Hobjs : exists objs, Forall2 (fun m o => convert_map python_handover m = Ok o) maps objs).
  { clear HN HT N T. induction HS as [|m maps H HS [objs IH]]; [exists []; constructor|].
    destruct (python_total m H) as [o Ho]. exists (o :: objs). now constructor. }
  destruct Hobjs as [objs HF]. unfold py_convert.
  destruct (result_makes refuses T py_start [] py_start_inv) as [[h1 [E Ht]]|[h1 [E HI]]].
  - rewrite E. unfold PyList_New, py_new in E.
    destruct (refuses (calls py_start)) eqn:Er; [|discriminate]. injection E as <-. split; [now left|].
    intros [Hr _]. now rewrite Hr in Er.
  - rewrite E. cbn [fresh py_start] in *.
    pose proof (maps_post refuses N T 0 [] maps objs [] h1) as HM. cbn [app] in HM.
    specialize (HM ltac:(intros m x Hm Hx; split; exists m, x; auto) HF HI).
    destruct (py_maps refuses 0 maps h1) as [[h2 [u|]]|e|u|] eqn:Em; cbn [post] in HM; cbn [obind]; try contradiction.
    + split; [|split; [eapply sole; exact HM|eapply maps_success; eauto]]. exists objs. split; [exact HF|].
      destruct HM as [_ [_ HM]]. inversion HM as [|? ? Hsh _]; subst. exact (proj2 Hsh).
    + split; [|apply HN, HM]. right. apply sole_wf. exact (proj1 HM).
    + destruct u; try contradiction. now apply HT.
Qed.

Theorem py_convert_success refuses maps :
  Forall (Sorted.StronglySorted name_le) maps -> never_refuses refuses -> names_utf8 maps -> values_utf8 maps ->
  exists h r objs,
    py_convert refuses maps py_start = Ok (h, Some r) /\
    Forall2 (fun m o => convert_map python_handover m = Ok o) maps objs /\
    is_list_of_dicts h r objs /\ sole_owner h r.
Proof.
  intros HS Hr Hn Hv. pose proof (py_convert_outcome refuses maps HS) as H.
  destruct (py_convert refuses maps py_start) as [[h [r|]]|e|[]|]; try contradiction; try tauto.
  destruct H as [[objs [H1 H2]] [H3 _]]. exists h, r, objs. auto.
Qed.

Theorem py_convert_crash refuses maps :
  Forall (Sorted.StronglySorted name_le) maps -> never_refuses refuses -> names_utf8 maps ->
  (py_convert refuses maps py_start = UB NullDeref <-> ~ values_utf8 maps).
Proof.
  intros HS Hr Hn. pose proof (py_convert_outcome refuses maps HS) as H. split.
  - intros E Hv. rewrite E in H. tauto.
  - intros Hv. destruct (py_convert refuses maps py_start) as [[h [r|]]|e|[]|]; try contradiction; try tauto.
Qed.
