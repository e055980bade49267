(** Words of a regular expression character by character. *)

From Coq Require Import Ascii String NArith Bool List Lia.
From Verif Require Import Base Regular.
Import ListNotations.

(** ** Labelled expressions *)

(** The parts of a concatenation and a repetition carry a label, which stands
    for the expression that is still to be matched. *)
Inductive lre : Type :=
| LEps
| LSym (m : N)
| LAct (a : N)
| LCat (i : N) (r : lre) (j : N) (r' : lre)
| LAlt (r r' : lre)
| LStar (i : N) (r : lre)
| LPlus (i : N) (r : lre).

Fixpoint erase (r : lre) : re :=
  match r with
  | LEps => Eps
  | LSym m => Sym m
  | LAct a => Act a
  | LCat _ r _ r' => Cat (erase r) (erase r')
  | LAlt r r' => Alt (erase r) (erase r')
  | LStar _ r => Star (erase r)
  | LPlus _ r => Plus (erase r)
  end.

Fixpoint label (r : re) (n : N) : lre * N :=
  match r with
  | Eps => (LEps, n)
  | Sym m => (LSym m, n)
  | Act a => (LAct a, n)
  | Cat r r' =>
      let (x, n1) := label r (n + 1) in
      let (y, n2) := label r' (n1 + 1) in
      (LCat n x n1 y, n2)
  | Alt r r' =>
      let (x, n1) := label r n in
      let (y, n2) := label r' n1 in
      (LAlt x y, n2)
  | Star r => let (x, n1) := label r (n + 1) in (LStar n x, n1)
  | Plus r => let (x, n1) := label r (n + 1) in (LPlus n x, n1)
  end.

Lemma erase_label r : forall n, erase (fst (label r n)) = r.
Proof.
  induction r as [|m|a|r IH r' IH'|r IH r' IH'|r IH|r IH]; intros n; cbn [label]; try reflexivity.
  - specialize (IH (n + 1)%N). destruct (label r (n + 1)%N) as [x n1]. specialize (IH' (n1 + 1)%N).
    destruct (label r' (n1 + 1)%N) as [y n2]. cbn in *. now rewrite IH, IH'.
  - specialize (IH n). destruct (label r n) as [x n1]. specialize (IH' n1).
    destruct (label r' n1) as [y n2]. cbn in *. now rewrite IH, IH'.
  - specialize (IH (n + 1)%N). destruct (label r (n + 1)%N) as [x n1]. cbn in *. now rewrite IH.
  - specialize (IH (n + 1)%N). destruct (label r (n + 1)%N) as [x n1]. cbn in *. now rewrite IH.
Qed.

(** The expressions that labels stand for. *)
Fixpoint subs (r : lre) : list (N * lre) :=
  match r with
  | LCat i r j r' => (i, r) :: subs r ++ (j, r') :: subs r'
  | LAlt r r' => subs r ++ subs r'
  | LStar i r' => (i, r) :: subs r'
  | LPlus i r' => (i, LStar i r') :: subs r'
  | _ => []
  end.

(** ** Tables *)

Inductive ptrie (A : Type) : Type := PLeaf | PNode (l : ptrie A) (o : option A) (r : ptrie A).
Arguments PLeaf {A}.
Arguments PNode {A} l o r.

Fixpoint pget {A} (t : ptrie A) (p : positive) : option A :=
  match t with
  | PLeaf => None
  | PNode l o r => match p with xH => o | xO p' => pget l p' | xI p' => pget r p' end
  end.
Fixpoint pset {A} (t : ptrie A) (p : positive) (v : A) : ptrie A :=
  match p with
  | xH => match t with PLeaf => PNode PLeaf (Some v) PLeaf | PNode l _ r => PNode l (Some v) r end
  | xO p' => match t with PLeaf => PNode (pset PLeaf p' v) None PLeaf | PNode l o r => PNode (pset l p' v) o r end
  | xI p' => match t with PLeaf => PNode PLeaf None (pset PLeaf p' v) | PNode l o r => PNode l o (pset r p' v) end
  end.
Fixpoint pfill {A} (t : ptrie A) (l : list (N * A)) : ptrie A :=
  match l with
  | [] => t
  | (i, v) :: l' => pfill (pset t (N.succ_pos i) v) l'
  end.
Definition nget {A} (t : ptrie A) (i : N) : option A := pget t (N.succ_pos i).

Lemma pget_set_same {A} (v : A) : forall p t, pget (pset t p v) p = Some v.
Proof. induction p as [p IH|p IH|]; intros [|l o r]; cbn; auto. Qed.
Lemma pget_set_other {A} (v : A) : forall p q t, p <> q -> pget (pset t p v) q = pget t q.
Proof.
  induction p as [p IH|p IH|]; intros [q|q|] [|l o r] H; cbn; try reflexivity; try congruence.
  all: rewrite IH by congruence; reflexivity || (now destruct q).
Qed.

Lemma pfill_keep {A} (l : list (N * A)) : forall t i, ~ In i (map fst l) -> nget (pfill t l) i = nget t i.
Proof.
  induction l as [|[j v] l IH]; intros t i H; [reflexivity|]. cbn [pfill map fst In] in *.
  rewrite IH by tauto. unfold nget. apply pget_set_other. intros E. apply H. left.
  rewrite <- (N.pos_pred_succ j), <- (N.pos_pred_succ i). now rewrite E.
Qed.

Lemma pfill_get {A} (l : list (N * A)) : forall t i v, NoDup (map fst l) -> In (i, v) l -> nget (pfill t l) i = Some v.
Proof.
  induction l as [|[j u] l IH]; intros t i v Hd Hi; [destruct Hi|]. cbn [pfill map fst] in *.
  apply NoDup_cons_iff in Hd as [Hn Hd]. destruct Hi as [[= -> ->]|Hi]; [|now apply IH].
  rewrite pfill_keep by exact Hn. apply pget_set_same.
Qed.

(** Labels are given out in ascending order. *)
Fixpoint increasing (l : list N) : bool :=
  match l with
  | [] => true
  | i :: l' => match l' with [] => true | j :: _ => (i <? j)%N end && increasing l'
  end.

Lemma increasing_above l : forall i, increasing (i :: l) = true -> forall j, In j l -> (i < j)%N.
Proof.
  induction l as [|k l IH]; intros i H j Hj; [destruct Hj|]. cbn [increasing] in H. apply andb_true_iff in H as [H1 H2].
  apply N.ltb_lt in H1. destruct Hj as [->|Hj]; [exact H1|]. specialize (IH k H2 j Hj). lia.
Qed.

Lemma increasing_nodup l : increasing l = true -> NoDup l.
Proof.
  induction l as [|i l IH]; intros H; [constructor|]. constructor.
  - intros Hi. pose proof (increasing_above _ _ H _ Hi). lia.
  - apply IH. cbn in H. now apply andb_true_iff in H.
Qed.

(** ** Characters of words *)

Lemma chars_app u v : chars (u ++ v) = chars u ++ chars v.
Proof. apply flat_map_app. Qed.
Lemma chars_acts l : chars (map IAct l) = [].
Proof. induction l; auto. Qed.
Lemma marks_app u v : marks (u ++ v) = marks u ++ marks v.
Proof. apply flat_map_app. Qed.
Lemma marks_acts l : marks (map IAct l) = l.
Proof. induction l as [|a l IH]; [reflexivity|]. cbn. now rewrite <- IH at 2. Qed.

Lemma no_chars w : chars w = [] -> w = map IAct (marks w).
Proof.
  induction w as [|[a|c] w IH]; [reflexivity| |discriminate]. cbn. intros H. f_equal. now apply IH.
Qed.

(** A word with characters: actions, then the first character. *)
Lemma first_char w c x : chars w = c :: x -> exists l w', w = map IAct l ++ IChr c :: w' /\ chars w' = x.
Proof.
  induction w as [|[a|d] w IH]; [discriminate| |]; cbn.
  - intros H. destruct (IH H) as [l [w' [-> Hw]]]. exists (a :: l), w'. auto.
  - intros [= -> H]. exists [], w. auto.
Qed.

Lemma first_char_unique l c w l' c' w' : map IAct l ++ IChr c :: w = map IAct l' ++ IChr c' :: w' ->
  l = l' /\ c = c' /\ w = w'.
Proof.
  revert l'. induction l as [|a l IH]; intros [|a' l']; cbn; intros H; try discriminate.
  - injection H as -> ->. auto.
  - injection H as -> H. destruct (IH _ H) as [-> [-> ->]]. auto.
Qed.

(** ** Linear forms *)

(** What an expression can do without reading a character. *)
Fixpoint nulls (r : lre) : list (list N) :=
  match r with
  | LEps => [[]]
  | LSym _ => []
  | LAct a => [[a]]
  | LCat _ r _ r' => flat_map (fun x => map (fun y => x ++ y) (nulls r')) (nulls r)
  | LAlt r r' => nulls r ++ nulls r'
  | LStar _ _ => [[]]
  | LPlus _ r => nulls r
  end.

(** The actions before the first character, the characters allowed there, and
    the labels of what follows. *)
Definition part : Type := list N * N * list N.
Definition then_labels (l : list N) (p : part) : part := let '(x, m, k) := p in (x, m, k ++ l).
Definition after_acts (x : list N) (p : part) : part := let '(y, m, k) := p in (x ++ y, m, k).
(** The labels of [r], itself labelled [i]. *)
Fixpoint flatten (i : N) (r : lre) : list N :=
  match r with
  | LEps => []
  | LCat i r j r' => flatten i r ++ flatten j r'
  | LStar j _ => [j]
  | _ => [i]
  end.
Fixpoint lf (r : lre) : list part :=
  match r with
  | LEps => []
  | LSym m => [([], m, [])]
  | LAct _ => []
  | LCat _ r i r' =>
      map (then_labels (flatten i r')) (lf r) ++
      let n := nulls r in match n with [] => [] | _ :: _ => flat_map (fun x => map (after_acts x) (lf r')) n end
  | LAlt r r' => lf r ++ lf r'
  | LStar i r | LPlus i r => map (then_labels [i]) (lf r)
  end.

Section Table.

Variable tbl : ptrie lre.

Fixpoint Lt (t : list N) (w : list item) : Prop :=
  match t with
  | [] => w = []
  | i :: t' => exists r u v, nget tbl i = Some r /\ w = u ++ v /\ L (erase r) u /\ Lt t' v
  end.

Lemma Lt_app t t' w : Lt (t ++ t') w <-> exists u v, w = u ++ v /\ Lt t u /\ Lt t' v.
Proof.
  revert w. induction t as [|i t IH]; intros w; cbn [app Lt].
  - split; [intros H; exists [], w; auto|]. intros [u [v [-> [-> H]]]]. exact H.
  - split.
    + intros [r [u [v [Hr [-> [Hu Hv]]]]]]. apply IH in Hv as [v1 [v2 [-> [H1 H2]]]].
      exists (u ++ v1), v2. rewrite app_assoc. split; [reflexivity|]. split; [|exact H2]. exists r, u, v1. auto.
    + intros [u [v [-> [[r [u1 [u2 [Hr [-> [H1 H2]]]]]] Hv]]]]. exists r, u1, (u2 ++ v).
      rewrite app_assoc. repeat split; auto. apply IH. eauto.
Qed.

Lemma Lt_one i r w : nget tbl i = Some r -> (Lt [i] w <-> L (erase r) w).
Proof.
  intros Hr. cbn. split.
  - intros [r' [u [v [Hr' [-> [H ->]]]]]]. rewrite app_nil_r. congruence.
  - intros H. exists r, w, []. rewrite app_nil_r. auto.
Qed.

(** All labels stand for what [tbl] says. *)
Definition covered (r : lre) : Prop := forall i x, In (i, x) (subs r) -> nget tbl i = Some x.

(** The body of a repetition reads something. *)
Fixpoint stars_ok (r : lre) : bool :=
  match r with
  | LCat _ r _ r' | LAlt r r' => stars_ok r && stars_ok r'
  | LStar _ r | LPlus _ r => stars_ok r && match nulls r with [] => true | _ => false end
  | _ => true
  end.

Definition in_lf (l : list part) (w : list item) : Prop :=
  exists x m k c w', In (x, m, k) l /\ w = map IAct x ++ IChr c :: w' /\ has m c = true /\ Lt k w'.
Definition in_nulls (l : list (list N)) (w : list item) : Prop := exists x, In x l /\ w = map IAct x.

Lemma match_nulls (n : list (list N)) (l : list part) :
  match n with [] => [] | _ :: _ => flat_map (fun x => map (after_acts x) l) n end = flat_map (fun x => map (after_acts x) l) n.
Proof. now destruct n. Qed.

Lemma in_lf_app l l' w : in_lf (l ++ l') w <-> in_lf l w \/ in_lf l' w.
Proof.
  unfold in_lf. split.
  - intros [x [m [k [c [w' [H R]]]]]]. apply in_app_iff in H as [H|H]; [left|right]; exists x, m, k, c, w'; auto.
  - intros [[x [m [k [c [w' [H R]]]]]]|[x [m [k [c [w' [H R]]]]]]]; exists x, m, k, c, w'; rewrite in_app_iff; auto.
Qed.

Lemma flatten_spec r : covered r -> forall i, nget tbl i = Some r -> forall w, Lt (flatten i r) w <-> L (erase r) w.
Proof.
  induction r as [|m|a|i r IH j r' IH'|r IH r' IH'|i r IH|i r IH]; intros Hc i0 Hi w; cbn [flatten]; try (apply Lt_one; exact Hi).
  - cbn. split; [intros ->; constructor|]. intros H. now inversion H.
  - assert (H1 : nget tbl i = Some r) by (apply Hc; now left).
    assert (H2 : nget tbl j = Some r') by (apply Hc; cbn; right; apply in_app_iff; right; now left).
    assert (C : covered r) by (intros k x H; apply Hc; cbn; right; apply in_app_iff; now left).
    assert (C' : covered r') by (intros k x H; apply Hc; cbn; right; apply in_app_iff; right; now right).
    rewrite Lt_app. split.
    + intros [u [v [-> [Hu Hv]]]]. cbn. constructor; [now apply (IH C i H1)|now apply (IH' C' j H2)].
    + cbn. intros H. inversion H as [| | |? ? u v Hu Hv| | | | |]; subst. exists u, v. split; [reflexivity|].
      split; [now apply (IH C i H1)|now apply (IH' C' j H2)].
  - apply (Lt_one i (LStar i r)). apply Hc. now left.
Qed.

Lemma in_lf_then t l w :
  in_lf (map (then_labels t) l) w <-> exists u v, w = u ++ v /\ in_lf l u /\ Lt t v.
Proof.
  split.
  - intros [x [m [k [c [w' [H [-> [Hm Hk]]]]]]]]. apply in_map_iff in H as [[[x0 m0] k0] [[= -> -> <-] H]].
    apply Lt_app in Hk as [u [v [-> [Hu Hv]]]].
    exists (map IAct x ++ IChr c :: u), v. split; [now rewrite <- app_assoc|]. split; [|exact Hv].
    exists x, m, k0, c, u. auto.
  - intros [u [v [-> [[x [m [k [c [w' [H [-> [Hm Hk]]]]]]]] Hv]]]]. exists x, m, (k ++ t), c, (w' ++ v).
    split; [apply in_map_iff; exists (x, m, k); auto|]. split; [now rewrite <- app_assoc|]. split; [exact Hm|].
    apply Lt_app. exists w', v. auto.
Qed.

Lemma in_lf_after n l w : in_lf (flat_map (fun x => map (after_acts x) l) n) w <->
  exists u v, w = u ++ v /\ in_nulls n u /\ in_lf l v.
Proof.
  split.
  - intros [x [m [k [c [w' [H [-> [Hm Hk]]]]]]]]. apply in_flat_map in H as [y [Hy H]].
    apply in_map_iff in H as [[[x0 m0] k0] [[= <- -> ->] H]]. exists (map IAct y), (map IAct x0 ++ IChr c :: w').
    split; [rewrite map_app, <- app_assoc; reflexivity|]. split; [exists y; auto|]. exists x0, m, k, c, w'. auto.
  - intros [u [v [-> [[y [Hy ->]] [x [m [k [c [w' [H [-> [Hm Hk]]]]]]]]]]]].
    exists (y ++ x), m, k, c, w'. split.
    + apply in_flat_map. exists y. split; [exact Hy|]. apply in_map_iff. exists (x, m, k). auto.
    + rewrite map_app, <- app_assoc. auto.
Qed.

Lemma in_nulls_cat n n' w : in_nulls (flat_map (fun x => map (fun y => x ++ y) n') n) w <->
  exists u v, w = u ++ v /\ in_nulls n u /\ in_nulls n' v.
Proof.
  split.
  - intros [x [H ->]]. apply in_flat_map in H as [y [Hy H]]. apply in_map_iff in H as [z [<- Hz]].
    exists (map IAct y), (map IAct z). rewrite map_app. repeat split; [exists y|exists z]; auto.
  - intros [u [v [-> [[y [Hy ->]] [z [Hz ->]]]]]]. exists (y ++ z). rewrite map_app. split; [|reflexivity].
    apply in_flat_map. exists y. split; [exact Hy|]. apply in_map_iff. eauto.
Qed.

Lemma in_nulls_app n n' w : in_nulls (n ++ n') w <-> in_nulls n w \/ in_nulls n' w.
Proof.
  unfold in_nulls. split.
  - intros [x [H ->]]. apply in_app_iff in H as [H|H]; [left|right]; eauto.
  - intros [[x [H ->]]|[x [H ->]]]; exists x; rewrite in_app_iff; auto.
Qed.

Theorem lf_spec r : covered r -> stars_ok r = true -> forall w,
  L (erase r) w <-> in_nulls (nulls r) w \/ in_lf (lf r) w.
Proof.
  induction r as [|m|a|i r IH j r' IH'|r IH r' IH'|i r IH|i r IH]; intros Hc Hs w; cbn [erase nulls lf]; cbv zeta.
  - split.
    + intros H. inversion H. left. exists []. cbn. auto.
    + intros [[x [[<-|[]] ->]]|[x [m [k [c [w' [[] _]]]]]]]. constructor.
  - split.
    + intros H. inversion H; subst. right. exists [], m, [], c, []. cbn. auto.
    + intros [[x [[] _]]|[x [m' [k [c [w' [[[= <- <- <-]|[]] [-> [Hm ->]]]]]]]]]. cbn. now constructor.
  - split.
    + intros H. inversion H. left. exists [a]. cbn. auto.
    + intros [[x [[<-|[]] ->]]|[x [m [k [c [w' [[] _]]]]]]]. constructor.
  - cbn in Hs. apply andb_true_iff in Hs as [Hs Hs'].
    assert (Hi : nget tbl j = Some r') by (apply Hc; cbn; right; apply in_app_iff; right; now left).
    assert (C : covered r) by (intros k x H; apply Hc; cbn; right; apply in_app_iff; now left).
    assert (C' : covered r') by (intros k x H; apply Hc; cbn; right; apply in_app_iff; right; now right).
    specialize (IH C Hs). specialize (IH' C' Hs'). pose proof (flatten_spec r' C' j Hi) as HF.
    rewrite match_nulls, in_nulls_cat, in_lf_app, in_lf_then, in_lf_after. split.
    + intros H. inversion H as [| | |? ? u v Hu Hv| | | | |]; subst. apply IH in Hu as [Hu|Hu].
      * apply IH' in Hv as [Hv|Hv]; [left; eauto|right; right; eauto].
      * right; left. exists u, v. split; [reflexivity|]. split; [exact Hu|]. now apply HF.
    + intros [[u [v [-> [Hu Hv]]]]|[[u [v [-> [Hu Hv]]]]|[u [v [-> [Hu Hv]]]]]]; constructor.
      * apply IH. auto. * apply IH'. auto. * apply IH. auto. * now apply HF. * apply IH. auto. * apply IH'. auto.
  - cbn in Hs. apply andb_true_iff in Hs as [Hs Hs'].
    assert (C : covered r) by (intros j x H; apply Hc; cbn; apply in_app_iff; now left).
    assert (C' : covered r') by (intros j x H; apply Hc; cbn; apply in_app_iff; now right).
    specialize (IH C Hs). specialize (IH' C' Hs'). rewrite in_nulls_app, in_lf_app. split.
    + intros H. inversion H as [| | | |? ? ? Hu|? ? ? Hu| | |]; subst; [apply IH in Hu|apply IH' in Hu]; tauto.
    + intros H. assert (H' : (in_nulls (nulls r) w \/ in_lf (lf r) w) \/ (in_nulls (nulls r') w \/ in_lf (lf r') w)) by tauto.
      destruct H' as [H'|H']; [apply L_left, IH|apply L_right, IH']; exact H'.
  - cbn in Hs. apply andb_true_iff in Hs as [Hs Hn].
    assert (Hi : nget tbl i = Some (LStar i r)) by (apply Hc; now left).
    assert (C : covered r) by (intros j x H; apply Hc; now right).
    specialize (IH C Hs). rewrite in_lf_then. cbn [erase]. split.
    + intros H. inversion H as [| | | | | |?|? u v Hu Hv|]; subst.
      * left. exists []. cbn. auto.
      * right. exists u, v. split; [reflexivity|]. split; [|now apply (Lt_one i (LStar i r))]. apply IH in Hu as [[x [Hx _]]|Hu]; [|exact Hu].
        destruct (nulls r); [destruct Hx|discriminate].
    + intros [[x [[<-|[]] ->]]|[u [v [-> [Hu Hv]]]]]; [constructor|]. apply L_more; [apply IH; auto|]. now apply (Lt_one i (LStar i r)) in Hv.
  - cbn in Hs. apply andb_true_iff in Hs as [Hs Hn].
    assert (Hi : nget tbl i = Some (LStar i r)) by (apply Hc; now left).
    assert (C : covered r) by (intros j x H; apply Hc; now right).
    specialize (IH C Hs). rewrite in_lf_then. cbn [erase]. split.
    + intros H. inversion H as [| | | | | | | |? u v Hu Hv]; subst.
      right. exists u, v. split; [reflexivity|]. split; [|now apply (Lt_one i (LStar i r))].
      apply IH in Hu as [[x [Hx _]]|Hu]; [|exact Hu]. destruct (nulls r); [destruct Hx|discriminate].
    + intros [[x [Hx _]]|[u [v [-> [Hu Hv]]]]]; [destruct (nulls r); [destruct Hx|discriminate]|].
      apply L_plus; [apply IH; auto|]. now apply (Lt_one i (LStar i r)) in Hv.
Qed.

(** ** Threads *)

Fixpoint tnulls (t : list N) : list (list N) :=
  match t with
  | [] => [[]]
  | i :: t' =>
      match nget tbl i with
      | None => []
      | Some r => flat_map (fun x => map (fun y => x ++ y) (tnulls t')) (nulls r)
      end
  end.
Fixpoint tlf (t : list N) : list part :=
  match t with
  | [] => []
  | i :: t' =>
      match nget tbl i with
      | None => []
      | Some r => map (then_labels t') (lf r) ++
          let n := nulls r in match n with [] => [] | _ :: _ => flat_map (fun x => map (after_acts x) (tlf t')) n end
      end
  end.

Definition thread_ok (t : list N) : Prop :=
  forall i, In i t -> exists r, nget tbl i = Some r /\ covered r /\ stars_ok r = true.

Theorem tlf_spec t : thread_ok t -> forall w, Lt t w <-> in_nulls (tnulls t) w \/ in_lf (tlf t) w.
Proof.
  induction t as [|i t IH]; intros Hok w; cbn [Lt tnulls tlf]; cbv zeta.
  - split; [intros ->; left; exists []; cbn; auto|]. intros [[x [[<-|[]] ->]]|[x [m [k [c [w' [[] _]]]]]]]. reflexivity.
  - destruct (Hok i (or_introl eq_refl)) as [r [Hr [Hc Hs]]]. rewrite Hr.
    assert (Ht : thread_ok t) by (intros j Hj; apply Hok; now right). specialize (IH Ht).
    rewrite in_nulls_cat, in_lf_app.
    rewrite match_nulls, in_lf_after. split.
    + intros [r' [u [v [[= <-] [-> [Hu Hv]]]]]]. apply (lf_spec r Hc Hs) in Hu as [Hu|Hu].
      * apply IH in Hv as [Hv|Hv]; [left; eauto|right; right; eauto].
      * right; left. destruct Hu as [x [m [k [c [w' [H [-> [Hm Hk]]]]]]]]. exists x, m, (k ++ t), c, (w' ++ v).
        split; [apply in_map_iff; exists (x, m, k); auto|]. split; [now rewrite <- app_assoc|]. split; [exact Hm|].
        apply Lt_app. eauto.
    + intros [[u [v [-> [Hu Hv]]]]|[[x [m [k [c [w' [H [-> [Hm Hk]]]]]]]]|[u [v [-> [Hu Hv]]]]]].
      * exists r, u, v. repeat split; auto; [apply (lf_spec r Hc Hs)|apply IH]; auto.
      * apply in_map_iff in H as [[[x0 m0] k0] [[= -> -> <-] H]]. apply Lt_app in Hk as [u [v [-> [Hu Hv]]]].
        exists r, (map IAct x ++ IChr c :: u), v. rewrite <- app_assoc. repeat split; auto. apply (lf_spec r Hc Hs). right.
        exists x, m, k0, c, u. auto.
      * exists r, u, v. repeat split; auto; [apply (lf_spec r Hc Hs)|apply IH]; auto.
Qed.

(** With at least one character, and with none. *)
Lemma thread_step t w c x : thread_ok t -> chars w = c :: x -> Lt t w ->
  exists l m k w', In (l, m, k) (tlf t) /\ has m c = true /\ w = map IAct l ++ IChr c :: w' /\ chars w' = x /\ Lt k w'.
Proof.
  intros Hok Hw H. apply (tlf_spec t Hok) in H as [[y [_ ->]]|[y [m [k [d [w' [Hi [-> [Hm Hk]]]]]]]]].
  - now rewrite chars_acts in Hw.
  - rewrite chars_app, chars_acts in Hw. cbn in Hw. injection Hw as -> Hw. exists y, m, k, w'. auto.
Qed.

Lemma thread_end t w : thread_ok t -> chars w = [] -> Lt t w -> exists l, In l (tnulls t) /\ w = map IAct l.
Proof.
  intros Hok Hw H. apply (tlf_spec t Hok) in H as [H|[y [m [k [d [w' [Hi [-> [Hm Hk]]]]]]]]]; [exact H|].
  now rewrite chars_app, chars_acts in Hw.
Qed.

Lemma thread_step_back t l m k c w : thread_ok t -> In (l, m, k) (tlf t) -> has m c = true -> Lt k w ->
  Lt t (map IAct l ++ IChr c :: w).
Proof. intros Hok Hi Hm Hk. apply (tlf_spec t Hok). right. exists l, m, k, c, w. auto. Qed.

Lemma thread_end_back t l : thread_ok t -> In l (tnulls t) -> Lt t (map IAct l).
Proof. intros Hok Hi. apply (tlf_spec t Hok). left. exists l. auto. Qed.

(** ** Every thread can be completed *)

Fixpoint live (r : lre) : bool :=
  match r with
  | LSym m => negb (N.land m all_bytes =? 0)%N
  | LCat _ r _ r' => live r && live r'
  | LAlt r r' => live r && live r'
  | LStar _ r | LPlus _ r => live r
  | _ => true
  end.

Lemma has_some m : (N.land m all_bytes =? 0)%N = false -> exists c, has m c = true.
Proof.
  intros H. apply N.eqb_neq in H.
  assert (Hx : exists n, N.testbit (N.land m all_bytes) n = true).
  { exists (N.log2 (N.land m all_bytes)). now apply N.bit_log2. }
  destruct Hx as [n Hn]. rewrite N.land_spec in Hn. apply andb_true_iff in Hn as [H1 H2].
  assert (n < 256)%N.
  { destruct (N.lt_ge_cases n 256) as [Hlt|Hge]; [exact Hlt|]. unfold all_bytes in H2. now rewrite N.ones_spec_high in H2. }
  exists (ascii_of_N n). unfold has. now rewrite N_ascii_embedding.
Qed.

Lemma live_spec r : live r = true -> exists w, L (erase r) w.
Proof.
  induction r as [|m|a|i r IH j r' IH'|r IH r' IH'|i r IH|i r IH]; cbn; intros H.
  - eexists; constructor.
  - apply negb_true_iff in H. destruct (has_some m H) as [c Hc]. eexists. constructor. exact Hc.
  - eexists; constructor.
  - apply andb_true_iff in H as [H H']. destruct (IH H) as [u Hu], (IH' H') as [v Hv]. eexists. constructor; eauto.
  - apply andb_true_iff in H as [H H']. destruct (IH H) as [u Hu]. exists u. now constructor.
  - exists []. constructor.
  - destruct (IH H) as [u Hu]. exists (u ++ []). constructor; [exact Hu|constructor].
Qed.

Lemma live_thread t : (forall i, In i t -> exists r, nget tbl i = Some r /\ live r = true) -> exists w, Lt t w.
Proof.
  induction t as [|i t IH]; intros H; [exists []; reflexivity|].
  destruct (H i (or_introl eq_refl)) as [r [Hr Hl]]. destruct (live_spec r Hl) as [u Hu].
  destruct IH as [v Hv]; [intros j Hj; apply H; now right|]. exists (u ++ v). cbn. exists r, u, v. auto.
Qed.

End Table.

(** ** The table of an expression *)

Definition table_of (r : lre) : ptrie lre := pfill PLeaf (subs r).

Lemma subs_trans r : forall i x, In (i, x) (subs r) -> forall j y, In (j, y) (subs x) -> In (j, y) (subs r).
Proof.
  induction r as [|m|a|k r IH k' r' IH'|r IH r' IH'|k r IH|k r IH]; cbn [subs]; intros i x Hi j y Hj; try (now destruct Hi).
  - cbn [In] in *. rewrite in_app_iff in *. cbn [In] in *. destruct Hi as [[= <- <-]|[Hi|[[= <- <-]|Hi]]]; eauto.
  - rewrite in_app_iff in *. destruct Hi as [Hi|Hi]; eauto.
  - destruct Hi as [[= <- <-]|Hi]; [exact Hj|]. right. eauto.
  - destruct Hi as [[= <- <-]|Hi]; [exact Hj|]. right. eauto.
Qed.

Lemma stars_subs r : stars_ok r = true -> forall i x, In (i, x) (subs r) -> stars_ok x = true.
Proof.
  induction r as [|m|a|k r IH k' r' IH'|r IH r' IH'|k r IH|k r IH]; cbn [subs stars_ok]; intros H i x Hi; try (now destruct Hi).
  - apply andb_true_iff in H as [H H']. cbn [In] in *. rewrite in_app_iff in Hi. cbn [In] in *. destruct Hi as [[= <- <-]|[Hi|[[= <- <-]|Hi]]]; eauto.
  - apply andb_true_iff in H as [H H']. rewrite in_app_iff in Hi. destruct Hi as [Hi|Hi]; eauto.
  - destruct Hi as [[= <- <-]|Hi]; [exact H|]. apply andb_true_iff in H as [H _]. eauto.
  - destruct Hi as [[= <- <-]|Hi]; [exact H|]. apply andb_true_iff in H as [H _]. eauto.
Qed.

Lemma live_subs r : live r = true -> forall i x, In (i, x) (subs r) -> live x = true.
Proof.
  induction r as [|m|a|k r IH k' r' IH'|r IH r' IH'|k r IH|k r IH]; cbn [subs live]; intros H i x Hi; try (now destruct Hi).
  - apply andb_true_iff in H as [H H']. cbn [In] in *. rewrite in_app_iff in Hi. cbn [In] in *. destruct Hi as [[= <- <-]|[Hi|[[= <- <-]|Hi]]]; eauto.
  - apply andb_true_iff in H as [H H']. rewrite in_app_iff in Hi. destruct Hi as [Hi|Hi]; eauto.
  - destruct Hi as [[= <- <-]|Hi]; [exact H|]. eauto.
  - destruct Hi as [[= <- <-]|Hi]; [exact H|]. eauto.
Qed.

Section OfExpression.

Variable r : lre.
Hypothesis Hinc : increasing (map fst (subs r)) = true.
Hypothesis Hstars : stars_ok r = true.
Hypothesis Hlive : live r = true.

Lemma table_get i x : In (i, x) (subs r) -> nget (table_of r) i = Some x.
Proof. intros H. apply pfill_get; [now apply increasing_nodup|exact H]. Qed.

Lemma table_covers i x : In (i, x) (subs r) -> covered (table_of r) x.
Proof. intros H j y Hj. apply table_get. now apply (subs_trans r i x). Qed.

Lemma table_known i : In i (map fst (subs r)) ->
  exists x, nget (table_of r) i = Some x /\ covered (table_of r) x /\ stars_ok x = true /\ live x = true.
Proof.
  intros H. apply in_map_iff in H as [[j x] [<- H]]. exists x. split; [now apply table_get|].
  split; [now apply (table_covers j)|]. split; [now apply (stars_subs r Hstars j)|now apply (live_subs r Hlive j)].
Qed.

Definition known (t : list N) : Prop := forall i, In i t -> In i (map fst (subs r)).

Lemma known_ok t : known t -> thread_ok (table_of r) t.
Proof. intros H i Hi. destruct (table_known i (H i Hi)) as [x [H1 [H2 [H3 _]]]]. eauto. Qed.

Lemma known_live t : known t -> exists w, Lt (table_of r) t w.
Proof. intros H. apply live_thread. intros i Hi. destruct (table_known i (H i Hi)) as [x [H1 [_ [_ H4]]]]. eauto. Qed.

(** The labels in linear forms are known. *)
Definition parts_known (x : lre) : Prop := forall i y, In (i, y) (subs x) -> In i (map fst (subs r)).

Lemma flatten_known x : parts_known x -> forall i, In i (map fst (subs r)) -> known (flatten i x).
Proof.
  induction x as [|m|a|k x IH k' x' IH'|x IH x' IH'|k x IH|k x IH]; intros Hx i Hi j Hj; cbn [flatten] in Hj;
    try (destruct Hj as [<-|[]]; exact Hi); try now destruct Hj.
  2: { destruct Hj as [<-|[]]. apply (Hx k (LStar k x)). now left. }
  apply in_app_iff in Hj as [Hj|Hj].
  - apply (IH) with (3 := Hj).
    + intros i' y H. apply (Hx i' y). cbn. right. apply in_app_iff. now left.
    + apply (Hx k x). now left.
  - apply (IH') with (3 := Hj).
    + intros i' y H. apply (Hx i' y). cbn. right. apply in_app_iff. right. now right.
    + apply (Hx k' x'). cbn. right. apply in_app_iff. right. now left.
Qed.

Lemma lf_known x : parts_known x -> forall l m k, In (l, m, k) (lf x) -> known k.
Proof.
  induction x as [|m0|a|i x IH i' x' IH'|x IH x' IH'|i x IH|i x IH]; cbn [subs lf]; intros Hx l m k H; try (now destruct H).
  - destruct H as [[= <- <- <-]|[]]. intros i [].
  - assert (X : parts_known x) by (intros j y Hj; apply (Hx j y); cbn; right; apply in_app_iff; now left).
    assert (X' : parts_known x') by (intros j y Hj; apply (Hx j y); cbn; right; apply in_app_iff; right; now right).
    rewrite match_nulls in H. apply in_app_iff in H as [H|H].
    + apply in_map_iff in H as [[[l0 m1] k0] [[= <- <- <-] H]]. intros j Hj. apply in_app_iff in Hj as [Hj|Hj].
      * now apply (IH X _ _ _ H).
      * apply (flatten_known x' X' i'); [|exact Hj]. apply (Hx i' x'). cbn. right. apply in_app_iff. right. now left.
    + apply in_flat_map in H as [z [_ H]]. apply in_map_iff in H as [[[l0 m1] k0] [[= <- <- <-] H]]. now apply (IH' X' _ _ _ H).
  - apply in_app_iff in H as [H|H]; [apply (IH) with (2 := H)|apply (IH') with (2 := H)];
      intros j y Hj; apply (Hx j y), in_app_iff; auto.
  - apply in_map_iff in H as [[[l0 m1] k0] [[= <- <- <-] H]]. intros j Hj. apply in_app_iff in Hj as [Hj|[<-|[]]].
    + apply IH with (2 := H); [|exact Hj]. intros j' y Hj'. apply (Hx j' y). now right.
    + apply (Hx i (LStar i x)). now left.
  - apply in_map_iff in H as [[[l0 m1] k0] [[= <- <- <-] H]]. intros j Hj. apply in_app_iff in Hj as [Hj|[<-|[]]].
    + apply IH with (2 := H); [|exact Hj]. intros j' y Hj'. apply (Hx j' y). now right.
    + apply (Hx i (LStar i x)). now left.
Qed.

Lemma tlf_known t : known t -> forall l m k, In (l, m, k) (tlf (table_of r) t) -> known k.
Proof.
  induction t as [|i t IH]; intros Ht l m k H; [destruct H|]. cbn [tlf] in H.
  assert (Ht' : known t) by (intros j Hj; apply Ht; now right).
  pose proof (Ht i (or_introl eq_refl)) as Hi. apply in_map_iff in Hi as [[j x] [Ej Hi]]. cbn in Ej. subst j.
  rewrite (table_get _ _ Hi) in H. apply in_app_iff in H as [H|H].
  - apply in_map_iff in H as [[[l0 m1] k0] [[= <- <- <-] H]]. intros j Hj. apply in_app_iff in Hj as [Hj|Hj]; [|now apply Ht'].
    apply (lf_known x) with (2 := H) (3 := Hj). intros i' y Hy. apply in_map_iff. exists (i', y). split; [reflexivity|].
    now apply (subs_trans r i x).
  - destruct (nulls x) as [|n ns]; [destruct H|]. apply in_flat_map in H as [z [_ H]].
    apply in_map_iff in H as [[[l0 m1] k0] [[= <- <- <-] H]]. now apply (IH Ht' _ _ _ H).
Qed.

End OfExpression.
