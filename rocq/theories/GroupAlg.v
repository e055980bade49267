(** The search for one group of sibling rules, with rules and sibling nodes
    represented by their positions. This file is an intermediate step of the
    proofs (it is neither model nor specification): it states the algorithm on
    numbers and characterises its result without reference to the algorithm. *)

From Coq Require Import Arith Bool List Lia Sorted.
Import ListNotations.

Section Alg.

(** Flags of the rule at a position; whether a rule matches a node. *)
Variable opt greedy : nat -> bool.
Variable M : nat -> nat -> bool.

Definition mand (j : nat) : bool := negb (opt j).

(** ** The algorithm (MatchSem.v on numbers) *)

Fixpoint once (j : nat) (ns : list nat) : option (list nat * nat * list nat) :=
  match ns with
  | [] => None
  | x :: ns' =>
      if M j x then Some ([], x, ns')
      else match once j ns' with
           | Some (pre, y, rest) => Some (x :: pre, y, rest)
           | None => None
           end
  end.

Fixpoint allg (j : nat) (ns : list nat) : option (list nat * list nat) :=
  match ns with
  | [] => None
  | x :: ns' =>
      if M j x then
        match allg j ns' with
        | Some (l, rest) => Some (x :: l, rest)
        | None => Some ([x], ns')
        end
      else allg j ns'
  end.

Fixpoint range (rs : list nat) (seg : list nat) (last : option (list nat))
  : option (list nat) * list (nat * nat) :=
  match rs with
  | [] => (last, [])
  | j :: rs' =>
      if greedy j then
        match allg j seg with
        | Some (l, rest) => let '(la, t) := range rs' rest None in (la, map (pair j) l ++ t)
        | None => range rs' seg None
        end
      else
        match once j seg with
        | Some (_, y, rest) => let '(la, t) := range rs' rest (Some rest) in (la, (j, y) :: t)
        | None => range rs' seg None
        end
  end.

Fixpoint find_mand (rs : list nat) : option (list nat * nat * list nat) :=
  match rs with
  | [] => None
  | j :: rs' =>
      if mand j then Some ([], j, rs')
      else match find_mand rs' with
           | Some (pre, s, post) => Some (j :: pre, s, post)
           | None => None
           end
  end.

Definition or_first (fm : option nat) (j : nat) : option nat :=
  match fm with Some _ => fm | None => Some j end.

(** [None] is failure; otherwise the nodes where the search goes on, the
    matches, and the node at which the next group starts, if that was looked
    for. *)
Fixpoint grp (k : nat) (fm : option nat) (again : bool) (rules ns : list nat)
  : option (list nat * list (nat * nat) * option nat) :=
  match rules, ns with
  | j :: rs, _ :: _ =>
      match k with
      | O => None
      | S k' =>
          if opt j || again then
            match find_mand rs with
            | None =>
                match fm with
                | None =>
                    let '(last, t) := range rules ns None in
                    Some (match last with Some rest => rest | None => [] end, t, None)
                | Some stop =>
                    match once stop ns with
                    | Some (pre, y, rest) => Some (y :: rest, snd (range rules pre None), Some y)
                    | None => Some ([], snd (range rules ns None), None)
                    end
                end
            | Some (between, stop, after) =>
                match once stop ns with
                | None => None
                | Some (pre, y, rest) =>
                    match grp k' (or_first (if again then or_first fm j else fm) stop) false after rest with
                    | Some (next, t, bd) =>
                        Some (next, snd (range (j :: between) pre None) ++ (stop, y) :: t, bd)
                    | None => None
                    end
                end
            end
          else
            match once j ns with
            | None => None
            | Some (_, y, rest) =>
                match (if greedy j then grp k' fm true rules rest
                       else grp k' (or_first fm j) false rs rest) with
                | Some (next, t, bd) => Some (next, (j, y) :: t, bd)
                | None => None
                end
            end
      end
  | _, _ =>
      match find_mand (if again then tl rules else rules) with
      | None => Some (ns, [], None)
      | Some _ => None
      end
  end.

(** ** Vocabulary of the characterisation *)

(** [js] are increasing positions in [ns] at which the rules [rs] match. *)
Definition Emb (rs ns js : list nat) : Prop :=
  Forall2 (fun j i => In i ns /\ M j i = true) rs js /\ StronglySorted lt js.

(** The positions matched by rule [j]. *)
Definition poss (j : nat) (t : list (nat * nat)) : list nat :=
  map snd (filter (fun p => fst p =? j) t).

(** [i] is behind all matches of earlier rules. *)
Definition lower (t : list (nat * nat)) (j i : nat) : bool :=
  forallb (fun p => negb (fst p <? j) || (snd p <? i)) t.
(** [i] is before all matches of later mandatory rules. *)
Definition upper (t : list (nat * nat)) (j i : nat) : bool :=
  forallb (fun p => negb ((j <? fst p) && mand (fst p)) || (i <? snd p)) t.
Definition bound (bd : option nat) (i : nat) : bool :=
  match bd with Some y => i <? y | None => true end.
Definition win (t : list (nat * nat)) (bd : option nat) (j i : nat) : bool :=
  lower t j i && upper t j i && bound bd i.

(** Order of the matches: positions increase, rules do not decrease, and only
    greedy rules repeat. *)
Definition after (p q : nat * nat) : Prop :=
  snd p < snd q /\ (fst p < fst q \/ fst p = fst q /\ greedy (fst p) = true).

(** ** Lists *)

Lemma ss_app {A} (P : A -> A -> Prop) l l' :
  StronglySorted P l -> StronglySorted P l' ->
  (forall a b, In a l -> In b l' -> P a b) -> StronglySorted P (l ++ l').
Proof.
  induction l as [|a l IH]; simpl; intros H1 H2 H; [exact H2|].
  inversion H1 as [|? ? H1' HF]; subst. constructor.
  - apply IH; auto.
  - apply Forall_app. split; [exact HF|]. apply Forall_forall. intros b Hb. apply H; auto.
Qed.

Lemma ss_app_inv {A} (P : A -> A -> Prop) l l' :
  StronglySorted P (l ++ l') ->
  StronglySorted P l /\ StronglySorted P l' /\ (forall a b, In a l -> In b l' -> P a b).
Proof.
  induction l as [|a l IH]; simpl; intros H.
  - repeat split; auto; [constructor|]. intros a b [].
  - inversion H as [|? ? H' HF]; subst. destruct (IH H') as [H1 [H2 H3]].
    apply Forall_app in HF as [HF1 HF2]. repeat split; auto.
    + now constructor.
    + intros x y [->|Hx] Hy; [|auto]. rewrite Forall_forall in HF2. auto.
Qed.

Lemma ss_mid (pre : list nat) y rest :
  StronglySorted lt (pre ++ y :: rest) ->
  StronglySorted lt pre /\ StronglySorted lt rest /\
  (forall a, In a pre -> a < y) /\ (forall a, In a rest -> y < a).
Proof.
  intros H. apply ss_app_inv in H as [H1 [H2 H3]].
  inversion H2 as [|? ? H4 HF]; subst. repeat split; auto.
  - intros a Ha. apply H3; [exact Ha|now left].
  - now apply Forall_forall.
Qed.

Lemma filter_none {A} (f : A -> bool) l : (forall x, In x l -> f x = false) -> filter f l = [].
Proof.
  induction l as [|a l IH]; simpl; intros H; [reflexivity|].
  rewrite (H a) by now left. apply IH. intros x Hx. apply H. now right.
Qed.

Lemma filter_all {A} (f : A -> bool) l : (forall x, In x l -> f x = true) -> filter f l = l.
Proof.
  induction l as [|a l IH]; simpl; intros H; [reflexivity|].
  rewrite (H a) by now left. f_equal. apply IH. intros x Hx. apply H. now right.
Qed.

Lemma poss_app j t t' : poss j (t ++ t') = poss j t ++ poss j t'.
Proof. unfold poss. now rewrite filter_app, map_app. Qed.

Lemma poss_cons_eq j i t : poss j ((j, i) :: t) = i :: poss j t.
Proof. unfold poss. simpl. now rewrite Nat.eqb_refl. Qed.

Lemma poss_cons_neq j j' i t : j' <> j -> poss j ((j', i) :: t) = poss j t.
Proof. intros H. unfold poss. simpl. now rewrite (proj2 (Nat.eqb_neq j' j) H). Qed.

Lemma poss_none j t : (forall p, In p t -> fst p <> j) -> poss j t = [].
Proof.
  intros H. unfold poss. rewrite filter_none; [reflexivity|].
  intros p Hp. apply Nat.eqb_neq. now apply H.
Qed.

Lemma poss_map_pair j l : poss j (map (pair j) l) = l.
Proof.
  induction l as [|i l IH]; [reflexivity|]. simpl map. rewrite poss_cons_eq. now f_equal.
Qed.

Lemma in_poss j i t : In i (poss j t) <-> In (j, i) t.
Proof.
  unfold poss. rewrite in_map_iff. split.
  - intros [[j' i'] [E H]]. apply filter_In in H as [H1 H2]. apply Nat.eqb_eq in H2. simpl in *. now subst.
  - intros H. exists (j, i). split; [reflexivity|]. apply filter_In. split; [exact H|]. simpl. apply Nat.eqb_refl.
Qed.

Lemma lower_spec t j i : lower t j i = true <-> (forall j' i', In (j', i') t -> j' < j -> i' < i).
Proof.
  unfold lower. rewrite forallb_forall. split.
  - intros H j' i' Hin Hlt. specialize (H _ Hin). simpl in H.
    destruct (Nat.ltb_spec j' j); [|lia]. simpl in H. now apply Nat.ltb_lt.
  - intros H [j' i'] Hin. simpl. destruct (Nat.ltb_spec j' j); [|reflexivity]. simpl.
    apply Nat.ltb_lt. eauto.
Qed.

Lemma upper_spec t j i :
  upper t j i = true <-> (forall j' i', In (j', i') t -> j < j' -> mand j' = true -> i < i').
Proof.
  unfold upper. rewrite forallb_forall. split.
  - intros H j' i' Hin Hlt Hm. specialize (H _ Hin). simpl in H. rewrite Hm in H.
    destruct (Nat.ltb_spec j j'); [|lia]. simpl in H. now apply Nat.ltb_lt.
  - intros H [j' i'] Hin. simpl. destruct (Nat.ltb_spec j j'); [|reflexivity].
    destruct (mand j') eqn:E; [|reflexivity]. simpl. apply Nat.ltb_lt. eauto.
Qed.

Lemma bound_spec bd i : bound bd i = true <-> (forall y, bd = Some y -> i < y).
Proof.
  unfold bound. destruct bd as [y|]; split.
  - intros H y' E. injection E as <-. now apply Nat.ltb_lt.
  - intros H. apply Nat.ltb_lt. now apply H.
  - discriminate.
  - reflexivity.
Qed.

Lemma win_spec t bd j i :
  win t bd j i = true <->
  (forall j' i', In (j', i') t -> j' < j -> i' < i) /\
  (forall j' i', In (j', i') t -> j < j' -> mand j' = true -> i < i') /\
  (forall y, bd = Some y -> i < y).
Proof.
  unfold win. rewrite !andb_true_iff, lower_spec, upper_spec, bound_spec. tauto.
Qed.

Lemma bool_eq_iff (a b : bool) : (a = true <-> b = true) -> a = b.
Proof. destruct a, b; intuition congruence. Qed.

(** ** once, allg *)

Lemma once_some j ns pre y rest :
  once j ns = Some (pre, y, rest) ->
  ns = pre ++ y :: rest /\ M j y = true /\ (forall x, In x pre -> M j x = false).
Proof.
  revert pre. induction ns as [|x ns IH]; simpl; intros pre E; [discriminate|].
  destruct (M j x) eqn:Ex.
  - injection E as <- <- <-. repeat split; auto. intros ? [].
  - destruct (once j ns) as [[[pre' y'] rest']|]; [|discriminate]. injection E as <- <- <-.
    destruct (IH _ eq_refl) as [-> [H1 H2]]. repeat split; auto.
    intros z [->|Hz]; auto.
Qed.

Lemma once_none j ns : once j ns = None -> forall x, In x ns -> M j x = false.
Proof.
  induction ns as [|x ns IH]; simpl; intros E z; [intros []|].
  destruct (M j x) eqn:Ex; [discriminate|].
  destruct (once j ns) as [[[pre' y'] rest']|]; [discriminate|].
  intros [->|Hz]; auto.
Qed.

Lemma once_hd j ns :
  match once j ns with
  | Some (_, y, _) => hd_error (filter (M j) ns) = Some y
  | None => filter (M j) ns = []
  end.
Proof.
  destruct (once j ns) as [[[pre y] rest]|] eqn:E.
  - apply once_some in E as [-> [H1 H2]]. rewrite filter_app, filter_none by exact H2.
    simpl. now rewrite H1.
  - apply filter_none. now apply once_none.
Qed.

Lemma allg_spec j ns :
  match allg j ns with
  | Some (l, rest) =>
      l = filter (M j) ns /\
      exists pre y, ns = pre ++ y :: rest /\ M j y = true /\ In y l /\
        (forall x, In x rest -> M j x = false)
  | None => forall x, In x ns -> M j x = false
  end.
Proof.
  induction ns as [|x ns IH]; simpl; [intros ? []|].
  destruct (M j x) eqn:Ex; destruct (allg j ns) as [[l rest]|].
  - destruct IH as [-> [pre [y [-> [H1 [H2 H3]]]]]]. split; [reflexivity|].
    exists (x :: pre), y. repeat split; auto. now right.
  - split; [now rewrite filter_none|]. exists [], x. repeat split; auto. now left.
  - destruct IH as [-> [pre [y [-> [H1 [H2 H3]]]]]]. split; [reflexivity|].
    exists (x :: pre), y. repeat split; auto.
  - intros z [->|Hz]; auto.
Qed.

(** ** range *)

(** What a rule takes from the nodes it may match. *)
Definition pick (j : nat) (l : list nat) : list nat := if greedy j then l else firstn 1 l.

Lemma ss_filter {A} (P : A -> A -> Prop) f l : StronglySorted P l -> StronglySorted P (filter f l).
Proof.
  induction 1 as [|a l H IH HF]; simpl; [constructor|].
  destruct (f a); [|exact IH]. constructor; [exact IH|].
  apply Forall_forall. intros x Hx. apply filter_In in Hx as [Hx _].
  rewrite Forall_forall in HF. auto.
Qed.

Lemma range_in rs seg last j i :
  In (j, i) (snd (range rs seg last)) -> In j rs /\ In i seg /\ M j i = true.
Proof.
  revert seg last. induction rs as [|j0 rs IH]; simpl; intros seg last; [intros []|].
  destruct (greedy j0).
  - pose proof (allg_spec j0 seg) as Ha. destruct (allg j0 seg) as [[l rest]|].
    + destruct Ha as [-> [pre [y [-> [H1 [H2 H3]]]]]].
      destruct (range rs rest None) as [la t] eqn:E. simpl. intros H.
      apply in_app_or in H as [H|H].
      * apply in_map_iff in H as [x [Ex Hx]]. injection Ex as -> ->.
        apply filter_In in Hx as [Hx1 Hx2]. auto.
      * specialize (IH rest None). rewrite E in IH. destruct (IH H) as [Ha [Hb Hc]].
        repeat split; auto. apply in_or_app. right. now right.
    + intros H. destruct (IH _ _ H) as [? [? ?]]. auto.
  - destruct (once j0 seg) as [[[pre y] rest]|] eqn:Eo.
    + apply once_some in Eo as [-> [H1 H2]].
      destruct (range rs rest (Some rest)) as [la t] eqn:E. simpl. intros [H|H].
      * injection H as -> ->. repeat split; auto. apply in_or_app. right. now left.
      * specialize (IH rest (Some rest)). rewrite E in IH. destruct (IH H) as [Ha [Hb Hc]].
        repeat split; auto. apply in_or_app. right. now right.
    + intros H. destruct (IH _ _ H) as [? [? ?]]. auto.
Qed.

Lemma range_after rs seg last :
  StronglySorted lt rs -> StronglySorted lt seg -> StronglySorted after (snd (range rs seg last)).
Proof.
  revert seg last. induction rs as [|j rs IH]; simpl; intros seg last Hrs Hseg; [constructor|].
  inversion Hrs as [|? ? Hrs' HF]; subst.
  destruct (greedy j) eqn:Hg.
  - pose proof (allg_spec j seg) as Ha. destruct (allg j seg) as [[l rest]|]; [|now apply IH].
    destruct Ha as [-> [pre [y [-> [H1 [H2 H3]]]]]].
    pose proof (range_in rs rest None) as Hin.
    destruct (ss_mid _ _ _ Hseg) as [Hs1 [Hs2 [Hs3 Hs4]]].
    specialize (IH rest None Hrs' Hs2).
    destruct (range rs rest None) as [la t]. simpl in *.
    apply ss_app; [|exact IH|].
    + pose proof (ss_filter _ (M j) _ Hseg) as Hf. revert Hf.
      generalize (filter (M j) (pre ++ y :: rest)). intros l. clear - Hg.
      induction 1 as [|a l H IH HF]; simpl; constructor; auto.
      apply Forall_forall. intros p Hp. apply in_map_iff in Hp as [x [<- Hx]].
      rewrite Forall_forall in HF. split; simpl; auto.
    + intros a b Ha Hb. apply in_map_iff in Ha as [x [<- Hx]]. destruct b as [j' i'].
      destruct (Hin _ _ Hb) as [Hj [Hi _]]. rewrite Forall_forall in HF.
      split; simpl; [|left; now apply HF].
      apply filter_In in Hx as [Hx1 Hx2]. apply in_app_or in Hx1 as [Hx1|[->|Hx1]].
      * specialize (Hs3 _ Hx1). specialize (Hs4 _ Hi). lia.
      * now apply Hs4.
      * rewrite (H3 _ Hx1) in Hx2. discriminate.
  - destruct (once j seg) as [[[pre y] rest]|] eqn:Eo; [|now apply IH].
    apply once_some in Eo as [-> [H1 H2]].
    pose proof (range_in rs rest (Some rest)) as Hin.
    destruct (ss_mid _ _ _ Hseg) as [Hs1 [Hs2 [Hs3 Hs4]]].
    specialize (IH rest (Some rest) Hrs' Hs2).
    destruct (range rs rest (Some rest)) as [la t]. simpl in *.
    constructor; [exact IH|]. apply Forall_forall. intros [j' i'] Hp.
    destruct (Hin _ _ Hp) as [Hj [Hi _]]. rewrite Forall_forall in HF.
    split; simpl; [now apply Hs4|left; now apply HF].
Qed.

Lemma range_poss rs seg last j :
  StronglySorted lt rs -> StronglySorted lt seg -> In j rs ->
  let t := snd (range rs seg last) in
  poss j t = pick j (filter (M j) (filter (lower t j) seg)).
Proof.
  revert seg last. induction rs as [|j0 rs IH]; intros seg last Hrs Hseg Hj; [destruct Hj|].
  inversion Hrs as [|? ? Hrs' HF]; subst. rewrite Forall_forall in HF.
  cbv zeta. unfold pick at 1. simpl range.
  (* the head rule has nothing before it *)
  assert (Hlow0 : forall t, (forall p, In p t -> j0 <= fst p) -> filter (lower t j0) seg = seg).
  { intros t Ht. apply filter_all. intros x _. apply lower_spec. intros j' i' Hp Hlt.
    specialize (Ht _ Hp). simpl in Ht. lia. }
  (* the head rule does not match *)
  assert (Hno : (forall x, In x seg -> M j0 x = false) ->
     poss j (snd (range rs seg None)) =
     (if greedy j then filter (M j) (filter (lower (snd (range rs seg None)) j) seg)
      else firstn 1 (filter (M j) (filter (lower (snd (range rs seg None)) j) seg)))).
  { intros Hn. destruct Hj as [->|Hj].
    - rewrite (Hlow0 (snd (range rs seg None))), filter_none.
      + rewrite poss_none; [now destruct (greedy j)|]. intros [j' i'] Hp E. simpl in E. subst j'.
        apply range_in in Hp as [Hp _]. specialize (HF _ Hp). lia.
      + exact Hn.
      + intros [j' i'] Hp. apply range_in in Hp as [Hp _]. specialize (HF _ Hp). simpl. lia.
    - apply (IH seg None Hrs' Hseg Hj). }
  (* the head rule matches at [l], then the others behind [y] *)
  assert (Hyes : forall l pre y rest la, seg = pre ++ y :: rest -> In y l ->
     (forall x, In x l -> x <= y) ->
     l = pick j0 (filter (M j0) seg) ->
     poss j (map (pair j0) l ++ snd (range rs rest la)) =
     (let t := map (pair j0) l ++ snd (range rs rest la) in
      if greedy j then filter (M j) (filter (lower t j) seg)
      else firstn 1 (filter (M j) (filter (lower t j) seg)))).
  { intros l pre y rest la Hseg' Hy Hle Hl. cbv zeta. rewrite poss_app.
    assert (Hj0 : forall j' i', In (j', i') (snd (range rs rest la)) -> j0 < j').
    { intros j' i' Hp. apply range_in in Hp as [Hp _]. now apply HF. }
    destruct Hj as [->|Hj].
    - rewrite poss_map_pair, (poss_none j (snd _)), app_nil_r.
      + rewrite Hlow0; [exact Hl|]. intros [j' i'] Hp. simpl. apply in_app_or in Hp as [Hp|Hp].
        * apply in_map_iff in Hp as [x [E _]]. injection E as <- _. lia.
        * apply Hj0 in Hp. lia.
      + intros [j' i'] Hp. apply Hj0 in Hp. simpl. lia.
    - pose proof (HF _ Hj) as Hlt.
      rewrite (poss_none j (map _ _)); [|intros [j' i'] Hp; apply in_map_iff in Hp as [x [E _]];
                                           injection E as <- _; simpl; lia].
      simpl app. subst seg. destruct (ss_mid _ _ _ Hseg) as [Hs1 [Hs2 [Hs3 Hs4]]].
      rewrite (IH rest la Hrs' Hs2 Hj). unfold pick.
      replace (filter (lower (map (pair j0) l ++ snd (range rs rest la)) j) (pre ++ y :: rest))
        with (filter (lower (snd (range rs rest la)) j) rest); [reflexivity|].
      rewrite filter_app. rewrite (filter_none _ pre).
      + simpl.
        replace (lower (map (pair j0) l ++ snd (range rs rest la)) j y) with false.
        * apply filter_ext_in. intros x Hx. apply bool_eq_iff. rewrite !lower_spec. split.
          -- intros H j' i' Hp Hlt'. apply in_app_or in Hp as [Hp|Hp]; [|eauto].
             apply in_map_iff in Hp as [z [E Hz]]. injection E as <- <-.
             specialize (Hle _ Hz). specialize (Hs4 _ Hx). lia.
          -- intros H j' i' Hp Hlt'. apply (H j' i'); auto. apply in_or_app. now right.
        * symmetry. apply not_true_is_false. rewrite lower_spec. intros H.
          specialize (H j0 y). rewrite in_app_iff in H.
          assert (y < y); [|lia]. apply H; [|exact Hlt]. left. apply in_map_iff. eauto.
      + intros x Hx. apply not_true_is_false. rewrite lower_spec. intros H.
        specialize (H j0 y). rewrite in_app_iff in H. specialize (Hs3 _ Hx).
        assert (y < x); [|lia]. apply H; [|exact Hlt]. left. apply in_map_iff. eauto. }
  destruct (greedy j0) eqn:Hg.
  - pose proof (allg_spec j0 seg) as Ha. destruct (allg j0 seg) as [[l rest]|]; [|now apply Hno].
    destruct Ha as [Hl [pre [y [Hs [H1 [H2 H3]]]]]].
    assert (Hle : forall x, In x l -> x <= y).
    { intros x Hx. subst l. apply filter_In in Hx as [Hx1 Hx2]. subst seg.
      destruct (ss_mid _ _ _ Hseg) as [Hs1 [Hs2 [Hs3 Hs4]]].
      apply in_app_or in Hx1 as [Hx1|[->|Hx1]]; [apply Hs3 in Hx1; lia|lia|].
      rewrite (H3 _ Hx1) in Hx2. discriminate. }
    specialize (Hyes l pre y rest None Hs H2 Hle).
    unfold pick in Hyes. rewrite Hg in Hyes.
    destruct (range rs rest None) as [la t]. simpl snd in *. now apply Hyes.
  - destruct (once j0 seg) as [[[pre y] rest]|] eqn:Eo; [|apply Hno; now apply once_none].
    apply once_some in Eo as [Hs [H1 H2]].
    assert (Hfirst : [y] = pick j0 (filter (M j0) seg)).
    { unfold pick. rewrite Hg, Hs, filter_app, filter_none by exact H2. simpl. now rewrite H1. }
    specialize (Hyes [y] pre y rest (Some rest) Hs (or_introl eq_refl)).
    destruct (range rs rest (Some rest)) as [la t]. simpl snd in *. simpl map in Hyes. simpl app in Hyes.
    apply Hyes; [|exact Hfirst]. intros x [->|[]]. lia.
Qed.

Lemma range_last rs seg last rest :
  StronglySorted lt seg ->
  fst (range rs seg last) = Some rest ->
  last = Some rest /\ snd (range rs seg last) = [] \/
  (exists pre, seg = pre ++ rest /\ pre <> []) /\
  (forall j i x, In (j, i) (snd (range rs seg last)) -> In x rest -> i < x).
Proof.
  intros Hseg E. revert seg last Hseg E. induction rs as [|j0 rs IH]; simpl; intros seg last Hseg E.
  - left. auto.
  - destruct (greedy j0).
    + pose proof (allg_spec j0 seg) as Ha. destruct (allg j0 seg) as [[l r]|].
      * destruct Ha as [-> [pre [y [-> [H1 [H2 H3]]]]]].
        destruct (ss_mid _ _ _ Hseg) as [Hs1 [Hs2 [Hs3 Hs4]]].
        specialize (IH r None Hs2). pose proof (range_in rs r None) as Hin.
        destruct (range rs r None) as [la t]. simpl in *.
        destruct (IH E) as [[? _]|[[p [-> Hp]] H4]]; [discriminate|]. right. split.
        -- exists (pre ++ y :: p). rewrite <- app_assoc. split; [reflexivity|now destruct pre].
        -- intros j i x Hp' Hx. apply in_app_or in Hp' as [Hp'|Hp']; [|eauto].
           apply in_map_iff in Hp' as [z [Ez Hz]]. injection Ez as <- <-.
           apply filter_In in Hz as [Hz1 Hz2]. apply in_app_or in Hz1 as [Hz1|[->|Hz1]].
           ++ specialize (Hs3 _ Hz1). specialize (Hs4 x). rewrite in_app_iff in Hs4. specialize (Hs4 (or_intror Hx)). lia.
           ++ apply Hs4. apply in_or_app. now right.
           ++ rewrite (H3 _ Hz1) in Hz2. discriminate.
      * destruct (IH seg None Hseg E) as [[? _]|H]; [discriminate|]. right. exact H.
    + destruct (once j0 seg) as [[[pre y] r]|] eqn:Eo.
      * apply once_some in Eo as [-> [H1 H2]].
        destruct (ss_mid _ _ _ Hseg) as [Hs1 [Hs2 [Hs3 Hs4]]].
        specialize (IH r (Some r) Hs2).
        destruct (range rs r (Some r)) as [la t]. simpl in *. right.
        destruct (IH E) as [[Er ->]|[[p [-> Hp]] H4]].
        -- injection Er as ->. split.
           ++ exists (pre ++ [y]). rewrite <- app_assoc. split; [reflexivity|now destruct pre].
           ++ intros j i x [Hp|[]] Hx. injection Hp as <- <-. auto.
        -- split.
           ++ exists (pre ++ y :: p). rewrite <- app_assoc. split; [reflexivity|now destruct pre].
           ++ intros j i x [Hp'|Hp'] Hx; [|eauto]. injection Hp' as <- <-.
              apply Hs4. apply in_or_app. now right.
      * destruct (IH seg None Hseg E) as [[? _]|H]; [discriminate|]. right. exact H.
Qed.

(** ** grp *)

(** Which mandatory greedy rules repeat. *)
Fixpoint rep (j : nat) : bool :=
  match j with
  | 0 => mand 0 && greedy 0
  | S j' => mand (S j') && greedy (S j') && mand j' && negb (rep j')
  end.

(** What a rule takes from the nodes it may match. *)
Definition take (j : nat) (l : list nat) : list nat :=
  if greedy j && (opt j || rep j) then l else firstn 1 l.

Lemma rep_mand j : rep j = true -> mand j = true /\ greedy j = true.
Proof. destruct j; simpl; intros H; repeat apply andb_true_iff in H as [H ?]; auto. Qed.

Lemma take_opt j l : opt j = true -> take j l = pick j l.
Proof. intros H. unfold take, pick. rewrite H. simpl. now rewrite andb_true_r. Qed.

Lemma take_rep j l : rep j = true -> take j l = pick j l.
Proof. intros H. unfold take, pick. rewrite H, orb_true_r. now rewrite andb_true_r. Qed.

(** The mandatory rules that still have to match. *)
Definition todo (again : bool) (rules : list nat) : list nat :=
  filter mand (if again then tl rules else rules).

(** Where the next group is looked for. *)
Definition base (again : bool) (rules ns : list nat) (t : list (nat * nat)) : list nat :=
  match todo again rules with
  | [] => ns
  | ms => match hd_error (poss (last ms 0) t) with
          | Some i => filter (Nat.ltb i) ns
          | None => []
          end
  end.

(** There are rules that can match behind the last mandatory one. *)
Definition trailing (rules : list nat) : bool :=
  match filter mand rules with
  | [] => negb (length rules =? 0)
  | ms => negb (last ms 0 =? last rules 0) || rep (last ms 0)
  end.

(** The rule that starts the next group. *)
Definition f_eff (fm : option nat) (rules : list nat) : option nat :=
  match fm with
  | Some f => Some f
  | None => match filter mand rules with
            | [] => None
            | f :: ms => if (f =? last (f :: ms) 0) && rep f then None else Some f
            end
  end.

Record Post (fm : option nat) (again : bool) (rules ns next : list nat) (t : list (nat * nat))
  (bd : option nat) : Prop := {
  post_in : forall j i, In (j, i) t -> In j rules /\ In i ns /\ M j i = true;
  post_sorted : StronglySorted after t;
  post_emb : exists js,
      Emb (todo again rules) ns js /\
      (forall js', Emb (todo again rules) ns js' -> Forall2 le js js') /\
      Forall2 (fun j i => hd_error (poss j t) = Some i) (todo again rules) js;
  post_poss : forall j, In j rules ->
      poss j t = take j (filter (M j) (filter (win t bd j) ns));
  post_next : exists pre, ns = pre ++ next;
  post_disjoint : forall j i x, In (j, i) t -> In x next -> i < x;
  post_bound : forall y, bd = Some y -> In y ns /\ (forall j i, In (j, i) t -> i < y);
  post_bd :
      if trailing rules then
        match f_eff fm rules with
        | None => bd = None
        | Some f => bd = hd_error (filter (M f) (base again rules ns t)) /\
                    next = match bd with Some y => filter (Nat.leb y) ns | None => [] end
        end
      else bd = None /\ next = base again rules ns t
}.

Lemma seq_split a n l x l' :
  seq a n = l ++ x :: l' ->
  x = a + length l /\ l = seq a (length l) /\ l' = seq (S x) (n - S (length l)) /\ length l < n.
Proof.
  revert a n. induction l as [|y l IH]; intros a n E.
  - destruct n; [discriminate|]. simpl in E. injection E as <- <-. simpl.
    rewrite Nat.sub_0_r, Nat.add_0_r. repeat split; lia.
  - destruct n; [discriminate|]. simpl in E. injection E as <- E.
    destruct (IH _ _ E) as [-> [H2 [-> H4]]]. simpl. rewrite <- H2.
    repeat split; try lia; f_equal; lia.
Qed.

Lemma seq_sorted a n : StronglySorted lt (seq a n).
Proof.
  revert a. induction n as [|n IH]; intros a; simpl; constructor; [apply IH|].
  apply Forall_forall. intros x Hx. apply in_seq in Hx. lia.
Qed.

Lemma find_mand_spec rs :
  match find_mand rs with
  | Some (pre, s, post) => rs = pre ++ s :: post /\ mand s = true /\ (forall j, In j pre -> mand j = false)
  | None => forall j, In j rs -> mand j = false
  end.
Proof.
  induction rs as [|j rs IH]; simpl; [intros ? []|].
  destruct (mand j) eqn:E; [repeat split; auto; intros ? []|].
  destruct (find_mand rs) as [[[pre s] post]|].
  - destruct IH as [-> [H1 H2]]. repeat split; auto. intros x [->|Hx]; auto.
  - intros x [->|Hx]; auto.
Qed.

Lemma filter_ge_suffix (pre next : list nat) :
  StronglySorted lt (pre ++ next) ->
  match next with y :: _ => filter (Nat.leb y) (pre ++ next) = next | [] => True end.
Proof.
  destruct next as [|y rest]; [trivial|]. intros H.
  destruct (ss_mid _ _ _ H) as [H1 [H2 [H3 H4]]].
  rewrite filter_app, filter_none.
  - simpl. rewrite Nat.leb_refl. f_equal. apply filter_all. intros x Hx. apply Nat.leb_le.
    specialize (H4 _ Hx). lia.
  - intros x Hx. apply Nat.leb_gt. auto.
Qed.

Lemma filter_gt_mid (pre : list nat) y rest :
  StronglySorted lt (pre ++ y :: rest) -> filter (Nat.ltb y) (pre ++ y :: rest) = rest.
Proof.
  intros H. destruct (ss_mid _ _ _ H) as [H1 [H2 [H3 H4]]].
  rewrite filter_app, filter_none.
  - simpl. rewrite Nat.ltb_irrefl. apply filter_all. intros x Hx. apply Nat.ltb_lt. auto.
  - intros x Hx. apply Nat.ltb_ge. specialize (H3 _ Hx). lia.
Qed.

Lemma filter_skip_pre f (pre : list nat) y rest :
  (forall x, In x pre -> f x = false) -> f y = false ->
  filter f (pre ++ y :: rest) = filter f rest.
Proof.
  intros H1 H2. rewrite filter_app, filter_none by exact H1. simpl. now rewrite H2.
Qed.

(** Emb after the first rule. *)
Lemma emb_cons s ms pre y rest js :
  StronglySorted lt (pre ++ y :: rest) -> (forall x, In x pre -> M s x = false) ->
  Emb (s :: ms) (pre ++ y :: rest) js ->
  exists i js', js = i :: js' /\ y <= i /\ Emb ms rest js'.
Proof.
  intros Hs Hpre [HF Hss]. inversion HF as [|? i ? js' [Hi Hm] HF']; subst.
  exists i, js'. split; [reflexivity|].
  destruct (ss_mid _ _ _ Hs) as [H1 [H2 [H3 H4]]].
  assert (Hyi : y <= i).
  { apply in_app_or in Hi as [Hi|[->|Hi]]; [|lia|specialize (H4 _ Hi); lia].
    rewrite (Hpre _ Hi) in Hm. discriminate. }
  split; [exact Hyi|]. inversion Hss as [|? ? Hss' Hgt]; subst. split; [|exact Hss'].
  clear - HF' Hgt Hyi H3. rewrite Forall_forall in Hgt.
  induction HF' as [|j x ms js' [Hx Hm] HF IH]; constructor.
  - split; [|exact Hm]. specialize (Hgt x (or_introl eq_refl)).
    apply in_app_or in Hx as [Hx|[->|Hx]]; [specialize (H3 _ Hx); lia|lia|exact Hx].
  - apply IH. intros z Hz. apply Hgt. now right.
Qed.

Lemma emb_mono rs ns ns' js : (forall x, In x ns -> In x ns') -> Emb rs ns js -> Emb rs ns' js.
Proof.
  intros H [HF Hs]. split; [|exact Hs]. clear Hs.
  induction HF as [|j i rs js [Hi Hm]]; constructor; auto.
Qed.

Lemma emb_in rs ns js i : Emb rs ns js -> In i js -> In i ns.
Proof.
  intros [HF _] Hi. induction HF as [|j x rs js [Hx Hm] HF IH]; [destruct Hi|].
  destruct Hi as [->|Hi]; auto.
Qed.

Lemma emb_nil ns js : Emb [] ns js -> js = [].
Proof. intros [HF _]. now inversion HF. Qed.

Lemma last_cons_cons {A} (a b : A) l d : last (a :: b :: l) d = last (b :: l) d.
Proof. reflexivity. Qed.

Lemma hd_poss_in j t i : hd_error (poss j t) = Some i -> In (j, i) t.
Proof.
  intros H. apply in_poss. destruct (poss j t); [discriminate|]. injection H as ->. now left.
Qed.


Lemma last_app_cons {A} (l : list A) x l' d : last (l ++ x :: l') d = last (x :: l') d.
Proof.
  induction l as [|a l IH]; [reflexivity|]. simpl app.
  destruct (l ++ x :: l') as [|b m] eqn:E; [destruct l; discriminate|].
  rewrite last_cons_cons. exact IH.
Qed.

Lemma last_cons_nonempty {A} (x : A) l d : l <> [] -> last (x :: l) d = last l d.
Proof. destruct l; [congruence|reflexivity]. Qed.

Lemma last_in {A} (l : list A) d : l <> [] -> In (last l d) l.
Proof.
  induction l as [|a l IH]; [congruence|]. intros _. destruct l as [|b l]; [now left|].
  right. apply IH. discriminate.
Qed.

Lemma post_compose fm f0 (again : bool) (l : list nat) s c' pre y rest next t1 t2 bd :
  let rules := l ++ s :: seq (S s) c' in
  let ns := pre ++ y :: rest in
  StronglySorted lt rules -> StronglySorted lt ns ->
  M s y = true -> (forall x, In x pre -> M s x = false) ->
  mand s = true -> rep s = false ->
  (if again then match l with j0 :: l' => mand j0 = true /\ rep j0 = true /\ (forall j, In j l' -> opt j = true)
                 | [] => False end
   else forall j, In j l -> opt j = true) ->
  (forall j i, In (j, i) t1 -> In j l /\ In i pre /\ M j i = true) ->
  StronglySorted after t1 ->
  (forall j, In j l -> poss j t1 = pick j (filter (M j) (filter (lower t1 j) pre))) ->
  f_eff fm rules = Some f0 ->
  Post (Some f0) false (seq (S s) c') rest next t2 bd ->
  Post fm again rules ns next (t1 ++ (s, y) :: t2) bd.
Proof.
  intros rules ns Hrules Hns Hsy Hpre Hms Hrs Hl Ht1 Hs1 Hp1 Heff HP.
  destruct (ss_mid _ _ _ Hns) as [Hn1 [Hn2 [Hn3 Hn4]]].
  destruct (ss_mid _ _ _ Hrules) as [Hr1 [Hr2 [Hr3 Hr4]]].
  assert (Hl' : forall j, In j l -> opt j = true \/ rep j = true).
  { destruct again; [|auto]. destruct l as [|j0 l']; [contradiction|].
    destruct Hl as [_ [Hrep Hopt]]. intros j [->|Hj]; auto. }
  (* mandatory rules with the head set aside *)
  assert (Htodo : todo again rules = s :: filter mand (seq (S s) c')).
  { unfold todo, rules. destruct again.
    - destruct l as [|j0 l']; [contradiction|]. destruct Hl as [_ [_ Hopt]]. simpl tl.
      rewrite filter_app, filter_none; [simpl; now rewrite Hms|].
      intros j Hj. unfold mand. now rewrite (Hopt _ Hj).
    - rewrite filter_app, filter_none; [simpl; now rewrite Hms|].
      intros j Hj. unfold mand. now rewrite (Hl _ Hj). }
  destruct HP as [Qin Qsorted [js [Qe [Qleft Qhd]]] Qposs [pn Qnext] Qdisj Qbound Qbd].
  assert (Ht2 : forall j i, In (j, i) t2 -> s < j /\ y < i).
  { intros j i Hp. destruct (Qin _ _ Hp) as [Hj [Hi _]]. split; auto. }
  assert (Hp2 : forall j, In j (seq (S s) c') -> poss j (t1 ++ (s, y) :: t2) = poss j t2).
  { intros j Hj. pose proof (Hr4 _ Hj). rewrite poss_app, (poss_none j t1).
    - simpl. rewrite poss_cons_neq by lia. reflexivity.
    - intros [j' i'] Hp E. simpl in E. subst j'. apply Ht1 in Hp as [Hp _]. apply Hr3 in Hp. lia. }
  assert (Hps : poss s (t1 ++ (s, y) :: t2) = [y]).
  { rewrite poss_app, (poss_none s t1), poss_cons_eq, (poss_none s t2); [reflexivity| |].
    - intros [j' i'] Hp. apply Ht2 in Hp. simpl. lia.
    - intros [j' i'] Hp E. simpl in E. subst j'. apply Ht1 in Hp as [Hp _]. apply Hr3 in Hp. lia. }
  assert (Hbdy : forall z, bd = Some z -> y < z).
  { intros z E. apply Qbound in E as [Hz _]. auto. }
  constructor.
  - (* post_in *)
    intros j i Hp. unfold rules, ns. rewrite !in_app_iff. apply in_app_or in Hp as [Hp|[E|Hp]].
    + destruct (Ht1 _ _ Hp) as [? [? ?]]. auto.
    + injection E as <- <-. split; [right; now left|]. split; [right; now left|exact Hsy].
    + destruct (Qin _ _ Hp) as [? [? ?]]. split; [right; now right|]. split; [right; now right|assumption].
  - (* post_sorted *)
    apply ss_app; [exact Hs1| |].
    + constructor; [exact Qsorted|]. apply Forall_forall. intros [j i] Hp.
      destruct (Ht2 _ _ Hp). split; simpl; auto.
    + intros [j i] [j' i'] Hp Hp'. destruct (Ht1 _ _ Hp) as [Hj [Hi _]].
      apply Hr3 in Hj. apply Hn3 in Hi. destruct Hp' as [E|Hp'].
      * injection E as <- <-. split; simpl; auto.
      * destruct (Ht2 _ _ Hp'). split; simpl; lia.
  - (* post_emb *)
    exists (y :: js). rewrite Htodo. split; [|split].
    + split.
      * constructor; [split; [apply in_or_app; right; now left|exact Hsy]|].
        apply (emb_mono _ rest ns) in Qe; [apply Qe|]. intros x Hx. apply in_or_app. right. now right.
      * constructor; [apply Qe|]. apply Forall_forall. intros x Hx. apply Hn4.
        eapply emb_in; eauto.
    + intros js' He. apply emb_cons in He as [i [js'' [-> [Hyi He]]]]; auto.
    + constructor; [now rewrite Hps|].
      assert (Hsub : forall j, In j (filter mand (seq (S s) c')) -> In j (seq (S s) c')).
      { intros j Hj. now apply filter_In in Hj. }
      change (todo false (seq (S s) c')) with (filter mand (seq (S s) c')) in Qhd.
      revert Hsub Qhd. generalize (filter mand (seq (S s) c')) as ms. clear - Hp2.
      induction 2 as [|j i ms js H HF IH]; constructor.
      * rewrite Hp2; [exact H|]. apply Hsub. now left.
      * apply IH. intros x Hx. apply Hsub. now right.
  - (* post_poss *)
    intros j Hj. unfold rules in Hj. apply in_app_or in Hj as [Hj|[<-|Hj]].
    + pose proof (Hr3 _ Hj) as Hjs.
      assert (Htake : forall ll, take j ll = pick j ll).
      { intros ll. destruct (Hl' _ Hj); [now apply take_opt|now apply take_rep]. }
      rewrite Htake.
      rewrite poss_app, poss_cons_neq by lia. rewrite (poss_none j t2), app_nil_r.
      2:{ intros [j' i'] Hp. apply Ht2 in Hp. simpl. lia. }
      rewrite Hp1 by exact Hj. f_equal. f_equal.
      unfold ns. rewrite filter_app. simpl.
      assert (Hwin : forall x, win (t1 ++ (s, y) :: t2) bd j x = true -> x < y).
      { intros x Hx. apply win_spec in Hx as [_ [Hx _]]. apply (Hx s y); auto.
        apply in_or_app. right. now left. }
      rewrite (filter_none _ rest).
      2:{ intros x Hx. apply not_true_is_false. intros Hw. apply Hwin in Hw. specialize (Hn4 _ Hx). lia. }
      replace (win (t1 ++ (s, y) :: t2) bd j y) with false.
      2:{ symmetry. apply not_true_is_false. intros Hw. apply Hwin in Hw. lia. }
      rewrite app_nil_r. apply filter_ext_in. intros x Hx.
      apply bool_eq_iff. rewrite lower_spec, win_spec. specialize (Hn3 _ Hx). split.
      * intros H. split; [|split].
        -- intros j' i' Hp Hlt. apply in_app_or in Hp as [Hp|[E|Hp]]; [eauto| |].
           ++ injection E as <- <-. lia.
           ++ apply Ht2 in Hp. lia.
        -- intros j' i' Hp Hlt Hm. apply in_app_or in Hp as [Hp|[E|Hp]].
           ++ (* a mandatory rule in front of [s] is the first one *)
              destruct (Ht1 _ _ Hp) as [Hj' _].
              destruct again.
              ** destruct l as [|j0 l']; [contradiction|]. destruct Hl as [_ [_ Hopt]].
                 destruct Hj' as [<-|Hj'].
                 --- destruct Hj as [<-|Hj]; [lia|].
                     inversion Hr1 as [|? ? _ HF]; subst. rewrite Forall_forall in HF. specialize (HF _ Hj). lia.
                 --- unfold mand in Hm. rewrite (Hopt _ Hj') in Hm. discriminate.
              ** unfold mand in Hm. rewrite (Hl _ Hj') in Hm. discriminate.
           ++ injection E as <- <-. lia.
           ++ apply Ht2 in Hp. lia.
        -- intros z Hz. apply Hbdy in Hz. lia.
      * intros [H _] j' i' Hp Hlt. apply (H j' i'); [|exact Hlt]. apply in_or_app. now left.
    + rewrite Hps. unfold take. rewrite Hrs. unfold mand in Hms. apply negb_true_iff in Hms.
      rewrite Hms. rewrite andb_false_r.
      assert (Hwy : win (t1 ++ (s, y) :: t2) bd s y = true).
      { apply win_spec. split; [|split].
        - intros j' i' Hp Hlt. apply in_app_or in Hp as [Hp|[E|Hp]].
          + apply Ht1 in Hp as [_ [Hp _]]. auto.
          + injection E as <- <-. lia.
          + apply Ht2 in Hp. lia.
        - intros j' i' Hp Hlt _. apply in_app_or in Hp as [Hp|[E|Hp]].
          + apply Ht1 in Hp as [Hp _]. apply Hr3 in Hp. lia.
          + injection E as <- <-. lia.
          + apply Ht2 in Hp. lia.
        - exact Hbdy. }
      unfold ns. rewrite filter_app. simpl. rewrite Hwy.
      rewrite filter_app, filter_none.
      2:{ intros x Hx. apply filter_In in Hx as [Hx _]. auto. }
      simpl. now rewrite Hsy.
    + rewrite Hp2 by exact Hj. rewrite Qposs by exact Hj. f_equal. f_equal.
      pose proof (Hr4 _ Hj) as Hjs. unfold ns.
      assert (Hwin : forall x, win (t1 ++ (s, y) :: t2) bd j x = true -> y < x).
      { intros x Hx. apply win_spec in Hx as [Hx _]. apply (Hx s y); auto.
        apply in_or_app. right. now left. }
      rewrite filter_skip_pre.
      * apply filter_ext_in. intros x Hx. apply bool_eq_iff. rewrite !win_spec.
        specialize (Hn4 _ Hx). split.
        -- intros [H1 [H2 H3]]. split; [|split; [|exact H3]].
           ++ intros j' i' Hp Hlt. apply in_app_or in Hp as [Hp|[E|Hp]]; [| |eauto].
              ** destruct (Ht1 _ _ Hp) as [_ [Hi _]]. apply Hn3 in Hi. lia.
              ** injection E as <- <-. lia.
           ++ intros j' i' Hp Hlt Hm. apply in_app_or in Hp as [Hp|[E|Hp]]; [| |eauto].
              ** destruct (Ht1 _ _ Hp) as [Hj' _]. apply Hr3 in Hj'. lia.
              ** injection E as <- <-. lia.
        -- intros [H1 [H2 H3]]. split; [|split; [|exact H3]].
           ++ intros j' i' Hp Hlt. apply (H1 j' i'); auto. apply in_or_app. right. now right.
           ++ intros j' i' Hp Hlt Hm. apply (H2 j' i'); auto. apply in_or_app. right. now right.
      * intros x Hx. apply not_true_is_false. intros Hw. apply Hwin in Hw. specialize (Hn3 _ Hx). lia.
      * apply not_true_is_false. intros Hw. apply Hwin in Hw. lia.
  - (* post_next *)
    exists (pre ++ y :: pn). unfold ns. rewrite Qnext, <- app_assoc. reflexivity.
  - (* post_disjoint *)
    intros j i x Hp Hx.
    assert (Hx' : In x rest) by (rewrite Qnext; apply in_or_app; now right).
    apply Hn4 in Hx'. apply in_app_or in Hp as [Hp|[E|Hp]].
    + apply Ht1 in Hp as [_ [Hi _]]. apply Hn3 in Hi. lia.
    + injection E as <- <-. lia.
    + eauto.
  - (* post_bound *)
    intros z Hz. pose proof (Hbdy _ Hz) as Hyz. destruct (Qbound _ Hz) as [H1 H2]. split.
    + unfold ns. apply in_or_app. right. now right.
    + intros j i Hp. apply in_app_or in Hp as [Hp|[E|Hp]].
      * apply Ht1 in Hp as [_ [Hi _]]. apply Hn3 in Hi. lia.
      * injection E as <- <-. lia.
      * eauto.
  - (* post_bd *)
    assert (Hmands : filter mand rules = filter mand l ++ s :: filter mand (seq (S s) c')).
    { unfold rules. rewrite filter_app. simpl. now rewrite Hms. }
    assert (Hlast : filter mand (seq (S s) c') <> [] ->
      last (filter mand rules) 0 = last (filter mand (seq (S s) c')) 0).
    { intros Hne. rewrite Hmands, last_app_cons. now apply last_cons_nonempty. }
    assert (Hlast0 : filter mand (seq (S s) c') = [] -> last (filter mand rules) 0 = s).
    { intros E. rewrite Hmands, E, last_app_cons. reflexivity. }
    assert (Hmne : filter mand rules <> []) by (rewrite Hmands; destruct (filter mand l); discriminate).
    assert (Htr : trailing rules = trailing (seq (S s) c')).
    { unfold trailing. destruct (filter mand rules) as [|a ms] eqn:Em; [congruence|]. rewrite <- Em in *. clear Em.
      destruct (filter mand (seq (S s) c')) as [|b ms'] eqn:Eb.
      - rewrite Hlast0 by reflexivity. rewrite Hrs, orb_false_r. unfold rules. rewrite last_app_cons.
        destruct c' as [|c']; [simpl; now rewrite Nat.eqb_refl|].
        rewrite last_cons_nonempty by discriminate.
        assert (Hin : In (last (seq (S s) (S c')) 0) (seq (S s) (S c'))) by (apply last_in; discriminate).
        apply in_seq in Hin. rewrite (proj2 (Nat.eqb_neq s _)) by lia. reflexivity.
      - rewrite Hlast by discriminate. unfold rules. rewrite last_app_cons.
        rewrite (last_cons_nonempty s (seq (S s) c')); [reflexivity|].
        destruct c'; [discriminate Eb|discriminate]. }
    assert (Hbase : base again rules ns (t1 ++ (s, y) :: t2) = base false (seq (S s) c') rest t2).
    { unfold base. rewrite Htodo.
      change (todo false (seq (S s) c')) with (filter mand (seq (S s) c')) in *.
      destruct (filter mand (seq (S s) c')) as [|b ms'] eqn:Eb.
      - simpl. rewrite Hps. simpl. unfold ns. now apply filter_gt_mid.
      - rewrite last_cons_cons.
        assert (Hb : In (last (b :: ms') 0) (seq (S s) c')).
        { assert (Hin : In (last (b :: ms') 0) (filter mand (seq (S s) c'))).
          { rewrite Eb. apply last_in. discriminate. }
          now apply filter_In in Hin. }
        rewrite Hp2 by exact Hb.
        destruct (hd_error (poss (last (b :: ms') 0) t2)) as [i|] eqn:Eh; [|reflexivity].
        apply hd_poss_in in Eh. apply Ht2 in Eh as [_ Eh].
        unfold ns. apply filter_skip_pre.
        + intros x Hx. apply Hn3 in Hx. apply Nat.ltb_ge. lia.
        + apply Nat.ltb_ge. lia. }
    rewrite Htr, Hbase. destruct (trailing (seq (S s) c')); [|exact Qbd].
    rewrite Heff. cbn [f_eff] in Qbd. destruct Qbd as [Q1 Q2]. split; [exact Q1|].
    rewrite Q2. destruct bd as [z|]; [|reflexivity]. pose proof (Hbdy z eq_refl) as Hz.
    symmetry. unfold ns. apply filter_skip_pre.
    + intros x Hx. apply Hn3 in Hx. apply Nat.leb_gt. lia.
    + apply Nat.leb_gt. lia.
Qed.

Lemma post_greedy fm j0 c pre y rest next t2 bd :
  let rules := seq j0 (S c) in
  let ns := pre ++ y :: rest in
  StronglySorted lt ns ->
  M j0 y = true -> (forall x, In x pre -> M j0 x = false) ->
  rep j0 = true ->
  Post fm true rules rest next t2 bd ->
  Post fm false rules ns next ((j0, y) :: t2) bd.
Proof.
  intros rules ns Hns Hy Hpre Hrep HP.
  destruct (rep_mand _ Hrep) as [Hm Hg].
  destruct (ss_mid _ _ _ Hns) as [Hn1 [Hn2 [Hn3 Hn4]]].
  assert (Htodo : todo false rules = j0 :: todo true rules).
  { unfold todo, rules. simpl. now rewrite Hm. }
  destruct HP as [Qin Qsorted [js [Qe [Qleft Qhd]]] Qposs [pn Qnext] Qdisj Qbound Qbd].
  assert (Ht2 : forall j i, In (j, i) t2 -> j0 <= j /\ y < i).
  { intros j i Hp. destruct (Qin _ _ Hp) as [Hj [Hi _]]. apply in_seq in Hj. split; [lia|auto]. }
  assert (Hbdy : forall z, bd = Some z -> y < z).
  { intros z E. apply Qbound in E as [Hz _]. auto. }
  constructor.
  - intros j i [E|Hp].
    + injection E as <- <-. split; [now left|]. split; [|exact Hy]. unfold ns. apply in_or_app. right. now left.
    + destruct (Qin _ _ Hp) as [? [? ?]]. split; [assumption|]. split; [|assumption].
      unfold ns. apply in_or_app. right. now right.
  - constructor; [exact Qsorted|]. apply Forall_forall. intros [j i] Hp.
    destruct (Ht2 _ _ Hp). split; simpl; [lia|].
    destruct (Nat.eq_dec j0 j) as [<-|]; [right; auto|left; lia].
  - exists (y :: js). rewrite Htodo. split; [|split].
    + split.
      * constructor; [split; [apply in_or_app; right; now left|exact Hy]|].
        apply (emb_mono _ rest ns) in Qe; [apply Qe|]. intros x Hx. apply in_or_app. right. now right.
      * constructor; [apply Qe|]. apply Forall_forall. intros x Hx. apply Hn4. eapply emb_in; eauto.
    + intros js' He. apply emb_cons in He as [i [js'' [-> [Hyi He]]]]; auto.
    + constructor; [now rewrite poss_cons_eq|].
      assert (Hsub : forall j, In j (todo true rules) -> j <> j0).
      { intros j Hj. unfold todo in Hj. apply filter_In in Hj as [Hj _]. simpl in Hj. apply in_seq in Hj. lia. }
      revert Hsub Qhd. generalize (todo true rules) as ms. clear.
      induction 2 as [|j i ms js H HF IH]; constructor.
      * rewrite poss_cons_neq; [exact H|]. intros ->. now apply (Hsub j (or_introl eq_refl)).
      * apply IH. intros x Hx. apply Hsub. now right.
  - intros j Hj. destruct (Nat.eq_dec j j0) as [->|Hne].
    + rewrite poss_cons_eq, Qposs by exact Hj.
      rewrite !take_rep by exact Hrep. unfold pick. rewrite Hg.
      unfold ns. rewrite filter_app. simpl.
      replace (win ((j0, y) :: t2) bd j0 y) with true.
      2:{ symmetry. apply win_spec. split; [|split; [|exact Hbdy]].
          - intros j' i' [E|Hp] Hlt; [injection E as <- <-; lia|]. apply Ht2 in Hp. lia.
          - intros j' i' [E|Hp] Hlt _; [injection E as <- <-; lia|]. apply Ht2 in Hp. lia. }
      rewrite filter_app, (filter_none (M j0) (filter _ pre)).
      2:{ intros x Hx. apply filter_In in Hx as [Hx _]. auto. }
      simpl. rewrite Hy. f_equal. f_equal. apply filter_ext_in. intros x Hx. specialize (Hn4 _ Hx).
      apply bool_eq_iff. rewrite !win_spec. split; intros [H1 [H2 H3]]; (split; [|split; [|exact H3]]).
      * intros j' i' [E|Hp] Hlt; [injection E as <- <-; lia|eauto].
      * intros j' i' [E|Hp] Hlt Hm'; [injection E as <- <-; lia|eauto].
      * intros j' i' Hp Hlt. apply (H1 j' i'); auto. now right.
      * intros j' i' Hp Hlt Hm'. apply (H2 j' i'); auto. now right.
    + rewrite poss_cons_neq by auto. rewrite Qposs by exact Hj. f_equal. f_equal.
      assert (Hjj : j0 < j) by (apply in_seq in Hj; lia).
      assert (Hwin : forall x, win ((j0, y) :: t2) bd j x = true -> y < x).
      { intros x Hx. apply win_spec in Hx as [Hx _]. apply (Hx j0 y); auto. now left. }
      symmetry. unfold ns. rewrite filter_skip_pre.
      * apply filter_ext_in. intros x Hx. specialize (Hn4 _ Hx).
        apply bool_eq_iff. rewrite !win_spec. split; intros [H1 [H2 H3]]; (split; [|split; [|exact H3]]).
        -- intros j' i' Hp Hlt. apply (H1 j' i'); auto. now right.
        -- intros j' i' Hp Hlt Hm'. apply (H2 j' i'); auto. now right.
        -- intros j' i' [E|Hp] Hlt; [injection E as <- <-; lia|eauto].
        -- intros j' i' [E|Hp] Hlt Hm'; [injection E as <- <-; lia|eauto].
      * intros x Hx. apply not_true_is_false. intros Hw. apply Hwin in Hw. specialize (Hn3 _ Hx). lia.
      * apply not_true_is_false. intros Hw. apply Hwin in Hw. lia.
  - exists (pre ++ y :: pn). unfold ns. rewrite Qnext, <- app_assoc. reflexivity.
  - intros j i x Hp Hx.
    assert (Hx' : In x rest) by (rewrite Qnext; apply in_or_app; now right).
    apply Hn4 in Hx'. destruct Hp as [E|Hp]; [injection E as <- <-; lia|eauto].
  - intros z Hz. pose proof (Hbdy _ Hz). destruct (Qbound _ Hz) as [H1 H2]. split.
    + unfold ns. apply in_or_app. right. now right.
    + intros j i [E|Hp]; [injection E as <- <-; lia|eauto].
  - assert (Hbase : base false rules ns ((j0, y) :: t2) = base true rules rest t2).
    { unfold base. rewrite Htodo. destruct (todo true rules) as [|b ms'] eqn:Eb.
      - simpl. rewrite poss_cons_eq. simpl. unfold ns. now apply filter_gt_mid.
      - rewrite last_cons_cons.
        assert (Hb : In (last (b :: ms') 0) (todo true rules)).
        { rewrite Eb. apply last_in. discriminate. }
        unfold todo in Hb. apply filter_In in Hb as [Hb _].
        change (In (last (b :: ms') 0) (seq (S j0) c)) in Hb. apply in_seq in Hb.
        rewrite poss_cons_neq by lia.
        destruct (hd_error (poss (last (b :: ms') 0) t2)) as [i|] eqn:Eh; [|reflexivity].
        apply hd_poss_in in Eh. apply Ht2 in Eh as [_ Eh].
        unfold ns. apply filter_skip_pre.
        + intros x Hx. apply Hn3 in Hx. apply Nat.ltb_ge. lia.
        + apply Nat.ltb_ge. lia. }
    rewrite Hbase. destruct (trailing rules); [|exact Qbd].
    destruct (f_eff fm rules) as [f|]; [|exact Qbd].
    destruct Qbd as [Q1 Q2]. split; [exact Q1|].
    rewrite Q2. destruct bd as [z|]; [|reflexivity]. pose proof (Hbdy z eq_refl) as Hz.
    symmetry. unfold ns. apply filter_skip_pre.
    + intros x Hx. apply Hn3 in Hx. apply Nat.leb_gt. lia.
    + apply Nat.leb_gt. lia.
Qed.

(** A group whose remaining rules need not match any more. *)
Lemma post_range fm again j0 c ns seg rest next bd :
  let rules := seq j0 c in
  let t := snd (range rules seg None) in
  StronglySorted lt ns -> ns = seg ++ rest ->
  todo again rules = [] ->
  (forall j, In j rules -> opt j = true \/ rep j = true) ->
  (forall j j', In j rules -> In j' rules -> j < j' -> mand j' = false) ->
  (rest = [] -> bd = None) -> (forall y r, rest = y :: r -> bd = Some y) ->
  (exists pre, ns = pre ++ next) ->
  (forall j i x, In (j, i) t -> In x next -> i < x) ->
  (if trailing rules then
     match f_eff fm rules with
     | None => bd = None
     | Some f => bd = hd_error (filter (M f) (base again rules ns t)) /\
                 next = match bd with Some y => filter (Nat.leb y) ns | None => [] end
     end
   else bd = None /\ next = base again rules ns t) ->
  Post fm again rules ns next t bd.
Proof.
  intros rules t Hns Hseg Htodo Hl Hm Hb1 Hb2 Hnext Hdisj Hbd. subst ns.
  destruct (ss_app_inv _ _ _ Hns) as [Hs1 [Hs2 Hs3]].
  assert (Hin : forall j i, In (j, i) t -> In j rules /\ In i seg /\ M j i = true).
  { intros j i. apply range_in. }
  assert (Hbd' : forall y, bd = Some y -> exists r, rest = y :: r).
  { intros y E. destruct rest as [|y' r]; [rewrite Hb1 in E by reflexivity; discriminate|].
    rewrite (Hb2 y' r eq_refl) in E. injection E as ->. eauto. }
  constructor; auto.
  - intros j i Hp. destruct (Hin _ _ Hp) as [? [? ?]]. repeat split; auto. apply in_or_app. now left.
  - apply range_after; [apply seq_sorted|exact Hs1].
  - exists []. rewrite Htodo. repeat split; try constructor.
    intros js' He. apply emb_nil in He. subst. constructor.
  - intros j Hj. unfold t. rewrite range_poss; [|apply seq_sorted|exact Hs1|exact Hj].
    fold t. destruct (Hl _ Hj); [rewrite take_opt by assumption|rewrite take_rep by assumption].
    all: f_equal; f_equal; rewrite filter_app, (filter_none _ rest), app_nil_r.
    1,3: apply filter_ext_in; intros x Hx; apply bool_eq_iff; rewrite lower_spec, win_spec; split; [|tauto];
      intros H'; split; [exact H'|]; split;
      [ intros j' i' Hp Hlt Hm'; destruct (Hin _ _ Hp) as [Hj' _]; rewrite (Hm j j') in Hm' by auto; discriminate
      | intros y E; destruct (Hbd' _ E) as [r ->]; apply Hs3; [exact Hx|now left] ].
    all: intros x Hx; destruct rest as [|y r]; [destruct Hx|];
      apply not_true_is_false; rewrite win_spec; intros [_ [_ H']]; specialize (H' y (Hb2 y r eq_refl));
      inversion Hs2 as [|? ? _ HF]; subst; rewrite Forall_forall in HF;
      destruct Hx as [->|Hx]; [lia|specialize (HF _ Hx); lia].
  - intros y E. destruct (Hbd' _ E) as [r ->]. split; [apply in_or_app; right; now left|].
    intros j i Hp. destruct (Hin _ _ Hp) as [_ [Hi _]]. apply Hs3; [exact Hi|now left].
Qed.

Definition inv (again : bool) (j0 c : nat) : Prop :=
  if again then rep j0 = true /\ 0 < c
  else 0 < c -> mand j0 = true -> rep j0 = greedy j0.

Lemma grp_end fm (again : bool) j0 c ns :
  c = 0 \/ ns = [] ->
  match (match find_mand (if again then tl (seq j0 c) else seq j0 c) with
         | None => Some (ns, [], None)
         | Some _ => None
         end) with
  | Some (next, t, bd) => Post fm again (seq j0 c) ns next t bd
  | None => forall js, ~ Emb (todo again (seq j0 c)) ns js
  end.
Proof.
  intros Hor. pose proof (find_mand_spec (if again then tl (seq j0 c) else seq j0 c)) as Hfm.
  destruct (find_mand (if again then tl (seq j0 c) else seq j0 c)) as [[[bt s] post]|].
  - destruct Hfm as [Hsplit [Hms _]]. intros js [HF _].
    assert (Hin : In s (todo again (seq j0 c))).
    { unfold todo. apply filter_In. split; [rewrite Hsplit; apply in_or_app; right; now left|exact Hms]. }
    destruct Hor as [->| ->].
    + destruct again; destruct bt; discriminate Hsplit.
    + clear - HF Hin. induction HF as [|j i rs js [Hi _] _ IH']; [destruct Hin|destruct Hi].
  - assert (Htodo : todo again (seq j0 c) = []) by (unfold todo; now apply filter_none).
    constructor.
    + intros j i [].
    + constructor.
    + exists []. rewrite Htodo. split; [split; constructor|]. split; [|constructor].
      intros js' He. apply emb_nil in He. subst. constructor.
    + intros j Hj. destruct Hor as [->| ->]; [destruct Hj|].
      simpl. unfold take. destruct (greedy j && (opt j || rep j)); reflexivity.
    + exists []. reflexivity.
    + intros j i x [].
    + discriminate.
    + unfold base. rewrite Htodo. destruct Hor as [->| ->]; [simpl; auto|].
      destruct (trailing (seq j0 c)); [destruct (f_eff fm (seq j0 c)); auto|auto].
Qed.

Theorem grp_post k fm again j0 c ns :
  StronglySorted lt ns -> length ns <= k -> inv again j0 c ->
  match grp k fm again (seq j0 c) ns with
  | Some (next, t, bd) => Post fm again (seq j0 c) ns next t bd
  | None => forall js, ~ Emb (todo again (seq j0 c)) ns js
  end.
Proof.
  revert fm again j0 c ns. induction k as [|k IH]; intros fm again j0 c ns Hns Hlen Hinv.
  - destruct ns; [|simpl in Hlen; lia]. destruct c as [|c]; [exact (grp_end fm again j0 0 [] (or_introl eq_refl))|exact (grp_end fm again j0 (S c) [] (or_intror eq_refl))].
  - destruct c as [|c]; [exact (grp_end fm again j0 0 ns (or_introl eq_refl))|].
    destruct ns as [|x0 ns0]; [exact (grp_end fm again j0 (S c) [] (or_intror eq_refl))|].
    remember (x0 :: ns0) as ns eqn:Hns0.
    change (seq j0 (S c)) with (j0 :: seq (S j0) c) at 1.
    assert (Hgrp : grp (S k) fm again (j0 :: seq (S j0) c) ns =
          if opt j0 || again then
            match find_mand (seq (S j0) c) with
            | None =>
                match fm with
                | None =>
                    let '(last, t) := range (j0 :: seq (S j0) c) ns None in
                    Some (match last with Some rest => rest | None => [] end, t, None)
                | Some stop =>
                    match once stop ns with
                    | Some (pre, y, rest) => Some (y :: rest, snd (range (j0 :: seq (S j0) c) pre None), Some y)
                    | None => Some ([], snd (range (j0 :: seq (S j0) c) ns None), None)
                    end
                end
            | Some (between, stop, after) =>
                match once stop ns with
                | None => None
                | Some (pre, y, rest) =>
                    match grp k (or_first (if again then or_first fm j0 else fm) stop) false after rest with
                    | Some (next, t, bd) =>
                        Some (next, snd (range (j0 :: between) pre None) ++ (stop, y) :: t, bd)
                    | None => None
                    end
                end
            end
          else
            match once j0 ns with
            | None => None
            | Some (_, y, rest) =>
                match (if greedy j0 then grp k fm true (j0 :: seq (S j0) c) rest
                       else grp k (or_first fm j0) false (seq (S j0) c) rest) with
                | Some (next, t, bd) => Some (next, (j0, y) :: t, bd)
                | None => None
                end
            end) by (subst ns; reflexivity).
    rewrite Hgrp. clear Hgrp Hns0 x0 ns0.
    destruct (opt j0 || again) eqn:Hopt.
    + (* gap rules first *)
      assert (Hhead : if again then mand j0 = true /\ rep j0 = true else opt j0 = true).
      { destruct again.
        - destruct Hinv as [Hr _]. destruct (rep_mand _ Hr). auto.
        - now rewrite orb_false_r in Hopt. }
      pose proof (find_mand_spec (seq (S j0) c)) as Hfm.
      destruct (find_mand (seq (S j0) c)) as [[[bt s] post]|].
      * destruct Hfm as [Hsplit [Hms Hbt]].
        destruct (seq_split _ _ _ _ _ Hsplit) as [Es [Ebt [Epost Hlt]]].
        assert (Hrep : rep s = false).
        { destruct s as [|s']; [lia|]. simpl. rewrite Hms. simpl.
          destruct bt as [|b0 bt0].
          - simpl in Es. replace s' with j0 by lia.
            destruct again; [destruct Hhead as [_ ->]; now rewrite andb_false_r|].
            unfold mand at 1. rewrite Hhead. simpl. now rewrite andb_false_r.
          - assert (Hs' : In s' (b0 :: bt0)).
            { rewrite Ebt. apply in_seq. simpl length in *. lia. }
            rewrite (Hbt _ Hs'). now rewrite andb_false_r. }
        assert (Htodo : todo again (seq j0 (S c)) = s :: filter mand post).
        { unfold todo. simpl seq. destruct again; simpl tl.
          - rewrite Hsplit, filter_app, filter_none by exact Hbt. simpl. now rewrite Hms.
          - simpl filter. unfold mand at 1. rewrite Hhead. simpl.
            rewrite Hsplit, filter_app, filter_none by exact Hbt. simpl. now rewrite Hms. }
        destruct (once s ns) as [[[pre y] rest]|] eqn:Eo.
        2:{ intros js [HF _]. rewrite Htodo in HF. inversion HF as [|? ? ? ? [Hi Hm] _]; subst.
            rewrite (once_none _ _ Eo _ Hi) in Hm. discriminate. }
        apply once_some in Eo as [-> [Hsy Hpre]].
        destruct (ss_mid _ _ _ Hns) as [Hn1 [Hn2 [Hn3 Hn4]]].
        assert (Hf0 : exists f0, or_first (if again then or_first fm j0 else fm) s = Some f0 /\
                      f_eff fm ((j0 :: bt) ++ s :: seq (S s) (c - S (length bt))) = Some f0).
        { unfold f_eff. simpl app. cbn [filter].
          rewrite filter_app, (filter_none mand bt) by exact Hbt. simpl app. cbn [filter]. rewrite Hms.
          destruct fm as [f|]; [exists f; destruct again; auto|].
          destruct again.
          - destruct Hhead as [-> _]. exists j0. split; [reflexivity|].
            assert (Hl : In (last (j0 :: s :: filter mand (seq (S s) (c - S (length bt)))) 0)
                       (s :: filter mand (seq (S s) (c - S (length bt))))).
            { rewrite last_cons_cons. apply last_in. discriminate. }
            destruct (Nat.eqb_spec j0 (last (j0 :: s :: filter mand (seq (S s) (c - S (length bt)))) 0)) as [E|_];
              [|reflexivity].
            rewrite <- E in Hl. destruct Hl as [Hl|Hl]; [lia|].
            apply filter_In in Hl as [Hl _]. apply in_seq in Hl. lia.
          - unfold mand at 1. rewrite Hhead. simpl negb. cbn iota. exists s. split; [reflexivity|].
            rewrite Hrep, andb_false_r. reflexivity. }
        destruct Hf0 as [f0 [Ef0 Heff]]. rewrite Ef0. rewrite Epost.
        specialize (IH (Some f0) false (S s) (c - S (length bt)) rest Hn2).
        assert (Hlr : length rest <= k) by (rewrite app_length in Hlen; simpl in Hlen; lia).
        specialize (IH Hlr).
        assert (Hinv' : inv false (S s) (c - S (length bt))).
        { intros _ Hm. simpl. rewrite Hms, Hrep. simpl in *. rewrite Hm. now rewrite !andb_true_r. }
        specialize (IH Hinv').
        assert (Hrules : seq j0 (S c) = (j0 :: bt) ++ s :: seq (S s) (c - S (length bt))).
        { simpl. rewrite Hsplit, <- Epost. reflexivity. }
        assert (Hbtseq : j0 :: bt = seq j0 (S (length bt))) by (simpl; now rewrite <- Ebt).
        destruct (grp k (Some f0) false (seq (S s) (c - S (length bt))) rest) as [[[next t2] bd]|].
        -- rewrite Hrules. apply (post_compose fm f0 again); auto.
           ++ rewrite <- Hrules. apply seq_sorted.
           ++ destruct again.
              ** destruct Hhead. repeat split; auto. intros j Hj. specialize (Hbt _ Hj).
                 unfold mand in Hbt. now apply negb_false_iff in Hbt.
              ** intros j [<-|Hj]; [exact Hhead|]. specialize (Hbt _ Hj).
                 unfold mand in Hbt. now apply negb_false_iff in Hbt.
           ++ intros j i Hp. now apply range_in in Hp.
           ++ rewrite Hbtseq. apply range_after; [apply seq_sorted|exact Hn1].
           ++ intros j Hj. rewrite Hbtseq in *. apply range_poss; auto. apply seq_sorted.
        -- intros js He. rewrite Htodo in He. apply emb_cons in He as [i [js' [-> [_ He]]]]; auto.
           rewrite Epost in He. exact (IH js' He).
      * (* nothing mandatory behind *)
        assert (Htodo : todo again (seq j0 (S c)) = []).
        { unfold todo. simpl seq. destruct again; simpl tl; [now apply filter_none|].
          apply filter_none. intros j [<-|Hj]; [unfold mand; now rewrite Hhead|auto]. }
        assert (Hl : forall j, In j (seq j0 (S c)) -> opt j = true \/ rep j = true).
        { intros j [<-|Hj].
          - destruct again; [right; apply Hhead|left; exact Hhead].
          - left. specialize (Hfm _ Hj). unfold mand in Hfm. now apply negb_false_iff in Hfm. }
        assert (Hmm : forall j j', In j (seq j0 (S c)) -> In j' (seq j0 (S c)) -> j < j' -> mand j' = false).
        { intros j j' Hj Hj' Hlt. apply in_seq in Hj. destruct Hj' as [<-|Hj']; [lia|auto]. }
        assert (Htr : trailing (seq j0 (S c)) = true).
        { unfold trailing. destruct (filter mand (seq j0 (S c))) as [|a ms] eqn:Em; [reflexivity|].
          unfold todo in Htodo. destruct again.
          - destruct Hhead as [Hh1 Hh2]. simpl in Em, Htodo. rewrite Hh1, Htodo in Em. injection Em as <- <-.
            simpl last. rewrite Hh2. now rewrite orb_true_r.
          - rewrite Htodo in Em. discriminate. }
        assert (Hbase : forall t, base again (seq j0 (S c)) ns t = ns).
        { intros t. unfold base. now rewrite Htodo. }
        assert (Hfeff : f_eff fm (seq j0 (S c)) = fm).
        { unfold f_eff. destruct fm as [f|]; [reflexivity|].
          unfold todo in Htodo. destruct again.
          - destruct Hhead as [Hh1 Hh2]. simpl in Htodo |- *. rewrite Hh1, Htodo. simpl.
            rewrite Nat.eqb_refl, Hh2. reflexivity.
          - now rewrite Htodo. }
        change (j0 :: seq (S j0) c) with (seq j0 (S c)).
        destruct fm as [stop|].
        -- pose proof (once_hd stop ns) as Hhd.
           destruct (once stop ns) as [[[pre y] rest]|] eqn:Eo.
           ++ apply once_some in Eo as [-> [Hsy Hpre]].
              destruct (ss_mid _ _ _ Hns) as [Hn1 [Hn2 [Hn3 Hn4]]].
              apply (post_range (Some stop) again j0 (S c) (pre ++ y :: rest) pre (y :: rest)); auto.
              ** discriminate.
              ** intros y' r E. congruence.
              ** eauto.
              ** intros j i x Hp Hx. apply range_in in Hp as [_ [Hi _]]. apply Hn3 in Hi.
                 destruct Hx as [->|Hx]; [exact Hi|]. apply Hn4 in Hx. lia.
              ** rewrite Htr, Hfeff, Hbase, Hhd. split; [reflexivity|].
                 symmetry. apply (filter_ge_suffix pre (y :: rest) Hns).
           ++ apply (post_range (Some stop) again j0 (S c) ns ns []); auto.
              ** now rewrite app_nil_r.
              ** discriminate.
              ** exists ns. now rewrite app_nil_r.
              ** intros j i x _ [].
              ** rewrite Htr, Hfeff, Hbase, Hhd. auto.
        -- pose proof (range_last (seq j0 (S c)) ns None) as Hrl.
           destruct (range (seq j0 (S c)) ns None) as [la t] eqn:Er.
           assert (Et : t = snd (range (seq j0 (S c)) ns None)) by now rewrite Er.
           simpl in Hrl. rewrite Et.
           apply (post_range None again j0 (S c) ns ns []); auto.
           ** now rewrite app_nil_r.
           ** discriminate.
           ** destruct la as [rest|]; [|exists ns; now rewrite app_nil_r].
              destruct (Hrl rest Hns eq_refl) as [[? _]|[[pre [-> _]] _]]; [discriminate|eauto].
           ** rewrite <- Et. destruct la as [rest|]; [|intros j i x _ []].
              destruct (Hrl rest Hns eq_refl) as [[? _]|[_ H]]; [discriminate|exact H].
           ** rewrite Htr, Hfeff. reflexivity.
    + (* mandatory head *)
      apply orb_false_iff in Hopt as [Ho Ha]. subst again.
      assert (Hm0 : mand j0 = true) by (unfold mand; now rewrite Ho).
      assert (Htodo : todo false (seq j0 (S c)) = j0 :: filter mand (seq (S j0) c)).
      { unfold todo. simpl. now rewrite Hm0. }
      assert (Hr0 : rep j0 = greedy j0) by (apply Hinv; [lia|exact Hm0]).
      destruct (once j0 ns) as [[[pre y] rest]|] eqn:Eo.
      2:{ intros js [HF _]. rewrite Htodo in HF. inversion HF as [|? ? ? ? [Hi Hm] _]; subst.
          rewrite (once_none _ _ Eo _ Hi) in Hm. discriminate. }
      apply once_some in Eo as [-> [Hsy Hpre]].
      destruct (ss_mid _ _ _ Hns) as [Hn1 [Hn2 [Hn3 Hn4]]].
      assert (Hlr : length rest <= k) by (rewrite app_length in Hlen; simpl in Hlen; lia).
      destruct (greedy j0) eqn:Hg.
      * change (j0 :: seq (S j0) c) with (seq j0 (S c)).
        specialize (IH fm true j0 (S c) rest Hn2 Hlr).
        assert (Hinv' : inv true j0 (S c)) by (split; [exact Hr0|lia]). specialize (IH Hinv').
        destruct (grp k fm true (seq j0 (S c)) rest) as [[[next t2] bd]|].
        -- now apply post_greedy.
        -- intros js He. rewrite Htodo in He. apply emb_cons in He as [i [js' [-> [_ He]]]]; auto.
           exact (IH js' He).
      * specialize (IH (or_first fm j0) false (S j0) c rest Hn2 Hlr).
        assert (Hinv' : inv false (S j0) c).
        { intros _ Hm. simpl. rewrite Hm0, Hr0. simpl in *. rewrite Hm. now rewrite !andb_true_r. }
        specialize (IH Hinv').
        assert (Heff : f_eff fm ([] ++ j0 :: seq (S j0) c) = or_first fm j0).
        { unfold f_eff, or_first. destruct fm as [f|]; [reflexivity|]. simpl. rewrite Hm0.
          rewrite Hr0, andb_false_r. reflexivity. }
        assert (Hf0 : exists f0, or_first fm j0 = Some f0) by (destruct fm; simpl; eauto).
        destruct Hf0 as [f0 Ef0]. rewrite Ef0 in *.
        destruct (grp k (Some f0) false (seq (S j0) c) rest) as [[[next t2] bd]|].
        -- apply (post_compose fm f0 false [] j0 c pre y rest next [] t2 bd); auto.
           ++ exact (seq_sorted j0 (S c)).
           ++ intros j i [].
           ++ constructor.
           ++ intros j [].
        -- intros js He. rewrite Htodo in He. apply emb_cons in He as [i [js' [-> [_ He]]]]; auto.
           exact (IH js' He).
Qed.

End Alg.
