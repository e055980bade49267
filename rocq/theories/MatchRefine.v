(** The model of RuleMatching.cpp computes the functions of MatchSem.v. *)

From Coq Require Import Arith NArith Bool List Lia.
From Verif Require Import Base Dom Values Match Rule RuleMatching MatchSem.
Import ListNotations.

(** ** Runs: enough fuel, any limit *)

(** The outcome of a computation with value [v] that makes [c] searches, when
    started with limit [n]. *)
Definition limited {A} (n : N) (v : A) (c : N) : outcome (A * N) :=
  if (n =? 0)%N then Ok (v, 0%N)
  else if (n <=? c)%N then Throw MaxSearchError
  else Ok (v, (n - c)%N).

Definition runs_at {A} (m : nat -> M A) (v : A) (c : N) : Prop :=
  exists f0, forall f, f0 <= f -> forall n, m f n = limited n v c.

Definition runs {A} (m : nat -> M A) (v : A) : Prop := exists c, runs_at m v c.

Lemma limited_0 {A} n (v : A) : limited n v 0 = Ok (v, n).
Proof.
  unfold limited. destruct (N.eqb_spec n 0); [subst; reflexivity|].
  destruct (N.leb_spec n 0); [lia|]. now rewrite N.sub_0_r.
Qed.

Lemma runs_ret {A} (v : A) : runs (fun _ => ret v) v.
Proof. exists 0%N, 0. intros. now rewrite limited_0. Qed.

Lemma runs_ext {A} (m m' : nat -> M A) v :
  (forall f, m f = m' f) -> runs m' v -> runs m v.
Proof.
  intros H [c [f0 H0]]. exists c, f0. intros f Hf n. rewrite H. now apply H0.
Qed.

Lemma runs_step {A} (m m' : nat -> M A) v :
  (forall f, m (S f) = m' f) -> runs m' v -> runs m v.
Proof.
  intros H [c [f0 H0]]. exists c, (S f0). intros f Hf n.
  destruct f; [lia|]. rewrite H. apply H0. lia.
Qed.

Lemma runs_at_bind {A B} (m : nat -> M A) (k : nat -> A -> M B) v w c c' :
  runs_at m v c -> runs_at (fun f => k f v) w c' -> runs_at (fun f => bind (m f) (k f)) w (c + c').
Proof.
  intros [f0 H0] [f1 H1].
  exists (Nat.max f0 f1). intros f Hf n. unfold bind. rewrite H0 by lia.
  unfold limited at 1. unfold limited.
  destruct (N.eqb_spec n 0).
  - subst. simpl. rewrite H1 by lia. unfold limited. reflexivity.
  - destruct (N.leb_spec n c); simpl.
    + destruct (N.leb_spec n (c + c')); [reflexivity|lia].
    + rewrite H1 by lia. unfold limited.
      destruct (N.eqb_spec (n - c) 0); [lia|].
      destruct (N.leb_spec (n - c) c'); destruct (N.leb_spec n (c + c')); try lia; [reflexivity|].
      now rewrite N.sub_add_distr.
Qed.

Lemma runs_bind {A B} (m : nat -> M A) (k : nat -> A -> M B) v w :
  runs m v -> runs (fun f => k f v) w -> runs (fun f => bind (m f) (k f)) w.
Proof. intros [c H] [c' H']. exists (c + c')%N. now apply runs_at_bind with (v := v). Qed.

Lemma runs_at_lift {A} (m : nat -> outcome A) v :
  (forall f, m f = Ok v) -> runs_at (fun f => lift (m f)) v 0.
Proof. intros H. exists 0. intros. unfold lift. rewrite H, limited_0. reflexivity. Qed.

Lemma runs_lift {A} (m : nat -> outcome A) v :
  (forall f, m f = Ok v) -> runs (fun f => lift (m f)) v.
Proof. exists 0%N. now apply runs_at_lift. Qed.

Lemma runs_lift_bind {A B} (m : outcome A) (k : nat -> A -> M B) v w :
  m = Ok v -> runs (fun f => k f v) w -> runs (fun f => bind (lift m) (k f)) w.
Proof.
  intros H. apply (runs_bind (fun _ => lift m) k). now apply runs_lift.
Qed.

Lemma runs_tick : runs (fun _ => tick) tt.
Proof.
  exists 1%N, 0. intros f _ n. unfold tick, limited.
  destruct (N.eqb_spec n 0); [subst; reflexivity|].
  destruct (N.eqb_spec (n - 1) 0); destruct (N.leb_spec n 1); try lia; reflexivity.
Qed.

(** ** Pointers *)

Lemma rstep_eqb_spec a c : reflect (a = c) (rstep_eqb a c).
Proof.
  destruct a, c; simpl; try (constructor; congruence).
  destruct (Nat.eqb_spec k k0); constructor; congruence.
Qed.

Lemma rpath_eqb_spec a c : reflect (a = c) (rpath_eqb a c).
Proof.
  revert c. induction a as [|x a IH]; destruct c as [|y c]; simpl; try (constructor; congruence).
  destruct (rstep_eqb_spec x y); simpl; [|constructor; congruence].
  destruct (IH c); constructor; congruence.
Qed.

Lemma rptr_eqb_spec a c : reflect (a = c) (rptr_eqb a c).
Proof.
  destruct a, c; simpl; try (constructor; congruence).
  destruct (rpath_eqb_spec r r0); constructor; congruence.
Qed.

Lemma nptr_eqb_spec a c : reflect (a = c) (nptr_eqb a c).
Proof.
  destruct a, c; simpl; try (constructor; congruence).
  unfold npath_eqb. destruct (list_eq_dec _ _ _); constructor; congruence.
Qed.

Lemma skipn_cons {A} (l : list A) i c l' :
  skipn i l = c :: l' -> skipn (S i) l = l' /\ nth_error l i = Some c /\ i < length l.
Proof.
  revert i. induction l as [|a l IH]; intros [|i] E; simpl in *; try discriminate.
  - injection E as -> ->. repeat split; lia.
  - destruct (IH _ E) as [H1 [H2 H3]]. repeat split; auto; lia.
Qed.

Lemma NoDup_cons_paths (l : list nat) (p : npath) : NoDup l -> NoDup (map (fun j => j :: p) l).
Proof.
  induction 1 as [|j l Hj Hl IH]; simpl; constructor; auto.
  intros H. apply in_map_iff in H as [k [E Hk]]. injection E as ->. contradiction.
Qed.

Section Refine.

Variable R : rule.
Variable D : node.
Variable matches : rule -> npath -> outcome bool.
Variable b : rule -> npath -> bool.
(** Rule::matches has a result for every node of the document. *)
Hypothesis local_ok : forall r p n, nget D p = Some n -> matches r p = Ok (b r p).

Notation Save := (SaveMatchingNodesRecursive R D matches).
Notation Save_groups := (save_groups R D matches).
Notation Save_below := (save_below R D matches).
Notation Group := (MatchRuleGroup R D matches).
Notation Group_loop := (group_loop R D matches).
Notation Recursive := (RuleMatchesNodeRecursive R D matches).
Notation Child_loop := (child_loop R D matches).
Notation Nested_loop := (nested_loop R D matches).
Notation Once := (MatchRuleOnce R D matches).
Notation Range := (MatchRange R D matches).
Notation Range_loop := (range_loop R D matches).

(** The address of the first node of a list. *)
Definition ptr (ns : list item) : nptr :=
  match ns with [] => None | x :: _ => Some (it_path x) end.

(** Walking with NextNode visits the items in turn. *)
Fixpoint chain_ok (ns : list item) : Prop :=
  match ns with
  | [] => True
  | x :: ns' => NextNode D (Some (it_path x)) = Ok (ptr ns') /\ chain_ok ns'
  end.

Definition paths (ns : list item) : list npath := map it_path ns.

(** A list of items that stands for a node and its following siblings. *)
Definition item_ok (x : item) : Prop :=
  forall rp r, rget R rp = Some r ->
    runs (fun f => Recursive f (Some rp) (Some (it_path x)))
         (match it_eval x rp r with Some inner => (true, inner) | None => (false, []) end).

Definition items_ok (ns : list item) : Prop :=
  chain_ok ns /\ NoDup (paths ns) /\ Forall item_ok ns.

Lemma items_ok_app_r l l' : items_ok (l ++ l') -> items_ok l'.
Proof.
  induction l as [|x l IH]; simpl; intros [H1 [H2 H3]]; [repeat split; auto|].
  apply IH. repeat split.
  - apply H1.
  - now inversion H2.
  - now inversion H3.
Qed.

Lemma items_ok_tail x l : items_ok (x :: l) -> items_ok l.
Proof. apply (items_ok_app_r [x]). Qed.

Lemma items_ok_next x l : items_ok (x :: l) -> NextNode D (Some (it_path x)) = Ok (ptr l).
Proof. intros [[H _] _]. exact H. Qed.

Lemma items_ok_not_in seg x l : items_ok (x :: seg ++ l) -> Some (it_path x) <> ptr l.
Proof.
  intros [_ [H _]] E. destruct l as [|y l]; [discriminate|]. simpl in E.
  inversion H as [|? ? Hn _]; subst. apply Hn.
  unfold paths. rewrite map_app. apply in_or_app. right. simpl. left. congruence.
Qed.

(** A list of consecutive rules that ends before the address [e]. *)
Fixpoint linked (rs : list crule) (e : rptr) : Prop :=
  match rs with
  | [] => True
  | (rp, r) :: rs' =>
      rget R rp = Some r /\ Some rp <> e /\
      rnext r rp = match rs' with [] => e | (rp', _) :: _ => Some rp' end /\
      linked rs' e
  end.

Definition rptr_of (rs : list crule) (e : rptr) : rptr :=
  match rs with [] => e | (rp, _) :: _ => Some rp end.

Lemma linked_next rp r rs e : linked ((rp, r) :: rs) e -> rnext r rp = rptr_of rs e.
Proof. intros [_ [_ [H _]]]. exact H. Qed.

Lemma linked_tail cr rs e : linked (cr :: rs) e -> linked rs e.
Proof. destruct cr. intros [_ [_ [_ H]]]. exact H. Qed.

Lemma rderef_ok rp r : rget R rp = Some r -> rderef R rp = Ok r.
Proof. unfold rderef. now intros ->. Qed.

(** ** MatchRuleOnce *)

Lemma once_eq cr ns :
  match once cr ns with
  | Some (pre, y, inner, rest) =>
      ns = pre ++ y :: rest /\ it_eval y (fst cr) (snd cr) = Some inner /\
      Forall (fun x => it_eval x (fst cr) (snd cr) = None) pre
  | None => Forall (fun x => it_eval x (fst cr) (snd cr) = None) ns
  end.
Proof.
  induction ns as [|x ns IH]; simpl; [constructor|].
  destruct (it_eval x (fst cr) (snd cr)) eqn:Ex; [repeat split; auto|].
  destruct (once cr ns) as [[[[pre y] inner] rest]|].
  - destruct IH as [-> [H1 H2]]. repeat split; auto.
  - now constructor.
Qed.

Lemma once_unfold f rp np e :
  Once (S f) (Some rp) (Some np) e =
  if nptr_eqb (Some np) e then ret (e, [])
  else
    bind (Recursive f (Some rp) (Some np)) (fun '(matched, inner) =>
      if matched then ret (Some np, inner)
      else bind (lift (NextNode D (Some np))) (fun next => Once f (Some rp) next e)).
Proof. reflexivity. Qed.

Lemma once_runs cr seg endl :
  items_ok (seg ++ endl) -> rget R (fst cr) = Some (snd cr) ->
  runs (fun f => Once f (Some (fst cr)) (ptr (seg ++ endl)) (ptr endl))
       (match once cr seg with
        | Some (pre, y, inner, rest) => (Some (it_path y), inner)
        | None => (ptr endl, [])
        end).
Proof.
  intros Hok Hr. destruct cr as [rp r]; simpl fst in *; simpl snd in *.
  induction seg as [|x seg IH]; simpl app in *.
  - apply (runs_step _ (fun f => ret (ptr endl, []))); [|apply runs_ret].
    intros f. destruct endl as [|y endl]; [reflexivity|]. cbn [ptr]. rewrite once_unfold.
    destruct (nptr_eqb_spec (Some (it_path y)) (Some (it_path y))) as [_|n]; [|now destruct n].
    reflexivity.
  - apply (runs_step _ (fun f =>
      bind (Recursive f (Some rp) (Some (it_path x))) (fun '(matched, inner) =>
        if matched then ret (Some (it_path x), inner)
        else bind (lift (NextNode D (Some (it_path x)))) (fun next => Once f (Some rp) next (ptr endl))))).
    + intros f. cbn [ptr]. rewrite once_unfold.
      destruct (nptr_eqb_spec (Some (it_path x)) (ptr endl)) as [E|_]; [|reflexivity].
      exfalso. revert E. change (x :: seg ++ endl) with ((x :: seg) ++ endl) in Hok.
      now apply (items_ok_not_in seg).
    + eapply runs_bind.
      { destruct Hok as [_ [_ HF]]. inversion HF as [|? ? Hx _]; subst. exact (Hx rp r Hr). }
      simpl once. simpl fst; simpl snd.
      destruct (it_eval x rp r) as [inner|] eqn:Ex; simpl.
      * apply runs_ret.
      * eapply runs_lift_bind; [exact (items_ok_next _ _ Hok)|].
        specialize (IH (items_ok_tail _ _ Hok)).
        destruct (once (rp, r) seg) as [[[[pre y] inner] rest]|]; exact IH.
Qed.

(** ** MatchRange *)

Lemma all_greedy_eq cr ns :
  match all_greedy cr ns with
  | Some (m, rest) => exists pre, ns = pre ++ rest
  | None => Forall (fun x => it_eval x (fst cr) (snd cr) = None) ns
  end.
Proof.
  induction ns as [|x ns IH]; simpl; [constructor|].
  destruct (it_eval x (fst cr) (snd cr)) eqn:Ex; destruct (all_greedy cr ns) as [[m' rest]|].
  - destruct IH as [pre ->]. now exists (x :: pre).
  - now exists [x].
  - destruct IH as [pre ->]. now exists (x :: pre).
  - now constructor.
Qed.

(** [all_greedy] by repeated search. *)
Lemma all_greedy_once cr ns :
  all_greedy cr ns =
  match once cr ns with
  | None => None
  | Some (_, y, inner, rest) =>
      match all_greedy cr rest with
      | Some (m, rest') => Some (inner ++ [(fst cr, it_path y)] ++ m, rest')
      | None => Some (inner ++ [(fst cr, it_path y)], rest)
      end
  end.
Proof.
  induction ns as [|x ns IH]; simpl; [reflexivity|].
  destruct (it_eval x (fst cr) (snd cr)) eqn:Ex; [reflexivity|].
  rewrite IH. destruct (once cr ns) as [[[[pre y] inner] rest]|]; reflexivity.
Qed.

(** The value of [matching_node] that belongs to a [last] of [range]. *)
Definition last_ok (endl : list item) (o : option (list item)) (p : nptr) : Prop :=
  match o with
  | None => p = ptr endl
  | Some rest => exists x, p = Some (it_path x) /\ items_ok (x :: rest ++ endl)
  end.

Definition range_body rp r (r_begin r_end : rptr) (n_begin n_end : nptr) f :=
  bind (Once f r_begin n_begin n_end) (fun '(found, inner) =>
    match found with
    | Some found_np =>
        if nptr_eqb found n_end then
          bind (Range_loop f (rnext r rp) r_end n_begin n_end found) (fun '(last, rest) =>
            ret (last, inner ++ rest))
        else
          bind (lift (NextNode D found)) (fun next =>
          bind (Range_loop f (if r_greedy r then r_begin else rnext r rp) r_end next n_end found)
            (fun '(last, rest) => ret (last, inner ++ [(rp, found_np)] ++ rest)))
    | None =>
        bind (Range_loop f (rnext r rp) r_end n_begin n_end found) (fun '(last, rest) =>
          ret (last, inner ++ rest))
    end).

Lemma range_loop_unfold f rp r e nb ne mn :
  rget R rp = Some r -> Some rp <> e ->
  forall n, Range_loop (S f) (Some rp) e nb ne mn n = range_body rp r (Some rp) e nb ne f n.
Proof.
  intros Hr He n.
  change (Range_loop (S f) (Some rp) e nb ne mn n) with
    ((if rptr_eqb (Some rp) e then ret (mn, [])
      else bind (lift (rderef R rp)) (fun r => range_body rp r (Some rp) e nb ne f)) n).
  destruct (rptr_eqb_spec (Some rp) e) as [E|_]; [contradiction|].
  rewrite (rderef_ok _ _ Hr). reflexivity.
Qed.

Lemma runs_ext_n {A} (m m' : nat -> M A) v :
  (forall f n, m f n = m' f n) -> runs m' v -> runs m v.
Proof.
  intros H [c [f0 H0]]. exists c, f0. intros f Hf n. rewrite H. now apply H0.
Qed.

Lemma runs_step_n {A} (m m' : nat -> M A) v :
  (forall f n, m (S f) n = m' f n) -> runs m' v -> runs m v.
Proof.
  intros H [c [f0 H0]]. exists c, (S f0). intros f Hf n.
  destruct f; [lia|]. rewrite H. apply H0. lia.
Qed.

Lemma range_runs rs e endl seg mn lst :
  items_ok (seg ++ endl) -> linked rs e -> last_ok endl lst mn ->
  exists p, last_ok endl (fst (range rs seg lst)) p /\
  runs (fun f => Range_loop f (rptr_of rs e) e (ptr (seg ++ endl)) (ptr endl) mn)
       (p, snd (range rs seg lst)).
Proof.
  revert seg mn lst. induction rs as [|[rp r] rs IHr]; intros seg mn lst Hok Hl Hmn.
  - exists mn. split; [exact Hmn|]. simpl.
    apply (runs_step _ (fun f => ret (mn, []))); [|apply runs_ret].
    intros f. destruct e as [rp|]; [|reflexivity].
    change (Range_loop (S f) (Some rp) (Some rp) (ptr (seg ++ endl)) (ptr endl) mn) with
      (if rptr_eqb (Some rp) (Some rp) then ret (mn, [])
       else bind (lift (rderef R rp)) (fun r => range_body rp r (Some rp) (Some rp) (ptr (seg ++ endl)) (ptr endl) f)).
    destruct (rptr_eqb_spec (Some rp) (Some rp)) as [_|n]; [reflexivity|now destruct n].
  - remember (length seg) as k eqn:Hk. revert seg mn lst Hok Hmn Hk.
    induction k as [k IHk] using lt_wf_ind; intros seg mn lst Hok Hmn Hk.
    destruct Hl as [Hr [He [Hn Hl]]].
    change (match rs with [] => e | (rp', _) :: _ => Some rp' end) with (rptr_of rs e) in Hn.
    simpl rptr_of.
    assert (Hstep : forall p v, runs (range_body rp r (Some rp) e (ptr (seg ++ endl)) (ptr endl)) (p, v) ->
              runs (fun f => Range_loop f (Some rp) e (ptr (seg ++ endl)) (ptr endl) mn) (p, v)).
    { intros p v. apply runs_step_n. intros. now apply range_loop_unfold. }
    pose proof (once_runs (rp, r) seg endl Hok Hr) as Honce. simpl fst in Honce.
    (* the rule does not match (any more) *)
    assert (Hnone : once (rp, r) seg = None ->
              exists p, last_ok endl (fst (range rs seg None)) p /\
              runs (range_body rp r (Some rp) e (ptr (seg ++ endl)) (ptr endl))
                   (p, snd (range rs seg None))).
    { intros E. rewrite E in Honce.
      destruct (IHr seg (ptr endl) None Hok Hl eq_refl) as [p [Hp1 Hp2]].
      exists p. split; [exact Hp1|]. unfold range_body.
      eapply runs_bind; [exact Honce|]. cbv beta iota.
      assert (Hgo : runs (fun f => bind (Range_loop f (rnext r rp) e (ptr (seg ++ endl)) (ptr endl) (ptr endl))
                 (fun '(last, rest) => ret (last, [] ++ rest))) (p, snd (range rs seg None))).
      { rewrite Hn. eapply (runs_bind _ (fun f '(last, rest) => ret (last, [] ++ rest))); [exact Hp2|].
        apply runs_ret. }
      destruct (ptr endl) as [q|] eqn:Eq; [|exact Hgo].
      destruct (nptr_eqb_spec (Some q) (Some q)) as [_|n]; [exact Hgo|now destruct n]. }
    simpl range. simpl snd at 1.
    pose proof (once_eq (rp, r) seg) as Heq.
    destruct (r_greedy r) eqn:Hg.
    + (* greedy *)
      rewrite all_greedy_once.
      destruct (once (rp, r) seg) as [[[[pre y] inner] rest]|] eqn:Eo.
      2:{ destruct (Hnone eq_refl) as [p [H1 H2]]. exists p. split; [exact H1|]. now apply Hstep. }
      destruct Heq as [-> [Ey Hpre]].
      rewrite <- app_assoc in Hok. simpl in Hok.
      pose proof (items_ok_app_r _ _ Hok) as Hok'.
      assert (Hlen : length rest < k).
      { subst k. rewrite app_length. simpl. lia. }
      destruct (IHk (length rest) Hlen rest (Some (it_path y)) (Some rest)
                  (items_ok_tail _ _ Hok') (ex_intro _ y (conj eq_refl Hok')) eq_refl)
        as [p [Hp1 Hp2]].
      simpl range in Hp1, Hp2. rewrite Hg in Hp1, Hp2.
      assert (Hr1 : runs (range_body rp r (Some rp) e (ptr ((pre ++ y :: rest) ++ endl)) (ptr endl))
                 (p, inner ++ [(rp, it_path y)] ++
                     snd (match all_greedy (rp, r) rest with
                          | Some (m, rest0) => let '(l, m2) := range rs rest0 None in (l, m ++ m2)
                          | None => range rs rest None
                          end))).
      { unfold range_body. eapply runs_bind; [exact Honce|]. cbv beta iota.
        destruct (nptr_eqb_spec (Some (it_path y)) (ptr endl)) as [E|_].
        { exfalso. revert E. now apply (items_ok_not_in rest). }
        eapply runs_lift_bind; [exact (items_ok_next _ _ Hok')|].
        rewrite Hg.
        eapply (runs_bind _ (fun f '(last, rest) => ret (last, inner ++ [(rp, it_path y)] ++ rest)));
          [exact Hp2|]. apply runs_ret. }
      destruct (all_greedy (rp, r) rest) as [[m rest0]|] eqn:Ea; simpl fst in *; simpl snd in *.
      * destruct (range rs rest0 None) as [l m2]. simpl fst in *; simpl snd in *.
        exists p. split; [exact Hp1|]. apply Hstep.
        replace ((inner ++ (rp, it_path y) :: m) ++ m2) with (inner ++ [(rp, it_path y)] ++ m ++ m2);
          [exact Hr1|].
        rewrite <- app_assoc. reflexivity.
      * destruct (range rs rest None) as [l m2]. simpl fst in *; simpl snd in *.
        exists p. split; [exact Hp1|]. apply Hstep.
        replace ((inner ++ [(rp, it_path y)]) ++ m2) with (inner ++ [(rp, it_path y)] ++ m2);
          [exact Hr1|].
        rewrite <- app_assoc. reflexivity.
    + (* not greedy *)
      destruct (once (rp, r) seg) as [[[[pre y] inner] rest]|] eqn:Eo.
      2:{ destruct (Hnone eq_refl) as [p [H1 H2]]. exists p. split; [exact H1|]. now apply Hstep. }
      destruct Heq as [-> [Ey Hpre]].
      rewrite <- app_assoc in Hok. simpl in Hok.
      pose proof (items_ok_app_r _ _ Hok) as Hok'.
      destruct (IHr rest (Some (it_path y)) (Some rest) (items_ok_tail _ _ Hok') Hl
                  (ex_intro _ y (conj eq_refl Hok'))) as [p [Hp1 Hp2]].
      destruct (range rs rest (Some rest)) as [l m2]. simpl fst in *; simpl snd in *.
      exists p. split; [exact Hp1|]. apply Hstep.
      unfold range_body. eapply runs_bind; [exact Honce|]. cbv beta iota.
      destruct (nptr_eqb_spec (Some (it_path y)) (ptr endl)) as [E|_].
      { exfalso. revert E. now apply (items_ok_not_in rest). }
      eapply runs_lift_bind; [exact (items_ok_next _ _ Hok')|].
      rewrite Hg, Hn.
      eapply (runs_bind _ (fun f '(last, rest) => ret (last, inner ++ [(rp, it_path y)] ++ rest)));
        [exact Hp2|]. apply runs_ret.
Qed.

Lemma MatchRange_runs rs e endl seg :
  items_ok (seg ++ endl) -> linked rs e -> seg ++ endl <> [] ->
  exists p, last_ok endl (fst (range rs seg None)) p /\
  runs (fun f => Range f (rptr_of rs e) e (ptr (seg ++ endl)) (ptr endl))
       (p, snd (range rs seg None)).
Proof.
  intros Hok Hl Hne.
  destruct (range_runs rs e endl seg (ptr endl) None Hok Hl eq_refl) as [p [H1 H2]].
  exists p. split; [exact H1|].
  eapply runs_step; [|exact H2].
  intros f. simpl MatchRange. destruct (seg ++ endl) as [|y l]; [congruence|]. reflexivity.
Qed.

(** ** Chains of rules *)

Lemma rule_next_ind (P : rule -> Prop) :
  (forall r, (forall n, r_next r = Some n -> P n) -> P r) -> forall r, P r.
Proof.
  intros H. fix rec 1. intros r. apply H. destruct r as [c [n|] ns ms cs t o g tn]; simpl.
  - intros n' E. injection E as <-. apply rec.
  - discriminate.
Qed.

Lemma chain_of_eq p r :
  chain_of p r = (p, r) :: match r_next r with Some n => chain_of (RNext :: p) n | None => [] end.
Proof. destruct r as [c [n|] ns ms cs t o g tn]; reflexivity. Qed.

Lemma chain_of_length p r q x : In (q, x) (chain_of p r) -> length p <= length q.
Proof.
  revert p. induction r as [r IH] using rule_next_ind; intros p. rewrite chain_of_eq.
  intros [E|H]; [injection E as -> ->; lia|].
  destruct (r_next r) as [n|]; [|contradiction].
  apply (IH n eq_refl) in H. simpl in H. lia.
Qed.

Lemma chain_of_rget p r : rget R p = Some r -> Forall (fun cr => rget R (fst cr) = Some (snd cr)) (chain_of p r).
Proof.
  revert p. induction r as [r IH] using rule_next_ind; intros p Hp. rewrite chain_of_eq.
  constructor; [exact Hp|]. destruct (r_next r) as [n|] eqn:E; [|constructor].
  apply IH; [reflexivity|]. simpl. now rewrite Hp.
Qed.

Lemma chain_suffix p r pre q x post :
  chain_of p r = pre ++ (q, x) :: post -> (q, x) :: post = chain_of q x.
Proof.
  revert p pre. induction r as [r IH] using rule_next_ind; intros p pre. rewrite chain_of_eq.
  destruct pre as [|c pre]; simpl; intros E.
  - injection E as -> -> <-. now rewrite chain_of_eq.
  - injection E as _ E. destruct (r_next r) as [n|]; [eapply IH; eauto|].
    destruct pre; discriminate.
Qed.

Lemma chain_NoDup p r : NoDup (map fst (chain_of p r)).
Proof.
  revert p. induction r as [r IH] using rule_next_ind; intros p. rewrite chain_of_eq. simpl.
  constructor; [|destruct (r_next r); [now apply IH|constructor]].
  destruct (r_next r) as [n|]; [|auto]. intros H. apply in_map_iff in H as [[q x] [E H]].
  simpl in E. subst q. apply chain_of_length in H. simpl in H. lia.
Qed.

Lemma chain_linked p r : rget R p = Some r -> linked (chain_of p r) None.
Proof.
  revert p. induction r as [r IH] using rule_next_ind; intros p Hp. rewrite chain_of_eq. simpl.
  repeat split; [exact Hp|discriminate| |].
  - unfold rnext. destruct (r_next r) as [n|]; [now rewrite chain_of_eq|reflexivity].
  - destruct (r_next r) as [n|] eqn:E; [|exact I]. apply IH; [reflexivity|]. simpl. now rewrite Hp.
Qed.

Lemma linked_app_r l l' e : linked (l ++ l') e -> linked l' e.
Proof. induction l as [|[q x] l IH]; simpl; [auto|]. intros [_ [_ [_ H]]]. now apply IH. Qed.

Lemma linked_seg l q x l' e :
  linked (l ++ (q, x) :: l') e -> NoDup (map fst (l ++ (q, x) :: l')) -> linked l (Some q).
Proof.
  induction l as [|[q0 x0] l IH]; simpl; [auto|]. intros [H1 [H2 [H3 H4]]] Hn.
  inversion Hn as [|? ? Hn1 Hn2]; subst. repeat split; auto.
  - intros E. injection E as ->. apply Hn1. rewrite map_app. apply in_or_app. right. now left.
  - rewrite H3. destruct l as [|[q1 x1] l]; reflexivity.
Qed.

Lemma find_mand_eq rs :
  match find_mand rs with
  | Some (pre, m, post) => rs = pre ++ m :: post /\ mandatory m = true /\ Forall (fun c => mandatory c = false) pre
  | None => Forall (fun c => mandatory c = false) rs
  end.
Proof.
  induction rs as [|c rs IH]; simpl; [constructor|].
  destruct (mandatory c) eqn:E; [auto|].
  destruct (find_mand rs) as [[[pre m] post]|].
  - destruct IH as [-> [H1 H2]]. auto.
  - now constructor.
Qed.

(** The first mandatory rule of a list. *)
Definition first_mand (rs : list crule) : option crule :=
  match find_mand rs with Some (_, m, _) => Some m | None => None end.
Definition crule_ptr (o : option crule) : rptr :=
  match o with Some m => Some (fst m) | None => None end.

Lemma first_mand_app l l' :
  first_mand (l ++ l') = match first_mand l with Some m => Some m | None => first_mand l' end.
Proof.
  unfold first_mand. induction l as [|c l IH]; simpl; [reflexivity|].
  destruct (mandatory c); [reflexivity|].
  destruct (find_mand (l ++ l')) as [[[a m] d]|]; destruct (find_mand l) as [[[a' m'] d']|];
    try exact IH; destruct (find_mand l') as [[[a1 m1] d1]|]; exact IH.
Qed.

Lemma find_mandatory_eq r p e :
  find_mandatory r p e =
  if rptr_eqb (Some p) e then e
  else if mandatory (p, r) then Some p
  else match r_next r with Some r' => find_mandatory r' (RNext :: p) e | None => e end.
Proof. unfold mandatory. destruct r as [c [n|] ns ms cs t o g tn]; reflexivity. Qed.

Lemma find_mandatory_none r p : find_mandatory r p None = crule_ptr (first_mand (chain_of p r)).
Proof.
  revert p. induction r as [r IH] using rule_next_ind; intros p.
  rewrite find_mandatory_eq, chain_of_eq. simpl rptr_eqb. cbv iota.
  unfold first_mand. cbn [find_mand]. destruct (mandatory (p, r)); [reflexivity|].
  destruct (r_next r) as [n|]; [|reflexivity].
  rewrite (IH n eq_refl). unfold first_mand.
  destruct (find_mand (chain_of (RNext :: p) n)) as [[[a m] d]|]; reflexivity.
Qed.

Lemma skip_optional_eq r p : skip_optional r p = find_mandatory r p None.
Proof.
  revert p. induction r as [r IH] using rule_next_ind; intros p.
  rewrite find_mandatory_eq. unfold mandatory. simpl rptr_eqb. cbv iota. simpl snd.
  destruct r as [c [n|] ns ms cs t o g tn]; destruct o; simpl; try reflexivity.
  now apply IH.
Qed.

Lemma find_mandatory_to r p pre q x post :
  chain_of p r = pre ++ (q, x) :: post ->
  find_mandatory r p (Some q) = match crule_ptr (first_mand pre) with Some m => Some m | None => Some q end.
Proof.
  revert p pre. induction r as [r IH] using rule_next_ind; intros p pre.
  rewrite chain_of_eq, find_mandatory_eq.
  destruct pre as [|c pre]; simpl app; intros E.
  - injection E as -> -> _. destruct (rptr_eqb_spec (Some q) (Some q)) as [_|n]; [reflexivity|now destruct n].
  - injection E as <- E.
    destruct (rptr_eqb_spec (Some p) (Some q)) as [E'|_].
    + exfalso. injection E' as ->. destruct (r_next r) as [n|]; [|destruct pre; discriminate].
      assert (H : In (q, x) (chain_of (RNext :: q) n)) by (rewrite E; apply in_or_app; right; now left).
      apply chain_of_length in H. simpl in H. lia.
    + unfold first_mand. cbn [find_mand]. destruct (mandatory (p, r)); [reflexivity|].
      destruct (r_next r) as [n|]; [|destruct pre; discriminate].
      rewrite (IH n eq_refl _ _ E). unfold first_mand.
      destruct (find_mand pre) as [[[a m] d]|]; reflexivity.
Qed.

Lemma FindMandatoryRule_none p r :
  rget R p = Some r -> FindMandatoryRule R (Some p) None = Ok (crule_ptr (first_mand (chain_of p r))).
Proof.
  intros H. unfold FindMandatoryRule. rewrite (rderef_ok _ _ H). simpl. now rewrite find_mandatory_none.
Qed.

Lemma FindMandatoryRule_next p r rs :
  rget R p = Some r -> (p, r) :: rs = chain_of p r ->
  FindMandatoryRule R (rnext r p) None = Ok (crule_ptr (first_mand rs)).
Proof.
  intros H. rewrite chain_of_eq. intros E. injection E as ->. unfold rnext.
  destruct (r_next r) as [n|] eqn:En; [|reflexivity].
  apply FindMandatoryRule_none. simpl. now rewrite H.
Qed.

(** ** MatchRuleGroup *)

Lemma back_is_snoc sub rp q x : back_is (sub ++ [(q, x)]) rp = rpath_eqb rp q.
Proof. unfold back_is. now rewrite rev_app_distr. Qed.

Lemma rpath_eqb_next rp : rpath_eqb (RNext :: rp) rp = false.
Proof.
  destruct (rpath_eqb_spec (RNext :: rp) rp) as [E|]; [|reflexivity].
  apply (f_equal (@length _)) in E. simpl in E. lia.
Qed.

Lemma rpath_eqb_refl rp : rpath_eqb rp rp = true.
Proof. destruct (rpath_eqb_spec rp rp); congruence. Qed.

Lemma ptr_nil_app (ns : list item) : ns ++ [] = ns.
Proof. apply app_nil_r. Qed.

Lemma once_none_runs cr ns :
  items_ok ns -> rget R (fst cr) = Some (snd cr) ->
  runs (fun f => Once f (Some (fst cr)) (ptr ns) None)
       (match once cr ns with
        | Some (pre, y, inner, rest) => (Some (it_path y), inner)
        | None => (None, [])
        end).
Proof.
  intros H1 H2. pose proof (once_runs cr ns []) as H. rewrite app_nil_r in H. now apply H.
Qed.

Lemma group_tail_ok cp c pre rules again sub ns :
  rget R cp = Some c -> chain_of cp c = pre ++ rules ->
  rules = [] \/ ns = [] ->
  (again = true -> exists rp r rs, rules = (rp, r) :: rs /\ r_greedy r = true) ->
  (forall rp r rs, rules = (rp, r) :: rs -> back_is sub rp = again) ->
  group_tail R (rptr_of rules None) (ptr ns) sub =
  Ok (match find_mand (if again then tl rules else rules) with
      | None => (ptr ns, sub)
      | Some _ => (None, [])
      end).
Proof.
  intros Hc Hch Hor Hag Hback.
  destruct rules as [|[rp r] rs].
  - destruct again; reflexivity.
  - pose proof (chain_of_rget _ _ Hc) as HF. rewrite Hch in HF.
    apply Forall_app in HF as [_ HF]. inversion HF as [|? ? Hr HF']; subst. simpl in Hr.
    pose proof (chain_suffix _ _ _ _ _ _ Hch) as Hsuf.
    assert (Hl : linked ((rp, r) :: rs) None) by (rewrite Hsuf; now apply chain_linked).
    unfold group_tail. simpl rptr_of. cbn [obind]. rewrite (rderef_ok _ _ Hr). cbn [obind].
    rewrite (Hback _ _ _ eq_refl).
    assert (Hskip : forall q x l, rget R q = Some x -> (q, x) :: l = chain_of q x ->
      obind (obind (rderef R q) (fun r => Ok (skip_optional r q)))
         (fun rule2 => match rule2 with None => Ok (ptr ns, sub) | Some _ => Ok (None, []) end) =
      Ok (match find_mand ((q, x) :: l) with None => (ptr ns, sub) | Some _ => (None, []) end)).
    { intros q x l Hq Ex. rewrite (rderef_ok _ _ Hq). cbn [obind].
      rewrite skip_optional_eq, find_mandatory_none, <- Ex. unfold first_mand.
      destruct (find_mand ((q, x) :: l)) as [[[a m] d]|]; reflexivity. }
    destruct again.
    + destruct (Hag eq_refl) as [rp' [r' [rs' [E Hg]]]]. injection E as <- <- <-.
      rewrite Hg. simpl andb. cbn iota. cbn [obind]. rewrite (linked_next _ _ _ _ Hl). simpl tl.
      destruct rs as [|[q x] l]; simpl rptr_of; [reflexivity|].
      cbn iota. apply Hskip.
      * now inversion HF'.
      * apply (chain_suffix cp c (pre ++ [(rp, r)])). rewrite <- app_assoc. exact Hch.
    + rewrite andb_false_r. cbn iota. cbn [obind]. now apply Hskip.
Qed.

Definition group_body first_rule rp r (node : nptr) (sub : MatchingNodes) f :=
  if r_optional r || (r_greedy r && back_is sub rp) then
    bind (lift (FindMandatoryRule R (rnext r rp) None)) (fun stop_rule =>
    match stop_rule with
    | None =>
        bind (lift (FindMandatoryRule R first_rule (Some rp))) (fun wrapped =>
        let stop_rule := if rptr_eqb wrapped (Some rp) then None else wrapped in
        match stop_rule with
        | None =>
            bind (Range f (Some rp) None node None) (fun '(last, more) =>
            bind (lift (match last with None => Ok None | Some _ => NextNode D last end)) (fun next =>
            ret (next, sub ++ more)))
        | Some _ =>
            bind (Once f stop_rule node None) (fun '(stop_node, _) =>
            bind (Range f (Some rp) None node stop_node) (fun '(_, more) =>
            ret (stop_node, sub ++ more)))
        end)
    | Some stop_rp =>
        bind (Once f stop_rule node None) (fun '(stop_node, inner) =>
        match stop_node with
        | None => ret (None, [])
        | Some stop_np =>
            bind (Range f (Some rp) stop_rule node stop_node) (fun '(_, more) =>
            bind (lift (rderef R stop_rp)) (fun stop_r =>
            bind (lift (NextNode D stop_node)) (fun next =>
            Group_loop f first_rule (rnext stop_r stop_rp) next
                       (sub ++ inner ++ more ++ [(stop_rp, stop_np)]))))
        end)
    end)
  else
    bind (Once f (Some rp) node None) (fun '(found, inner) =>
    match found with
    | None => ret (None, [])
    | Some found_np =>
        bind (lift (NextNode D found)) (fun next =>
        Group_loop f first_rule (if r_greedy r then Some rp else rnext r rp) next
                   (sub ++ inner ++ [(rp, found_np)]))
    end).

Lemma group_loop_unfold f first rp r np sub n :
  rget R rp = Some r ->
  Group_loop (S f) first (Some rp) (Some np) sub n = group_body first rp r (Some np) sub f n.
Proof.
  intros Hr.
  change (Group_loop (S f) first (Some rp) (Some np) sub n) with
    (bind (lift (rderef R rp)) (fun r => group_body first rp r (Some np) sub f) n).
  rewrite (rderef_ok _ _ Hr). reflexivity.
Qed.

Lemma or_first_mand pre cr :
  mandatory cr = true -> or_first (first_mand pre) cr = first_mand (pre ++ [cr]).
Proof.
  intros H. rewrite first_mand_app. unfold or_first. destruct (first_mand pre); [reflexivity|].
  unfold first_mand. simpl. now rewrite H.
Qed.

Lemma once_app cr ns pre y inner rest :
  once cr ns = Some (pre, y, inner, rest) -> ns = pre ++ y :: rest.
Proof. intros E. pose proof (once_eq cr ns) as H. rewrite E in H. now destruct H. Qed.

Lemma range_last_app rs seg lst rest :
  fst (range rs seg lst) = Some rest ->
  lst = Some rest \/ exists l, l <> [] /\ seg = l ++ rest.
Proof.
  revert seg lst. induction rs as [|cr rs IH]; intros seg lst; simpl; [auto|].
  destruct (r_greedy (snd cr)).
  - pose proof (all_greedy_eq cr seg) as Ha. destruct (all_greedy cr seg) as [[m r]|].
    + destruct (range rs r None) as [l m2] eqn:E. simpl. intros ->.
      specialize (IH r None). rewrite E in IH. destruct (IH eq_refl) as [|[l [Hl ->]]]; [discriminate|].
      destruct Ha as [pre ->]. right. exists (pre ++ l). rewrite app_assoc. split; [|reflexivity].
      destruct pre; [exact Hl|discriminate].
    + intros E. destruct (IH _ _ E) as [|H]; [discriminate|auto].
  - destruct (once cr seg) as [[[[pre y] inner] r]|] eqn:Eo.
    + apply once_app in Eo. subst seg. destruct (range rs r (Some r)) as [l m2] eqn:E. simpl. intros ->.
      specialize (IH r (Some r)). rewrite E in IH. right.
      destruct (IH eq_refl) as [Er|[l [Hl ->]]].
      * injection Er as ->. exists (pre ++ [y]). rewrite <- app_assoc. split; [now destruct pre|reflexivity].
      * exists (pre ++ y :: l). rewrite <- app_assoc. split; [now destruct pre|reflexivity].
    + intros E. destruct (IH _ _ E) as [|H]; [discriminate|auto].
Qed.

Lemma group_suffix k fm again rules ns sub :
  exists l, ns = l ++ fst (group k fm again rules ns sub).
Proof.
  revert fm again rules ns sub. induction k as [|k IH]; intros fm again rules ns sub.
  - destruct rules as [|cr rs]; [|destruct ns]; simpl group.
    + destruct (find_mand _); [exists ns|exists []]; simpl; now rewrite ?app_nil_r.
    + destruct (find_mand _); [exists []|exists []]; reflexivity.
    + exists (i :: ns). simpl. now rewrite app_nil_r.
  - destruct rules as [|cr rs]; [|destruct ns as [|x ns]].
    + simpl group. destruct (find_mand _); [exists ns|exists []]; simpl; now rewrite ?app_nil_r.
    + simpl group. destruct (find_mand _); [exists []|exists []]; reflexivity.
    + assert (Hnil : exists l, x :: ns = l ++ []) by (exists (x :: ns); now rewrite app_nil_r).
      cbn [group]. destruct (r_optional (snd cr) || again).
      * destruct (find_mand rs) as [[[bt stop] after]|].
        -- destruct (once stop (x :: ns)) as [[[[pre y] inner] rest]|] eqn:Eo; [|exact Hnil].
           apply once_app in Eo. rewrite Eo.
           edestruct IH as [l Hl]. exists (pre ++ y :: l). rewrite <- app_assoc. simpl. now rewrite <- Hl.
        -- destruct fm as [stop|].
           ++ destruct (once stop (x :: ns)) as [[[[pre y] inner] rest]|] eqn:Eo; [|exact Hnil].
              apply once_app in Eo. rewrite Eo. now exists pre.
           ++ pose proof (range_last_app (cr :: rs) (x :: ns) None) as Hr.
              destruct (range (cr :: rs) (x :: ns) None) as [[rest|] m]; simpl fst in *; [|exact Hnil].
              destruct (Hr rest eq_refl) as [|[l [_ ->]]]; [discriminate|]. now exists l.
      * destruct (once cr (x :: ns)) as [[[[pre y] inner] rest]|] eqn:Eo; [|exact Hnil].
        apply once_app in Eo. rewrite Eo.
        destruct (r_greedy (snd cr)); edestruct IH as [l Hl]; exists (pre ++ y :: l);
          rewrite <- app_assoc; simpl; now rewrite <- Hl.
Qed.

Lemma group_progress k cr rs x ns sub :
  length (fst (group k None false (cr :: rs) (x :: ns) sub)) < length (x :: ns).
Proof.
  destruct k as [|k]; [simpl; lia|].
  assert (Hlen : forall k' fm' ag' rules' pre y rest sub', x :: ns = pre ++ y :: rest ->
     length (fst (group k' fm' ag' rules' rest sub')) < length (x :: ns)).
  { intros k' fm' ag' rules' pre y rest sub' ->.
    destruct (group_suffix k' fm' ag' rules' rest sub') as [l Hl].
    apply (f_equal (@length _)) in Hl. rewrite app_length in *. simpl. lia. }
  cbn [group]. destruct (r_optional (snd cr) || false).
  - destruct (find_mand rs) as [[[bt stop] after]|].
    + destruct (once stop (x :: ns)) as [[[[pre y] inner] rest]|] eqn:Eo; [|simpl; lia].
      apply once_app in Eo. now apply Hlen with pre y.
    + pose proof (range_last_app (cr :: rs) (x :: ns) None) as Hr.
      destruct (range (cr :: rs) (x :: ns) None) as [[rest|] m]; simpl fst in *; [|simpl; lia].
      destruct (Hr rest eq_refl) as [|[l [Hl E]]]; [discriminate|]. rewrite E, app_length.
      destruct l; [congruence|]. simpl. lia.
  - destruct (once cr (x :: ns)) as [[[[pre y] inner] rest]|] eqn:Eo; [|simpl; lia].
    apply once_app in Eo. destruct (r_greedy (snd cr)); now apply Hlen with pre y.
Qed.

Lemma group_runs cp c :
  rget R cp = Some c ->
  forall k again pre rules ns sub,
  chain_of cp c = pre ++ rules ->
  items_ok ns -> length ns <= k ->
  (again = true -> exists rp r rs, rules = (rp, r) :: rs /\ r_greedy r = true /\ r_optional r = false) ->
  (forall rp r rs, rules = (rp, r) :: rs -> back_is sub rp = again) ->
  runs (fun f => Group_loop f (Some cp) (rptr_of rules None) (ptr ns) sub)
       (let '(next, res) := group k (first_mand pre) again rules ns sub in (ptr next, res)).
Proof.
  intros Hc k. induction k as [|k IH]; intros again pre rules ns sub Hch Hok Hlen Hag Hback.
  all: assert (Htail : rules = [] \/ ns = [] ->
    runs (fun f => Group_loop f (Some cp) (rptr_of rules None) (ptr ns) sub)
       (let '(next, res) :=
          match find_mand (if again then tl rules else rules) with
          | None => (ns, sub)
          | Some _ => ([], [])
          end in (ptr next, res))).
  1,3: intros Hor;
    apply (runs_step_n _ (fun f => lift (group_tail R (rptr_of rules None) (ptr ns) sub)));
    [ intros f n; destruct rules as [|[rp r] rs]; [reflexivity|];
      destruct ns as [|x ns]; [reflexivity|]; destruct Hor; discriminate
    | apply runs_lift; intros f; rewrite (group_tail_ok cp c pre rules again sub ns); auto;
      [ destruct (find_mand (if again then tl rules else rules)); reflexivity
      | intros Ha; destruct (Hag Ha) as [rp [r [rs [? [? ?]]]]]; eauto ] ].
  - destruct ns; [|simpl in Hlen; lia].
    specialize (Htail (or_intror eq_refl)). destruct rules; exact Htail.
  - destruct rules as [|[rp r] rs].
    { exact (Htail (or_introl eq_refl)). }
    destruct ns as [|x ns].
    { exact (Htail (or_intror eq_refl)). }
    clear Htail.
    pose proof (chain_of_rget _ _ Hc) as HF. rewrite Hch in HF.
    apply Forall_app in HF as [HFp HF]. inversion HF as [|? ? Hr HF']; subst. simpl in Hr.
    pose proof (chain_suffix _ _ _ _ _ _ Hch) as Hsuf.
    assert (Hl : linked ((rp, r) :: rs) None) by (rewrite Hsuf; now apply chain_linked).
    cbn [rptr_of ptr].
    apply (runs_step_n _ (group_body (Some cp) rp r (Some (it_path x)) sub)).
    { intros f n. now apply group_loop_unfold. }
    change (Some (it_path x)) with (ptr (x :: ns)).
    remember (x :: ns) as nl eqn:Hnl.
    assert (Hne : nl <> []) by (subst; discriminate).
    assert (Hgeq : group (S k) (first_mand pre) again ((rp, r) :: rs) nl sub =
      (if r_optional r || again then
            match find_mand rs with
            | None =>
                match first_mand pre with
                | None =>
                    let '(last, more) := range ((rp, r) :: rs) nl None in
                    (match last with Some rest => rest | None => [] end, sub ++ more)
                | Some stop =>
                    match once stop nl with
                    | Some (pre, y, _, rest) => (y :: rest, sub ++ snd (range ((rp, r) :: rs) pre None))
                    | None => ([], sub ++ snd (range ((rp, r) :: rs) nl None))
                    end
                end
            | Some (between, stop, after) =>
                match once stop nl with
                | None => ([], [])
                | Some (pre0, y, inner, rest) =>
                    group k (or_first (if again then or_first (first_mand pre) (rp, r) else first_mand pre) stop)
                          false after rest
                          (sub ++ inner ++ snd (range ((rp, r) :: between) pre0 None) ++ [(fst stop, it_path y)])
                end
            end
          else
            match once (rp, r) nl with
            | None => ([], [])
            | Some (_, y, inner, rest) =>
                if r_greedy r
                then group k (first_mand pre) true ((rp, r) :: rs) rest (sub ++ inner ++ [(rp, it_path y)])
                else group k (or_first (first_mand pre) (rp, r)) false rs rest (sub ++ inner ++ [(rp, it_path y)])
            end)) by (subst nl; reflexivity).
    match goal with |- context [group (S k) ?a ?b0 ?c0 ?d ?e] =>
      change (group (S k) a b0 c0 d e) with (group (S k) (first_mand pre) again ((rp, r) :: rs) nl sub)
    end.
    rewrite Hgeq; clear Hgeq.
    unfold group_body.
    assert (Hcond : r_optional r || (r_greedy r && back_is sub rp) = r_optional r || again).
    { rewrite (Hback _ _ _ eq_refl). destruct again; [|now rewrite andb_false_r].
      destruct (Hag eq_refl) as [? [? [? [E [Hgr _]]]]]. injection E as <- <- <-. now rewrite Hgr. }
    rewrite Hcond. clear Hcond.
    destruct (r_optional r || again) eqn:Hopt.
    + (* optional, or greedy and matched before *)
      pose proof (FindMandatoryRule_next _ _ _ Hr Hsuf) as Hfs. unfold first_mand at 1 in Hfs.
      pose proof (find_mand_eq rs) as Hfm.
      destruct (find_mand rs) as [[[bt [sp sr]] after]|]; cbn [crule_ptr fst] in Hfs;
        (eapply runs_lift_bind; [exact Hfs|]); cbn beta iota; clear Hfs.
      * (* stop rule behind *)
        destruct Hfm as [-> [Hm Hbt]].
        assert (Hsr : rget R sp = Some sr).
        { apply Forall_app in HF' as [_ HF']. now inversion HF'. }
        pose proof (once_none_runs (sp, sr) nl Hok Hsr) as Honce. simpl fst in Honce.
        eapply runs_bind; [exact Honce|].
        destruct (once (sp, sr) nl) as [[[[pre0 y] inner] rest]|] eqn:Eo; cbn iota; [|apply runs_ret].
        apply once_app in Eo. clear Hnl. subst nl.
        assert (Hok2 : items_ok (pre0 ++ y :: rest)) by exact Hok.
        destruct (MatchRange_runs ((rp, r) :: bt) (Some sp) (y :: rest) pre0 Hok2) as [p [_ Hrange]].
        { apply (linked_seg _ sp sr after None); [exact Hl|].
          pose proof (chain_NoDup rp r) as Hnd. rewrite <- Hsuf in Hnd. exact Hnd. }
        { destruct pre0; discriminate. }
        eapply runs_bind; [exact Hrange|]. cbn beta iota.
        eapply runs_lift_bind; [exact (rderef_ok _ _ Hsr)|].
        pose proof (items_ok_app_r _ _ Hok) as Hok'.
        eapply runs_lift_bind; [exact (items_ok_next _ _ Hok')|].
        assert (Hl' : linked ((sp, sr) :: after) None).
        { apply (linked_app_r ((rp, r) :: bt)). exact Hl. }
        rewrite (linked_next _ _ _ _ Hl').
        replace (or_first (if again then or_first (first_mand pre) (rp, r) else first_mand pre) (sp, sr))
          with (first_mand (pre ++ (rp, r) :: bt ++ [(sp, sr)])).
        2:{ rewrite !first_mand_app.
            change ((rp, r) :: bt ++ [(sp, sr)]) with ([(rp, r)] ++ bt ++ [(sp, sr)]).
            rewrite !first_mand_app.
            assert (Hbt' : first_mand bt = None).
            { unfold first_mand. pose proof (find_mand_eq bt) as Hb.
              destruct (find_mand bt) as [[[a m] d]|]; [|reflexivity].
              destruct Hb as [-> [Hm' _]]. apply Forall_app in Hbt as [_ Hbt]. inversion Hbt; congruence. }
            rewrite Hbt'. unfold first_mand at 2 3. cbn [find_mand]. rewrite Hm.
            unfold mandatory. cbn [snd].
            destruct again.
            - destruct (Hag eq_refl) as [? [? [? [E [_ Ho]]]]]. injection E as <- <- <-.
              rewrite Ho. simpl. destruct (first_mand pre); reflexivity.
            - rewrite orb_false_r in Hopt. rewrite Hopt. simpl. destruct (first_mand pre); reflexivity. }
        apply IH.
        -- rewrite Hch. rewrite <- !app_assoc. simpl. now rewrite <- app_assoc.
        -- now apply items_ok_tail with y.
        -- rewrite app_length in Hlen. simpl in Hlen. lia.
        -- discriminate.
        -- intros q x0 l ->. rewrite !app_assoc, back_is_snoc.
           assert (Hq : rnext sr sp = Some q) by (apply (linked_next _ _ _ _ Hl')).
           unfold rnext in Hq. destruct (r_next sr); [|discriminate]. injection Hq as <-.
           apply rpath_eqb_next.
      * (* no mandatory rule behind *)
        assert (Hfs : FindMandatoryRule R (Some cp) (Some rp) =
          Ok (match crule_ptr (first_mand pre) with Some m => Some m | None => Some rp end)).
        { unfold FindMandatoryRule. rewrite (rderef_ok _ _ Hc). cbn [obind].
          rewrite (find_mandatory_to _ _ _ _ _ _ Hch). reflexivity. }
        destruct (first_mand pre) as [[wp wr]|] eqn:Ew; cbn [crule_ptr fst] in Hfs;
          (eapply runs_lift_bind; [exact Hfs|]); cbn beta iota; clear Hfs.
        -- (* wrapped *)
           assert (Hwin : In (wp, wr) pre).
           { unfold first_mand in Ew. pose proof (find_mand_eq pre) as Hb.
             destruct (find_mand pre) as [[[a m] d]|]; [|discriminate].
             injection Ew as ->. destruct Hb as [-> _]. apply in_or_app. right. now left. }
           destruct (rptr_eqb_spec (Some wp) (Some rp)) as [E|_].
           { exfalso. injection E as ->. pose proof (chain_NoDup cp c) as Hnd. rewrite Hch in Hnd.
             rewrite map_app in Hnd. simpl in Hnd. apply NoDup_remove_2 in Hnd. apply Hnd.
             apply in_or_app. left. apply in_map_iff. now exists (rp, wr). }
           assert (Hwr : rget R wp = Some wr).
           { rewrite Forall_forall in HFp. apply (HFp _ Hwin). }
           pose proof (once_none_runs (wp, wr) nl Hok Hwr) as Honce. simpl fst in Honce.
           eapply runs_bind; [exact Honce|].
           destruct (once (wp, wr) nl) as [[[[pre0 y] inner] rest]|] eqn:Eo; cbn iota beta.
           ++ apply once_app in Eo. clear Hnl. subst nl.
              assert (Hok2 : items_ok (pre0 ++ y :: rest)) by exact Hok.
              destruct (MatchRange_runs ((rp, r) :: rs) None (y :: rest) pre0 Hok2 Hl) as [p [_ Hrange]].
              { destruct pre0; discriminate. }
              eapply runs_bind; [exact Hrange|]. cbn beta iota. apply runs_ret.
           ++ destruct (MatchRange_runs ((rp, r) :: rs) None [] nl) as [p [_ Hrange]].
              { now rewrite app_nil_r. } { exact Hl. } { now rewrite app_nil_r. }
              rewrite app_nil_r in Hrange.
              eapply runs_bind; [exact Hrange|]. cbn beta iota. apply runs_ret.
        -- (* the last optional rules *)
           destruct (rptr_eqb_spec (Some rp) (Some rp)) as [_|n]; [|now destruct n].
           destruct (MatchRange_runs ((rp, r) :: rs) None [] nl) as [p [Hlast Hrange]].
           { now rewrite app_nil_r. } { exact Hl. } { now rewrite app_nil_r. }
           rewrite app_nil_r in Hrange.
           eapply runs_bind; [exact Hrange|]. cbn beta iota.
           destruct (range ((rp, r) :: rs) nl None) as [[rest|] more]; simpl fst in *; simpl snd in *.
           ++ destruct Hlast as [y [-> Hy]]. rewrite app_nil_r in Hy.
              eapply runs_lift_bind; [exact (items_ok_next _ _ Hy)|]. apply runs_ret.
           ++ simpl in Hlast. subst p. eapply runs_lift_bind; [reflexivity|]. apply runs_ret.
    + (* mandatory *)
      apply orb_false_iff in Hopt as [Ho Ha]. subst again.
      pose proof (once_none_runs (rp, r) nl Hok Hr) as Honce. simpl fst in Honce.
      eapply runs_bind; [exact Honce|].
      destruct (once (rp, r) nl) as [[[[pre0 y] inner] rest]|] eqn:Eo; cbn iota beta; [|apply runs_ret].
      apply once_app in Eo. clear Hnl. subst nl.
      pose proof (items_ok_app_r _ _ Hok) as Hok'.
      eapply runs_lift_bind; [exact (items_ok_next _ _ Hok')|].
      assert (Hlr : length rest <= k) by (rewrite app_length in Hlen; simpl in Hlen; lia).
      destruct (r_greedy r) eqn:Hg.
      * apply (IH true pre ((rp, r) :: rs)); auto.
        -- now apply items_ok_tail with y.
        -- intros _. eauto 7.
        -- intros q x0 l E. injection E as <- <- <-. rewrite app_assoc, back_is_snoc. apply rpath_eqb_refl.
      * rewrite (linked_next _ _ _ _ Hl).
        rewrite or_first_mand by (unfold mandatory; simpl; now rewrite Ho).
        apply IH; auto.
        -- rewrite <- app_assoc. exact Hch.
        -- now apply items_ok_tail with y.
        -- discriminate.
        -- intros q x0 l ->. rewrite !app_assoc, back_is_snoc.
           assert (Hq : rnext r rp = Some q) by (apply (linked_next _ _ _ _ Hl)).
           unfold rnext in Hq. destruct (r_next r); [|discriminate]. injection Hq as <-.
           apply rpath_eqb_next.
Qed.

Lemma MatchRuleGroup_runs cp c ns :
  rget R cp = Some c -> items_ok ns -> ns <> [] ->
  runs (fun f => Group f (Some cp) (ptr ns))
       (let '(next, res) := group (length ns) None false (chain_of cp c) ns [] in (ptr next, res)).
Proof.
  intros Hc Hok Hne.
  pose proof (group_runs cp c Hc (length ns) false [] (chain_of cp c) ns [] eq_refl Hok (le_n _)) as H.
  eapply runs_step; [|apply H; [discriminate|reflexivity]].
  intros f. rewrite chain_of_eq. destruct ns as [|x ns]; [congruence|]. reflexivity.
Qed.

Lemma group_next_ok k fm again rules ns sub :
  items_ok ns -> items_ok (fst (group k fm again rules ns sub)).
Proof.
  intros H. destruct (group_suffix k fm again rules ns sub) as [l Hl].
  rewrite Hl in H. now apply items_ok_app_r in H.
Qed.

Lemma chain_of_cons cp c : exists rs, chain_of cp c = (cp, c) :: rs.
Proof. rewrite chain_of_eq. eauto. Qed.

Lemma group_chain_progress cp c ns :
  ns <> [] -> length (fst (group (length ns) None false (chain_of cp c) ns [])) < length ns.
Proof.
  intros Hne. destruct (chain_of_cons cp c) as [rs ->].
  destruct ns as [|x ns]; [congruence|]. apply group_progress.
Qed.

Lemma groups_k_more cp c k k' ns :
  length ns <= k -> length ns <= k' -> groups_k k (chain_of cp c) ns = groups_k k' (chain_of cp c) ns.
Proof.
  revert k' ns. induction k as [|k IH]; intros k' ns Hk Hk'.
  - destruct ns; [|simpl in Hk; lia]. destruct k'; reflexivity.
  - destruct ns as [|x ns]; [destruct k'; reflexivity|].
    destruct k' as [|k']; [simpl in Hk'; lia|]. cbn [groups_k].
    pose proof (group_chain_progress cp c (x :: ns)) as Hp.
    destruct (group (length (x :: ns)) None false (chain_of cp c) (x :: ns) []) as [next sub].
    simpl fst in Hp. specialize (Hp ltac:(discriminate)).
    rewrite (IH k' next) by (simpl length in *; lia). reflexivity.
Qed.

(** [groups] unfolds by one group. *)
Lemma groups_eq cp c x ns :
  groups (chain_of cp c) (x :: ns) =
  let '(next, sub) := group (length (x :: ns)) None false (chain_of cp c) (x :: ns) [] in
  match sub with [] => groups (chain_of cp c) next | _ => sub :: groups (chain_of cp c) next end.
Proof.
  unfold groups at 1. cbn [groups_k length].
  pose proof (group_chain_progress cp c (x :: ns) ltac:(discriminate)) as Hp.
  cbn [length] in *.
  destruct (group (S (length ns)) None false (chain_of cp c) (x :: ns) []) as [next sub].
  simpl fst in Hp. unfold groups.
  rewrite (groups_k_more cp c (length ns) (length next) next) by lia. reflexivity.
Qed.

Lemma save_groups_runs cp c ns :
  rget R cp = Some c -> items_ok ns ->
  runs (fun f => Save_groups f cp (ptr ns)) (groups (chain_of cp c) ns).
Proof.
  intros Hc. remember (length ns) as k eqn:Hk. revert ns Hk.
  induction k as [k IH] using lt_wf_ind; intros ns -> Hok.
  destruct ns as [|x ns].
  - apply (runs_step _ (fun f => ret [])); [reflexivity|apply runs_ret].
  - rewrite groups_eq.
    pose proof (MatchRuleGroup_runs cp c (x :: ns) Hc Hok ltac:(discriminate)) as HG.
    pose proof (group_chain_progress cp c (x :: ns) ltac:(discriminate)) as Hp.
    pose proof (group_next_ok (length (x :: ns)) None false (chain_of cp c) (x :: ns) [] Hok) as Hn.
    destruct (group (length (x :: ns)) None false (chain_of cp c) (x :: ns) []) as [next sub].
    simpl fst in *.
    apply (runs_step _ (fun f =>
      bind (Group f (Some cp) (ptr (x :: ns))) (fun '(next, sub) =>
      bind (Save_groups f cp next) (fun rest =>
      ret (match sub with [] => rest | _ => sub :: rest end))))); [reflexivity|].
    eapply runs_bind; [exact HG|]. cbn beta iota.
    eapply (runs_bind _ (fun f rest => ret (match sub with [] => rest | _ => sub :: rest end)));
      [exact (IH _ Hp next eq_refl Hn)|].
    destruct sub; apply runs_ret.
Qed.

Lemma first_mand_has rs : is_some (crule_ptr (first_mand rs)) = has_mand rs.
Proof. unfold first_mand, has_mand. destruct (find_mand rs) as [[[a m] d]|]; reflexivity. Qed.

Lemma child_loop_runs cp c x ns :
  rget R cp = Some c -> items_ok (x :: ns) ->
  runs (fun f => Child_loop f cp (it_path x))
       (negb (has_mand (chain_of cp c)) || nonempty (groups (chain_of cp c) (x :: ns)),
        concat (groups (chain_of cp c) (x :: ns))).
Proof.
  intros Hc. remember (length ns) as k eqn:Hk. revert x ns Hk.
  induction k as [k IH] using lt_wf_ind; intros x ns -> Hok.
  rewrite groups_eq.
  pose proof (MatchRuleGroup_runs cp c (x :: ns) Hc Hok ltac:(discriminate)) as HG.
  pose proof (group_chain_progress cp c (x :: ns) ltac:(discriminate)) as Hp.
  pose proof (group_next_ok (length (x :: ns)) None false (chain_of cp c) (x :: ns) [] Hok) as Hn.
  destruct (group (length (x :: ns)) None false (chain_of cp c) (x :: ns) []) as [next sub].
  simpl fst in *.
  apply (runs_step _ (fun f =>
      bind (Group f (Some cp) (Some (it_path x))) (fun '(next, sub) =>
      bind (lift (FindMandatoryRule R (Some cp) None)) (fun mand =>
      let matched := negb (Nat.eqb (length sub) 0) || negb (is_some mand) in
      match next with
      | None => ret (matched, sub)
      | Some np' =>
          bind (Child_loop f cp np') (fun '(matched', rest) =>
          ret (matched || matched', sub ++ rest))
      end)))); [reflexivity|].
  eapply runs_bind; [exact HG|]. cbn beta iota.
  eapply runs_lift_bind; [exact (FindMandatoryRule_none _ _ Hc)|]. cbv zeta.
  rewrite first_mand_has.
  destruct next as [|y next]; cbn [ptr].
  - unfold groups. destruct sub as [|s sub]; cbn [groups_k length nonempty concat].
    + cbn. rewrite orb_false_r. apply runs_ret.
    + cbn. rewrite app_nil_r, orb_true_r. apply runs_ret.
  - simpl in Hp.
    eapply (runs_bind _ (fun f '(matched', rest) => ret (_ || matched', sub ++ rest)));
      [exact (IH (length next) ltac:(lia) y next eq_refl Hn)|].
    cbn beta iota.
    destruct sub as [|s sub]; cbn [length Nat.eqb negb orb nonempty concat app].
    + rewrite orb_assoc, orb_diag. apply runs_ret.
    + rewrite orb_true_r. apply runs_ret.
Qed.

(** ** SaveMatchingNodesRecursive *)

Definition below_ok (x : item) : Prop :=
  exists n, nget D (it_path x) = Some n /\
  forall rp r, rget R rp = Some r ->
    runs (fun f => if is_element n && negb (Nat.eqb (length (children_of n)) 0)
                   then Save f (Some rp) (Some (0 :: it_path x)) else ret [])
         (it_below x rp r).

Definition full_ok (ns : list item) : Prop := items_ok ns /\ Forall below_ok ns.

Lemma deref_ok p n : nget D p = Some n -> deref D p = Ok n.
Proof. unfold deref. now intros ->. Qed.

Lemma save_below_runs rp r x ns :
  rget R rp = Some r -> full_ok (x :: ns) ->
  runs (fun f => Save_below f rp (it_path x)) (concat (map (fun x => it_below x rp r) (x :: ns))).
Proof.
  intros Hr. revert x. induction ns as [|y ns IH]; intros x [Hok HF].
  all: inversion HF as [|? ? [n [Hn Hb]] HF']; subst.
  all: apply (runs_step _ (fun f =>
      bind (lift (deref D (it_path x))) (fun n =>
      bind (if is_element n && negb (Nat.eqb (length (children_of n)) 0)
            then Save f (Some rp) (Some (0 :: it_path x)) else ret []) (fun here =>
      bind (lift (NextNode D (Some (it_path x)))) (fun next =>
      match next with
      | None => ret here
      | Some np' => bind (Save_below f rp np') (fun rest => ret (here ++ rest))
      end))))); [reflexivity|].
  all: eapply runs_lift_bind; [exact (deref_ok _ _ Hn)|].
  all: eapply runs_bind; [exact (Hb rp r Hr)|]; cbn beta.
  all: eapply runs_lift_bind; [exact (items_ok_next _ _ Hok)|]; cbn [ptr].
  - simpl. rewrite app_nil_r. apply runs_ret.
  - eapply (runs_bind _ (fun f rest => ret (_ ++ rest))).
    + apply (IH y). split; [now apply items_ok_tail with x|exact HF'].
    + simpl. apply runs_ret.
Qed.

Lemma Save_runs rp r ns :
  rget R rp = Some r -> full_ok ns -> ns <> [] ->
  runs (fun f => Save f (Some rp) (ptr ns)) (save ns rp r).
Proof.
  intros Hr Hok Hne. destruct ns as [|x ns]; [congruence|].
  apply (runs_step _ (fun f =>
    bind tick (fun _ => bind (Save_groups f rp (Some (it_path x))) (fun gs =>
    bind (Save_below f rp (it_path x)) (fun bs => ret (gs ++ bs)))))); [reflexivity|].
  eapply (runs_bind (fun _ => tick)); [apply runs_tick|]. cbn beta.
  eapply runs_bind; [exact (save_groups_runs rp r (x :: ns) Hr (proj1 Hok))|]. cbn beta.
  eapply (runs_bind _ (fun f bs => ret (_ ++ bs))); [exact (save_below_runs rp r x ns Hr Hok)|].
  unfold save. apply runs_ret.
Qed.

Lemma nested_loop_runs rp r ns l k :
  rget R rp = Some r -> full_ok ns -> ns <> [] ->
  l = skipn k (r_nested r) -> k <= length (r_nested r) ->
  forall np, ptr ns = Some np ->
  runs (fun f => Nested_loop f rp k (length (r_nested r)) np)
       (match nested_part ns rp k l with
        | Some m => (true, m)
        | None => (false, match nested_part ns rp k l with Some m => m | None => [] end)
        end) \/
  (nested_part ns rp k l = None /\
   exists m, runs (fun f => Nested_loop f rp k (length (r_nested r)) np) (false, m)).
Proof.
  intros Hr Hok Hne. revert k. induction l as [|nr l IH]; intros k Hl Hk np Hnp.
  - left. simpl. apply (runs_step _ (fun f => ret (true, []))); [|apply runs_ret].
    intros f. simpl. destruct (Nat.ltb_spec k (length (r_nested r))); [|reflexivity].
    exfalso. apply (f_equal (@length _)) in Hl. rewrite skipn_length in Hl. simpl in Hl. lia.
  - assert (Hlt : k < length (r_nested r)).
    { apply (f_equal (@length _)) in Hl. rewrite skipn_length in Hl. simpl in Hl. lia. }
    assert (Hnr : rget R (RNested k :: rp) = Some nr).
    { simpl. rewrite Hr. simpl. rewrite <- (firstn_skipn k (r_nested r)), <- Hl.
      rewrite nth_error_app2 by (rewrite firstn_length; lia).
      rewrite firstn_length. replace (k - Nat.min k _) with 0 by lia. reflexivity. }
    assert (Hl' : l = skipn (S k) (r_nested r)) by (symmetry; now apply skipn_cons with (c := nr)).
    specialize (IH (S k) Hl' Hlt np Hnp).
    assert (Hstep : forall v,
      runs (fun f => bind (Save f (Some (RNested k :: rp)) (Some np)) (fun mn =>
        bind (lift (FindMandatoryRule R (Some (RNested k :: rp)) None)) (fun mand =>
        if Nat.eqb (length mn) 0 && is_some mand then ret (false, [])
        else bind (Nested_loop f rp (S k) (length (r_nested r)) np) (fun '(matched, rest) =>
             ret (matched, concat mn ++ rest))))) v ->
      runs (fun f => Nested_loop f rp k (length (r_nested r)) np) v).
    { intros v. apply runs_step. intros f.
      change (Nested_loop (S f) rp k (length (r_nested r)) np) with
        (if Nat.ltb k (length (r_nested r)) then
           bind (Save f (Some (RNested k :: rp)) (Some np)) (fun mn =>
           bind (lift (FindMandatoryRule R (Some (RNested k :: rp)) None)) (fun mand =>
           if Nat.eqb (length mn) 0 && is_some mand then ret (false, [])
           else bind (Nested_loop f rp (S k) (length (r_nested r)) np) (fun '(matched, rest) =>
                ret (matched, concat mn ++ rest))))
         else ret (true, [])).
      destruct (Nat.ltb_spec k (length (r_nested r))); [reflexivity|lia]. }
    assert (Hs : runs (fun f => Save f (Some (RNested k :: rp)) (Some np)) (save ns (RNested k :: rp) nr)).
    { rewrite <- Hnp. now apply Save_runs. }
    cbn [nested_part].
    assert (Hne_eq : Nat.eqb (length (save ns (RNested k :: rp) nr)) 0 = negb (nonempty (save ns (RNested k :: rp) nr))).
    { destruct (save ns (RNested k :: rp) nr); reflexivity. }
    destruct (negb (nonempty (save ns (RNested k :: rp) nr)) && has_mand (chain_of (RNested k :: rp) nr)) eqn:Hc.
    + left. apply Hstep. eapply runs_bind; [exact Hs|]. cbn beta.
      eapply runs_lift_bind; [exact (FindMandatoryRule_none _ _ Hnr)|].
      rewrite first_mand_has, Hne_eq, Hc. apply runs_ret.
    + destruct IH as [IH|[IHn [m IH]]].
      * destruct (nested_part ns rp (S k) l) as [m|] eqn:En.
        -- left. apply Hstep. eapply runs_bind; [exact Hs|]. cbn beta.
           eapply runs_lift_bind; [exact (FindMandatoryRule_none _ _ Hnr)|].
           rewrite first_mand_has, Hne_eq, Hc.
           eapply (runs_bind _ (fun f '(matched, rest) => ret (matched, _ ++ rest))); [exact IH|]. apply runs_ret.
        -- right. split; [reflexivity|]. eexists. apply Hstep. eapply runs_bind; [exact Hs|]. cbn beta.
           eapply runs_lift_bind; [exact (FindMandatoryRule_none _ _ Hnr)|].
           rewrite first_mand_has, Hne_eq, Hc.
           eapply (runs_bind _ (fun f '(matched, rest) => ret (matched, _ ++ rest))); [exact IH|]. apply runs_ret.
      * rewrite IHn. right. split; [reflexivity|]. eexists. apply Hstep. eapply runs_bind; [exact Hs|]. cbn beta.
        eapply runs_lift_bind; [exact (FindMandatoryRule_none _ _ Hnr)|].
        rewrite first_mand_has, Hne_eq, Hc.
        eapply (runs_bind _ (fun f '(matched, rest) => ret (matched, _ ++ rest))); [exact IH|]. apply runs_ret.
Qed.

Lemma nested_runs rp r ns np :
  rget R rp = Some r -> full_ok ns -> ptr ns = Some np ->
  exists m, runs (fun f => Nested_loop f rp 0 (length (r_nested r)) np)
     (is_some (nested_part ns rp 0 (r_nested r)), m) /\
     (forall m', nested_part ns rp 0 (r_nested r) = Some m' -> m' = m).
Proof.
  intros Hr Hok Hnp.
  destruct (nested_loop_runs rp r ns (r_nested r) 0 Hr Hok) with (np := np) as [H|[H [m H']]]; auto.
  - destruct ns; discriminate.
  - lia.
  - destruct (nested_part ns rp 0 (r_nested r)) as [m|].
    + exists m. split; [exact H|]. congruence.
    + exists []. split; [exact H|]. discriminate.
  - rewrite H. exists m. split; [exact H'|]. discriminate.
Qed.

(** ** RuleMatchesNodeRecursive *)

Lemma node_ind2 (P : node -> Prop) :
  (forall t, Forall P (children_of t) -> P t) -> forall t, P t.
Proof.
  intros H. fix rec 1. intros t. apply H.
  destruct t as [? ? ? ? cs|? ? ? cs|? ? ? cs| | | |]; simpl; try constructor;
    (induction cs as [|c cs IH]; constructor; [apply rec|exact IH]).
Qed.

Notation sem := (sem b).
Notation sem_list := (sem_list b).
Notation kids_of := (kids_of b).

Lemma it_path_sem t p : it_path (sem t p) = p.
Proof. now rewrite sem_unfold. Qed.

Lemma sem_list_paths l i p : paths (sem_list l i p) = map (fun j => j :: p) (seq i (length l)).
Proof.
  revert i. induction l as [|c l IH]; intros i; simpl; [reflexivity|].
  now rewrite it_path_sem, IH.
Qed.

Lemma sem_list_chain t p l i :
  nget D p = Some t -> is_element t = true -> skipn i (children_of t) = l ->
  chain_ok (sem_list l i p).
Proof.
  intros Ht Hel. revert i. induction l as [|c l IH]; intros i Hl; simpl; [exact I|].
  assert (Hlt : i < length (children_of t)).
  { apply (f_equal (@length _)) in Hl. rewrite skipn_length in Hl. simpl in Hl. lia. }
  assert (Hl' : skipn (S i) (children_of t) = l) by (now apply skipn_cons with (c := c)).
  assert (Hc : nth_error (children_of t) i = Some c).
  { rewrite <- (firstn_skipn i (children_of t)), Hl.
    rewrite nth_error_app2 by (rewrite firstn_length; lia).
    rewrite firstn_length. replace (i - Nat.min i _) with 0 by lia. reflexivity. }
  split; [|now apply IH].
  rewrite it_path_sem. unfold NextNode, deref. cbn [nget]. rewrite Ht, Hc. cbn [obind].
  rewrite Hel. apply (f_equal (@length _)) in Hl'. rewrite skipn_length in Hl'.
  destruct (Nat.ltb_spec (S i) (length (children_of t))).
  - destruct l as [|c' l]; [simpl in Hl'; lia|]. simpl. now rewrite it_path_sem.
  - destruct l as [|c' l]; [reflexivity|simpl in Hl'; lia].
Qed.

Lemma sem_list_Forall (P : item -> Prop) t p l i :
  nget D p = Some t -> skipn i (children_of t) = l ->
  (forall j c, nth_error (children_of t) j = Some c -> P (sem c (j :: p))) ->
  Forall P (sem_list l i p).
Proof.
  intros Ht. revert i. induction l as [|c l IH]; intros i Hl H; simpl; constructor.
  - apply H. 
    assert (Hlt : i < length (children_of t)).
    { apply (f_equal (@length _)) in Hl. rewrite skipn_length in Hl. simpl in Hl. lia. }
    rewrite <- (firstn_skipn i (children_of t)), Hl.
    rewrite nth_error_app2 by (rewrite firstn_length; lia).
    rewrite firstn_length. replace (i - Nat.min i _) with 0 by lia. reflexivity.
  - apply IH; [|exact H]. now apply skipn_cons with (c := c).
Qed.

Lemma sem_list_full t p l i :
  nget D p = Some t -> is_element t = true -> skipn i (children_of t) = l ->
  (forall j c, nth_error (children_of t) j = Some c ->
     item_ok (sem c (j :: p)) /\ below_ok (sem c (j :: p))) ->
  full_ok (sem_list l i p).
Proof.
  intros Ht Hel Hl H. repeat split.
  - eapply sem_list_chain; eauto.
  - rewrite sem_list_paths. apply NoDup_cons_paths, seq_NoDup.
  - eapply sem_list_Forall; eauto. intros j c Hc. now apply H.
  - eapply sem_list_Forall; eauto. intros j c Hc. now apply H.
Qed.

Definition rec_body rp r np n f :=
  if negb (is_some (r_child r)) && Nat.eqb (length (r_nested r)) 0 then ret (true, [])
  else if negb (is_element n) || Nat.eqb (length (children_of n)) 0 then ret (false, [])
  else
    bind (match rchild r rp with
          | Some cp => Child_loop f cp (0 :: np)
          | None => ret (true, [])
          end) (fun '(matched, sub1) =>
    if negb matched then ret (false, [])
    else
      bind (Nested_loop f rp 0 (length (r_nested r)) (0 :: np)) (fun '(matched2, sub2) =>
      if negb matched2 then ret (false, [])
      else ret (true, sub1 ++ sub2))).

Lemma eval_runs rp r np n kids :
  rget R rp = Some r -> nget D np = Some n ->
  full_ok kids ->
  (if is_element n && negb (Nat.eqb (length (children_of n)) 0) then ptr kids = Some (0 :: np) else kids = []) ->
  runs (fun f => Recursive f (Some rp) (Some np))
       (match eval_at b np kids rp r with Some inner => (true, inner) | None => (false, []) end).
Proof.
  intros Hr Hn Hok Hk.
  apply (runs_step_n _ (fun f => if b r np then rec_body rp r np n f else ret (false, []))).
  { intros f m.
    change (Recursive (S f) (Some rp) (Some np) m) with
      (bind (lift (rderef R rp)) (fun r => bind (lift (deref D np)) (fun n =>
       bind (lift (matches r np)) (fun m =>
       if negb m then ret (false, []) else rec_body rp r np n f))) m).
    rewrite (rderef_ok _ _ Hr). unfold bind, lift. cbn [obind].
    rewrite (deref_ok _ _ Hn). cbn [obind]. rewrite (local_ok _ _ _ Hn). cbn [obind].
    destruct (b r np); reflexivity. }
  unfold eval_at. destruct (b r np); [|apply runs_ret].
  unfold rec_body.
  destruct (r_child r) as [c|] eqn:Ec; [|destruct (r_nested r) as [|nr nl] eqn:En; [apply runs_ret|]].
  - (* child rules *)
    cbn [is_some negb andb].
    destruct (is_element n) eqn:Hel; cbn [negb orb andb] in *; [|subst kids; apply runs_ret].
    destruct (Nat.eqb (length (children_of n)) 0) eqn:Hlen; cbn [negb] in *; [subst kids; apply runs_ret|].
    destruct kids as [|x kids]; [discriminate|]. simpl in Hk. injection Hk as Hx.
    unfold rchild. rewrite Ec.
    assert (Hc : rget R (RChild :: rp) = Some c) by (simpl; now rewrite Hr).
    pose proof (child_loop_runs (RChild :: rp) c x kids Hc (proj1 Hok)) as HC. rewrite Hx in HC.
    eapply runs_bind; [exact HC|]. cbn beta iota.
    unfold child_part. rewrite Ec.
    destruct (has_mand (chain_of (RChild :: rp) c)); cbn [negb orb andb].
    1: destruct (nonempty (groups (chain_of (RChild :: rp) c) (x :: kids))); cbn [negb]; [|apply runs_ret].
    all: destruct (nested_runs rp r (x :: kids) (0 :: np) Hr Hok) as [m [Hm1 Hm2]];
      [simpl; congruence|];
      (eapply (runs_bind _ (fun f '(matched2, sub2) => if negb matched2 then ret (false, []) else ret (true, _ ++ sub2)));
        [exact Hm1|]); cbn beta iota;
      destruct (nested_part (x :: kids) rp 0 (r_nested r)) as [m'|]; cbn [is_some negb];
      [rewrite (Hm2 m' eq_refl)|]; apply runs_ret.
  - (* nested rules only *)
    cbn [is_some negb andb length Nat.eqb].
    destruct (is_element n) eqn:Hel; cbn [negb orb andb] in *; [|subst kids; apply runs_ret].
    destruct (Nat.eqb (length (children_of n)) 0) eqn:Hlen; cbn [negb] in *; [subst kids; apply runs_ret|].
    destruct kids as [|x kids]; [discriminate|].
    unfold rchild. rewrite Ec.
    eapply (runs_bind (fun _ => ret (true, []))); [apply runs_ret|]. cbn beta iota.
    unfold child_part. rewrite Ec. cbn [negb].
    destruct (nested_runs rp r (x :: kids) (0 :: np) Hr Hok Hk) as [m [Hm1 Hm2]]. rewrite En in Hm1, Hm2.
    eapply (runs_bind _ (fun f '(matched2, sub2) => if negb matched2 then ret (false, []) else ret (true, [] ++ sub2)));
      [exact Hm1|]. cbn beta iota.
    destruct (nested_part (x :: kids) rp 0 (nr :: nl)) as [m'|]; cbn [is_some negb];
      [rewrite (Hm2 m' eq_refl)|]; apply runs_ret.
Qed.

Lemma ptr_sem_list l p : ptr (sem_list l 0 p) = match l with [] => None | _ => Some (0 :: p) end.
Proof. destruct l; simpl; [reflexivity|now rewrite it_path_sem]. Qed.

Lemma full_nil : full_ok [].
Proof. repeat split; constructor. Qed.

Lemma sem_ok t : forall p, nget D p = Some t -> item_ok (sem t p) /\ below_ok (sem t p).
Proof.
  induction t as [t IH] using node_ind2. intros p Hp.
  assert (Hkids : full_ok (kids_of t p)).
  { destruct t as [| ? ? ? cs| | | | |]; try apply full_nil.
    eapply (sem_list_full (NElement t orig attrs cs)); eauto.
    intros j c Hc. rewrite Forall_forall in IH. apply IH; [now apply nth_error_In with j|].
    simpl. rewrite Hp. exact Hc. }
  assert (Hptr : if is_element t && negb (Nat.eqb (length (children_of t)) 0)
                 then ptr (kids_of t p) = Some (0 :: p) else kids_of t p = []).
  { destruct t as [| ? ? ? cs| | | | |]; try reflexivity.
    cbn [is_element andb children_of]. destruct cs as [|c cs]; simpl; [reflexivity|].
    now rewrite it_path_sem. }
  split.
  - intros rp r Hr. rewrite sem_unfold. cbn [it_eval it_path].
    eapply eval_runs; eauto.
  - exists t. rewrite it_path_sem. split; [exact Hp|]. intros rp r Hr.
    rewrite sem_unfold. cbn [it_below].
    destruct t as [| ? ? ? cs| | | | |]; try apply runs_ret.
    cbn [is_element andb children_of] in *. destruct cs as [|c cs].
    + simpl. apply runs_ret.
    + cbn [length Nat.eqb negb] in *. rewrite <- Hptr. apply Save_runs; auto.
      discriminate.
Qed.

Lemma sibling_items_full p t :
  nget D p = Some t -> p <> [] ->
  full_ok (sibling_items b D p) /\ ptr (sibling_items b D p) = Some p.
Proof.
  intros Hp Hne. destruct p as [|i pp]; [congruence|]. unfold sibling_items.
  cbn [nget] in Hp. destruct (nget D pp) as [par|] eqn:Hpar; [|discriminate].
  assert (Hk : forall j c, nth_error (children_of par) j = Some c ->
     item_ok (sem c (j :: pp)) /\ below_ok (sem c (j :: pp))).
  { intros j c Hc. apply sem_ok. simpl. now rewrite Hpar. }
  destruct (is_element par) eqn:Hel.
  - split; [eapply sem_list_full; eauto|].
    assert (Hs : skipn i (children_of par) = t :: skipn (S i) (children_of par)).
    { clear - Hp. revert i Hp. induction (children_of par) as [|c l IH]; intros [|i] Hp; simpl in *; try discriminate.
      - injection Hp as ->. reflexivity.
      - now apply IH. }
    rewrite Hs. simpl. now rewrite it_path_sem.
  - rewrite Hp. split; [|simpl; now rewrite it_path_sem].
    destruct (Hk i t Hp) as [H1 H2].
    split; [repeat split|repeat constructor; auto].
    + simpl. rewrite it_path_sem. unfold NextNode, deref. cbn [nget]. rewrite Hpar, Hp. cbn [obind].
      now rewrite Hel.
    + simpl. repeat constructor. auto.
    + repeat constructor. auto.
Qed.

(** The whole search. *)
Theorem search_runs p t :
  nget D p = Some t -> p <> [] ->
  runs (fun f => Save f (Some []) (Some p)) (save (sibling_items b D p) [] R).
Proof.
  intros Hp Hne. destruct (sibling_items_full p t Hp Hne) as [Hf Hptr].
  rewrite <- Hptr. apply Save_runs; auto.
  intros E. rewrite E in Hptr. discriminate.
Qed.

End Refine.
