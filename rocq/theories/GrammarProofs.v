(** From the checked certificate to the language of the machine. *)

From Coq Require Import Ascii String NArith ZArith Bool List Lia.
From Verif Require Import Base Regular RegularProofs Arrays ParserTables Parser MachineRows
  Grammar GrammarCheck GrammarSpec.
Import ListNotations.

(** ** Words as actions and characters in turn *)

Fixpoint weave (ls : list (list N)) (x : str) : list item :=
  match ls, x with
  | l :: ls', c :: x' => map IAct l ++ IChr c :: weave ls' x'
  | _, _ => []
  end.

Lemma chars_weave ls : forall x, length ls = length x -> chars (weave ls x) = x.
Proof.
  induction ls as [|l ls IH]; intros [|c x] H; try discriminate; [reflexivity|]. cbn [weave].
  rewrite chars_app, chars_acts. cbn. f_equal. apply IH. now injection H.
Qed.

(** Every word with enough characters has this form. *)
Lemma weave_split x : forall w y, chars w = x ++ y -> exists ls v, length ls = length x /\ w = weave ls x ++ v /\ chars v = y.
Proof.
  induction x as [|c x IH]; intros w y H.
  - exists [], w. auto.
  - destruct (first_char w c (x ++ y) H) as [l [w' [-> Hw]]]. destruct (IH w' y Hw) as [ls [v [H1 [-> H3]]]].
    exists (l :: ls), v. cbn. rewrite H1, <- app_assoc. auto.
Qed.

Lemma last_marks_char u v c : last_marks (u ++ IChr c :: v) = last_marks v.
Proof.
  induction u as [|[a|d] u IH]; cbn; [reflexivity| |exact IH].
  rewrite existsb_app. cbn. rewrite orb_true_r. exact IH.
Qed.
Lemma last_marks_acts l : last_marks (map IAct l) = l.
Proof.
  induction l as [|a l IH]; [reflexivity|]. cbn. rewrite IH.
  replace (existsb _ (map IAct l)) with false; [reflexivity|]. clear. induction l; auto.
Qed.
Lemma last_marks_weave ls : forall x l, length ls = length x -> last_marks (weave ls x ++ map IAct l) = l.
Proof.
  induction ls as [|k ls IH]; intros [|c x] l H; try discriminate; [apply last_marks_acts|].
  cbn [weave]. rewrite <- app_assoc. cbn [app]. rewrite last_marks_char. apply IH. now injection H.
Qed.

Lemma weave_last x : forall w, chars w = x -> exists ls l, length ls = length x /\ w = weave ls x ++ map IAct l.
Proof.
  intros w H. destruct (weave_split x w []) as [ls [v [H1 [-> H3]]]]; [now rewrite app_nil_r|].
  exists ls, (marks v). split; [exact H1|]. f_equal. now apply no_chars.
Qed.

Lemma weave_snoc ls x l c : length ls = length x -> weave (ls ++ [l]) (x ++ [c]) = weave ls x ++ map IAct l ++ [IChr c].
Proof.
  revert x. induction ls as [|k ls IH]; intros [|d x] H; try discriminate; [reflexivity|].
  cbn [weave app]. rewrite <- app_assoc. cbn. rewrite IH by now injection H. reflexivity.
Qed.

(** ** What the check gives *)

Lemma overlap_of m m' c : has m c = true -> has m' c = true -> overlap m m' = true.
Proof.
  intros H H'. unfold overlap. destruct (N.eqb_spec (N.land m m') 0) as [E|]; [|reflexivity].
  assert (X : has (N.land m m') c = true) by now rewrite has_land, H, H'. rewrite E, has_0 in X. discriminate.
Qed.

Lemma subset_of m m' c : (N.ldiff m m' =? 0)%N = true -> has m c = true -> has m' c = true.
Proof.
  intros H Hc. apply N.eqb_eq in H. assert (X : has (N.ldiff m m') c = has 0 c) by now rewrite H.
  rewrite has_ldiff, Hc, has_0 in X. now destruct (has m' c).
Qed.

Section Certified.

Variable r : lre.
Variable cert : ptrie (list (list N)).
Variable acts_ok : list (list N) -> list N -> bool.

Hypothesis Hexpr : expression_ok r = true.
Hypothesis Hcheck : check_all (table_of r) cert acts_ok = true.
Hypothesis Hstart : threads cert hext_start = [first_thread r].
Hypothesis Hstar : match r with LStar _ _ => True | _ => False end.

Notation tbl := (table_of r).
Notation ths := (threads cert).

Lemma expr_parts : increasing (map fst (subs r)) = true /\ stars_ok r = true /\ live r = true.
Proof. unfold expression_ok in Hexpr. apply andb_true_iff in Hexpr as [H H3]. apply andb_true_iff in H as [H1 H2]. auto. Qed.

Definition state (q : N) : Prop := (q < N.of_nat state_count)%N /\ q <> hext_error.

Lemma checked q : state q -> check_state tbl cert acts_ok q = true.
Proof.
  intros [H H0]. pose proof (proj1 (forallb_forall _ _) Hcheck q (below_spec _ _ H)) as X. cbn beta in X.
  apply orb_true_iff in X as [X|X]; [|exact X]. now apply N.eqb_eq in X.
Qed.

Lemma pget_fill_in {A} (l : list (N * A)) : forall t i v, nget (pfill t l) i = Some v -> In i (map fst l) \/ nget t i = Some v.
Proof.
  induction l as [|[j u] l IH]; intros t i v H; [auto|]. cbn [pfill map fst In] in *.
  apply IH in H as [H|H]; [auto|]. destruct (N.eq_dec j i) as [->|Hne]; [auto|]. right.
  unfold nget in *. rewrite pget_set_other in H; [exact H|]. intros E. apply Hne.
  rewrite <- (N.pos_pred_succ j), <- (N.pos_pred_succ i). now rewrite E.
Qed.

Lemma pget_leaf {A} i : nget (@PLeaf A) i = None.
Proof. reflexivity. Qed.

Lemma threads_known q t : state q -> In t (ths q) -> known r t.
Proof.
  intros Hq Ht i Hi. pose proof (checked q Hq) as H. unfold check_state in H.
  apply andb_true_iff in H as [H _]. apply andb_true_iff in H as [H _].
  apply (proj1 (forallb_forall _ _)) with (x := t) in H; [|exact Ht].
  apply (proj1 (forallb_forall _ _)) with (x := i) in H; [|exact Hi].
  unfold known_label in H. destruct (nget tbl i) as [x|] eqn:E; [|discriminate].
  apply pget_fill_in in E as [E|E]; [exact E|discriminate].
Qed.

Lemma threads_ok q t : state q -> In t (ths q) -> thread_ok tbl t.
Proof. intros Hq Ht. destruct expr_parts as [H1 [H2 H3]]. apply known_ok; auto. now apply (threads_known q). Qed.

Lemma threads_live q t : state q -> In t (ths q) -> exists w, Lt tbl t w.
Proof. intros Hq Ht. destruct expr_parts as [H1 [H2 H3]]. apply known_live; auto. now apply (threads_known q). Qed.

(** The parts of the grammar that accept [c] in state [q]. *)
Definition parts_at (q : N) (c : ascii) (p : part) : Prop :=
  In p (successors tbl (ths q)) /\ has (snd (fst p)) c = true.

Lemma part_of_thread q c t l m k : In t (ths q) -> In (l, m, k) (tlf tbl t) -> has m c = true -> parts_at q c (l, m, k).
Proof. intros Ht Hp Hm. split; [|exact Hm]. apply in_flat_map. eauto. Qed.

Lemma part_thread q c l m k : parts_at q c (l, m, k) -> exists t, In t (ths q) /\ In (l, m, k) (tlf tbl t) /\ has m c = true.
Proof. intros [H Hm]. apply in_flat_map in H as [t [Ht H]]. eauto. Qed.

Lemma machine_parts q c : state q -> exists q' acts,
  machine_step q c = Ok (q', acts) /\
  ((q' = hext_error /\ acts = [88%N] /\ forall p, ~ parts_at q c p) \/
   (state q' /\ (exists p, parts_at q c p) /\
    (forall p, parts_at q c p -> In (snd p) (ths q')) /\
    (forall t, In t (ths q') -> exists p, parts_at q c p /\ snd p = t) /\
    (exists ls, acts_ok ls acts = true /\ forall l, In l ls <-> exists p, parts_at q c p /\ fst (fst p) = l))).
Proof.
  intros Hq. destruct (row_step q c (proj1 Hq)) as [e [He [Hm [Hto Hs]]]]. exists (e_to e), (e_acts e).
  split; [exact Hs|]. pose proof (checked q Hq) as H. unfold check_state in H.
  apply andb_true_iff in H as [H _]. apply andb_true_iff in H as [_ H].
  apply (proj1 (forallb_forall _ _)) with (x := e) in H; [|exact He].
  apply orb_true_iff in H as [H|H].
  { apply N.eqb_eq in H. rewrite H, has_0 in Hm. discriminate. }
  unfold entry_ok in H. set (ps' := filter _ _) in H.
  assert (Hps : forall p, parts_at q c p -> In p ps').
  { intros p [H1 H2]. apply filter_In. split; [exact H1|]. now apply (overlap_of _ _ c). }
  destruct ps' as [|p0 ps0] eqn:Eps.
  - left. apply andb_true_iff in H as [H1 H2]. apply N.eqb_eq in H1. apply thread_eqb_eq in H2.
    split; [exact H1|]. split; [exact H2|]. intros p Hp. exact (Hps p Hp).
  - right. rewrite <- Eps in *. apply andb_true_iff in H as [H Hacts]. apply andb_true_iff in H as [Hne H].
    apply andb_true_iff in H as [H1 H2]. apply negb_true_iff, N.eqb_neq in Hne.
    assert (Hps' : forall p, In p ps' -> parts_at q c p).
    { intros p Hp. pose proof (proj1 (forallb_forall _ _) H1 p Hp) as X. cbn beta in X. apply andb_true_iff in X as [_ X].
      unfold ps' in Hp. apply filter_In in Hp as [Hp _]. split; [exact Hp|]. now apply (subset_of (e_mask e)). }
    split; [split; auto|]. split; [exists p0; apply Hps'; rewrite Eps; now left|]. split; [|split].
    + intros p Hp. pose proof (proj1 (forallb_forall _ _) H1 p (Hps p Hp)) as X. cbn beta in X.
      apply andb_true_iff in X as [X _]. now apply thread_in_spec in X.
    + intros t Ht. pose proof (proj1 (forallb_forall _ _) H2 t Ht) as X. cbn beta in X. apply thread_in_spec in X.
      apply in_map_iff in X as [p [<- Hp]]. exists p. split; [now apply Hps'|reflexivity].
    + exists (map (fun p : part => fst (fst p)) ps'). split; [exact Hacts|]. intros l. rewrite in_map_iff. split.
      * intros [p [<- Hp]]. exists p. split; [now apply Hps'|reflexivity].
      * intros [p [Hp <-]]. exists p. split; [reflexivity|now apply Hps].
Qed.

Lemma machine_end q : state q -> exists acts,
  machine_eof q = Ok acts /\
  ((acts = [88%N] /\ forall t l, In t (ths q) -> ~ In l (tnulls tbl t)) \/
   ((exists t l, In t (ths q) /\ In l (tnulls tbl t)) /\
    exists ls, acts_ok ls acts = true /\ forall l, In l ls <-> exists t, In t (ths q) /\ In l (tnulls tbl t))).
Proof.
  intros Hq. pose proof (checked q Hq) as H. unfold check_state in H. apply andb_true_iff in H as [_ H].
  destruct (machine_eof q) as [acts| | |]; try discriminate. exists acts. split; [reflexivity|].
  assert (X : forall l, In l (flat_map (tnulls tbl) (ths q)) <-> exists t, In t (ths q) /\ In l (tnulls tbl t)) by (intros; apply in_flat_map).
  destruct (flat_map _ _) as [|l0 ls0] eqn:E.
  - left. apply thread_eqb_eq in H. split; [exact H|]. intros t l Ht Hl. apply (X l). eauto.
  - right. split; [|exists (l0 :: ls0); auto]. destruct (proj1 (X l0) (or_introl eq_refl)) as [t [Ht Hl]]. eauto.
Qed.

Lemma start_state : state hext_start.
Proof. split; [reflexivity|discriminate]. Qed.

(** ** Runs *)

Lemma step_not_error q c q' acts : state q -> machine_step q c = Ok (q', acts) -> q' <> hext_error -> state q'.
Proof.
  intros Hq Hs Hne. destruct (machine_parts q c Hq) as [q1 [a1 [E [[H _]|[H _]]]]]; rewrite Hs in E; injection E as -> ->.
  - contradiction.
  - exact H.
Qed.

Lemma walk_app x : forall q y tr q', walk q (x ++ y) = Some (tr, q') <->
  exists tr1 q1 tr2, walk q x = Some (tr1, q1) /\ walk q1 y = Some (tr2, q') /\ tr = tr1 ++ tr2.
Proof.
  induction x as [|c x IH]; intros q y tr q'; cbn [app walk].
  - split; [intros H; exists [], q, tr; auto|]. intros [tr1 [q1 [tr2 [[= <- <-] [H ->]]]]]. exact H.
  - destruct (machine_step q c) as [[q0 acts]| | |]; [|split; [discriminate|intros [? [? [? [X ?]]]]; discriminate]..].
    destruct (q0 =? hext_error)%N; [split; [discriminate|intros [? [? [? [X ?]]]]; discriminate]|]. split.
    + destruct (walk q0 (x ++ y)) as [[tr0 q2]|] eqn:E; [|discriminate]. intros H. injection H as <- <-.
      apply IH in E as [tr1 [q1 [tr2 [E1 [E2 ->]]]]]. exists (acts :: tr1), q1, tr2. rewrite E1. auto.
    + intros [tr1 [q1 [tr2 [E1 [E2 ->]]]]]. destruct (walk q0 x) as [[tr0 q2]|] eqn:E; [|discriminate].
      injection E1 as <- <-. assert (X : walk q0 (x ++ y) = Some (tr0 ++ tr2, q')) by (apply IH; exists tr0; eexists; exists tr2; eauto).
      now rewrite X.
Qed.

Lemma walk_length x : forall q tr q', walk q x = Some (tr, q') -> length tr = length x.
Proof.
  induction x as [|c x IH]; intros q tr q' H; cbn in H; [now injection H as <- <-|].
  destruct (machine_step q c) as [[q0 acts]| | |]; try discriminate.
  destruct (q0 =? hext_error)%N; [discriminate|]. destruct (walk q0 x) as [[tr0 q2]|] eqn:E; [|discriminate].
  injection H as <- <-. cbn. f_equal. eauto.
Qed.

Lemma walk_state x : forall q tr q', state q -> walk q x = Some (tr, q') -> state q'.
Proof.
  induction x as [|c x IH]; intros q tr q' Hq H; cbn in H; [now injection H as <- <-|].
  destruct (machine_step q c) as [[q0 acts]| | |] eqn:Es; try discriminate.
  destruct (N.eqb_spec q0 hext_error) as [|Hne]; [discriminate|].
  destruct (walk q0 x) as [[tr0 q2]|] eqn:E; [|discriminate]. injection H as <- <-.
  apply (IH q0 tr0); [|exact E]. now apply (step_not_error q c q0 acts).
Qed.

(** Every thread of the state that is reached comes from the grammar. *)
Lemma walk_sound x : forall q tr q', state q -> walk q x = Some (tr, q') ->
  forall t', In t' (ths q') -> exists t ls, In t (ths q) /\ length ls = length x /\
    forall v, Lt tbl t' v -> Lt tbl t (weave ls x ++ v).
Proof.
  induction x as [|c x IH]; intros q tr q' Hq H t' Ht'; cbn in H.
  - injection H as <- <-. exists t', []. auto.
  - destruct (machine_parts q c Hq) as [q0 [acts [Es Hp]]]. rewrite Es in H.
    destruct (N.eqb_spec q0 hext_error) as [|Hne]; [discriminate|].
    destruct Hp as [[H0 _]|[Hq0 [_ [_ [Hback _]]]]]; [contradiction|].
    destruct (walk q0 x) as [[tr0 q2]|] eqn:E; [|discriminate]. injection H as <- <-.
    destruct (IH q0 tr0 q2 Hq0 E t' Ht') as [t0 [ls [Ht0 [Hl Hw]]]].
    destruct (Hback t0 Ht0) as [[[l m] k] [Hpart Ek]]. cbn in Ek. subst k.
    destruct (part_thread q c l m t0 Hpart) as [t [Ht [Hin Hm]]].
    exists t, (l :: ls). split; [exact Ht|]. split; [cbn; now rewrite Hl|]. intros v Hv. cbn [weave].
    rewrite <- app_assoc. cbn [app]. apply (thread_step_back tbl t l m t0); auto. now apply (threads_ok q).
Qed.

(** Every word of a thread can be followed. *)
Lemma walk_complete x : forall q t ls v, state q -> In t (ths q) -> length ls = length x ->
  Lt tbl t (weave ls x ++ v) ->
  exists tr q' t', walk q x = Some (tr, q') /\ In t' (ths q') /\ Lt tbl t' v.
Proof.
  induction x as [|c x IH]; intros q t ls v Hq Ht Hl Hw.
  - destruct ls; [|discriminate]. exists [], q, t. auto.
  - destruct ls as [|l ls]; [discriminate|]. injection Hl as Hl. cbn [weave] in Hw. rewrite <- app_assoc in Hw. cbn [app] in Hw.
    assert (Hc : chars (map IAct l ++ IChr c :: weave ls x ++ v) = c :: x ++ chars v).
    { rewrite chars_app, chars_acts. cbn. f_equal. rewrite chars_app. f_equal. now apply chars_weave. }
    destruct (thread_step tbl t _ c _ (threads_ok q t Hq Ht) Hc Hw) as [l' [m [k [w' [Hin [Hm [Ew [_ Hk]]]]]]]].
    apply first_char_unique in Ew as [<- [_ <-]].
    destruct (machine_parts q c Hq) as [q0 [acts [Es Hp]]].
    pose proof (part_of_thread q c t l m k Ht Hin Hm) as Hpart.
    destruct Hp as [[_ [_ Hno]]|[Hq0 [_ [Hfwd _]]]]; [now apply Hno in Hpart|].
    destruct (IH q0 k ls v Hq0 (Hfwd _ Hpart) Hl Hk) as [tr [q' [t' [E [Ht' Hv]]]]].
    exists (acts :: tr), q', t'. cbn [walk]. rewrite Es. destruct (N.eqb_spec q0 hext_error) as [H0|_].
    + now destruct Hq0.
    + rewrite E. auto.
Qed.

(** If all branches agree on the actions, the machine runs those of the word. *)
Lemma walk_exact x : (forall ls acts, acts_ok ls acts = true -> forall l, In l ls -> l = acts) ->
  forall q t ls v tr q', state q -> In t (ths q) -> length ls = length x ->
  Lt tbl t (weave ls x ++ v) -> walk q x = Some (tr, q') -> tr = ls.
Proof.
  intros Hsame. induction x as [|c x IH]; intros q t ls v tr q' Hq Ht Hl Hw E.
  - destruct ls; [|discriminate]. cbn in E. now injection E as <- <-.
  - destruct ls as [|l ls]; [discriminate|]. injection Hl as Hl. cbn [weave] in Hw. rewrite <- app_assoc in Hw. cbn [app] in Hw.
    assert (Hc : chars (map IAct l ++ IChr c :: weave ls x ++ v) = c :: x ++ chars v).
    { rewrite chars_app, chars_acts. cbn. f_equal. rewrite chars_app. f_equal. now apply chars_weave. }
    destruct (thread_step tbl t _ c _ (threads_ok q t Hq Ht) Hc Hw) as [l' [m [k [w' [Hin [Hm [Ew [_ Hk]]]]]]]].
    apply first_char_unique in Ew as [<- [_ <-]].
    destruct (machine_parts q c Hq) as [q0 [acts [Es Hp]]].
    pose proof (part_of_thread q c t l m k Ht Hin Hm) as Hpart.
    destruct Hp as [[_ [_ Hno]]|[Hq0 [_ [Hfwd [_ [ls0 [Ha Hls]]]]]]]; [now apply Hno in Hpart|].
    cbn [walk] in E. rewrite Es in E. destruct (N.eqb_spec q0 hext_error) as [H0|_]; [discriminate|].
    destruct (walk q0 x) as [[tr0 q2]|] eqn:E0; [|discriminate]. injection E as <- <-. f_equal.
    + symmetry. apply (Hsame ls0 acts Ha). apply Hls. exists (l, m, k). auto.
    + apply (IH q0 k ls v tr0 q2 Hq0 (Hfwd _ Hpart) Hl Hk E0).
Qed.

(** ** From the start *)

Lemma first_thread_words w : Lt tbl (first_thread r) w <-> L (erase r) w.
Proof.
  clear Hcheck Hstart. destruct expr_parts as [H1 [H2 H3]].
  destruct r as [| | | | |i x|] eqn:Er; try (now destruct Hstar). cbn [first_thread]. rewrite <- Er in *.
  rewrite Er at 2. apply (Lt_one (table_of r) i (LStar i x)). apply table_get; [exact H1|]. rewrite Er. now left.
Qed.

Lemma in_start t : In t (ths hext_start) <-> t = first_thread r.
Proof. rewrite Hstart. cbn. intuition. Qed.

Theorem consumed x : (exists tr q, walk hext_start x = Some (tr, q)) <-> prefix_of (erase r) x.
Proof.
  split.
  - intros [tr [q H]]. pose proof (walk_state x _ _ _ start_state H) as Hq.
    assert (exists t, In t (ths q)) as [t Ht].
    { destruct x as [|c x _] using rev_ind.
      - cbn in H. injection H as <- <-. exists (first_thread r). now apply in_start.
      - apply walk_app in H as [tr1 [q1 [tr2 [H1 [H2 ->]]]]]. pose proof (walk_state x _ _ _ start_state H1) as Hq1.
        cbn in H2. destruct (machine_parts q1 c Hq1) as [q0 [acts [Es Hp]]]. rewrite Es in H2.
        destruct (N.eqb_spec q0 hext_error) as [|Hne]; [discriminate|]. injection H2 as <- <-.
        destruct Hp as [[H0 _]|[Hq0 [[p Hp] [Hf _]]]]; [contradiction|]. exists (snd p). auto. }
    destruct (walk_sound x _ _ _ start_state H t Ht) as [t0 [ls [Ht0 [Hl Hw]]]]. apply in_start in Ht0. subst t0.
    destruct (threads_live q t Hq Ht) as [v Hv]. exists (chars v), (weave ls x ++ v). split.
    + apply first_thread_words. now apply Hw.
    + rewrite chars_app. f_equal. now apply chars_weave.
  - intros [y [w [Hw Hc]]]. destruct (weave_split x w y Hc) as [ls [v [Hl [-> Hv]]]].
    apply first_thread_words in Hw.
    destruct (walk_complete x hext_start (first_thread r) ls v start_state) as [tr [q' [t' [E _]]]]; auto; [now apply in_start|eauto].
Qed.

(** The actions of the last of the characters read. *)
Theorem parts_before x tr q c : walk hext_start x = Some (tr, q) ->
  forall l, (exists p, parts_at q c p /\ fst (fst p) = l) <->
            exists u v, L (erase r) (u ++ IChr c :: v) /\ chars u = x /\ last_marks u = l.
Proof.
  intros H l. pose proof (walk_state x _ _ _ start_state H) as Hq. split.
  - intros [[[l' m] k] [Hp El]]. cbn in El. subst l'. destruct (part_thread q c l m k Hp) as [t [Ht [Hin Hm]]].
    destruct (walk_sound x _ _ _ start_state H t Ht) as [t0 [ls [Ht0 [Hl Hw]]]]. apply in_start in Ht0. subst t0.
    destruct expr_parts as [H1 [H2 H3]].
    assert (Hk : known r k) by (apply (tlf_known r H1 t (threads_known q t Hq Ht) l m k Hin)).
    destruct (known_live r H1 H2 H3 k Hk) as [v Hv].
    exists (weave ls x ++ map IAct l), v. split; [|split].
    + apply first_thread_words. rewrite <- app_assoc. apply Hw. apply (thread_step_back tbl t l m k); auto. now apply (threads_ok q).
    + rewrite chars_app, chars_acts, app_nil_r. now apply chars_weave.
    + now apply last_marks_weave.
  - intros [u [v [Hw [Hc Hl]]]]. destruct (weave_last x u Hc) as [ls [l' [Hls ->]]].
    rewrite last_marks_weave in Hl by exact Hls. subst l'. rewrite <- app_assoc in Hw. apply first_thread_words in Hw.
    destruct (walk_complete x hext_start (first_thread r) ls _ start_state (proj2 (in_start _) eq_refl) Hls Hw) as [tr' [q' [t' [E [Ht' Hv]]]]].
    rewrite H in E. injection E as <- <-.
    assert (Hcv : chars (map IAct l ++ IChr c :: v) = c :: chars v) by now rewrite chars_app, chars_acts.
    destruct (thread_step tbl t' _ c _ (threads_ok q t' Hq Ht') Hcv Hv) as [l' [m [k [w' [Hin [Hm [Ew [_ Hk]]]]]]]].
    apply first_char_unique in Ew as [<- [_ <-]]. exists (l, m, k). split; [|reflexivity].
    now apply (part_of_thread q c t').
Qed.

Theorem parts_after x tr q : walk hext_start x = Some (tr, q) ->
  forall l, (exists t, In t (ths q) /\ In l (tnulls tbl t)) <->
            exists w, L (erase r) w /\ chars w = x /\ last_marks w = l.
Proof.
  intros H l. pose proof (walk_state x _ _ _ start_state H) as Hq. split.
  - intros [t [Ht Hl]]. destruct (walk_sound x _ _ _ start_state H t Ht) as [t0 [ls [Ht0 [Hls Hw]]]]. apply in_start in Ht0. subst t0.
    exists (weave ls x ++ map IAct l). split; [|split].
    + apply first_thread_words, Hw. apply thread_end_back; [now apply (threads_ok q)|exact Hl].
    + rewrite chars_app, chars_acts, app_nil_r. now apply chars_weave.
    + now apply last_marks_weave.
  - intros [w [Hw [Hc Hl]]]. destruct (weave_last x w Hc) as [ls [l' [Hls ->]]].
    rewrite last_marks_weave in Hl by exact Hls. subst l'. apply first_thread_words in Hw.
    destruct (walk_complete x hext_start (first_thread r) ls _ start_state (proj2 (in_start _) eq_refl) Hls Hw) as [tr' [q' [t' [E [Ht' Hv]]]]].
    rewrite H in E. injection E as <- <-. exists t'. split; [exact Ht'|].
    destruct (thread_end tbl t' _ (threads_ok q t' Hq Ht') (chars_acts l) Hv) as [l' [Hl' E]].
    assert (l' = l) as -> by (rewrite <- (marks_acts l), E; symmetry; apply marks_acts). exact Hl'.
Qed.

End Certified.

(** ** The grammar *)

Lemma start_G : threads cG hext_start = [first_thread lG].
Proof. vm_compute. reflexivity. Qed.
Lemma start_X : threads cX hext_start = [first_thread lX].
Proof. vm_compute. reflexivity. Qed.
Lemma star_G : match lG with LStar _ _ => True | _ => False end.
Proof. exact I. Qed.
Lemma star_X : match lX with LStar _ _ => True | _ => False end.
Proof. exact I. Qed.

Lemma increasing_ascending l : increasing l = true -> ascending_acts l.
Proof.
  induction l as [|a l IH]; intros H; [exact I|]. split.
  - now apply increasing_above.
  - apply IH. cbn in H. now apply andb_true_iff in H.
Qed.

Lemma union_spec ls acts : acts_union ls acts = true ->
  ascending_acts acts /\ forall a, In a acts <-> exists l, In l ls /\ In a l.
Proof.
  unfold acts_union. intros H. apply andb_true_iff in H as [H H3]. apply andb_true_iff in H as [H1 H2].
  split; [now apply increasing_ascending|]. intros a. split.
  - intros Ha. pose proof (proj1 (forallb_forall _ _) H3 a Ha) as X. cbn beta in X. apply existsb_exists in X as [l [Hl X]].
    apply existsb_exists in X as [b [Hb X]]. apply N.eqb_eq in X. subst b. eauto.
  - intros [l [Hl Ha]]. pose proof (proj1 (forallb_forall _ _) H2 l Hl) as X. cbn beta in X.
    pose proof (proj1 (forallb_forall _ _) X a Ha) as Y. cbn beta in Y. apply existsb_exists in Y as [b [Hb Y]].
    apply N.eqb_eq in Y. now subst b.
Qed.

Lemma same_spec ls acts : acts_same ls acts = true -> forall l, In l ls -> l = acts.
Proof.
  intros H l Hl. pose proof (proj1 (forallb_forall _ _) H l Hl) as X. symmetry. now apply thread_eqb_eq.
Qed.

Theorem G_consumed x : (exists tr q, walk hext_start x = Some (tr, q)) <-> prefix_of G x.
Proof. rewrite <- erase_lG. exact (consumed lG cG acts_union lG_ok check_G start_G star_G x). Qed.

Theorem G_step x tr q c : walk hext_start x = Some (tr, q) ->
  (prefix_of G (x ++ [c]) -> exists q' acts, machine_step q c = Ok (q', acts) /\ q' <> hext_error /\
     ascending_acts acts /\ forall a, In a acts <-> embeds_before G (x ++ [c]) a) /\
  (~ prefix_of G (x ++ [c]) -> machine_step q c = Ok (hext_error, [88%N])).
Proof.
  intros H. pose proof (walk_state lG cG acts_union check_G x _ _ _ start_state H) as Hq.
  destruct (machine_parts lG cG acts_union check_G q c Hq) as [q' [acts [Es Hp]]].
  pose proof (parts_before lG cG acts_union lG_ok check_G start_G star_G x tr q c H) as HB.
  pose proof (G_consumed (x ++ [c])) as HC.
  assert (Hw : q' <> hext_error -> walk hext_start (x ++ [c]) = Some (tr ++ [acts], q')).
  { intros Hne. apply walk_app. exists tr, q, [acts]. split; [exact H|]. split; [|reflexivity]. cbn. rewrite Es.
    destruct (N.eqb_spec q' hext_error); [contradiction|reflexivity]. }
  split.
  - intros Hpre. destruct Hp as [[H0 [_ Hno]]|[Hq' [_ [_ [_ [ls [Ha Hls]]]]]]].
    + exfalso. apply HC in Hpre as [tr' [q2 E]]. apply walk_app in E as [tr1 [q1 [tr2 [E1 [E2 _]]]]].
      rewrite H in E1. injection E1 as <- <-. cbn in E2. rewrite Es, H0 in E2. discriminate.
    + exists q', acts. split; [exact Es|]. split; [apply Hq'|]. destruct (union_spec ls acts Ha) as [U1 U2]. split; [exact U1|].
      intros a. rewrite U2. unfold embeds_before. rewrite erase_lG in HB. split.
      * intros [l [Hl Hal]]. apply Hls, HB in Hl as [u [v [Hw1 [Hc Hm]]]]. exists u, c, v. subst. auto.
      * intros [u [d [v [Hw1 [Hc Hal]]]]]. apply app_inj_tail in Hc as [Hc ->]. exists (last_marks u). split; [|exact Hal].
        apply Hls, HB. eauto.
  - intros Hpre. destruct Hp as [[H0 [-> Hno]]|[Hq' _]].
    + now rewrite Es, H0.
    + exfalso. apply Hpre, HC. specialize (Hw (proj2 Hq')). eauto.
Qed.

Theorem G_trace x tr q : walk hext_start x = Some (tr, q) -> forall i acts, nth_error tr i = Some acts ->
  ascending_acts acts /\ forall a, In a acts <-> embeds_before G (firstn (S i) x) a.
Proof.
  intros H i acts Hi.
  assert (Hlen : i < length x).
  { rewrite <- (walk_length _ _ _ _ H). apply nth_error_Some. congruence. }
  destruct (nth_error x i) as [c|] eqn:Ec; [|apply nth_error_None in Ec; lia].
  assert (Hx : x = (firstn i x ++ [c]) ++ skipn (S i) x).
  { rewrite <- app_assoc. rewrite <- (firstn_skipn i x) at 1. f_equal. cbn [app].
    clear -Ec. revert i Ec. induction x as [|d x IH]; intros [|i] E; try discriminate; cbn in *; [now injection E as ->|auto]. }
  assert (Hf : firstn (S i) x = firstn i x ++ [c]).
  { clear -Ec. revert i Ec. induction x as [|d x IH]; intros [|i] E; try discriminate; [cbn in *; now injection E as ->|].
    change (d :: firstn (S i) x = d :: firstn i x ++ [c]). f_equal. now apply IH. }
  rewrite Hx in H. rewrite Hf. apply walk_app in H as [tr0 [q1 [tr3 [H0 [_ ->]]]]].
  pose proof H0 as Hpre. apply walk_app in H0 as [tr1 [q0 [tr2 [H1 [H2 ->]]]]].
  pose proof (walk_length _ _ _ _ H1) as L1. rewrite firstn_length, Nat.min_l in L1 by lia.
  destruct (G_step _ _ _ c H1) as [Hs _].
  destruct Hs as [q' [acts' [Es [Hne Ha]]]]; [apply G_consumed; eauto|].
  cbn in H2. rewrite Es in H2. destruct (N.eqb_spec q' hext_error); [contradiction|]. injection H2 as <- <-.
  rewrite <- app_assoc in Hi. rewrite nth_error_app2 in Hi by lia. rewrite L1, Nat.sub_diag in Hi. cbn in Hi. injection Hi as <-. exact Ha.
Qed.

Theorem G_end x tr q : walk hext_start x = Some (tr, q) ->
  (text_of G x -> exists acts, machine_eof q = Ok acts /\ ascending_acts acts /\ forall a, In a acts <-> embeds_after G x a) /\
  (~ text_of G x -> machine_eof q = Ok [88%N]).
Proof.
  intros H. pose proof (walk_state lG cG acts_union check_G x _ _ _ start_state H) as Hq.
  destruct (machine_end lG cG acts_union check_G q Hq) as [acts [Ee Hp]].
  pose proof (parts_after lG cG acts_union lG_ok check_G start_G star_G x tr q H) as HA. rewrite erase_lG in HA. split.
  - intros [w [Hw Hc]]. exists acts. split; [exact Ee|]. destruct Hp as [[_ Hno]|[_ [ls [Ha Hls]]]].
    + exfalso. destruct (proj2 (HA (last_marks w))) as [t [Ht Hl]]; [eauto|]. now apply (Hno t (last_marks w)).
    + destruct (union_spec ls acts Ha) as [U1 U2]. split; [exact U1|]. intros a. rewrite U2. unfold embeds_after. split.
      * intros [l [Hl Hal]]. apply Hls, HA in Hl as [w' [Hw' [Hc' <-]]]. eauto.
      * intros [w' [Hw' [Hc' Hal]]]. exists (last_marks w'). split; [|exact Hal]. apply Hls, HA. eauto.
  - intros Hno. destruct Hp as [[-> _]|[[t [l [Ht Hl]]] _]]; [exact Ee|]. exfalso. apply Hno.
    destruct (proj1 (HA l)) as [w [Hw [Hc _]]]; [eauto|]. exists w. auto.
Qed.

(** ** The exact grammar *)

Theorem X_run w : L G_exact w -> exists tr q l,
  walk hext_start (chars w) = Some (tr, q) /\ machine_eof q = Ok l /\ w = weave tr (chars w) ++ map IAct l.
Proof.
  intros Hw. destruct (weave_last _ w eq_refl) as [ls [l [Hls Ew]]].
  assert (Hw1 : Lt (table_of lX) (first_thread lX) (weave ls (chars w) ++ map IAct l)).
  { apply (first_thread_words lX lX_ok star_X). rewrite erase_lX, <- Ew. exact Hw. }
  assert (Hin : In (first_thread lX) (threads cX hext_start)) by now apply (in_start lX cX start_X).
  destruct (walk_complete lX cX acts_same lX_ok check_X _ hext_start (first_thread lX) ls (map IAct l) start_state Hin Hls Hw1)
    as [tr [q [t [E [Ht Hv]]]]].
  pose proof (walk_exact lX cX acts_same lX_ok check_X _ same_spec _ _ _ _ _ _ start_state Hin Hls Hw1 E) as ->.
  exists ls, q, l. split; [exact E|]. split; [|exact Ew].
  pose proof (walk_state lX cX acts_same check_X _ _ _ _ start_state E) as Hq.
  destruct (machine_end lX cX acts_same check_X q Hq) as [acts [Ee Hp]]. rewrite Ee. f_equal.
  destruct (thread_end (table_of lX) t _ (threads_ok lX cX acts_same lX_ok check_X q t Hq Ht) (chars_acts l) Hv) as [l' [Hl' El]].
  assert (l' = l) as -> by (rewrite <- (marks_acts l), El; symmetry; apply marks_acts).
  destruct Hp as [[_ Hno]|[_ [ls' [Ha Hls']]]]; [now apply Hno in Hl'|]. symmetry. apply (same_spec ls' acts Ha). apply Hls'. eauto.
Qed.

Theorem X_text x tr q l : walk hext_start x = Some (tr, q) -> machine_eof q = Ok l ->
  l = [88%N] \/ L G_exact (weave tr x ++ map IAct l).
Proof.
  intros H He. pose proof (walk_state lX cX acts_same check_X _ _ _ _ start_state H) as Hq.
  destruct (machine_end lX cX acts_same check_X q Hq) as [acts [Ee Hp]]. rewrite He in Ee. injection Ee as <-.
  destruct Hp as [[-> _]|[[t [l0 [Ht Hl0]]] _]]; [now left|right].
  destruct (proj1 (parts_after lX cX acts_same lX_ok check_X start_X star_X x tr q H l0)) as [w [Hw [Hc Hm]]]; [eauto|].
  rewrite erase_lX in Hw. destruct (X_run w Hw) as [tr' [q' [l' [E [Ee Ew]]]]]. rewrite Hc in *. rewrite H in E. injection E as <- <-.
  rewrite He in Ee. injection Ee as <-. now rewrite <- Ew.
Qed.
