(** Proofs about rules when memory is refused. *)

From Coq Require Import Ascii String NArith ZArith Bool List Lia Permutation.
From Verif Require Import Base Tags Values Match Rule RuleMatching RuleProofs RuleHeap RuleHeapSpec PermTac RuleHeapProofs RuleHeapOps RuleHeapMain
  NoMemory NoMemorySpec.
Import ListNotations.
Open Scope outcome_scope.

Section NoMemory.
Variable rest : str -> str.
Variable grants : nat -> bool.

Notation refused := (first_refused grants).

(** [m] asks [k] times. If all is granted the result and the heap are in [Q];
    otherwise it stops at the first refusal, with a heap in [R], or the process
    ends, if the refused one is in [T]. *)
Definition does {A} (m : act A) (h : heap) (k : nat) (Q : A -> heap -> Prop) (R : heap -> Prop) (T : nat -> bool) : Prop :=
  forall n, exists r h' n', m (mk_world h n) = Ok (r, mk_world h' n') /\
    match refused n k with
    | None => n' = n + k /\ exists x, r = Got x /\ Q x h'
    | Some j => n' = j + 1 /\ (if T (j - n) then r = Terminated else r = NoMemory /\ R h')
    end.

Lemma refused_range k : forall n j, refused n k = Some j -> n <= j < n + k.
Proof.
  induction k as [|k IH]; intros n j; cbn [first_refused]; [discriminate|]. destruct (grants n).
  - intros H. apply IH in H. lia.
  - intros H. injection H as <-. lia.
Qed.

Lemma refused_app k1 : forall n k2, refused n (k1 + k2) =
  match refused n k1 with Some j => Some j | None => refused (n + k1) k2 end.
Proof.
  induction k1 as [|k1 IH]; intros n k2; cbn [first_refused Nat.add]; [now rewrite Nat.add_0_r|].
  destruct (grants n); [|reflexivity]. rewrite IH. now rewrite Nat.add_succ_r.
Qed.

Definition alive_still : nat -> bool := fun _ => false.

Lemma does_bind {A B} (m : act A) (f : A -> act B) h k1 k2 Q Q2 R T :
  does m h k1 Q R T -> (forall x h', Q x h' -> does (f x) h' k2 Q2 R (fun i => T (k1 + i))) ->
  does (andthen m f) h (k1 + k2) Q2 R T.
Proof.
  intros H1 H2 n. destruct (H1 n) as [r [h' [n' [E HR]]]]. unfold andthen. rewrite E. cbn [obind]. rewrite refused_app.
  destruct (refused n k1) as [j|] eqn:E1.
  - destruct HR as [-> HR]. destruct (T (j - n)) eqn:ET.
    + subst r. exists Terminated, h', (j + 1). split; [reflexivity|]. split; reflexivity.
    + destruct HR as [-> HR]. exists NoMemory, h', (j + 1). split; [reflexivity|]. split; [reflexivity|]. auto.
  - destruct HR as [-> [x [-> HQ]]]. destruct (H2 x h' HQ (n + k1)) as [r2 [h2 [n2 [E2 HR2]]]]. exists r2, h2, n2. split; [exact E2|].
    destruct (refused (n + k1) k2) as [j|] eqn:E3.
    + apply refused_range in E3. replace (j - n) with (k1 + (j - (n + k1))) by lia. exact HR2.
    + destruct HR2 as [-> HR2]. split; [lia|exact HR2].
Qed.

Lemma does_got {A} (x : A) h (Q : A -> heap -> Prop) R T : Q x h -> does (got x) h 0 Q R T.
Proof. intros H n. exists (Got x), h, n. split; [reflexivity|]. cbn [first_refused]. split; [lia|]. eauto. Qed.

Lemma does_quiet {A} f h (x : A) h' (Q : A -> heap -> Prop) R T : f h = Ok (x, h') -> Q x h' -> does (quiet f) h 0 Q R T.
Proof.
  intros E H n. exists (Got x), h', n. unfold quiet. cbn [w_heap w_asked]. rewrite E. split; [reflexivity|]. cbn [first_refused].
  split; [lia|]. eauto.
Qed.

Lemma does_quietly f h h' (Q : unit -> heap -> Prop) R T : f h = Ok h' -> Q tt h' -> does (quietly f) h 0 Q R T.
Proof. intros E H. unfold quietly. apply does_quiet with (x := tt) (h' := h'); [rewrite E; reflexivity|exact H]. Qed.

Lemma does_request h (Q : unit -> heap -> Prop) (R : heap -> Prop) T : Q tt h -> T 0 = false -> R h -> does (request grants) h 1 Q R T.
Proof.
  intros H HT HR n. unfold request. cbn [w_asked w_heap]. cbn [first_refused]. destruct (grants n).
  - exists (Got tt), h, (S n). split; [reflexivity|]. split; [lia|]. eauto.
  - exists NoMemory, h, (S n). split; [reflexivity|]. split; [lia|]. rewrite Nat.sub_diag, HT. auto.
Qed.

Lemma does_request_if b h (Q : unit -> heap -> Prop) (R : heap -> Prop) T : Q tt h -> T 0 = false -> R h ->
  does (request_if grants b) h (one_if b) Q R T.
Proof. destruct b; [apply does_request|]. intros H _ _. now apply does_got. Qed.

Lemma does_undo {A} (m : act A) f h k Q (R R2 : heap -> Prop) T :
  does m h k Q R T -> (forall h', R h' -> exists h2, f h' = Ok h2 /\ R2 h2) -> does (undo m f) h k Q R2 T.
Proof.
  intros H HF n. destruct (H n) as [r [h' [n' [E HR]]]]. unfold undo. rewrite E. cbn [obind]. destruct (refused n k) as [j|].
  - destruct HR as [-> HR]. destruct (T (j - n)) eqn:ET.
    + subst r. exists Terminated, h', (j + 1). split; [reflexivity|]. split; reflexivity.
    + destruct HR as [-> HR]. destruct (HF h' HR) as [h2 [E2 HR2]]. cbn [w_heap w_asked]. rewrite E2. cbn [obind].
      exists NoMemory, h2, (j + 1). split; [reflexivity|]. split; [reflexivity|]. auto.
  - destruct HR as [-> [x [-> HQ]]]. exists (Got x), h', (n + k). split; [reflexivity|]. eauto.
Qed.

Lemma does_weaken {A} (m : act A) h k k' (Q Q' : A -> heap -> Prop) (R R' : heap -> Prop) T :
  does m h k Q R T -> k = k' -> (forall x h', Q x h' -> Q' x h') -> (forall h', R h' -> R' h') -> does m h k' Q' R' T.
Proof.
  intros H <- HQ HR n. destruct (H n) as [r [h' [n' [E HX]]]]. exists r, h', n'. split; [exact E|].
  destruct (refused n k) as [j|].
  - destruct HX as [-> HX]. split; [reflexivity|]. destruct (T (j - n)); [exact HX|]. destruct HX as [-> HX]. auto.
  - destruct HX as [-> [x [-> HX]]]. split; [reflexivity|]. eauto.
Qed.

(** ** Copies *)

Lemma end_members_ok f c n l ms cs t o g name h F :
  (forall x, c = Some x -> destroy_works f x) -> (forall x, n = Some x -> destroy_works f x) -> (forall x, In x l -> destroy_works f x) ->
  heap_is h (opt_list acells c ++ opt_list acells n ++ flat_map acells l ++ match_cells ms ++ capture_cells cs ++ F) ->
  exists h', end_members f (mk_members (option_map root c) (option_map root n) (map root l)
    (map (option_map fst) ms) (map (option_map fst) cs) t o g name) h = Ok h' /\ heap_is h' F.
Proof.
  intros HWc HWn HWl H. unfold end_members. cbn [o_captures o_matches o_nested o_next o_child].
  destruct (release_captures cs h (opt_list acells c ++ opt_list acells n ++ flat_map acells l ++ match_cells ms ++ F)) as [h1 [E1 H1]].
  { eapply heap_is_perm; [exact H|]. perm. }
  rewrite E1. cbn [obind].
  destruct (release_matches ms h1 (opt_list acells c ++ opt_list acells n ++ flat_map acells l ++ F)) as [h2 [E2 H2]].
  { eapply heap_is_perm; [exact H1|]. perm. }
  rewrite E2. cbn [obind].
  destruct (destroy_each f l HWl h2 (opt_list acells c ++ opt_list acells n ++ F)) as [h3 [E3 H3]].
  { eapply heap_is_perm; [exact H2|]. perm. }
  rewrite E3. cbn [obind].
  destruct (destroy_any f n HWn h3 (opt_list acells c ++ F)) as [h4 [E4 H4]].
  { eapply heap_is_perm; [exact H3|]. perm. }
  rewrite E4. cbn [obind]. apply destroy_any; assumption.
Qed.

Definition copies f (x : atree) : Prop :=
  forall h F, heap_is h (acells x ++ F) ->
  does (try_copy grants f (root x)) h (copy_needs (value x))
    (fun a h' => exists y, a = root y /\ heap_is h' (acells y ++ acells x ++ F) /\ value y = value x)
    (fun h' => heap_is h' (acells x ++ F)) alive_still.

Lemma fill_rules f l : (forall x, In x l -> copies f x) -> (forall x v, In x l -> value v = value x -> destroy_works f v) ->
  forall done h F, heap_is h (flat_map acells done ++ flat_map acells l ++ F) ->
  (forall x, In x done -> destroy_works f x) ->
  does (fill (try_copy grants f) (fun done h => each (destroy f) h done) (map root done) (map root l)) h
    (list_sum (map copy_needs (map value l)))
    (fun as_ h' => exists l', as_ = map root (done ++ l') /\ heap_is h' (flat_map acells done ++ flat_map acells l' ++ flat_map acells l ++ F) /\ map value l' = map value l /\
       (forall x, In x l' -> destroy_works f x))
    (fun h' => heap_is h' (flat_map acells l ++ F)) alive_still.
Proof.
  induction l as [|x l IH]; intros HC HW done h F H HD; cbn [map fill].
  - change (list_sum []) with 0. apply does_got. exists []. rewrite app_nil_r. split; [reflexivity|]. split; [exact H|]. split; [reflexivity|]. intros z [].
  - change (list_sum (?a :: ?b)) with (a + list_sum b).
    eapply does_bind.
    + eapply does_undo.
      * apply (HC x (or_introl eq_refl) h (flat_map acells done ++ flat_map acells l ++ F)).
        eapply heap_is_perm; [exact H|]. cbn [flat_map]. perm.
      * intros h' H'. destruct (destroy_each f done HD h' (flat_map acells (x :: l) ++ F)) as [h2 [E2 H2]].
        { eapply heap_is_perm; [exact H'|]. cbn [flat_map]. perm. }
        exists h2. split; [exact E2|exact H2].
    + intros a h' [y [-> [H' V']]].
      replace (map root done ++ [root y]) with (map root (done ++ [y])) by (rewrite map_app; reflexivity).
      eapply does_weaken.
      * apply (IH (fun z Hz => HC z (or_intror Hz)) (fun z v Hz => HW z v (or_intror Hz)) (done ++ [y]) h' (acells x ++ F)).
        { eapply heap_is_perm; [exact H'|]. rewrite flat_map_app. cbn [flat_map]. perm. }
        { intros z Hz. apply in_app_or in Hz as [Hz|[<-|[]]]; [now apply HD|]. apply (HW x); [now left|exact V']. }
      * reflexivity.
      * intros as_ h2 [l' [-> [H2 [V2 D2]]]]. exists (y :: l'). rewrite <- app_assoc. split; [reflexivity|]. split; [|split].
        { eapply heap_is_perm; [exact H2|]. rewrite flat_map_app. cbn [flat_map]. perm. }
        { cbn [map]. now rewrite V', V2. }
        { intros z [<-|Hz]; [|now apply D2]. apply (HW x); [now left|exact V']. }
      * intros h2 H2. eapply heap_is_perm; [exact H2|]. cbn [flat_map]. perm.
Qed.

Lemma count_some_cons {A} (x : option A) l : count_some (x :: l) = match x with Some _ => 1 | None => 0 end + count_some l.
Proof. unfold count_some. cbn [filter]. destruct x; reflexivity. Qed.

Lemma fill_matches (fail : list (option addr) -> heap -> outcome heap) (R : heap -> Prop) ms : forall done h F,
  heap_is h (match_cells done ++ match_cells ms ++ F) ->
  (forall done' h', heap_is h' (match_cells done' ++ match_cells ms ++ F) -> exists h2, fail (map (option_map fst) done') h' = Ok h2 /\ R h2) ->
  does (fill (clone_any grants clone_match) fail (map (option_map fst) done) (map (option_map fst) ms)) h (count_some (map (option_map snd) ms))
    (fun as_ h' => exists ms', as_ = map (option_map fst) (done ++ ms') /\
       heap_is h' (match_cells done ++ match_cells ms' ++ match_cells ms ++ F) /\ map (option_map snd) ms' = map (option_map snd) ms)
    R alive_still.
Proof.
  induction ms as [|x ms IH]; intros done h F H HF; cbn [map fill].
  - apply does_got. exists []. rewrite app_nil_r. split; [reflexivity|]. split; [exact H|reflexivity].
  - rewrite count_some_cons. destruct x as [[b m]|]; cbn [option_map fst snd].
    + assert (HC : does (undo (clone_any grants clone_match (Some b)) (fail (map (option_map fst) done))) h 1
        (fun a h' => exists b', a = Some b' /\ heap_is h' ((b', CMatch m) :: match_cells done ++ match_cells (Some (b, m) :: ms) ++ F)) R alive_still).
      { eapply does_undo with (R := fun h' => heap_is h' (match_cells done ++ match_cells (Some (b, m) :: ms) ++ F)); [|intros h' H'; now apply HF].
        unfold clone_any. change 1 with (1 + 0). eapply does_bind; [apply does_request with (Q := fun _ h' => h' = h); [reflexivity|reflexivity|exact H]|].
        intros _ h' ->. change 0 with (0 + 0). destruct (alloc h (CMatch (mtch_clone m))) as [b' h1] eqn:E1. pose proof (alloc_ok _ _ _ _ _ H E1) as H1.
        eapply does_bind.
        - apply does_quiet with (x := b') (h' := h1) (Q := fun x h' => x = b' /\ h' = h1); [|auto]. unfold clone_match.
          rewrite (get_cell h _ b (CMatch m) H) by (apply in_or_app; right; now left). now rewrite E1.
        - intros x h' [-> ->]. apply does_got. exists b'. split; [reflexivity|]. now rewrite mtch_clone_id in H1. }
      eapply does_bind; [exact HC|]. intros a h' [b' [-> H']].
      replace (map (option_map fst) done ++ [Some b']) with (map (option_map fst) (done ++ [Some (b', m)])) by (rewrite map_app; reflexivity).
      eapply does_weaken.
      * apply (IH (done ++ [Some (b', m)]) h' ((b, CMatch m) :: F)).
        { eapply heap_is_perm; [exact H'|]. unfold match_cells. rewrite flat_map_app. cbn [flat_map]. perm. }
        { intros done' h2 H2. apply HF. eapply heap_is_perm; [exact H2|]. unfold match_cells. cbn [flat_map]. perm. }
      * reflexivity.
      * intros as_ h2 [ms' [-> [H2 V2]]]. exists (Some (b', m) :: ms'). rewrite <- app_assoc. split; [reflexivity|]. split.
        { eapply heap_is_perm; [exact H2|]. unfold match_cells. rewrite flat_map_app. cbn [flat_map]. perm. }
        { cbn [map option_map snd]. now rewrite V2. }
      * auto.
    + eapply does_bind with (k1 := 0) (Q := fun a h' => a = None /\ h' = h).
      * eapply does_undo with (R := fun h' => heap_is h' (match_cells done ++ match_cells (None :: ms) ++ F)); [apply does_got; auto|intros h' H'; now apply HF].
      * intros a h' [-> ->].
        replace (map (option_map fst) done ++ [None]) with (map (option_map fst) (done ++ [@None (addr * mtch)])) by (rewrite map_app; reflexivity).
        eapply does_weaken.
        { apply (IH (done ++ [None]) h F).
          - eapply heap_is_perm; [exact H|]. unfold match_cells. rewrite flat_map_app. cbn [flat_map]. perm.
          - exact HF. }
        { reflexivity. }
        { intros as_ h2 [ms' [-> [H2 V2]]]. exists (None :: ms'). rewrite <- app_assoc. split; [reflexivity|]. split.
          - eapply heap_is_perm; [exact H2|]. unfold match_cells. rewrite flat_map_app. cbn [flat_map]. perm.
          - cbn [map option_map snd]. now rewrite V2. }
        { auto. }
Qed.

Lemma fill_captures (fail : list (option addr) -> heap -> outcome heap) (R : heap -> Prop) ms : forall done h F,
  heap_is h (capture_cells done ++ capture_cells ms ++ F) ->
  (forall done' h', heap_is h' (capture_cells done' ++ capture_cells ms ++ F) -> exists h2, fail (map (option_map fst) done') h' = Ok h2 /\ R h2) ->
  does (fill (clone_any grants clone_capture) fail (map (option_map fst) done) (map (option_map fst) ms)) h (count_some (map (option_map snd) ms))
    (fun as_ h' => exists ms', as_ = map (option_map fst) (done ++ ms') /\
       heap_is h' (capture_cells done ++ capture_cells ms' ++ capture_cells ms ++ F) /\ map (option_map snd) ms' = map (option_map snd) ms)
    R alive_still.
Proof.
  induction ms as [|x ms IH]; intros done h F H HF; cbn [map fill].
  - apply does_got. exists []. rewrite app_nil_r. split; [reflexivity|]. split; [exact H|reflexivity].
  - rewrite count_some_cons. destruct x as [[b m]|]; cbn [option_map fst snd].
    + assert (HC : does (undo (clone_any grants clone_capture (Some b)) (fail (map (option_map fst) done))) h 1
        (fun a h' => exists b', a = Some b' /\ heap_is h' ((b', CCapture m) :: capture_cells done ++ capture_cells (Some (b, m) :: ms) ++ F)) R alive_still).
      { eapply does_undo with (R := fun h' => heap_is h' (capture_cells done ++ capture_cells (Some (b, m) :: ms) ++ F)); [|intros h' H'; now apply HF].
        unfold clone_any. change 1 with (1 + 0). eapply does_bind; [apply does_request with (Q := fun _ h' => h' = h); [reflexivity|reflexivity|exact H]|].
        intros _ h' ->. change 0 with (0 + 0). destruct (alloc h (CCapture (capture_clone m))) as [b' h1] eqn:E1. pose proof (alloc_ok _ _ _ _ _ H E1) as H1.
        eapply does_bind.
        - apply does_quiet with (x := b') (h' := h1) (Q := fun x h' => x = b' /\ h' = h1); [|auto]. unfold clone_capture.
          rewrite (get_cell h _ b (CCapture m) H) by (apply in_or_app; right; now left). now rewrite E1.
        - intros x h' [-> ->]. apply does_got. exists b'. split; [reflexivity|]. now rewrite capture_clone_id in H1. }
      eapply does_bind; [exact HC|]. intros a h' [b' [-> H']].
      replace (map (option_map fst) done ++ [Some b']) with (map (option_map fst) (done ++ [Some (b', m)])) by (rewrite map_app; reflexivity).
      eapply does_weaken.
      * apply (IH (done ++ [Some (b', m)]) h' ((b, CCapture m) :: F)).
        { eapply heap_is_perm; [exact H'|]. unfold capture_cells. rewrite flat_map_app. cbn [flat_map]. perm. }
        { intros done' h2 H2. apply HF. eapply heap_is_perm; [exact H2|]. unfold capture_cells. cbn [flat_map]. perm. }
      * reflexivity.
      * intros as_ h2 [ms' [-> [H2 V2]]]. exists (Some (b', m) :: ms'). rewrite <- app_assoc. split; [reflexivity|]. split.
        { eapply heap_is_perm; [exact H2|]. unfold capture_cells. rewrite flat_map_app. cbn [flat_map]. perm. }
        { cbn [map option_map snd]. now rewrite V2. }
      * auto.
    + eapply does_bind with (k1 := 0) (Q := fun a h' => a = None /\ h' = h).
      * eapply does_undo with (R := fun h' => heap_is h' (capture_cells done ++ capture_cells (None :: ms) ++ F)); [apply does_got; auto|intros h' H'; now apply HF].
      * intros a h' [-> ->].
        replace (map (option_map fst) done ++ [None]) with (map (option_map fst) (done ++ [@None (addr * capture)])) by (rewrite map_app; reflexivity).
        eapply does_weaken.
        { apply (IH (done ++ [None]) h F).
          - eapply heap_is_perm; [exact H|]. unfold capture_cells. rewrite flat_map_app. cbn [flat_map]. perm.
          - exact HF. }
        { reflexivity. }
        { intros as_ h2 [ms' [-> [H2 V2]]]. exists (None :: ms'). rewrite <- app_assoc. split; [reflexivity|]. split.
          - eapply heap_is_perm; [exact H2|]. unfold capture_cells. rewrite flat_map_app. cbn [flat_map]. perm.
          - cbn [map option_map snd]. now rewrite V2. }
        { auto. }
Qed.

Lemma filled_needs {A B} (f : A -> B) (l : list A) : one_if (filled (map f l)) = buffer_needs l.
Proof. now destruct l. Qed.
Lemma filled_needs2 {A B C} (f : A -> B) (g : A -> C) (l : list A) : one_if (filled (map f l)) = buffer_needs (map g l).
Proof. now destruct l. Qed.
Lemma long_needs name : one_if (long_name name) = match name with Some x => text_needs x | None => 0 end.
Proof. destruct name as [x|]; [|reflexivity]. reflexivity. Qed.

Lemma make_unique_ok f o : (forall x, o = Some x -> copies f x) -> forall h F, heap_is h (opt_list acells o ++ F) ->
  does (make_unique_any grants (try_copy grants f) (option_map root o)) h (match o with Some x => 1 + copy_needs (value x) | None => 0 end)
    (fun a h' => exists o', a = option_map root o' /\ heap_is h' (opt_list acells o' ++ opt_list acells o ++ F) /\ option_map value o' = option_map value o)
    (fun h' => heap_is h' (opt_list acells o ++ F)) alive_still.
Proof.
  intros HC h F H. destruct o as [x|]; cbn [option_map make_unique_any opt_list] in *.
  - eapply does_bind; [apply does_request with (Q := fun _ h' => h' = h); [reflexivity|reflexivity|exact H]|]. intros _ h' ->.
    rewrite <- (Nat.add_0_r (copy_needs (value x))). eapply does_bind; [apply (HC x eq_refl h F H)|].
    intros a h' [y [-> [H' V']]]. apply does_got. exists (Some y). split; [reflexivity|]. split; [exact H'|]. cbn [option_map]. now rewrite V'.
  - apply does_got. exists None. split; [reflexivity|]. split; [exact H|reflexivity].
Qed.

Lemma copies_ok x : forall f, vdepth (value x) < f -> copies f x.
Proof.
  induction x as [a c n l ms cs t o g name IHc IHn IHl] using atree_ind2. intros f Hf h F H.
  rewrite value_eq, vdepth_eq in Hf. destruct f as [|f]; [lia|].
  assert (Dc : opt_max vdepth (option_map value c) < f) by lia.
  assert (Dn : opt_max vdepth (option_map value n) < f) by lia.
  assert (Dl : list_max (map vdepth (map value l)) < f) by lia.
  assert (HWc : forall x, c = Some x -> copies f x).
  { intros x ->. apply IHc; [reflexivity|]. exact Dc. }
  assert (HWn : forall x, n = Some x -> copies f x).
  { intros x ->. apply IHn; [reflexivity|]. exact Dn. }
  assert (HWl : forall x, In x l -> copies f x).
  { rewrite Forall_forall in IHl. intros x Hx. apply IHl; [exact Hx|]. now apply depth_nested with l. }
  assert (HDo : forall o' o0, option_map value o' = option_map value o0 -> opt_max vdepth (option_map value o0) < f -> forall x, o' = Some x -> destroy_works f x).
  { intros o' o0 E HD x ->. apply destroy_ok. cbn [option_map] in E. rewrite <- E in HD. exact HD. }
  assert (HDn : forall x, @None atree = Some x -> destroy_works f x) by discriminate.
  rewrite acells_eq in *. cbn [root try_copy].
  set (r := (a, CRule (members_of (ANode a c n l ms cs t o g name)))) in *.
  set (X := opt_list acells c ++ opt_list acells n ++ flat_map acells l ++ match_cells ms ++ capture_cells cs) in *.
  rewrite value_eq. cbn [copy_needs].
  set (kc := match option_map value c with Some c' => 1 + copy_needs c' | None => 0 end).
  set (kn := match option_map value n with Some c' => 1 + copy_needs c' | None => 0 end).
  eapply does_weaken with
    (k := 0 + (buffer_needs (map value l) + (list_sum (map copy_needs (map value l)) +
            ((match name with Some x => text_needs x | None => 0 end) + (kc + (kn +
             (buffer_needs (map (option_map snd) ms) + (count_some (map (option_map snd) ms) +
              (buffer_needs (map (option_map snd) cs) + (count_some (map (option_map snd) cs) + 0))))))))));
    [|lia|intros z h'; exact (fun H => H)|intros h'; exact (fun H => H)].
  eapply does_bind.
  { apply does_quiet with (x := members_of (ANode a c n l ms cs t o g name)) (h' := h) (Q := fun m h' => m = members_of (ANode a c n l ms cs t o g name) /\ h' = h); [|auto].
    rewrite (read_ok h _ a _ H) by (now left). reflexivity. }
  intros m h' [-> ->]. cbn [members_of o_captures o_matches o_nested o_next o_child o_tag o_optional o_greedy o_name].
  rewrite <- (filled_needs2 root value l).
  eapply does_bind; [apply does_request_if with (Q := fun _ h' => h' = h); [reflexivity|reflexivity|exact H]|]. intros _ h' ->.
  eapply does_bind.
  { eapply does_weaken.
    - apply (fill_rules f l HWl) with (done := []) (F := r :: opt_list acells c ++ opt_list acells n ++ match_cells ms ++ capture_cells cs ++ F).
      + intros x v Hx Hv. apply destroy_ok. rewrite Hv. now apply depth_nested with l.
      + eapply heap_is_perm; [exact H|]. unfold X. cbn [flat_map]. perm.
      + intros x [].
    - reflexivity.
    - intros x h'. exact (fun H => H).
    - intros h' H'. eapply heap_is_perm; [exact H'|]. unfold X. perm. }
  intros nested h1 [l' [-> [H1 [V1 W1]]]]. cbn [app flat_map] in H1 |- *.
  rewrite <- long_needs.
  eapply does_bind.
  { eapply does_undo with (R := fun h' => h' = h1).
    - apply does_request_if with (Q := fun _ h' => h' = h1); reflexivity.
    - intros h' ->. destruct (end_members_ok f None None l' [] [] t o g None h1 (r :: X ++ F) HDn HDn W1) as [h2 [E2 H2]].
      { eapply heap_is_perm; [exact H1|]. unfold X. cbn [opt_list match_cells capture_cells flat_map]. perm. }
      exists h2. split; [exact E2|exact H2]. }
  intros _ h' ->.
  eapply does_bind.
  { eapply does_undo.
    - eapply does_weaken; [apply (make_unique_ok f c HWc h1 (r :: opt_list acells n ++ flat_map acells l' ++ flat_map acells l ++ match_cells ms ++ capture_cells cs ++ F))| | |].
      + eapply heap_is_perm; [exact H1|]. perm.
      + unfold kc. now destruct c.
      + intros x h'. exact (fun H => H).
      + intros h'. exact (fun H => H).
    - intros h' H'. destruct (end_members_ok f None None l' [] [] t o g None h' (r :: X ++ F) HDn HDn W1) as [h2 [E2 H2]].
      { eapply heap_is_perm; [exact H'|]. unfold X. cbn [opt_list match_cells capture_cells flat_map]. perm. }
      exists h2. split; [exact E2|exact H2]. }
  intros child h2 [c' [-> [H2 V2]]]. unfold with_child. cbn [o_child o_next o_nested o_matches o_captures o_tag o_optional o_greedy o_name].
  pose proof (HDo c' c V2 Dc) as Wc.
  eapply does_bind.
  { eapply does_undo.
    - eapply does_weaken; [apply (make_unique_ok f n HWn h2 (r :: opt_list acells c' ++ opt_list acells c ++ flat_map acells l' ++ flat_map acells l ++ match_cells ms ++ capture_cells cs ++ F))| | |].
      + eapply heap_is_perm; [exact H2|]. perm.
      + unfold kn. now destruct n.
      + intros x h'. exact (fun H => H).
      + intros h'. exact (fun H => H).
    - intros h' H'. destruct (end_members_ok f c' None l' [] [] t o g None h' (r :: X ++ F) Wc HDn W1) as [h3 [E3 H3]].
      { eapply heap_is_perm; [exact H'|]. unfold X. cbn [opt_list match_cells capture_cells flat_map]. perm. }
      exists h3. split; [exact E3|exact H3]. }
  intros next h3 [n' [-> [H3 V3]]]. unfold with_next. cbn [o_child o_next o_nested o_matches o_captures o_tag o_optional o_greedy o_name].
  pose proof (HDo n' n V3 Dn) as Wn.
  rewrite <- (filled_needs2 (option_map fst) (option_map snd) ms).
  eapply does_bind.
  { eapply does_undo with (R := fun h' => h' = h3).
    - apply does_request_if with (Q := fun _ h' => h' = h3); reflexivity.
    - intros h' ->. destruct (end_members_ok f c' n' l' [] [] t o g None h3 (r :: X ++ F) Wc Wn W1) as [h4 [E4 H4]].
      { eapply heap_is_perm; [exact H3|]. unfold X. cbn [opt_list match_cells capture_cells flat_map]. perm. }
      exists h4. split; [exact E4|exact H4]. }
  intros _ h' ->.
  eapply does_bind.
  { apply (fill_matches _ (fun h' => heap_is h' (r :: X ++ F)) ms [] h3
      (r :: opt_list acells n' ++ opt_list acells n ++ opt_list acells c' ++ opt_list acells c ++ flat_map acells l' ++ flat_map acells l ++ capture_cells cs ++ F)).
    - eapply heap_is_perm; [exact H3|]. cbn [match_cells flat_map]. perm.
    - intros done h' H'. unfold with_matches. cbn [o_child o_next o_nested o_matches o_captures o_tag o_optional o_greedy o_name].
      apply (end_members_ok f c' n' l' done [] t o g None h' (r :: X ++ F) Wc Wn W1).
      eapply heap_is_perm; [exact H'|]. unfold X. cbn [capture_cells flat_map]. perm. }
  intros matches h4 [ms' [-> [H4 V4]]]. cbn [app match_cells flat_map] in H4 |- *. unfold with_matches. cbn [o_child o_next o_nested o_matches o_captures o_tag o_optional o_greedy o_name].
  rewrite <- (filled_needs2 (option_map fst) (option_map snd) cs).
  eapply does_bind.
  { eapply does_undo with (R := fun h' => h' = h4).
    - apply does_request_if with (Q := fun _ h' => h' = h4); reflexivity.
    - intros h' ->. destruct (end_members_ok f c' n' l' ms' [] t o g None h4 (r :: X ++ F) Wc Wn W1) as [h5 [E5 H5]].
      { eapply heap_is_perm; [exact H4|]. unfold X, match_cells, capture_cells. cbn [flat_map]. perm. }
      exists h5. split; [exact E5|exact H5]. }
  intros _ h' ->.
  eapply does_bind.
  { apply (fill_captures _ (fun h' => heap_is h' (r :: X ++ F)) cs [] h4
      (r :: opt_list acells n' ++ opt_list acells n ++ opt_list acells c' ++ opt_list acells c ++ flat_map acells l' ++ flat_map acells l ++ match_cells ms' ++ match_cells ms ++ F)).
    - eapply heap_is_perm; [exact H4|]. unfold match_cells, capture_cells. cbn [flat_map]. perm.
    - intros done h' H'. unfold with_captures. cbn [o_child o_next o_nested o_matches o_captures o_tag o_optional o_greedy o_name].
      apply (end_members_ok f c' n' l' ms' done t o g None h' (r :: X ++ F) Wc Wn W1).
      eapply heap_is_perm; [exact H'|]. unfold X. perm. }
  intros captures h5 [cs' [-> [H5 V5]]]. cbn [app capture_cells flat_map] in H5 |- *.
  destruct (alloc h5 (CRule (mk_members (option_map root c') (option_map root n') (map root l') (map (option_map fst) ms') (map (option_map fst) cs') t o g name))) as [b h6] eqn:E6.
  pose proof (alloc_ok _ _ _ _ _ H5 E6) as H6.
  apply does_quiet with (x := b) (h' := h6); [now rewrite E6|].
  exists (ANode b c' n' l' ms' cs' t o g name). split; [reflexivity|]. split.
  - eapply heap_is_perm; [exact H6|]. rewrite (acells_eq b). cbn [members_of]. unfold X, capture_cells. perm.
  - rewrite !value_eq. now rewrite V1, V2, V3, V4, V5.
Qed.

End NoMemory.
