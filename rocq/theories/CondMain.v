(** The statements about conditions with side effects. *)

From Coq Require Import Ascii String NArith ZArith Bool List Lia Sorted.
From Verif Require Import Base StringUtil Tags Dom NodeUtil Values Match Rule RuleMatching RuleProofs MatchSem MatchRefine
  MatchSpec MatchProofs ExtractSpec DepthSpec DepthProofs Cost CostSpec CostProofs CaptureState CaptureStateSpec
  CaptureStateProofs CondState CondSpec CondProofs.
Import ListNotations.

(** ** Bounds for the lists *)

Fixpoint tree_size (t : node) : nat :=
  match t with
  | NDocument _ _ _ _ cs | NElement _ _ _ cs | NTemplate _ _ _ cs => S (sum (map tree_size cs))
  | _ => 1
  end.

Lemma sum_in {X} (f : X -> nat) l x : In x l -> f x <= sum (map f l).
Proof.
  induction l as [|y l IH]; [intros []|]. cbn [map sum fold_right]. intros [->|H]; [lia|]. specialize (IH H). unfold sum in *. lia.
Qed.

Lemma sum_length {X} (f : X -> nat) l : (forall x, In x l -> 1 <= f x) -> length l <= sum (map f l).
Proof.
  induction l as [|y l IH]; cbn [map sum fold_right length]; intros H; [lia|].
  pose proof (H y (or_introl eq_refl)). specialize (IH (fun x Hx => H x (or_intror Hx))). unfold sum in *. lia.
Qed.

Lemma tree_size_eq t : tree_size t = S (sum (map tree_size (children_of t))).
Proof. destruct t; reflexivity. Qed.

Lemma tree_size_get D p : forall t, nget D p = Some t -> tree_size t <= tree_size D.
Proof.
  induction p as [|i p IH]; intros t; cbn [nget]; [intros E; injection E as <-; lia|].
  destruct (nget D p) as [par|]; [|discriminate]. intros E. specialize (IH par eq_refl). rewrite (tree_size_eq par) in IH.
  apply nth_error_In in E. pose proof (sum_in tree_size _ _ E). lia.
Qed.

Lemma children_bound D p t : nget D p = Some t -> length (children_of t) <= tree_size D.
Proof.
  intros H. apply tree_size_get in H. rewrite tree_size_eq in H.
  pose proof (sum_length tree_size (children_of t) (fun x _ => ltac:(rewrite tree_size_eq; lia))). lia.
Qed.

Lemma rule_count_pos r : 1 <= rule_count r.
Proof. destruct r. cbn [rule_count]. lia. Qed.

Lemma rule_count_get R rp : forall r, rget R rp = Some r -> rule_count r <= rule_count R.
Proof.
  induction rp as [|st rp IH]; intros r; cbn [rget]; [intros E; injection E as <-; lia|].
  destruct (rget R rp) as [r0|]; [|discriminate]. specialize (IH r0 eq_refl).
  destruct r0 as [c nx l ms cs t o g tn]. cbn [rule_count] in IH.
  destruct st as [| |k]; cbn [rstep_get r_child r_next r_nested]; intros E.
  - subst c. lia.
  - subst nx. lia.
  - apply nth_error_In in E. pose proof (sum_in rule_count _ _ E). lia.
Qed.

Lemma chain_bound r : forall rp, length (chain_of rp r) <= rule_count r.
Proof.
  induction r as [r IH] using rule_next_ind. intros rp. rewrite chain_of_eq. cbn [length].
  assert (H : match r_next r with Some n => rule_count n | None => 0 end < rule_count r).
  { destruct r. cbn [rule_count r_next]. lia. }
  destruct (r_next r) as [n|]; [specialize (IH n eq_refl (RNext :: rp)); lia|cbn [length]; lia].
Qed.

Lemma rules_bound R rp r : rget R rp = Some r ->
  length (chain_of rp r) <= rule_count R /\ length (r_nested r) <= rule_count R.
Proof.
  intros H. apply rule_count_get in H. pose proof (chain_bound r rp). split; [lia|].
  destruct r as [c nx l ms cs t o g tn]. cbn [rule_count r_nested] in *.
  pose proof (sum_length rule_count l (fun x _ => rule_count_pos x)). lia.
Qed.

Lemma tree_height t : height t <= tree_size t.
Proof.
  induction t as [t IH] using node_ind2. rewrite tree_size_eq. destruct t as [| ? ? ? cs| | | | |]; cbn [height children_of] in *; try lia.
  apply le_n_S. induction IH as [|x l Hx _ IHl]; cbn [map largest fold_right sum]; [lia|]. unfold largest, sum in *. lia.
Qed.

(** ** The search ends *)

Section Main.

Context {W : Type}.
Variable act : match_action W.
Variable R : rule.
Variable D : node.

Definition enough : nat :=
  save_fuel (rule_count R + tree_size D) (tree_size D).

Lemma search_ends i pp t n w f : nget D (i :: pp) = Some t -> enough <= f ->
  runs W act R D i pp n w (fun gs log => groups_passed R D log gs) (save_c W act R D f (Some []) (Some (i :: pp)) n w).
Proof.
  intros Ht Hf. cbn [nget] in Ht. destruct (nget D pp) as [par|] eqn:Hp; [|discriminate].
  assert (Hi : i < length (children_of par)) by (apply nth_error_Some; now rewrite Ht).
  apply (proj2 (both_at W act R D i pp (rule_count R + tree_size D)
    (fun p x H => Nat.le_trans _ _ _ (children_bound D p x H) (Nat.le_add_l _ _))
    (fun rp r H => conj (Nat.le_trans _ _ _ (proj1 (rules_bound R rp r H)) (Nat.le_add_r _ _))
                        (Nat.le_trans _ _ _ (proj2 (rules_bound R rp r H)) (Nat.le_add_r _ _)))
    ltac:(pose proof (rule_count_pos R); lia) (tree_size D)) f [] R i pp par n w Hf eq_refl Hp Hi).
  apply Forall_forall. intros q Hq. apply in_map_iff in Hq as (j & <- & Hj). apply in_seq in Hj. split.
  - exists j, []. split; [lia|reflexivity].
  - intros x Hx. pose proof (tree_size_get D _ _ Hx). pose proof (tree_height x). lia.
Qed.

Lemma search_stable i pp t n w f : nget D (i :: pp) = Some t -> enough <= f ->
  save_c W act R D f (Some []) (Some (i :: pp)) n w = save_c W act R D enough (Some []) (Some (i :: pp)) n w.
Proof.
  intros Ht Hf. apply (proj1 (runs_more W act R D enough f Hf) (Some []) (Some (i :: pp)) n w).
  pose proof (search_ends i pp t n w enough Ht (le_n _)) as H.
  destruct (save_c W act R D enough (Some []) (Some (i :: pp)) n w) as [o [w' log]].
  destruct H as (_ & _ & H & _). intros E. cbn [fst] in E. subst o. exact H.
Qed.

Lemma search_does_at i pp t n w x : nget D (i :: pp) = Some t -> search_does act R D (Some (i :: pp)) n w x ->
  (let '(o, y) := save_c W act R D enough (Some []) (Some (i :: pp)) n w in (obind o (fun z => Ok (fst z)), y)) = x.
Proof.
  intros Ht [f0 Hf]. specialize (Hf (f0 + enough) ltac:(lia)).
  rewrite (search_stable i pp t n w (f0 + enough) Ht ltac:(lia)) in Hf. exact Hf.
Qed.

Lemma search_finishes i pp t n w : nget D (i :: pp) = Some t ->
  exists o w' log, search_does act R D (Some (i :: pp)) n w (o, (w', log)) /\
    heard act w (calls_of log) w' /\ Forall (entry_ok R D i pp) log /\ ends n o log.
Proof.
  intros Ht. pose proof (search_ends i pp t n w enough Ht (le_n _)) as H.
  destruct (save_c W act R D enough (Some []) (Some (i :: pp)) n w) as [o [w' log]] eqn:ES.
  destruct H as (H1 & H2 & H3 & _).
  exists (obind o (fun z => Ok (fst z))), w', log. repeat split; auto.
  - exists enough. intros f Hf. rewrite (search_stable i pp t n w f Ht Hf), ES. reflexivity.
  - destruct o; exact H3.
Qed.

Lemma search_passed i pp t n w gs w' log : nget D (i :: pp) = Some t ->
  search_does act R D (Some (i :: pp)) n w (Ok gs, (w', log)) ->
  forall g rp p, In g gs -> In (rp, p) g -> passed R D log rp p.
Proof.
  intros Ht H g rp p Hg Hin. apply (search_does_at i pp t n w _ Ht) in H.
  pose proof (search_ends i pp t n w enough Ht (le_n _)) as HR.
  destruct (save_c W act R D enough (Some []) (Some (i :: pp)) n w) as [o [w1 log1]].
  destruct o as [[gs1 n1]|e|u|]; cbn [obind fst] in H; try discriminate. injection H as -> -> ->.
  destruct HR as (_ & _ & _ & HR). destruct (HR gs n1 eq_refl) as [_ HP].
  unfold groups_passed in HP. rewrite Forall_forall in HP. exact (HP g Hg rp p Hin).
Qed.

Lemma search_does_by f p n w : fst (save_c W act R D f (Some []) p n w) <> OutOfFuel ->
  search_does act R D p n w
    (let '(o, y) := save_c W act R D f (Some []) p n w in (obind o (fun z => Ok (fst z)), y)).
Proof.
  intros H. exists f. intros g Hg. now rewrite (proj1 (runs_more W act R D f g Hg) (Some []) p n w H).
Qed.

(** ** The captures *)

Lemma extract_after_search (cact : capture_action W) i pp t n w gs w1 log : nget D (i :: pp) = Some t ->
  search_does act R D (Some (i :: pp)) n w (Ok gs, (w1, log)) ->
  exists css, Forall2 (group_calls R) gs css /\
  exists w2 o, extract_does act cact R D (Some (i :: pp)) n w (o, (w2, log)) /\
    ((exists outss res, performs cact w1 (concat css) (concat outss) w2 /\
        Forall2 (fun calls outs => length outs = length calls) css outss /\
        o = Ok res /\ Forall2 map_of (filter nonempty_list (map present outss)) res) \/
     breaks_off cact w1 (concat css) w2 o).
Proof.
  intros Ht HS.
  assert (HV : forall x, In x (concat gs) -> exists r, rget R (fst x) = Some r).
  { intros [rp p] Hx. apply in_concat in Hx as (g & Hg & Hx).
    destruct (search_passed i pp t n w gs w1 log Ht HS g rp p Hg Hx) as (r & _ & _ & Hr & _). now exists r. }
  exists (map (group_calls_of R) gs). split.
  { clear HS. induction gs as [|g gs IH]; constructor.
    - apply group_calls_ok. intros x Hx. apply HV. cbn [concat]. apply in_or_app. now left.
    - apply IH. intros x Hx. apply HV. cbn [concat]. apply in_or_app. now right. }
  assert (HX : forall x, capture_groups_in W cact R gs w1 = x ->
            extract_does act cact R D (Some (i :: pp)) n w (snd x, (fst x, log))).
  { intros x Hx. destruct HS as [f0 Hf]. exists f0. intros f Hle. specialize (Hf f Hle). unfold extract_c.
    destruct (save_c W act R D f (Some []) (Some (i :: pp)) n w) as [o [w' log']].
    destruct o as [[gs1 n1]|e|u|]; cbn [obind fst] in Hf; try discriminate. injection Hf as -> -> ->.
    rewrite Hx. now destruct x. }
  destruct (capture_groups_runs cact R gs HV w1) as [(outs & w' & res & HP & Em & outss & -> & HL & HM)|(w' & o & HB & Em)].
  - exists w', (Ok res). split; [exact (HX _ Em)|]. left. exists outss, res. auto.
  - exists w', (cast o). split; [exact (HX _ Em)|]. right. destruct HB as (b & c & a & outs & w2 & E1 & E2 & E3 & N).
    exists b, c, a, outs, w2, o. repeat split; auto. destruct o as [x0|x0|x0|]; cbn; auto. now destruct (N x0).
Qed.

Lemma extract_failed_search (cact : capture_action W) p n w e w' log :
  search_does act R D p n w (Throw e, (w', log)) -> extract_does act cact R D p n w (Throw e, (w', log)).
Proof.
  intros [f0 Hf]. exists f0. intros f Hle. specialize (Hf f Hle). unfold extract_c.
  destruct (save_c W act R D f (Some []) p n w) as [[[gs1 n1]|e1|u|] [w1 log1]]; cbn [obind fst] in Hf; try discriminate.
  now injection Hf as -> -> ->.
Qed.

End Main.

(** ** Conditions whose answers do not depend on the state *)

Section Pure.

Context {W : Type}.
Variable inv : W -> Prop.
Variable act : match_action W.
Variable E : engine.
Variable R : rule.
Variable D : node.
Hypothesis Hact : same_answers inv act E R D.

Definition like {A} (m : C W A) (m0 : Cost.W A) : Prop :=
  forall n w, inv w -> let '(o, (w', log)) := m n w in o = fst (m0 n) /\ length log = snd (m0 n) /\ inv w'.

Lemma like_quiet {A} (a : A) : like (quiet W a) (no_test a).
Proof. intros n w H. cbn. auto. Qed.
Lemma like_call {A} (o : outcome A) : like (call_c W o) (call_w o).
Proof. intros n w H. cbn. auto. Qed.
Lemma like_tick : like (tick_c W) tick_w.
Proof. intros n w H. cbn. auto. Qed.
Lemma like_fuel {A} : like (@no_fuel_c W A) no_fuel_w.
Proof. intros n w H. cbn. auto. Qed.
Lemma like_bind {A B} (m : C W A) m0 (f : A -> C W B) g :
  like m m0 -> (forall a, like (f a) (g a)) -> like (bind_c W m f) (bind_w m0 g).
Proof.
  intros Hm Hf n w Hw. specialize (Hm n w Hw). unfold bind_c, bind_w.
  destruct (m n w) as [o [w1 log1]]. destruct (m0 n) as [o0 c0]. cbn [fst snd] in Hm. destruct Hm as (-> & <- & H1).
  destruct o0 as [[a n']|e|u|]; cbn [fst snd]; auto.
  specialize (Hf a n' w1 H1). destruct (f a n' w1) as [o [w2 log2]]. destruct (g a n') as [o1 c1]. cbn [fst snd] in Hf.
  destruct Hf as (-> & <- & H2). cbn [fst snd]. rewrite app_length. auto.
Qed.
Lemma like_bind_call {A B} (o : outcome A) (f : A -> C W B) g :
  (forall a, o = Ok a -> like (f a) (g a)) -> like (bind_c W (call_c W o) f) (bind_w (call_w o) g).
Proof.
  intros Hf n w Hw. unfold bind_c, bind_w, call_c, call_w, RuleMatching.lift.
  destruct o as [a|e|u|]; cbn [obind fst snd length]; auto.
  specialize (Hf a eq_refl n w Hw). destruct (f a n w) as [o1 [w2 log2]]. now destruct (g a n) as [o2 c1].
Qed.

Lemma all_match_like rp r p t l : rget R rp = Some r -> nget D p = Some t -> forall k w,
  (forall j m, nth_error l j = Some (Some m) -> nth_error (r_matches r) (k + j) = Some (Some m)) -> inv w ->
  fst (all_match_c W act rp k l p w) = all_match E D l p /\ inv (fst (snd (all_match_c W act rp k l p w))).
Proof.
  intros Hr Hp. induction l as [|[m|] l IH]; intros k w Hl Hw; cbn [all_match_c all_match]; [now split| |].
  - destruct (Hact rp r k m p t w Hr) as [H1 H2]; [|exact Hp|exact Hw|].
    { specialize (Hl 0 m eq_refl). now rewrite Nat.add_0_r in Hl. }
    destruct (act rp k p w) as [w1 x]. cbn [fst snd] in H1, H2. rewrite <- H1.
    destruct x as [[|]|e|u]; cbn [said obind fst snd]; auto.
    destruct (IH (S k) w1) as [I1 I2]; [|exact H2|].
    { intros j m' Hj. replace (S k + j) with (k + S j) by lia. now apply Hl. }
    destruct (all_match_c W act rp (S k) l p w1) as [o [w2 calls]]. cbn [fst snd] in *. auto.
  - apply IH; [|exact Hw]. intros j m' Hj. replace (S k + j) with (k + S j) by lia. now apply Hl.
Qed.

Lemma like_test rp r p t : rderef R rp = Ok r -> deref D p = Ok t ->
  like (Rule_matches_c W act D rp r p) (test (Rule_matches E D r p)).
Proof.
  unfold rderef. destruct (rget R rp) as [r'|] eqn:Hr; [|discriminate]. intros Hr'. injection Hr' as ->.
  intros Hd n w Hw. unfold Rule_matches_c, test, Rule_matches. rewrite Hd. cbn [obind fst snd].
  assert (Hp : nget D p = Some t) by (unfold deref in Hd; destruct (nget D p); [now injection Hd as ->|discriminate]).
  destruct (tag_matches r t); [|cbn; auto].
  destruct (all_match_like rp r p t (r_matches r) Hr Hp 0 w) as [H1 H2]; [auto|exact Hw|].
  destruct (all_match_c W act rp 0 (r_matches r) p w) as [o [w' calls]]. cbn [fst snd] in *. rewrite H1. auto.
Qed.

Ltac walk :=
  repeat first
    [ assumption
    | apply like_quiet | apply like_call | apply like_tick | apply like_fuel
    | eapply like_test; eassumption
    | apply like_bind_call; intros ? ?
    | apply like_bind; [|intros ?]
    | match goal with
      | |- like (match ?x with _ => _ end) _ => destruct x
      | H : forall _, _ |- _ => apply H
      end ].

Lemma runs_like : forall f,
  (forall rl n, like (save_c W act R D f rl n) (save_w R D (Rule_matches E D) f rl n)) /\
  (forall rp n, like (save_groups_c W act R D f rp n) (save_groups_w R D (Rule_matches E D) f rp n)) /\
  (forall rp np, like (save_below_c W act R D f rp np) (save_below_w R D (Rule_matches E D) f rp np)) /\
  (forall rl n, like (rule_group_c W act R D f rl n) (rule_group_w R D (Rule_matches E D) f rl n)) /\
  (forall fr rl n sub, like (group_loop_c W act R D f fr rl n sub) (group_loop_w R D (Rule_matches E D) f fr rl n sub)) /\
  (forall rl n, like (matches_node_c W act R D f rl n) (matches_node_w R D (Rule_matches E D) f rl n)) /\
  (forall cp n, like (child_loop_c W act R D f cp n) (child_loop_w R D (Rule_matches E D) f cp n)) /\
  (forall rp k size n, like (nested_loop_c W act R D f rp k size n) (nested_loop_w R D (Rule_matches E D) f rp k size n)) /\
  (forall rl b e, like (once_c W act R D f rl b e) (once_w R D (Rule_matches E D) f rl b e)) /\
  (forall rb re nb ne, like (range_c W act R D f rb re nb ne) (range_w R D (Rule_matches E D) f rb re nb ne)) /\
  (forall rb re nb ne x, like (range_loop_c W act R D f rb re nb ne x) (range_loop_w R D (Rule_matches E D) f rb re nb ne x)).
Proof.
  induction f as [|f IH].
  { repeat match goal with |- _ /\ _ => split end; intros; apply like_fuel. }
  destruct IH as (I1 & I2 & I3 & I4 & I5 & I6 & I7 & I8 & I9 & I10 & I11).
  repeat match goal with |- _ /\ _ => split end; intros;
    cbn [save_w save_groups_w save_below_w rule_group_w group_loop_w matches_node_w child_loop_w nested_loop_w once_w
         range_w range_loop_w save_c save_groups_c save_below_c rule_group_c group_loop_c matches_node_c child_loop_c
         nested_loop_c once_c range_c range_loop_c].
  all: walk.
Qed.

Lemma search_pure i pp par n w o : inv w -> nget D pp = Some par -> i < length (children_of par) ->
  search_yields E R D (Some (i :: pp)) n o ->
  exists w' log, search_does act R D (Some (i :: pp)) n w (o, (w', log)) /\ inv w' /\
    length log <= search_tests R (siblings_from par i).
Proof.
  intros Hw Hp Hi [f0 Hf].
  assert (Ht : exists t, nget D (i :: pp) = Some t).
  { cbn [nget]. rewrite Hp. destruct (nth_error (children_of par) i) eqn:En; [eauto|]. apply nth_error_None in En. lia. }
  destruct Ht as [t Ht].
  destruct (search_finishes act R D i pp t n w Ht) as (o' & w' & log & Hd & _). pose proof Hd as [f1 Hf1].
  specialize (Hf (f0 + f1) ltac:(lia)). specialize (Hf1 (f0 + f1) ltac:(lia)).
  pose proof (proj1 (runs_like (f0 + f1)) (Some []) (Some (i :: pp)) n w Hw) as HL.
  rewrite <- (proj1 (runs_same R D (Rule_matches E D) (f0 + f1)) (Some []) (Some (i :: pp)) n) in Hf.
  destruct (save_c W act R D (f0 + f1) (Some []) (Some (i :: pp)) n w) as [o1 [w1 log1]]. destruct HL as (-> & HL & Hw1).
  injection Hf1 as E1 <- <-. rewrite E1 in Hf. subst o'.
  exists w1, log1. repeat split; [exact Hd|exact Hw1|].
  rewrite HL, <- extract_w_count. now apply extract_tests.
Qed.

End Pure.
