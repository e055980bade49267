(** Proofs about CondCost.v. *)

From Coq Require Import Ascii String Arith NArith ZArith Bool List Lia Sorted.
From Verif Require Import Base StringUtil Tags Dom NodeUtil Values Match Rule RuleMatching MatchSpec ExtractSpec DepthSpec CostSpec
  RuleProofs LocalProofs TextCost TextCostSpec TextCostProofs CaptureState CondState CondSpec CondMain CondCost CondCostSpec.
From Verif Require Import Cost CostProofs.
Import ListNotations.

(** ** The answers *)

Lemma working_same E R D : same_answers (fun _ => True) (working E R D) E R D.
Proof.
  intros rp r k m p t w Hr Hm Hp _. unfold working. rewrite Hr, Hm. cbn [fst snd]. split; [|exact I].
  pose proof (mtch_explained E D m p t Hp) as H. destruct (mtch_matches E D m p); try reflexivity. destruct H.
Qed.

(** ** The state counts *)

Definition call_work (E : engine) (R : rule) (D : node) (x : one_call) : nat :=
  let '(rp, k, p, _) := x in
  match rget R rp with
  | Some r => match nth_error (r_matches r) k with Some (Some m) => condition_work E D m p | _ => 0 end
  | None => 0
  end.
Lemma heard_work E R D w calls w' : heard (working E R D) w calls w' -> w' = w + sum (map (call_work E R D) calls).
Proof.
  induction 1 as [w|rp k p w x w1 calls w2 Hw H IH]; [unfold sum; cbn; lia|]. rewrite IH. unfold sum in *. cbn [map fold_right].
  unfold working in Hw. unfold call_work at 2. destruct (rget R rp) as [r|]; [destruct (nth_error (r_matches r) k) as [[m|]|]|]; injection Hw as <- _; lia.
Qed.

Lemma sum_incl {A} (g : A -> nat) (a : list A) : NoDup a -> forall b, incl a b -> sum (map g a) <= sum (map g b).
Proof.
  induction 1 as [|x a Hx Ha IH]; intros b Hb; [unfold sum; cbn; lia|].
  destruct (in_split x b (Hb x (or_introl eq_refl))) as [b1 [b2 ->]].
  assert (H : incl a (b1 ++ b2)).
  { intros y Hy. specialize (Hb y (or_intror Hy)). apply in_app_or in Hb. apply in_or_app. destruct Hb as [Hb|[->|Hb]]; auto. contradiction. }
  specialize (IH (b1 ++ b2) H). rewrite map_app, sum_app in IH |- *. unfold sum in *. cbn [map fold_right]. lia.
Qed.

(** ** One condition *)

Lemma looks_up_le l : forall i index, looks_up l i index <= length l.
Proof. induction l as [|c l IH]; intros i index; cbn [looks_up length]; [lia|]. specialize (IH (S i) index). destruct (Nat.eqb i index); lia. Qed.
Lemma looks_down_le l : forall index, looks_down l index <= length l.
Proof. induction l as [|c l IH]; intros index; cbn [looks_down length]; [lia|]. specialize (IH index). destruct (Nat.ltb _ _); [lia|]. destruct (Nat.eqb _ _); lia. Qed.
Lemma only_looks_le b t l : forall i index, only_child_looks b t l i index <= length l.
Proof. induction l as [|c l IH]; intros i index; cbn [only_child_looks length]; [lia|]. specialize (IH (S i) index). match goal with |- S (if ?x then _ else _) <= _ => destruct x end; lia. Qed.

Lemma size_pos n : 0 < size_of n.
Proof. unfold size_of. destruct n; cbn; lia. Qed.
Lemma children_size cs : length cs <= sizes cs.
Proof. unfold sizes, sum. induction cs as [|c cs IH]; cbn [map fold_right length]; [lia|]. pose proof (size_pos c). lia. Qed.
Lemma child_size cs i c : nth_error cs i = Some c -> size_of c <= sizes cs.
Proof. revert i. unfold sizes, sum. induction cs as [|d cs IH]; intros [|i] H; cbn in *; try discriminate; [injection H as ->; lia|]. specialize (IH i H). lia. Qed.

Lemma document_size_pos n : 0 < document_size n.
Proof. destruct n; cbn [document_size]; lia. Qed.
Lemma document_size_children n : sum (map document_size (children_of n)) < document_size n.
Proof. destruct n; cbn [document_size children_of map]; unfold sum; cbn [fold_right]; lia. Qed.
Lemma in_sum x l : In x l -> x <= sum l.
Proof. unfold sum. induction l as [|y l IH]; intros H; [destruct H|]. cbn [fold_right]. destruct H as [-> |H]; [lia|]. specialize (IH H). lia. Qed.
Lemma length_sum cs : length cs <= sum (map document_size cs).
Proof. unfold sum. induction cs as [|c cs IH]; cbn [map fold_right length]; [lia|]. pose proof (document_size_pos c). lia. Qed.
Lemma part_size D p : forall n, nget D p = Some n -> document_size n <= document_size D.
Proof.
  induction p as [|i p IH]; intros n H; cbn [nget] in H; [injection H as ->; lia|].
  destruct (nget D p) as [par|]; [|discriminate]. specialize (IH par eq_refl). apply nth_error_In in H.
  pose proof (document_size_children par). pose proof (in_sum (document_size n) (map document_size (children_of par)) (in_map _ _ _ H)). lia.
Qed.
Lemma part_children D p n : nget D p = Some n -> length (children_of n) <= document_size D.
Proof.
  intros H. pose proof (part_size D p n H). pose proof (document_size_children n). pose proof (length_sum (children_of n)). lia.
Qed.
Lemma size_le n : size_of n <= document_size n.
Proof.
  induction n as [n IH] using (well_founded_induction (Wf_nat.well_founded_ltof _ document_size)). unfold Wf_nat.ltof in IH.
  destruct n as [d1 d2 d3 d4 cs|t o a cs|t o a cs|x|x|x|x]; try (unfold size_of; cbn; lia).
  rewrite size_element. cbn [document_size]. apply le_n_S.
  assert (H : forall c, In c cs -> size_of c <= document_size c).
  { intros c Hc. apply IH. pose proof (in_sum _ _ (in_map document_size _ _ Hc)). cbn [document_size]. lia. }
  clear IH. unfold sizes, sum. induction cs as [|c cs IHc]; cbn [map fold_right]; [lia|].
  pose proof (H c (or_introl eq_refl)). specialize (IHc (fun d Hd => H d (or_intror Hd))). lia.
Qed.

Lemma work_bound E D m : forall p, condition_work E D m p <= condition_count m * (2 * (document_size D * document_size D)).
Proof.
  set (B := 2 * (document_size D * document_size D)).
  assert (HB : document_size D <= B) by (subst B; pose proof (document_size_pos D); nia).
  induction m as [ms IH|m Hm] using mtch_ind2; intros p.
  - cbn [condition_work condition_count]. destruct (nget D p) as [n|]; [|lia].
    induction ms as [|[m|] ms IHms]; [lia| |].
    + inversion IH as [|? ? H1 H2]; subst. specialize (IHms H2). specialize (H1 m eq_refl p).
      destruct (mtch_matches E D m p) as [[]| | |]; lia.
    + inversion IH as [|? ? H1 H2]; subst. exact (IHms H2).
  - destruct (nget D p) as [n|] eqn:Hp.
    2: { destruct m; cbn [condition_work]; rewrite Hp; lia. }
    pose proof (part_size D p n Hp) as Hs.
    destruct m as [z|a t|z|f|[f|] [t|]|ms|a b o|o|rx]; try (exfalso; now apply (Hm ms)); cbn [condition_work condition_count]; rewrite Hp; try lia.
    + pose proof (part_children D p n Hp). destruct n; cbn [children_of] in *; lia.
    + assert (HT : forall w, snd (StripTags_c w n) <= B).
      { intros w. pose proof (text_quadratic w n). pose proof (size_le n). subst B. nia. }
      destruct f; cbn [function_work]; try lia; specialize (HT true) as HT1; specialize (HT false); lia.
    + destruct n; try lia. destruct p as [|i pp]; [lia|]. destruct (nget D pp) as [par|] eqn:Hpar; [|lia].
      pose proof (part_children D pp par Hpar) as HC. destruct par as [d1 d2 d3 d4 cs|t1 o1 a1 cs|t1 o1 a1 cs|x|x|x|x]; try lia. cbn [children_of] in HC.
      pose proof (looks_up_le cs 0 i). pose proof (looks_down_le (rev cs) i) as HD. rewrite rev_length in HD. destruct (opt_first o); lia.
    + destruct n; try lia. destruct p as [|i pp]; [lia|]. destruct (nget D pp) as [par|] eqn:Hpar; [|lia].
      pose proof (part_children D pp par Hpar) as HC. destruct par as [d1 d2 d3 d4 cs|t1 o1 a1 cs|t1 o1 a1 cs|x|x|x|x]; try lia. cbn [children_of] in HC.
      match goal with |- only_child_looks ?b ?t ?l 0 i <= _ => pose proof (only_looks_le b t l 0 i) end. lia.
Qed.

(** ** One call of Rule::matches *)

Lemma rule_le_conditions R : rule_conditions R <= conditions R.
Proof. destruct R. unfold rule_conditions. cbn [r_matches conditions]. lia. Qed.
Lemma rget_conditions R rp : forall r, rget R rp = Some r -> conditions r <= conditions R.
Proof.
  induction rp as [|st rp IH]; intros r H; cbn [rget] in H; [injection H as ->; lia|].
  destruct (rget R rp) as [r0|]; [|discriminate]. specialize (IH r0 eq_refl). enough (conditions r <= conditions r0) by lia. clear IH.
  destruct r0 as [c nx l ms cs t o g name]. cbn [conditions]. destruct st as [| |k]; cbn in H.
  - destruct c; [injection H as ->|discriminate]. lia.
  - destruct nx; [injection H as ->|discriminate]. lia.
  - apply nth_error_In in H. assert (conditions r <= largest (map conditions l)); [|lia].
    clear -H. unfold largest. induction l as [|x l IH]; [destruct H|]. cbn [map fold_right]. destruct H as [-> |H]; [lia|]. specialize (IH H). lia.
Qed.

Lemma nodup_sorted (ks : list nat) : StronglySorted lt ks -> NoDup ks.
Proof.
  induction 1 as [|k ks H1 IH H2]; constructor; [|exact IH]. intros Hk. rewrite Forall_forall in H2. specialize (H2 k Hk). lia.
Qed.

Lemma sum_numbers {A} (g : A -> nat) (l : list A) (z : nat) :
  sum (map (fun k => match nth_error l k with Some x => g x | None => z end) (seq 0 (length l))) = sum (map g l).
Proof.
  induction l as [|x l IH]; [reflexivity|]. cbn [length seq map]. unfold sum in *. cbn [fold_right nth_error]. f_equal.
  rewrite <- IH, <- seq_shift, map_map. reflexivity.
Qed.

Lemma entry_work E R D i pp e : entry_ok R D i pp e ->
  sum (map (call_work E R D) (calls_of [e])) <= conditions R * (2 * (document_size D * document_size D)).
Proof.
  set (B := 2 * (document_size D * document_size D)).
  destruct e as [[rp p] calls]. intros [_ [r [t [Hr [Hp [ks [[HS Hks] HP]]]]]]].
  pose (g := fun k => match nth_error (r_matches r) k with Some om => match om with Some m => condition_work E D m p | None => 0 end | None => 0 end).
  assert (Hall : sum (map g ks) <= conditions R * B).
  { apply Nat.le_trans with (rule_conditions r * B).
    2: { pose proof (rule_le_conditions r). pose proof (rget_conditions R rp r Hr). nia. }
    apply Nat.le_trans with (sum (map g (seq 0 (length (r_matches r))))).
    - apply sum_incl; [now apply nodup_sorted|]. intros k Hk. apply in_seq. apply Hks in Hk as [m Hm].
      assert (k < length (r_matches r)) by (apply nth_error_Some; congruence). lia.
    - unfold g. rewrite sum_numbers. unfold rule_conditions, sum. clear. induction (r_matches r) as [|om l IH]; [cbn; lia|].
      cbn [map fold_right]. destruct om as [m|]; [pose proof (work_bound E D m p) as H; fold B in H|]; rewrite ?Nat.mul_add_distr_r; lia. }
  assert (Hcalls : sum (map (call_work E R D) (calls_of [(rp, p, calls)])) = sum (map g (map fst calls))).
  { cbn [calls_of flat_map]. rewrite app_nil_r, map_map. rewrite map_map. f_equal. apply map_ext. intros [k x]. cbn [call_work fst]. rewrite Hr.
    unfold g. destruct (nth_error (r_matches r) k) as [[m|]|]; reflexivity. }
  apply Nat.le_trans with (sum (map g (map fst calls))); [apply Nat.eq_le_incl, Hcalls|]. clear Hcalls.
  destruct (tag_matches r t); [|subst calls; unfold sum; cbn; lia].
  destruct HP as [-> |[before [k [later [x [-> [_ ->]]]]]]].
  - rewrite (map_map (fun k => (k, Says true)) fst). cbn [fst]. rewrite map_id. exact Hall.
  - rewrite (map_app fst), (map_map (fun k => (k, Says true)) fst). cbn [map fst]. rewrite map_id. rewrite map_app, sum_app in Hall |- *. cbn [map] in *. unfold sum in *. cbn [fold_right] in *. lia.
Qed.

Lemma log_work E R D i pp log : Forall (entry_ok R D i pp) log ->
  sum (map (call_work E R D) (calls_of log)) <= length log * (conditions R * (2 * (document_size D * document_size D))).
Proof.
  induction 1 as [|e log He Hl IH]; [unfold sum; cbn; lia|].
  assert (HA : calls_of (e :: log) = calls_of [e] ++ calls_of log).
  { unfold calls_of. cbn [flat_map]. now rewrite app_nil_r. }
  pose proof (entry_work E R D i pp e He) as H1. rewrite HA, map_app, sum_app. cbn [length]. lia.
Qed.

(** ** The search *)

Lemma does_unique {W} (act : match_action W) R D p n w x y : search_does act R D p n w x -> search_does act R D p n w y -> x = y.
Proof. intros [f1 H1] [f2 H2]. now rewrite <- (H1 (f1 + f2) ltac:(lia)), <- (H2 (f1 + f2) ltac:(lia)). Qed.

Lemma search_work_bound E R D i pp par n o :
  nget D pp = Some par -> i < length (children_of par) -> search_yields E R D (Some (i :: pp)) n o ->
  exists w, search_works E R D (Some (i :: pp)) n o w /\
    w <= search_tests R (siblings_from par i) * (conditions R * (2 * (document_size D * document_size D))).
Proof.
  intros Hp Hi Ho.
  destruct (search_pure (fun _ => True) (working E R D) E R D (working_same E R D) i pp par n 0 o I Hp Hi Ho) as (w & log & Hd & _ & Hlen).
  exists w. split; [now exists log|].
  assert (Ht : exists t, nget D (i :: pp) = Some t).
  { cbn [nget]. rewrite Hp. destruct (nth_error (children_of par) i) eqn:En; [eauto|]. apply nth_error_None in En. lia. }
  destruct Ht as [t Ht].
  destruct (search_finishes (working E R D) R D i pp t n 0 Ht) as (o' & w' & log' & Hd' & Hh & Hok & _).
  injection (does_unique _ _ _ _ _ _ _ _ Hd Hd') as <- <- <-.
  apply heard_work in Hh. pose proof (log_work E R D i pp log Hok). cbn [plus] in Hh.
  apply Nat.le_trans with (length log * (conditions R * (2 * (document_size D * document_size D)))); [lia|].
  apply Nat.mul_le_mono_r. exact Hlen.
Qed.

(** ** Exact numbers *)

Lemma looks_up_exact l : forall i index, i <= index < i + length l -> looks_up l i index = S (index - i).
Proof.
  induction l as [|c l IH]; intros i index H; cbn [length] in H; [lia|]. cbn [looks_up].
  destruct (Nat.eqb_spec i index) as [->|Hne]; [now rewrite Nat.sub_diag|]. rewrite IH by lia. lia.
Qed.
Lemma looks_down_exact l : forall index, index < length l -> looks_down l index = length l - index.
Proof.
  induction l as [|c l IH]; intros index H; cbn [length] in H; [lia|]. cbn [looks_down length].
  destruct (Nat.ltb_spec (length l) index); [lia|]. destruct (Nat.eqb_spec (length l) index) as [->|Hne]; [lia|]. rewrite IH by lia. lia.
Qed.
Lemma nth_work E D a b first of_type i pp t orig attrs cs t' orig' attrs' cs' :
  nget D (i :: pp) = Some (NElement t orig attrs cs) -> nget D pp = Some (NElement t' orig' attrs' cs') ->
  condition_work E D (NthChildMatch a b (mk_nth_option first of_type)) (i :: pp) = if first then i + 1 else length cs' - i.
Proof.
  intros H1 H2. pose proof H1 as Hi. cbn [nget] in Hi. rewrite H2 in Hi. cbn [children_of] in Hi.
  assert (HL : i < length cs') by (apply nth_error_Some; congruence).
  cbn [condition_work]. rewrite H1, H2. cbn [opt_first]. destruct first.
  - rewrite looks_up_exact by lia. lia.
  - rewrite looks_down_exact by (rewrite rev_length; lia). now rewrite rev_length.
Qed.
Lemma works_total E R D i pp t n o w : nget D (i :: pp) = Some t -> search_works E R D (Some (i :: pp)) n o w ->
  exists log, search_does (working E R D) R D (Some (i :: pp)) n 0 (o, (w, log)) /\ heard (working E R D) 0 (calls_of log) w /\
    w = sum (map (fun '(rp, k, p, _) =>
      match rget R rp with
      | Some r => match nth_error (r_matches r) k with Some (Some m) => condition_work E D m p | _ => 0 end
      | None => 0
      end) (calls_of log)).
Proof.
  intros Ht [log Hd]. exists log. split; [exact Hd|].
  destruct (search_finishes (working E R D) R D i pp t n 0 Ht) as (o' & w' & log' & Hd' & Hh & _).
  injection (does_unique _ _ _ _ _ _ _ _ Hd Hd') as <- <- <-. split; [exact Hh|]. exact (heard_work E R D 0 _ _ Hh).
Qed.
