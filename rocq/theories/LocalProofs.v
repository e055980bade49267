(** Outcomes of the conditions and captures of a single rule. *)

From Coq Require Import Ascii String NArith ZArith Bool List Lia.
From Verif Require Import Base StringUtil Tags Dom NodeUtil Values Match Rule RuleMatching RuleProofs
  StringSpec StringProofs ExtractSpec.
Import ListNotations.

Section Local.
Variable E : engine.
Variable D : node.

(** An outcome that is a value, or a failure with the given causes. *)
Definition explained {A} (cause_call cause_int : Prop) (o : outcome A) : Prop :=
  match o with
  | Ok _ => True
  | Throw RegexRuntimeError => ~ engine_total E
  | Throw UserException => cause_call
  | UB IntOverflow => cause_int
  | _ => False
  end.

Lemma explained_bind {A B} P Q (m : outcome A) (k : A -> outcome B) :
  explained P Q m -> (forall a, m = Ok a -> explained P Q (k a)) -> explained P Q (obind m k).
Proof. intros Hm Hk. destruct m; cbn [obind]; auto. Qed.

Lemma explained_weaken {A} (P P' Q Q' : Prop) (o : outcome A) :
  (P -> P') -> (Q -> Q') -> explained P Q o -> explained P' Q' o.
Proof. intros HP HQ. destruct o as [a|[]|[]|]; simpl; auto. Qed.

Lemma regex_search_explained P Q rx x : explained P Q (regex_search E rx x).
Proof.
  unfold regex_search. destruct (eng_search E rx x) eqn:H; simpl; [exact I|]. intros [HE _]. now apply (HE rx x).
Qed.
Lemma regex_replace_explained P Q rx x fmt : explained P Q (regex_replace E x rx fmt).
Proof.
  unfold regex_replace. destruct (eng_replace E rx x fmt) eqn:H; simpl; [exact I|]. intros [_ HE]. now apply (HE rx x fmt).
Qed.

Lemma vtest_explained P Q t : forall x, explained P Q (vtest_test E t x).
Proof.
  revert t. fix IH 1. intros t x. destruct t as [l|l|l|w|l|rx|[t'|]]; cbn [vtest_test]; try exact I.
  - destruct x; [|exact I]. apply explained_bind; [apply regex_search_explained|]. intros; exact I.
  - apply explained_bind; [apply IH|]. intros; exact I.
Qed.

Lemma call_explained {A} (f : node -> npath -> fres A) (P Q : Prop) d p :
  ((~ forall d p, f d p <> FThrow) -> P) -> explained P Q (call (f d p)).
Proof. intros H. destruct (f d p) eqn:Ef; simpl; [exact I|]. apply H. intros H'. now apply (H' d p). Qed.

Lemma capture_function_explained f (P Q : Prop) p n :
  nget D p = Some n ->
  (forall g, f = UserFunction g -> (~ forall d p, g d p <> FThrow) -> P) ->
  explained P Q (call_capture_function f D p).
Proof.
  intros Hp H. unfold call_capture_function, deref. rewrite Hp. cbn [obind].
  destruct f; try exact I. apply call_explained. now apply H.
Qed.

(** ** nth-child *)

Definition NTH_SAFE (m : mtch) : Prop := forall size, small_document size D -> ~ nth_params_safe size m.

Lemma counts_int count (bound : Z) : (0 <= count)%Z -> (count + 1 <= bound)%Z -> (bound <= INT_MAX)%Z -> int_op (count + 1) = Ok (count + 1)%Z.
Proof.
  intros. unfold int_op, fits_int. destruct (Z.leb_spec INT_MIN (count + 1)); [|unfold INT_MIN in *; lia].
  destruct (Z.leb_spec (count + 1) INT_MAX); [reflexivity|lia].
Qed.

(** The counters: a value in range, or an overflow that needs a large list. *)
Lemma count_up_ok ct l : forall i index count,
  i <= index -> index < i + length l -> (0 <= count)%Z ->
  match count_up ct l i index count with
  | Ok z => (count <= z <= count + Z.of_nat (length l))%Z
  | UB IntOverflow => (INT_MAX < count + Z.of_nat (length l))%Z
  | _ => False
  end.
Proof.
  induction l as [|c l IH]; intros i index count Hi Hl Hc; simpl in Hl; [lia|].
  cbn [count_up]. assert (HS : Z.of_nat (length (c :: l)) = (1 + Z.of_nat (length l))%Z) by (simpl length; lia).
  destruct (counts ct c).
  - unfold int_op, fits_int. destruct (Z.leb_spec INT_MIN (count + 1)); [|unfold INT_MIN in *; lia].
    destruct (Z.leb_spec (count + 1) INT_MAX); cbn [andb obind]; [|lia].
    destruct (Nat.eqb_spec i index); [lia|].
    specialize (IH (S i) index (count + 1)%Z). assert (S i <= index) by lia. assert (index < S i + length l) by lia.
    specialize (IH H1 H2). destruct (count_up ct l (S i) index (count + 1)) as [z|e|[]|]; try (apply IH; lia).
    + specialize (IH ltac:(lia)). lia.
    + specialize (IH ltac:(lia)). lia.
  - cbn [obind]. destruct (Nat.eqb_spec i index); [lia|].
    specialize (IH (S i) index count). assert (H1 : S i <= index) by lia. assert (H2 : index < S i + length l) by lia.
    specialize (IH H1 H2 Hc). destruct (count_up ct l (S i) index count) as [z|e|[]|]; try (apply IH); lia.
Qed.

Lemma count_down_ok ct l : forall index count,
  (0 <= count)%Z ->
  match count_down ct l index count with
  | Ok z => (0 <= z <= count + Z.of_nat (length l))%Z
  | UB IntOverflow => (INT_MAX < count + Z.of_nat (length l))%Z
  | _ => False
  end.
Proof.
  induction l as [|c l IH]; intros index count Hc; cbn [count_down]; [simpl; lia|].
  assert (HS : Z.of_nat (length (c :: l)) = (1 + Z.of_nat (length l))%Z) by (simpl length; lia).
  destruct (Nat.ltb (length l) index); [lia|].
  destruct (counts ct c).
  - unfold int_op, fits_int. destruct (Z.leb_spec INT_MIN (count + 1)); [|unfold INT_MIN in *; lia].
    destruct (Z.leb_spec (count + 1) INT_MAX); cbn [andb obind]; [|lia].
    destruct (Nat.eqb (length l) index); [lia|].
    specialize (IH index (count + 1)%Z ltac:(lia)). destruct (count_down ct l index (count + 1)) as [z|e|[]|]; try (apply IH); lia.
  - cbn [obind]. destruct (Nat.eqb (length l) index); [lia|].
    specialize (IH index count Hc). destruct (count_down ct l index count) as [z|e|[]|]; try (apply IH); lia.
Qed.

Definition position_ok (o : outcome Z) : Prop :=
  match o with
  | Ok z => (0 <= z)%Z /\ forall size, small_document size D -> (z <= size \/ z = 0)%Z
  | UB IntOverflow => forall size, ~ small_document size D
  | _ => False
  end.

Lemma preceding_ok p n ct : nget D p = Some n -> position_ok (count_preceding_siblings D p ct).
Proof.
  intros Hp. destruct p as [|i pp]; [simpl; split; [lia|]; right; lia|].
  simpl in Hp. unfold count_preceding_siblings, deref. destruct (nget D pp) as [par|] eqn:Epp; [|discriminate]. cbn [obind].
  destruct (is_element par); [|simpl; split; [lia|]; right; lia].
  assert (Hi : i < length (children_of par)) by (apply nth_error_Some; congruence).
  pose proof (count_up_ok ct (children_of par) 0 i 0%Z ltac:(lia) ltac:(simpl; lia) ltac:(lia)) as H.
  destruct (count_up ct (children_of par) 0 i 0) as [z|e|[]|]; try contradiction.
  - split; [lia|]. intros size [_ Hs]. left. specialize (Hs pp par Epp). lia.
  - intros size [Hs1 Hs]. specialize (Hs pp par Epp). lia.
Qed.

Lemma following_ok p n ct : nget D p = Some n -> position_ok (count_following_siblings D p ct).
Proof.
  intros Hp. destruct p as [|i pp]; [simpl; split; [lia|]; right; lia|].
  simpl in Hp. unfold count_following_siblings, deref. destruct (nget D pp) as [par|] eqn:Epp; [|discriminate]. cbn [obind].
  destruct (is_element par); [|simpl; split; [lia|]; right; lia].
  pose proof (count_down_ok ct (rev (children_of par)) i 0%Z ltac:(lia)) as H. rewrite rev_length in H.
  destruct (count_down ct (rev (children_of par)) i 0) as [z|e|[]|]; try contradiction.
  - split; [lia|]. intros size [_ Hs]. left. specialize (Hs pp par Epp). lia.
  - intros size [Hs1 Hs]. specialize (Hs pp par Epp). lia.
Qed.

Lemma small_nonneg size : small_document size D -> (0 <= size)%Z.
Proof. intros [_ H]. specialize (H [] D eq_refl). lia. Qed.

Lemma int_op_explained P (Q : Prop) z : ((z < INT_MIN \/ INT_MAX < z)%Z -> Q) -> explained P Q (int_op z).
Proof.
  intros H. unfold int_op, fits_int. destruct (Z.leb_spec INT_MIN z); [|apply H; lia].
  destruct (Z.leb_spec z INT_MAX); [exact I|apply H; lia].
Qed.

Lemma int_op_ok z y : int_op z = Ok y -> y = z.
Proof. unfold int_op. destruct (fits_int z); congruence. Qed.

Lemma nth_explained P p n step shift o :
  nget D p = Some n ->
  explained P (NTH_SAFE (NthChildMatch step shift o)) (NthChildMatch_matches D p n step shift o).
Proof.
  intros Hp. unfold NthChildMatch_matches. destruct n as [|t orig attrs cs| | | | |]; try exact I.
  set (ct := if opt_of_type o then Some t else None).
  assert (Hpos : position_ok (if opt_first o then count_preceding_siblings D p ct else count_following_siblings D p ct)).
  { destruct (opt_first o); [eapply preceding_ok|eapply following_ok]; eauto. }
  destruct (if opt_first o then count_preceding_siblings D p ct else count_following_siblings D p ct) as [z|e|[]|]; try contradiction; cbn [obind].
  2:{ simpl. intros size Hs. exfalso. now apply (Hpos size). }
  destruct Hpos as [Hz Hsz].
  destruct (Z.eqb_spec step 0); [exact I|]. destruct (Z.ltb_spec 0 step).
  - destruct (Z.ltb_spec z shift); [exact I|].
    apply explained_bind; [|intros; exact I]. apply int_op_explained. intros Ho size Hs [_ [Hr Hb]].
    pose proof (small_nonneg _ Hs). unfold INT_MIN, INT_MAX in *. destruct (Hsz size Hs); lia.
  - destruct (Z.ltb_spec shift z); [exact I|].
    apply explained_bind.
    + apply int_op_explained. intros Ho size Hs [_ [Hr Hb]]. unfold INT_MIN, INT_MAX in *. lia.
    + intros d _. apply explained_bind; [|intros; exact I]. apply int_op_explained.
      intros Ho size Hs [Hst _]. unfold INT_MIN, INT_MAX in *. lia.
Qed.

Lemma mtch_explained m : forall p n, nget D p = Some n ->
  explained (~ match_calls_return m) (NTH_SAFE m) (mtch_matches E D m p).
Proof.
  induction m as [ms IH|m Hm] using mtch_ind2; intros p n Hp.
  - cbn [mtch_matches]. unfold deref. rewrite Hp. cbn [obind].
    assert (HL : forall l, Forall (fun om => forall m, om = Some m -> forall p n, nget D p = Some n ->
       explained (~ match_calls_return m) (NTH_SAFE m) (mtch_matches E D m p)) l ->
       explained (~ match_calls_return (NegateMatch l)) (NTH_SAFE (NegateMatch l))
         ((fix loop (l : list (option mtch)) : outcome bool :=
            match l with
            | [] => Ok true
            | None :: l' => loop l'
            | Some m' :: l' => obind (mtch_matches E D m' p) (fun b => if b then Ok false else loop l')
            end) l)).
    { clear IH. induction l as [|[m|] l IHl]; intros HF; [exact I| |]; inversion HF; subst.
      - apply explained_bind.
        + eapply explained_weaken; [| |exact (H1 m eq_refl p n Hp)].
          * intros H [H' _]. contradiction.
          * intros H size Hs [H' _]. now apply (H size Hs).
        + intros [] _; [exact I|]. eapply explained_weaken; [| |apply IHl; assumption].
          * intros H [_ H']. now apply H.
          * intros H size Hs [_ H']. now apply (H size Hs).
      - now apply IHl. }
    apply HL. exact IH.
  - assert (Hd : deref D p = Ok n) by (unfold deref; now rewrite Hp).
    destruct m as [z|a t|z|[f|]|[f|] [t|]|ms|a b0 o|o|rx]; cbn [mtch_matches]; rewrite Hd; cbn [obind]; try exact I.
    + unfold AttributeMatch_matches. destruct n; try exact I. destruct t as [t|]; [|exact I].
      destruct (gumbo_get_attribute attrs (c_str a)) as [at0|]; [|apply vtest_explained].
      destruct (a_value at0); [apply vtest_explained|exact I].
    + apply call_explained. auto.
    + apply explained_bind; [|intros; apply vtest_explained].
      eapply capture_function_explained; [exact Hp|]. intros g -> H. exact H.
    + exfalso. now apply (Hm ms).
    + now apply nth_explained.
    + unfold OnlyChildMatch_matches. destruct n; try exact I. destruct p as [|i pp]; [exact I|].
      simpl in Hp. unfold deref. destruct (nget D pp) as [par|]; [|discriminate]. cbn [obind]. destruct (is_element par); exact I.
    + unfold TypeRegexMatch_matches. apply explained_bind; [apply regex_search_explained|]. intros; exact I.
Qed.

Lemma all_match_explained l p n : nget D p = Some n ->
  explained (~ forall m, In (Some m) l -> match_calls_return m)
            (forall size, small_document size D -> ~ forall m, In (Some m) l -> nth_params_safe size m)
            (all_match E D l p).
Proof.
  intros Hp. induction l as [|[m|] l IH]; cbn [all_match]; [exact I| |].
  - apply explained_bind.
    + eapply explained_weaken; [| |exact (mtch_explained m p n Hp)].
      * intros H H'. apply H. apply H'. now left.
      * intros H size Hs H'. apply (H size Hs). apply H'. now left.
    + intros [] _; [|exact I]. eapply explained_weaken; [| |exact IH].
      * intros H H'. apply H. intros m' Hm'. apply H'. now right.
      * intros H size Hs H'. apply (H size Hs). intros m' Hm'. apply H'. now right.
  - eapply explained_weaken; [| |exact IH].
    + intros H H'. apply H. intros m' Hm'. apply H'. now right.
    + intros H size Hs H'. apply (H size Hs). intros m' Hm'. apply H'. now right.
Qed.

Definition INT_CAUSE (R : rule) : Prop := forall size, small_document size D -> ~ rule_params_safe size R.

Theorem Rule_matches_explained R r p n :
  rule_of R r -> nget D p = Some n ->
  explained (~ rule_calls_return R) (INT_CAUSE R) (Rule_matches E D r p).
Proof.
  intros Hr Hp. unfold Rule_matches, deref. rewrite Hp. cbn [obind].
  destruct (tag_matches r n); [|exact I].
  eapply explained_weaken; [| |exact (all_match_explained (r_matches r) p n Hp)].
  - intros H H'. apply H. apply (H' r Hr).
  - intros H size Hs H'. apply (H size Hs). intros m Hm. now apply (H' r m Hr).
Qed.

(** ** Captures *)

Lemma pipe_explained P Q q : forall x, explained P Q (pipe_pipe E q x).
Proof.
  revert q. fix IH 1. intros [t next] x. cbn [pipe_pipe]. apply explained_bind.
  - destruct t as [a|a|a|[]| |rx|rx fmt]; cbn [transform_str]; try exact I.
    + now rewrite run_collapsed.
    + apply explained_bind; [apply regex_search_explained|]. intros; exact I.
    + apply regex_replace_explained.
  - intros y _. destruct next; [apply IH|exact I].
Qed.

Lemma apply_pipe_explained P Q q x : explained P Q (apply_pipe E q x).
Proof. destruct q; [apply pipe_explained|exact I]. Qed.

Lemma capture_explained Q c p n : nget D p = Some n ->
  explained (~ capture_calls_return c) Q (capture_capture E D c p).
Proof.
  intros Hp. unfold capture_capture. unfold deref. rewrite Hp. cbn [obind].
  destruct c as [a nm q|[f|] nm q]; try exact I.
  - destruct n; try exact I. destruct (gumbo_get_attribute attrs (c_str a)) as [at0|]; [|exact I].
    destruct (a_value at0); [|exact I]. apply explained_bind; [apply apply_pipe_explained|]. intros; exact I.
  - apply explained_bind.
    + eapply capture_function_explained; [exact Hp|]. intros g -> H. exact H.
    + intros x _. apply explained_bind; [apply apply_pipe_explained|]. intros; exact I.
Qed.

Lemma capture_all_explained Q l p n : nget D p = Some n ->
  explained (~ forall c, In (Some c) l -> capture_calls_return c) Q (capture_all E D l p).
Proof.
  intros Hp. induction l as [|[c|] l IH]; cbn [capture_all]; [exact I| |].
  - apply explained_bind.
    + eapply explained_weaken; [|exact (fun q => q)|exact (capture_explained Q c p n Hp)].
      intros H H'. apply H. apply H'. now left.
    + intros o _. apply explained_bind; [|intros; exact I].
      eapply explained_weaken; [|exact (fun q => q)|exact IH].
      intros H H'. apply H. intros c' Hc'. apply H'. now right.
  - eapply explained_weaken; [|exact (fun q => q)|exact IH].
    intros H H'. apply H. intros c' Hc'. apply H'. now right.
Qed.

Theorem Rule_capture_explained R r p n Q :
  rule_of R r -> nget D p = Some n ->
  explained (~ rule_calls_return R) Q (Rule_capture E D r p).
Proof.
  intros Hr Hp. unfold Rule_capture.
  eapply explained_weaken; [|exact (fun q => q)|exact (capture_all_explained Q (r_captures r) p n Hp)].
  intros H H'. apply H. apply (H' r Hr).
Qed.

End Local.
