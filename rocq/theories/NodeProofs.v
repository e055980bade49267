(** Tags, conditions and captures of a single node. *)

From Coq Require Import Ascii String Arith NArith ZArith Bool List Lia.
From Verif Require Import Base StringUtil Tags Dom NodeUtil Values Match Rule RuleMatching RuleProofs StringSpec StringProofs
  ValueSpec ValueProofs ExtractSpec LocalProofs NodeSpec.
Import ListNotations.

(** ** C20 *)

Lemma Forall2_same_length {A B} (R : A -> B -> Prop) l l' : Forall2 R l l' -> length l = length l'.
Proof. induction 1; simpl; congruence. Qed.

Lemma c_str_id x : ~ In NUL x -> c_str x = x.
Proof.
  induction x as [|c x IH]; intros H; [reflexivity|]. cbn [c_str].
  destruct (Ascii.eqb_spec c NUL) as [->|]; [exfalso; apply H; now left|]. f_equal. apply IH. intros H'. apply H. now right.
Qed.

Lemma c_str_no_nul x : ~ In NUL (c_str x).
Proof.
  induction x as [|c x IH]; [auto|]. cbn [c_str]. destruct (Ascii.eqb_spec c NUL) as [->|]; [auto|].
  intros [H|H]; [congruence|contradiction].
Qed.

Lemma c_str_length x : length (c_str x) <= length x.
Proof. induction x as [|c x IH]; simpl; [lia|]. destruct (Ascii.eqb c NUL); simpl; lia. Qed.

Lemma c_str_full x : length (c_str x) = length x -> ~ In NUL x.
Proof.
  induction x as [|c x IH]; cbn [c_str]; [auto|]. destruct (Ascii.eqb_spec c NUL) as [->|Hc]; simpl; intros H [E|E]; try lia.
  - congruence.
  - apply IH; [lia|exact E].
Qed.

Lemma same_letter_nul c d : same_letter c d -> (c = NUL <-> d = NUL).
Proof.
  intros [<-|[[k [H1 H2]]|[k [H1 H2]]]]; [tauto| |];
    apply nth_error_In in H1; apply nth_error_In in H2; split; intros ->;
    exfalso; simpl in H1, H2;
    solve [repeat (destruct H1 as [H1|H1]; [discriminate H1|]); exact H1
          |repeat (destruct H2 as [H2|H2]; [discriminate H2|]); exact H2].
Qed.

Lemma equal_nocase_nul a b : equal_ignoring_case a b -> (In NUL a <-> In NUL b).
Proof.
  unfold equal_ignoring_case. induction 1 as [|c d a b Hcd H IH]; [tauto|]. simpl. apply same_letter_nul in Hcd.
  rewrite IH. intuition congruence.
Qed.

Lemma string_equals_spec a b : ~ In NUL a \/ ~ In NUL b ->
  (gumbo_string_equals_ignore_case a b = true <-> equal_ignoring_case a b).
Proof.
  intros Hn. unfold gumbo_string_equals_ignore_case. rewrite andb_true_iff, Nat.eqb_eq, str_eqb_nocase_spec.
  split.
  - intros [Hl H]. pose proof (Forall2_same_length _ _ _ H) as H'.
    destruct Hn as [Hn|Hn]; rewrite (c_str_id _ Hn) in H, H'.
    + rewrite c_str_id in H; [exact H|]. apply c_str_full. congruence.
    + rewrite c_str_id in H; [exact H|]. apply c_str_full. congruence.
  - intros H. split; [exact (Forall2_same_length _ _ _ H)|].
    pose proof (equal_nocase_nul a b H) as He. rewrite !c_str_id; tauto.
Qed.

Theorem tag_matches_spec r n : names_ok r n -> (tag_matches r n = true <-> tag_accepts r n).
Proof.
  intros Hs. unfold tag_matches, tag_accepts. destruct (N.eqb_spec (r_tag r) TAG_ANY) as [->|Hany]; [tauto|].
  destruct n as [|t orig attrs cs| | | | |];
    try (split; [discriminate|]; intros [H|[o [a [c [H _]]]]]; [contradiction|discriminate]).
  destruct (N.eqb_spec t (r_tag r)) as [->|Ht]; cbn [negb].
  2:{ split; [discriminate|]. intros [H|[o [a [c [H _]]]]]; [contradiction|]. injection H as H. contradiction. }
  destruct (N.eqb_spec (r_tag r) TAG_UNKNOWN) as [Eu|Hu].
  2:{ split; [|reflexivity]. intros _. right. exists orig, attrs, cs. auto. }
  destruct (r_tagname r) as [name|] eqn:En.
  2:{ split; [discriminate|]. intros [H|[o [a [c [H [H'|[nm [src [H' _]]]]]]]]]; [contradiction|contradiction|congruence]. }
  destruct orig as [[|x src]|].
  1,3: split; [discriminate|]; intros [H|[o [a [c [H [H'|[nm [sr [H1 [H2 [H3 _]]]]]]]]]]]; [contradiction|contradiction|]; injection H as <- _ _; congruence.
  set (orig := gumbo_tag_from_original_text (Some (x :: src))) in *.
  assert (Heq : (if negb (length name =? length orig) then false else gumbo_string_equals_ignore_case name orig) = true
                <-> equal_ignoring_case name orig).
  { assert (Hs' : ~ In NUL name \/ ~ In NUL orig) by (destruct Hs as [Hs|Hs]; [left; now apply Hs|right; now apply (Hs _ _ _ _ eq_refl)]).
    rewrite <- (string_equals_spec name orig Hs'). unfold gumbo_string_equals_ignore_case.
    destruct (length name =? length orig); simpl; [tauto|]. tauto. }
  split.
  - intros H. right. exists (Some (x :: src)), attrs, cs. split; [reflexivity|]. right.
    exists name, (x :: src). split; [reflexivity|]. split; [reflexivity|]. split; [discriminate|]. apply Heq. exact H.
  - intros [H|[o [a [c [H [H'|[nm [sr [H1 [H2 [H3 H4]]]]]]]]]]]; [contradiction|contradiction|].
    injection H as <- _ _. injection H1 as <-. apply Heq. exact H4.
Qed.

Lemma all_match_spec E D p l :
  all_match E D l p = Ok true <-> forall m, In (Some m) l -> mtch_matches E D m p = Ok true.
Proof.
  induction l as [|[m|] l IH]; cbn [all_match].
  - split; [intros _ m []|reflexivity].
  - destruct (mtch_matches E D m p) as [[]|e|u|] eqn:Em; cbn [obind].
    1:{ rewrite IH. split.
      * intros H m' [Hm|Hm]; [injection Hm as <-; exact Em|auto].
      * intros H m' Hm. apply H. now right. }
    all: split; [discriminate|]; intros H; specialize (H m (or_introl eq_refl)); rewrite Em in H; discriminate H.
  - rewrite IH. split.
    + intros H m' [Hm|Hm]; [discriminate|auto].
    + intros H m' Hm. apply H. now right.
Qed.

Theorem Rule_matches_spec E D r p n : nget D p = Some n -> names_ok r n ->
  (Rule_matches E D r p = Ok true <->
   tag_accepts r n /\ forall m, In (Some m) (r_matches r) -> mtch_matches E D m p = Ok true).
Proof.
  intros Hp Hs. unfold Rule_matches, deref. rewrite Hp. cbn [obind].
  rewrite <- (tag_matches_spec r n Hs), <- all_match_spec.
  destruct (tag_matches r n); split; try tauto; try discriminate. intros [H _]. discriminate.
Qed.

Lemma no_name_accepts_nothing r n :
  r_tag r = TAG_UNKNOWN -> r_tagname r = None \/ r_tagname r = Some [] ->
  (forall t orig attrs cs, n = NElement t orig attrs cs -> gumbo_tag_from_original_text orig <> []) ->
  tag_matches r n = false.
Proof.
  intros Ht Hn Ho. unfold tag_matches. rewrite Ht. change (TAG_UNKNOWN =? TAG_ANY)%N with false. cbv iota.
  change (TAG_UNKNOWN =? TAG_UNKNOWN)%N with true. cbv iota.
  destruct n as [|t orig attrs cs| | | | |]; try reflexivity. specialize (Ho t orig attrs cs eq_refl).
  destruct (negb (t =? TAG_UNKNOWN)%N); [reflexivity|]. destruct Hn as [->| ->]; [reflexivity|].
  destruct orig as [[|c src]|]; try reflexivity. cbv zeta.
  match goal with |- context [gumbo_tag_from_original_text ?x] => destruct (gumbo_tag_from_original_text x) as [|d l] eqn:Eo end;
    [now destruct Ho|reflexivity].
Qed.

(** ** C21 *)

Lemma counts_kind (of_type : bool) t c : counts (if of_type then Some t else None) c = kind of_type t c.
Proof. destruct c; try reflexivity. destruct of_type; reflexivity. Qed.

Lemma count_up_val ct l : forall i index count z,
  i <= index -> count_up ct l i index count = Ok z ->
  z = (count + Z.of_nat (length (filter (counts ct) (firstn (S (index - i)) l))))%Z.
Proof.
  induction l as [|c l IH]; intros i index count z Hi H; cbn [count_up] in H; [discriminate|].
  destruct (Nat.eqb_spec i index) as [->|Hne].
  - rewrite Nat.sub_diag. cbn [firstn filter]. destruct (counts ct c); cbn [obind] in H.
    + destruct (int_op (count + 1)) as [y|e|u|] eqn:Ey; cbn [obind] in H; try discriminate. injection H as <-.
      apply int_op_ok in Ey. simpl. lia.
    + injection H as <-. simpl. lia.
  - replace (index - i) with (S (index - S i)) by lia. rewrite firstn_cons. cbn [filter].
    destruct (counts ct c); cbn [obind] in H.
    + destruct (int_op (count + 1)) as [y|e|u|] eqn:Ey; cbn [obind] in H; try discriminate.
      apply int_op_ok in Ey. apply IH in H; [|lia]. rewrite H, Ey. cbn [length]. lia.
    + apply IH in H; [|lia]. rewrite H. lia.
Qed.

Lemma rev_skipn_cons {A} (c : A) l index cs : rev cs = c :: l -> index <= length l ->
  skipn index cs = skipn index (rev l) ++ [c].
Proof.
  intros H Hi. assert (Hc : cs = rev l ++ [c]) by (rewrite <- (rev_involutive cs), H; reflexivity).
  rewrite Hc, skipn_app, rev_length. replace (index - length l) with 0 by lia. reflexivity.
Qed.

Lemma count_down_val ct : forall cs index count z,
  index < length cs -> count_down ct (rev cs) index count = Ok z ->
  z = (count + Z.of_nat (length (filter (counts ct) (skipn index cs))))%Z.
Proof.
  intros cs. remember (rev cs) as l eqn:El. revert cs El.
  induction l as [|c l IH]; intros cs El index count z Hi H.
  - apply (f_equal (@length node)) in El. rewrite rev_length in El. simpl in El. lia.
  - assert (Hl : length cs = S (length l)) by (rewrite <- rev_length, <- El; reflexivity).
    rewrite (rev_skipn_cons c l index cs (eq_sym El)) by lia. rewrite filter_app, app_length.
    cbn [count_down] in H. destruct (Nat.ltb_spec (length l) index) as [Hlt|_]; [lia|].
    assert (Hstep : forall count', (if (length l =? index)%nat then Ok count' else count_down ct l index count') = Ok z ->
       z = (count' + Z.of_nat (length (filter (counts ct) (skipn index (rev l)))))%Z).
    { intros count' HS. destruct (Nat.eqb_spec (length l) index) as [He|He].
      - injection HS as <-. rewrite skipn_all2 by (rewrite rev_length; lia). simpl. lia.
      - apply (IH (rev l)) in HS; [exact HS|now rewrite rev_involutive|rewrite rev_length; lia]. }
    cbn [filter]. destruct (counts ct c); cbn [obind] in H.
    + destruct (int_op (count + 1)) as [y|e|u|] eqn:Ey; cbn [obind] in H; try discriminate.
      apply int_op_ok in Ey. apply Hstep in H. rewrite H, Ey. simpl. lia.
    + apply Hstep in H. rewrite H. simpl. lia.
Qed.

Lemma of_form_pos a b pos : (0 < a)%Z -> (b <= pos)%Z -> (Z.rem (pos - b) a = 0%Z <-> of_form a b pos).
Proof.
  intros Ha Hb. unfold of_form. rewrite Z.rem_mod_nonneg by lia. split.
  - intros H. exists ((pos - b) / a)%Z. split; [apply Z.div_pos; lia|].
    pose proof (Z.div_mod (pos - b) a ltac:(lia)). lia.
  - intros [m [Hm ->]]. replace (a * m + b - b)%Z with (m * a)%Z by lia. apply Z.mod_mul. lia.
Qed.

Lemma of_form_below a b pos : (0 < a)%Z -> (pos < b)%Z -> ~ of_form a b pos.
Proof. intros Ha Hb [m [Hm E]]. nia. Qed.

Lemma of_form_neg a b pos : (a < 0)%Z -> (pos <= b)%Z -> (Z.rem (b - pos) (-1 * a) = 0%Z <-> of_form a b pos).
Proof.
  intros Ha Hb. unfold of_form. rewrite Z.rem_mod_nonneg by lia. split.
  - intros H. exists ((b - pos) / (-1 * a))%Z. split; [apply Z.div_pos; lia|].
    pose proof (Z.div_mod (b - pos) (-1 * a) ltac:(lia)). lia.
  - intros [m [Hm ->]]. replace (b - (a * m + b))%Z with (m * (-1 * a))%Z by lia. apply Z.mod_mul. lia.
Qed.

Lemma of_form_above a b pos : (a < 0)%Z -> (b < pos)%Z -> ~ of_form a b pos.
Proof. intros Ha Hb [m [Hm E]]. nia. Qed.

Lemma of_form_zero b pos : of_form 0 b pos <-> pos = b.
Proof. split; [intros [m [_ E]]; lia|]. intros ->. exists 0%Z. lia. Qed.

Lemma nth_decides pos (step shift : Z) b :
  (if (step =? 0)%Z then Ok (pos =? shift)%Z
   else if (0 <? step)%Z then
     if (pos <? shift)%Z then Ok false
     else obind (int_op (pos - shift)) (fun diff => Ok (Z.rem diff step =? 0)%Z)
   else
     if (shift <? pos)%Z then Ok false
     else obind (int_op (shift - pos)) (fun diff =>
            obind (int_op (-1 * step)) (fun pos_step => Ok (Z.rem diff pos_step =? 0)%Z))) = Ok b ->
  (b = true <-> of_form step shift pos).
Proof.
  destruct (Z.eqb_spec step 0) as [->|Hs].
  { intros H. injection H as <-. rewrite of_form_zero. apply Z.eqb_eq. }
  destruct (Z.ltb_spec 0 step).
  - destruct (Z.ltb_spec pos shift).
    + intros H1. injection H1 as <-. split; [discriminate|]. intros Hf. exfalso. revert Hf. now apply of_form_below.
    + destruct (int_op (pos - shift)) as [d|e|u|] eqn:Ed; cbn [obind]; try discriminate. intros H1. injection H1 as <-.
      apply int_op_ok in Ed. subst d. rewrite Z.eqb_eq. apply of_form_pos; lia.
  - destruct (Z.ltb_spec shift pos).
    + intros H1. injection H1 as <-. split; [discriminate|]. intros Hf. exfalso. revert Hf. apply of_form_above; lia.
    + destruct (int_op (shift - pos)) as [d|e|u|] eqn:Ed; cbn [obind]; try discriminate.
      destruct (int_op (-1 * step)) as [y|e|u|] eqn:Ey; cbn [obind]; try discriminate. intros H1. injection H1 as <-.
      apply int_op_ok in Ed, Ey. subst d y. rewrite Z.eqb_eq. apply of_form_neg; lia.
Qed.

Lemma nget_parent D i pp n : nget D (i :: pp) = Some n ->
  exists par, nget D pp = Some par /\ nth_error (children_of par) i = Some n /\ i < length (children_of par).
Proof.
  cbn [nget]. destruct (nget D pp) as [par|]; [|discriminate]. intros H. exists par. split; [reflexivity|]. split; [exact H|].
  apply nth_error_Some. congruence.
Qed.

Theorem nth_child_spec E D i pp par t orig attrs cs a b o r :
  nget D (i :: pp) = Some (NElement t orig attrs cs) ->
  nget D pp = Some par -> is_element par = true ->
  mtch_matches E D (NthChildMatch a b o) (i :: pp) = Ok r ->
  (r = true <-> of_form a b (position o t (children_of par) i)).
Proof.
  intros Hn Hpar He H. destruct (nget_parent D i pp _ Hn) as [par' [Hpar' [_ Hi]]].
  rewrite Hpar in Hpar'. injection Hpar' as <-.
  cbn [mtch_matches] in H. unfold deref in H. rewrite Hn in H. cbn [obind] in H.
  unfold NthChildMatch_matches in H. set (ct := if opt_of_type o then Some t else None) in H.
  destruct (if opt_first o then count_preceding_siblings D (i :: pp) ct else count_following_siblings D (i :: pp) ct)
    as [z|e|u|] eqn:Ez; cbn [obind] in H; try discriminate.
  assert (Hz : z = position o t (children_of par) i).
  { unfold position. destruct (opt_first o).
    - unfold count_preceding_siblings, deref in Ez. rewrite Hpar in Ez. cbn [obind] in Ez. rewrite He in Ez.
      apply count_up_val in Ez; [|lia]. rewrite Nat.sub_0_r, Z.add_0_l in Ez. rewrite Ez. f_equal. f_equal.
      apply filter_ext. intros c. apply counts_kind.
    - unfold count_following_siblings, deref in Ez. rewrite Hpar in Ez. cbn [obind] in Ez. rewrite He in Ez.
      apply count_down_val in Ez; [|lia]. rewrite Z.add_0_l in Ez. rewrite Ez. f_equal. f_equal.
      apply filter_ext. intros c. apply counts_kind. }
  rewrite <- Hz. now apply nth_decides.
Qed.

Theorem nth_child_answers E D p n a b o :
  nget D p = Some n ->
  (exists size, small_document size D /\ nth_params_safe size (NthChildMatch a b o)) ->
  exists r, mtch_matches E D (NthChildMatch a b o) p = Ok r.
Proof.
  intros Hp [size [HS HP]]. cbn [mtch_matches]. unfold deref. rewrite Hp. cbn [obind].
  pose (E' := mk_engine (fun _ => None) (fun _ _ => Some None) (fun _ _ _ => Some [])).
  pose proof (nth_explained E' D False p n a b o Hp) as H.
  destruct (NthChildMatch_matches D p n a b o) as [r|e|u|]; [eauto| | |contradiction].
  - destruct e; simpl in H; try contradiction. exfalso. apply H. split; intros; discriminate.
  - destruct u; simpl in H; try contradiction. exfalso. now apply (H size HS).
Qed.

(** ** C23 *)

Theorem nth_child_root E D i pp par t orig attrs cs a b o r :
  nget D (i :: pp) = Some (NElement t orig attrs cs) ->
  nget D pp = Some par -> is_element par = false ->
  mtch_matches E D (NthChildMatch a b o) (i :: pp) = Ok r ->
  (r = true <-> of_form a b 0).
Proof.
  intros Hn Hpar He H.
  cbn [mtch_matches] in H. unfold deref in H. rewrite Hn in H. cbn [obind] in H.
  unfold NthChildMatch_matches in H. set (ct := if opt_of_type o then Some t else None) in H.
  assert (Hz : (if opt_first o then count_preceding_siblings D (i :: pp) ct else count_following_siblings D (i :: pp) ct) = Ok 0%Z).
  { unfold count_preceding_siblings, count_following_siblings, deref. rewrite Hpar. cbn [obind]. rewrite He. now destruct (opt_first o). }
  rewrite Hz in H. cbn [obind] in H. now apply nth_decides.
Qed.

(** ** C24 *)

Lemma only_child_loop_spec of_type t l : forall k index,
  only_child_loop of_type t l k index = true <->
  forall j c, nth_error l j = Some c -> k + j <> index -> kind of_type t c = false.
Proof.
  induction l as [|c l IH]; intros k index; cbn [only_child_loop].
  - split; [intros _ [|j] c H; discriminate|reflexivity].
  - assert (HS : (forall j c0, nth_error (c :: l) j = Some c0 -> k + j <> index -> kind of_type t c0 = false) <->
       (k <> index -> kind of_type t c = false) /\ (forall j c0, nth_error l j = Some c0 -> S k + j <> index -> kind of_type t c0 = false)).
    { split.
      - intros H. split.
        + intros Hk. apply (H 0 c eq_refl). lia.
        + intros j c0 Hj Hk. apply (H (S j) c0 Hj). lia.
      - intros [H1 H2] [|j] c0 Hj Hk.
        + injection Hj as <-. apply H1. lia.
        + apply (H2 j c0 Hj). lia. }
    rewrite HS, <- IH.
    destruct c as [|tt orig attrs cs| | | | |]; simpl kind; try (split; [auto|tauto]).
    destruct (Nat.eqb_spec k index) as [->|Hk]; cbn [negb andb].
    + split; [intros H; split; [congruence|exact H]|tauto].
    + destruct (negb of_type || (tt =? t)%N); split; try discriminate; try tauto.
      * intros [H _]. specialize (H Hk). discriminate.
Qed.

Theorem only_child_spec E D p n of_type : nget D p = Some n ->
  (mtch_matches E D (OnlyChildMatch of_type) p = Ok true <->
   exists t orig attrs cs i pp par, n = NElement t orig attrs cs /\ p = i :: pp /\ nget D pp = Some par /\
     is_element par = true /\
     forall j c, nth_error (children_of par) j = Some c -> j <> i -> kind of_type t c = false).
Proof.
  intros Hp. cbn [mtch_matches]. unfold deref. rewrite Hp. cbn [obind]. unfold OnlyChildMatch_matches.
  destruct n as [|t orig attrs cs| | | | |];
    try (split; [discriminate|]; intros [t0 [o0 [a0 [c0 [i [pp [par [H _]]]]]]]]; discriminate).
  destruct p as [|i pp].
  { split; [discriminate|]. intros [t0 [o0 [a0 [c0 [i [pp [par [_ [H _]]]]]]]]]. discriminate. }
  destruct (nget_parent D i pp _ Hp) as [par [Hpar _]]. unfold deref. rewrite Hpar. cbn [obind].
  destruct (is_element par) eqn:He.
  - split.
    + intros H. injection H as H. exists t, orig, attrs, cs, i, pp, par. repeat (split; [assumption || reflexivity|]).
      intros j c Hj Hne. apply (proj1 (only_child_loop_spec of_type t _ 0 i) H j c Hj). exact Hne.
    + intros [t0 [o0 [a0 [c0 [i0 [pp0 [par0 [H1 [H2 [H3 [H4 H5]]]]]]]]]]]. injection H1 as <- _ _ _. injection H2 as <- <-.
      rewrite Hpar in H3. injection H3 as <-. f_equal. apply only_child_loop_spec. exact H5.
  - split; [discriminate|]. intros [t0 [o0 [a0 [c0 [i0 [pp0 [par0 [H1 [H2 [H3 [H4 H5]]]]]]]]]]]. injection H2 as <- <-. congruence.
Qed.

(** ** C25 *)

Lemma count_children_val l : forall count, (0 <= count)%Z -> (count + Z.of_nat (length l) < UINT_MOD)%Z ->
  fold_left (fun count c => if is_element c then ((count + 1) mod UINT_MOD)%Z else count) l count
  = (count + Z.of_nat (length (filter is_element l)))%Z.
Proof.
  induction l as [|c l IH]; intros count Hc Hl; cbn [fold_left filter]; [simpl; lia|]. simpl length in Hl.
  destruct (is_element c).
  - rewrite Z.mod_small by lia. rewrite IH by lia. simpl length. lia.
  - rewrite IH by lia. lia.
Qed.

Theorem child_count_spec E D p n z : nget D p = Some n -> (Z.of_nat (length (children_of n)) < UINT_MOD)%Z ->
  (mtch_matches E D (ChildCountMatch z) p = Ok true <->
   is_element n = true /\ z = Z.of_nat (length (filter is_element (children_of n)))).
Proof.
  intros Hp Hl. cbn [mtch_matches]. unfold deref. rewrite Hp. cbn [obind]. unfold ChildCountMatch_matches.
  destruct n as [|t orig attrs cs| | | | |]; simpl is_element; try (split; [discriminate|intros [H _]; discriminate]).
  simpl children_of in *. unfold count_child_elements. rewrite count_children_val by (unfold UINT_MOD in *; lia). rewrite Z.add_0_l.
  split.
  - intros H. injection H as H. apply Z.eqb_eq in H. auto.
  - intros [_ ->]. now rewrite Z.eqb_refl.
Qed.

Theorem attribute_count_spec E D p n z : nget D p = Some n ->
  (forall t orig attrs cs, n = NElement t orig attrs cs -> (Z.of_nat (length attrs) < UINT_MOD)%Z) ->
  (mtch_matches E D (AttributeCountMatch z) p = Ok true <->
   exists t orig attrs cs, n = NElement t orig attrs cs /\ z = Z.of_nat (length attrs)).
Proof.
  intros Hp Hl. cbn [mtch_matches]. unfold deref. rewrite Hp. cbn [obind]. unfold AttributeCountMatch_matches.
  destruct n as [|t orig attrs cs| | | | |]; try (split; [discriminate|intros [t0 [o0 [a0 [c0 [H _]]]]]; discriminate]).
  specialize (Hl t orig attrs cs eq_refl). rewrite Z.mod_small by lia. split.
  - intros H. injection H as H. apply Z.eqb_eq in H. exists t, orig, attrs, cs. auto.
  - intros [t0 [o0 [a0 [c0 [H ->]]]]]. injection H as _ _ <- _. now rewrite Z.eqb_refl.
Qed.

(** ** C26 *)

Theorem negate_spec E D ms p n : nget D p = Some n ->
  (mtch_matches E D (NegateMatch ms) p = Ok true <->
   forall m, In (Some m) ms -> mtch_matches E D m p = Ok false).
Proof.
  intros Hp. cbn [mtch_matches]. unfold deref. rewrite Hp. cbn [obind].
  set (loop := fix loop (l : list (option mtch)) : outcome bool :=
         match l with
         | [] => Ok true
         | None :: l' => loop l'
         | Some m' :: l' => obind (mtch_matches E D m' p) (fun b => if b then Ok false else loop l')
         end).
  change (loop ms = Ok true <-> forall m, In (Some m) ms -> mtch_matches E D m p = Ok false).
  induction ms as [|[m|] ms IH].
  - split; [intros _ m []|reflexivity].
  - change (loop (Some m :: ms)) with (obind (mtch_matches E D m p) (fun b : bool => if b then Ok false else loop ms)).
    destruct (mtch_matches E D m p) as [[]|e|u|] eqn:Em; cbn [obind];
      try (split; [discriminate|]; intros H; specialize (H m (or_introl eq_refl)); congruence).
    rewrite IH. split.
    + intros H m' [Hm|Hm]; [injection Hm as <-; exact Em|auto].
    + intros H m' Hm. apply H. now right.
  - change (loop (None :: ms)) with (loop ms). rewrite IH. split.
    + intros H m' [Hm|Hm]; [discriminate|auto].
    + intros H m' Hm. apply H. now right.
Qed.

(** It answers false exactly when a trait holds and those before it do not. *)
Theorem negate_false E D ms p n : nget D p = Some n ->
  (mtch_matches E D (NegateMatch ms) p = Ok false <->
   exists l1 m l2, ms = l1 ++ Some m :: l2 /\ mtch_matches E D m p = Ok true /\
     forall m', In (Some m') l1 -> mtch_matches E D m' p = Ok false).
Proof.
  intros Hp. cbn [mtch_matches]. unfold deref. rewrite Hp. cbn [obind].
  set (loop := fix loop (l : list (option mtch)) : outcome bool :=
         match l with
         | [] => Ok true
         | None :: l' => loop l'
         | Some m' :: l' => obind (mtch_matches E D m' p) (fun b => if b then Ok false else loop l')
         end).
  change (loop ms = Ok false <-> exists l1 m l2, ms = l1 ++ Some m :: l2 /\ mtch_matches E D m p = Ok true /\
     forall m', In (Some m') l1 -> mtch_matches E D m' p = Ok false).
  induction ms as [|[m|] ms IH].
  - split; [discriminate|]. intros [[|x l1] [m [l2 [H _]]]]; discriminate.
  - change (loop (Some m :: ms)) with (obind (mtch_matches E D m p) (fun b : bool => if b then Ok false else loop ms)).
    destruct (mtch_matches E D m p) as [[]|e|u|] eqn:Em; cbn [obind].
    + split; [|reflexivity]. intros _. exists [], m, ms. split; [reflexivity|]. split; [exact Em|]. intros m' [].
    + rewrite IH. split.
      * intros [l1 [m0 [l2 [-> [H1 H2]]]]]. exists (Some m :: l1), m0, l2. split; [reflexivity|]. split; [exact H1|].
        intros m' [Hm|Hm]; [injection Hm as <-; exact Em|auto].
      * intros [[|x l1] [m0 [l2 [H0 [H1 H2]]]]].
        -- injection H0 as -> _. congruence.
        -- injection H0 as <- ->. exists l1, m0, l2. split; [reflexivity|]. split; [exact H1|]. intros m' Hm. apply H2. now right.
    + split; [discriminate|]. intros [[|x l1] [m0 [l2 [H0 [H1 H2]]]]]; injection H0 as <- ->; [congruence|].
      specialize (H2 m (or_introl eq_refl)). congruence.
    + split; [discriminate|]. intros [[|x l1] [m0 [l2 [H0 [H1 H2]]]]]; injection H0 as <- ->; [congruence|].
      specialize (H2 m (or_introl eq_refl)). congruence.
    + split; [discriminate|]. intros [[|x l1] [m0 [l2 [H0 [H1 H2]]]]]; injection H0 as <- ->; [congruence|].
      specialize (H2 m (or_introl eq_refl)). congruence.
  - change (loop (None :: ms)) with (loop ms). rewrite IH. split.
    + intros [l1 [m0 [l2 [-> [H1 H2]]]]]. exists (None :: l1), m0, l2. split; [reflexivity|]. split; [exact H1|].
      intros m' [Hm|Hm]; [discriminate|auto].
    + intros [[|x l1] [m0 [l2 [H0 [H1 H2]]]]]; [discriminate|]. injection H0 as <- ->. exists l1, m0, l2.
      split; [reflexivity|]. split; [exact H1|]. intros m' Hm. apply H2. now right.
Qed.

(** ** C27 *)

Lemma get_attribute_some attrs name a : gumbo_get_attribute attrs name = Some a <-> first_attribute name attrs a.
Proof.
  unfold first_attribute. induction attrs as [|b attrs IH]; cbn [gumbo_get_attribute].
  - split; [discriminate|]. intros [[|x l1] [l2 [H _]]]; discriminate.
  - destruct (str_eqb_nocase (a_name b) name) eqn:Eb.
    + apply str_eqb_nocase_spec in Eb. split.
      * intros H. injection H as ->. exists [], attrs. auto.
      * intros [[|x l1] [l2 [H [H1 H2]]]]; injection H as -> H; [reflexivity|]. inversion H2; subst. contradiction.
    + rewrite IH. split.
      * intros [l1 [l2 [-> [H1 H2]]]]. exists (b :: l1), l2. split; [reflexivity|]. split; [exact H1|]. constructor; [|exact H2].
        intros Hb. apply str_eqb_nocase_spec in Hb. congruence.
      * intros [[|x l1] [l2 [H [H1 H2]]]]; injection H as -> H.
        -- apply str_eqb_nocase_spec in H1. congruence.
        -- inversion H2; subst. exists l1, l2. auto.
Qed.

Lemma get_attribute_none attrs name : gumbo_get_attribute attrs name = None <-> no_attribute name attrs.
Proof.
  unfold no_attribute. induction attrs as [|b attrs IH]; cbn [gumbo_get_attribute]; [split; [constructor|reflexivity]|].
  destruct (str_eqb_nocase (a_name b) name) eqn:Eb.
  - split; [discriminate|]. intros H. inversion H; subst. apply str_eqb_nocase_spec in Eb. contradiction.
  - rewrite IH. split.
    + intros H. constructor; [|exact H]. intros Hb. apply str_eqb_nocase_spec in Hb. congruence.
    + intros H. now inversion H.
Qed.

Theorem attribute_exists E D p n name : nget D p = Some n ->
  (mtch_matches E D (AttributeMatch name None) p = Ok true <->
   exists t orig attrs cs a, n = NElement t orig attrs cs /\ first_attribute (c_str name) attrs a).
Proof.
  intros Hp. cbn [mtch_matches]. unfold deref. rewrite Hp. cbn [obind]. unfold AttributeMatch_matches.
  destruct n as [|t orig attrs cs| | | | |]; try (split; [discriminate|intros [t0 [o0 [a0 [c0 [a [H _]]]]]]; discriminate]).
  split.
  - intros H. injection H as H. destruct (gumbo_get_attribute attrs (c_str name)) as [a|] eqn:Ea; [|discriminate].
    apply get_attribute_some in Ea. exists t, orig, attrs, cs, a. auto.
  - intros [t0 [o0 [a0 [c0 [a [H Ha]]]]]]. injection H as _ _ <- _. apply get_attribute_some in Ha. now rewrite Ha.
Qed.

Theorem attribute_test E D p n name test b : nget D p = Some n ->
  (mtch_matches E D (AttributeMatch name (Some test)) p = Ok b <->
   (is_element n = false /\ b = false) \/
   (exists t orig attrs cs, n = NElement t orig attrs cs /\
      ((no_attribute (c_str name) attrs /\ vtest_test E test None = Ok b) \/
       (exists a v, first_attribute (c_str name) attrs a /\ a_value a = Some v /\ vtest_test E test (Some (c_str v)) = Ok b) \/
       (exists a, first_attribute (c_str name) attrs a /\ a_value a = None /\ b = false)))).
Proof.
  intros Hp. cbn [mtch_matches]. unfold deref. rewrite Hp. cbn [obind]. unfold AttributeMatch_matches.
  destruct n as [|t orig attrs cs| | | | |]; simpl is_element;
    try (split; [intros H; injection H as <-; left; auto|intros [[_ ->]|[t0 [o0 [a0 [c0 [H _]]]]]]; [reflexivity|discriminate]]).
  split.
  - intros H. right. exists t, orig, attrs, cs. split; [reflexivity|].
    destruct (gumbo_get_attribute attrs (c_str name)) as [a|] eqn:Ea.
    + apply get_attribute_some in Ea. right. destruct (a_value a) as [v|] eqn:Ev.
      * left. exists a, v. auto.
      * right. exists a. injection H as <-. auto.
    + apply get_attribute_none in Ea. left. auto.
  - intros [[H _]|[t0 [o0 [a0 [c0 [H HC]]]]]]; [discriminate|]. injection H as _ _ <- _.
    destruct HC as [[H1 H2]|[[a [v [H1 [H2 H3]]]]|[a [H1 [H2 H3]]]]].
    + apply get_attribute_none in H1. now rewrite H1.
    + apply get_attribute_some in H1. now rewrite H1, H2.
    + apply get_attribute_some in H1. rewrite H1, H2. now subst.
Qed.

(** A negated test of a missing attribute. *)
Theorem negated_missing E D p t orig attrs cs name test :
  nget D p = Some (NElement t orig attrs cs) -> no_attribute (c_str name) attrs ->
  (forall t', test <> NegateTest t') ->
  mtch_matches E D (AttributeMatch name (Some (NegateTest (Some test)))) p = Ok true.
Proof.
  intros Hp Hn Ht. apply (attribute_test E D p _ name (NegateTest (Some test)) true Hp).
  right. exists t, orig, attrs, cs. split; [reflexivity|]. left. split; [exact Hn|].
  apply negate_test. simpl. pose proof (literal_tests_reject_null E test) as HL.
  destruct test; try exact HL. now destruct (Ht t0).
Qed.

(** ** C28 *)

Lemma apply_pipe_spec E pp x y : apply_pipe E pp x = Ok y <-> piped E (match pp with Some q => pipes_of q | None => [] end) x y.
Proof.
  destruct pp as [q|]; cbn [apply_pipe]; [apply pipe_chain|]. split.
  - intros H. injection H as ->. constructor.
  - intros H. inversion H. reflexivity.
Qed.

Theorem attribute_capture E D p n name result pp out : nget D p = Some n ->
  (capture_capture E D (AttributeCapture name result pp) p = Ok (Some out) <->
   exists t orig attrs cs a v y, n = NElement t orig attrs cs /\ first_attribute (c_str name) attrs a /\
     a_value a = Some v /\ piped E (match pp with Some q => pipes_of q | None => [] end) (c_str v) y /\ out = (result, y)).
Proof.
  intros Hp. unfold capture_capture, deref. rewrite Hp. cbn [obind].
  destruct n as [|t orig attrs cs| | | | |]; try (split; [discriminate|intros [t0 [o0 [a0 [c0 [a [v [y [H _]]]]]]]]; discriminate]).
  split.
  - destruct (gumbo_get_attribute attrs (c_str name)) as [a|] eqn:Ea; [|discriminate]. destruct (a_value a) as [v|] eqn:Ev; [|discriminate].
    destruct (apply_pipe E pp (c_str v)) as [y|e|u|] eqn:Ey; cbn [obind]; try discriminate. intros H. injection H as <-.
    apply get_attribute_some in Ea. apply apply_pipe_spec in Ey. exists t, orig, attrs, cs, a, v, y. auto.
  - intros [t0 [o0 [a0 [c0 [a [v [y [H [H1 [H2 [H3 ->]]]]]]]]]]]. injection H as _ _ <- _.
    apply get_attribute_some in H1. apply apply_pipe_spec in H3. rewrite H1, H2, H3. reflexivity.
Qed.

Theorem attribute_capture_none E D p n name result pp : nget D p = Some n ->
  (capture_capture E D (AttributeCapture name result pp) p = Ok None <->
   forall t orig attrs cs, n = NElement t orig attrs cs ->
     no_attribute (c_str name) attrs \/ exists a, first_attribute (c_str name) attrs a /\ a_value a = None).
Proof.
  intros Hp. unfold capture_capture, deref. rewrite Hp. cbn [obind].
  destruct n as [|t orig attrs cs| | | | |]; try (split; [intros _ t0 o0 a0 c0 H; discriminate|reflexivity]).
  split.
  - intros H t0 o0 a0 c0 H0. injection H0 as _ _ <- _. destruct (gumbo_get_attribute attrs (c_str name)) as [a|] eqn:Ea.
    + right. exists a. apply get_attribute_some in Ea. split; [exact Ea|]. destruct (a_value a) as [v|]; [|reflexivity].
      destruct (apply_pipe E pp (c_str v)); discriminate.
    + left. now apply get_attribute_none.
  - intros H. destruct (H t orig attrs cs eq_refl) as [H1|[a [H1 H2]]].
    + apply get_attribute_none in H1. now rewrite H1.
    + apply get_attribute_some in H1. now rewrite H1, H2.
Qed.

Theorem function_capture E D p n f result pp : nget D p = Some n ->
  (forall out, capture_capture E D (FunctionCapture (Some f) result pp) p = Ok out ->
     exists x y, call_capture_function f D p = Ok x /\
       piped E (match pp with Some q => pipes_of q | None => [] end) x y /\ out = Some (result, y)) /\
  (forall x y, call_capture_function f D p = Ok x ->
     piped E (match pp with Some q => pipes_of q | None => [] end) x y ->
     capture_capture E D (FunctionCapture (Some f) result pp) p = Ok (Some (result, y))).
Proof.
  intros Hp. unfold capture_capture, deref. rewrite Hp. cbn [obind]. split.
  - intros out H. destruct (call_capture_function f D p) as [x|e|u|] eqn:Ex; cbn [obind] in H; try discriminate.
    destruct (apply_pipe E pp x) as [y|e|u|] eqn:Ey; cbn [obind] in H; try discriminate. injection H as <-.
    exists x, y. apply apply_pipe_spec in Ey. auto.
  - intros x y Hx Hy. apply apply_pipe_spec in Hy. rewrite Hx. cbn [obind]. now rewrite Hy.
Qed.

(** ** C31 *)

Lemma tag_names_inj : NoDup tag_names.
Proof.
  assert (Hd : forall a b : str, {a = b} + {a <> b}) by (apply list_eq_dec; apply ascii_dec).
  assert (H : forall l, (fix nodup (l : list str) : bool :=
     match l with [] => true | x :: l' => negb (existsb (str_eqb x) l') && nodup l' end) l = true -> NoDup l).
  { induction l as [|x l IH]; intros H; constructor.
    - intros Hi. apply andb_true_iff in H as [H _]. rewrite negb_true_iff in H.
      assert (Hx : existsb (str_eqb x) l = true) by (apply existsb_exists; exists x; split; [exact Hi|now apply str_eqb_eq]). congruence.
    - apply IH. apply andb_true_iff in H as [_ H]. exact H. }
  apply H. vm_compute. reflexivity.
Qed.

Lemma tag_names_length : length tag_names = N.to_nat TAG_UNKNOWN.
Proof. reflexivity. Qed.

Lemma normalized_inj t t' : (t < TAG_UNKNOWN)%N -> (t' < TAG_UNKNOWN)%N ->
  gumbo_normalized_tagname t = gumbo_normalized_tagname t' -> t = t'.
Proof.
  intros H H' E. unfold gumbo_normalized_tagname in E.
  apply (proj1 (NoDup_nth tag_names []) tag_names_inj) in E; rewrite ?tag_names_length; lia.
Qed.

Theorem known_tags_kind t orig attrs cs t' orig' attrs' cs' a b :
  (t < TAG_UNKNOWN)%N -> (t' < TAG_UNKNOWN)%N ->
  element_name (NElement t orig attrs cs) a -> element_name (NElement t' orig' attrs' cs') b ->
  (kind true t (NElement t' orig' attrs' cs') = true <-> a = b).
Proof.
  intros Ht Ht' [t0 [o0 [a0 [c0 [E1 ->]]]]] [t1 [o1 [a1 [c1 [E2 ->]]]]].
  injection E1 as <- <- <- <-. injection E2 as <- <- <- <-. simpl.
  destruct (N.eqb_spec t TAG_UNKNOWN); [lia|]. destruct (N.eqb_spec t' TAG_UNKNOWN); [lia|].
  rewrite N.eqb_eq. split; [now intros ->|]. intros H. symmetry. now apply normalized_inj.
Qed.

(** ** Negated counts *)

Lemma negate_one E D m p n b : nget D p = Some n -> mtch_matches E D m p = Ok b ->
  (mtch_matches E D (NegateMatch [Some m]) p = Ok true <-> ~ mtch_matches E D m p = Ok true).
Proof.
  intros Hp Hm. rewrite (negate_spec E D [Some m] p n Hp), Hm. split.
  - intros H. specialize (H m (or_introl eq_refl)). congruence.
  - intros H m' [H'|[]]. injection H' as <-. rewrite Hm. destruct b; [now destruct H|reflexivity].
Qed.

Theorem not_child_count E D p n z : nget D p = Some n -> (Z.of_nat (length (children_of n)) < UINT_MOD)%Z ->
  (mtch_matches E D (NegateMatch [Some (ChildCountMatch z)]) p = Ok true <->
   ~ (is_element n = true /\ z = Z.of_nat (length (filter is_element (children_of n))))).
Proof.
  intros Hp Hl. rewrite <- (child_count_spec E D p n z Hp Hl). eapply negate_one; [exact Hp|].
  cbn [mtch_matches]. unfold deref. rewrite Hp. reflexivity.
Qed.

Theorem not_attribute_count E D p n z : nget D p = Some n ->
  (forall t orig attrs cs, n = NElement t orig attrs cs -> (Z.of_nat (length attrs) < UINT_MOD)%Z) ->
  (mtch_matches E D (NegateMatch [Some (AttributeCountMatch z)]) p = Ok true <->
   ~ exists t orig attrs cs, n = NElement t orig attrs cs /\ z = Z.of_nat (length attrs)).
Proof.
  intros Hp Hl. rewrite <- (attribute_count_spec E D p n z Hp Hl). eapply negate_one; [exact Hp|].
  cbn [mtch_matches]. unfold deref. rewrite Hp. reflexivity.
Qed.

Theorem builtin_capture E D p n f result : nget D p = Some n -> (forall g, f <> UserFunction g) ->
  exists y, capture_capture E D (FunctionCapture (Some f) result None) p = Ok (Some (result, y)).
Proof.
  intros Hp Hf. unfold capture_capture, deref. rewrite Hp. cbn [obind].
  destruct f as [| | |g]; cbn [call_capture_function]; unfold deref; rewrite ?Hp; cbn [obind apply_pipe]; eauto. now destruct (Hf g).
Qed.

Theorem nth_child_no_overflow E D p n a b o :
  nget D p = Some n ->
  (exists size, small_document size D /\
     (INT_MIN < a)%Z /\ (INT_MIN <= b <= INT_MAX)%Z /\ (size - b <= INT_MAX)%Z) ->
  mtch_matches E D (NthChildMatch a b o) p <> UB IntOverflow.
Proof. intros Hp H Hc. destruct (nth_child_answers E D p n a b o Hp H) as [r Hr]. congruence. Qed.

(** ** C22, all overflows *)

Theorem nth_child_overflow_iff E D i pp par t orig attrs cs a b o :
  nget D (i :: pp) = Some (NElement t orig attrs cs) ->
  nget D pp = Some par -> is_element par = true ->
  (exists size, small_document size D) ->
  (INT_MIN <= a <= INT_MAX)%Z -> (INT_MIN <= b <= INT_MAX)%Z ->
  mtch_matches E D (NthChildMatch a b o) (i :: pp) = UB IntOverflow <->
  (0 < a /\ INT_MAX < position o t (children_of par) i - b)%Z \/
  (a = INT_MIN /\ position o t (children_of par) i <= b)%Z.
Proof.
  intros Hn Hpar He [size HS] Ha Hb.
  assert (Hc : exists z, z = position o t (children_of par) i /\
    (if opt_first o then count_preceding_siblings D (i :: pp) (if opt_of_type o then Some t else None)
     else count_following_siblings D (i :: pp) (if opt_of_type o then Some t else None)) = Ok z).
  { destruct (nth_child_answers E D (i :: pp) _ 0%Z 0%Z o Hn) as [r Hr].
    { exists size. split; [exact HS|]. destruct HS as [HS _]. unfold nth_params_safe, INT_MIN, INT_MAX in *. lia. }
    destruct (nget_parent D i pp _ Hn) as [par' [Hpar' [_ Hi]]].
    rewrite Hpar in Hpar'. injection Hpar' as <-.
    cbn [mtch_matches] in Hr. unfold deref in Hr. rewrite Hn in Hr. cbn [obind] in Hr.
    unfold NthChildMatch_matches in Hr.
    destruct (if opt_first o then count_preceding_siblings D (i :: pp) (if opt_of_type o then Some t else None)
              else count_following_siblings D (i :: pp) (if opt_of_type o then Some t else None))
      as [z|e|u|] eqn:Ez; cbn [obind] in Hr; try discriminate.
    exists z. split; [|reflexivity]. unfold position. destruct (opt_first o).
    - unfold count_preceding_siblings, deref in Ez. rewrite Hpar in Ez. cbn [obind] in Ez. rewrite He in Ez.
      apply count_up_val in Ez; [|lia]. rewrite Nat.sub_0_r, Z.add_0_l in Ez. rewrite Ez. f_equal. f_equal.
      apply filter_ext. intros c. apply counts_kind.
    - unfold count_following_siblings, deref in Ez. rewrite Hpar in Ez. cbn [obind] in Ez. rewrite He in Ez.
      apply count_down_val in Ez; [|lia]. rewrite Z.add_0_l in Ez. rewrite Ez. f_equal. f_equal.
      apply filter_ext. intros c. apply counts_kind. }
  destruct Hc as [z [Hz Ez]].
  assert (Hz0 : (0 <= z)%Z) by (rewrite Hz; unfold position; lia). rewrite <- Hz.
  cbn [mtch_matches]. unfold deref. rewrite Hn. cbn [obind]. unfold NthChildMatch_matches. rewrite Ez. cbn [obind].
  unfold int_op, fits_int, INT_MIN, INT_MAX in *.
  destruct (Z.eqb_spec a 0) as [->|H0]; [split; [discriminate|lia]|].
  destruct (Z.ltb_spec 0 a).
  - destruct (Z.ltb_spec z b); [split; [discriminate|lia]|].
    destruct (Z.leb_spec (-2147483648) (z - b)); [|lia]. cbn [andb].
    destruct (Z.leb_spec (z - b) 2147483647); cbn [obind]; (split; [try discriminate; lia|intros; try reflexivity; lia]).
  - destruct (Z.ltb_spec b z); [split; [discriminate|lia]|].
    destruct (Z.leb_spec (-2147483648) (b - z)); [|lia]. cbn [andb].
    destruct (Z.leb_spec (b - z) 2147483647); [|lia]. cbn [obind].
    destruct (Z.leb_spec (-2147483648) (-1 * a)); [|lia]. cbn [andb].
    destruct (Z.leb_spec (-1 * a) 2147483647); cbn [obind]; (split; [try discriminate; lia|intros; try reflexivity; lia]).
Qed.
