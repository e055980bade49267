(** The evaluators compute what MeaningSpec.v says (C60). *)

From Coq Require Import Ascii String Arith NArith ZArith Bool List Lia.
From Verif Require Import Base StringUtil Tags Dom NodeUtil Values Match Rule RuleMatching StringSpec ValueSpec NodeSpec TextSpec
  StringProofs ValueProofs NodeProofs TextProofs MatchRefine MatchSpec ExtractSpec RuleProofs LocalProofs MeaningSpec.
Import ListNotations.

(** ** Texts *)

Lemma spread_exists n : spread n (StripTags true n).
Proof.
  induction n as [n IH] using node_ind2. destruct n; cbn [children_of] in IH; try constructor.
  rewrite StripTags_element. constructor.
  induction IH as [|c cs Hc _ IHl]; cbn [map]; constructor; [|exact IHl].
  destruct (piece_wrap c) as [[Hb ->]|[Hb ->]]; constructor; assumption.
Qed.

Lemma spread_unique n : forall x, spread n x -> x = StripTags true n.
Proof.
  induction n as [n IH] using node_ind2. intros x H. inversion H; subst; try reflexivity.
  rewrite StripTags_element. f_equal. cbn [children_of] in IH. clear H.
  match goal with HF : Forall2 spread_part _ _ |- _ => rename HF into F end.
  induction F as [|c y cs ys Hc F IHF]; cbn [map]; [reflexivity|].
  inversion IH as [|? ? I1 I2]; subst. f_equal; [|now apply IHF].
  destruct (piece_wrap c) as [[Hb ->]|[Hb ->]]; inversion Hc; subst; try contradiction.
  - match goal with HS : spread c _ |- _ => rewrite (I1 _ HS) end. reflexivity.
  - match goal with HS : spread c _ |- _ => now apply I1 in HS end.
Qed.

Lemma text_of_node_iff n y : text_of_node n y <-> y = NodeText n.
Proof.
  split.
  - intros [x [ws [Hx [Hw ->]]]]. apply spread_unique in Hx. subst x. unfold NodeText. now rewrite (collapse_of_words _ _ Hw).
  - intros ->. destruct (words_exist (StripTags true n)) as [ws Hw]. exists (StripTags true n), ws.
    split; [apply spread_exists|]. split; [exact Hw|]. unfold NodeText. now rewrite (collapse_of_words _ _ Hw).
Qed.

Lemma escaped_iff x y : escaped x y <-> y = quoted_body x.
Proof.
  split.
  - induction 1 as [|c x y Hc _ IH|c x y H1 H2 _ IH]; cbn [quoted_body]; [reflexivity| |].
    + subst. destruct Hc as [->| ->]; reflexivity.
    + apply Ascii.eqb_neq in H1, H2. rewrite H1, H2. cbn [orb]. now f_equal.
  - intros ->. induction x as [|c x IH]; cbn [quoted_body]; [constructor|].
    destruct (Ascii.eqb_spec c """"%char) as [H1|H1]; cbn [orb]; [constructor; auto|].
    destruct (Ascii.eqb_spec c "\"%char) as [H2|H2]; constructor; auto.
Qed.

Lemma source_name_iff t orig name : source_name t orig name <-> name = SerializeElementTag t orig.
Proof.
  unfold source_name, SerializeElementTag. destruct (N.eqb_spec t TAG_UNKNOWN) as [H|H]; split; intuition.
Qed.

Lemma attribute_markup_iff a x : attribute_markup a x <-> x = SerializeAttribute a.
Proof.
  destruct a as [ns name v]. unfold attribute_markup, SerializeAttribute. cbn [a_ns a_name a_value]. split.
  - intros [prefix [Hp H]].
    assert (Hpre : prefix = match ns with NsNone => [] | NsXlink => s "xlink:" | NsXml => s "xml:" | NsXmlns => s "xmlns:" end).
    { cbn [In] in Hp. destruct Hp as [Hp|[Hp|[Hp|[Hp|[]]]]]; injection Hp as <- <-; reflexivity. }
    subst prefix. clear Hp. destruct H as [[-> ->]|[v' [y [-> [He ->]]]]].
    + now rewrite app_nil_r.
    + apply escaped_iff in He. subst y. unfold std_quoted. do 3 f_equal.
  - intros ->. exists (match ns with NsNone => [] | NsXlink => s "xlink:" | NsXml => s "xml:" | NsXmlns => s "xmlns:" end).
    split; [destruct ns; cbn; auto|]. destruct v as [v|].
    + right. exists v, (quoted_body (c_str v)). split; [reflexivity|]. split; [now apply escaped_iff|]. unfold std_quoted. do 3 f_equal.
    + left. split; [reflexivity|]. now rewrite app_nil_r.
Qed.

Lemma attributes_markup attrs : Forall2 attribute_markup attrs (map SerializeAttribute attrs).
Proof. induction attrs as [|a l IH]; constructor; [now apply attribute_markup_iff|exact IH]. Qed.

Lemma attributes_markup_unique attrs parts : Forall2 attribute_markup attrs parts -> parts = map SerializeAttribute attrs.
Proof. induction 1 as [|a x l l' H _ IH]; cbn [map]; [reflexivity|]. apply attribute_markup_iff in H. now subst. Qed.

Lemma serialize_loop cs :
  (fix loop (l : list node) : str := match l with [] => [] | c :: l' => SerializeNode c ++ loop l' end) cs
  = concat (map SerializeNode cs).
Proof. induction cs as [|c l IH]; cbn [map concat]; [reflexivity|]. now rewrite <- IH. Qed.

Lemma serialize_element n t orig attrs cs : n = NElement t orig attrs cs \/ n = NTemplate t orig attrs cs ->
  SerializeNode n =
    s "<" ++ SerializeElementTag t orig ++ concat (map SerializeAttribute attrs) ++
    (if TagIsSelfClosing t then s "/>"
     else s ">" ++ concat (map SerializeNode cs) ++ s "</" ++ SerializeElementTag t orig ++ s ">").
Proof. rewrite <- serialize_loop. intros [->| ->]; reflexivity. Qed.

Lemma self_closing_not t : TagIsSelfClosing t = false <-> ~ In (gumbo_normalized_tagname t) void_names.
Proof. rewrite <- self_closing_names. destruct (TagIsSelfClosing t); split; congruence. Qed.

Lemma markup_exists n : markup n (SerializeNode n).
Proof.
  induction n as [n IH] using node_ind2.
  assert (HE : forall t orig attrs cs, n = NElement t orig attrs cs \/ n = NTemplate t orig attrs cs ->
    Forall (fun c => markup c (SerializeNode c)) cs -> markup n (SerializeNode n)).
  { intros t orig attrs cs Hn HF. rewrite (serialize_element n t orig attrs cs Hn).
    destruct (TagIsSelfClosing t) eqn:Hs.
    - eapply markup_void; [exact Hn|now apply source_name_iff|apply attributes_markup|now apply self_closing_names].
    - eapply markup_element; [exact Hn|now apply source_name_iff|apply attributes_markup|now apply self_closing_not|].
      clear -HF. induction HF; constructor; assumption. }
  destruct n as [b x y z cs|t orig attrs cs|t orig attrs cs|x|x|x|x]; cbn [children_of] in IH; try (eapply HE; eauto; fail);
    try constructor.
  destruct b; cbn [SerializeNode]; [|constructor]. unfold SerializeDocument. constructor.
Qed.

Lemma markup_unique n : forall x, markup n x -> x = SerializeNode n.
Proof.
  induction n as [n IH] using node_ind2. intros x H.
  inversion H as [| | | | | |n' t orig attrs cs name parts Hn H1 H2 H3|n' t orig attrs cs name parts inner Hn H1 H2 H3 H4];
    subst; try reflexivity.
  - rewrite (serialize_element n t orig attrs cs Hn). apply source_name_iff in H1. apply attributes_markup_unique in H2.
    apply self_closing_names in H3. rewrite H3. now subst.
  - rewrite (serialize_element n t orig attrs cs Hn). apply source_name_iff in H1. apply attributes_markup_unique in H2.
    apply self_closing_not in H3. rewrite H3.
    assert (HI : inner = map SerializeNode cs).
    { assert (IH' : Forall (fun c => forall x, markup c x -> x = SerializeNode c) cs).
      { destruct Hn as [->| ->]; exact IH. }
      clear -H4 IH'. induction H4 as [|c y l l' Hc _ IHl]; [reflexivity|]. inversion IH'; subst. cbn [map]. f_equal; auto. }
    now subst.
Qed.

Lemma inner_markup_iff n x : inner_markup n x <-> x = NodeInnerHtml n.
Proof.
  destruct n; cbn [inner_markup NodeInnerHtml]; try reflexivity. split.
  - intros [parts [H ->]]. f_equal. induction H as [|c y l l' Hc _ IH]; [reflexivity|]. cbn [map].
    f_equal; [now apply markup_unique|exact IH].
  - intros ->. eexists. split; [|reflexivity]. induction children as [|c l IH]; constructor; [apply markup_exists|exact IH].
Qed.

Lemma function_gives_iff D p f x : (exists n, nget D p = Some n) ->
  (function_gives D p f x <-> call_capture_function f D p = Ok x).
Proof.
  intros [n Hn]. unfold function_gives, call_capture_function, deref. rewrite Hn. cbn [obind]. split.
  - intros [n' [Hn' H]]. injection Hn' as <-. destruct f as [| | |g].
    + apply text_of_node_iff in H. now subst.
    + apply inner_markup_iff in H. now subst.
    + subst. now rewrite StripTags_text.
    + now rewrite H.
  - intros H. exists n. split; [reflexivity|]. destruct f as [| | |g].
    + apply text_of_node_iff. congruence.
    + apply inner_markup_iff. congruence.
    + rewrite <- StripTags_text. congruence.
    + destruct (g D p) as [y|]; cbn [call] in H; congruence.
Qed.

(** ** Tests *)

Section Meaning.
Variable E : engine.

Lemma true_iff {A} (P : A -> Prop) (b : bool) : forall (o : outcome bool) (a : A),
  (o = Ok true <-> P a) -> o = Ok b -> (b = true <-> P a).
Proof. intros o a H ->. rewrite <- H. split; congruence. Qed.

Lemma words_hold words subject b : (forall w, In w words -> ~ In " "%char w) ->
  vtest_test E (ContainsWordsTest words) subject = Ok b -> (b = true <-> test_holds E (ContainsWordsTest words) subject).
Proof.
  intros Hw H. cbn [vtest_test] in H. injection H as <-. cbn [test_holds]. destruct subject as [x|]; [|split; [congruence|intros [x [H _]]; congruence]].
  destruct words as [|w0 ws0]; [split; [congruence|intros [? [_ [H _]]]; now elim H]|].
  rewrite forallb_forall. split.
  - intros H. exists x. split; [reflexivity|]. split; [discriminate|]. intros w Hin. specialize (H w Hin).
    assert (Hne : w <> []). { intros ->. unfold ContainsWord in H. cbn [length Nat.eqb] in H. rewrite orb_true_r in H. discriminate. }
    split; [exact Hne|]. now apply ContainsWord_spec in H; [|exact Hne|apply Hw].
  - intros [y [Hy [_ H]]] w Hin. injection Hy as <-. destruct (H w Hin) as [Hne Hi]. apply ContainsWord_spec; auto.
Qed.

Lemma found_iff rx x b : obind (regex_search E rx x) (fun r => Ok (is_some r)) = Ok b -> (b = true <-> found E rx x).
Proof.
  unfold regex_search, found. destruct (eng_search E rx x) as [[r|]|]; cbn [obind is_some]; intros H; try discriminate;
    injection H as <-; split; try congruence; eauto. intros [r H]; discriminate.
Qed.

Lemma test_holds_iff t : forall subject b, test_plain t -> vtest_test E t subject = Ok b -> (b = true <-> test_holds E t subject).
Proof.
  revert t. fix IH 1. intros t subject b Hp H. destruct t as [l|l|l|w|l|rx|[t'|]].
  - exact (true_iff (fun _ => _) b _ tt (begins_test E l subject) H).
  - exact (true_iff (fun _ => _) b _ tt (ends_test E l subject) H).
  - exact (true_iff (fun _ => _) b _ tt (contains_test E l subject) H).
  - now apply words_hold.
  - exact (true_iff (fun _ => _) b _ tt (equals_test E l subject) H).
  - cbn [vtest_test] in H. cbn [test_holds]. destruct subject as [x|].
    + rewrite (found_iff rx x b H). split; [eauto|]. intros [y [Hy Hf]]. congruence.
    + injection H as <-. split; [congruence|]. intros [y [Hy _]]. discriminate.
  - apply (negate_test E t' subject b) in H. cbn [test_holds]. rewrite <- (IH t' subject (negb b) Hp H). destruct b; cbn [negb]; split; congruence.
  - cbn [vtest_test] in H. injection H as <-. cbn [test_holds]. destruct subject; split; congruence.
Qed.

(** ** Pipes *)

Lemma upper_nodup : NoDup upper_letters.
Proof. apply (NoDup_count_occ ascii_dec). intros c. destruct c as [[] [] [] [] [] [] [] []]; vm_compute; lia. Qed.
Lemma lower_nodup : NoDup lower_letters.
Proof. apply (NoDup_count_occ ascii_dec). intros c. destruct c as [[] [] [] [] [] [] [] []]; vm_compute; lia. Qed.

Lemma letters_mapped_unique from to : NoDup from -> forall x y, Forall2 (letter_mapped from to) x y ->
  forall z, Forall2 (letter_mapped from to) x z -> y = z.
Proof.
  intros HU x y H. induction H as [|c d l l' A Hl IH]; intros z HT; inversion HT as [|? e ? l'' B HT']; subst; [reflexivity|].
  f_equal; [|now apply IH]. destruct A as [[k [A1 A2]]|[A1 A2]]; destruct B as [[j [B1 B2]]|[B1 B2]].
  + assert (k = j). { apply (proj1 (NoDup_nth_error from) HU); [|congruence]. apply nth_error_Some. congruence. } subst. congruence.
  + exfalso. apply B1. eapply nth_error_In; eauto.
  + exfalso. apply A1. eapply nth_error_In; eauto.
  + congruence.
Qed.

Lemma turned_iff t x y : turned E t x y <-> transform_str E t x = Ok y.
Proof.
  destruct t as [a|a|chars|[]| |rx|rx fmt].
  - cbn [turned transform_str]. split; [intros ->; reflexivity|intros H; now injection H as <-].
  - cbn [turned transform_str]. split; [intros ->; reflexivity|intros H; now injection H as <-].
  - cbn [turned]. destruct (trim_pipe_unique E chars x) as [z [Hz [Ht Hu]]]. rewrite Hz. split; [intros HT; now rewrite (Hu y HT)|congruence].
  - cbn [turned]. destruct (case_pipe E true x) as [z [Hz Ht]]. rewrite Hz. split; [|congruence].
    intros HT. f_equal. eapply letters_mapped_unique; [exact upper_nodup|exact Ht|exact HT].
  - cbn [turned]. destruct (case_pipe E false x) as [z [Hz Ht]]. rewrite Hz. split; [|congruence].
    intros HT. f_equal. eapply letters_mapped_unique; [exact lower_nodup|exact Ht|exact HT].
  - cbn [turned transform_str]. split; [intros [ws [Hw ->]]; now apply TrimAndCollapseWs_words|].
    intros H. destruct (words_exist x) as [ws Hw]. exists ws. split; [exact Hw|]. rewrite (TrimAndCollapseWs_words x ws Hw) in H. congruence.
  - symmetry. apply regex_pipe.
  - cbn [turned transform_str]. unfold regex_replace. destruct (eng_replace E rx x fmt); split; congruence.
Qed.
Lemma through_iff ts x y : through E ts x y <-> piped E ts x y.
Proof.
  split; induction 1 as [|t ts x z y H _ IH]; econstructor; try eassumption; now apply turned_iff.
Qed.

Lemma through_pipe_iff q x y : through_pipe E q x y <-> apply_pipe E q x = Ok y.
Proof. unfold through_pipe. now rewrite through_iff, apply_pipe_spec. Qed.

(** ** Conditions *)

Section Node.
Variable D : node.
Variable p : npath.
Variable n : node.
Hypothesis Hn : nget D p = Some n.
Hypothesis Hfit : (Z.of_nat (length (children_of n)) < UINT_MOD)%Z /\
    (forall t orig attrs cs, n = NElement t orig attrs cs -> (Z.of_nat (length attrs) < UINT_MOD)%Z).

Lemma holds_negate ms :
  holds E D p (NegateMatch ms) <-> forall m, In (Some m) ms -> ~ holds E D p m.
Proof.
  cbn [holds]. transitivity ((fix none (l : list (option mtch)) : Prop :=
         match l with [] => True | Some m' :: l' => ~ holds E D p m' /\ none l' | None :: l' => none l' end) ms).
  - split; [intros [? [_ H]]; exact H|]. intros H. exists n. split; [exact Hn|exact H].
  - induction ms as [|[m|] ms IH]; [now split; [intros _ m []|]| |].
    + rewrite IH. split.
      * intros [H1 H2] m' [Hm|Hm]; [injection Hm as <-; exact H1|now apply H2].
      * intros H. split; [apply H; now left|]. intros m' Hm. apply H. now right.
    + rewrite IH. split; intros H m' Hm; apply H; [destruct Hm; [discriminate|assumption]|now right].
Qed.

Lemma condition_plain_negate ms : condition_plain (NegateMatch ms) <-> forall m, In (Some m) ms -> condition_plain m.
Proof.
  cbn [condition_plain]. induction ms as [|[m|] ms IH]; [now split; [intros _ m []|]| |].
  - rewrite IH. split.
    + intros [H1 H2] m' [Hm|Hm]; [injection Hm as <-; exact H1|now apply H2].
    + intros H. split; [apply H; now left|]. intros m' Hm. apply H. now right.
  - rewrite IH. split; intros H m' Hm; apply H; [destruct Hm; [discriminate|assumption]|now right].
Qed.

Ltac elem := let t := fresh "t" in let o := fresh "o" in let a := fresh "a" in let c := fresh "c" in
  intros [t [o [a [c H]]]].

Lemma only_elements (m : mtch) (Q : tag -> list attr -> list node -> Prop) b :
  (is_element n = false -> b = false) ->
  (forall t orig attrs cs, n = NElement t orig attrs cs -> (b = true <-> Q t attrs cs)) ->
  (b = true <-> exists n', nget D p = Some n' /\ exists t orig attrs cs, n' = NElement t orig attrs cs /\ Q t attrs cs).
Proof.
  intros H1 H2. split.
  - intros Hb. exists n. split; [exact Hn|]. destruct n as [| t orig attrs cs| | | | |]; try (rewrite H1 in Hb by reflexivity; discriminate).
    exists t, orig, attrs, cs. split; [reflexivity|]. now apply (H2 t orig attrs cs eq_refl).
  - intros [n' [Hn' [t [orig [attrs [cs [He HQ]]]]]]]. rewrite Hn in Hn'. injection Hn' as <-. now apply (H2 t orig attrs cs He).
Qed.

Lemma function_subject f x : function_gives D p f x <-> call_capture_function f D p = Ok x.
Proof. clear Hfit. apply function_gives_iff. eauto. Qed.

Theorem holds_iff m : forall b, condition_plain m -> mtch_matches E D m p = Ok b -> (b = true <-> holds E D p m).
Proof.
  induction m as [ms IH|m Hm] using mtch_ind2; intros b Hpl H.
  - rewrite holds_negate. rewrite condition_plain_negate in Hpl. rewrite Forall_forall in IH. destruct b.
    + split; [intros _|reflexivity]. intros m Hin Hh. pose proof (proj1 (negate_spec E D ms p n Hn) H m Hin) as Hf.
      apply (IH (Some m) Hin m eq_refl false (Hpl m Hin) Hf) in Hh. discriminate.
    + split; [discriminate|]. intros HN. apply (negate_false E D ms p n Hn) in H. destruct H as [l1 [m [l2 [-> [Ht _]]]]].
      exfalso. assert (Hin : In (Some m) (l1 ++ Some m :: l2)) by (apply in_or_app; right; now left).
      apply (HN m Hin). now apply (IH (Some m) Hin m eq_refl true (Hpl m Hin) Ht).
  - assert (Hd : deref D p = Ok n) by (unfold deref; now rewrite Hn).
    destruct m as [z|a t|z|f|f t|ms|a b0 o|o|rx].
    + cbn [holds]. apply (only_elements (AttributeCountMatch z) (fun _ attrs _ => z = Z.of_nat (length attrs))).
      * intros He. cbn [mtch_matches] in H. rewrite Hd in H. cbn [obind] in H. destruct n; cbn in *; congruence.
      * intros t orig attrs cs ->. destruct Hfit as [_ HA]. pose proof (attribute_count_spec E D p _ z Hn HA) as S0.
        rewrite (true_iff (fun _ => _) b _ tt S0 H). split; [|eauto 6]. intros [? [? [? [? [Hx ->]]]]]. now injection Hx as <- <- <- <-.
    + cbn [holds]. destruct t as [t|].
      * apply (only_elements (AttributeMatch a (Some t)) (fun _ attrs _ =>
          (no_attribute (c_str a) attrs /\ test_holds E t None) \/
          (exists at0 v, first_attribute (c_str a) attrs at0 /\ a_value at0 = Some v /\ test_holds E t (Some (c_str v))))).
        -- intros He. apply (attribute_test E D p n a t b Hn) in H. destruct H as [[_ H]|[? [? [? [? [Hx _]]]]]]; [exact H|]. rewrite Hx in He. discriminate.
        -- intros t0 orig attrs cs ->. cbn [mtch_matches] in H. rewrite Hd in H. cbn [obind AttributeMatch_matches] in H.
           cbn [condition_plain] in Hpl.
           destruct (gumbo_get_attribute attrs (c_str a)) as [at0|] eqn:Ea.
           ++ apply get_attribute_some in Ea.
              assert (Hun : forall at1, first_attribute (c_str a) attrs at1 -> at1 = at0).
              { intros at1 H1. apply get_attribute_some in H1, Ea. congruence. }
              assert (Hno : ~ no_attribute (c_str a) attrs).
              { intros H1. apply get_attribute_none in H1. apply get_attribute_some in Ea. congruence. }
              destruct (a_value at0) as [v|] eqn:Ev.
              ** rewrite (test_holds_iff t _ b Hpl H). split; [intros HT; right; eauto|].
                 intros [[HX _]|[at1 [v1 [H1 [H2 H3]]]]]; [contradiction|]. apply Hun in H1. subst at1. congruence.
              ** injection H as <-. split; [discriminate|]. intros [[HX _]|[at1 [v1 [H1 [H2 H3]]]]]; [contradiction|].
                 apply Hun in H1. subst at1. congruence.
           ++ apply get_attribute_none in Ea. rewrite (test_holds_iff t _ b Hpl H). split; [intros HT; left; auto|].
              intros [[_ HX]|[at1 [v1 [H1 _]]]]; [exact HX|]. apply get_attribute_some in H1. apply get_attribute_none in Ea. congruence.
      * apply (only_elements (AttributeMatch a None) (fun _ attrs _ => exists at0, first_attribute (c_str a) attrs at0)).
        -- intros He. cbn [mtch_matches] in H. rewrite Hd in H. cbn [obind] in H. destruct n; cbn in *; congruence.
        -- intros t0 orig attrs cs ->. pose proof (attribute_exists E D p _ a Hn) as S0.
           rewrite (true_iff (fun _ => _) b _ tt S0 H). split; [|intros [at0 H0]; eauto 8].
           intros [? [? [? [? [at0 [Hx H0]]]]]]. injection Hx as <- <- <- <-. eauto.
    + cbn [holds]. apply (only_elements (ChildCountMatch z) (fun _ _ cs => z = Z.of_nat (length (filter is_element cs)))).
      * intros He. cbn [mtch_matches] in H. rewrite Hd in H. cbn [obind] in H. destruct n; cbn in *; congruence.
      * intros t orig attrs cs ->. destruct Hfit as [HC _]. pose proof (child_count_spec E D p _ z Hn HC) as S0.
        rewrite (true_iff (fun _ => _) b _ tt S0 H). cbn [is_element children_of]. tauto.
    + cbn [mtch_matches] in H. rewrite Hd in H. cbn [obind] in H. cbn [holds]. destruct f as [f|].
      * destruct (f D p) as [b'|] eqn:Ef; cbn [call] in H; [|discriminate]. injection H as ->. split.
        -- intros ->. eauto 6.
        -- intros [_ [_ [g [Hg HR]]]]. congruence.
      * injection H as <-. split; [discriminate|]. intros [_ [_ [g [Hg _]]]]. discriminate.
    + cbn [mtch_matches] in H. rewrite Hd in H. cbn [obind] in H. cbn [holds].
      destruct f as [f|]; [destruct t as [t|]|].
      * destruct (call_capture_function f D p) as [x|e|u|] eqn:Ef; cbn [obind] in H; try discriminate.
        rewrite (test_holds_iff t _ b Hpl H). split.
        -- intros HT. exists n. split; [exact Hn|]. exists f, t, x. repeat split; try reflexivity; [|exact HT]. now apply function_subject.
        -- intros [_ [_ [g [t' [x' [Hg [Ht' [Hx HT]]]]]]]]. injection Hg as <-. injection Ht' as <-. apply function_subject in Hx. congruence.
      * injection H as <-. split; [discriminate|]. intros [_ [_ [g [t' [x' [_ [Ht' _]]]]]]]. discriminate.
      * injection H as <-. split; [discriminate|]. intros [_ [_ [g [t' [x' [Hg _]]]]]]. discriminate.
    + exfalso. now apply (Hm ms).
    + cbn [holds]. apply (only_elements (NthChildMatch a b0 o) (fun t _ _ => exists pos, place D p o t pos /\ of_form a b0 pos)).
      * intros He. cbn [mtch_matches] in H. rewrite Hd in H. cbn [obind] in H. destruct n; cbn in *; congruence.
      * intros t orig attrs cs ->. destruct p as [|i pp] eqn:Ep.
        -- cbn [mtch_matches] in H. rewrite Hd in H. cbn [obind NthChildMatch_matches] in H.
           assert (Hz : (if opt_first o then count_preceding_siblings D [] (if opt_of_type o then Some t else None)
                         else count_following_siblings D [] (if opt_of_type o then Some t else None)) = Ok 0%Z) by (now destruct (opt_first o)).
           rewrite Hz in H. cbn [obind] in H. apply nth_decides in H. rewrite H. split.
           ++ intros HF. exists 0%Z. split; [right; split; [intros; discriminate|reflexivity]|exact HF].
           ++ intros [pos [[[i [pp [par [HX _]]]]|[_ ->]] HF]]; [discriminate|exact HF].
        -- destruct (nget_parent D i pp _ Hn) as [par [Hpar _]]. destruct (is_element par) eqn:He.
           ++ rewrite (nth_child_spec E D i pp par t orig attrs cs a b0 o b Hn Hpar He H). split.
              ** intros HF. eexists. split; [left; exists i, pp, par; repeat split; assumption|exact HF].
              ** intros [pos [[[i' [pp' [par' [HX [HY [HZ ->]]]]]]|[HX _]] HF]].
                 --- injection HX as <- <-. rewrite Hpar in HY. injection HY as <-. exact HF.
                 --- rewrite (HX i pp par eq_refl Hpar) in He. discriminate.
           ++ rewrite (nth_child_root E D i pp par t orig attrs cs a b0 o b Hn Hpar He H). split.
              ** intros HF. exists 0%Z. split; [right; split; [|reflexivity]|exact HF]. intros i' pp' par' HX HY. injection HX as <- <-. congruence.
              ** intros [pos [[[i' [pp' [par' [HX [HY [HZ ->]]]]]]|[_ ->]] HF]]; [|exact HF]. injection HX as <- <-. congruence.
    + pose proof (only_child_spec E D p n o Hn) as S0. cbn [holds]. apply (only_elements (OnlyChildMatch o) (fun t _ _ =>
        exists i pp par, p = i :: pp /\ nget D pp = Some par /\ is_element par = true /\
            forall j c, nth_error (children_of par) j = Some c -> j <> i -> kind o t c = false)).
      * intros He. cbn [mtch_matches] in H. rewrite Hd in H. cbn [obind] in H. destruct n; cbn in *; congruence.
      * intros t orig attrs cs ->. rewrite (true_iff (fun _ => _) b _ tt S0 H). split.
        -- intros [? [? [? [? [i [pp [par [Hx HR]]]]]]]]. injection Hx as <- <- <- <-. eauto.
        -- intros [i [pp [par HR]]]. exists t, orig, attrs, cs, i, pp, par. split; [reflexivity|exact HR].
    + cbn [mtch_matches] in H. rewrite Hd in H. cbn [obind] in H. unfold TypeRegexMatch_matches in H. apply found_iff in H. rewrite H. clear H.
      cbn [holds]. split.
      * intros HF. exists n. split; [exact Hn|]. destruct n as [| t orig attrs cs| | | | |]; try (right; split; [reflexivity|exact HF]).
        left. exists t, orig, attrs, cs. eexists. split; [reflexivity|]. split; [apply source_name_iff; reflexivity|exact HF].
      * intros [n' [Hn' H]]. rewrite Hn in Hn'. injection Hn' as <-. destruct H as [[t [orig [attrs [cs [name [-> [HS HF]]]]]]]|[He HF]].
        -- apply source_name_iff in HS. subst name. exact HF.
        -- destruct n; try discriminate; exact HF.
Qed.

(** A rule's own conditions. *)
Theorem meets_iff r b : (forall name, r_tagname r = Some name -> ~ In NUL name) ->
  (forall m, In (Some m) (r_matches r) -> condition_plain m) ->
  Rule_matches E D r p = Ok b -> (b = true <-> meets E D p r).
Proof.
  intros Hnul Hpl H. assert (HN : names_ok r n) by (left; exact Hnul).
  pose proof (Rule_matches_spec E D r p n Hn HN) as S0. unfold meets.
  assert (HT : forall m, In (Some m) (r_matches r) -> mtch_matches E D m p = Ok true -> holds E D p m).
  { intros m Hin Hm. now apply (holds_iff m true (Hpl m Hin) Hm). }
  destruct b.
  - split; [intros _|reflexivity]. apply S0 in H as [H1 H2]. exists n. split; [exact Hn|]. split; [exact H1|]. intros m Hin. apply HT; auto.
  - split; [discriminate|]. intros [n' [Hn' [H1 H2]]]. rewrite Hn in Hn'. injection Hn' as <-. exfalso.
    unfold Rule_matches, deref in H. rewrite Hn in H. cbn [obind] in H. apply (tag_matches_spec r n HN) in H1. rewrite H1 in H.
    clear S0 HT H1. induction (r_matches r) as [|[m|] l IH]; cbn [all_match] in H; [discriminate| |].
    + destruct (mtch_matches E D m p) as [[]|e|u|] eqn:Em; cbn [obind] in H; try discriminate.
      * apply IH; [intros; apply Hpl; now right|exact H|intros; apply H2; now right].
      * pose proof (H2 m (or_introl eq_refl)) as HH. apply (holds_iff m false (Hpl m (or_introl eq_refl)) Em) in HH. discriminate.
    + apply IH; [intros; apply Hpl; now right|exact H|intros; apply H2; now right].
Qed.

(** ** Captures *)

Theorem takes_iff c o : takes E D p c o <-> capture_capture E D c p = Ok o.
Proof.
  clear Hfit.
  destruct c as [a nm q|[f|] nm q]; cbn [takes].
  - destruct o as [out|].
    + rewrite (attribute_capture E D p n a nm q out Hn). split.
      * intros [[t [orig [attrs [cs [at0 [v [y [H1 [H2 [H3 [H4 H5]]]]]]]]]]]|[n' [_ [_ H]]]]; [|discriminate].
        rewrite Hn in H1. injection H1 as ->. injection H5 as ->. exists t, orig, attrs, cs, at0, v, y.
        repeat split; try assumption. now apply through_iff.
      * intros [t [orig [attrs [cs [at0 [v [y [-> [H2 [H3 [H4 ->]]]]]]]]]]]. left. exists t, orig, attrs, cs, at0, v, y.
        repeat split; try assumption. now apply through_iff.
    + rewrite (attribute_capture_none E D p n a nm q Hn). split.
      * intros [[t [orig [attrs [cs [at0 [v [y [_ [_ [_ [_ H]]]]]]]]]]]|[n' [H1 [H2 _]]]]; [discriminate|].
        rewrite Hn in H1. injection H1 as <-. exact H2.
      * intros H. right. exists n. repeat split; auto.
  - destruct (function_capture E D p n f nm q Hn) as [F1 F2]. split.
    + intros [x [y [H1 [H2 ->]]]]. apply function_subject in H1. apply (F2 x y H1). now apply through_iff.
    + intros H. destruct (F1 o H) as [x [y [H1 [H2 ->]]]]. exists x, y. split; [now apply function_subject|]. split; [|reflexivity]. now apply through_iff.
  - unfold capture_capture, deref. rewrite Hn. cbn [obind]. split; [intros ->; reflexivity|intros H; now injection H as <-].
Qed.

Lemma values_at_iff r values : values_at E D p r values <-> rule_values E D r p values.
Proof.
  clear Hfit.
  unfold values_at, rule_values. split; intros [outs [H ->]]; exists outs; (split; [|reflexivity]);
    induction H; constructor; try assumption; now apply takes_iff.
Qed.

End Node.
End Meaning.
