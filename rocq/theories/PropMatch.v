(** C20 - C28, C31: tags, conditions and captures of a single node. *)

From Coq Require Import Ascii String NArith ZArith Bool List Lia.
From Verif Require Import Base StringUtil Tags Dom NodeUtil Values Match Rule StringSpec ValueSpec ExtractSpec NodeSpec
  NodeProofs Parser Samples.
Import ListNotations.

(** C20. The tag of a rule. *)
Theorem C20_tag : forall r n, names_ok r n -> (tag_matches r n = true <-> tag_accepts r n).
Proof. exact tag_matches_spec. Qed.
Print Assumptions C20_tag.

(** A rule matches a node exactly if its tag accepts it and all conditions hold. *)
Theorem C20_rule_matches : forall E D r p n, nget D p = Some n -> names_ok r n ->
  (Rule_matches E D r p = Ok true <->
   tag_accepts r n /\ forall m, In (Some m) (r_matches r) -> mtch_matches E D m p = Ok true).
Proof. exact Rule_matches_spec. Qed.
Print Assumptions C20_rule_matches.

Theorem C20_no_name : forall r n,
  r_tag r = TAG_UNKNOWN -> r_tagname r = None \/ r_tagname r = Some [] ->
  (forall t orig attrs cs, n = NElement t orig attrs cs -> gumbo_tag_from_original_text orig <> []) ->
  tag_matches r n = false.
Proof. exact no_name_accepts_nothing. Qed.
Print Assumptions C20_no_name.

Definition custom (name : str) : rule := mk_rule None None [] [] [] TAG_UNKNOWN false false (Some name).
Definition custom_el (source : str) (cs : list node) : node := NElement TAG_UNKNOWN (Some source) [] cs.

Example C20_case :
  names_ok (custom (s "my-tag")) (custom_el (s "<MY-Tag a=b>") []) /\
  tag_matches (custom (s "my-tag")) (custom_el (s "<MY-Tag a=b>") []) = true /\
  tag_matches (custom (s "my-tag")) (custom_el (s "<my-tags>") []) = false /\
  tag_matches (custom []) (custom_el (s "<my-tags>") []) = false /\
  tag_matches (plain TAG_LI false false None) (el TAG_LI []) = true /\
  tag_matches (plain TAG_LI false false None) (el TAG_UL []) = false.
Proof.
  repeat split. left. intros name H. injection H as <-. simpl. intros H.
  repeat (destruct H as [H|H]; [discriminate H|]). exact H.
Qed.

(** C21. nth-child and its variants follow the formula of CSS. *)
Theorem C21_formula : forall E D i pp par t orig attrs cs a b o r,
  nget D (i :: pp) = Some (NElement t orig attrs cs) ->
  nget D pp = Some par -> is_element par = true ->
  mtch_matches E D (NthChildMatch a b o) (i :: pp) = Ok r ->
  (r = true <-> of_form a b (position o t (children_of par) i)).
Proof. exact nth_child_spec. Qed.
Print Assumptions C21_formula.

(** There is an answer if the parameters and the document are not too big. *)
Theorem C21_answers : forall E D p n a b o,
  nget D p = Some n ->
  (exists size, small_document size D /\ nth_params_safe size (NthChildMatch a b o)) ->
  exists r, mtch_matches E D (NthChildMatch a b o) p = Ok r.
Proof. exact nth_child_answers. Qed.
Print Assumptions C21_answers.

(** The second [li] of the list, which has a [p] between the two. *)
Example C21_case :
  (exists size, small_document size list_page /\ nth_params_safe size (NthChildMatch 2 1 (mk_nth_option true false))) /\
  mtch_matches sample_engine list_page (NthChildMatch 2 1 (mk_nth_option true false)) (2 :: 0 :: body) = Ok true /\
  mtch_matches sample_engine list_page (NthChildMatch 2 1 (mk_nth_option true true)) (2 :: 0 :: body) = Ok false /\
  mtch_matches sample_engine list_page (NthChildMatch (-1) 2 (mk_nth_option true true)) (2 :: 0 :: body) = Ok true /\
  mtch_matches sample_engine list_page (NthChildMatch 0 2 (mk_nth_option false true)) (0 :: 0 :: body) = Ok true.
Proof.
  split; [|repeat split; reflexivity]. exists 1000%Z. split; [exact list_page_small|]. unfold nth_params_safe, INT_MIN, INT_MAX. lia.
Qed.

(** C22. The arithmetic overflows for parameters that the parser accepts: the
    negation of the factor -2147483648, and the difference of a position and the
    summand -2147483648. *)
Theorem C22_overflow_refuted : exists text R m D p,
  ParseHext sample_engine text = Ok R /\ In (Some m) (r_matches R) /\
  mtch_matches sample_engine D m p = UB IntOverflow.
Proof.
  exists (s "<li:nth-child(-2147483648n+3)/>"). eexists. eexists. exists list_page, (2 :: 0 :: body).
  split; [vm_compute; reflexivity|]. split; [now left|]. vm_compute. reflexivity.
Qed.
Print Assumptions C22_overflow_refuted.

Theorem C22_difference_overflow_refuted : exists text R m D p,
  ParseHext sample_engine text = Ok R /\ In (Some m) (r_matches R) /\
  mtch_matches sample_engine D m p = UB IntOverflow.
Proof.
  exists (s "<li:nth-child(2n-2147483648)/>"). eexists. eexists. exists list_page, (2 :: 0 :: body).
  split; [vm_compute; reflexivity|]. split; [now left|]. vm_compute. reflexivity.
Qed.
Print Assumptions C22_difference_overflow_refuted.

(** It does not if the factor is greater and the summand is at least the number of
    siblings minus 2147483647. Missing: the other parameters, for which it is
    false. *)
Theorem C22_safe_partial : forall E D p n a b o,
  nget D p = Some n ->
  (exists size, small_document size D /\
     (INT_MIN < a)%Z /\ (INT_MIN <= b <= INT_MAX)%Z /\ (size - b <= INT_MAX)%Z) ->
  mtch_matches E D (NthChildMatch a b o) p <> UB IntOverflow.
Proof. exact nth_child_no_overflow. Qed.
Print Assumptions C22_safe_partial.

Example C22_case : exists size, small_document size list_page /\
  (INT_MIN < -2147483647)%Z /\ (INT_MIN <= 1000 - 2147483647 <= INT_MAX)%Z /\ (size - (1000 - 2147483647) <= INT_MAX)%Z.
Proof. exists 1000%Z. split; [exact list_page_small|]. unfold INT_MIN, INT_MAX. lia. Qed.

(** All overflows, for elements with an element as parent: exactly for a positive
    factor if the position minus the summand is above INT_MAX, and for the factor
    INT_MIN if the position is at most the summand. *)
Theorem C22_overflow_iff_partial : forall E D i pp par t orig attrs cs a b o,
  nget D (i :: pp) = Some (NElement t orig attrs cs) ->
  nget D pp = Some par -> is_element par = true ->
  (exists size, small_document size D) ->
  (INT_MIN <= a <= INT_MAX)%Z -> (INT_MIN <= b <= INT_MAX)%Z ->
  mtch_matches E D (NthChildMatch a b o) (i :: pp) = UB IntOverflow <->
  (0 < a /\ INT_MAX < position o t (children_of par) i - b)%Z \/
  (a = INT_MIN /\ position o t (children_of par) i <= b)%Z.
Proof. exact nth_child_overflow_iff. Qed.
Print Assumptions C22_overflow_iff_partial.

(** The third child of the list has position 3: -2147483645 is too small a summand
    for it, -2147483644 is not. *)
Example C22_iff_case :
  (exists size, small_document size list_page) /\
  mtch_matches sample_engine list_page (NthChildMatch 2 (-2147483645) (mk_nth_option true false)) (2 :: 0 :: body) = UB IntOverflow /\
  mtch_matches sample_engine list_page (NthChildMatch 2 (-2147483644) (mk_nth_option true false)) (2 :: 0 :: body) = Ok false /\
  mtch_matches sample_engine list_page (NthChildMatch (-2147483648) 2 (mk_nth_option true false)) (2 :: 0 :: body) = Ok false /\
  mtch_matches sample_engine list_page (NthChildMatch (-2147483648) 3 (mk_nth_option true false)) (2 :: 0 :: body) = UB IntOverflow.
Proof. split; [exists 1000%Z; exact list_page_small|]. repeat split. Qed.

(** C23. The root element has position 0, and is matched as such: [:nth-child(2n)]
    accepts it and [:first-child] does not. *)
Theorem C23_root_refuted : exists D a b,
  (forall m, (0 <= m)%Z -> 1%Z <> (a * m + b)%Z) /\
  exists t orig attrs cs par, nget D [0] = Some (NElement t orig attrs cs) /\ nget D [] = Some par /\ is_element par = false /\
  mtch_matches sample_engine D (NthChildMatch a b (mk_nth_option true false)) [0] = Ok true.
Proof.
  exists list_page, 2%Z, 0%Z. split; [intros m Hm; lia|]. do 5 eexists.
  split; [reflexivity|]. split; [reflexivity|]. split; reflexivity.
Qed.
Print Assumptions C23_root_refuted.

(** What holds: the formula with position 0. *)
Theorem C23_root_partial : forall E D i pp par t orig attrs cs a b o r,
  nget D (i :: pp) = Some (NElement t orig attrs cs) ->
  nget D pp = Some par -> is_element par = false ->
  mtch_matches E D (NthChildMatch a b o) (i :: pp) = Ok r ->
  (r = true <-> of_form a b 0).
Proof. exact nth_child_root. Qed.
Print Assumptions C23_root_partial.

Example C23_case : exists par, nget list_page [] = Some par /\ is_element par = false /\
  mtch_matches sample_engine list_page (NthChildMatch 0 1 (mk_nth_option true false)) [0] = Ok false.
Proof. eexists. repeat split. Qed.

(** C24. only-child. *)
Theorem C24_only_child : forall E D p n of_type, nget D p = Some n ->
  (mtch_matches E D (OnlyChildMatch of_type) p = Ok true <->
   exists t orig attrs cs i pp par, n = NElement t orig attrs cs /\ p = i :: pp /\ nget D pp = Some par /\
     is_element par = true /\
     forall j c, nth_error (children_of par) j = Some c -> j <> i -> kind of_type t c = false).
Proof. exact only_child_spec. Qed.
Print Assumptions C24_only_child.

Example C24_case :
  mtch_matches sample_engine list_page (OnlyChildMatch true) (1 :: 0 :: body) = Ok true /\
  mtch_matches sample_engine list_page (OnlyChildMatch false) (1 :: 0 :: body) = Ok false /\
  mtch_matches sample_engine list_page (OnlyChildMatch false) (0 :: 2 :: 0 :: body) = Ok true /\
  mtch_matches sample_engine list_page (OnlyChildMatch false) [0] = Ok false.
Proof. repeat split. Qed.

(** C25. child-count and attribute-count, for less than 2^32 children or
    attributes. *)
Theorem C25_child_count : forall E D p n z, nget D p = Some n -> (Z.of_nat (length (children_of n)) < UINT_MOD)%Z ->
  (mtch_matches E D (ChildCountMatch z) p = Ok true <->
   is_element n = true /\ z = Z.of_nat (length (filter is_element (children_of n)))).
Proof. exact child_count_spec. Qed.
Print Assumptions C25_child_count.

Theorem C25_attribute_count : forall E D p n z, nget D p = Some n ->
  (forall t orig attrs cs, n = NElement t orig attrs cs -> (Z.of_nat (length attrs) < UINT_MOD)%Z) ->
  (mtch_matches E D (AttributeCountMatch z) p = Ok true <->
   exists t orig attrs cs, n = NElement t orig attrs cs /\ z = Z.of_nat (length attrs)).
Proof. exact attribute_count_spec. Qed.
Print Assumptions C25_attribute_count.

(** Their negations are the complements. *)
Theorem C25_not_child_count : forall E D p n z, nget D p = Some n -> (Z.of_nat (length (children_of n)) < UINT_MOD)%Z ->
  (mtch_matches E D (NegateMatch [Some (ChildCountMatch z)]) p = Ok true <->
   ~ (is_element n = true /\ z = Z.of_nat (length (filter is_element (children_of n))))).
Proof. exact not_child_count. Qed.
Print Assumptions C25_not_child_count.

Theorem C25_not_attribute_count : forall E D p n z, nget D p = Some n ->
  (forall t orig attrs cs, n = NElement t orig attrs cs -> (Z.of_nat (length attrs) < UINT_MOD)%Z) ->
  (mtch_matches E D (NegateMatch [Some (AttributeCountMatch z)]) p = Ok true <->
   ~ exists t orig attrs cs, n = NElement t orig attrs cs /\ z = Z.of_nat (length attrs)).
Proof. exact not_attribute_count. Qed.
Print Assumptions C25_not_attribute_count.

Example C25_case : exists n, nget list_page (0 :: 0 :: body) = Some n /\
  (Z.of_nat (length (children_of n)) < UINT_MOD)%Z /\
  mtch_matches sample_engine list_page (ChildCountMatch 0) (0 :: 0 :: body) = Ok true /\
  mtch_matches sample_engine list_page (ChildCountMatch 3) (0 :: body) = Ok true /\
  mtch_matches sample_engine list_page (AttributeCountMatch 1) (0 :: 0 :: body) = Ok true.
Proof. eexists. repeat split. Qed.

(** C26. Negation. *)
Theorem C26_not : forall E D ms p n, nget D p = Some n ->
  (mtch_matches E D (NegateMatch ms) p = Ok true <->
   forall m, In (Some m) ms -> mtch_matches E D m p = Ok false).
Proof. exact negate_spec. Qed.
Print Assumptions C26_not.

(** The answer is no exactly if a condition holds and those before it do not. *)
Theorem C26_not_false : forall E D ms p n, nget D p = Some n ->
  (mtch_matches E D (NegateMatch ms) p = Ok false <->
   exists l1 m l2, ms = l1 ++ Some m :: l2 /\ mtch_matches E D m p = Ok true /\
     forall m', In (Some m') l1 -> mtch_matches E D m' p = Ok false).
Proof. exact negate_false. Qed.
Print Assumptions C26_not_false.

Theorem C26_negated_test : forall E t subject b,
  vtest_test E (NegateTest (Some t)) subject = Ok b <-> vtest_test E t subject = Ok (negb b).
Proof. exact ValueProofs.negate_test. Qed.
Print Assumptions C26_negated_test.

(** The negation of a test holds for a missing attribute. *)
Theorem C26_missing_attribute : forall E D p t orig attrs cs name test,
  nget D p = Some (NElement t orig attrs cs) -> no_attribute (c_str name) attrs ->
  (forall t', test <> NegateTest t') ->
  mtch_matches E D (AttributeMatch name (Some (NegateTest (Some test)))) p = Ok true.
Proof. exact negated_missing. Qed.
Print Assumptions C26_missing_attribute.

Example C26_case :
  no_attribute (c_str (s "class")) [mk_attr NsNone (s "id") (Some (s "1"))] /\
  mtch_matches sample_engine list_page (AttributeMatch (s "class") (Some (NegateTest (Some (ContainsTest []))))) (0 :: 0 :: body) = Ok true /\
  mtch_matches sample_engine list_page (NegateMatch [Some (OnlyChildMatch false); None; Some (ChildCountMatch 2)]) (0 :: 0 :: body) = Ok true /\
  mtch_matches sample_engine list_page (NegateMatch [Some (OnlyChildMatch false); None; Some (ChildCountMatch 0)]) (0 :: 0 :: body) = Ok false.
Proof.
  split; [|repeat split]. constructor; [|constructor]. intros H. apply ValueProofs.str_eqb_nocase_spec in H. discriminate H.
Qed.

(** C27. Attribute conditions. *)
Theorem C27_exists : forall E D p n name, nget D p = Some n ->
  (mtch_matches E D (AttributeMatch name None) p = Ok true <->
   exists t orig attrs cs a, n = NElement t orig attrs cs /\ first_attribute (c_str name) attrs a).
Proof. exact attribute_exists. Qed.
Print Assumptions C27_exists.

Theorem C27_test : forall E D p n name test b, nget D p = Some n ->
  (mtch_matches E D (AttributeMatch name (Some test)) p = Ok b <->
   (is_element n = false /\ b = false) \/
   (exists t orig attrs cs, n = NElement t orig attrs cs /\
      ((no_attribute (c_str name) attrs /\ vtest_test E test None = Ok b) \/
       (exists a v, first_attribute (c_str name) attrs a /\ a_value a = Some v /\ vtest_test E test (Some (c_str v)) = Ok b) \/
       (exists a, first_attribute (c_str name) attrs a /\ a_value a = None /\ b = false)))).
Proof. exact attribute_test. Qed.
Print Assumptions C27_test.

Definition two_classes : node :=
  page [NElement TAG_P (Some (s "<p>")) [mk_attr NsNone (s "id") (Some (s "1")); mk_attr NsNone (s "CLASS") (Some (s "a"));
                                         mk_attr NsNone (s "class") (Some (s "b"))] []].
Example C27_case :
  mtch_matches sample_engine two_classes (AttributeMatch (s "Class") None) (0 :: body) = Ok true /\
  mtch_matches sample_engine two_classes (AttributeMatch (s "Class") (Some (EqualsTest (s "a")))) (0 :: body) = Ok true /\
  mtch_matches sample_engine two_classes (AttributeMatch (s "Class") (Some (EqualsTest (s "b")))) (0 :: body) = Ok false /\
  mtch_matches sample_engine two_classes (AttributeMatch (s "href") (Some (EqualsTest []))) (0 :: body) = Ok false.
Proof. repeat split. Qed.

(** C28. Captures. The value of an attribute goes through the pipes from left to
    right. *)
Theorem C28_attribute : forall E D p n name result pp out, nget D p = Some n ->
  (capture_capture E D (AttributeCapture name result pp) p = Ok (Some out) <->
   exists t orig attrs cs a v y, n = NElement t orig attrs cs /\ first_attribute (c_str name) attrs a /\
     a_value a = Some v /\ piped E (match pp with Some q => pipes_of q | None => [] end) (c_str v) y /\ out = (result, y)).
Proof. exact attribute_capture. Qed.
Print Assumptions C28_attribute.

Theorem C28_no_attribute : forall E D p n name result pp, nget D p = Some n ->
  (capture_capture E D (AttributeCapture name result pp) p = Ok None <->
   forall t orig attrs cs, n = NElement t orig attrs cs ->
     no_attribute (c_str name) attrs \/ exists a, first_attribute (c_str name) attrs a /\ a_value a = None).
Proof. exact attribute_capture_none. Qed.
Print Assumptions C28_no_attribute.

(** A function's value goes through the pipes, and there always is one. *)
Theorem C28_function : forall E D p n f result pp, nget D p = Some n ->
  (forall out, capture_capture E D (FunctionCapture (Some f) result pp) p = Ok out ->
     exists x y, call_capture_function f D p = Ok x /\
       piped E (match pp with Some q => pipes_of q | None => [] end) x y /\ out = Some (result, y)) /\
  (forall x y, call_capture_function f D p = Ok x ->
     piped E (match pp with Some q => pipes_of q | None => [] end) x y ->
     capture_capture E D (FunctionCapture (Some f) result pp) p = Ok (Some (result, y))).
Proof. exact function_capture. Qed.
Print Assumptions C28_function.

(** The builtin functions return a value for every node. *)
Theorem C28_builtin : forall E D p n f result, nget D p = Some n -> (forall g, f <> UserFunction g) ->
  exists y, capture_capture E D (FunctionCapture (Some f) result None) p = Ok (Some (result, y)).
Proof. exact builtin_capture. Qed.
Print Assumptions C28_builtin.

Example C28_case :
  capture_capture sample_engine two_classes
    (AttributeCapture (s "Class") (s "c") (Some (Pipe (AppendPipe (s "x")) (Some (Pipe (PrependPipe (s "y")) None))))) (0 :: body)
    = Ok (Some (s "c", s "yax")) /\
  capture_capture sample_engine two_classes (AttributeCapture (s "href") (s "c") None) (0 :: body) = Ok None /\
  capture_capture sample_engine list_page (FunctionCapture (Some TextBuiltin) (s "t") None) (0 :: 0 :: body) = Ok (Some (s "t", s "one")).
Proof. repeat split. Qed.

(** C31. All elements that are not known to HTML are of the same type: of two
    custom elements with different names, neither is the only one of its type. *)
Theorem C31_of_type_refuted : exists D i j pp n n' name name' par,
  i <> j /\ nget D pp = Some par /\ length (children_of par) = 2 /\
  nget D (i :: pp) = Some n /\ nget D (j :: pp) = Some n' /\
  element_name n name /\ element_name n' name' /\ name <> name' /\
  mtch_matches sample_engine D (OnlyChildMatch true) (i :: pp) = Ok false /\
  mtch_matches sample_engine D (NthChildMatch 0 1 (mk_nth_option true true)) (j :: pp) = Ok false.
Proof.
  exists (page [custom_el (s "<my-a>") []; custom_el (s "<my-b>") []]), 0, 1, body.
  eexists. eexists. exists (s "my-a"), (s "my-b"). eexists. split; [discriminate|]. split; [reflexivity|]. split; [reflexivity|].
  split; [reflexivity|]. split; [reflexivity|].
  split; [do 4 eexists; split; reflexivity|]. split; [do 4 eexists; split; reflexivity|].
  split; [discriminate|]. split; reflexivity.
Qed.
Print Assumptions C31_of_type_refuted.

(** Elements that are known to HTML count as the same type exactly if they have
    the same name. Missing: other elements, for which it is false. *)
Theorem C31_known_tags_partial : forall t orig attrs cs t' orig' attrs' cs' a b,
  (t < TAG_UNKNOWN)%N -> (t' < TAG_UNKNOWN)%N ->
  element_name (NElement t orig attrs cs) a -> element_name (NElement t' orig' attrs' cs') b ->
  (kind true t (NElement t' orig' attrs' cs') = true <-> a = b).
Proof. exact known_tags_kind. Qed.
Print Assumptions C31_known_tags_partial.

Example C31_case : (TAG_LI < TAG_UNKNOWN)%N /\ (TAG_UL < TAG_UNKNOWN)%N /\ element_name (el TAG_LI []) (s "li") /\
  element_name (el TAG_UL []) (s "ul") /\ kind true TAG_LI (el TAG_UL []) = false.
Proof. repeat split; do 4 eexists; split; reflexivity. Qed.
