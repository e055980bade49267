(** C30, C31: what exactly is found where the properties are false. *)

From Coq Require Import Ascii String NArith ZArith Bool List Lia.
From Verif Require Import Base StringUtil Tags Dom NodeUtil Values Match StringSpec ValueSpec NodeSpec Samples ExactSpec ExactProofs.
Import ListNotations.

(** C30. For any list of words: all of them are found, each at one of the places
    that a search from left to right visits. *)
Theorem C30_exact : forall E words subject,
  vtest_test E (ContainsWordsTest words) subject = Ok true <->
  words <> [] /\ exists x, subject = Some x /\
    Forall (fun w => w <> [] /\ exists p, visited w x p /\ word_at w x p) words.
Proof. exact words_exact. Qed.
Print Assumptions C30_exact.

(** There is always an answer, so otherwise it is no. *)
Theorem C30_answers : forall E words subject, exists b, vtest_test E (ContainsWordsTest words) subject = Ok b.
Proof. exact words_answer. Qed.
Print Assumptions C30_answers.

(** The test for a text without words accepts nothing. *)
Theorem C30_no_words : forall E text subject, runs_of " "%char text [] ->
  vtest_test E (make_ContainsWordsTest text) subject = Ok false.
Proof. exact no_words_test. Qed.
Print Assumptions C30_no_words.

Example C30_exact_case :
  visited (s "a a") (s "xa a a") 1 /\ ~ word_at (s "a a") (s "xa a a") 1 /\
  word_at (s "a a") (s "xa a a") 3 /\ ~ visited (s "a a") (s "xa a a") 3 /\
  vtest_test sample_engine (ContainsWordsTest [s "a a"]) (Some (s "xa a b a a")) = Ok true /\
  runs_of " "%char (s "  ") [].
Proof.
  assert (H1 : visited (s "a a") (s "xa a a") 1).
  { apply visited_first; [now exists (s "x"), (s " a")|]. intros q [b [r [H L]]].
    destruct b; [discriminate|]. simpl in L. lia. }
  split; [exact H1|]. split.
  { intros [b [r [H [L [[->|[b' ->]] _]]]]]; [discriminate|]. rewrite app_length in L.
    destruct b'; [discriminate|]. simpl in L. lia. }
  split. { exists (s "xa "), []. repeat split; [right; exists (s "xa"); reflexivity|now left]. }
  split.
  { intros H. inversion H as [p Ho Hm|p p' Hv Ho Hle Hm].
    - assert (3 <= 1); [|lia]. apply Hm. now exists (s "x"), (s " a").
    - assert (p = 0) by (simpl in Hle; lia).
      subst p. inversion Hv as [q Ho' _|q q' _ Ho' _ _]; destruct Ho' as [b [r [Hx L]]]; destruct b; discriminate. }
  split; [reflexivity|]. repeat constructor.
Qed.

(** C31. Two elements count as the same type exactly if their names are the same
    or are both unknown to HTML. *)
Theorem C31_exact : forall t orig attrs cs t' orig' attrs' cs' a b,
  tag_resolved (NElement t orig attrs cs) -> tag_resolved (NElement t' orig' attrs' cs') ->
  element_name (NElement t orig attrs cs) a -> element_name (NElement t' orig' attrs' cs') b ->
  (kind true t (NElement t' orig' attrs' cs') = true <-> same_type a b).
Proof. exact kind_exact. Qed.
Print Assumptions C31_exact.

(** An element is accepted by nth-of-type (or nth-last-of-type) if the number of
    children of its type up to itself (or from itself on) has the form of the
    formula. *)
Theorem C31_nth_of_type : forall E D n a i pp par x y first r,
  nget D (i :: pp) = Some n -> nget D pp = Some par -> is_element par = true ->
  tag_resolved n -> Forall tag_resolved (children_of par) -> element_name n a ->
  mtch_matches E D (NthChildMatch x y (mk_nth_option first true)) (i :: pp) = Ok r ->
  exists k, how_many (fun c => exists b, element_name c b /\ same_type a b)
      (if first then firstn (S i) (children_of par) else skipn i (children_of par)) k /\
    (r = true <-> of_form x y (Z.of_nat k)).
Proof. exact nth_of_type_exact. Qed.
Print Assumptions C31_nth_of_type.

(** An element is the only one of its type if no other child of its parent has a
    name of the same type. *)
Theorem C31_only_of_type : forall E D p n a i pp par,
  nget D p = Some n -> p = i :: pp -> nget D pp = Some par -> is_element par = true ->
  tag_resolved n -> Forall tag_resolved (children_of par) -> element_name n a ->
  (mtch_matches E D (OnlyChildMatch true) p = Ok true <->
   forall j c b, nth_error (children_of par) j = Some c -> j <> i -> element_name c b -> ~ same_type a b).
Proof. exact only_of_type_exact. Qed.
Print Assumptions C31_only_of_type.

(** Two custom elements and a list. *)
Example C31_exact_case :
  let D := page [NElement TAG_UNKNOWN (Some (s "<my-a>")) [] []; el TAG_UL []; NElement TAG_UNKNOWN (Some (s "<my-b>")) [] []] in
  exists n par, nget D (1 :: body) = Some n /\ nget D body = Some par /\ is_element par = true /\
    tag_resolved n /\ Forall tag_resolved (children_of par) /\ element_name n (s "ul") /\
    same_type (s "my-a") (s "my-b") /\ ~ same_type (s "ul") (s "my-b") /\
    mtch_matches sample_engine D (OnlyChildMatch true) (1 :: body) = Ok true /\
    mtch_matches sample_engine D (OnlyChildMatch true) (0 :: body) = Ok false /\
    mtch_matches sample_engine D (NthChildMatch 0 2 (mk_nth_option true true)) (2 :: body) = Ok true /\
    mtch_matches sample_engine D (NthChildMatch 0 2 (mk_nth_option true true)) (1 :: body) = Ok false.
Proof.
  assert (Hu : forall x, existsb (str_eqb x) tag_names = false -> ~ In x tag_names).
  { intros x H Hin. assert (existsb (str_eqb x) tag_names = true); [|congruence].
    apply existsb_exists. exists x. split; [exact Hin|]. now apply StringProofs.str_eqb_eq. }
  assert (HR : forall n, match n with
      | NElement t orig _ _ => (t <? TAG_UNKNOWN)%N || ((t =? TAG_UNKNOWN)%N && negb (existsb (str_eqb (str_lower (gumbo_tag_from_original_text orig))) tag_names))
      | _ => true end = true -> tag_resolved n).
  { intros n H t orig attrs cs ->. apply orb_true_iff in H as [H|H]; [left; now apply N.ltb_lt|].
    apply andb_true_iff in H as [H1 H2]. right. split; [now apply N.eqb_eq|]. apply Hu. now apply negb_true_iff. }
  eexists. eexists. split; [reflexivity|]. split; [reflexivity|]. split; [reflexivity|].
  split; [apply HR; vm_compute; reflexivity|].
  split; [do 3 (apply Forall_cons; [apply HR; vm_compute; reflexivity|]); apply Forall_nil|].
  split; [do 4 eexists; split; reflexivity|].
  split; [right; split; apply Hu; vm_compute; reflexivity|].
  split; [|repeat split].
  intros [H|[H _]]; [discriminate|]. apply H.
  assert (Hi : existsb (str_eqb (s "ul")) tag_names = true) by (vm_compute; reflexivity).
  apply existsb_exists in Hi as [x [Hin Hx]]. apply StringProofs.str_eqb_eq in Hx. subst x. exact Hin.
Qed.
