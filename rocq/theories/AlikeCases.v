(** The documents and rules of the examples for C75. *)

From Coq Require Import Ascii String NArith ZArith Bool List Permutation.
From Verif Require Import Base Tags Dom Values Match Rule RuleMatching MatchSpec ExtractSpec ExtractProofs TextSpec Samples AlikeSpec.
Import ListNotations.

(** <ul><li id=1 class=a>one</li><p/><li id=2><b/></li></ul><div/> *)
Definition tidy_page : node :=
  page [el TAG_UL [NElement TAG_LI (Some (s "<li>")) [mk_attr NsNone (s "id") (Some (s "1")); mk_attr NsNone (s "class") (Some (s "a"))] [NText (s "one")];
                   el TAG_P []; el_id TAG_LI (s "2") [el TAG_B []]]; el TAG_DIV []].
(** The same with comments, a cut text and the attributes of the item exchanged. *)
Definition untidy_page : node :=
  NDocument false [] [] [] [NComment (s "first"); el TAG_HTML [el TAG_HEAD []; el TAG_BODY
   [el TAG_UL [NComment (s "x"); NElement TAG_LI None [mk_attr NsNone (s "class") (Some (s "a")); mk_attr NsNone (s "id") (Some (s "1"))]
                  [NText (s "o"); NComment (s "y"); NText (s "ne")];
               el TAG_P [NComment (s "z")]; el_id TAG_LI (s "2") [NCdata (s "c"); el TAG_B []; NComment (s "w")]]; NComment (s "v"); el TAG_DIV []]];
   NComment (s "last")].

Lemma untidy_same : blind true list_rule /\ same_place true tidy_page untidy_page [0] [1] /\
  (small_document 1000 tidy_page /\ small_document 1000 untidy_page /\ rule_params_safe 1000 list_rule) /\
  engine_total sample_engine /\ rule_calls_return list_rule /\
  extract_yields sample_engine list_rule untidy_page (Some [1]) 0
    (Ok [[(s "item", s "1"); (s "item", s "2"); (s "text", s "one")]]).
Proof.
  split.
  { intros r Hr. apply rule_of_all in Hr. simpl in Hr.
    repeat (destruct Hr as [<-|Hr]; [split; [left; discriminate|]; split;
      [intros [H|H]; first [now destruct H | eexists; (split; [left; reflexivity|discriminate])]|];
      split; intros x Hx; simpl in Hx; repeat (destruct Hx as [Hx|Hx]; [injection Hx as <-; simpl; auto|]); contradiction|]).
    contradiction. }
  assert (N : forall l l', Forall (fun n => is_element n = false) l -> Forall (fun n => is_element n = false) l' ->
    concat (map full_text l) = concat (map full_text l') -> gaps_alike true l l') by (intros; repeat split; auto).
  assert (A : forall a, attributes_alike a a) by (intros; now left).
  assert (T : forall t o o', (t < TAG_UNKNOWN)%N -> tags_alike t o o').
  { intros t o o' H. left. intros ->. now apply N.lt_irrefl in H. }
  assert (X : forall gap gap', gaps_alike true gap gap' -> forall n n' l l', alike true n n' -> alikes true l l' ->
    alikes true (gap ++ n :: l) (gap' ++ n' :: l')) by (intros; now constructor).
  assert (e : gaps_alike true [] []) by (apply N; constructor).
  assert (Q : forall l', Forall (fun n => is_element n = false) l' -> concat (map full_text l') = [] -> alikes true [] l').
  { intros l' H1 H2. apply alikes_end. apply N; [constructor|exact H1|now rewrite H2]. }
  assert (B : alikes true [el TAG_B []] [NCdata (s "c"); el TAG_B []; NComment (s "w")]).
  { apply (X [] [NCdata (s "c")]); [apply N; repeat constructor| |apply Q; repeat constructor].
    constructor; [now apply T|apply A|now apply alikes_end]. }
  assert (L : alike true (NElement TAG_LI (Some (s "<li>")) [mk_attr NsNone (s "id") (Some (s "1")); mk_attr NsNone (s "class") (Some (s "a"))] [NText (s "one")])
    (NElement TAG_LI None [mk_attr NsNone (s "class") (Some (s "a")); mk_attr NsNone (s "id") (Some (s "1"))] [NText (s "o"); NComment (s "y"); NText (s "ne")])).
  { constructor; [now apply T| |apply alikes_end; apply N; [repeat constructor|repeat constructor|reflexivity]].
    right. split; [apply perm_swap|]. constructor; [intros [H|[]]; discriminate H|]. constructor; [intros []|constructor]. }
  assert (P : alike true (el TAG_P []) (el TAG_P [NComment (s "z")])).
  { constructor; [now apply T|apply A|apply Q; repeat constructor]. }
  assert (U : alike true (el TAG_HTML [el TAG_HEAD []; el TAG_BODY
      [el TAG_UL [NElement TAG_LI (Some (s "<li>")) [mk_attr NsNone (s "id") (Some (s "1")); mk_attr NsNone (s "class") (Some (s "a"))] [NText (s "one")];
                   el TAG_P []; el_id TAG_LI (s "2") [el TAG_B []]]; el TAG_DIV []]])
    (el TAG_HTML [el TAG_HEAD []; el TAG_BODY
      [el TAG_UL [NComment (s "x"); NElement TAG_LI None [mk_attr NsNone (s "class") (Some (s "a")); mk_attr NsNone (s "id") (Some (s "1"))]
                  [NText (s "o"); NComment (s "y"); NText (s "ne")];
               el TAG_P [NComment (s "z")]; el_id TAG_LI (s "2") [NCdata (s "c"); el TAG_B []; NComment (s "w")]]; NComment (s "v"); el TAG_DIV []]])).
  { constructor; [now apply T|apply A|].
    apply (X [] [] e); [constructor; [now apply T|apply A|now apply alikes_end]|].
    apply (X [] [] e); [|now apply alikes_end]. constructor; [now apply T|apply A|].
    apply (X [] [] e).
    - constructor; [now apply T|apply A|].
      apply (X [] [NComment (s "x")]); [apply N; repeat constructor|exact L|].
      apply (X [] [] e); [exact P|]. apply (X [] [] e); [|now apply alikes_end].
      constructor; [now apply T|apply A|exact B].
    - apply (X [] [NComment (s "v")]); [apply N; repeat constructor| |now apply alikes_end].
      constructor; [now apply T|apply A|now apply alikes_end]. }
  split.
  { apply (place_below true tidy_page untidy_page [] [] tidy_page untidy_page [] [NComment (s "first")] _ _ [] [NComment (s "last")]
      ltac:(constructor; constructor; apply (X [] [NComment (s "first")]); [apply N; repeat constructor|exact U|apply Q; repeat constructor])
      eq_refl eq_refl eq_refl eq_refl); [apply Q; repeat constructor|exact U|apply Q; repeat constructor]. }
  split; [split; [apply (width_small 1000 tidy_page); vm_compute; congruence|split; [apply (width_small 1000 untidy_page); vm_compute; congruence|exact list_rule_safe]]|].
  split; [exact sample_engine_total|]. split; [exact list_rule_calls|]. run_extract.
Qed.

(** Without these restrictions it does not hold. A rule for any element matches
    comments, too. *)
Lemma any_differs : exists E R D D' res res',
  engine_total E /\ rule_calls_return R /\
  (forall r, rule_of R r -> needs_something r /\ r_matches r = [] /\ forall c, In (Some c) (r_captures r) -> capture_blind true c) /\
  same_place true D D' [0] [0] /\
  extract_yields E R D (Some [0]) 0 (Ok res) /\ extract_yields E R D' (Some [0]) 0 (Ok res') /\ res <> res'.
Proof.
  set (R := mk_rule (Some (mk_rule None None [] [] [Some (FunctionCapture (Some TextBuiltin) (s "text") None)] TAG_ANY false false None)) None [] [] []
    TAG_P false false None).
  exists sample_engine, R, (NDocument true [] [] [] [el TAG_P []]), (NDocument true [] [] [] [el TAG_P [NComment (s "x")]]), [], [[(s "text", [])]].
  assert (HR : forall r, rule_of R r -> needs_something r /\ r_matches r = [] /\ forall c, In (Some c) (r_captures r) ->
    capture_blind true c /\ capture_calls_return c).
  { intros r Hr. apply rule_of_all in Hr. simpl in Hr. destruct Hr as [<-|[<-|[]]].
    - split; [intros _; eexists; split; [left; reflexivity|discriminate]|]. split; [reflexivity|intros c []].
    - split; [intros [H|H]; now destruct H|]. split; [reflexivity|]. intros c [H|[]]. injection H as <-. split; [reflexivity|exact I]. }
  split; [exact sample_engine_total|].
  split; [intros r Hr; destruct (HR r Hr) as [_ [-> H]]; split; [intros m []|intros c Hc; now apply H]|].
  split; [intros r Hr; destruct (HR r Hr) as [H1 [H2 H3]]; split; [exact H1|]; split; [exact H2|intros c Hc; now apply H3]|].
  assert (G : forall l, Forall (fun n => is_element n = false) l -> concat (map full_text l) = [] -> gaps_alike true [] l).
  { intros l H1 H2. split; [constructor|]. split; [exact H1|]. intros _. now rewrite H2. }
  assert (e : gaps_alike true [] []) by (apply G; constructor).
  assert (A : alike true (el TAG_P []) (el TAG_P [NComment (s "x")])).
  { constructor; [left; discriminate|now left|]. apply alikes_end. apply G; repeat constructor. }
  split.
  { apply (place_below true (NDocument true [] [] [] [el TAG_P []]) (NDocument true [] [] [] [el TAG_P [NComment (s "x")]]) [] [] _ _ [] [] _ _ [] []
      ltac:(constructor; constructor; apply (alikes_next true [] [] _ _ [] [] e A (alikes_end true [] [] e))) eq_refl eq_refl eq_refl eq_refl);
      [now apply alikes_end|exact A|now apply alikes_end]. }
  split; [run_extract|]. split; [run_extract|discriminate].
Qed.

(** A rule that has only optional child rules matches an element that contains a
    comment but not an empty one. *)
Lemma optional_differs : exists E R D D' res res',
  engine_total E /\ rule_calls_return R /\
  (forall r, rule_of R r -> for_elements r /\ r_matches r = [] /\ forall c, In (Some c) (r_captures r) -> capture_blind true c) /\
  same_place true D D' [0] [0] /\
  extract_yields E R D (Some [0]) 0 (Ok res) /\ extract_yields E R D' (Some [0]) 0 (Ok res') /\ res <> res'.
Proof.
  set (R := mk_rule (Some (plain TAG_A true false None)) None [] [] [Some (FunctionCapture (Some TextBuiltin) (s "text") None)]
    TAG_P false false None).
  exists sample_engine, R, (NDocument true [] [] [] [el TAG_P []]), (NDocument true [] [] [] [el TAG_P [NComment (s "x")]]), [], [[(s "text", [])]].
  assert (HR : forall r, rule_of R r -> for_elements r /\ r_matches r = [] /\ forall c, In (Some c) (r_captures r) ->
    capture_blind true c /\ capture_calls_return c).
  { intros r Hr. apply rule_of_all in Hr. simpl in Hr. destruct Hr as [<-|[<-|[]]].
    - split; [left; discriminate|]. split; [reflexivity|]. intros c [H|[]]. injection H as <-. split; [reflexivity|exact I].
    - split; [left; discriminate|]. split; [reflexivity|intros c []]. }
  split; [exact sample_engine_total|].
  split; [intros r Hr; destruct (HR r Hr) as [_ [-> H]]; split; [intros m []|intros c Hc; now apply H]|].
  split; [intros r Hr; destruct (HR r Hr) as [H1 [H2 H3]]; split; [exact H1|]; split; [exact H2|intros c Hc; now apply H3]|].
  assert (G : forall l, Forall (fun n => is_element n = false) l -> concat (map full_text l) = [] -> gaps_alike true [] l).
  { intros l H1 H2. split; [constructor|]. split; [exact H1|]. intros _. now rewrite H2. }
  assert (e : gaps_alike true [] []) by (apply G; constructor).
  assert (A : alike true (el TAG_P []) (el TAG_P [NComment (s "x")])).
  { constructor; [left; discriminate|now left|]. apply alikes_end. apply G; repeat constructor. }
  split.
  { apply (place_below true (NDocument true [] [] [] [el TAG_P []]) (NDocument true [] [] [] [el TAG_P [NComment (s "x")]]) [] [] _ _ [] [] _ _ [] []
      ltac:(constructor; constructor; apply (alikes_next true [] [] _ _ [] [] e A (alikes_end true [] [] e))) eq_refl eq_refl eq_refl eq_refl);
      [now apply alikes_end|exact A|now apply alikes_end]. }
  split; [run_extract|]. split; [run_extract|discriminate].
Qed.

(** With a limit comments count: an element that contains only a comment is
    searched, an empty one is not. *)
Lemma limit_differs : exists E R D D' res limit,
  engine_total E /\ blind true R /\ same_place true D D' [0] [0] /\
  extract_yields E R D (Some [0]) limit (Ok res) /\ extract_yields E R D' (Some [0]) limit (Throw MaxSearchError).
Proof.
  set (R := mk_rule (Some (plain TAG_A false false None)) None [] [] [] TAG_P false false None).
  exists sample_engine, R, (NDocument true [] [] [] [el TAG_P []]), (NDocument true [] [] [] [el TAG_P [NComment (s "x")]]), [], 2%N.
  split; [exact sample_engine_total|].
  split.
  { intros r Hr. apply rule_of_all in Hr. simpl in Hr. destruct Hr as [<-|[<-|[]]].
    - split; [left; discriminate|]. split; [intros _; eexists; split; [left; reflexivity|discriminate]|]. split; intros x [].
    - split; [left; discriminate|]. split; [intros [H|H]; now destruct H|]. split; intros x []. }
  assert (G : forall l, Forall (fun n => is_element n = false) l -> concat (map full_text l) = [] -> gaps_alike true [] l).
  { intros l H1 H2. split; [constructor|]. split; [exact H1|]. intros _. now rewrite H2. }
  assert (e : gaps_alike true [] []) by (apply G; constructor).
  assert (A : alike true (el TAG_P []) (el TAG_P [NComment (s "x")])).
  { constructor; [left; discriminate|now left|]. apply alikes_end. apply G; repeat constructor. }
  split.
  { apply (place_below true (NDocument true [] [] [] [el TAG_P []]) (NDocument true [] [] [] [el TAG_P [NComment (s "x")]]) [] [] _ _ [] [] _ _ [] []
      ltac:(constructor; constructor; apply (alikes_next true [] [] _ _ [] [] e A (alikes_end true [] [] e))) eq_refl eq_refl eq_refl eq_refl);
      [now apply alikes_end|exact A|now apply alikes_end]. }
  split; run_extract.
Qed.
