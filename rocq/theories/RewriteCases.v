(** The documents and rules of the examples for C76. *)

From Coq Require Import Ascii String NArith ZArith Bool List.
From Verif Require Import Base Tags Dom Values Match Rule RuleMatching StringSpec StringProofs ValueProofs ExtractSpec Samples RewriteSpec.
Import ListNotations.

Lemma rget_first R st : forall rp, rget R (rp ++ [st]) = match rstep_get R st with Some c => rget c rp | None => None end.
Proof. induction rp as [|x rp IH]; cbn [rget app]; [now destruct (rstep_get R st)|]. rewrite IH. destruct (rstep_get R st); reflexivity. Qed.

Lemma trees_equal_step r r' : rules_equal r r' ->
  (forall st, match rstep_get r st, rstep_get r' st with Some c, Some c' => trees_equal c c' | None, None => True | _, _ => False end) ->
  trees_equal r r'.
Proof.
  intros H HS rp. induction rp as [|x rp _] using rev_ind; [exact H|]. rewrite !rget_first. specialize (HS x).
  destruct (rstep_get r x) as [c|], (rstep_get r' x) as [c'|]; [exact (HS rp)|contradiction|contradiction|exact I].
Qed.

(** <x-a id^="v":not([a][b]) id:one @text:two><li:only-child/></x-a> *)
Definition plain_rule : rule :=
  mk_rule (Some (mk_rule None None [] [Some (OnlyChildMatch false)] [] TAG_LI false false None)) None []
    [Some (AttributeMatch (s "id") (Some (BeginsWithTest (s "v")))); Some (NegateMatch [Some (AttributeMatch (s "a") None); Some (AttributeMatch (s "b") None)])]
    [Some (AttributeCapture (s "id") (s "one") None); Some (FunctionCapture (Some TextBuiltin) (s "two") None)]
    TAG_UNKNOWN false false (Some (s "x-a")).
(** <X-A:not([b]) id:not([a]):not(:not(id^="v")) @text:two id:one><li:first-child:last-child/></X-A> *)
Definition odd_rule : rule :=
  mk_rule (Some (mk_rule None None [] [Some (NthChildMatch 0 1 (mk_nth_option true false)); Some (NthChildMatch 0 1 (mk_nth_option false false))] []
                   TAG_LI false false None)) None []
    [Some (NegateMatch [Some (AttributeMatch (s "b") None)]); None; Some (AttributeMatch (s "id") None);
     Some (NegateMatch [Some (AttributeMatch (s "a") None)]);
     Some (NegateMatch [Some (NegateMatch [Some (AttributeMatch (s "id") (Some (BeginsWithTest (s "v"))))])])]
    [Some (FunctionCapture (Some TextBuiltin) (s "two") None); None; Some (AttributeCapture (s "id") (s "one") None)]
    TAG_UNKNOWN false false (Some (s "X-A")).
Definition odd_page : node :=
  page [NElement TAG_UNKNOWN (Some (s "<x-A id=v1>")) [mk_attr NsNone (s "id") (Some (s "v1"))] [el TAG_LI [NText (s "x")]];
        NElement TAG_UNKNOWN (Some (s "<x-A id=v2>")) [mk_attr NsNone (s "id") (Some (s "v2"))] [el TAG_LI [NText (s "y")]; el TAG_LI []];
        NElement TAG_UNKNOWN (Some (s "<x-A id=v3 b>")) [mk_attr NsNone (s "id") (Some (s "v3")); mk_attr NsNone (s "b") (Some [])] [el TAG_LI []]].

Lemma plain_odd_equal : trees_equal plain_rule odd_rule.
Proof.
  apply trees_equal_step.
  - split; [reflexivity|]. split; [reflexivity|]. split; [reflexivity|]. split.
    { intros _. cbn. apply str_eqb_nocase_spec. reflexivity. }
    split.
    + cbn [r_matches plain_rule odd_rule]. set (a := AttributeMatch (s "a") None). set (b := AttributeMatch (s "b") None). set (i := AttributeMatch (s "id") None). set (v := AttributeMatch (s "id") (Some (BeginsWithTest (s "v")))).
      apply equal_chain with ([Some v] ++ [Some (NegateMatch [Some a]); Some (NegateMatch [Some b])] ++ []).
      { apply (equal_part [Some v] [] _ _ (equal_nots [Some a] [Some b])). }
      apply equal_chain with ([] ++ [Some v; Some i] ++ [Some (NegateMatch [Some a]); Some (NegateMatch [Some b])]).
      { apply (equal_part [] [Some (NegateMatch [Some a]); Some (NegateMatch [Some b])] [Some v] [Some v; Some i]).
        apply equal_back, equal_implied, attribute_there. discriminate. }
      apply equal_chain with ([Some (NegateMatch [Some b]); None; Some i; Some (NegateMatch [Some a])] ++ [Some v] ++ []).
      { apply equal_lists. intros m. cbn. intuition congruence. }
      apply (equal_part [Some (NegateMatch [Some b]); None; Some i; Some (NegateMatch [Some a])] [] _ _ (equal_back _ _ (equal_not_not v))).
    + intros name. unfold present. cbn [r_captures plain_rule odd_rule flat_map app filter stores_as]. destruct (str_eqb (s "one") name) eqn:H1, (str_eqb (s "two") name) eqn:H2; try reflexivity.
      apply str_eqb_eq in H1, H2. subst name. discriminate H2.
  - intros [| |k]; cbn; [|exact I|now destruct k].
    apply trees_equal_step; [|intros [| |k]; cbn; [exact I|exact I|now destruct k]].
    do 3 (split; [reflexivity|]). split; [exact I|]. split; [apply equal_only|]. intros name. reflexivity.
Qed.

Lemma plain_odd_case : trees_equal plain_rule odd_rule /\ engine_total sample_engine /\
  (rule_calls_return plain_rule /\ rule_calls_return odd_rule) /\
  (small_document 1000 odd_page /\ rule_params_safe 1000 plain_rule /\ rule_params_safe 1000 odd_rule) /\
  extract_yields sample_engine odd_rule odd_page (Some [0]) 0 (Ok [[(s "one", s "v1"); (s "two", s "x")]]) /\
  extract_yields sample_engine odd_rule odd_page (Some [0]) 2 (Throw MaxSearchError).
Proof.
  split; [exact plain_odd_equal|]. split; [exact sample_engine_total|].
  assert (C : forall R, (forall r, In r (all_rules R) -> (forall m, In (Some m) (r_matches r) -> match_calls_return m /\ nth_params_safe 1000 m) /\
    (forall c, In (Some c) (r_captures r) -> capture_calls_return c)) -> rule_calls_return R /\ rule_params_safe 1000 R).
  { intros R H. split.
    - intros r Hr. apply rule_of_all in Hr. destruct (H r Hr) as [H1 H2]. split; [intros m Hm; now apply H1|exact H2].
    - intros r m Hr Hm. apply rule_of_all in Hr. now apply (proj1 (H r Hr)). }
  destruct (C plain_rule) as [P1 P2].
  { intros r Hr. simpl in Hr. repeat (destruct Hr as [<-|Hr]; [split; intros x Hx; simpl in Hx;
      repeat (destruct Hx as [Hx|Hx]; [try discriminate Hx; injection Hx as <-; cbn; repeat split; try exact I; vm_compute; congruence|]); contradiction|]). contradiction. }
  destruct (C odd_rule) as [O1 O2].
  { intros r Hr. simpl in Hr. repeat (destruct Hr as [<-|Hr]; [split; intros x Hx; simpl in Hx;
      repeat (destruct Hx as [Hx|Hx]; [try discriminate Hx; injection Hx as <-; cbn; repeat split; try exact I; vm_compute; congruence|]); contradiction|]). contradiction. }
  split; [now split|]. split; [split; [apply (width_small 1000 odd_page); vm_compute; congruence|now split]|].
  split; run_extract.
Qed.

(** The order of captures with the same name matters. *)
Lemma order_differs : exists E R R' D res res',
  engine_total E /\ rule_calls_return R /\ rule_calls_return R' /\
  (forall c, In c (r_captures R) <-> In c (r_captures R')) /\
  r_matches R = [] /\ r_matches R' = [] /\ r_tag R = r_tag R' /\
  (r_child R = None /\ r_next R = None /\ r_nested R = []) /\ (r_child R' = None /\ r_next R' = None /\ r_nested R' = []) /\
  extract_yields E R D (Some [0]) 0 (Ok res) /\ extract_yields E R' D (Some [0]) 0 (Ok res') /\ res <> res'.
Proof.
  set (a := Some (AttributeCapture (s "id") (s "x") None)). set (b := Some (FunctionCapture (Some TextBuiltin) (s "x") None)).
  exists sample_engine, (mk_rule None None [] [] [a; b] TAG_P false false None), (mk_rule None None [] [] [b; a] TAG_P false false None),
    (page [el_id TAG_P (s "1") [NText (s "t")]]), [[(s "x", s "1"); (s "x", s "t")]], [[(s "x", s "t"); (s "x", s "1")]].
  split; [exact sample_engine_total|].
  assert (C : forall l, incl l [a; b] -> rule_calls_return (mk_rule None None [] [] l TAG_P false false None)).
  { intros l Hl r Hr. apply rule_of_all in Hr. destruct Hr as [<-|[]]. split; [intros m []|]. intros c Hc. specialize (Hl _ Hc).
    destruct Hl as [H|[H|[]]]; injection H as <-; exact I. }
  split; [apply C; intros x Hx; exact Hx|]. split; [apply C; intros x [Hx|[Hx|[]]]; subst; cbn; auto|].
  split; [intros c; cbn; tauto|]. do 3 (split; [reflexivity|]). do 2 (split; [repeat split|]).
  split; [run_extract|]. split; [run_extract|discriminate].
Qed.

(** The order of conditions matters if one of them throws. *)
Lemma throw_differs : exists E R R' D res,
  engine_total E /\ trees_equal R R' /\
  extract_yields E R D (Some [0]) 0 (Ok res) /\ extract_yields E R' D (Some [0]) 0 (Throw UserException).
Proof.
  set (a := Some (AttributeMatch (s "id") None)). set (b := Some (FunctionMatch (Some (fun _ _ => FThrow)))).
  exists sample_engine, (mk_rule None None [] [a; b] [] TAG_P false false None), (mk_rule None None [] [b; a] [] TAG_P false false None),
    (page [el TAG_P []]), [].
  split; [exact sample_engine_total|]. split.
  { apply trees_equal_step; [|intros [| |k]; cbn; [exact I|exact I|now destruct k]].
    do 3 (split; [reflexivity|]). split; [exact I|]. split; [|intros name; reflexivity]. apply equal_lists. intros m. cbn. tauto. }
  split; run_extract.
Qed.
