(** Cases for C81: a rule in braces, an optional one and a greedy one; the page of
    the example chaining; and a rule with a sibling, which is no path. *)

From Coq Require Import Ascii String NArith ZArith Bool List Lia Sorted Permutation.
From Verif Require Import Base Tags Dom Values Match Rule RuleMatching MatchSpec ExtractSpec SearchSpec
  ExtractProofs ExtractMain ResultProofs Samples MeaningSpec PathSpec PathProofs Chaining ChainingSpec MeaningCases.
Import ListNotations.

(** The result of a rule without siblings is the only one that the description
    allows. *)
Theorem path_unique E D R i pp res res' : path_result E D R i pp res -> path_result E D R i pp res' -> res = res'.
Proof.
  unfold path_result. generalize (filter nonempty_list (flat_map (group_values E D R) (sibling_lists D i pp))).
  intros l H. revert res'. induction H as [|v m l res Hv H IH]; intros res' H'; inversion H' as [|v' m' l' r' Hv' Hr']; subst.
  - reflexivity.
  - destruct Hv as [S1 [_ V1]], Hv' as [S2 [_ V2]]. f_equal; [|auto].
    apply sorted_same_values; auto. intros name. now rewrite V1, V2.
Qed.

Theorem path_computes E D R i pp t res : no_siblings R -> nget D (i :: pp) = Some t ->
  engine_total E -> rule_calls_return R -> (exists size, small_document size D /\ rule_params_safe size R) ->
  (extract_yields E R D (Some (i :: pp)) 0 (Ok res) <-> path_result E D R i pp res).
Proof.
  intros HR Hp HE HC HS. split; [exact (path_extract E D R i pp t 0 res HR Hp)|]. intros H.
  destruct (extract_returns E R D i pp t 0 Hp HE HC HS) as [o [Ho [[res' ->]| ->]]].
  - now rewrite (path_unique E D R i pp res res' H (path_extract E D R i pp t 0 res' HR Hp Ho)).
  - exfalso. now destruct (extract_limit E R D _ 0 _ _ Ho Ho).
Qed.

Definition take (a x : str) : option capture := Some (AttributeCapture a x None).

(** <div { <a href:x /> } ><?ul><+li @id:y /></ul></div> *)
Definition path_rule : rule :=
  mk_rule (Some (mk_rule (Some (mk_rule None None [] [] [take (s "id") (s "y")] TAG_LI false true None)) None [] [] [] TAG_UL true false None))
    None [mk_rule None None [] [Some (AttributeMatch (s "href") None)] [take (s "href") (s "x")] TAG_A false false None]
    [] [] TAG_DIV false false None.
Definition anchor (v : str) : node := NElement TAG_A (Some []) [mk_attr NsNone (s "href") (Some v)] [].
Definition path_page : node :=
  page [el TAG_DIV [el TAG_P [anchor (s "1"); NText (s "t"); anchor (s "2")];
                    el TAG_UL [el_id TAG_LI (s "3") []; el_id TAG_P (s "4") []; el_id TAG_LI (s "5") []]];
        el TAG_DIV [el_id TAG_UL (s "6") []];
        el TAG_DIV [anchor (s "7"); el TAG_DIV [el TAG_UL []]]].

(** A rule with a sibling: <b id:x /><b id:y /> takes one node for each rule. *)
Definition twins : rule :=
  mk_rule None (Some (mk_rule None None [] [] [take (s "id") (s "y")] TAG_B false false None)) [] [] [take (s "id") (s "x")] TAG_B false false None.
Definition twins_page : node := page [el_id TAG_B (s "1") []; el_id TAG_B (s "2") []].

(** The page of chaining.cpp, without the white space. *)
Definition item (v : str) : node := el TAG_LI [anchor v].
Definition chaining_page : node :=
  page [el TAG_DIV [NElement TAG_UL (Some []) [mk_attr NsNone (s "attribute") (Some [])] [item (s "nope1"); item (s "nope2")]];
        el TAG_DIV [el TAG_UL [item (s "result1"); item (s "result2"); item (s "result3"); item (s "result4");
                               item (s "result5"); item (s "result6"); item (s "result7");
                               el TAG_LI [NElement TAG_A (Some []) [mk_attr NsNone (s "nope3") (Some [])] []]];
                    el TAG_DIV [el TAG_DIV [anchor (s "nope4")]]]].

Lemma path_case :
  no_siblings path_rule /\ nget path_page [0] <> None /\ engine_total sample_engine /\ rule_calls_return path_rule /\
  (exists size, small_document size path_page /\ rule_params_safe size path_rule) /\
  extract_yields sample_engine path_rule path_page (Some [0]) 0
    (Ok [[(s "x", s "1"); (s "x", s "2"); (s "y", s "3"); (s "y", s "5")]; [(s "x", s "7")]]).
Proof.
  split; [cbn; tauto|]. split; [discriminate|]. split; [exact sample_engine_total|]. split.
  { intros r Hr. apply rule_of_all in Hr. cbn in Hr.
    repeat (destruct Hr as [<-|Hr]; [split; intros x Hx; cbn in Hx; repeat (destruct Hx as [Hx|Hx]; [injection Hx as <-; exact I|]); contradiction|]).
    contradiction. }
  split.
  { exists (Z.of_nat 10). split; [apply width_small; [vm_compute; reflexivity|vm_compute; discriminate]|].
    intros r m Hr Hm. apply rule_of_all in Hr. cbn in Hr.
    repeat (destruct Hr as [<-|Hr]; [cbn in Hm; repeat (destruct Hm as [Hm|Hm]; [injection Hm as <-; exact I|]); contradiction|]).
    contradiction. }
  run_extract.
Qed.

(** With siblings the rule takes one node and another one, not every node. *)
Lemma siblings_differ : exists E D R i pp res, nget D (i :: pp) <> None /\
  extract_yields E R D (Some (i :: pp)) 0 (Ok res) /\ ~ path_result E D R i pp res.
Proof.
  exists sample_engine, twins_page, twins, 0, [], [[(s "x", s "1"); (s "y", s "2")]].
  split; [discriminate|]. split; [run_extract|]. unfold path_result.
  replace (filter nonempty_list (flat_map (group_values sample_engine twins_page twins) (sibling_lists twins_page 0 [])))
    with [[(s "x", s "1")]; [(s "x", s "2")]] by (vm_compute; reflexivity).
  intros H. inversion H as [|? ? ? ? _ H']. inversion H'.
Qed.

Definition chaining_lines : list str :=
  [s "result1"; s "result2"; s "result3"; s "result4"; s "result5"; s "result6"; s "result7"].

Lemma chaining_case :
  counts_fit chaining_page /\ (exists size, small_document size chaining_page) /\ nget chaining_page [0] <> None /\
  chain_text chaining_page 0 [] = flat_map (fun v => s "link: " ++ v ++ ["010"%char]) chaining_lines /\
  chaining_main 50 sample_engine chaining_page (Some [0]) = Ok (flat_map (fun v => s "link: " ++ v ++ ["010"%char]) chaining_lines).
Proof.
  split; [apply fits_counts; vm_compute; reflexivity|].
  split; [exists (Z.of_nat 10); apply width_small; [vm_compute; reflexivity|vm_compute; discriminate]|].
  split; [discriminate|]. split; vm_compute; reflexivity.
Qed.
