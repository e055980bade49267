(** Cases for C82: values that are found once for every enclosing element. *)

From Coq Require Import Ascii String Arith NArith ZArith Bool List Lia Sorted Permutation.
From Verif Require Import Base Tags Dom Values Match Rule RuleMatching MatchSpec MatchProofs ExtractSpec ExtractProofs ExtractMain SearchSpec
  Samples DepthSpec CostSpec PathSpec PathProofs PathCases RepeatSpec RepeatProofs.
Import ListNotations.

Theorem search_occurrences E R D i pp t n gs :
  nget D (i :: pp) = Some t -> search_yields E R D (Some (i :: pp)) n (Ok gs) ->
  (forall rp p, In (rp, p) (concat gs) -> exists ks, p = ks ++ pp /\ ks <> []) /\
  forall rp ks, occurrences gs rp (ks ++ pp) <= length ks ^ braces rp.
Proof. intros Hp HS. apply (occurrences_bound D (node_satisfies E D) R i pp gs). exact (search_yields_result E R D i pp t n gs Hp HS). Qed.

Theorem search_once E R D i pp t n gs : without_nested R ->
  nget D (i :: pp) = Some t -> search_yields E R D (Some (i :: pp)) n (Ok gs) -> NoDup (concat gs).
Proof. intros HR Hp HS. apply (once D (node_satisfies E D) R i pp gs HR). exact (search_yields_result E R D i pp t n gs Hp HS). Qed.

(** <div { <a href:x /> } /> *)
Definition inner_a : rule := mk_rule None None [] [] [take (s "href") (s "x")] TAG_A false false None.
Definition outer_div : rule := mk_rule None None [inner_a] [] [] TAG_DIV false false None.

(** [S k] divs inside one another, each with one link. *)
Fixpoint nest (k : nat) : node :=
  el TAG_DIV (anchor (s "v") :: match k with O => [] | S k' => [nest k'] end).
Definition nest_page (k : nat) : node := NDocument true [] [] [] [nest k].

Section Nest.
Variable E : engine.
Variable D : node.

Definition found (ps : list npath) := flat_map (all_values E D inner_a) (filter (matched E D inner_a) ps).
Definition found_div (ps : list npath) := flat_map (all_values E D outer_div) (filter (matched E D outer_div) ps).

Lemma found_cons (a : npath) b : found (a :: b) = found [a] ++ found b.
Proof. unfold found. change (a :: b) with ([a] ++ b). now rewrite filter_app, flat_map_app. Qed.

Lemma found_div_cons (a : npath) b : found_div (a :: b) = found_div [a] ++ found_div b.
Proof. unfold found_div. change (a :: b) with ([a] ++ b). now rewrite filter_app, flat_map_app. Qed.

Lemma anchor_found p : nget D p = Some (anchor (s "v")) -> found [p] = [(s "x", s "v")].
Proof.
  intros Hp. assert (HM : matched E D inner_a p = true).
  { unfold inner_a. cbn [matched]. unfold passes, Rule_matches, deref. rewrite Hp. reflexivity. }
  unfold found. cbn [filter]. rewrite HM. cbn [flat_map]. unfold inner_a. cbn [all_values flat_map app]. unfold own_values, capture_capture, deref. cbn.
  rewrite Hp. reflexivity.
Qed.

Lemma div_not_found p k : nget D p = Some (nest k) -> found [p] = [].
Proof.
  intros Hp. assert (HM : matched E D inner_a p = false).
  { unfold inner_a. cbn [matched]. unfold passes, Rule_matches, deref. rewrite Hp. destruct k; reflexivity. }
  unfold found. cbn [filter]. now rewrite HM.
Qed.

Lemma anchor_no_div p : nget D p = Some (anchor (s "v")) -> found_div [p] = [].
Proof.
  intros Hp. assert (HM : matched E D outer_div p = false).
  { unfold outer_div. cbn [matched]. unfold passes, Rule_matches, deref. rewrite Hp. reflexivity. }
  unfold found_div. cbn [filter]. now rewrite HM.
Qed.

Lemma nest_link p k : nget D p = Some (nest k) -> nget D (0 :: p) = Some (anchor (s "v")).
Proof. intros Hp. cbn [nget]. rewrite Hp. destruct k; reflexivity. Qed.

Lemma nest_next p k : nget D p = Some (nest (S k)) -> nget D (1 :: p) = Some (nest k).
Proof. intros Hp. cbn [nget]. rewrite Hp. reflexivity. Qed.

Lemma nest_below p : nget D p = Some (nest 0) -> nodes_below D p = @cons npath (0 :: p) nil.
Proof.
  intros Hp. unfold nodes_below. rewrite Hp, elements_unfold. cbn [nest el flat_map elements_list anchor elements app].
  unfold children_at. cbn [nget]. rewrite Hp. reflexivity.
Qed.

Lemma nest_below_next p k : nget D p = Some (nest (S k)) -> nodes_below D p = @cons npath (0 :: p) (@cons npath (1 :: p) (nodes_below D (1 :: p))).
Proof.
  intros Hp. unfold nodes_below at 2. rewrite (nest_next p k Hp). unfold nodes_below. rewrite Hp, elements_unfold.
  cbn [nest el flat_map elements_list]. rewrite !flat_map_app.
  assert (H0 : flat_map (children_at D) (elements (anchor (s "v")) (0 :: p)) = []).
  { cbn [anchor elements flat_map elements_list app]. unfold children_at. rewrite (nest_link p (S k) Hp). reflexivity. }
  rewrite H0. unfold children_at at 1. rewrite Hp. cbn [nest el length seq map app flat_map]. now rewrite app_nil_r.
Qed.

Lemma found_below k : forall p, nget D p = Some (nest k) -> length (found (nodes_below D p)) = S k.
Proof.
  induction k as [|k IH]; intros p Hp.
  - rewrite (nest_below p Hp). now rewrite (anchor_found _ (nest_link p 0 Hp)).
  - rewrite (nest_below_next p k Hp), found_cons, (found_cons (1 :: p)).
    rewrite (anchor_found _ (nest_link p _ Hp)), (div_not_found _ k (nest_next p k Hp)). cbn [app length]. f_equal. apply IH. exact (nest_next p k Hp).
Qed.

Lemma div_found p k : nget D p = Some (nest k) -> length (found_div [p]) = S k.
Proof.
  intros Hp. pose proof (found_below k p Hp) as HF.
  assert (HM : matched E D outer_div p = true).
  { unfold outer_div. cbn [matched forallb]. rewrite !andb_true_r.
    assert (H1 : passes E D (mk_rule None None [inner_a] [] [] TAG_DIV false false None) p = true).
    { unfold passes, Rule_matches, deref. rewrite Hp. destruct k; reflexivity. }
    assert (H2 : nonempty_list (children_at D p) = true).
    { unfold children_at. rewrite Hp. destruct k; reflexivity. }
    assert (H3 : existsb (matched E D inner_a) (nodes_below D p) = true).
    { destruct (existsb _ _) eqn:He; [reflexivity|]. exfalso.
      assert (HE : filter (matched E D inner_a) (nodes_below D p) = []).
      { clear - He. induction (nodes_below D p) as [|q l IH]; [reflexivity|]. cbn [existsb filter] in *.
        apply orb_false_iff in He as [-> He]. auto. }
      unfold found in HF. rewrite HE in HF. cbn in HF. lia. }
    rewrite H1, H2, H3. reflexivity. }
  unfold found_div. cbn [filter]. rewrite HM. cbn [flat_map]. unfold outer_div. cbn [all_values flat_map app]. unfold own_values. cbn [r_captures present flat_map].
  rewrite !app_nil_r. exact HF.
Qed.

(** The sum of 1 to [k + 1]. *)
Lemma divs_found k : forall p, nget D p = Some (nest k) -> 2 * length (found_div (p :: nodes_below D p)) = S k * S (S k).
Proof.
  induction k as [|k IH]; intros p Hp; rewrite found_div_cons, app_length, (div_found p _ Hp).
  - rewrite (nest_below p Hp), (anchor_no_div _ (nest_link p _ Hp)). reflexivity.
  - rewrite (nest_below_next p k Hp), found_div_cons, (anchor_no_div _ (nest_link p _ Hp)). cbn [app].
    pose proof (IH _ (nest_next p k Hp)) as HI. unfold npath in *. nia.
Qed.
End Nest.

Lemma flat_length {A} (ls : list (list A)) : sum (map (@length A) ls) = length (concat ls).
Proof. unfold sum. induction ls as [|l ls IH]; [reflexivity|]. cbn [map fold_right concat]. now rewrite app_length, IH. Qed.

Theorem nest_values E k n res : extract_yields E outer_div (nest_page k) (Some [0]) n (Ok res) ->
  2 * value_count res = S k * S (S k).
Proof.
  intros HY. set (D := nest_page k) in *.
  assert (HN : no_siblings outer_div) by (cbn; tauto).
  pose proof (path_extract E D outer_div 0 [] (nest k) n res HN eq_refl HY) as HR. unfold path_result in HR.
  rewrite (values_length _ _ HR), flat_length, flat_map_concat_map.
  assert (HG : forall ls, concat (concat (map (group_values E D outer_div) ls)) =
    flat_map (all_values E D outer_div) (filter (matched E D outer_div) (concat ls))).
  { induction ls as [|l ls IH]; [reflexivity|]. cbn [map concat]. rewrite concat_app, IH, filter_app, flat_map_app. f_equal.
    unfold group_values. cbn [outer_div r_greedy]. now rewrite flat_map_concat_map. }
  rewrite HG. rewrite <- (divs_found E D k [0] eq_refl). do 4 f_equal.
  unfold sibling_lists, nodes_below. cbn [nget D nest_page siblings_seen is_element children_of nth_error seq map concat app elements_from flat_map].
  rewrite app_nil_r. now rewrite <- flat_map_concat_map.
Qed.

Lemma nest_size k : document_size (nest_page k) = 2 * k + 3.
Proof.
  unfold nest_page. cbn [document_size map]. unfold sum. cbn [fold_right].
  induction k as [|k IH]; [reflexivity|]. cbn [nest el document_size map anchor]. unfold sum in *. cbn [fold_right] in *. lia.
Qed.

Lemma nest_small k : small_document 2 (nest_page k).
Proof.
  split; [vm_compute; discriminate|].
  assert (HG : forall p n, nget (nest_page k) p = Some n -> n = nest_page k \/ n = anchor (s "v") \/ exists j, n = nest j).
  { induction p as [|i p IH]; intros n Hn; [injection Hn as <-; now left|]. cbn [nget] in Hn.
    destruct (nget (nest_page k) p) as [q|]; [|discriminate]. destruct (IH q eq_refl) as [->|[->|[j ->]]].
    - cbn [nest_page children_of] in Hn. apply nth_error_In in Hn. destruct Hn as [<-|[]]. right. right. now exists k.
    - destruct i; discriminate.
    - destruct j as [|j]; cbn [nest el children_of] in Hn; apply nth_error_In in Hn; destruct Hn as [<-|Hn]; [auto|destruct Hn|auto|].
      destruct Hn as [<-|[]]. right. right. now exists j. }
  intros p n Hn. destruct (HG p n Hn) as [->|[->|[[|j] ->]]]; cbn; lia.
Qed.

(** No multiple of the size of the document is a bound, although all documents are
    accepted. *)
Theorem not_linear E C : engine_total E -> exists D res, nget D [0] <> None /\ 
  extract_yields E outer_div D (Some [0]) 0 (Ok res) /\ C * document_size D < value_count res.
Proof.
  intros HE. set (k := 4 * C + 4). 
  assert (HC : rule_calls_return outer_div).
  { intros r Hr. apply rule_of_all in Hr. cbn in Hr.
    repeat (destruct Hr as [<-|Hr]; [split; intros x Hx; cbn in Hx; repeat (destruct Hx as [Hx|Hx]; [injection Hx as <-; exact I|]); contradiction|]).
    contradiction. }
  assert (HS : exists size, small_document size (nest_page k) /\ rule_params_safe size outer_div).
  { exists 2%Z. split; [apply nest_small|]. intros r m Hr Hm. apply rule_of_all in Hr. cbn in Hr.
    repeat (destruct Hr as [<-|Hr]; [cbn in Hm; repeat (destruct Hm as [Hm|Hm]; [injection Hm as <-; exact I|]); contradiction|]).
    contradiction. }
  destruct (extract_returns E outer_div (nest_page k) 0 [] (nest k) 0 eq_refl HE HC HS) as [o [Ho [[res ->]| ->]]];
    [|exfalso; now destruct (extract_limit E outer_div _ _ 0 _ _ Ho Ho)].
  exists (nest_page k), res. split; [discriminate|]. split; [exact Ho|].
  pose proof (nest_values E k 0 res Ho) as HV. rewrite nest_size. subst k. nia.
Qed.

(** Two divs: one value from the inner one, two from the outer one. *)
Lemma nest_case :
  nget (nest_page 1) [0] <> None /\
  extract_yields sample_engine outer_div (nest_page 1) (Some [0]) 0
    (Ok [[(s "x", s "v"); (s "x", s "v")]; [(s "x", s "v")]]) /\
  capture_count outer_div * document_size (nest_page 1) * document_levels (nest_page 1) ^ nestings outer_div = 20.
Proof. split; [discriminate|]. split; [run_extract|reflexivity]. Qed.

(** With braces a pair may be there twice: the inner link. *)
Lemma twice : exists E R D i pp gs, nget D (i :: pp) <> None /\
  search_yields E R D (Some (i :: pp)) 0 (Ok gs) /\ ~ NoDup (concat gs) /\
  occurrences gs [RNested 0] [0; 1; 0] = 2 /\ occurrences gs [RNested 0] [0; 0] = 1.
Proof.
  exists sample_engine, outer_div, (nest_page 1), 0, [].
  exists [[([RNested 0], [0; 0]); ([RNested 0], [0; 1; 0]); ([], [0])]; [([RNested 0], [0; 1; 0]); ([], [1; 0])]].
  split; [discriminate|]. split; [run_search|]. split; [|split; vm_compute; reflexivity].
  cbn. intros H. apply NoDup_cons_iff in H as [_ H]. apply NoDup_cons_iff in H as [H _]. apply H. cbn. tauto.
Qed.

(** Two rules next to each other in a div, and two divs. *)
Definition once_rule : rule :=
  mk_rule (Some (mk_rule None (Some inner_a) [] [] [] TAG_P false false None)) None [] [] [] TAG_DIV false false None.
Definition once_page : node :=
  page [el TAG_DIV [el TAG_P []; anchor (s "1")]; el TAG_DIV [el TAG_P []; anchor (s "2"); el TAG_P []]].

Lemma once_case : exists R, without_nested R /\ nget once_page [0] <> None /\
  search_yields sample_engine R once_page (Some [0]) 0 
    (Ok [[([RChild], [0; 0; 1; 0]); ([RNext; RChild], [1; 0; 1; 0]); ([], [0; 1; 0])];
         [([RChild], [0; 1; 1; 0]); ([RNext; RChild], [1; 1; 1; 0]); ([], [1; 1; 0])]]).
Proof.
  exists once_rule. split; [|split; [discriminate|run_search]].
  intros r Hr. apply rule_of_all in Hr. cbn in Hr. repeat (destruct Hr as [<-|Hr]; [reflexivity|]). contradiction.
Qed.
