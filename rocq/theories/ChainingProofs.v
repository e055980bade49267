(** Proofs about the example chaining (C81). *)

From Coq Require Import Ascii String Arith NArith ZArith Bool List Lia Sorted Permutation.
From Verif Require Import Base Tags Dom Values Match Rule RuleMatching MatchSpec ExtractSpec SearchSpec StringProofs
  ExtractProofs ExtractMain MeaningSpec Samples PathSpec PathProofs Chaining ChainingSpec.
Import ListNotations.
Open Scope outcome_scope.

Section Chain.
Variables (E : engine) (D : node).
Hypothesis HD : counts_fit D.

Definition link_pair (v : str) : result_pair := (s "link", v).

Lemma flat_map_nil_filter {A B} (f : A -> list B) (P Q : A -> bool) l :
  (forall x, In x l -> Q x = true -> P x = true) ->
  (forall x, In x l -> P x = true -> Q x = false -> f x = []) ->
  flat_map f (filter Q l) = flat_map f (filter P l).
Proof.
  induction l as [|x l IH]; intros H1 H2; [reflexivity|]. cbn [filter].
  assert (IH' : flat_map f (filter Q l) = flat_map f (filter P l)).
  { apply IH; intros; [apply H1|apply H2]; auto; now right. }
  destruct (Q x) eqn:HQ, (P x) eqn:HP; cbn [flat_map].
  - now rewrite IH'.
  - rewrite (H1 x (or_introl eq_refl) HQ) in HP. discriminate.
  - rewrite (H2 x (or_introl eq_refl) HP HQ). exact IH'.
  - exact IH'.
Qed.

(** A rule with one child rule and no captures takes nothing from a node that it
    does not match. *)
Lemma outer_values c ms t nm l (r := mk_rule (Some c) None [] ms [] t false false nm) :
  r_optional c = false ->
  flat_map (all_values E D r) (filter (matched E D r) l) = flat_map (all_values E D r) (filter (passes E D r) l).
Proof.
  intros Hc. apply flat_map_nil_filter; intros x _.
  - subst r. cbn [matched]. rewrite !andb_true_iff. tauto.
  - intros HP HQ. subst r. cbn [matched all_values] in *. rewrite HP, Hc in HQ. cbn [andb orb forallb] in HQ.
    rewrite andb_true_r in HQ. cbn [flat_map app]. unfold own_values. cbn [r_captures present flat_map].
    rewrite app_nil_r. destruct (children_at D x) as [|k ks] eqn:Ek; [reflexivity|].
    cbn [nonempty_list andb] in HQ. revert HQ. generalize (k :: ks) as L. induction L as [|y L IH]; [reflexivity|].
    cbn [existsb filter]. intros HQ. apply orb_false_iff in HQ as [HQ1 HQ2]. rewrite HQ1. auto.
Qed.

Lemma passes_bare t ms c n l o g nm p : (t =? TAG_ANY)%N = false -> (t =? TAG_UNKNOWN)%N = false ->
  ms = [Some (AttributeCountMatch 0)] ->
  passes E D (mk_rule c n l ms [] t o g nm) p = bare D t p.
Proof.
  intros H1 H2 ->. unfold passes, Rule_matches, deref, bare. destruct (nget D p) as [x|] eqn:Hx; [|reflexivity].
  cbn [obind]. unfold tag_matches. cbn [r_tag]. rewrite H1, H2. destruct x as [|t' orig attrs cs| | | | |]; try reflexivity.
  destruct (t' =? t)%N; cbn [negb]; [|destruct attrs; reflexivity].
  cbn [r_matches all_match]. unfold mtch_matches, deref. rewrite Hx. cbn [obind AttributeCountMatch_matches].
  destruct (HD p _ Hx) as [_ HA]. specialize (HA _ _ _ _ eq_refl).
  destruct attrs as [|a attrs]; [reflexivity|].
  rewrite Z.mod_small by (split; [apply Zle_0_nat|exact HA]).
  destruct (0 =? Z.of_nat (length (a :: attrs)))%Z eqn:Hz; [|reflexivity].
  apply Z.eqb_eq in Hz. cbn [length] in Hz. lia.
Qed.

Lemma passes_tag t c n l o g nm p : (t =? TAG_ANY)%N = false -> (t =? TAG_UNKNOWN)%N = false ->
  passes E D (mk_rule c n l [] [] t o g nm) p = has_tag D t p.
Proof.
  intros H1 H2. unfold passes, Rule_matches, deref, has_tag. destruct (nget D p) as [x|] eqn:Hx; [|reflexivity].
  cbn [obind]. unfold tag_matches. cbn [r_tag]. rewrite H1, H2. destruct x as [|t' orig attrs cs| | | | |]; try reflexivity.
  destruct (t' =? t)%N; reflexivity.
Qed.

Lemma find_get attrs : gumbo_get_attribute attrs (s "href") = find (fun a => str_eqb_nocase (a_name a) (s "href")) attrs.
Proof. induction attrs as [|a l IH]; [reflexivity|]. cbn [gumbo_get_attribute find]. now rewrite IH. Qed.

Lemma a_values p : all_values E D chaining_a p = map link_pair (link_of D p).
Proof.
  change (own_values E D chaining_a p = map link_pair (link_of D p)). unfold own_values, link_of.
  cbn [chaining_a append_capture append_match rule_of_tag r_captures app present flat_map]. rewrite app_nil_r.
  unfold capture_capture, deref. destruct (nget D p) as [x|]; [|reflexivity]. cbn [obind].
  destruct x as [|t' orig attrs cs| | | | |]; try reflexivity.
  change (c_str (s "href")) with (s "href"). rewrite find_get.
  destruct (find _ attrs) as [a|]; [|reflexivity]. destruct (a_value a); reflexivity.
Qed.

Lemma a_kids p : flat_map (all_values E D chaining_a) (filter (matched E D chaining_a) (children_at D p)) =
  map link_pair (flat_map (link_of D) (kids D (has_tag D TAG_A) p)).
Proof.
  unfold kids. transitivity (flat_map (all_values E D chaining_a) (filter (has_tag D TAG_A) (children_at D p))).
  - apply flat_map_nil_filter; intros x _.
    + change (passes E D chaining_a x && true && true && true = true -> has_tag D TAG_A x = true). rewrite !andb_true_r.
      unfold passes, Rule_matches, deref, has_tag. destruct (nget D x) as [y|]; [|discriminate].
      cbn [obind]. unfold tag_matches. change (r_tag chaining_a) with TAG_A. change (TAG_A =? TAG_ANY)%N with false. cbn match.
      destruct y as [|t' orig attrs cs| | | | |]; try discriminate. destruct (t' =? TAG_A)%N; [reflexivity|discriminate].
    + change (has_tag D TAG_A x = true -> passes E D chaining_a x && true && true && true = false -> all_values E D chaining_a x = []).
      rewrite !andb_true_r, a_values.
      unfold passes, Rule_matches, deref, has_tag, link_of. destruct (nget D x) as [y|] eqn:Hy; [|discriminate].
      cbn [obind]. unfold tag_matches. change (r_tag chaining_a) with TAG_A. change (TAG_A =? TAG_ANY)%N with false.
      change (TAG_A =? TAG_UNKNOWN)%N with false. cbn match.
      destruct y as [|t' orig attrs cs| | | | |]; try discriminate. intros ->. cbn [negb].
      change (r_matches chaining_a) with [Some (AttributeMatch (s "href") None)]. cbn [all_match].
      unfold mtch_matches, deref. rewrite Hy. cbn [obind AttributeMatch_matches].
      change (c_str (s "href")) with (s "href"). rewrite find_get. destruct (find _ attrs); [discriminate|reflexivity].
  - induction (filter (has_tag D TAG_A) (children_at D p)) as [|x l IH]; [reflexivity|].
    cbn [flat_map]. now rewrite map_app, IH, a_values.
Qed.

Lemma flat_map_map {A B C} (g : B -> C) (f : A -> list B) l : flat_map (fun x => map g (f x)) l = map g (flat_map f l).
Proof. induction l as [|x l IH]; [reflexivity|]. cbn. now rewrite map_app, IH. Qed.
Lemma flat_map_flat_map {A B C} (g : B -> list C) (f : A -> list B) l : flat_map g (flat_map f l) = flat_map (fun x => flat_map g (f x)) l.
Proof. induction l as [|x l IH]; [reflexivity|]. cbn. now rewrite flat_map_app, IH. Qed.

Lemma li_values p : all_values E D chaining_li p = map link_pair (flat_map (link_of D) (kids D (has_tag D TAG_A) p)).
Proof.
  change (all_values E D chaining_li p) with
    (flat_map (all_values E D chaining_a) (filter (matched E D chaining_a) (children_at D p)) ++ [] ++ []).
  rewrite !app_nil_r. apply a_kids.
Qed.

Lemma ul_values p : all_values E D chaining_ul p =
  map link_pair (flat_map (link_of D) (flat_map (kids D (has_tag D TAG_A)) (kids D (has_tag D TAG_LI) p))).
Proof.
  change (all_values E D chaining_ul p) with
    (flat_map (all_values E D chaining_li) (filter (matched E D chaining_li) (children_at D p)) ++ [] ++ []).
  rewrite !app_nil_r. change chaining_li with (mk_rule (Some (rule_copy chaining_a)) None [] [] [] TAG_LI false false None).
  rewrite outer_values by reflexivity.
  change (mk_rule (Some (rule_copy chaining_a)) None [] [] [] TAG_LI false false None) with chaining_li.
  rewrite (filter_ext (passes E D chaining_li) (has_tag D TAG_LI)).
  2: { intros x. apply passes_tag; reflexivity. }
  rewrite (flat_map_ext _ _ li_values), flat_map_map. f_equal. now rewrite (flat_map_flat_map (link_of D) (kids D (has_tag D TAG_A))).
Qed.

Lemma div_values p : all_values E D chaining_rule p = map link_pair (links D p).
Proof.
  change (all_values E D chaining_rule p) with
    (flat_map (all_values E D chaining_ul) (filter (matched E D chaining_ul) (children_at D p)) ++ [] ++ []).
  rewrite !app_nil_r.
  change chaining_ul with (mk_rule (Some (rule_copy chaining_li)) None [] [Some (AttributeCountMatch 0)] [] TAG_UL false false None).
  rewrite outer_values by reflexivity.
  change (mk_rule (Some (rule_copy chaining_li)) None [] [Some (AttributeCountMatch 0)] [] TAG_UL false false None) with chaining_ul.
  rewrite (filter_ext (passes E D chaining_ul) (bare D TAG_UL)).
  2: { intros x. apply passes_bare; reflexivity. }
  rewrite (flat_map_ext _ _ ul_values), flat_map_map. unfold links. f_equal.
  rewrite (flat_map_flat_map (kids D (has_tag D TAG_A)) (kids D (has_tag D TAG_LI))).
  now rewrite (flat_map_flat_map (link_of D) (fun x => flat_map (kids D (has_tag D TAG_A)) (kids D (has_tag D TAG_LI) x))).
Qed.

Lemma map_of_links vs m : map_of (map link_pair vs) m -> m = map link_pair vs.
Proof.
  intros [_ [HP HV]]. specialize (HV (s "link")).
  assert (Hn : forall x, In x m -> fst x = s "link").
  { intros x Hx. apply (Permutation_in _ HP) in Hx. apply in_map_iff in Hx as [v [<- _]]. reflexivity. }
  assert (Hs : forall l : list result_pair, (forall x, In x l -> fst x = s "link") -> l = map link_pair (values_of (s "link") l)).
  { clear. induction l as [|[a b] l IH]; intros H; [reflexivity|]. unfold values_of in *. cbn [filter].
    pose proof (H _ (or_introl eq_refl)) as Ha. cbn [fst] in *. subst a. cbn [fst].
    change (str_eqb (s "link") (s "link")) with true. cbn [map snd]. f_equal. apply IH. intros; apply H. now right. }
  rewrite (Hs m Hn), HV, <- Hs; [reflexivity|]. intros x Hx. apply in_map_iff in Hx as [v [<- _]]. reflexivity.
Qed.

Lemma print_links vss : forall res, Forall2 map_of (filter nonempty_list (map (map link_pair) vss)) res ->
  print_pairs res = flat_map (flat_map link_line) vss.
Proof.
  induction vss as [|vs vss IH]; intros res H.
  - inversion H. reflexivity.
  - cbn [map filter] in H. destruct vs as [|v vs].
    + cbn [nonempty_list map] in H. cbn [flat_map app]. auto.
    + cbn [nonempty_list map] in H. inversion H as [|x m l res' H1 H2 E1 E2]; subst.
      change (link_pair v :: map link_pair vs) with (map link_pair (v :: vs)) in H1. apply map_of_links in H1. subst m.
      unfold print_pairs. cbn [flat_map]. f_equal; [|exact (IH _ H2)].
      change (flat_map print_pair (map link_pair (v :: vs)) = flat_map link_line (v :: vs)).
      clear. induction (v :: vs) as [|x l IH]; [reflexivity|]. cbn [map flat_map]. now rewrite IH.
Qed.

Lemma flat_map_skip {A B} (f : list A -> list B) ls : f [] = [] ->
  flat_map f (filter nonempty_list ls) = flat_map f ls.
Proof. intros H. induction ls as [|[|x l] ls IH]; [reflexivity| |]; cbn; rewrite ?H, ?IH; reflexivity. Qed.

Theorem chaining_text i pp t n res :
  nget D (i :: pp) = Some t -> extract_yields E chaining_rule D (Some (i :: pp)) n (Ok res) ->
  print_pairs res = chain_text D i pp.
Proof.
  intros Hp H. assert (HR : no_siblings chaining_rule) by (repeat split).
  apply (path_extract E D chaining_rule i pp t n res HR Hp) in H. unfold path_result in H.
  assert (Hg : flat_map (group_values E D chaining_rule) (sibling_lists D i pp) =
    map (all_values E D chaining_rule) (filter (matched E D chaining_rule) (concat (sibling_lists D i pp)))).
  { generalize (sibling_lists D i pp) as ls. induction ls as [|l ls IH]; [reflexivity|].
    cbn [flat_map concat]. rewrite filter_app, map_app, IH. reflexivity. }
  rewrite Hg in H. clear Hg. rewrite (map_ext _ (fun p => map link_pair (links D p)) div_values) in H.
  rewrite <- (map_map (links D) (map link_pair)) in H. rewrite (print_links _ _ H). unfold chain_text.
  generalize (concat (sibling_lists D i pp)) as l. clear H res n Hp t HR. intros l.
  rewrite flat_map_flat_map. rewrite flat_map_concat_map, map_map, <- flat_map_concat_map.
  apply flat_map_nil_filter; intros x _.
  - rewrite <- (passes_bare TAG_DIV [Some (AttributeCountMatch 0)] (Some (rule_copy chaining_ul)) None [] false false None x) by reflexivity.
    change (matched E D chaining_rule x) with
      (passes E D chaining_rule x && nonempty_list (children_at D x) && existsb (matched E D (rule_copy chaining_ul)) (children_at D x) && true).
    rewrite !andb_true_iff. intros [[[H _] _] _]. exact H.
  - intros HB HM.
    assert (HE : flat_map (all_values E D chaining_rule) (filter (matched E D chaining_rule) [x]) =
                 flat_map (all_values E D chaining_rule) (filter (passes E D chaining_rule) [x])).
    { exact (outer_values (rule_copy chaining_ul) [Some (AttributeCountMatch 0)] TAG_DIV None [x] eq_refl). }
    cbn [filter] in HE. rewrite HM in HE.
    replace (passes E D chaining_rule x) with true in HE.
    2: { symmetry. rewrite <- HB. apply passes_bare; reflexivity. }
    cbn [flat_map] in HE. rewrite app_nil_r, div_values in HE. symmetry in HE. apply map_eq_nil in HE. now rewrite HE.
Qed.

Lemma chaining_calls : rule_calls_return chaining_rule.
Proof.
  intros r Hr. apply rule_of_all in Hr. cbn in Hr.
  repeat (destruct Hr as [<-|Hr]; [split; intros x Hx; cbn in Hx; repeat (destruct Hx as [Hx|Hx]; [injection Hx as <-; exact I|]); contradiction|]).
  contradiction.
Qed.
Lemma chaining_params size : rule_params_safe size chaining_rule.
Proof.
  intros r m Hr Hm. apply rule_of_all in Hr. cbn in Hr.
  repeat (destruct Hr as [<-|Hr]; [cbn in Hm; repeat (destruct Hm as [Hm|Hm]; [injection Hm as <-; exact I|]); contradiction|]).
  contradiction.
Qed.

Theorem chaining_prints i pp t : engine_total E -> (exists size, small_document size D) ->
  nget D (i :: pp) = Some t -> chaining_yields E D (Some (i :: pp)) (Ok (chain_text D i pp)).
Proof.
  intros HE [size HS] Hp.
  destruct (extract_returns E chaining_rule D i pp t 0 Hp HE chaining_calls) as [o [Ho [[res ->]| ->]]].
  - exists size. split; [exact HS|apply chaining_params].
  - pose proof (chaining_text i pp t 0 res Hp Ho) as HT. destruct Ho as [f0 Ho]. exists f0. intros f Hf.
    unfold chaining_main. rewrite (Ho f Hf). cbn [obind]. now rewrite HT.
  - exfalso. now destruct (extract_limit E chaining_rule D _ 0 _ _ Ho Ho).
Qed.
End Chain.
