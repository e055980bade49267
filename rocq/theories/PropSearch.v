(** C06 - C16, C52: which nodes the search finds. *)

From Coq Require Import Ascii String NArith ZArith Bool List Sorted.
From Verif Require Import Base Tags Dom Values Match Rule RuleMatching MatchSpec ExtractSpec SearchSpec RewriteSpec SkelSpec ExtractMain OptionalCode LeadingProofs ChainProofs SpecUnique Samples.
Import ListNotations.

(** C06. A rule matches a node, with its children and nested rules, exactly when
    its pattern embeds below the node ([rule_matches]). *)
Theorem C06_match_is_embedding : forall E R D f rp r p t n matched inner n',
  rget R rp = Some r -> nget D p = Some t ->
  RuleMatchesNodeRecursive R D (Rule_matches E D) f (Some rp) (Some p) n = Ok (matched, inner, n') ->
  (matched = true <-> rule_matches D (node_satisfies E D) r p) /\
  (matched = true -> pairs_below D (node_satisfies E D) rp r p inner).
Proof. exact recursive_match. Qed.
Print Assumptions C06_match_is_embedding.

Example C06_case :
  rget list_rule [] = Some list_rule /\ nget list_page (0 :: body) <> None /\
  RuleMatchesNodeRecursive list_rule list_page (Rule_matches sample_engine list_page) 100 (Some []) (Some (0 :: body)) 0%N
    = Ok (true, [([RChild], [0; 0; 1; 0]); ([RNext; RChild], [1; 0; 1; 0]); ([RChild], [2; 0; 1; 0]);
                 ([RNested 0], [0; 2; 0; 1; 0])], 0%N) /\
  RuleMatchesNodeRecursive list_rule list_page (Rule_matches sample_engine list_page) 100 (Some []) (Some (1 :: body)) 0%N
    = Ok (false, [], 0%N).
Proof. repeat split; try discriminate. Qed.

(** C07. In every group each mandatory rule has a node, each rule that is not
    greedy at most one, all these nodes match and their order is that of the rules. *)
Theorem C07_groups_complete : forall E R D i pp t n gs,
  nget D (i :: pp) = Some t -> search_yields E R D (Some (i :: pp)) n (Ok gs) ->
  per_list D i pp gs (complete_groups E D R).
Proof. exact lists_complete. Qed.
Print Assumptions C07_groups_complete.

(** C08. The search finds a group in a list exactly when the mandatory rules
    match nodes of the list in order, and it uses the earliest such nodes. *)
Theorem C08_found_iff_embeds : forall E R D i pp t n gs,
  nget D (i :: pp) = Some t -> search_yields E R D (Some (i :: pp)) n (Ok gs) ->
  mandatory_of R <> [] -> per_list D i pp gs (found_iff_embeds E D R).
Proof. exact lists_found. Qed.
Print Assumptions C08_found_iff_embeds.

(** C09. The groups of a list do not overlap and no match of the mandatory rules
    starts after all nodes found. *)
Theorem C09_disjoint_exhaustive : forall E R D i pp t n gs,
  nget D (i :: pp) = Some t -> search_yields E R D (Some (i :: pp)) n (Ok gs) ->
  mandatory_of R <> [] -> per_list D i pp gs (exhaustive_groups E D R).
Proof. exact lists_exhaustive. Qed.
Print Assumptions C09_disjoint_exhaustive.

(** <a/><?p/><+b/><li/> on a p b b li a b li *)
Definition mixed_rule : rule :=
  plain TAG_A false false (Some (plain TAG_P true false (Some (plain TAG_B false true (Some (plain TAG_LI false false None)))))).
Definition mixed_page : node :=
  page [el TAG_A []; el TAG_P []; el TAG_B []; el TAG_B []; el TAG_LI []; el TAG_A []; el TAG_B []; el TAG_LI []].

Example C07_C08_C09_case :
  nget mixed_page (1 :: [0]) <> None /\ mandatory_of mixed_rule <> [] /\
  exists gs, search_yields sample_engine mixed_rule mixed_page (Some [1; 0]) 0 (Ok gs) /\
    map (map (fun x => (length (fst x), snd x))) gs =
      [[(0, 0 :: body); (1, 1 :: body); (2, 2 :: body); (3, 4 :: body)];
       [(0, 5 :: body); (2, 6 :: body); (3, 7 :: body)]].
Proof. split; [discriminate|]. split; [discriminate|]. eexists. split; [run_search|reflexivity]. Qed.

(** C10. A single mandatory rule that is not greedy finds every matching node of
    every list once. *)
Theorem C10_single_rule : forall E R D i pp t n gs,
  nget D (i :: pp) = Some t -> search_yields E R D (Some (i :: pp)) n (Ok gs) ->
  r_next R = None -> r_optional R = false -> r_greedy R = false ->
  per_list D i pp gs (one_group_each E D R).
Proof. exact lists_single. Qed.
Print Assumptions C10_single_rule.

Example C10_case :
  r_next (plain TAG_LI false false None) = None /\
  search_yields sample_engine (plain TAG_LI false false None) list_page (Some [0]) 0
    (Ok [[([], [0; 0; 1; 0])]; [([], [2; 0; 1; 0])]]).
Proof. split; [reflexivity|run_search]. Qed.

(** C11. A single mandatory greedy rule finds all matching nodes of a list in one
    group. *)
Theorem C11_single_greedy_rule : forall E R D i pp t n gs,
  nget D (i :: pp) = Some t -> search_yields E R D (Some (i :: pp)) n (Ok gs) ->
  r_next R = None -> r_optional R = false -> r_greedy R = true ->
  per_list D i pp gs (one_group_of_all E D R).
Proof. exact lists_single_greedy. Qed.
Print Assumptions C11_single_greedy_rule.

Example C11_case :
  r_next (plain TAG_LI false true None) = None /\
  search_yields sample_engine (plain TAG_LI false true None) list_page (Some [0]) 0
    (Ok [[([], [0; 0; 1; 0]); ([], [2; 0; 1; 0])]]).
Proof. split; [reflexivity|run_search]. Qed.

(** C12. An optional rule between two mandatory ones has the first matching node
    between theirs, if any; *)
Theorem C12_optional_between : forall E R D i pp t n gs,
  nget D (i :: pp) = Some t -> search_yields E R D (Some (i :: pp)) n (Ok gs) ->
  forall A B C, chain R = [A; B; C] ->
  r_optional A = false -> r_optional B = true -> r_optional C = false ->
  r_greedy A = false -> r_greedy B = false -> r_greedy C = false ->
  per_list D i pp gs (between_groups E D R).
Proof. exact lists_between. Qed.
Print Assumptions C12_optional_between.

(** a trailing one has the first matching node before the next group. *)
Theorem C12_optional_trailing : forall E R D i pp t n gs,
  nget D (i :: pp) = Some t -> search_yields E R D (Some (i :: pp)) n (Ok gs) ->
  forall A B, chain R = [A; B] ->
  r_optional A = false -> r_optional B = true -> r_greedy A = false -> r_greedy B = false ->
  per_list D i pp gs (trailing_groups E D R).
Proof. exact lists_trailing. Qed.
Print Assumptions C12_optional_trailing.

Definition between_rule : rule :=
  plain TAG_A false false (Some (plain TAG_B true false (Some (plain TAG_P false false None)))).
Definition trailing_rule : rule := plain TAG_A false false (Some (plain TAG_B true false None)).
Definition abp_page : node := page [el TAG_A []; el TAG_B []; el TAG_P []; el TAG_A []; el TAG_P []; el TAG_B []].

Example C12_case :
  (exists A B C, chain between_rule = [A; B; C] /\ r_optional A = false /\ r_optional B = true /\ r_optional C = false) /\
  (exists gs, search_yields sample_engine between_rule abp_page (Some [1; 0]) 0 (Ok gs) /\
    map (map (fun x => (length (fst x), snd x))) gs =
      [[(0, 0 :: body); (1, 1 :: body); (2, 2 :: body)]; [(0, 3 :: body); (2, 4 :: body)]]) /\
  (exists gs, search_yields sample_engine trailing_rule abp_page (Some [1; 0]) 0 (Ok gs) /\
    map (map (fun x => (length (fst x), snd x))) gs =
      [[(0, 0 :: body); (1, 1 :: body)]; [(0, 3 :: body); (1, 5 :: body)]]).
Proof.
  split; [do 3 eexists; repeat split|].
  split; (eexists; split; [run_search|reflexivity]).
Qed.

Ltac leaf_matches :=
  eapply rule_matches_intro;
  [reflexivity|vm_compute; reflexivity|let Hl := fresh in intros [Hl|Hl]; exfalso; apply Hl; reflexivity|
   intros; discriminate|let Hl := fresh in intros ? Hl; destruct Hl].

(** C13 does not hold as stated: <?a/><+b/> on two b finds two groups. *)
Definition optional_greedy_rule : rule := plain TAG_A true false (Some (plain TAG_B false true None)).

Theorem C13_greedy_after_optional_refuted : exists E R D i pp t gs,
  nget D (i :: pp) = Some t /\ search_yields E R D (Some (i :: pp)) 0 (Ok gs) /\
  is_mandatory (rule_at R 1) = true /\ r_greedy (rule_at R 1) = true /\ r_optional R = true /\
  ~ repeats E D R 1 gs.
Proof.
  exists sample_engine, optional_greedy_rule, (page [el TAG_B []; el TAG_B []]), 1, [0].
  eexists. exists [[([RNext], 0 :: body)]; [([RNext], 1 :: body)]].
  split; [reflexivity|]. split; [run_search|]. do 3 (split; [reflexivity|]).
  intros H. assert (Hin : In (1 :: body) [0 :: body]).
  { eapply (H [([RNext], 0 :: body)] 0 body); [now left|now left|reflexivity|reflexivity|leaf_matches]. }
  destruct Hin as [Hin|[]]. discriminate.
Qed.
Print Assumptions C13_greedy_after_optional_refuted.

(** What holds: it repeats, up to a node that can start the next group, if it is
    the first rule or the rule before it is mandatory and not itself repeated
    ([gets_repeated]); *)
Theorem C13_greedy_repeats_partial : forall E R D i pp t n gs,
  nget D (i :: pp) = Some t -> search_yields E R D (Some (i :: pp)) n (Ok gs) ->
  forall j, j < length (chain R) -> gets_repeated R j = true ->
  repeats_until_next E D R j gs.
Proof. exact lists_repeat. Qed.
Print Assumptions C13_greedy_repeats_partial.

(** every other mandatory rule, greedy or not, has one node in each group. *)
Theorem C13_greedy_once_partial : forall E R D i pp t n gs j,
  nget D (i :: pp) = Some t -> search_yields E R D (Some (i :: pp)) n (Ok gs) ->
  j < length (chain R) -> is_mandatory (rule_at R j) = true -> gets_repeated R j = false ->
  per_list D i pp gs (fun L G => once L j G).
Proof. exact lists_once. Qed.
Print Assumptions C13_greedy_once_partial.

(** <a/><+b/><+p/><+li/> on a b b p p li li: p follows a repeated rule *)
Example C13_case :
  let R := plain TAG_A false false (Some (plain TAG_B false true (Some (plain TAG_P false true (Some (plain TAG_LI false true None)))))) in
  map (gets_repeated R) [0; 1; 2; 3] = [false; true; false; true] /\
  map (fun j => is_mandatory (rule_at R j) && r_greedy (rule_at R j)) [0; 1; 2; 3] = [false; true; true; true] /\
  exists gs, search_yields sample_engine R
    (page [el TAG_A []; el TAG_B []; el TAG_B []; el TAG_P []; el TAG_P []; el TAG_LI []; el TAG_LI []]) (Some [1; 0]) 0 (Ok gs) /\
    map (map (fun x => (length (fst x), snd x))) gs =
      [[(0, 0 :: body); (1, 1 :: body); (1, 2 :: body); (2, 3 :: body); (3, 5 :: body); (3, 6 :: body)]].
Proof. split; [reflexivity|]. split; [reflexivity|]. eexists. split; [run_search|reflexivity]. Qed.

(** C14 does not hold as stated: <?a/><?b/> on two a finds only the first. *)
Theorem C14_optional_resume_refuted : exists E R D i pp t gs,
  nget D (i :: pp) = Some t /\ search_yields E R D (Some (i :: pp)) 0 (Ok gs) /\
  mandatory_of R = [] /\ ~ none_lost E D R i pp gs.
Proof.
  exists sample_engine, (plain TAG_A true false (Some (plain TAG_B true false None))), (page [el TAG_A []; el TAG_A []]), 1, [0].
  eexists. exists [[([], 0 :: body)]].
  split; [reflexivity|]. split; [run_search|]. split; [reflexivity|].
  intros H. destruct (H body 0 2 0 1) as [g [a [k' [Hg [Ha Hk]]]]].
  - right. left. reflexivity.
  - split; repeat constructor.
  - repeat constructor.
  - leaf_matches.
  - destruct Hg as [<-|[]]. destruct Ha as [Ha|[]]. injection Ha as _ <-. inversion Hk.
Qed.
Print Assumptions C14_optional_resume_refuted.

(** What holds: a single optional rule finds every matching node; *)
Theorem C14_single_optional_partial : forall E R D i pp t n gs,
  nget D (i :: pp) = Some t -> search_yields E R D (Some (i :: pp)) n (Ok gs) ->
  r_next R = None -> r_optional R = true -> r_greedy R = false ->
  per_list D i pp gs (one_group_each E D R).
Proof. exact lists_single_optional. Qed.
Print Assumptions C14_single_optional_partial.

(** in longer chains every rule takes the nodes behind those of the rules before
    it, and the search resumes only behind a node of the last rule
    (RuleMatching.cpp 100-106); *)
Theorem C14_optional_groups_partial : forall E R D i pp t n gs,
  nget D (i :: pp) = Some t -> search_yields E R D (Some (i :: pp)) n (Ok gs) ->
  mandatory_of R = [] -> per_list D i pp gs (optional_groups E D R).
Proof. exact lists_optional. Qed.
Print Assumptions C14_optional_groups_partial.

(** so that nothing is lost at the end of a list if the last rule is not greedy
    and has a node in every group. *)
Theorem C14_none_lost_partial : forall E R D i pp t n gs,
  nget D (i :: pp) = Some t -> search_yields E R D (Some (i :: pp)) n (Ok gs) ->
  mandatory_of R = [] -> r_greedy (rule_at R (length (chain R) - 1)) = false ->
  (forall g, In g gs -> exists x, In (repeat RNext (length (chain R) - 1), x) (own g)) ->
  none_lost E D R i pp gs.
Proof. exact lists_none_lost. Qed.
Print Assumptions C14_none_lost_partial.

(** <?a/> on a p a; <?a/><?b/> on a b p b and on b a b a *)
Example C14_case :
  let R := plain TAG_A true false (Some (plain TAG_B true false None)) in
  (r_optional (plain TAG_A true false None) = true /\
   search_yields sample_engine (plain TAG_A true false None) (page [el TAG_A []; el TAG_P []; el TAG_A []]) (Some [1; 0]) 0
    (Ok [[([], 0 :: body)]; [([], 2 :: body)]])) /\
  mandatory_of R = [] /\ r_greedy (rule_at R (length (chain R) - 1)) = false /\
  search_yields sample_engine R (page [el TAG_A []; el TAG_B []; el TAG_P []; el TAG_B []]) (Some [1; 0]) 0
    (Ok [[([], 0 :: body); ([RNext], 1 :: body)]; [([RNext], 3 :: body)]]) /\
  search_yields sample_engine R (page [el TAG_B []; el TAG_A []; el TAG_B []; el TAG_A []]) (Some [1; 0]) 0
    (Ok [[([], 1 :: body); ([RNext], 2 :: body)]; [([], 3 :: body)]]).
Proof. repeat split; run_search. Qed.

(** C15 does not hold as stated: <div><?a/></div> does not match an empty div. *)
Theorem C15_optional_children_refuted : exists E D r c p inner,
  r_child r = Some c /\ mandatory_of c = [] /\ nget D p <> None /\
  RuleMatchesNodeRecursive (with_child r None) D (Rule_matches E D) 100 (Some []) (Some p) 0%N = Ok (true, inner, 0%N) /\
  RuleMatchesNodeRecursive r D (Rule_matches E D) 100 (Some []) (Some p) 0%N = Ok (false, [], 0%N).
Proof.
  exists sample_engine, (page [el TAG_DIV []]),
    (mk_rule (Some (plain TAG_A true false None)) None [] [] [] TAG_DIV false false None),
    (plain TAG_A true false None), (0 :: body), [].
  repeat split. discriminate.
Qed.
Print Assumptions C15_optional_children_refuted.

(** What holds: if the child rules, and the rules in braces, have the same
    mandatory ones, at every level (SkelSpec), then the parents match the same
    nodes; and for elements with children a row of optional child rules can be
    removed. Missing: elements without children. *)
Theorem C15_optional_children_partial : forall E D R R' f f' rp rp' r r' p t n n' m m' inner inner' k k',
  same_core r r' -> rget R rp = Some r -> rget R' rp' = Some r' -> nget D p = Some t ->
  RuleMatchesNodeRecursive R D (Rule_matches E D) f (Some rp) (Some p) n = Ok (m, inner, k) ->
  RuleMatchesNodeRecursive R' D (Rule_matches E D) f' (Some rp') (Some p) n' = Ok (m', inner', k') -> m = m'.
Proof. exact children_code. Qed.
Print Assumptions C15_optional_children_partial.

Theorem C15_optional_only_partial : forall E D R R' f f' rp rp' r c p t n n' m m' inner inner' k k',
  r_child r = Some c -> mandatory_of c = [] ->
  rget R rp = Some r -> rget R' rp' = Some (with_child r None) ->
  nget D p = Some t -> is_element t = true -> children_of t <> [] ->
  RuleMatchesNodeRecursive R D (Rule_matches E D) f (Some rp) (Some p) n = Ok (m, inner, k) ->
  RuleMatchesNodeRecursive R' D (Rule_matches E D) f' (Some rp') (Some p) n' = Ok (m', inner', k') -> m = m'.
Proof. exact no_children_code. Qed.
Print Assumptions C15_optional_only_partial.

(** <div><?p/><a/><?b/></div> and <div><a/></div>; <div><?a/></div> and <div/>. *)
Example C15_case :
  let parent c := mk_rule c None [] [] [] TAG_DIV false false None in
  let c := plain TAG_P true false (Some (plain TAG_A false false (Some (plain TAG_B true true None)))) in
  let c' := plain TAG_A false false None in
  let D := page [el TAG_DIV [el TAG_A []; el TAG_B []]] in
  same_core (parent (Some c)) (parent (Some c')) /\
  RuleMatchesNodeRecursive (parent (Some c)) D (Rule_matches sample_engine D) 100 (Some []) (Some (0 :: body)) 0%N
    = Ok (true, [([RNext; RChild], 0 :: 0 :: body); ([RNext; RNext; RChild], 1 :: 0 :: body)], 0%N) /\
  RuleMatchesNodeRecursive (parent (Some c')) D (Rule_matches sample_engine D) 100 (Some []) (Some (0 :: body)) 0%N
    = Ok (true, [([RChild], 0 :: 0 :: body)], 0%N) /\
  mandatory_of (plain TAG_B true false None) = [] /\
  RuleMatchesNodeRecursive (parent (Some (plain TAG_B true false None))) D (Rule_matches sample_engine D) 100 (Some []) (Some (0 :: body)) 0%N
    = Ok (true, [([RChild], 1 :: 0 :: body)], 0%N) /\
  RuleMatchesNodeRecursive (parent None) D (Rule_matches sample_engine D) 100 (Some []) (Some (0 :: body)) 0%N = Ok (true, [], 0%N).
Proof.
  split; [|repeat split]. constructor; try reflexivity; try constructor; try discriminate.
  intros c c' H H'. injection H as <-. injection H' as <-. constructor; [|constructor].
  constructor; try reflexivity; try constructor; discriminate.
Qed.

(** C16. Every pair in a group is a rule and a node that matches it completely,
    with the rule's children and nested rules; *)
Theorem C16_pairs_match : forall E R D i pp t n gs,
  nget D (i :: pp) = Some t -> search_yields E R D (Some (i :: pp)) n (Ok gs) ->
  forall a q, In (a, q) (concat gs) ->
  exists r, rget R a = Some r /\ rule_matches D (node_satisfies E D) r q.
Proof. exact pairs_satisfy. Qed.
Print Assumptions C16_pairs_match.

(** and the groups contain exactly the complete matches below each matched
    node, in the order that [search_result] describes. *)
Theorem C16_search_result : forall E R D i pp t n gs,
  nget D (i :: pp) = Some t -> search_yields E R D (Some (i :: pp)) n (Ok gs) ->
  search_result D (node_satisfies E D) R i pp gs.
Proof. exact search_yields_result. Qed.
Print Assumptions C16_search_result.

(** The specification leaves no choice. *)
Theorem C16_search_result_unique : forall D satisfies c i pp gs gs',
  search_result D satisfies c i pp gs -> search_result D satisfies c i pp gs' -> gs = gs'.
Proof. exact search_result_unique. Qed.
Print Assumptions C16_search_result_unique.

(** <ul><li/><b/></ul> on a list whose li is not followed by b finds nothing. *)
Example C16_case :
  let R := mk_rule (Some (plain TAG_LI false false (Some (plain TAG_B false false None)))) None [] [] [] TAG_UL false false None in
  search_yields sample_engine R list_page (Some [1; 0]) 0 (Ok []) /\
  exists gs, gs <> [] /\ search_yields sample_engine list_rule list_page (Some [1; 0]) 0 (Ok gs).
Proof.
  split; [run_search|]. eexists. split; [|run_search]. discriminate.
Qed.

(** C52 does not hold as stated: <?p/><a/><?b/> on p a p a loses the second p,
    because the next group is searched from the next a. *)
Theorem C52_leading_optional_refuted : exists E R D i pp t gs,
  nget D (i :: pp) = Some t /\ search_yields E R D (Some (i :: pp)) 0 (Ok gs) /\
  r_optional R = true /\ ~ leading_matched E D R gs.
Proof.
  exists sample_engine, (plain TAG_P true false (Some (plain TAG_A false false (Some (plain TAG_B true false None))))),
    (page [el TAG_P []; el TAG_A []; el TAG_P []; el TAG_A []]), 1, [0].
  eexists. exists [[([], 0 :: body); ([RNext], 1 :: body)]; [([RNext], 3 :: body)]].
  split; [reflexivity|]. split; [run_search|]. split; [reflexivity|].
  intros H. assert (Hin : In (2 :: body) [0 :: body; 1 :: body; 3 :: body]).
  { eapply (H [([RNext], 3 :: body)] 2 body); [right; now left|now left|leaf_matches]. }
  repeat (destruct Hin as [Hin|Hin]; [discriminate|]). destruct Hin.
Qed.
Print Assumptions C52_leading_optional_refuted.

(** What holds: in a chain of a leading optional rule and a mandatory rule that
    is not greedy, every match of the mandatory rule is a group, and the leading
    rule takes the first of its matches since the previous group, or all of them
    if it is greedy. *)
Theorem C52_leading_optional_partial : forall E R D i pp t n gs B A,
  nget D (i :: pp) = Some t -> search_yields E R D (Some (i :: pp)) n (Ok gs) ->
  chain R = [B; A] ->
  r_optional B = true -> r_optional A = false -> r_greedy A = false ->
  per_list D i pp gs (leading_groups E D R).
Proof. exact lists_leading. Qed.
Print Assumptions C52_leading_optional_partial.

(** In every chain that begins with an optional rule and has a mandatory one, the
    leading rule takes its matches between the previous group and the mandatory
    rules. But if rules can match after the last mandatory one, then the leading
    rule has nodes in the first group of a list only. *)
Theorem C52_first_rule_partial : forall E R D i pp t n gs,
  nget D (i :: pp) = Some t -> search_yields E R D (Some (i :: pp)) n (Ok gs) ->
  r_optional R = true -> mandatory_of R <> [] ->
  per_list D i pp gs (first_rule_groups E D R).
Proof. exact lists_first_rule. Qed.
Print Assumptions C52_first_rule_partial.

Definition leading_rule (greedy : bool) : rule := plain TAG_P true greedy (Some (plain TAG_A false false None)).
Definition ppa_page : node := page [el TAG_P []; el TAG_P []; el TAG_A []; el TAG_A []; el TAG_P []; el TAG_A []].

Example C52_case :
  (forall g, exists B A, chain (leading_rule g) = [B; A] /\ r_optional B = true /\ r_optional A = false /\ r_greedy A = false) /\
  (exists gs, search_yields sample_engine (leading_rule false) ppa_page (Some [1; 0]) 0 (Ok gs) /\
    map (map (fun x => (length (fst x), snd x))) gs =
      [[(0, 0 :: body); (1, 2 :: body)]; [(1, 3 :: body)]; [(0, 4 :: body); (1, 5 :: body)]]) /\
  (exists gs, search_yields sample_engine (leading_rule true) ppa_page (Some [1; 0]) 0 (Ok gs) /\
    map (map (fun x => (length (fst x), snd x))) gs =
      [[(0, 0 :: body); (0, 1 :: body); (1, 2 :: body)]; [(1, 3 :: body)]; [(0, 4 :: body); (1, 5 :: body)]]).
Proof.
  split; [intros g; do 2 eexists; repeat split|].
  split; (eexists; split; [run_search|reflexivity]).
Qed.

(** <?p/><a/><?b/><li/> on p a b li p a li, and <?p/><a/><?b/> on p a b p a *)
Example C52_chain_case :
  let R1 := plain TAG_P true false (Some (plain TAG_A false false (Some (plain TAG_B true false (Some (plain TAG_LI false false None)))))) in
  let R2 := plain TAG_P true false (Some (plain TAG_A false false (Some (plain TAG_B true false None)))) in
  (mandatory_of R1 <> [] /\ trailing_rules R1 = false /\ mandatory_of R2 <> [] /\ trailing_rules R2 = true) /\
  (exists gs, search_yields sample_engine R1
    (page [el TAG_P []; el TAG_A []; el TAG_B []; el TAG_LI []; el TAG_P []; el TAG_A []; el TAG_LI []]) (Some [1; 0]) 0 (Ok gs) /\
    map (map (fun x => (length (fst x), snd x))) gs =
      [[(0, 0 :: body); (1, 1 :: body); (2, 2 :: body); (3, 3 :: body)]; [(0, 4 :: body); (1, 5 :: body); (3, 6 :: body)]]) /\
  (exists gs, search_yields sample_engine R2
    (page [el TAG_P []; el TAG_A []; el TAG_B []; el TAG_P []; el TAG_A []]) (Some [1; 0]) 0 (Ok gs) /\
    map (map (fun x => (length (fst x), snd x))) gs =
      [[(0, 0 :: body); (1, 1 :: body); (2, 2 :: body)]; [(1, 4 :: body)]]).
Proof.
  split; [repeat split; discriminate|].
  split; (eexists; split; [run_search|reflexivity]).
Qed.
