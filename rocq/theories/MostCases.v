(** The documents and rules of the examples for C78 and C79. *)

From Coq Require Import Ascii String NArith ZArith Bool List.
From Verif Require Import Base Tags Dom Values Match Rule RuleMatching MatchSpec ExtractSpec SearchSpec RewriteSpec Samples MostSpec.
Import ListNotations.

(** <li/><?b/><p/> and <li/><p/><li/><li/><b/><p/> *)
Definition pair_rule : rule := plain TAG_LI false false (Some (plain TAG_B true false (Some (plain TAG_P false false None)))).
Definition pair_page : node := page [el TAG_LI []; el TAG_P []; el TAG_LI []; el TAG_LI []; el TAG_B []; el TAG_P []].

Lemma pair_case : mandatory_of pair_rule <> [] /\ ~ lone_greedy pair_rule /\
  search_yields sample_engine pair_rule pair_page (Some [0]) 0
    (Ok [[([], [0; 1; 0]); ([RNext; RNext], [1; 1; 0])];
         [([], [2; 1; 0]); ([RNext], [4; 1; 0]); ([RNext; RNext], [5; 1; 0])]]).
Proof. split; [discriminate|]. split; [intros (_ & H & _); discriminate H|run_search]. Qed.

(** <ul:not([class][title])><li id^="item"/><p/></ul> *)
Definition strict_rule : rule :=
  mk_rule (Some (mk_rule None (Some (plain TAG_P false false None)) []
                   [Some (AttributeMatch (s "id") (Some (BeginsWithTest (s "item"))))] [] TAG_LI false false None)) None []
    [Some (NegateMatch [Some (AttributeMatch (s "class") None); Some (AttributeMatch (s "title") None)])] [] TAG_UL false false None.
(** <*:not([title])>{<li id/>}</*> *)
Definition loose_rule : rule :=
  mk_rule None None [mk_rule None None [] [Some (AttributeMatch (s "id") None)] [] TAG_LI false false None]
    [Some (NegateMatch [Some (AttributeMatch (s "title") None)])] [] TAG_ANY false false None.
(** <div><ul><li id=item1/><p/></ul></div><ul><li id=2/><p/></ul> *)
Definition loose_page : node :=
  page [el TAG_DIV [el TAG_UL [el_id TAG_LI (s "item1") []; el TAG_P []]]; el TAG_UL [el_id TAG_LI (s "2") []; el TAG_P []]].

Lemma loose_less : asks_less loose_rule strict_rule.
Proof.
  constructor.
  - now left.
  - intros m [H|[]]. injection H as <-. eapply follows_not; [apply follows_listed; now left|].
    intros m [H|[]]. right. now left.
  - intros _. left. discriminate.
  - apply fewer_drop, fewer_drop, fewer_nil.
  - intros c [<-|[]] _. eexists. split; [left; reflexivity|]. apply fewer_keep; [|apply fewer_drop, fewer_nil].
    constructor.
    + right. split; [reflexivity|exact I].
    + intros m [H|[]]. injection H as <-. eapply follows_implied; [apply follows_listed; now left|]. apply attribute_there. discriminate.
    + intros [H|H]; now destruct H.
    + apply fewer_nil.
    + intros c [].
Qed.

Lemma loose_case : asks_less loose_rule strict_rule /\ fewer asks_less (mandatory_of loose_rule) (mandatory_of strict_rule) /\
  mandatory_of loose_rule <> [] /\ ~ lone_greedy loose_rule /\
  search_yields sample_engine strict_rule loose_page (Some [0]) 0
    (Ok [[([RChild], [0; 0; 0; 1; 0]); ([RNext; RChild], [1; 0; 0; 1; 0]); ([], [0; 0; 1; 0])]]) /\
  search_yields sample_engine loose_rule loose_page (Some [0]) 0
    (Ok [[([RNested 0], [0; 0; 0; 1; 0]); ([RNested 0], [0; 1; 1; 0]); ([], [0])];
         [([RNested 0], [0; 0; 0; 1; 0]); ([RNested 0], [0; 1; 1; 0]); ([], [1; 0])];
         [([RNested 0], [0; 0; 0; 1; 0]); ([], [0; 1; 0])];
         [([RNested 0], [0; 1; 1; 0]); ([], [1; 1; 0])];
         [([RNested 0], [0; 0; 0; 1; 0]); ([], [0; 0; 1; 0])]]).
Proof.
  split; [exact loose_less|]. split; [apply fewer_keep; [exact loose_less|apply fewer_nil]|]. split; [discriminate|].
  split; [intros (_ & H & _); discriminate H|]. split; run_search.
Qed.

(** Two rules in a row: the first one takes another node. *)
Lemma row_loses : exists E R R' D i pp t p gs gs',
  nget D (i :: pp) = Some t /\ fewer asks_less (mandatory_of R') (mandatory_of R) /\ length (chain R) = length (chain R') /\
  search_yields E R D (Some (i :: pp)) 0 (Ok gs) /\ search_yields E R' D (Some (i :: pp)) 0 (Ok gs') /\
  In ([], p) (concat gs) /\ ~ In ([], p) (concat gs').
Proof.
  exists sample_engine, (plain TAG_LI false false (Some (plain TAG_B false false None))), (plain TAG_ANY false false (Some (plain TAG_B false false None))),
    (page [el TAG_P []; el TAG_LI []; el TAG_B []]), 0, [], (el TAG_HTML [el TAG_HEAD []; el TAG_BODY [el TAG_P []; el TAG_LI []; el TAG_B []]]), [1; 1; 0],
    [[([], [1; 1; 0]); ([RNext], [2; 1; 0])]], [[([], [0; 1; 0]); ([RNext], [2; 1; 0])]].
  assert (X : forall t t', t' = TAG_ANY \/ t = t' -> forall n n', asks_less (plain t' false false n') (plain t false false n)).
  { intros t t' Ht n n'. constructor.
    - destruct Ht as [-> | ->]; [now left|right; split; [reflexivity|exact I]].
    - intros m [].
    - intros [H|H]; now destruct H.
    - apply fewer_nil.
    - intros c []. }
  split; [reflexivity|]. split; [apply fewer_keep; [apply X; now left|]; apply fewer_keep; [apply X; now right|apply fewer_nil]|].
  split; [reflexivity|]. split; [run_search|]. split; [run_search|]. split; [now left|].
  cbn. intros [H|[H|[]]]; discriminate H.
Qed.
