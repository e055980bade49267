(** The documents and rules of the examples for C85. *)

From Coq Require Import Ascii String NArith ZArith Bool List Lia.
From Verif Require Import Base Tags Dom Values Match Rule RuleMatching MatchSpec ExtractSpec SearchSpec RewriteSpec Samples MostSpec GrowSpec MostCases.
Import ListNotations.

Definition below_body (cs : list node) : node := el TAG_HTML [el TAG_HEAD []; el TAG_BODY cs].

(** The page of C79, <div><ul><li id=item1/><p/></ul></div><ul><li id=2/><p/></ul>,
    and the same with a paragraph and a text in the first list, a heading and a
    further list. *)
Definition grown_page : list node :=
  [el TAG_P []; el TAG_DIV [el TAG_UL [el_id TAG_LI (s "item1") [NText (s "new")]; el TAG_B []; el TAG_P []]];
   el TAG_UL [el_id TAG_LI (s "2") []; el TAG_P []];
   el TAG_UL [el_id TAG_LI (s "item3") []; el TAG_P []]].

Lemma page_grown : grown
  (below_body [el TAG_DIV [el TAG_UL [el_id TAG_LI (s "item1") []; el TAG_P []]]; el TAG_UL [el_id TAG_LI (s "2") []; el TAG_P []]])
  (below_body grown_page).
Proof.
  apply grown_element, grown_kept; [apply grown_same|]. apply grown_kept; [|apply grown_none].
  apply grown_element, grown_new, grown_kept.
  - apply grown_element, grown_kept; [|apply grown_none]. apply grown_element, grown_kept; [apply grown_element, grown_new, grown_none|].
    apply grown_new, grown_kept; [apply grown_same|apply grown_none].
  - apply grown_kept; [apply grown_same|]. apply grown_new, grown_none.
Qed.

Lemma strict_own : own_conditions strict_rule.
Proof.
  intros rp r m Hr Hm. assert (H : In r (all_rules strict_rule)) by (apply rule_of_all; now exists rp).
  cbn in H. repeat (destruct H as [<-|H]; [cbn in Hm; repeat (destruct Hm as [Hm|Hm]; [injection Hm as <-; cbn; auto|]); contradiction|]). contradiction.
Qed.

Lemma grown_case : own_conditions strict_rule /\ mandatory_of strict_rule <> [] /\ ~ lone_greedy strict_rule /\
  search_yields sample_engine strict_rule loose_page (Some [0]) 0
    (Ok [[([RChild], [0; 0; 0; 1; 0]); ([RNext; RChild], [1; 0; 0; 1; 0]); ([], [0; 0; 1; 0])]]) /\
  search_yields sample_engine strict_rule (page grown_page) (Some [0]) 0
    (Ok [[([RChild], [0; 3; 1; 0]); ([RNext; RChild], [1; 3; 1; 0]); ([], [3; 1; 0])];
         [([RChild], [0; 0; 1; 1; 0]); ([RNext; RChild], [2; 0; 1; 1; 0]); ([], [0; 1; 1; 0])]]).
Proof.
  split; [exact strict_own|]. split; [discriminate|]. split; [intros (_ & H & _); discriminate H|]. split; run_search.
Qed.

(** <li:only-child/>, and a paragraph after the item *)
Definition only_rule : rule := mk_rule None None [] [Some (OnlyChildMatch false)] [] TAG_LI false false None.

Lemma position_loses : exists E R e e' gs,
  grown e e' /\ mandatory_of R <> [] /\ ~ lone_greedy R /\ r_nested R = [] /\ r_child R = None /\ gs <> [] /\
  search_yields E R (NDocument true (s "html") [] [] [e]) (Some [0]) 0 (Ok gs) /\
  search_yields E R (NDocument true (s "html") [] [] [e']) (Some [0]) 0 (Ok []).
Proof.
  exists sample_engine, only_rule, (below_body [el TAG_LI []]), (below_body [el TAG_LI []; el TAG_P []]), [[([], [0; 1; 0])]].
  split.
  { apply grown_element, grown_kept; [apply grown_same|]. apply grown_kept; [|apply grown_none].
    apply grown_element, grown_kept; [apply grown_same|]. apply grown_new, grown_none. }
  split; [discriminate|]. split; [intros (_ & H & _); discriminate H|]. split; [reflexivity|]. split; [reflexivity|]. split; [discriminate|].
  split; run_search.
Qed.

(** <li/><p/>, and an item before the others *)
Definition row_rule : rule := plain TAG_LI false false (Some (plain TAG_P false false None)).
Definition row_before : list node := [el_id TAG_LI (s "1") []; el TAG_P []].
Definition row_after : list node := [el_id TAG_LI (s "0") []; el_id TAG_LI (s "1") []; el TAG_P []].

Lemma row_place f : f [] = [] -> placed (page row_before) (page row_after) f -> f [0; 1; 0] = [1; 1; 0].
Proof.
  intros H0 [H1 [H2 H3]].
  destruct (H2 0 [] ltac:(discriminate)) as [a Ha]. rewrite H0 in Ha.
  destruct (H1 [0] _ eq_refl) as [n [Hn _]]. rewrite Ha in Hn. destruct a as [|a]; [|destruct a; discriminate Hn]. clear n Hn.
  destruct (H2 0 [0] ltac:(discriminate)) as [b Hb]. destruct (H2 1 [0] ltac:(discriminate)) as [c Hc].
  pose proof (H3 0 1 [0] b c ltac:(discriminate) ltac:(lia) Hb Hc) as Hbc.
  rewrite Ha in Hc. destruct (H1 [1; 0] _ eq_refl) as [n [Hn _]]. rewrite Hc in Hn.
  destruct c as [|[|c]]; [lia| |destruct c; discriminate Hn]. clear n Hn.
  destruct (H2 0 [1; 0] ltac:(discriminate)) as [d Hd]. rewrite Hc in Hd. destruct (H1 [0; 1; 0] _ eq_refl) as [n [Hn Hk]]. rewrite Hd in Hn.
  destruct d as [|[|[|d]]].
  - injection Hn as <-. cbn in Hk. destruct Hk as (_ & _ & Hk). discriminate Hk.
  - exact Hd.
  - injection Hn as <-. cbn in Hk. destruct Hk as (Hk & _). discriminate Hk.
  - destruct d; discriminate Hn.
Qed.

Lemma row_loses_node : exists E R D D' p gs gs',
  grown D D' /\ own_conditions R /\
  search_yields E R D (Some [0]) 0 (Ok gs) /\ search_yields E R D' (Some [0]) 0 (Ok gs') /\
  In ([], p) (concat gs) /\ forall f, f [] = [] -> placed D D' f -> ~ In ([], f p) (concat gs').
Proof.
  exists sample_engine, row_rule, (page row_before), (page row_after), [0; 1; 0],
    [[([], [0; 1; 0]); ([RNext], [1; 1; 0])]], [[([], [0; 1; 0]); ([RNext], [2; 1; 0])]].
  split.
  { apply grown_document, grown_kept; [|apply grown_none]. apply grown_element, grown_kept; [apply grown_same|]. apply grown_kept; [|apply grown_none].
    apply grown_element, grown_new, grown_kept; [apply grown_same|]. apply grown_kept; [apply grown_same|apply grown_none]. }
  split.
  { intros rp r m Hr Hm. assert (H : In r (all_rules row_rule)) by (apply rule_of_all; now exists rp).
    cbn in H. repeat (destruct H as [<-|H]; [destruct Hm|]). contradiction. }
  split; [run_search|]. split; [run_search|]. split; [now left|]. intros f H0 Hf. rewrite (row_place f H0 Hf).
  cbn. intros [H|[H|[]]]; discriminate H.
Qed.
