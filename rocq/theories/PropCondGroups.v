(** C69: the groups of a search whose conditions have side effects. *)

From Coq Require Import Ascii String NArith ZArith Bool List Lia.
From Verif Require Import Base StringUtil Tags Dom Values Match Rule RuleMatching MatchSpec SearchSpec Samples
  CaptureState CondState CondSpec CondMain CondGroupSpec CondGroups CondGroupMain.
Import ListNotations.

(** C69. Whatever the conditions answer, and however often they change their
    mind: every group consists of nodes that passed the test of their rule, in
    the order of the rules and of the nodes, with a node for every mandatory
    rule and a single one for a rule that is not greedy; the groups of a list of
    siblings take nodes one after the other. *)
Theorem C69_groups : forall W (act : match_action W) R D i pp t n w gs w' log,
  nget D (i :: pp) = Some t -> search_does act R D (Some (i :: pp)) n w (Ok gs, (w', log)) ->
  per_list D i pp gs (asked_groups R D log).
Proof. exact @search_asked. Qed.
Print Assumptions C69_groups.

(** The same for the groups of the child rules and of the nested rules, with the
    places of their pairs in the result. *)
Theorem C69_found : forall W (act : match_action W) R D i pp t n w gs w' log,
  nget D (i :: pp) = Some t -> search_does act R D (Some (i :: pp)) n w (Ok gs, (w', log)) ->
  search_found R D log i pp gs.
Proof. exact @search_shape. Qed.
Print Assumptions C69_found.

(** ** Cases *)

Ltac run_asking := match goal with |- search_does ?act ?R ?D ?p ?n ?w _ =>
  eapply eq_ind; [apply (search_does_by act R D 100 p n w); vm_compute; discriminate|vm_compute; reflexivity] end.

(** <ul><li/><+p/></ul>, where the functions of the rules are asked about
    everything: the answers are given by a list. *)
Definition asks : list (option mtch) := [Some (FunctionMatch (Some (fun _ _ => FReturn true)))].
Definition item_rule : rule :=
  mk_rule None (Some (mk_rule None None [] asks [] TAG_P false true None)) [] asks [] TAG_LI false false None.
Definition list_asking : rule := mk_rule (Some item_rule) None [] asks [] TAG_UL false false None.
Definition mixed_page : node :=
  page [el TAG_UL [el TAG_LI []; el TAG_P []; el TAG_P []; el TAG_LI []; el TAG_P []]; el TAG_UL []].
Definition from_list : match_action (list bool) :=
  fun _ _ _ w => match w with [] => ([], Says false) | b :: w' => (w', Says b) end.

(** All answers are yes. *)
Example C69_case :
  nget mixed_page (0 :: body) <> None /\
  exists log w, search_does from_list list_asking mixed_page (Some (0 :: body)) 0 (repeat true 20)
    (Ok [[([RChild], [0; 0] ++ body); ([RNext; RChild], [1; 0] ++ body); ([RNext; RChild], [2; 0] ++ body);
          ([RChild], [3; 0] ++ body); ([RNext; RChild], [4; 0] ++ body); ([], 0 :: body)]], (w, log)).
Proof. split; [discriminate|]. eexists. eexists. run_asking. Qed.

(** The fourth question is whether the second item starts a new group. It is
    refused, so that the first group takes the <p> behind it. *)
Example C69_refused_case :
  exists log w, search_does from_list list_asking mixed_page (Some (0 :: body)) 0 ([true; true; true; false] ++ repeat true 20)
    (Ok [[([RChild], [0; 0] ++ body); ([RNext; RChild], [1; 0] ++ body); ([RNext; RChild], [2; 0] ++ body);
          ([RNext; RChild], [4; 0] ++ body); ([], 0 :: body)]], (w, log)).
Proof. eexists. eexists. run_asking. Qed.

(** What C10 says is not true of conditions that change their mind: the second
    item passed a test, as the end of the first group, but is in no group. *)
Definition one_item : rule :=
  mk_rule None (Some (plain TAG_P true false None)) [] asks [] TAG_LI false false None.
Definition items : node := page [el TAG_LI []; el TAG_LI []; el TAG_LI []].
Example C69_lost :
  exists log w, search_does from_list one_item items (Some (0 :: body)) 0 [true; true; false; true]
    (Ok [[([], 0 :: body)]; [([], 2 :: body)]], (w, log)) /\ passed one_item items log [] (1 :: body).
Proof.
  eexists. eexists. split; [run_asking|].
  exists one_item, (el TAG_LI []), [(0, Says true)]. split; [reflexivity|]. split; [reflexivity|]. split; [reflexivity|].
  split; [cbn [In]; auto 10|]. intros [|[|k]] m H; [now left|discriminate H|discriminate H].
Qed.
