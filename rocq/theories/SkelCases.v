(** The documents and rules of the examples for C87. *)

From Coq Require Import Ascii String NArith ZArith Bool List Lia.
From Verif Require Import Base Tags Dom Values Match Rule RuleMatching MatchSpec ExtractSpec RewriteSpec Samples SkelSpec.
Import ListNotations.

(** <div> child rules </div> <+li id:c/> and further rules *)
Definition list_after (child : rule) (further : option rule) : rule :=
  mk_rule (Some child) (Some (cap TAG_LI false true (s "c") further)) [] [] [] TAG_DIV false false None.

(** <div><?h1 id:x/><p id:a/></div><+li id:c/><?ul id:y/> *)
Definition with_optional : rule :=
  list_after (cap TAG_H1 true false (s "x") (Some (cap TAG_P false false (s "a") None))) (Some (cap TAG_UL true false (s "y") None)).
(** <div><p id:a/></div><+li id:c/> *)
Definition without_optional : rule := list_after (cap TAG_P false false (s "a") None) None.

(** <div><h1 id=1/><p id=2/></div><li id=3/><li id=4/><ul id=5/><div><p id=6/></div><li id=7/> *)
Definition skeleton_page : node :=
  page [el TAG_DIV [el_id TAG_H1 (s "1") []; el_id TAG_P (s "2") []]; el_id TAG_LI (s "3") []; el_id TAG_LI (s "4") []; el_id TAG_UL (s "5") [];
        el TAG_DIV [el_id TAG_P (s "6") []]; el_id TAG_LI (s "7") []].

(** All rules of a tree with their addresses. *)
Fixpoint rules_at (rp : rpath) (r : rule) : list (rpath * rule) :=
  let 'mk_rule c n l _ _ _ _ _ _ := r in
  (rp, r) :: (match c with Some c' => rules_at (RChild :: rp) c' | None => [] end)
    ++ (match n with Some n' => rules_at (RNext :: rp) n' | None => [] end)
    ++ (fix go (k : nat) (l : list rule) : list (rpath * rule) := match l with [] => [] | x :: l' => rules_at (RNested k :: rp) x ++ go (S k) l' end) 0 l.

Lemma rules_at_step rp r st r' : rstep_get r st = Some r' -> incl (rules_at (st :: rp) r') (rules_at rp r).
Proof.
  destruct r as [c n l ms cs t o g nm]. destruct st as [| |k]; intros H x Hx; cbn [rules_at]; right; apply in_or_app.
  - cbn in H. subst c. now left.
  - cbn in H. subst n. right. apply in_or_app. now left.
  - cbn in H. right. apply in_or_app. right. change k with (0 + k) in Hx. revert k H Hx. generalize 0 as j. induction l as [|y l IH]; intros j [|k] H Hx; try discriminate H; apply in_or_app.
    + left. injection H as ->. now rewrite Nat.add_0_r in Hx.
    + right. apply (IH (S j) k H). now rewrite Nat.add_succ_r in Hx.
Qed.

Lemma rules_at_all R rp r : rget R rp = Some r -> In (rp, r) (rules_at [] R).
Proof.
  assert (X : forall q x, rget R q = Some x -> incl (rules_at q x) (rules_at [] R)).
  { induction q as [|st q IH]; intros x H.
    - injection H as <-. apply incl_refl.
    - cbn [rget] in H. destruct (rget R q) as [r0|] eqn:E0; [|discriminate]. apply (incl_tran (rules_at_step q r0 st x H)). now apply IH. }
  intros H. apply (X rp r H). destruct r. now left.
Qed.

Lemma stored_all R name : Forall (fun x => essential R (fst x) = true \/ forall c, In (Some c) (r_captures (snd x)) -> stores_as c <> name) (rules_at [] R) ->
  stored_by_essentials R name.
Proof.
  intros H rp r c Hr Hc Hn. rewrite Forall_forall in H. destruct (H _ (rules_at_all R rp r Hr)) as [H1|H1]; [exact H1|]. now destruct (H1 c Hc).
Qed.

Lemma freely R : Forall (fun a => match r_next a with Some b => r_optional a = true -> r_optional b = false -> r_greedy b = false | None => True end) (all_rules R) -> repeats_freely R.
Proof.
  intros H rp a b Ha Hb. rewrite Forall_forall in H. specialize (H a (rule_of_all R a (ex_intro _ rp Ha))). now rewrite Hb in H.
Qed.

Ltac freely := apply freely; cbn; repeat constructor; cbn; congruence.
Ltac stored := apply stored_all; cbn;
  repeat (apply Forall_cons; [first [left; reflexivity | right; cbn; intros c [[= <-]|[]]; discriminate | right; cbn; intros c []]|]); apply Forall_nil.

Lemma core_alone t g cs ms n n' o o' : same_core (mk_rule None n [] ms cs t o g None) (mk_rule None n' [] ms cs t o' g None).
Proof. apply same_core_intro; try reflexivity; [intros ? ? H; discriminate H|constructor]. Qed.

Lemma skeleton_same : same_skeleton with_optional without_optional.
Proof.
  unfold same_skeleton. cbn. constructor; [|constructor; [apply core_alone|constructor]].
  apply same_core_intro; try reflexivity; [split; intros H; discriminate H| |constructor].
  intros c c' H H'. injection H as <-. injection H' as <-. cbn. constructor; [apply core_alone|constructor].
Qed.

Lemma skeleton_case :
  same_skeleton with_optional without_optional /\ mandatory_of with_optional <> [] /\
  repeats_freely with_optional /\ repeats_freely without_optional /\
  stored_by_essentials with_optional (s "a") /\ stored_by_essentials without_optional (s "a") /\
  extract_yields sample_engine with_optional skeleton_page (Some [0]) 0
    (Ok [[(s "a", s "2"); (s "c", s "3"); (s "c", s "4"); (s "x", s "1"); (s "y", s "5")]; [(s "a", s "6"); (s "c", s "7")]]) /\
  extract_yields sample_engine without_optional skeleton_page (Some [0]) 0
    (Ok [[(s "a", s "2"); (s "c", s "3"); (s "c", s "4")]; [(s "a", s "6"); (s "c", s "7")]]).
Proof.
  split; [exact skeleton_same|]. split; [discriminate|]. split; [freely|]. split; [freely|]. split; [stored|]. split; [stored|]. split; run_extract.
Qed.

(** The groups of the example: all pairs of the shorter rule are essential. *)
Lemma skeleton_search :
  search_yields sample_engine with_optional skeleton_page (Some [0]) 0
    (Ok [[([RChild], [0; 0; 1; 0]); ([RNext; RChild], [1; 0; 1; 0]); ([], [0; 1; 0]); ([RNext], [1; 1; 0]); ([RNext], [2; 1; 0]); ([RNext; RNext], [3; 1; 0])];
         [([RNext; RChild], [0; 4; 1; 0]); ([], [4; 1; 0]); ([RNext], [5; 1; 0])]]) /\
  search_yields sample_engine without_optional skeleton_page (Some [0]) 0
    (Ok [[([RChild], [1; 0; 1; 0]); ([], [0; 1; 0]); ([RNext], [1; 1; 0]); ([RNext], [2; 1; 0])];
         [([RChild], [0; 4; 1; 0]); ([], [4; 1; 0]); ([RNext], [5; 1; 0])]]).
Proof. split; run_search. Qed.

(** <?p/><+li id:a/> and <+li id:a/> on <li id=1/><li id=2/> *)
Lemma greedy_skeleton : exists E R R' D gs gs',
  same_skeleton R R' /\ mandatory_of R <> [] /\ repeats_freely R' /\
  search_yields E R D (Some [0]) 0 (Ok gs) /\ search_yields E R' D (Some [0]) 0 (Ok gs') /\ length gs <> length gs'.
Proof.
  exists sample_engine, (plain TAG_P true false (Some (cap TAG_LI false true (s "a") None))), (cap TAG_LI false true (s "a") None),
    (page [el_id TAG_LI (s "1") []; el_id TAG_LI (s "2") []]),
    [[([RNext], [0; 1; 0])]; [([RNext], [1; 1; 0])]], [[([], [0; 1; 0]); ([], [1; 1; 0])]].
  split; [constructor; [apply core_alone|constructor]|]. split; [discriminate|]. split; [freely|]. split; [run_search|]. split; [run_search|discriminate].
Qed.

(** <?p/> and <?li/> on <li/> *)
Lemma optional_skeleton : exists E R R' D gs gs',
  same_skeleton R R' /\ repeats_freely R /\ repeats_freely R' /\
  search_yields E R D (Some [0]) 0 (Ok gs) /\ search_yields E R' D (Some [0]) 0 (Ok gs') /\ length gs <> length gs'.
Proof.
  exists sample_engine, (plain TAG_P true false None), (plain TAG_LI true false None), (page [el TAG_LI []]), [], [[([], [0; 1; 0])]].
  split; [constructor|]. split; [freely|]. split; [freely|]. split; [run_search|]. split; [run_search|discriminate].
Qed.

(** <div id:a><?p/></div> and <div id:a></div> on <div id=1/> *)
Lemma only_optional_children : exists E R R' c D,
  r_child R = Some c /\ mandatory_of c = [] /\ R' = mk_rule None (r_next R) (r_nested R) (r_matches R) (r_captures R) (r_tag R) (r_optional R) (r_greedy R) (r_tagname R) /\
  repeats_freely R /\ repeats_freely R' /\
  search_yields E R D (Some [0]) 0 (Ok []) /\ search_yields E R' D (Some [0]) 0 (Ok [[([], [0; 1; 0])]]).
Proof.
  exists sample_engine, (mk_rule (Some (plain TAG_P true false None)) None [] [] [] TAG_DIV false false None), (plain TAG_DIV false false None),
    (plain TAG_P true false None), (page [el TAG_DIV []]).
  split; [reflexivity|]. split; [reflexivity|]. split; [reflexivity|]. split; [freely|]. split; [freely|]. split; run_search.
Qed.
