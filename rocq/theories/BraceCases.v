(** The documents and rules of the examples for C86. *)

From Coq Require Import Ascii String NArith ZArith Bool List Lia Permutation.
From Verif Require Import Base Tags Dom Values Match Rule RuleMatching ExtractSpec RewriteSpec Samples BraceSpec.
Import ListNotations.

(** <div> { <li id:a/> } { <p id:b/><?h1/> } </div> with the braces in any order *)
Definition with_braces (l : list rule) : rule := mk_rule None None l [] [] TAG_DIV false false None.
Definition first_brace : rule := cap TAG_LI false false (s "a") None.
Definition second_brace (name : str) : rule := cap TAG_P false false name (Some (plain TAG_H1 true false None)).

(** <div><li id=1/><section><p id=2/></section><li id=3/></div> *)
Definition brace_page : node :=
  page [el TAG_DIV [el_id TAG_LI (s "1") []; el TAG_SECTION [el_id TAG_P (s "2") []]; el_id TAG_LI (s "3") []]].

Lemma braces_exchanged name (may : rule -> rule -> Prop) : may first_brace (second_brace name) ->
  rearranged may (with_braces [first_brace; second_brace name]) (with_braces [second_brace name; first_brace]).
Proof.
  intros H. eapply rearranged_step; [|apply rearranged_same].
  exact (exchanged_here may None None [] first_brace (second_brace name) [] [] [] TAG_DIV false false None H).
Qed.

Lemma braces_apart : apart first_brace (second_brace (s "b")).
Proof.
  intros name [(rp & r & c & H1 & H2 & H3) (rp' & r' & c' & H1' & H2' & H3')].
  assert (H : In r (all_rules first_brace)) by (apply rule_of_all; now exists rp).
  assert (H' : In r' (all_rules (second_brace (s "b")))) by (apply rule_of_all; now exists rp').
  cbn in H, H'. destruct H as [<-|[]]. cbn in H2. destruct H2 as [[= <-]|[]].
  destruct H' as [<-|[<-|[]]]; cbn in H2'; [|contradiction]. destruct H2' as [[= <-]|[]].
  cbn in H3, H3'. rewrite <- H3 in H3'. discriminate H3'.
Qed.

Lemma brace_case :
  rearranged apart (with_braces [first_brace; second_brace (s "b")]) (with_braces [second_brace (s "b"); first_brace]) /\
  search_yields sample_engine (with_braces [first_brace; second_brace (s "b")]) brace_page (Some [0]) 0
    (Ok [[([RNested 0], [0; 0; 1; 0]); ([RNested 0], [2; 0; 1; 0]); ([RNested 1], [0; 1; 0; 1; 0]); ([], [0; 1; 0])]]) /\
  search_yields sample_engine (with_braces [second_brace (s "b"); first_brace]) brace_page (Some [0]) 0
    (Ok [[([RNested 0], [0; 1; 0; 1; 0]); ([RNested 1], [0; 0; 1; 0]); ([RNested 1], [2; 0; 1; 0]); ([], [0; 1; 0])]]) /\
  extract_yields sample_engine (with_braces [first_brace; second_brace (s "b")]) brace_page (Some [0]) 0
    (Ok [[(s "a", s "1"); (s "a", s "3"); (s "b", s "2")]]) /\
  extract_yields sample_engine (with_braces [second_brace (s "b"); first_brace]) brace_page (Some [0]) 0
    (Ok [[(s "a", s "1"); (s "a", s "3"); (s "b", s "2")]]).
Proof.
  split; [apply braces_exchanged, braces_apart|]. split; [run_search|]. split; [run_search|]. split; run_extract.
Qed.

(** With the same name the values come in another order. *)
Lemma same_name_order : exists E R R' D res res',
  rearranged any R R' /\ extract_yields E R D (Some [0]) 0 (Ok res) /\ extract_yields E R' D (Some [0]) 0 (Ok res') /\ res <> res'.
Proof.
  exists sample_engine, (with_braces [first_brace; second_brace (s "a")]), (with_braces [second_brace (s "a"); first_brace]), brace_page,
    [[(s "a", s "1"); (s "a", s "3"); (s "a", s "2")]], [[(s "a", s "2"); (s "a", s "1"); (s "a", s "3")]].
  split; [now apply braces_exchanged|]. split; [run_extract|]. split; [run_extract|discriminate].
Qed.

(** With a limit the search may end in one order alone. *)
Lemma limited_order : exists E R R' D n res,
  rearranged apart R R' /\ extract_yields E R D (Some [0]) n (Ok res) /\ extract_yields E R' D (Some [0]) n (Throw MaxSearchError).
Proof.
  exists sample_engine, (with_braces [plain TAG_B false false None; first_brace]), (with_braces [first_brace; plain TAG_B false false None]), brace_page, 9%N, [].
  split; [|split; run_extract].
  eapply rearranged_step; [|apply rearranged_same].
  apply (exchanged_here apart None None [] (plain TAG_B false false None) first_brace [] [] [] TAG_DIV false false None).
  intros name [(rp & r & c & H1 & H2 & H3) _].
  assert (H : In r (all_rules (plain TAG_B false false None))) by (apply rule_of_all; now exists rp).
  cbn in H. destruct H as [<-|[]]. contradiction.
Qed.
