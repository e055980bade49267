(** The documents and rules of the examples for C88. *)

From Coq Require Import Ascii String NArith ZArith Bool List.
From Verif Require Import Base Tags Dom Values Match Rule RuleMatching MatchSpec ExtractSpec SearchSpec Samples FrameSpec PartSpec.
Import ListNotations.

(** <li id:item/><?p id:note/> *)
Definition noted : rule := cap TAG_LI false false (s "item") (Some (cap TAG_P true false (s "note") None)).
Definition first_list : node := el TAG_UL [el_id TAG_LI (s "1") []; el_id TAG_P (s "a") []; el_id TAG_LI (s "2") []].
Definition second_list : node := el TAG_DIV [NText (s "x"); el TAG_OL [el_id TAG_LI (s "3") [el_id TAG_LI (s "4") []]]].
Definition third_list : node := el TAG_UL [el_id TAG_P (s "b") []; el_id TAG_LI (s "5") []].
Definition lists_page : node := el TAG_BODY [first_list; NText (s "and"); second_list; el TAG_DIV []; third_list].

Definition first_maps : list ResultMap := [[(s "item", s "1"); (s "note", s "a")]; [(s "item", s "2")]].
Definition second_maps : list ResultMap := [[(s "item", s "3")]; [(s "item", s "4")]].
Definition third_maps : list ResultMap := [[(s "item", s "5")]].

Lemma noted_near : near noted.
Proof.
  intros r Hr. apply rule_of_all in Hr. destruct Hr as [<-|[<-|[]]]; (split; [intros m []|]); intros c [H|[]]; injection H as <-; exact I.
Qed.

Lemma no_lists : no_row_here sample_engine noted lists_page [].
Proof.
  exists noted. split; [left; reflexivity|]. unfold node_satisfies. intros [|[|[|[|[|k]]]]]; try discriminate. unfold Rule_matches, deref. cbn. destruct k; discriminate.
Qed.

Lemma parts_case : near noted /\ no_row_here sample_engine noted lists_page [] /\
  extract_yields sample_engine noted lists_page (Some [0]) 7 (Ok (first_maps ++ second_maps ++ third_maps)) /\
  Forall2 (page_gives sample_engine noted 7) (seen_from lists_page 0) [first_maps; []; second_maps; []; third_maps].
Proof.
  split; [exact noted_near|]. split; [exact no_lists|]. split; [run_extract|].
  assert (HN : forall t, children_of t = [] -> ~ has_content t) by (intros t H [_ X]; now apply X).
  assert (HC : forall t, is_element t = true -> children_of t <> [] -> has_content t) by (intros t H X; now split).
  cbn [seen_from lists_page siblings_seen el is_element children_of length Nat.sub skipn firstn].
  constructor; [left; split; [apply HC; [reflexivity|discriminate]|run_extract]|].
  constructor; [right; split; [now apply HN|reflexivity]|].
  constructor; [left; split; [apply HC; [reflexivity|discriminate]|run_extract]|].
  constructor; [right; split; [now apply HN|reflexivity]|].
  constructor; [left; split; [apply HC; [reflexivity|discriminate]|run_extract]|constructor].
Qed.

(** A limit that is enough for every part can be too small for the whole. *)
Lemma limit_parts : exists E R D limit parts, near R /\ no_row_here E R D [] /\
  Forall2 (page_gives E R limit) (seen_from D 0) parts /\ extract_yields E R D (Some [0]) limit (Throw MaxSearchError).
Proof.
  exists sample_engine, noted, lists_page, 6%N, [first_maps; []; second_maps; []; third_maps]. split; [exact noted_near|]. split; [exact no_lists|]. split; [|run_extract].
  assert (HN : forall t, children_of t = [] -> ~ has_content t) by (intros t H [_ X]; now apply X).
  assert (HC : forall t, is_element t = true -> children_of t <> [] -> has_content t) by (intros t H X; now split).
  cbn [seen_from lists_page siblings_seen el is_element children_of length Nat.sub skipn firstn].
  constructor; [left; split; [apply HC; [reflexivity|discriminate]|run_extract]|].
  constructor; [right; split; [now apply HN|reflexivity]|].
  constructor; [left; split; [apply HC; [reflexivity|discriminate]|run_extract]|].
  constructor; [right; split; [now apply HN|reflexivity]|].
  constructor; [left; split; [apply HC; [reflexivity|discriminate]|run_extract]|constructor].
Qed.

(** A list of siblings cannot be cut. *)
Lemma siblings_uncut : exists E R l l' res a b, near R /\
  extract_yields E R (el TAG_BODY (l ++ l')) (Some [0]) 0 (Ok res) /\
  extract_yields E R (el TAG_BODY l) (Some [0]) 0 (Ok a) /\ extract_yields E R (el TAG_BODY l') (Some [0]) 0 (Ok b) /\ res <> a ++ b.
Proof.
  exists sample_engine, noted, [el_id TAG_LI (s "1") []], [el_id TAG_P (s "a") []], [[(s "item", s "1"); (s "note", s "a")]], [[(s "item", s "1")]], [].
  split; [exact noted_near|]. split; [run_extract|]. split; [run_extract|]. split; [run_extract|discriminate].
Qed.
