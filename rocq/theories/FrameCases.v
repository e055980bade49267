(** The documents and rules of the examples for C77. *)

From Coq Require Import Ascii String NArith ZArith Bool List.
From Verif Require Import Base Tags Dom Values Match Rule RuleMatching ExtractSpec Samples FrameSpec.
Import ListNotations.

(** A function of a user: the node is not the first child of its parent. *)
Definition not_first (d : node) (p : npath) : fres bool :=
  FReturn (match p with S _ :: _ => true | _ => false end).
(** <li:nth-child(2n) id:item @text:text/> with the function *)
Definition item_rule : rule :=
  mk_rule None None [] [Some (FunctionMatch (Some not_first)); Some (NthChildMatch 2 0 (mk_nth_option true false))]
    [Some (AttributeCapture (s "id") (s "item") None); Some (FunctionCapture (Some TextBuiltin) (s "text") None)] TAG_LI false false None.
Definition three_items : list node :=
  [el_id TAG_LI (s "1") [NText (s "one")]; el_id TAG_LI (s "2") [NText (s "two")]; el_id TAG_LI (s "3") []].
(** The list in two documents. *)
Definition short_page : node := page [el TAG_UL three_items].
Definition long_page : node := page [el TAG_LI []; el TAG_DIV [el TAG_LI []; el_id TAG_OL (s "x") three_items; el_id TAG_LI (s "y") []]].

Lemma item_near : near item_rule.
Proof.
  intros r Hr. apply rule_of_all in Hr. destruct Hr as [<-|[]]. split.
  - intros m [H|[H|[]]]; injection H as <-; constructor. intros D D' pp pp' _ i. reflexivity.
  - intros c [H|[H|[]]]; injection H as <-; exact I.
Qed.

Lemma item_case : near item_rule /\ same_children short_page long_page [0; 1; 0] [1; 1; 1; 0] /\
  extract_yields sample_engine item_rule short_page (Some [0; 0; 1; 0]) 0 (Ok [[(s "item", s "2"); (s "text", s "two")]]) /\
  extract_yields sample_engine item_rule short_page (Some [0; 0; 1; 0]) 1 (Throw MaxSearchError).
Proof.
  split; [exact item_near|]. split; [exists (el TAG_UL three_items), (el_id TAG_OL (s "x") three_items); repeat split|].
  split; run_extract.
Qed.

(** A function that looks at the whole document. *)
Lemma far_differs : exists E R D D' i pp pp' res res', same_children D D' pp pp' /\
  extract_yields E R D (Some (i :: pp)) 0 (Ok res) /\ extract_yields E R D' (Some (i :: pp')) 0 (Ok res') /\ res <> res'.
Proof.
  set (f := fun (d : node) (p : npath) => FReturn (match nget d [0; 1; 0] with Some (NElement t _ _ _) => (t =? TAG_UL)%N | _ => false end)).
  exists sample_engine, (mk_rule None None [] [Some (FunctionMatch (Some f))] [Some (AttributeCapture (s "id") (s "item") None)] TAG_LI false false None),
    short_page, long_page, 0, [0; 1; 0], [1; 1; 1; 0],
    [[(s "item", s "1")]; [(s "item", s "2")]; [(s "item", s "3")]], [].
  split; [exists (el TAG_UL three_items), (el_id TAG_OL (s "x") three_items); repeat split|].
  split; [run_extract|]. split; [run_extract|discriminate].
Qed.

(** The same node with other siblings before it. *)
Lemma siblings_matter : exists E R D D' p p' n res res', near R /\ nget D p = Some n /\ nget D' p' = Some n /\
  (forall par i pp, p = i :: pp -> nget D pp = Some par -> length (children_of par) = S i) /\
  (forall par i pp, p' = i :: pp -> nget D' pp = Some par -> length (children_of par) = S i) /\
  extract_yields E R D (Some p) 0 (Ok res) /\ extract_yields E R D' (Some p') 0 (Ok res') /\ res <> res'.
Proof.
  exists sample_engine, item_rule, (page [el_id TAG_LI (s "1") []]), (page [el TAG_P []; el_id TAG_LI (s "1") []]), [0; 1; 0], [1; 1; 0],
    (el_id TAG_LI (s "1") []), [], [[(s "item", s "1"); (s "text", [])]].
  split; [exact item_near|]. do 2 (split; [reflexivity|]).
  split; [intros par i pp H; injection H as <- <-; intros H; injection H as <-; reflexivity|].
  split; [intros par i pp H; injection H as <- <-; intros H; injection H as <-; reflexivity|].
  split; [run_extract|]. split; [run_extract|discriminate].
Qed.
