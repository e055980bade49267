(** C77: a search looks only at the children of the parent of its start node and
    at what is below them. *)

From Coq Require Import Ascii String NArith ZArith Bool List.
From Verif Require Import Base Tags Dom Values Match Rule RuleMatching ExtractSpec Samples FrameSpec FrameSim FrameCases.
Import ListNotations.

(** The rest of the document has no influence on any outcome: neither on the
    results nor on exceptions nor on undefined behaviour. *)
Theorem C77_frame : forall E R D D' pp pp' i limit o, near R -> same_children D D' pp pp' ->
  (extract_yields E R D (Some (i :: pp)) limit o <-> extract_yields E R D' (Some (i :: pp')) limit o).
Proof. exact extract_frame. Qed.
Print Assumptions C77_frame.

Example C77_case : near item_rule /\ same_children short_page long_page [0; 1; 0] [1; 1; 1; 0] /\
  extract_yields sample_engine item_rule short_page (Some [0; 0; 1; 0]) 0 (Ok [[(s "item", s "2"); (s "text", s "two")]]) /\
  extract_yields sample_engine item_rule short_page (Some [0; 0; 1; 0]) 1 (Throw MaxSearchError).
Proof. exact item_case. Qed.

(** A function of a user can look at the whole document. *)
Theorem C77_far_refuted : exists E R D D' i pp pp' res res', same_children D D' pp pp' /\
  extract_yields E R D (Some (i :: pp)) 0 (Ok res) /\ extract_yields E R D' (Some (i :: pp')) 0 (Ok res') /\ res <> res'.
Proof. exact far_differs. Qed.
Print Assumptions C77_far_refuted.

(** The siblings before the start node do have an influence, even if the start
    node is the last child. *)
Theorem C77_siblings_refuted : exists E R D D' p p' n res res', near R /\ nget D p = Some n /\ nget D' p' = Some n /\
  (forall par i pp, p = i :: pp -> nget D pp = Some par -> length (children_of par) = S i) /\
  (forall par i pp, p' = i :: pp -> nget D' pp = Some par -> length (children_of par) = S i) /\
  extract_yields E R D (Some p) 0 (Ok res) /\ extract_yields E R D' (Some p') 0 (Ok res') /\ res <> res'.
Proof. exact siblings_matter. Qed.
Print Assumptions C77_siblings_refuted.
