(** A search as the searches of its parts (C88). *)

From Coq Require Import Ascii String NArith ZArith Bool List.
From Verif Require Import Base Tags Dom Values Match Rule RuleMatching MatchSpec ExtractSpec SearchSpec.
Import ListNotations.

(** An element with children: a search goes on below it. *)
Definition has_content (t : node) : Prop := is_element t = true /\ children_of t <> [].

(** A page with the children of [t] alone. *)
Definition own_page (t : node) : node := NElement TAG_BODY (Some []) [] (children_of t).

(** What a search finds below the node [p]: the groups of a search that starts
    with the first child of [p]. *)
Definition groups_inside (E : engine) (R : rule) (D : node) (limit : N) (p : npath) (gs : list MatchingNodes) : Prop :=
  exists t, nget D p = Some t /\
    ((has_content t /\ search_yields E R D (Some (0 :: p)) limit (Ok gs)) \/ (~ has_content t /\ gs = [])).

(** What the page of a node gives. *)
Definition page_gives (E : engine) (R : rule) (limit : N) (t : node) (res : list ResultMap) : Prop :=
  (has_content t /\ extract_yields E R (own_page t) (Some [0]) limit (Ok res)) \/ (~ has_content t /\ res = []).

(** The nodes that a search from child number [i] of [par] on looks at first. *)
Definition seen_from (par : node) (i : nat) : list node := firstn (siblings_seen par i) (skipn i (children_of par)).

(** The rule cannot match in a list of siblings: one of its mandatory rules is
    satisfied by none of them. *)
Definition no_row_here (E : engine) (R : rule) (D : node) (pp : npath) : Prop :=
  exists r, In r (mandatory_of R) /\ forall k, ~ node_satisfies E D r (k :: pp).
