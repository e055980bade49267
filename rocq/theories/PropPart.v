(** C88: a search is made of the searches of its parts. *)

From Coq Require Import Ascii String NArith ZArith Bool List.
From Verif Require Import Base Tags Dom Values Match Rule RuleMatching MatchSpec ExtractSpec SearchSpec Samples FrameSpec PartSpec PartMain PartCases.
Import ListNotations.

(** The groups of a search are those of the list of siblings that it starts
    with, then, for every node of this list in turn, the groups that a search
    from its first child on finds, with the same limit. *)
Theorem C88_groups : forall E R D i pp par t limit gs, nget D pp = Some par -> nget D (i :: pp) = Some t ->
  search_yields E R D (Some (i :: pp)) limit (Ok gs) ->
  exists level gss, gs = level ++ concat gss /\
    complete_groups E D R (pp, i, siblings_seen par i) level /\
    (mandatory_of R <> [] -> found_iff_embeds E D R (pp, i, siblings_seen par i) level) /\
    Forall2 (fun k => groups_inside E R D limit (k :: pp)) (seq i (siblings_seen par i)) gss.
Proof. exact search_parts. Qed.
Print Assumptions C88_groups.

(** So a result ends with the results of the nodes of the list, each of them on a
    page of its own. *)
Theorem C88_parts : forall E R D i pp par t limit res, near R -> nget D pp = Some par -> nget D (i :: pp) = Some t ->
  extract_yields E R D (Some (i :: pp)) limit (Ok res) ->
  exists level parts, res = level ++ concat parts /\ (no_row_here E R D pp -> level = []) /\
    Forall2 (page_gives E R limit) (seen_from par i) parts.
Proof. exact extract_parts. Qed.
Print Assumptions C88_parts.

(** If the rules cannot match in this list then the page may be cut into the
    pages of its nodes: the results put together are the result of the page. *)
Theorem C88_cut : forall E R D i pp par t limit res, near R -> no_row_here E R D pp -> nget D pp = Some par -> nget D (i :: pp) = Some t ->
  extract_yields E R D (Some (i :: pp)) limit (Ok res) ->
  exists parts, Forall2 (page_gives E R limit) (seen_from par i) parts /\ res = concat parts.
Proof. exact extract_cut. Qed.
Print Assumptions C88_cut.

(** Two lists and an element with a list in it, between them a text and an empty
    element. *)
Example C88_case : near noted /\ no_row_here sample_engine noted lists_page [] /\
  extract_yields sample_engine noted lists_page (Some [0]) 7 (Ok (first_maps ++ second_maps ++ third_maps)) /\
  Forall2 (page_gives sample_engine noted 7) (seen_from lists_page 0) [first_maps; []; second_maps; []; third_maps].
Proof. exact parts_case. Qed.

(** The limit counts for the whole page: a limit that is enough for every part
    may be too small. *)
Theorem C88_limit_refuted : exists E R D limit parts, near R /\ no_row_here E R D [] /\
  Forall2 (page_gives E R limit) (seen_from D 0) parts /\ extract_yields E R D (Some [0]) limit (Throw MaxSearchError).
Proof. exact limit_parts. Qed.
Print Assumptions C88_limit_refuted.

(** A list of siblings itself cannot be cut. *)
Theorem C88_siblings_refuted : exists E R l l' res a b, near R /\
  extract_yields E R (el TAG_BODY (l ++ l')) (Some [0]) 0 (Ok res) /\
  extract_yields E R (el TAG_BODY l) (Some [0]) 0 (Ok a) /\ extract_yields E R (el TAG_BODY l') (Some [0]) 0 (Ok b) /\ res <> a ++ b.
Proof. exact siblings_uncut. Qed.
Print Assumptions C88_siblings_refuted.
