(** Vocabulary for the statements about the example extract-href. *)

From Coq Require Import Ascii String NArith ZArith Bool List Sorted.
From Verif Require Import Base StringUtil Tags Dom Values Match Rule RuleMatching MatchSpec ExtractSpec SearchSpec
  StringSpec NodeSpec Convert Href.
Import ListNotations.

(** The nodes of a search with some property, each one once, in the order of the
    search: the siblings of the first node, then those below. *)
Definition in_search_order (D : node) (i : nat) (pp : npath) (P : npath -> Prop) (nodes : list npath) : Prop :=
  exists nss, nodes = concat nss /\
    Forall2 (fun (L : npath * nat * nat) ns =>
               exists ks, ns = map (fun k => k :: fst (fst L)) ks /\ StronglySorted lt ks /\
                 forall k, In k ks <-> snd (fst L) <= k < snd (fst L) + snd L /\ P (k :: fst (fst L)))
      (lists_searched D i pp) nss.

(** An element with tag [t] whose attribute href has the value [v]. *)
Definition has_href (t : tag) (D : node) (p : npath) (v : str) : Prop :=
  exists orig attrs cs a w, nget D p = Some (NElement t orig attrs cs) /\
    first_attribute (s "href") attrs a /\ a_value a = Some w /\ v = c_str w.

(** What the program calls useful. *)
Definition useful_link (D : node) (p : npath) (v : str) : Prop :=
  has_href TAG_A D p v /\ v <> [] /\ ~ starts_with (s "#") v /\ ~ starts_with (s "javascript:") v.

(** The base URI: the argument, or the first one in the order of the search. *)
Definition base_choice (arg : option str) (D : node) (i : nat) (pp : npath) (b : str) : Prop :=
  match arg with
  | Some a => b = a
  | None => exists nodes vs, in_search_order D i pp (fun p => exists v, has_href TAG_BASE D p v) nodes /\
              Forall2 (has_href TAG_BASE D) nodes vs /\ b = hd [] vs
  end.

Definition href_yields (E : engine) (U : uri_library) (arg : option str) (D : node) (p : nptr) (o : outcome str) : Prop :=
  exists f0, forall f, f0 <= f -> href_main f E U arg D p = o.
