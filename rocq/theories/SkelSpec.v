(** Rules that differ in optional rules alone (C87). *)

From Coq Require Import Ascii String NArith ZArith Bool List.
From Verif Require Import Base Tags Dom Values Match Rule RuleMatching MatchSpec ExtractSpec RewriteSpec.
Import ListNotations.

(** ** The same mandatory rules *)

(** Two rules with the same tag, conditions and captures, whose child rules and
    rules in braces have the same mandatory rules. *)
Inductive same_core : rule -> rule -> Prop :=
| same_core_intro r r' :
    r_tag r = r_tag r' -> r_tagname r = r_tagname r' -> r_matches r = r_matches r' -> r_captures r = r_captures r' ->
    r_greedy r = r_greedy r' ->
    (r_child r = None <-> r_child r' = None) ->
    (forall c c', r_child r = Some c -> r_child r' = Some c' -> Forall2 same_core (mandatory_of c) (mandatory_of c')) ->
    Forall2 (fun a a' => Forall2 same_core (mandatory_of a) (mandatory_of a')) (r_nested r) (r_nested r') ->
    same_core r r'.

(** Two rows of rules with the same mandatory rules. *)
Definition same_skeleton (R R' : rule) : Prop := Forall2 same_core (mandatory_of R) (mandatory_of R').

(** No optional rule stands directly before a mandatory one that is greedy. Such
    a greedy rule is not repeated (C13). *)
Definition repeats_freely (R : rule) : Prop :=
  forall rp a b, rget R rp = Some a -> r_next a = Some b -> r_optional a = true -> r_optional b = false -> r_greedy b = false.

(** ** Pairs of mandatory rules *)

Definition mandatory_at (R : rule) (rp : rpath) : bool :=
  match rget R rp with Some r => negb (r_optional r) | None => false end.

(** The rules that a rule is child of, or in the braces of, are mandatory. *)
Fixpoint owners_mandatory (R : rule) (rp : rpath) : bool :=
  match rp with
  | [] => true
  | RNext :: q => owners_mandatory R q
  | RChild :: q | RNested _ :: q => mandatory_at R q && owners_mandatory R q
  end.

Definition essential (R : rule) (rp : rpath) : bool := mandatory_at R rp && owners_mandatory R rp.
Definition essential_pairs (R : rule) (m : MatchingNodes) : MatchingNodes := filter (fun x => essential R (fst x)) m.

(** The addresses of the mandatory rules of a row. *)
Fixpoint mandatory_addresses (rp : rpath) (r : rule) : list rpath :=
  (if r_optional r then [] else [rp]) ++
  match r with
  | mk_rule _ (Some n) _ _ _ _ _ _ _ => mandatory_addresses (RNext :: rp) n
  | mk_rule _ None _ _ _ _ _ _ _ => []
  end.

(** Which rule of [R'] stands for a mandatory rule of [R]: the one at the same
    place among the mandatory rules of its row. *)
Inductive stands_for (R R' : rule) : rpath -> rpath -> Prop :=
| stands_top a a' :
    In (a, a') (combine (mandatory_addresses [] R) (mandatory_addresses [] R')) -> stands_for R R' a a'
| stands_child rp rp' r r' c c' a a' :
    stands_for R R' rp rp' -> rget R rp = Some r -> rget R' rp' = Some r' -> r_child r = Some c -> r_child r' = Some c' ->
    In (a, a') (combine (mandatory_addresses (RChild :: rp) c) (mandatory_addresses (RChild :: rp') c')) -> stands_for R R' a a'
| stands_nested rp rp' r r' k c c' a a' :
    stands_for R R' rp rp' -> rget R rp = Some r -> rget R' rp' = Some r' ->
    nth_error (r_nested r) k = Some c -> nth_error (r_nested r') k = Some c' ->
    In (a, a') (combine (mandatory_addresses (RNested k :: rp) c) (mandatory_addresses (RNested k :: rp') c')) -> stands_for R R' a a'.

Definition same_pair (R R' : rule) (x x' : rpath * npath) : Prop := stands_for R R' (fst x) (fst x') /\ snd x = snd x'.

(** Two groups with the same pairs of mandatory rules. *)
Definition same_essentials (R R' : rule) (m m' : MatchingNodes) : Prop :=
  Forall2 (same_pair R R') (essential_pairs R m) (essential_pairs R' m').

(** Only rules that are mandatory, as all rules around them, store under a name. *)
Definition stored_by_essentials (R : rule) (name : str) : Prop :=
  forall rp r c, rget R rp = Some r -> In (Some c) (r_captures r) -> stores_as c = name -> essential R rp = true.
