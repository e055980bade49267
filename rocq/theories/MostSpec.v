(** The largest number of groups in a list of siblings (C78), and rules that ask
    for less (C79). *)

From Coq Require Import Ascii String NArith ZArith Bool List Sorted.
From Verif Require Import Base Tags Dom Values Match Rule RuleMatching MatchSpec ExtractSpec SearchSpec RewriteSpec.
Import ListNotations.

(** ** The largest number of groups *)

(** Lists of nodes one after the other. *)
Fixpoint apart (kss : list (list nat)) : Prop :=
  match kss with
  | [] => True
  | ks :: kss' => (forall ks' k k', In ks' kss' -> In k ks -> In k' ks' -> k < k') /\ apart kss'
  end.

(** There are as many groups [G] as the mandatory rules can be matched one after
    the other in the list [L], and not more often. *)
Definition most_groups (E : engine) (D : node) (R : rule) (L : npath * nat * nat) (G : list MatchingNodes) : Prop :=
  (exists kss, Forall (embeds E D R L) kss /\ apart kss /\ length kss = length G) /\
  (forall kss, Forall (embeds E D R L) kss -> apart kss -> length kss <= length G).

(** A single mandatory rule that comes first and is greedy. *)
Definition lone_greedy (R : rule) : Prop :=
  r_optional R = false /\ r_greedy R = true /\ length (mandatory_of R) = 1.

(** ** Rules that ask for less *)

(** A node that meets all conditions of [l] meets this one. *)
Inductive follows (l : list (option mtch)) : mtch -> Prop :=
| follows_listed m : In (Some m) l -> follows l m
| follows_implied m m' : follows l m -> implies m m' -> follows l m'
| follows_not ms ms' : follows l (NegateMatch ms) -> (forall m, In (Some m) ms' -> In (Some m) ms) -> follows l (NegateMatch ms').

(** The first list has at each place something below an element of the second
    list, in the same order; elements may be left out. *)
Inductive fewer (below : rule -> rule -> Prop) : list rule -> list rule -> Prop :=
| fewer_nil : fewer below [] []
| fewer_drop l' r l : fewer below l' l -> fewer below l' (r :: l)
| fewer_keep r' l' r l : below r' r -> fewer below l' l -> fewer below (r' :: l') (r :: l).

(** The mandatory child rules. *)
Definition child_row (r : rule) : list rule := match r_child r with Some c => mandatory_of c | None => [] end.

(** [asks_less r' r]: the rule [r'] asks for less than the rule [r]. Conditions,
    child rules and nested rules may be missing or ask for less, a tag may be
    replaced by an asterisk, child rules may be replaced by nested rules. *)
Inductive asks_less : rule -> rule -> Prop :=
| asks_less_intro r' r :
    r_tag r' = TAG_ANY \/ (r_tag r = r_tag r' /\ tag_names_equal (r_tag r) (r_tagname r) (r_tagname r')) ->
    (forall m, In (Some m) (r_matches r') -> follows (r_matches r) m) ->
    (r_child r' <> None \/ r_nested r' <> [] -> r_child r <> None \/ r_nested r <> []) ->
    fewer asks_less (child_row r') (child_row r) ->
    (forall c', In c' (r_nested r') -> mandatory_of c' <> [] ->
       exists c, (r_child r = Some c \/ In c (r_nested r)) /\ fewer asks_less (mandatory_of c') (mandatory_of c)) ->
    asks_less r' r.
