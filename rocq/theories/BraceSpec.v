(** Rules whose braces stand in another order (C86). *)

From Coq Require Import Ascii String NArith ZArith Bool List.
From Verif Require Import Base Tags Dom Values Match Rule RuleMatching ExtractSpec RewriteSpec.
Import ListNotations.

(** ** Another order *)

(** Two neighbouring rules in braces are exchanged, somewhere in the tree.
    [may a b] says which ones may be. *)
Inductive exchanged (may : rule -> rule -> Prop) : rule -> rule -> Prop :=
| exchanged_here c n l a b l' ms cs t o g name :
    may a b -> exchanged may (mk_rule c n (l ++ a :: b :: l') ms cs t o g name) (mk_rule c n (l ++ b :: a :: l') ms cs t o g name)
| exchanged_child c c' n l ms cs t o g name :
    exchanged may c c' -> exchanged may (mk_rule (Some c) n l ms cs t o g name) (mk_rule (Some c') n l ms cs t o g name)
| exchanged_next c n n' l ms cs t o g name :
    exchanged may n n' -> exchanged may (mk_rule c (Some n) l ms cs t o g name) (mk_rule c (Some n') l ms cs t o g name)
| exchanged_nested c n l a a' l' ms cs t o g name :
    exchanged may a a' -> exchanged may (mk_rule c n (l ++ a :: l') ms cs t o g name) (mk_rule c n (l ++ a' :: l') ms cs t o g name).

Inductive rearranged (may : rule -> rule -> Prop) : rule -> rule -> Prop :=
| rearranged_same R : rearranged may R R
| rearranged_step R R' R'' : exchanged may R R' -> rearranged may R' R'' -> rearranged may R R''.

(** Any two rules; rules that do not both store values under a name; rules that
    store values under different names. *)
Definition any (a b : rule) : Prop := True.
Definition stored_in (r : rule) (name : str) : Prop :=
  exists rp r' c, rget r rp = Some r' /\ In (Some c) (r_captures r') /\ stores_as c = name.
Definition apart_for (name : str) (a b : rule) : Prop := ~ (stored_in a name /\ stored_in b name).
Definition apart (a b : rule) : Prop := forall name, apart_for name a b.

(** ** Where the rules are *)

(** The same rule, whatever its children, siblings and rules in braces are. *)
Definition same_rule (r r' : rule) : Prop :=
  r_tag r = r_tag r' /\ r_tagname r = r_tagname r' /\ r_matches r = r_matches r' /\ r_captures r = r_captures r' /\
  r_optional r = r_optional r' /\ r_greedy r = r_greedy r' /\
  (r_child r = None <-> r_child r' = None) /\ (r_next r = None <-> r_next r' = None) /\ length (r_nested r) = length (r_nested r').

(** The rule [rp] of [R] is the rule [g rp] of [R']. *)
Definition renumbered (R R' : rule) (g : rpath -> rpath) : Prop :=
  g [] = [] /\
  (forall rp r, rget R rp = Some r -> exists r', rget R' (g rp) = Some r' /\ same_rule r r') /\
  (forall rp, rget R (RChild :: rp) <> None -> g (RChild :: rp) = RChild :: g rp) /\
  (forall rp, rget R (RNext :: rp) <> None -> g (RNext :: rp) = RNext :: g rp) /\
  (forall k rp, rget R (RNested k :: rp) <> None -> exists k', g (RNested k :: rp) = RNested k' :: g rp) /\
  (forall i j rp, rget R (RNested i :: rp) <> None -> rget R (RNested j :: rp) <> None -> g (RNested i :: rp) = g (RNested j :: rp) -> i = j).

(** Rules in the same braces that store values under [name] keep their order. *)
Definition keeps (R : rule) (g : rpath -> rpath) (name : str) : Prop :=
  forall i j i' j' rp a b, rget R (RNested i :: rp) = Some a -> rget R (RNested j :: rp) = Some b ->
    stored_in a name -> stored_in b name -> i < j ->
    g (RNested i :: rp) = RNested i' :: g rp -> g (RNested j :: rp) = RNested j' :: g rp -> i' < j'.

(** The pairs of a group, with the addresses of the other tree. *)
Definition moved (g : rpath -> rpath) (m : MatchingNodes) : MatchingNodes := map (fun x => (g (fst x), snd x)) m.
