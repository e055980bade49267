(** C63: names that have a special meaning in a script language. *)

From Coq Require Import Ascii String NArith ZArith Bool List Sorted Permutation Lia.
From Verif Require Import Base Tags Dom Values Match Rule RuleMatching ExtractSpec Parser TextSpec Convert ConvertSpec
  Scripts ScriptSpec ScriptProofs ExtractProofs Samples.
Import ListNotations.

(** C63, Node: the object has the members that stand for the names of the map,
    except "__proto__". They are listed with numbers first. The prototype is
    replaced if "__proto__" has several values. *)
Theorem C63_node_partial : forall m, StronglySorted name_le m ->
  exists o members, js_map m = Ok o /\ converted (without proto m) members /\
    Permutation (own_properties o) members /\ StronglySorted listed_before (own_properties o) /\
    js_proto o = (match values_of proto m with _ :: _ :: _ => Some (values_of proto m) | _ => None end).
Proof. exact js_map_spec. Qed.
Print Assumptions C63_node_partial.

Definition odd_names : ResultMap :=
  [(s "10", s "a"); (s "9", s "b"); (s "9", s "c"); (s "__proto__", s "d"); (s "__proto__", s "e"); (s "toString", s "f")].
Example C63_node_case : StronglySorted name_le odd_names /\
  exists o, js_map odd_names = Ok o /\
    own_properties o = [(s "9", Many [s "b"; s "c"]); (s "10", One (s "a")); (s "toString", One (s "f"))] /\
    js_proto o = Some [s "d"; s "e"].
Proof. split; [repeat constructor|]. eexists. split; [vm_compute; reflexivity|]. split; vm_compute; reflexivity. Qed.

(** A snippet whose only value is lost. *)
Theorem C63_node_refuted : exists text R D result o,
  ParseHext sample_engine text = Ok R /\ extract_yields sample_engine R D (Some [0]) 0 (Ok [result]) /\
  result <> [] /\ js_map result = Ok o /\ own_properties o = [] /\ js_proto o = None.
Proof.
  exists (s "<a id:__proto__/>"). eexists. exists (page [el_id TAG_A (s "x") []]), [(s "__proto__", s "x")], (mk_js [] None).
  split; [vm_compute; reflexivity|]. split; [run_extract|]. split; [discriminate|]. repeat split.
Qed.
Print Assumptions C63_node_refuted.

(** PHP: there is one entry per name, in the order of the names; its key is an
    integer exactly if the name is one. Every name finds its values. *)
Theorem C63_php : forall m, StronglySorted name_le m -> no_nul m ->
  exists a o, php_map m = Ok a /\ converted m o /\
    Forall2 (fun e x => key_of (fst x) (fst e) /\ snd e = snd x) a o /\
    forall name, match php_get a (to_key name) with
                 | Some v => stands_for v (values_of name m)
                 | None => values_of name m = []
                 end.
Proof. exact php_map_spec. Qed.
Print Assumptions C63_php.

(** The program php/htmlext.php prints a list instead of an object exactly for
    the names 0 to k-1, where k is at most 10. *)
Theorem C63_php_list : forall m, StronglySorted name_le m -> no_nul m ->
  exists a, php_map m = Ok a /\
    (encoded_as_list a = true <-> exists k, names_of m (firstn k one_digit_names)).
Proof. exact php_list. Qed.
Print Assumptions C63_php_list.

Example C63_php_case :
  (exists a, php_map odd_names = Ok a /\ map fst a = [PhpInt 10; PhpInt 9; PhpString (s "__proto__"); PhpString (s "toString")] /\
     encoded_as_list a = false) /\
  map to_key [s "-5"; s "05"; s "-0"; s "9223372036854775807"; s "9223372036854775808"] =
    [PhpInt (-5); PhpString (s "05"); PhpString (s "-0"); PhpInt 9223372036854775807; PhpString (s "9223372036854775808")] /\
  StronglySorted name_le odd_names /\ no_nul odd_names.
Proof.
  split; [eexists; split; [vm_compute; reflexivity|split; vm_compute; reflexivity]|]. split; [vm_compute; reflexivity|].
  split; [repeat constructor|]. intros n v H. cbn [odd_names In] in H.
  repeat match goal with H : _ \/ _ |- _ => destruct H as [H|H] end; try contradiction;
    injection H as <- <-; cbn; split; intuition discriminate.
Qed.

Theorem C63_php_refuted : exists text R D result a,
  ParseHext sample_engine text = Ok R /\ extract_yields sample_engine R D (Some [0]) 0 (Ok [result]) /\
  result <> [] /\ php_map result = Ok a /\ encoded_as_list a = true.
Proof.
  exists (s "<a id:0/>"). eexists. exists (page [el_id TAG_A (s "x") []]), [(s "0", s "x")]. eexists.
  split; [vm_compute; reflexivity|]. split; [run_extract|]. split; [discriminate|]. split; vm_compute; reflexivity.
Qed.
Print Assumptions C63_php_refuted.
