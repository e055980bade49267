(** C61: programs that make, copy, assign, move, extend and destroy rules. *)

From Coq Require Import Ascii String NArith ZArith Bool List Permutation.
From Verif Require Import Base Tags Values Match Rule RuleMatching RuleHeap RuleHeapSpec RuleHeapMain RuleHeapMove.
Import ListNotations.

(** A program of one function: two variables, copies and moves between them and
    their parts, and their end. [rest] is what a moved-from std::string holds;
    here it is empty. *)
Definition no_rest : str -> str := fun _ => [].
Definition at0 (path : list rstep) : place := mk_place 0 path.
Definition li_with_link : list statement :=
  [NewTag 1 TAG_LI true false;
   AppendMatch (mk_place 1 []) (Some (AttributeMatch (s "id") None));
   AppendCapture (mk_place 1 []) (Some (AttributeCapture (s "href") (s "link") None))].
Definition two_children : list statement :=
  NewTag 0 TAG_UL false false :: li_with_link ++
  [AppendChild (at0 []) (ByCopy (mk_place 1 [])); AppendChild (at0 []) (ByMove (mk_place 1 []))].
Definition from_own_part : list statement :=
  two_children ++
  [AppendNested (at0 []) true (ByCopy (at0 [RChild]));
   AppendNested (at0 []) true (ByMove (at0 [RChild; RNext]));
   NewRule 2 (ByCopy (at0 []));
   Assign (at0 []) (ByCopy (at0 [RNested 1]));
   Assign (mk_place 2 [RChild]) (ByMove (at0 []))].
Definition ended : list statement := from_own_part ++ [EndOf 2; EndOf 1; EndOf 0].

Definition linked (next : option rule) : rule :=
  mk_rule None next [] [Some (AttributeMatch (s "id") None)] [Some (AttributeCapture (s "href") (s "link") None)] TAG_LI true false None.

(** C61, first part. [effects] says what the values of the variables are after
    the program, without any memory. If it gives a result, then the program runs
    to its end, no rule is used after it was destroyed and none is destroyed
    twice, because each of these is an outcome of its own; the variables have
    the values of the specification; every living object is owned by exactly
    one variable; and every address ever used is either alive or was given back
    exactly once.
    Missing from the full statement: [effects] has no result if a rule is
    move-assigned from a part of itself, from a rule that it is part of, or from
    itself, or if the place of a call is moved away by its own argument. The
    refutations below show that the first three do not hold in general. *)
Theorem C61_values_partial : forall rest program values,
  effects rest [] program = Some values ->
  exists f0, forall f, f0 <= f -> exists s, run rest f start program = Some (Ok s) /\ sound s values.
Proof. exact programs_sound. Qed.
Print Assumptions C61_values_partial.

(** The copy of a part of a rule may be assigned to the rule. *)
Example C61_values_case : effects no_rest [] from_own_part =
  Some [(2, mk_rule (Some (linked None)) None [linked (Some (linked None)); linked None] [] [] TAG_UL false false None);
        (1, mk_rule None None [] [] [] TAG_LI true false None);
        (0, mk_rule None None [] [] [] TAG_LI true false None)].
Proof. vm_compute. reflexivity. Qed.

(** C61, second part: when all variables have ended there is no object left,
    and all that were made have been given back once. *)
Theorem C61_end_partial : forall rest program,
  effects rest [] program = Some [] ->
  exists f0, forall f, f0 <= f -> exists s, run rest f start program = Some (Ok s) /\
    h_cells (mem s) = [] /\ Permutation (h_freed (mem s)) (seq 0 (h_fresh (mem s))).
Proof. exact programs_end. Qed.
Print Assumptions C61_end_partial.

Example C61_end_case : effects no_rest [] ended = Some [] /\
  match run no_rest 10 start ended with Some (Ok s) => h_fresh (mem s) = 38 | _ => False end.
Proof. split; vm_compute; reflexivity. Qed.

(** The move assignment of a rule from any part of itself uses memory that the
    same assignment has given back: Rule.h 127 is the defaulted operator, which
    destroys the part together with the first member that contains it. *)
Theorem C61_move_part_refuted : forall rest program values x p st path v,
  effects rest [] program = Some values ->
  value_at values (mk_place x (p ++ st :: path)) = Some v ->
  exists f0, forall f, f0 <= f ->
    run rest f start (program ++ [Assign (mk_place x p) (ByMove (mk_place x (p ++ st :: path)))]) = Some (UB BadPointer).
Proof. exact move_from_part. Qed.
Print Assumptions C61_move_part_refuted.

Example C61_move_part_case :
  run no_rest 10 start (two_children ++ [Assign (at0 []) (ByMove (at0 [RChild]))]) = Some (UB BadPointer) /\
  run no_rest 10 start (two_children ++ [Assign (at0 []) (ByMove (at0 [RChild; RNext]))]) = Some (UB BadPointer) /\
  run no_rest 10 start (two_children ++ [Assign (at0 [RChild]) (ByMove (at0 [RChild; RNext]))]) = Some (UB BadPointer).
Proof. repeat split; vm_compute; reflexivity. Qed.

(** A rule that is moved into a part of itself is never destroyed: the part
    then owns itself. Both by assignment and by append_child. *)
Theorem C61_move_whole_refuted :
  (exists s, run no_rest 10 start (two_children ++ [Assign (at0 [RChild]) (ByMove (at0 [])); EndOf 1; EndOf 0]) = Some (Ok s) /\
     env s = [] /\ length (h_cells (mem s)) = 1) /\
  (exists s, run no_rest 10 start (two_children ++ [AppendChild (at0 [RChild]) (ByMove (at0 [])); EndOf 1; EndOf 0]) = Some (Ok s) /\
     env s = [] /\ h_cells (mem s) <> []).
Proof. split; (eexists; split; [vm_compute; reflexivity|split; [reflexivity|first [reflexivity|discriminate]]]). Qed.
Print Assumptions C61_move_whole_refuted.

(** A rule that is move-assigned from itself keeps its children and loses its
    nested rules, traits and captures. *)
Theorem C61_move_self_refuted :
  exists s m, run no_rest 10 start (li_with_link ++ [Assign (mk_place 1 []) (ByMove (mk_place 1 []))]) = Some (Ok s) /\
    match var_get (env s) 1 with Some a => cell_get (h_cells (mem s)) a = Some (CRule m) | None => False end /\
    o_matches m = [] /\ o_captures m = [].
Proof. eexists. eexists. split; [vm_compute; reflexivity|]. split; [vm_compute; reflexivity|]. split; reflexivity. Qed.
Print Assumptions C61_move_self_refuted.
