(** C73: rules when there is not enough memory. *)

From Coq Require Import Ascii String NArith ZArith Bool List Permutation.
From Verif Require Import Base Tags Values Match Rule RuleMatching RuleHeap RuleHeapSpec NoMemory NoMemorySpec NoMemoryMain.
Import ListNotations.

(** C73, first part. Whatever requests are refused, every statement is done
    completely or not at all: [expect] says what the values of the variables
    are, and a statement that threw std::bad_alloc leaves them as they were,
    except that a rule which was moved into the argument of an append function
    is gone. It throws if and only if one of its requests was refused, and asks
    for nothing more then. Nothing is used after its end, destroyed twice or
    lost.
    Missing from the full statement: [Rule x(name)] may end the process, see
    below; [expect] has no result where [effect] has none, see C61. *)
Theorem C73_values_partial : forall rest grants program result,
  expect rest grants 0 [] program = Some result ->
  exists f0, forall f, f0 <= f -> exists e, try_run rest grants f beginning program = Some (Ok e) /\ ends_as e result.
Proof. exact try_programs. Qed.
Print Assumptions C73_values_partial.

Definition none_left : str -> str := fun _ => [].
Definition at1 : place := mk_place 1 [].
Definition at2 : place := mk_place 2 [].
Fixpoint tried (l : list statement) (p : program) : program :=
  match l with [] => p | st :: l' => Try st (tried l' p) Stop end.
(** A list with an item, which is assigned to another rule. *)
Definition items : list statement :=
  [NewTag 1 TAG_UL false false; NewTag 2 TAG_LI true false;
   AppendMatch at2 (Some (AttributeMatch (s "id") None)); AppendCapture at2 (Some (AttributeCapture (s "href") (s "link") None));
   AppendChild at1 (ByCopy at2); AppendNested at1 true (ByCopy at2)].
Definition item : rule :=
  mk_rule None None [] [Some (AttributeMatch (s "id") None)] [Some (AttributeCapture (s "href") (s "link") None)] TAG_LI true false None.
Definition whole_list : rule := mk_rule (Some item) None [item] [] [] TAG_UL false false None.

(** [items] needs 14 requests, and the copy of the list 10 more. If any one of
    these is refused then the assignment leaves the item as it was. *)
Definition all_but (k : nat) : nat -> bool := fun n => negb (Nat.eqb n k).
Example C73_values_case :
  expect none_left (all_but 30) 0 [] (tried items (Try (Assign at2 (ByCopy at1)) Stop Stop)) = Some (Values [(2, whole_list); (1, whole_list)] 24) /\
  (forall k, In k (seq 14 10) ->
     expect none_left (all_but k) 0 [] (tried items (Try (Assign at2 (ByCopy at1)) Stop Stop)) = Some (Values [(2, item); (1, whole_list)] (k + 1))) /\
  expect none_left (all_but 14) 0 [] (tried items (Try (AppendChild at1 (ByMove at2)) Stop Stop)) =
    Some (Values [(2, mk_rule None None [] [] [] TAG_LI true false None); (1, whole_list)] 15).
Proof.
  split; [vm_compute; reflexivity|]. split; [|vm_compute; reflexivity]. intros k Hk.
  repeat (destruct Hk as [<-|Hk]; [vm_compute; reflexivity|]). destruct Hk.
Qed.

(** C73, second part: at the end of all variables there is no object left,
    whatever was refused. *)
Theorem C73_end_partial : forall rest grants program asked,
  expect rest grants 0 [] program = Some (Values [] asked) ->
  exists f0, forall f, f0 <= f -> exists s, try_run rest grants f beginning program = Some (Ok (Ended s)) /\
    h_cells (w_heap (s_world s)) = [] /\
    Permutation (h_freed (w_heap (s_world s))) (seq 0 (h_fresh (w_heap (s_world s)))).
Proof. exact try_programs_end. Qed.
Print Assumptions C73_end_partial.

(** The copy of the list is refused its seventh request; then all rules end. *)
Definition with_end : program :=
  tried items (Try (Assign at2 (ByCopy at1)) Stop (Try (EndOf 2) (Try (EndOf 1) Stop Stop) Stop)).
Example C73_end_case : expect none_left (all_but 20) 0 [] with_end = Some (Values [] 21) /\
  match try_run none_left (all_but 20) 10 beginning with_end with
  | Some (Ok (Ended s)) => h_fresh (w_heap (s_world s)) = 15 /\ h_cells (w_heap (s_world s)) = []
  | _ => False
  end.
Proof. split; vm_compute; [reflexivity|split; reflexivity]. Qed.

(** C73, third part: the process is ended by no other statement than
    [Rule x(name)] with a name of more than 15 characters that is none of
    HTML. *)
Theorem C73_death : forall rest grants program,
  expect rest grants 0 [] program = Some Death ->
  exists x name o g, tries program (NewName x name o g) /\ unknown_name name = true /\ 15 < length name.
Proof. exact (fun rest grants program => death_needs_name rest grants program 0 []). Qed.
Print Assumptions C73_death.

(** That one does: the constructor is noexcept but copies its parameter,
    Rule.cpp 39-54. The program cannot prevent it. *)
Theorem C73_terminate_refuted : forall rest grants x name o g done failed,
  unknown_name name = true -> 15 < length name -> grants 0 = true -> grants 1 = false ->
  exists f0, forall f, f0 <= f ->
    try_run rest grants f beginning (Try (NewName x name o g) done failed) = Some (Ok Dead).
Proof. exact name_dies. Qed.
Print Assumptions C73_terminate_refuted.

Example C73_terminate_case : unknown_name (s "my-custom-element") = true /\ 15 < length (s "my-custom-element") /\
  try_run none_left (all_but 1) 10 beginning (Try (NewName 1 (s "my-custom-element") false false) Stop Stop) = Some (Ok Dead) /\
  expect none_left (all_but 1) 0 [] (Try (NewName 1 (s "my-custom-element") false false) Stop Stop) = Some Death.
Proof. split; [vm_compute; reflexivity|]. split; [vm_compute; repeat constructor|]. split; vm_compute; reflexivity. Qed.
