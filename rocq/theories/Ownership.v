(** Model of the ownership in hext::Html (libhext/include/hext/Html.h,
    libhext/src/Html.cpp) and of the copy assignment operators of captures,
    matches and tests. *)

From Coq Require Import Ascii String NArith ZArith Bool List.
From Verif Require Import Base Values Match Rule.
Import ListNotations.
Open Scope outcome_scope.

(** ** Html *)

(** An object of type Html and a GumboOutput, both named by numbers. *)
Definition object_id := nat.
Definition output_id := nat.

(** The living objects with the value of [g_outp_], the outputs that Gumbo
    made so far, and those that were passed to gumbo_destroy_output, in order. *)
Record html_state := mk_html_state {
  living : list (object_id * option output_id);
  made : list output_id;
  destroyed : list output_id
}.

Definition html_start : html_state := mk_html_state [] [] [].

(** What a program can do with objects of type Html. *)
Inductive html_step : Type :=
| Construct (x : object_id) (o : output_id)  (* Html(buffer), Html.cpp 23-38 *)
| MoveConstruct (x y : object_id)            (* Html x(std::move(y)), Html.h 67 *)
| MoveAssign (x y : object_id)               (* x = std::move(y), Html.h 68 *)
| UseRoot (x : object_id)                    (* x.root(), Html.cpp 46-49, and looking at it *)
| Destroy (x : object_id).                   (* ~Html, Html.cpp 40-44 *)

Fixpoint lookup (l : list (object_id * option output_id)) (x : object_id) : option (option output_id) :=
  match l with
  | [] => None
  | (y, h) :: l' => if Nat.eqb x y then Some h else lookup l' x
  end.
Fixpoint remove (l : list (object_id * option output_id)) (x : object_id) : list (object_id * option output_id) :=
  match l with
  | [] => []
  | (y, h) :: l' => if Nat.eqb x y then l' else (y, h) :: remove l' x
  end.
Fixpoint update (l : list (object_id * option output_id)) (x : object_id) (v : option output_id)
  : list (object_id * option output_id) :=
  match l with
  | [] => []
  | (y, h) :: l' => if Nat.eqb x y then (y, v) :: l' else (y, h) :: update l' x v
  end.

Definition member_of (x : nat) (l : list nat) : bool := existsb (Nat.eqb x) l.

(** One step. The defaulted move operations copy the raw pointer and leave the
    source as it is. [None]: the step is no step of a C++ program, because it
    names an object that does not live, constructs one that does, or Gumbo
    would return an output that it has already returned. *)
Definition html_do (st : html_state) (step : html_step) : option (outcome html_state) :=
  match step with
  | Construct x o =>
      match lookup (living st) x with
      | Some _ => None
      | None =>
          if member_of o (made st) then None
          else Some (Ok (mk_html_state ((x, Some o) :: living st) (o :: made st) (destroyed st)))
      end
  | MoveConstruct x y =>
      match lookup (living st) x, lookup (living st) y with
      | None, Some h => Some (Ok (mk_html_state ((x, h) :: living st) (made st) (destroyed st)))
      | _, _ => None
      end
  | MoveAssign x y =>
      match lookup (living st) x, lookup (living st) y with
      | Some _, Some h => Some (Ok (mk_html_state (update (living st) x h) (made st) (destroyed st)))
      | _, _ => None
      end
  | UseRoot x =>
      match lookup (living st) x with
      | None => None
      | Some None => Some (Ok st)
      | Some (Some o) =>
          if member_of o (destroyed st) then Some (UB BadPointer) else Some (Ok st)
      end
  | Destroy x =>
      match lookup (living st) x with
      | None => None
      | Some None => Some (Ok (mk_html_state (remove (living st) x) (made st) (destroyed st)))
      | Some (Some o) =>
          if member_of o (destroyed st) then Some (UB DoubleFree)
          else Some (Ok (mk_html_state (remove (living st) x) (made st) (destroyed st ++ [o])))
      end
  end.

(** A history. After undefined behaviour nothing is known, so the outcome of
    the history is the first one. *)
Fixpoint html_run (st : html_state) (steps : list html_step) : option (outcome html_state) :=
  match steps with
  | [] => Some (Ok st)
  | step :: steps' =>
      match html_do st step with
      | None => None
      | Some (Ok st') => html_run st' steps'
      | Some (Throw e) => Some (Throw e)
      | Some (UB u) => Some (UB u)
      | Some OutOfFuel => Some OutOfFuel
      end
  end.

(** ** Copy assignment *)

(** [unique_ptr->clone()] on a pointer that may be null. *)
Definition clone_deref {A} (clone : A -> A) (p : option A) : outcome (option A) :=
  match p with
  | Some x => Ok (Some (clone x))
  | None => UB NullDeref
  end.

(** AttributeCapture::operator=(const AttributeCapture&), AttributeCapture.cpp
    40-50, and FunctionCapture::operator=, FunctionCapture.cpp 40-50. [same]
    tells whether both are the same object. Only captures of the same class
    can be assigned. *)
Definition capture_assign (same : bool) (this other : capture) : option (outcome capture) :=
  if same then Some (Ok this)
  else
    match this, other with
    | AttributeCapture _ _ _, AttributeCapture a n p =>
        Some (let! p' := clone_deref pipe_clone p in Ok (AttributeCapture a n p'))
    | FunctionCapture _ _ _, FunctionCapture f n p =>
        Some (let! p' := clone_deref pipe_clone p in Ok (FunctionCapture f n p'))
    | _, _ => None
    end.

(** The copy-and-swap assignments AttributeMatch.cpp 38-44,
    FunctionValueMatch.cpp 41-48, NegateMatch.cpp 45-51: the copy constructor,
    then an exchange of all members; the old members die with the copy. *)
Definition match_assign (this other : mtch) : option (outcome mtch) :=
  match this, other with
  | AttributeMatch _ _, AttributeMatch _ _
  | FunctionValueMatch _ _, FunctionValueMatch _ _
  | NegateMatch _, NegateMatch _ =>
      let tmp := mtch_clone other in
      let '(this', _) := (tmp, this) in
      Some (Ok this')
  | _, _ => None
  end.

(** NegateTest::operator=, NegateTest.cpp 34-40. *)
Definition test_assign (this other : vtest) : option (outcome vtest) :=
  match this, other with
  | NegateTest _, NegateTest _ =>
      let tmp := vtest_clone other in
      let '(this', _) := (tmp, this) in
      Some (Ok this')
  | _, _ => None
  end.
