(** Captures with side effects: Rule::extract and Rule::capture over captures
    that read and change a state. examples/mixed.cpp.

    The state is whatever the functions of the user work on. Conditions still
    have no side effects. *)

From Coq Require Import Ascii String NArith ZArith Bool List.
From Verif Require Import Base StringUtil Dom Values Match Rule RuleMatching.
Import ListNotations.

(** A computation that changes a state and then returns, throws or is
    undefined. *)
Definition effect (W A : Type) : Type := W -> W * outcome A.

Definition lift {W A} (o : outcome A) : effect W A := fun w => (w, o).

Definition ebind {W A B} (m : effect W A) (f : A -> effect W B) : effect W B :=
  fun w =>
    let '(w1, o) := m w in
    match o with
    | Ok a => f a w1
    | Throw e => (w1, Throw e)
    | UB u => (w1, UB u)
    | OutOfFuel => (w1, OutOfFuel)
    end.

(** What the virtual function Capture::capture (Capture.h 46-51) does for
    capture number [k] of the rule at [rp]. *)
Definition capture_action (W : Type) : Type := rpath -> nat -> npath -> effect W (option result_pair).

Section Extract.
Variable W : Type.
Variable act : capture_action W.

(** Rule::capture, Rule.cpp 246-265; [k] is the number of the first capture of
    [l]. *)
Fixpoint capture_all_in (rp : rpath) (k : nat) (l : list (option capture)) (p : npath)
  : effect W (list result_pair) :=
  match l with
  | [] => lift (Ok [])
  | None :: l' => capture_all_in rp (S k) l' p
  | Some _ :: l' =>
      ebind (act rp k p) (fun o =>
      ebind (capture_all_in rp (S k) l' p) (fun rest =>
      lift (Ok (match o with Some x => x :: rest | None => rest end))))
  end.

(** Rule.cpp 282-291. *)
Fixpoint capture_group_in (R : rule) (group : MatchingNodes) (map : ResultMap) : effect W ResultMap :=
  match group with
  | [] => lift (Ok map)
  | (rp, np) :: group' =>
      ebind (lift (rderef R rp)) (fun r =>
      if Nat.eqb (length (r_captures r)) 0 then capture_group_in R group' map
      else
        ebind (capture_all_in rp 0 (r_captures r) np) (fun values =>
        capture_group_in R group'
          (if Nat.eqb (length values) 0 then map else multimap_insert_all map values)))
  end.

(** Rule.cpp 279-297. *)
Fixpoint capture_groups_in (R : rule) (mn : list MatchingNodes) : effect W (list ResultMap) :=
  match mn with
  | [] => lift (Ok [])
  | group :: mn' =>
      ebind (capture_group_in R group []) (fun map =>
      ebind (capture_groups_in R mn') (fun rest =>
      lift (Ok (match map with [] => rest | _ => map :: rest end))))
  end.

(** Rule::extract(const GumboNode*, std::uint64_t), Rule.cpp 273-300. *)
Definition extract_in (fuel : nat) (E : engine) (R : rule) (D : node) (node : nptr)
    (max_searches : N) : effect W (list ResultMap) :=
  ebind (lift (SaveMatchingNodesRecursive R D (Rule_matches E D) fuel (Some []) node max_searches))
    (fun '(mn, _) => capture_groups_in R mn).

End Extract.

(** Capture number [k] of the rule at [rp]. *)
Definition capture_at (R : rule) (rp : rpath) (k : nat) : option capture :=
  match rget R rp with
  | Some r => match nth_error (r_captures r) k with Some (Some c) => Some c | _ => None end
  | None => None
  end.

(** The captures of libhext, where [users] gives functions with side effects for
    some FunctionCaptures. AttributeCapture.cpp 52-74, FunctionCapture.cpp 52-67. *)
Definition action_of {W} (E : engine) (R : rule) (D : node)
    (users : rpath -> nat -> option (node -> npath -> effect W str)) : capture_action W :=
  fun rp k p =>
    match capture_at R rp k, users rp k with
    | Some (FunctionCapture (Some _) name pp), Some f =>
        ebind (f D p) (fun x =>
        ebind (lift (apply_pipe E pp x)) (fun y =>
        lift (Ok (Some (name, y)))))
    | Some c, _ => lift (capture_capture E D c p)
    | None, _ => lift (Ok None)
    end.

(** count_captures, examples/mixed.cpp 30-35: [++match_counter] on an int that
    is not negative. *)
Definition count_captures : node -> npath -> effect N str :=
  fun _ _ w =>
    if (Z.of_N w =? INT_MAX)%Z then (w, UB IntOverflow)
    else ((w + 1)%N, Ok (decimal (w + 1))).
