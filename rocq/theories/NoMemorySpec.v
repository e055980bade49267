(** What a program that handles rules is expected to do when memory is refused:
    a statement is done completely or not at all. *)

From Coq Require Import Ascii String NArith ZArith Bool List.
From Verif Require Import Base Tags Values Match Rule RuleMatching RuleHeap RuleHeapSpec NoMemory.
Import ListNotations.

Definition one_if (b : bool) : nat := if b then 1 else 0.
Definition count_some {A} (l : list (option A)) : nat :=
  length (filter (fun o => match o with Some _ => true | None => false end) l).

(** A text of more than 15 characters needs memory of its own. *)
Definition text_needs (x : str) : nat := one_if (Nat.leb 16 (length x)).

(** A vector with elements needs a buffer. *)
Definition buffer_needs {A} (l : list A) : nat := one_if (negb (Nat.eqb (length l) 0)).

(** How often memory is needed for a copy of a rule: for every rule that is
    owned by a pointer, every buffer, every trait and capture, every long
    name. *)
Fixpoint copy_needs (r : rule) : nat :=
  match r with
  | mk_rule c n l ms cs _ _ _ name =>
      match c with Some c' => 1 + copy_needs c' | None => 0 end +
      match n with Some n' => 1 + copy_needs n' | None => 0 end +
      (buffer_needs l + list_sum (map copy_needs l)) +
      (buffer_needs ms + count_some ms) + (buffer_needs cs + count_some cs) +
      match name with Some x => text_needs x | None => 0 end
  end.

Definition argument_needs (S : store) (arg : argument) : nat :=
  match arg with
  | ByCopy q => match value_at S q with Some v => copy_needs v | None => 0 end
  | ByMove _ => 0
  end.

Definition unknown_name (name : str) : bool := (gumbo_tag_enum (c_str name) =? TAG_UNKNOWN)%N.

Definition statement_needs (S : store) (st : statement) : nat :=
  match st with
  | NewTag _ _ _ _ => 0
  | NewName _ name _ _ => text_needs name + (if unknown_name name then text_needs name else 0)
  | NewRule _ arg | Assign _ arg => argument_needs S arg
  | AppendChild _ arg | AppendNext _ arg => argument_needs S arg + 1
  | AppendNested _ grow arg => argument_needs S arg + one_if grow
  | AppendMatch _ m => match m with Some _ => 2 | None => 1 end
  | AppendCapture _ c => match c with Some _ => 2 | None => 1 end
  | SetFlag _ (SetTagname name) => 2 * text_needs name
  | SetFlag _ _ => 0
  | EndOf _ => 0
  end.

Section Expected.
Variable rest : str -> str.
Variable grants : nat -> bool.

(** The first of the [k] requests from the [n]-th that is refused. *)
Fixpoint first_refused (n k : nat) : option nat :=
  match k with
  | O => None
  | S k' => if grants n then first_refused (S n) k' else Some n
  end.

(** The variables after a statement that failed: as before, but a rule that was
    moved into the argument of an append function is gone. *)
Definition unchanged (S : store) (st : statement) : store :=
  match st with
  | AppendChild _ arg | AppendNext _ arg | AppendNested _ _ arg =>
      match argument_value rest S arg with Some (_, S') => S' | None => S end
  | _ => S
  end.

(** The one request that cannot be refused without the end of the process: the
    second one of [Rule x(name)]. *)
Definition deadly (st : statement) (k : nat) : bool :=
  match st with NewName _ _ _ _ => Nat.eqb k 1 | _ => false end.

Inductive expected := Values (S : store) (asked : nat) | Death.

(** [None]: as for [effect]. *)
Fixpoint expect (n : nat) (S : store) (p : program) : option expected :=
  match p with
  | Stop => Some (Values S n)
  | Try st done failed =>
      match effect rest S st with
      | None => None
      | Some S' =>
          match first_refused n (statement_needs S st) with
          | None => expect (n + statement_needs S st) S' done
          | Some j => if deadly st (j - n) then Some Death else expect (j + 1) (unchanged S st) failed
          end
      end
  end.

End Expected.

(** The end of the program is the expected one: the variables have the values,
    every living object belongs to exactly one of them, and everything else was
    given back exactly once. *)
Definition ends_as (e : ending) (x : expected) : Prop :=
  match e, x with
  | Ended s, Values vals n => sound (machine_of s) vals /\ w_asked (s_world s) = n
  | Dead, Death => True
  | _, _ => False
  end.

(** The statements of a program. *)
Fixpoint tries (p : program) (st : statement) : Prop :=
  match p with
  | Stop => False
  | Try st' done failed => st = st' \/ tries done st \/ tries failed st
  end.
