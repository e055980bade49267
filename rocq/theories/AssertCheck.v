(** Which of the pointers of PatternValues are null in every state of the
    machine, and the check that PatternValues::reset finds all of them null. *)

From Coq Require Import Ascii String NArith ZArith Bool List Lia.
From Verif Require Import Base Regular RegularProofs Arrays ParserTables Parser MachineRows Grammar GrammarCheck SafetyCheck.
Import ListNotations.

(** pv.pipe, pv.test, pv.trait and pv.negate are null. *)
Record nulls := mk_nulls { n_pipe : bool; n_test : bool; n_trait : bool; n_negate : bool }.

Definition null_action (a : N) (A : nulls) : option nulls :=
  let (p, t, tr, n) := A in
  match a with
  | 1 | 28 | 62 | 63 | 64 | 65 | 66 => Some (mk_nulls p false tr n)
  | 29 | 31 | 33 | 34 | 35 | 36 | 37 | 38 | 39 | 40 | 41 | 42 | 43 | 44 => Some (mk_nulls p t false n)
  | 45 => Some (mk_nulls p t tr false)
  | 46 => Some (mk_nulls p t true false)
  | 50 | 51 | 52 | 53 | 54 | 55 | 56 | 57 | 58 => Some (mk_nulls false t tr n)
  | 67 | 70 => Some (mk_nulls true t tr n)
  | 68 | 69 | 71 | 72 | 73 | 74 => Some (mk_nulls p true tr n)
  | 75 => if p && t && tr && n then Some A else None
  | 81 => Some (mk_nulls p t tr true)
  | 82 => Some (mk_nulls p t true n)
  | _ => Some A
  end%N.

Fixpoint null_actions (l : list N) (A : nulls) : option nulls :=
  match l with
  | [] => Some A
  | a :: l' => match null_action a A with Some A' => null_actions l' A' | None => None end
  end.

Definition null_le (A B : nulls) : bool :=
  implb (n_pipe B) (n_pipe A) && implb (n_test B) (n_test A) && implb (n_trait B) (n_trait A) && implb (n_negate B) (n_negate A).
Definition null_meet (A B : nulls) : nulls :=
  mk_nulls (n_pipe A && n_pipe B) (n_test A && n_test B) (n_trait A && n_trait B) (n_negate A && n_negate B).

Definition null_initial : nulls := mk_nulls true true true true.
Definition null_unknown : nulls := mk_nulls false false false false.

Fixpoint null_spread (fuel : nat) (work : list N) (inv : ptrie nulls) : ptrie nulls :=
  match fuel, work with
  | S f, q :: work' =>
      match nget inv q with
      | None => inv
      | Some A =>
          let '(w, c) :=
            fold_left (fun wc e =>
              let '(w, c) := wc in
              if (e_to e =? hext_error)%N || (e_mask e =? 0)%N then (w, c)
              else match null_actions (e_acts e) A with
                   | None => (w, c)
                   | Some B =>
                       match nget c (e_to e) with
                       | None => (e_to e :: w, pset c (N.succ_pos (e_to e)) B)
                       | Some B0 =>
                           if null_le B B0 then (w, c) else (e_to e :: w, pset c (N.succ_pos (e_to e)) (null_meet B0 B))
                       end
                   end) (row q) (work', inv) in
          null_spread f w c
      end
  | _, _ => inv
  end.

Definition null_invariants : ptrie nulls := Eval vm_compute in
  null_spread 5000 [hext_start] (pset PLeaf (N.succ_pos hext_start) null_initial).

Definition null_at (q : N) : nulls := match nget null_invariants q with Some A => A | None => null_unknown end.

Definition null_entry (A : nulls) (e : entry) : bool :=
  (e_mask e =? 0)%N || (e_to e =? hext_error)%N ||
  match null_actions (e_acts e) A with
  | None => false
  | Some B => null_le B (null_at (e_to e))
  end.
Definition null_state (q : N) : bool :=
  forallb (null_entry (null_at q)) (row q).
Definition null_all : bool := forallb (fun q => (q =? hext_error)%N || null_state q) (below state_count).

Lemma null_all_states : null_all = true.
Proof. vm_compute. reflexivity. Qed.

(** There is a rule when its tag is set. *)
Fixpoint tag_actions (l : list N) (A : abs) : bool :=
  match l with
  | [] => true
  | a :: l' => (negb (a =? 80)%N || a_open A) && match abs_action a A with Some A' => tag_actions l' A' | None => true end
  end.
Definition tag_all : bool :=
  forallb (fun q => (q =? hext_error)%N ||
    forallb (fun e => (e_mask e =? 0)%N || tag_actions (e_acts e) (at_state q)) (row q)) (below state_count).

Lemma tag_all_states : tag_all = true.
Proof. vm_compute. reflexivity. Qed.
