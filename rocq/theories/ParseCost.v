(** Parser.v again, with the number of pointers that Rule::append_next and
    StringPipe::append follow to get to the end of a list (Rule.cpp 131-133,
    StringPipe.cpp 57-64). *)

From Coq Require Import Ascii String NArith ZArith Bool List.
From Verif Require Import Base StringUtil Tags Dom NodeUtil Values Match Rule ParserTables Parser.
Import ListNotations.
Open Scope outcome_scope.

(** Rule::append_next, Rule.cpp 129-137. *)
Fixpoint append_next_c (r sibling : rule) : rule * nat :=
  match r with
  | mk_rule c (Some n) l ms cs t o g name =>
      let (n', k) := append_next_c n sibling in
      (mk_rule c (Some n') l ms cs t o g name, S k)
  | mk_rule c None l ms cs t o g name => (mk_rule c (Some sibling) l ms cs t o g name, 0)
  end.

(** Rule::append_child, Rule.cpp 119-127. *)
Definition append_child_c (r new_child : rule) : rule * nat :=
  match r with
  | mk_rule (Some c) n l ms cs t o g name =>
      let (c', k) := append_next_c c new_child in
      (mk_rule (Some c') n l ms cs t o g name, k)
  | mk_rule None n l ms cs t o g name => (mk_rule (Some new_child) n l ms cs t o g name, 0)
  end.

(** StringPipe::append, StringPipe.cpp 57-64. *)
Fixpoint pipe_append_c (p : pipe) (q : option pipe) : pipe * nat :=
  match p with
  | Pipe t (Some p') => let (p'', k) := pipe_append_c p' q in (Pipe t (Some p''), S k)
  | Pipe t None => (Pipe t q, 0)
  end.

(** PatternValues::add_pipe, PatternValues.h 60-67. *)
Definition add_pipe_c (v : pvals) (t : transform) : pvals * nat :=
  match pv_pipe v with
  | Some p => let (p', k) := pipe_append_c p (Some (Pipe t None)) in (set_pipe v (Some p'), k)
  | None => (set_pipe v (Some (Pipe t None)), 0)
  end.

Section Counting.
Variable E : engine.
Variable input : str.

(** A state or an error, and the number of pointers. *)
Definition counted := (outcome pstate * nat)%type.

Definition pipe_action_c (st : pstate) (t : transform) : counted :=
  let (v, k) := add_pipe_c (ps_pv st) t in (Ok (with_pv st v), k).

(** Parser::pop_rule, Parser.cpp 2432-2468. *)
Definition pop_rule_c (st : pstate) : counted :=
  match ps_stacks st with
  | (r :: parent :: t) :: rest =>
      let (x, k) := append_child_c parent r in (Ok (with_stacks st ((x :: t) :: rest)), k)
  | [r] :: (top :: t) :: rest =>
      let (x, k) := append_next_c top r in (Ok (with_stacks st ([] :: (x :: t) :: rest)), k)
  | _ => (pop_rule input st, 0)
  end.

(** Goes on after an action that follows no pointers. *)
Definition then_c {A} (m : outcome A) (f : A -> counted) : counted :=
  match m with
  | Ok x => f x
  | Throw e => (Throw e, 0)
  | UB u => (UB u, 0)
  | OutOfFuel => (OutOfFuel, 0)
  end.

(** The embedded actions, Parser.cpp 1912-2285. *)
Definition run_action_c (a : N) (st : pstate) : counted :=
  let pv := ps_pv st in
  match a with
  | 50 => pipe_action_c st (TrimPipe default_trim)
  | 51 => pipe_action_c st (TrimPipe (pv_literal_value pv))
  | 52 => pipe_action_c st CollapseWsPipe
  | 53 => pipe_action_c st (CasePipe true)
  | 54 => pipe_action_c st (CasePipe false)
  | 55 => pipe_action_c st (PrependPipe (pv_literal_value pv))
  | 56 => pipe_action_c st (AppendPipe (pv_literal_value pv))
  | 57 => then_c (need_regex st) (fun rx => pipe_action_c st (RegexPipe rx))
  | 58 => then_c (need_regex st) (fun rx => pipe_action_c st (RegexReplacePipe rx (pv_literal_value pv)))
  | 83 => pop_rule_c st
  | 85 => then_c (let! st1 := tk_stop input st in validate_close_tag_or_throw input st1 (ps_tok st1)) pop_rule_c
  | _ => (run_action E input a st, 0%nat)
  end%N.

(** The switch at end of input, Parser.cpp 2300-2317. *)
Definition run_eof_action_c (a : N) (st : pstate) : counted :=
  match a with
  | 83 | 86 | 87 | 88 => run_action_c a st
  | _ => (Ok st, 0%nat)
  end%N.

(** One after the other. *)
Definition also (m : counted) (f : pstate -> counted) : counted :=
  match m with
  | (Ok st, k) => let (o, k') := f st in (o, k + k')
  | (Throw e, k) => (Throw e, k)
  | (UB u, k) => (UB u, k)
  | (OutOfFuel, k) => (OutOfFuel, k)
  end.

Fixpoint run_actions_c (run : N -> pstate -> counted) (l : list N) (st : pstate) : counted :=
  match l with
  | [] => (Ok st, 0)
  | a :: l' => also (run a st) (run_actions_c run l')
  end.

(** The loop of the state machine, Parser.cpp 1846-2320. *)
Fixpoint exec_c (rest : str) (cs : N) (st : pstate) : counted :=
  match rest with
  | [] => then_c (machine_eof cs) (fun acts => run_actions_c run_eof_action_c acts st)
  | c :: rest' =>
      then_c (machine_step cs c) (fun x =>
        let (cs', acts) := (x : N * list N) in
        also (run_actions_c run_action_c acts st) (fun st1 =>
          if (cs' =? hext_error)%N then (Ok st1, 0)
          else exec_c rest' cs' (with_p st1 (S (ps_p st1)))))
  end.

(** Parser::parse, Parser.cpp 1776-2358; the end of it follows no pointers. *)
Definition parse_c : outcome rule * nat :=
  let (o, k) := exec_c input hext_start (mk_ps [[]; []] 0 None [] pv_initial) in
  (let! st := o in finish input st, k).
End Counting.

(** What the parser returns, and the number of pointers that it follows. *)
Definition parse_counted (E : engine) (x : str) : outcome rule * nat := parse_c E x.
