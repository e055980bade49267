(** The parser where [char] is unsigned, as with the default settings of
    compilers for ARM and PowerPC. The definitions of StringUtil and Parser are
    those of a signed [char]. Here are the functions of the parser that depend
    on it: the comparisons of a character with the keys of the tables, and
    CharName. Parser::print_error_location converts the bytes to [signed char]
    (Parser.cpp 2664), so it is the same function. *)

From Coq Require Import Ascii String NArith ZArith Bool List.
From Verif Require Import Base StringUtil Values Match Rule Arrays ParserTables Parser.
Import ListNotations.

(** The value of an unsigned [char] converted to [int]. *)
Definition uchar_to_int (c : ascii) : Z := Z.of_N (N_of_ascii c).

(** CharName, StringUtil.cpp 84-107: [int ci = c]. *)
Definition CharName_u (c : ascii) : outcome str :=
  match c with
  | "010"%char => Ok (s "[newline]")
  | "009"%char => Ok (s "[tab]")
  | "013"%char => Ok (s "[carriage-return]")
  | " "%char => Ok (s "[space]")
  | "000"%char => Ok (s "[nullbyte]")
  | _ =>
      let ci := uchar_to_int c in
      let! p := isprint ci in
      if p then Ok [c] else Ok (s "[ascii: " ++ decimal_Z ci ++ s "]")
  end.

(** One transition, Parser.cpp 1851-1907: [*p] is compared with the keys of
    _hext_trans_keys, which are [char]s as well. *)
Definition machine_step_u (cs : N) (c : ascii) : outcome (N * list N) :=
  let! trans := find_trans cs (uchar_to_int c) in
  let! t := aget a_indicies trans in
  let! cs' := aget a_trans_targs t in
  let! a := aget a_trans_actions t in
  if (a =? 0)%N then Ok (cs', [])
  else let! acts := action_list a in Ok (cs', acts).

Section Running.

Variable E : engine.
Variable input : str.

(** Parser::throw_unexpected, Parser.cpp 2524-2541. *)
Definition throw_unexpected_u {A} (st : pstate) : outcome A :=
  let! head :=
    (if Nat.eqb (ps_p st) (length input) then Ok (s "Premature termination ")
     else match nth_error input (ps_p st) with
          | None => UB OutOfBounds
          | Some c =>
              let! name := CharName_u c in
              Ok (s "Unexpected character '" ++ name ++ s "' ")
          end) in
  Throw (SyntaxError (head ++ print_error_location input (ps_p st) 1)).

(** Parser::pop_nested, Parser.cpp 2386-2425. *)
Definition pop_nested_u (st : pstate) : outcome pstate :=
  match ps_stacks st with
  | [] => throw_unexpected_u st
  | (_ :: _) :: _ => throw_error_message input st (s "Closing nested rule without open")
  | [] :: stacks1 =>
      match stacks1 with
      | [] => throw_unexpected_u st
      | [] :: _ => throw_error_message input st (s "Nested rules cannot be empty")
      | (_ :: _ :: _) :: _ => throw_unexpected_u st
      | [nested_rule] :: stacks2 =>
          match stacks2 with
          | [] => throw_error_message input st (s "Closing nested rule without open")
          | [] :: _ => throw_error_message input st (s "Nested rules must have a parent")
          | (r :: t) :: stacks3 =>
              Ok (with_stacks st ((append_nested r nested_rule :: t) :: stacks3))
          end
      end
  end.

(** Parser::pop_rule, Parser.cpp 2432-2468. *)
Definition pop_rule_u (st : pstate) : outcome pstate :=
  match ps_stacks st with
  | [] => throw_unexpected_u st
  | [] :: _ => throw_unexpected_u st
  | (r :: parent :: t) :: rest =>
      Ok (with_stacks st ((append_child parent r :: t) :: rest))
  | [r] :: [] => throw_unexpected_u st
  | [r] :: [] :: rest => Ok (with_stacks st ([] :: [r] :: rest))
  | [r] :: (top :: t) :: rest =>
      Ok (with_stacks st ([] :: (append_next top r :: t) :: rest))
  end.

(** The embedded actions, Parser.cpp 1912-2285: those that are not listed do
    not call the functions above. *)
Definition run_action_u (a : N) (st : pstate) : outcome pstate :=
  match a with
  | 83 => pop_rule_u st
  | 85 =>
      let! st1 := tk_stop input st in
      let! st2 := validate_close_tag_or_throw input st1 (ps_tok st1) in
      pop_rule_u st2
  | 87 => pop_nested_u st
  | 88 => throw_unexpected_u st
  | _ => run_action E input a st
  end%N.

(** The switch at end of input, Parser.cpp 2300-2317. *)
Definition run_eof_action_u (a : N) (st : pstate) : outcome pstate :=
  match a with
  | 83 | 86 | 87 | 88 => run_action_u a st
  | _ => Ok st
  end%N.

Fixpoint run_actions_u (l : list N) (st : pstate) : outcome pstate :=
  match l with
  | [] => Ok st
  | a :: l' => let! st1 := run_action_u a st in run_actions_u l' st1
  end.
Fixpoint run_eof_actions_u (l : list N) (st : pstate) : outcome pstate :=
  match l with
  | [] => Ok st
  | a :: l' => let! st1 := run_eof_action_u a st in run_eof_actions_u l' st1
  end.

(** The loop of the state machine, Parser.cpp 1846-2320. *)
Fixpoint exec_u (rest : str) (cs : N) (st : pstate) : outcome pstate :=
  match rest with
  | [] =>
      let! acts := machine_eof cs in
      run_eof_actions_u acts st
  | c :: rest' =>
      let! (cs', acts) := machine_step_u cs c in
      let! st1 := run_actions_u acts st in
      if (cs' =? hext_error)%N then Ok st1
      else exec_u rest' cs' (with_p st1 (S (ps_p st1)))
  end.

(** Parser::parse, Parser.cpp 1776-2358. *)
Definition parse_u : outcome rule :=
  let! st := exec_u input hext_start (mk_ps [[]; []] 0 None [] pv_initial) in
  finish input st.

End Running.

(** ParseHext with an explicit size, ParseHext.cpp 30-34. *)
Definition ParseHext_u (E : engine) (hext : str) : outcome rule := parse_u E hext.
