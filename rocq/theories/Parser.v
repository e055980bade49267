(** Model of libhext/src/Parser.cpp, libhext/src/PatternValues.cpp and
    libhext/src/ParseHext.cpp. *)

From Coq Require Import Ascii String NArith ZArith Bool List.
From Verif Require Import Base StringUtil Tags Dom NodeUtil Values Match Rule
  Arrays ParserTables.
Import ListNotations.
Open Scope outcome_scope.

(** ** PatternValues, PatternValues.h 41-100 *)

(** [regex_flag] is kept as the two flags that can be added to
    boost::regex::perl. [pv_negate] is the list of matches of the NegateMatch
    under construction. *)
Record pvals := mk_pv {
  pv_nth : Z * Z;
  pv_builtin : option capture_function;
  pv_attr_name : str;
  pv_literal_value : str;
  pv_cap_var : str;
  pv_pipe : option pipe;
  pv_regex : option regex;
  pv_test : option vtest;
  pv_trait : option mtch;
  pv_negate : option (list (option mtch));
  pv_icase : bool;
  pv_collate : bool;
  pv_optional : bool
}.

(** PatternValues::PatternValues and PatternValues::reset, PatternValues.cpp
    23-57: both produce the same values. *)
Definition pv_initial : pvals :=
  mk_pv (0, 0)%Z None [] [] [] None None None None None false false false.
Definition pv_reset (v : pvals) : pvals := pv_initial.

Definition set_nth (v : pvals) (x : Z * Z) : pvals :=
  let (_, b, a, l, c, p, r, t, tr, n, fi, fc, o) := v in mk_pv x b a l c p r t tr n fi fc o.
Definition set_builtin (v : pvals) (x : option capture_function) : pvals :=
  let (nt, _, a, l, c, p, r, t, tr, n, fi, fc, o) := v in mk_pv nt x a l c p r t tr n fi fc o.
Definition set_attr_name (v : pvals) (x : str) : pvals :=
  let (nt, b, _, l, c, p, r, t, tr, n, fi, fc, o) := v in mk_pv nt b x l c p r t tr n fi fc o.
Definition set_literal_value (v : pvals) (x : str) : pvals :=
  let (nt, b, a, _, c, p, r, t, tr, n, fi, fc, o) := v in mk_pv nt b a x c p r t tr n fi fc o.
Definition set_cap_var (v : pvals) (x : str) : pvals :=
  let (nt, b, a, l, _, p, r, t, tr, n, fi, fc, o) := v in mk_pv nt b a l x p r t tr n fi fc o.
Definition set_pipe (v : pvals) (x : option pipe) : pvals :=
  let (nt, b, a, l, c, _, r, t, tr, n, fi, fc, o) := v in mk_pv nt b a l c x r t tr n fi fc o.
Definition set_regex (v : pvals) (x : option regex) : pvals :=
  let (nt, b, a, l, c, p, _, t, tr, n, fi, fc, o) := v in mk_pv nt b a l c p x t tr n fi fc o.
(** PatternValues::set_test, PatternValues.h 46-50. *)
Definition set_test (v : pvals) (x : option vtest) : pvals :=
  let (nt, b, a, l, c, p, r, _, tr, n, fi, fc, o) := v in mk_pv nt b a l c p r x tr n fi fc o.
(** PatternValues::set_trait, PatternValues.h 53-57. *)
Definition set_trait (v : pvals) (x : option mtch) : pvals :=
  let (nt, b, a, l, c, p, r, t, _, n, fi, fc, o) := v in mk_pv nt b a l c p r t x n fi fc o.
Definition set_negate (v : pvals) (x : option (list (option mtch))) : pvals :=
  let (nt, b, a, l, c, p, r, t, tr, _, fi, fc, o) := v in mk_pv nt b a l c p r t tr x fi fc o.
Definition set_icase (v : pvals) : pvals :=
  let (nt, b, a, l, c, p, r, t, tr, n, _, fc, o) := v in mk_pv nt b a l c p r t tr n true fc o.
Definition set_collate (v : pvals) : pvals :=
  let (nt, b, a, l, c, p, r, t, tr, n, fi, _, o) := v in mk_pv nt b a l c p r t tr n fi true o.
Definition set_pv_optional (v : pvals) : pvals :=
  let (nt, b, a, l, c, p, r, t, tr, n, fi, fc, _) := v in mk_pv nt b a l c p r t tr n fi fc true.

(** PatternValues::add_pipe, PatternValues.h 60-67. *)
Definition add_pipe (v : pvals) (t : transform) : pvals :=
  set_pipe v (Some (match pv_pipe v with
                    | Some p => pipe_append p (Some (Pipe t None))
                    | None => Pipe t None
                    end)).

(** ** The state of Parser::parse *)

(** [stacks_] is a vector of vectors of rules; the model keeps the back of
    every vector at the head of the list. Pointers into the buffer are offsets
    from [p_begin_]; [tok_end] is never read. [cs] is passed separately. *)
Record pstate := mk_ps {
  ps_stacks : list (list rule);
  ps_p : nat;
  ps_tok_begin : option nat;
  ps_tok : str;
  ps_pv : pvals
}.

Definition with_stacks (st : pstate) (x : list (list rule)) : pstate :=
  mk_ps x (ps_p st) (ps_tok_begin st) (ps_tok st) (ps_pv st).
Definition with_pv (st : pstate) (x : pvals) : pstate :=
  mk_ps (ps_stacks st) (ps_p st) (ps_tok_begin st) (ps_tok st) x.
Definition with_p (st : pstate) (x : nat) : pstate :=
  mk_ps (ps_stacks st) x (ps_tok_begin st) (ps_tok st) (ps_pv st).

Section Parsing.

(** The regular expression library and the input buffer [p_begin_, pe). *)
Variable E : engine.
Variable input : str.

(** ** Error messages *)

(** Parser::print_error_location, Parser.cpp 2632-2681. The position is an
    offset into the buffer. *)
Definition print_error_location (uc : nat) (mark_len : nat) : str :=
  let pe := length input in
  if Nat.ltb pe uc then []
  else
    let pos := CharPosition (firstn uc input) in
    let line_count := fst pos + 1 in
    let char_count := snd pos + 1 in
    let at_newline := match nth_error input uc with Some c => Ascii.eqb c "010"%char | None => false end in
    (if Nat.eqb uc pe then s "at end of input:" ++ ["010"%char; "010"%char]
     else s "at line " ++ decimal (N.of_nat line_count)
          ++ s ", char " ++ decimal (N.of_nat char_count) ++ s ":" ++ ["010"%char; "010"%char])
    ++ (if Nat.eqb uc pe || at_newline then PrintNumberedLines (firstn uc input)
        else PrintNumberedLines (firstn (uc + 1) input))
    ++ (if Nat.ltb mark_len 1 then []
        else if existsb (fun c => (char_to_int c <? 0)%Z) input then []
        else
          let mark_len := Nat.min char_count mark_len in
          let indent := DecimalWidth (N.of_nat line_count) + 2 + char_count - mark_len in
          repeat " "%char indent ++ repeat "^"%char mark_len ++ s " here" ++ ["010"%char]).

(** [this->p - 1]; before the start of the buffer it is not a valid position. *)
Definition p_minus_1 (st : pstate) : outcome nat :=
  match ps_p st with O => UB OutOfBounds | S k => Ok k end.

(** Parser::throw_unexpected, Parser.cpp 2524-2541. *)
Definition throw_unexpected {A} (st : pstate) : outcome A :=
  let! head :=
    (if Nat.eqb (ps_p st) (length input) then Ok (s "Premature termination ")
     else match nth_error input (ps_p st) with
          | None => UB OutOfBounds
          | Some c =>
              let! name := CharName c in
              Ok (s "Unexpected character '" ++ name ++ s "' ")
          end) in
  Throw (SyntaxError (head ++ print_error_location (ps_p st) 1)).

(** Parser::throw_regex_error, Parser.cpp 2543-2562. *)
Definition throw_regex_error {A} (st : pstate) (mark_len : nat) (error : str) : outcome A :=
  let! uc := p_minus_1 st in
  Throw (SyntaxError (s "In regular expression " ++ print_error_location uc mark_len
                      ++ ["010"%char] ++ s "Error: " ++ error)).

(** The name of a tag in messages, Parser.cpp 2575-2577 and 2606-2608. *)
Definition tag_display (t : tag) : str :=
  if (t =? TAG_ANY)%N then s "*" else gumbo_normalized_tagname t.

(** Parser::throw_missing_tag, Parser.cpp 2564-2584. *)
Definition throw_missing_tag {A} (missing : tag) (missing_tagname : option str) : outcome A :=
  Throw (SyntaxError
    (s "Missing closing tag '</"
     ++ (match missing_tagname with Some n => n | None => tag_display missing end)
     ++ s ">' " ++ print_error_location (length input) 0)).

(** Parser::throw_unexpected_tag, Parser.cpp 2586-2619. *)
Definition throw_unexpected_tag {A} (st : pstate) (name : str) (expected : option tag)
    (expected_tagname : option str) : outcome A :=
  let! uc := p_minus_1 st in
  Throw (SyntaxError
    (s "Unexpected closing tag '</" ++ name ++ s ">'"
     ++ (match expected_tagname, expected with
         | Some n, _ => s ", expected '</" ++ n ++ s ">'"
         | None, Some t => s ", expected '</" ++ tag_display t ++ s ">'"
         | None, None => []
         end)
     ++ s " " ++ print_error_location uc (length name + 2))).

(** Parser::throw_error_message, Parser.cpp 2621-2630. *)
Definition throw_error_message {A} (st : pstate) (msg : str) : outcome A :=
  let! uc := p_minus_1 st in
  Throw (SyntaxError (msg ++ s " " ++ print_error_location uc 1)).

(** ** The stacks *)

(** Parser::top_stack, Parser.cpp 2366-2370. *)
Definition top_stack (st : pstate) : outcome (list rule) :=
  match ps_stacks st with [] => UB EmptyContainer | t :: _ => Ok t end.

(** Parser::cur_rule, Parser.cpp 2360-2364, and a modification through it. *)
Definition cur_rule (st : pstate) : outcome rule :=
  let! t := top_stack st in
  match t with [] => UB EmptyContainer | r :: _ => Ok r end.
Definition update_cur_rule (st : pstate) (f : rule -> rule) : outcome pstate :=
  match ps_stacks st with
  | (r :: t) :: rest => Ok (with_stacks st ((f r :: t) :: rest))
  | _ => UB EmptyContainer
  end.

(** Parser::push_nested, Parser.cpp 2378-2384. *)
Definition push_nested (st : pstate) : outcome pstate :=
  let! t := top_stack st in
  match t with
  | [] => throw_error_message st (s "Nested rules must have a parent")
  | _ => Ok (with_stacks st ([] :: [] :: ps_stacks st))
  end.

(** Parser::pop_nested, Parser.cpp 2386-2425. *)
Definition pop_nested (st : pstate) : outcome pstate :=
  match ps_stacks st with
  | [] => throw_unexpected st
  | (_ :: _) :: _ => throw_error_message st (s "Closing nested rule without open")
  | [] :: stacks1 =>
      match stacks1 with
      | [] => throw_unexpected st
      | [] :: _ => throw_error_message st (s "Nested rules cannot be empty")
      | (_ :: _ :: _) :: _ => throw_unexpected st
      | [nested_rule] :: stacks2 =>
          match stacks2 with
          | [] => throw_error_message st (s "Closing nested rule without open")
          | [] :: _ => throw_error_message st (s "Nested rules must have a parent")
          | (r :: t) :: stacks3 =>
              Ok (with_stacks st ((append_nested r nested_rule :: t) :: stacks3))
          end
      end
  end.

(** Parser::push_rule, Parser.cpp 2427-2430, with the default arguments of
    Rule::Rule (Rule.h 103-105). *)
Definition push_rule (st : pstate) : outcome pstate :=
  match ps_stacks st with
  | [] => UB EmptyContainer
  | t :: rest => Ok (with_stacks st ((rule_of_tag TAG_ANY false false :: t) :: rest))
  end.

(** Parser::pop_rule, Parser.cpp 2432-2468. *)
Definition pop_rule (st : pstate) : outcome pstate :=
  match ps_stacks st with
  | [] => throw_unexpected st
  | [] :: _ => throw_unexpected st
  | (r :: parent :: t) :: rest =>
      Ok (with_stacks st ((append_child parent r :: t) :: rest))
  | [r] :: [] => throw_unexpected st
  | [r] :: [] :: rest => Ok (with_stacks st ([] :: [r] :: rest))
  | [r] :: (top :: t) :: rest =>
      Ok (with_stacks st ([] :: (append_next top r :: t) :: rest))
  end.

Definition is_star (name : str) : bool := str_eqb name (s "*").

(** Parser::set_open_tag_or_throw, Parser.cpp 2470-2487. *)
Definition set_open_tag_or_throw (st : pstate) (name : str) : outcome pstate :=
  let! t := top_stack st in
  match t with
  | [] => Ok st
  | _ =>
      if is_star name then update_cur_rule st (fun r => set_tag r TAG_ANY)
      else
        let tg := gumbo_tag_enum (c_str name) in
        update_cur_rule st (fun r =>
          let r1 := set_tag r tg in
          if (tg =? TAG_UNKNOWN)%N then set_tagname r1 name else r1)
  end.

(** Parser::validate_close_tag_or_throw, Parser.cpp 2489-2522. *)
Definition validate_close_tag_or_throw (st : pstate) (name : str) : outcome pstate :=
  let! t := top_stack st in
  match t with
  | [] => throw_unexpected_tag st name None None
  | r :: _ =>
      let expected := r_tag r in
      if (expected =? TAG_UNKNOWN)%N then
        match r_tagname r with
        | None => throw_unexpected_tag st name (Some TAG_UNKNOWN) None
        | Some e => if str_eqb e name then Ok st
                    else throw_unexpected_tag st name (Some TAG_UNKNOWN) (Some e)
        end
      else if is_star name then
        if (expected =? TAG_ANY)%N then Ok st
        else throw_unexpected_tag st name (Some expected) None
      else
        let given := gumbo_tag_enum (c_str name) in
        if (given =? TAG_UNKNOWN)%N || negb (given =? expected)%N
        then throw_unexpected_tag st name (Some expected) None
        else Ok st
  end.

(** ** Actions *)

(** The lambda tk_start, Parser.cpp 1802-1805. *)
Definition tk_start (st : pstate) : pstate :=
  mk_ps (ps_stacks st) (ps_p st) (Some (ps_p st)) (ps_tok st) (ps_pv st).

(** The lambda tk_stop, Parser.cpp 1809-1817. *)
Definition tk_stop (st : pstate) : outcome pstate :=
  match ps_tok_begin st with
  | None => UB NullDeref
  | Some b =>
      if Nat.leb b (ps_p st)
      then Ok (mk_ps (ps_stacks st) (ps_p st) (ps_tok_begin st)
                     (firstn (ps_p st - b) (skipn b input)) (ps_pv st))
      else UB OutOfBounds
  end.

(** std::stoi on the tokens that the grammar allows: an optional sign and
    digits. Anything that is not a number would throw std::invalid_argument;
    the model folds this into StdOutOfRange (theorem: it does not occur). *)
Fixpoint digits_value (x : str) (acc : Z) : option Z :=
  match x with
  | [] => Some acc
  | c :: x' =>
      let n := Z.of_N (N_of_ascii c) in
      if (48 <=? n)%Z && (n <=? 57)%Z then digits_value x' (10 * acc + (n - 48))%Z else None
  end.
Definition stoi (x : str) : outcome Z :=
  let v := match x with
           | [] => None
           | "-"%char :: (_ :: _) as y => option_map Z.opp (digits_value (tl x) 0)
           | "+"%char :: (_ :: _) as y => digits_value (tl x) 0
           | _ => digits_value x 0
           end in
  match v with
  | Some z => if fits_int z then Ok z else Throw StdOutOfRange
  | None => Throw StdOutOfRange
  end.

Definition need_regex (st : pstate) : outcome regex :=
  match pv_regex (ps_pv st) with Some rx => Ok rx | None => UB EmptyOptional end.

Definition token (st : pstate) (f : pvals -> str -> pvals) : outcome pstate :=
  let! st1 := tk_stop st in Ok (with_pv st1 (f (ps_pv st1) (ps_tok st1))).

Definition nth_trait (st : pstate) (x : Z * Z) (first of_type : bool) : outcome pstate :=
  Ok (with_pv st (set_trait (ps_pv st)
        (Some (NthChildMatch (fst x) (snd x) (mk_nth_option first of_type))))).

Definition pipe_action (st : pstate) (t : transform) : outcome pstate :=
  Ok (with_pv st (add_pipe (ps_pv st) t)).

Definition test_action (st : pstate) (t : vtest) : outcome pstate :=
  Ok (with_pv st (set_test (ps_pv st) (Some t))).

(** The default characters of TrimPipe, TrimPipe.h 40. *)
Definition default_trim : str := s " ".

(** The embedded actions, Parser.cpp 1912-2285 (case numbers as in the
    source). [std::move(pv.x)] leaves a null pointer. *)
Definition run_action (a : N) (st : pstate) : outcome pstate :=
  let pv := ps_pv st in
  match a with
  | 0 => Ok (with_pv st (set_pv_optional pv))
  | 1 => test_action st (NegateTest (pv_test pv))
  | 2 | 4 | 6 | 8 | 10 | 14 | 17 | 19 | 21 | 23 | 30 | 32 | 60 | 79 | 84 => Ok (tk_start st)
  | 3 => token st set_attr_name
  | 5 | 7 | 9 | 11 => token st set_literal_value
  | 12 => Ok (with_pv st (set_nth pv (2, 0)%Z))
  | 13 => Ok (with_pv st (set_nth pv (2, 1)%Z))
  | 15 =>
      let! st1 := tk_stop st in
      let! z := stoi (ps_tok st1) in
      Ok (with_pv st1 (set_nth (ps_pv st1) (0, z)%Z))
  | 16 => Ok (with_pv st (set_nth pv (snd (pv_nth pv), 0)%Z))
  | 18 =>
      let! st1 := tk_stop st in
      let! z := stoi (ps_tok st1) in
      Ok (with_pv st1 (set_nth (ps_pv st1) (fst (pv_nth (ps_pv st1)), z)))
  | 20 | 22 | 24 => tk_stop st
  | 25 => Ok (with_pv st (set_icase pv))
  | 26 => Ok (with_pv st (set_collate pv))
  | 27 =>
      let rx := mk_regex (ps_tok st) (pv_icase pv) (pv_collate pv) in
      match eng_compile E rx with
      | None => Ok (with_pv st (set_regex pv (Some rx)))
      | Some error =>
          match ps_tok_begin st with
          | None => UB NullDeref
          | Some b => throw_regex_error st (ps_p st - b + 1) error
          end
      end
  | 28 => let! rx := need_regex st in test_action st (RegexTest rx)
  | 29 => Ok (with_pv st (set_trait pv (Some (ChildCountMatch 0))))
  | 31 =>
      let! st1 := tk_stop st in
      let! z := stoi (ps_tok st1) in
      Ok (with_pv st1 (set_trait (ps_pv st1) (Some (ChildCountMatch (z mod UINT_MOD)))))
  | 33 =>
      let! st1 := tk_stop st in
      let! z := stoi (ps_tok st1) in
      Ok (with_pv st1 (set_trait (ps_pv st1) (Some (AttributeCountMatch (z mod UINT_MOD)))))
  | 34 => nth_trait st (pv_nth pv) true false
  | 35 => nth_trait st (pv_nth pv) false false
  | 36 => nth_trait st (pv_nth pv) true true
  | 37 => nth_trait st (0, 1)%Z true false
  | 38 => nth_trait st (0, 1)%Z true true
  | 39 => nth_trait st (0, 1)%Z false false
  | 40 => nth_trait st (0, 1)%Z false true
  | 41 => nth_trait st (pv_nth pv) false true
  | 42 => Ok (with_pv st (set_trait pv (Some (OnlyChildMatch false))))
  | 43 => Ok (with_pv st (set_trait pv (Some (OnlyChildMatch true))))
  | 44 =>
      let! rx := need_regex st in
      Ok (with_pv st (set_trait pv (Some (TypeRegexMatch rx))))
  | 45 => Ok (with_pv st (set_negate pv (Some [])))
  | 46 =>
      match pv_negate pv with
      | None => UB NullDeref
      | Some l => Ok (with_pv st (set_trait (set_negate pv (Some (l ++ [pv_trait pv]))) None))
      end
  | 47 => Ok (with_pv st (set_builtin pv (Some TextBuiltin)))
  | 48 => Ok (with_pv st (set_builtin pv (Some InnerHtmlBuiltin)))
  | 49 => Ok (with_pv st (set_builtin pv (Some StripTagsBuiltin)))
  | 50 => pipe_action st (TrimPipe default_trim)
  | 51 => pipe_action st (TrimPipe (pv_literal_value pv))
  | 52 => pipe_action st CollapseWsPipe
  | 53 => pipe_action st (CasePipe true)
  | 54 => pipe_action st (CasePipe false)
  | 55 => pipe_action st (PrependPipe (pv_literal_value pv))
  | 56 => pipe_action st (AppendPipe (pv_literal_value pv))
  | 57 => let! rx := need_regex st in pipe_action st (RegexPipe rx)
  | 58 => let! rx := need_regex st in pipe_action st (RegexReplacePipe rx (pv_literal_value pv))
  | 59 => Ok (with_pv st (set_cap_var pv (pv_literal_value pv)))
  | 61 => token st set_cap_var
  | 62 => test_action st (make_ContainsWordsTest (pv_literal_value pv))
  | 63 => test_action st (EqualsTest (pv_literal_value pv))
  | 64 => test_action st (BeginsWithTest (pv_literal_value pv))
  | 65 => test_action st (ContainsTest (pv_literal_value pv))
  | 66 => test_action st (EndsWithTest (pv_literal_value pv))
  | 67 =>
      let! st1 := update_cur_rule st (fun r =>
        append_capture r (Some (FunctionCapture (pv_builtin pv) (pv_cap_var pv) (pv_pipe pv)))) in
      Ok (with_pv st1 (set_pipe pv None))
  | 68 | 69 =>
      let! st1 := update_cur_rule st (fun r =>
        append_match r (Some (FunctionValueMatch (pv_builtin pv) (pv_test pv)))) in
      Ok (with_pv st1 (set_test pv None))
  | 70 =>
      let! st1 := update_cur_rule st (fun r =>
        let r1 := append_capture r (Some (AttributeCapture (pv_attr_name pv) (pv_cap_var pv) (pv_pipe pv))) in
        if pv_optional pv then r1 else append_match r1 (Some (AttributeMatch (pv_attr_name pv) None))) in
      Ok (with_pv st1 (set_pipe pv None))
  | 71 | 72 | 74 =>
      let! st1 := update_cur_rule st (fun r =>
        append_match r (Some (AttributeMatch (pv_attr_name pv) (pv_test pv)))) in
      Ok (with_pv st1 (set_test pv None))
  | 73 => Ok (with_pv st (set_test pv None))
  | 75 => Ok (with_pv st (pv_reset pv))
  | 76 => push_rule st
  | 77 => update_cur_rule st (fun r => set_optional r true)
  | 78 => update_cur_rule st (fun r => set_greedy r true)
  | 80 => let! st1 := tk_stop st in set_open_tag_or_throw st1 (ps_tok st1)
  | 81 =>
      let! st1 := update_cur_rule st (fun r => append_match r (option_map NegateMatch (pv_negate pv))) in
      Ok (with_pv st1 (set_negate pv None))
  | 82 =>
      let! st1 := update_cur_rule st (fun r => append_match r (pv_trait pv)) in
      Ok (with_pv st1 (set_trait pv None))
  | 83 => pop_rule st
  | 85 =>
      let! st1 := tk_stop st in
      let! st2 := validate_close_tag_or_throw st1 (ps_tok st1) in
      pop_rule st2
  | 86 => push_nested st
  | 87 => pop_nested st
  | 88 => throw_unexpected st
  | _ => Ok st
  end%N.

(** The switch at end of input, Parser.cpp 2300-2317. *)
Definition run_eof_action (a : N) (st : pstate) : outcome pstate :=
  match a with
  | 83 | 86 | 87 | 88 => run_action a st
  | _ => Ok st
  end%N.

End Parsing.

(** ** The state machine *)

Definition a_actions : trie := Eval vm_compute in array_of t_actions.
Definition a_key_offsets : trie := Eval vm_compute in array_of t_key_offsets.
Definition a_trans_keys : trie := Eval vm_compute in array_of t_trans_keys.
Definition a_single_lengths : trie := Eval vm_compute in array_of t_single_lengths.
Definition a_range_lengths : trie := Eval vm_compute in array_of t_range_lengths.
Definition a_index_offsets : trie := Eval vm_compute in array_of t_index_offsets.
Definition a_indicies : trie := Eval vm_compute in array_of t_indicies.
Definition a_trans_targs : trie := Eval vm_compute in array_of t_trans_targs.
Definition a_trans_actions : trie := Eval vm_compute in array_of t_trans_actions.
Definition a_eof_actions : trie := Eval vm_compute in array_of t_eof_actions.

(** The keys are [char]s, like the input, and compared as such. *)
Definition key (i : Z) : outcome Z :=
  if (i <? 0)%Z then UB OutOfBounds
  else let! k := aget a_trans_keys (Z.to_N i) in Ok (Z.of_N k).

(** The search for a single key, Parser.cpp 1857-1873: [Ok (Some m)] is the
    jump to _match with [_mid == m]. The interval shrinks in each iteration, so
    its length bounds the number of iterations. *)
Fixpoint search_single (fuel : nat) (c lower upper : Z) : outcome (option Z) :=
  match fuel with
  | O => OutOfFuel
  | S f =>
      if (upper <? lower)%Z then Ok None
      else
        let mid := (lower + Z.shiftr (upper - lower) 1)%Z in
        let! k := key mid in
        if (c <? k)%Z then search_single f c lower (mid - 1)
        else if (k <? c)%Z then search_single f c (mid + 1) upper
        else Ok (Some mid)
  end.

(** The search for a range, Parser.cpp 1880-1896. *)
Fixpoint search_range (fuel : nat) (c lower upper : Z) : outcome (option Z) :=
  match fuel with
  | O => OutOfFuel
  | S f =>
      if (upper <? lower)%Z then Ok None
      else
        let mid := (lower + Z.land (Z.shiftr (upper - lower) 1) (Z.lnot 1))%Z in
        let! k0 := key mid in
        if (c <? k0)%Z then search_range f c lower (mid - 2)
        else
          let! k1 := key (mid + 1) in
          if (k1 <? c)%Z then search_range f c (mid + 2) upper
          else Ok (Some mid)
  end.

(** From _resume to _match, Parser.cpp 1851-1898: the value of [_trans]. *)
Definition find_trans (cs : N) (c : Z) : outcome N :=
  let! keys := aget a_key_offsets cs in
  let! trans := aget a_index_offsets cs in
  let! slen := aget a_single_lengths cs in
  let! single :=
    (if (0 <? slen)%N
     then search_single (S (N.to_nat slen)) c (Z.of_N keys) (Z.of_N keys + Z.of_N slen - 1)
     else Ok None) in
  match single with
  | Some m => Ok (trans + Z.to_N (m - Z.of_N keys))%N
  | None =>
      let keys := (keys + slen)%N in
      let trans := (trans + slen)%N in
      let! rlen := aget a_range_lengths cs in
      let! range :=
        (if (0 <? rlen)%N
         then search_range (S (N.to_nat rlen)) c (Z.of_N keys) (Z.of_N keys + 2 * Z.of_N rlen - 2)
         else Ok None) in
      match range with
      | Some m => Ok (trans + Z.to_N (Z.shiftr (m - Z.of_N keys) 1))%N
      | None => Ok (trans + rlen)%N
      end
  end.

(** The action list at offset [a] of _hext_actions: a count and the actions. *)
Fixpoint read_actions (n : nat) (a : N) : outcome (list N) :=
  match n with
  | O => Ok []
  | S n' =>
      let! x := aget a_actions a in
      let! rest := read_actions n' (a + 1) in
      Ok (x :: rest)
  end.
Definition action_list (a : N) : outcome (list N) :=
  let! n := aget a_actions a in read_actions (N.to_nat n) (a + 1).

(** One transition, Parser.cpp 1851-1907: the next state and the actions. *)
Definition machine_step (cs : N) (c : ascii) : outcome (N * list N) :=
  let! trans := find_trans cs (char_to_int c) in
  let! t := aget a_indicies trans in
  let! cs' := aget a_trans_targs t in
  let! a := aget a_trans_actions t in
  if (a =? 0)%N then Ok (cs', [])
  else let! acts := action_list a in Ok (cs', acts).

(** Parser.cpp 2295-2317: the actions at end of input. *)
Definition machine_eof (cs : N) : outcome (list N) :=
  let! a := aget a_eof_actions cs in action_list a.

Section Running.

Variable E : engine.
Variable input : str.

Fixpoint run_actions (l : list N) (st : pstate) : outcome pstate :=
  match l with
  | [] => Ok st
  | a :: l' => let! st1 := run_action E input a st in run_actions l' st1
  end.
Fixpoint run_eof_actions (l : list N) (st : pstate) : outcome pstate :=
  match l with
  | [] => Ok st
  | a :: l' => let! st1 := run_eof_action E input a st in run_eof_actions l' st1
  end.

(** The loop of the state machine, Parser.cpp 1846-2320; [rest] is the input
    from [p] on. [cs == 0] leaves the machine before [p] is advanced. *)
Fixpoint exec (rest : str) (cs : N) (st : pstate) : outcome pstate :=
  match rest with
  | [] =>
      let! acts := machine_eof cs in
      run_eof_actions acts st
  | c :: rest' =>
      let! (cs', acts) := machine_step cs c in
      let! st1 := run_actions acts st in
      if (cs' =? hext_error)%N then Ok st1
      else exec rest' cs' (with_p st1 (S (ps_p st1)))
  end.

(** Parser.cpp 2341-2342. *)
Fixpoint pop_empty (l : list (list rule)) : list (list rule) :=
  match l with
  | [] :: l' => pop_empty l'
  | _ => l
  end.

(** Parser.cpp 2326-2357. *)
Definition finish (st : pstate) : outcome rule :=
  let stacks := ps_stacks st in
  match stacks with
  | [] => Ok (rule_of_tag TAG_ANY false false)
  | _ =>
      if Nat.ltb 2 (length stacks) then throw_error_message input st (s "Unclosed nested rule")
      else
        match pop_empty stacks with
        | [] => Ok (rule_of_tag TAG_ANY false false)
        | [] :: _ => UB EmptyContainer
        | (r :: t) :: rest =>
            if Nat.ltb 1 (length ((r :: t) :: rest)) || Nat.ltb 1 (length (r :: t))
            then throw_missing_tag input (r_tag r) (r_tagname r)
            else Ok r
        end
  end.

(** Parser::parse, Parser.cpp 1776-2358. *)
Definition parse : outcome rule :=
  let! st := exec input hext_start (mk_ps [[]; []] 0 None [] pv_initial) in
  finish st.

End Running.

(** ParseHext with an explicit size, ParseHext.cpp 30-34. *)
Definition ParseHext (E : engine) (hext : str) : outcome rule := parse E hext.

(** ParseHext with a C string, ParseHext.cpp 25-28. *)
Definition ParseHext_c (E : engine) (hext : str) : outcome rule := ParseHext E (c_str hext).
