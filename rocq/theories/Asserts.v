(** The library in a build with assertions (cmake -DCMAKE_BUILD_TYPE=Debug).

    Every function below is the function of the same name in the model of the
    Release build, with the assertions of the source added. [abort] is what
    happens if an assertion fails; nothing is assumed about it.

    Assertions that hold because of the types of the model are not repeated:
    children and texts of a node are never null (NodeUtil.cpp 44, 64,
    NthChildMatch.cpp 142), the cases of a switch are complete (NodeUtil.cpp
    124, 160, 244, 301, StringUtil.cpp 81), the node that matches and captures
    get is not null (the assert(node) in *Match.cpp and *Capture.cpp), and so is
    the buffer of the parser. *)

From Coq Require Import Ascii String NArith ZArith Bool List.
From Verif Require Import Base StringUtil Tags Dom NodeUtil Values Match Rule RuleMatching ParserTables Parser.
Import ListNotations.
Open Scope outcome_scope.

Section Debug.

Variable abort : forall A : Type, outcome A.

Definition check {A} (b : bool) (o : outcome A) : outcome A := if b then o else abort A.

(** ** Matches and captures *)

(** NthChildMatch::count_preceding_siblings, NthChildMatch.cpp 83-115; the
    assertion of line 102 is about the element that the loop reads. *)
Fixpoint count_up_a (count_tag : option tag) (l : list node) (i index : nat) (count : Z) : outcome Z :=
  match l with
  | [] => abort Z
  | child :: l' =>
      let! count' := if counts count_tag child then int_op (count + 1) else Ok count in
      if Nat.eqb i index then Ok count' else count_up_a count_tag l' (S i) index count'
  end.
Definition count_preceding_a (d : node) (p : npath) (count_tag : option tag) : outcome Z :=
  match p with
  | [] => Ok 0%Z
  | i :: pp =>
      let! par := deref d pp in
      if is_element par
      then check (Nat.ltb i (length (children_of par))) (count_up_a count_tag (children_of par) 0 i 0%Z)
      else Ok 0%Z
  end.

(** NthChildMatch::count_following_siblings, NthChildMatch.cpp 117-153. *)
Definition count_following_a (d : node) (p : npath) (count_tag : option tag) : outcome Z :=
  match p with
  | [] => Ok 0%Z
  | i :: pp =>
      let! par := deref d pp in
      if is_element par
      then if Nat.eqb (length (children_of par)) 0 then Ok 0%Z
           else check (Nat.ltb i (length (children_of par))) (count_down count_tag (rev (children_of par)) i 0%Z)
      else Ok 0%Z
  end.

(** NthChildMatch::matches, NthChildMatch.cpp 40-81. *)
Definition nth_child_a (d : node) (p : npath) (n : node) (step shift : Z) (o : nth_option) : outcome bool :=
  match n with
  | NElement t _ _ _ =>
      let count_tag := if opt_of_type o then Some t else None in
      let! node_pos := (if opt_first o then count_preceding_a d p count_tag else count_following_a d p count_tag) in
      if (step =? 0)%Z then Ok (node_pos =? shift)%Z
      else if (0 <? step)%Z then
        if (node_pos <? shift)%Z then Ok false
        else
          let! diff := int_op (node_pos - shift) in
          Ok (Z.rem diff step =? 0)%Z
      else
        if (shift <? node_pos)%Z then Ok false
        else
          let! diff := int_op (shift - node_pos) in
          let! pos_step := int_op (-1 * step) in
          Ok (Z.rem diff pos_step =? 0)%Z
  | _ => Ok false
  end.

(** Match::matches. The assertions of FunctionMatch.cpp 31 and
    FunctionValueMatch.cpp 50. *)
Fixpoint match_a (E : engine) (d : node) (m : mtch) (p : npath) : outcome bool :=
  let! n := deref d p in
  match m with
  | FunctionMatch None => abort bool
  | FunctionValueMatch None _ => abort bool
  | NegateMatch ms =>
      (fix loop (l : list (option mtch)) : outcome bool :=
         match l with
         | [] => Ok true
         | None :: l' => loop l'
         | Some m' :: l' =>
             let! b := match_a E d m' p in
             if b then Ok false else loop l'
         end) ms
  | NthChildMatch step shift o => nth_child_a d p n step shift o
  | _ => mtch_matches E d m p
  end.

(** Rule::matches, Rule.cpp 201-244. *)
Fixpoint all_match_a (E : engine) (d : node) (l : list (option mtch)) (p : npath) : outcome bool :=
  match l with
  | [] => Ok true
  | None :: l' => all_match_a E d l' p
  | Some m :: l' =>
      let! b := match_a E d m p in
      if b then all_match_a E d l' p else Ok false
  end.
Definition rule_matches_a (E : engine) (d : node) (r : rule) (p : npath) : outcome bool :=
  let! n := deref d p in
  if tag_matches r n then all_match_a E d (r_matches r) p else Ok false.

(** Capture::capture. The assertion of FunctionCapture.cpp 54. *)
Definition capture_a (E : engine) (d : node) (c : capture) (p : npath) : outcome (option result_pair) :=
  match c with
  | FunctionCapture None _ _ => let! _ := deref d p in abort (option result_pair)
  | _ => capture_capture E d c p
  end.

(** Rule::capture, Rule.cpp 246-265. *)
Fixpoint capture_all_a (E : engine) (d : node) (l : list (option capture)) (p : npath) : outcome (list result_pair) :=
  match l with
  | [] => Ok []
  | None :: l' => capture_all_a E d l' p
  | Some c :: l' =>
      let! o := capture_a E d c p in
      let! rest := capture_all_a E d l' p in
      Ok (match o with Some x => x :: rest | None => rest end)
  end.

(** ** RuleMatching.cpp *)

Definition abort_m {A} : M A := fun _ => abort (A * N)%type.

Section Matching.

Variable R : rule.
Variable D : node.
Variable matches : rule -> npath -> outcome bool.

Open Scope m_scope.

(** The assertions of lines 30, 255 and 276. *)
Fixpoint save_a (fuel : nat) (rule : rptr) (node : nptr)
  : M (list MatchingNodes) :=
  match fuel with
  | O => out_of_fuel
  | S f =>
      match rule, node with
      | Some rp, Some np =>
          do _ <- tick;
          do gs <- save_groups_a f rp node;
          do bs <- save_below_a f rp np;
          ret (gs ++ bs)
      | _, _ => abort_m                                 (* assert(node && rule) *)
      end
  end
with save_groups_a (fuel : nat) (rp : rpath) (next_node : nptr) : M (list MatchingNodes) :=
  match fuel with
  | O => out_of_fuel
  | S f =>
      match next_node with
      | None => ret []
      | Some _ =>
          do (next, sub) <- group_a f (Some rp) next_node;
          do rest <- save_groups_a f rp next;
          ret (match sub with [] => rest | _ => sub :: rest end)
      end
  end
with save_below_a (fuel : nat) (rp : rpath) (np : npath) : M (list MatchingNodes) :=
  match fuel with
  | O => out_of_fuel
  | S f =>
      do n <- lift (deref D np);
      do here <-
        (if is_element n && negb (Nat.eqb (length (children_of n)) 0)
         then save_a f (Some rp) (Some (0 :: np))
         else ret []);
      do next <- lift (NextNode D (Some np));
      match next with
      | None => ret here
      | Some np' =>
          do rest <- save_below_a f rp np';
          ret (here ++ rest)
      end
  end
with group_a (fuel : nat) (rule : rptr) (node : nptr) : M (nptr * MatchingNodes) :=
  match fuel with
  | O => out_of_fuel
  | S f =>
      match rule, node with
      | Some _, Some _ => group_loop_a f rule rule node []
      | _, _ => ret (None, [])
      end
  end
with group_loop_a (fuel : nat) (first_rule rule : rptr) (node : nptr) (sub : MatchingNodes)
  : M (nptr * MatchingNodes) :=
  match fuel with
  | O => out_of_fuel
  | S f =>
      match rule, node with
      | Some rp, Some np =>
          do r <- lift (rderef R rp);
          if r_optional r || (r_greedy r && back_is sub rp) then
            do stop_rule <- lift (FindMandatoryRule R (rnext r rp) None);
            match stop_rule with
            | None =>                                   (* has_wrapped *)
                do wrapped <- lift (FindMandatoryRule R first_rule rule);
                let stop_rule := if rptr_eqb wrapped rule then None else wrapped in
                match stop_rule with
                | None =>
                    do (last, more) <- range_a f rule None node None;
                    do next <- lift (match last with None => Ok None | Some _ => NextNode D last end);
                    ret (next, sub ++ more)
                | Some _ =>
                    do (stop_node, _) <- once_a f stop_rule node None;
                    do (_, more) <- range_a f rule None node stop_node;
                    ret (stop_node, sub ++ more)
                end
            | Some stop_rp =>
                do (stop_node, inner) <- once_a f stop_rule node None;
                match stop_node with
                | None => ret (None, [])
                | Some stop_np =>
                    do (_, more) <- range_a f rule stop_rule node stop_node;
                    do stop_r <- lift (rderef R stop_rp);
                    do next <- lift (NextNode D stop_node);
                    group_loop_a f first_rule (rnext stop_r stop_rp) next
                               (sub ++ inner ++ more ++ [(stop_rp, stop_np)])
                end
            end
          else
            do (found, inner) <- once_a f rule node None;
            match found with
            | None => ret (None, [])
            | Some found_np =>
                do next <- lift (NextNode D found);
                group_loop_a f first_rule (if r_greedy r then rule else rnext r rp) next
                           (sub ++ inner ++ [(rp, found_np)])
            end
      | _, _ => lift (group_tail R rule node sub)
      end
  end
with rule_matches_node_a (fuel : nat) (rule : rptr) (node : nptr)
  : M (bool * MatchingNodes) :=
  match fuel with
  | O => out_of_fuel
  | S f =>
      match rule, node with
      | Some rp, Some np =>
          do r <- lift (rderef R rp);
          do n <- lift (deref D np);
          do m <- lift (matches r np);
          if negb m then ret (false, [])
          else if negb (is_some (r_child r)) && Nat.eqb (length (r_nested r)) 0 then ret (true, [])
          else if negb (is_element n) || Nat.eqb (length (children_of n)) 0 then ret (false, [])
          else
            let first_child := 0 :: np in
            do (matched, sub1) <-
              (match rchild r rp with
               | Some cp => child_loop_a f cp first_child
               | None => ret (true, [])
               end);
            if negb matched then ret (false, [])
            else
              do (matched2, sub2) <- nested_loop_a f rp 0 (length (r_nested r)) first_child;
              if negb matched2 then ret (false, [])
              else ret (true, sub1 ++ sub2)
      | _, _ => ret (false, [])
      end
  end
with child_loop_a (fuel : nat) (cp : rpath) (next_node : npath) : M (bool * MatchingNodes) :=
  match fuel with
  | O => out_of_fuel
  | S f =>
      do (next, sub) <- group_a f (Some cp) (Some next_node);
      do mand <- lift (FindMandatoryRule R (Some cp) None);
      let matched := negb (Nat.eqb (length sub) 0) || negb (is_some mand) in
      match next with
      | None => ret (matched, sub)
      | Some np' =>
          do (matched', rest) <- child_loop_a f cp np';
          ret (matched || matched', sub ++ rest)
      end
  end
with nested_loop_a (fuel : nat) (rp : rpath) (k size : nat) (first_child : npath)
  : M (bool * MatchingNodes) :=
  match fuel with
  | O => out_of_fuel
  | S f =>
      if Nat.ltb k size then
        do mn <- save_a f (Some (RNested k :: rp)) (Some first_child);
        do mand <- lift (FindMandatoryRule R (Some (RNested k :: rp)) None);
        if Nat.eqb (length mn) 0 && is_some mand then ret (false, [])
        else
          do (matched, rest) <- nested_loop_a f rp (S k) size first_child;
          ret (matched, concat mn ++ rest)
      else ret (true, [])
  end
with once_a (fuel : nat) (rule : rptr) (begin_ end_ : nptr) : M (nptr * MatchingNodes) :=
  match fuel with
  | O => out_of_fuel
  | S f =>
      match rule with
      | None => abort_m                                 (* assert(rule) *)
      | Some _ =>
          match begin_ with
          | None => ret (end_, [])
          | Some np =>
              if nptr_eqb begin_ end_ then ret (end_, [])
              else
                do (matched, inner) <- rule_matches_node_a f rule begin_;
                if matched then ret (begin_, inner)
                else
                  do next <- lift (NextNode D begin_);
                  once_a f rule next end_
          end
      end
  end
with range_a (fuel : nat) (r_begin r_end : rptr) (n_begin n_end : nptr)
  : M (nptr * MatchingNodes) :=
  match fuel with
  | O => out_of_fuel
  | S f =>
      match n_begin with
      | None => abort_m                                 (* assert(n_begin) *)
      | Some _ => range_loop_a f r_begin r_end n_begin n_end n_end
      end
  end
with range_loop_a (fuel : nat) (r_begin r_end : rptr) (n_begin n_end matching_node : nptr)
  : M (nptr * MatchingNodes) :=
  match fuel with
  | O => out_of_fuel
  | S f =>
      match r_begin with
      | None => ret (matching_node, [])
      | Some rp =>
          if rptr_eqb r_begin r_end then ret (matching_node, [])
          else
            do r <- lift (rderef R rp);
            do (found, inner) <- once_a f r_begin n_begin n_end;
            match found with
            | Some found_np =>
                if nptr_eqb found n_end then
                  do (last, rest) <- range_loop_a f (rnext r rp) r_end n_begin n_end found;
                  ret (last, inner ++ rest)
                else
                  do next <- lift (NextNode D found);
                  do (last, rest) <-
                    range_loop_a f (if r_greedy r then r_begin else rnext r rp) r_end next n_end found;
                  ret (last, inner ++ [(rp, found_np)] ++ rest)
            | None =>
                do (last, rest) <- range_loop_a f (rnext r rp) r_end n_begin n_end found;
                ret (last, inner ++ rest)
            end
      end
  end.

End Matching.

(** ** Rule::extract, Rule.cpp 273-300 *)

Fixpoint capture_group_a (E : engine) (R : rule) (D : node) (group : MatchingNodes) (map : ResultMap) : outcome ResultMap :=
  match group with
  | [] => Ok map
  | (rp, np) :: group' =>
      let! r := rderef R rp in
      if Nat.eqb (length (r_captures r)) 0 then capture_group_a E R D group' map
      else
        let! values := capture_all_a E D (r_captures r) np in
        capture_group_a E R D group' (if Nat.eqb (length values) 0 then map else multimap_insert_all map values)
  end.
Fixpoint capture_groups_a (E : engine) (R : rule) (D : node) (mn : list MatchingNodes) : outcome (list ResultMap) :=
  match mn with
  | [] => Ok []
  | group :: mn' =>
      let! map := capture_group_a E R D group [] in
      let! rest := capture_groups_a E R D mn' in
      Ok (match map with [] => rest | _ => map :: rest end)
  end.
Definition extract_a (fuel : nat) (E : engine) (R : rule) (D : node) (node : nptr) (max_searches : N)
  : outcome (list ResultMap) :=
  let! (mn, _) := save_a R D (rule_matches_a E D) fuel (Some []) node max_searches in
  capture_groups_a E R D mn.

(** ** Parser.cpp *)

Section Parsing.

Variable E : engine.
Variable input : str.

(** Parser::top_stack 2368, Parser::cur_rule 2362. *)
Definition has_stack (st : pstate) : bool := match ps_stacks st with [] => false | _ => true end.
Definition has_rule (st : pstate) : bool := match ps_stacks st with (_ :: _) :: _ => true | _ => false end.

(** Parser::print_error_location 2638-2639: the position is in the buffer; the
    assertions of CharPosition (StringUtil.cpp 111) and PrintNumberedLines
    (StringUtil.cpp 177) follow. *)
Definition in_buffer (uc : nat) : bool := Nat.leb uc (length input).
(** The same for the functions that report the position before [p]. *)
Definition before_in_buffer (st : pstate) : bool :=
  match ps_p st with O => false | S k => in_buffer k end.

(** The lambda tk_stop, Parser.cpp 1810. *)
Definition token_begun (st : pstate) : bool := is_some (ps_tok_begin st).

(** PatternValues::reset, PatternValues.cpp 48-55. *)
Definition all_moved (pv : pvals) : bool :=
  negb (is_some (pv_pipe pv)) && negb (is_some (pv_test pv)) && negb (is_some (pv_trait pv)) && negb (is_some (pv_negate pv)).

(** Parser::push_nested 2378-2384. *)
Definition push_nested_ok (st : pstate) : bool := has_stack st && (has_rule st || before_in_buffer st).

(** Parser::pop_nested 2386-2425, with the assertions of lines 2390, 2401 and
    2410. *)
Definition pop_nested_ok (st : pstate) : bool :=
  match ps_stacks st with
  | [] => false
  | (_ :: _) :: _ => before_in_buffer st
  | [[]] => false
  | [] :: [] :: _ => before_in_buffer st
  | [] :: (_ :: _ :: _) :: _ => false
  | [] :: [_] :: (_ :: _) :: _ => true
  | [] :: [_] :: _ => before_in_buffer st
  end.

(** Parser::pop_rule 2432-2468, with the assertions of lines 2436, 2437, 2452
    and 2374. *)
Definition pop_rule_ok (st : pstate) : bool :=
  match ps_stacks st with
  | (_ :: _ :: _) :: _ => true
  | [_] :: _ :: _ => true
  | _ => false
  end.

(** Parser::validate_close_tag_or_throw 2489-2522, with the assertion of line
    2501. *)
Definition validate_ok (st : pstate) (name : str) : bool :=
  has_stack st &&
  match ps_stacks st with
  | (r :: _) :: _ => negb ((r_tag r =? TAG_UNKNOWN)%N && negb (is_some (r_tagname r)))
  | _ => true
  end &&
  match validate_close_tag_or_throw input st name with Ok _ => true | _ => before_in_buffer st end.

(** The assertions that the actions execute, Parser.cpp 1912-2285. *)
Definition action_ok (a : N) (st : pstate) : bool :=
  match a with
  | 3 | 5 | 7 | 9 | 11 | 15 | 18 | 20 | 22 | 24 | 31 | 33 | 61 => token_begun st
  | 27 =>
      match eng_compile E (mk_regex (ps_tok st) (pv_icase (ps_pv st)) (pv_collate (ps_pv st))) with
      | None => true
      | Some _ => before_in_buffer st
      end
  | 28 => is_some (pv_regex (ps_pv st))
  | 46 => is_some (pv_negate (ps_pv st))
  | 67 | 68 | 69 | 70 | 71 | 72 | 74 | 77 | 78 | 81 | 82 => has_stack st && has_rule st
  | 75 => all_moved (ps_pv st)
  | 76 => has_stack st
  | 80 => token_begun st && has_stack st && has_rule st
  | 83 => pop_rule_ok st
  | 85 =>
      token_begun st &&
      match tk_stop input st with
      | Ok st1 => validate_ok st1 (ps_tok st1) &&
                  match validate_close_tag_or_throw input st1 (ps_tok st1) with Ok st2 => pop_rule_ok st2 | _ => true end
      | _ => true
      end
  | 86 => push_nested_ok st
  | 87 => pop_nested_ok st
  | 88 => in_buffer (ps_p st)
  | _ => true
  end%N.

Fixpoint run_actions_a (l : list N) (st : pstate) : outcome pstate :=
  match l with
  | [] => Ok st
  | a :: l' => let! st1 := check (action_ok a st) (run_action E input a st) in run_actions_a l' st1
  end.
(** At end of input only these actions are run (Parser.cpp 2300-2317). *)
Definition eof_action_ok (a : N) (st : pstate) : bool :=
  match a with 83 | 86 | 87 | 88 => action_ok a st | _ => true end%N.
Fixpoint run_eof_actions_a (l : list N) (st : pstate) : outcome pstate :=
  match l with
  | [] => Ok st
  | a :: l' => let! st1 := check (eof_action_ok a st) (run_eof_action E input a st) in run_eof_actions_a l' st1
  end.

Fixpoint exec_a (rest : str) (cs : N) (st : pstate) : outcome pstate :=
  match rest with
  | [] => let! acts := machine_eof cs in run_eof_actions_a acts st
  | c :: rest' =>
      let! (cs', acts) := machine_step cs c in
      let! st1 := run_actions_a acts st in
      if (cs' =? hext_error)%N then Ok st1
      else exec_a rest' cs' (with_p st1 (S (ps_p st1)))
  end.

(** Parser.cpp 2326-2357, with the assertion of line 2335. *)
Definition finish_ok (st : pstate) : bool :=
  match ps_stacks st with
  | [] => false
  | l => if Nat.ltb 2 (length l) then before_in_buffer st else true
  end.

Definition parse_a : outcome rule :=
  let! st := exec_a input hext_start (mk_ps [[]; []] 0 None [] pv_initial) in
  check (finish_ok st) (finish input st).

End Parsing.

End Debug.

(** ParseHext and Rule::extract of a build with assertions. *)
Definition ParseHext_debug (abort : forall A : Type, outcome A) (E : engine) (hext : str) : outcome rule :=
  parse_a abort E hext.
Definition extract_debug := extract_a.
