(** RuleMatching.v again, with the number of calls of Rule::matches
    (RuleMatching.cpp 190). A call counts whether or not the search is
    abandoned later. *)

From Coq Require Import Ascii String NArith ZArith Bool List.
From Verif Require Import Base StringUtil Tags Dom NodeUtil Values Match Rule RuleMatching.
Import ListNotations.

(** Like [M]; the number is the number of calls. *)
Definition W (A : Type) := N -> outcome (A * N) * nat.
Definition no_test {A} (a : A) : W A := fun n => (Ok (a, n), 0).
Definition no_fuel_w {A} : W A := fun _ => (OutOfFuel, 0).
Definition call_w {A} (m : outcome A) : W A := fun n => (lift m n, 0).
Definition tick_w : W unit := fun n => (tick n, 0).
(** One call of Rule::matches. *)
Definition test (m : outcome bool) : W bool := fun n => (lift m n, 1).
Definition bind_w {A B} (m : W A) (f : A -> W B) : W B :=
  fun n => match m n with
           | (Ok (a, n'), c) => let (o, c') := f a n' in (o, c + c')
           | (Throw e, c) => (Throw e, c)
           | (UB u, c) => (UB u, c)
           | (OutOfFuel, c) => (OutOfFuel, c)
           end.

Declare Scope w_scope.
Notation "'after' x <- m ; f" := (bind_w m (fun x => f))
  (at level 200, x pattern, m at level 100, f at level 200, right associativity) : w_scope.

Section Tests.

Variable R : rule.
Variable D : node.
Variable matches : rule -> npath -> outcome bool.

Open Scope w_scope.

Fixpoint save_w (fuel : nat) (rule : rptr) (node : nptr)
  : W (list MatchingNodes) :=
  match fuel with
  | O => no_fuel_w
  | S f =>
      match rule, node with
      | Some rp, Some np =>
          after _ <- tick_w;
          after gs <- save_groups_w f rp node;
          after bs <- save_below_w f rp np;
          no_test (gs ++ bs)
      | _, _ => no_test []
      end
  end
with save_groups_w (fuel : nat) (rp : rpath) (next_node : nptr) : W (list MatchingNodes) :=
  match fuel with
  | O => no_fuel_w
  | S f =>
      match next_node with
      | None => no_test []
      | Some _ =>
          after (next, sub) <- rule_group_w f (Some rp) next_node;
          after rest <- save_groups_w f rp next;
          no_test (match sub with [] => rest | _ => sub :: rest end)
      end
  end
with save_below_w (fuel : nat) (rp : rpath) (np : npath) : W (list MatchingNodes) :=
  match fuel with
  | O => no_fuel_w
  | S f =>
      after n <- call_w (deref D np);
      after here <-
        (if is_element n && negb (Nat.eqb (length (children_of n)) 0)
         then save_w f (Some rp) (Some (0 :: np))
         else no_test []);
      after next <- call_w (NextNode D (Some np));
      match next with
      | None => no_test here
      | Some np' =>
          after rest <- save_below_w f rp np';
          no_test (here ++ rest)
      end
  end
with rule_group_w (fuel : nat) (rule : rptr) (node : nptr) : W (nptr * MatchingNodes) :=
  match fuel with
  | O => no_fuel_w
  | S f =>
      match rule, node with
      | Some _, Some _ => group_loop_w f rule rule node []
      | _, _ => no_test (None, [])
      end
  end
with group_loop_w (fuel : nat) (first_rule rule : rptr) (node : nptr) (sub : MatchingNodes)
  : W (nptr * MatchingNodes) :=
  match fuel with
  | O => no_fuel_w
  | S f =>
      match rule, node with
      | Some rp, Some np =>
          after r <- call_w (rderef R rp);
          if r_optional r || (r_greedy r && back_is sub rp) then
            after stop_rule <- call_w (FindMandatoryRule R (rnext r rp) None);
            match stop_rule with
            | None =>                                   (* has_wrapped *)
                after wrapped <- call_w (FindMandatoryRule R first_rule rule);
                let stop_rule := if rptr_eqb wrapped rule then None else wrapped in
                match stop_rule with
                | None =>
                    after (last, more) <- range_w f rule None node None;
                    after next <- call_w (match last with None => Ok None | Some _ => NextNode D last end);
                    no_test (next, sub ++ more)
                | Some _ =>
                    after (stop_node, _) <- once_w f stop_rule node None;
                    after (_, more) <- range_w f rule None node stop_node;
                    no_test (stop_node, sub ++ more)
                end
            | Some stop_rp =>
                after (stop_node, inner) <- once_w f stop_rule node None;
                match stop_node with
                | None => no_test (None, [])
                | Some stop_np =>
                    after (_, more) <- range_w f rule stop_rule node stop_node;
                    after stop_r <- call_w (rderef R stop_rp);
                    after next <- call_w (NextNode D stop_node);
                    group_loop_w f first_rule (rnext stop_r stop_rp) next
                               (sub ++ inner ++ more ++ [(stop_rp, stop_np)])
                end
            end
          else
            after (found, inner) <- once_w f rule node None;
            match found with
            | None => no_test (None, [])
            | Some found_np =>
                after next <- call_w (NextNode D found);
                group_loop_w f first_rule (if r_greedy r then rule else rnext r rp) next
                           (sub ++ inner ++ [(rp, found_np)])
            end
      | _, _ => call_w (group_tail R rule node sub)
      end
  end
with matches_node_w (fuel : nat) (rule : rptr) (node : nptr)
  : W (bool * MatchingNodes) :=
  match fuel with
  | O => no_fuel_w
  | S f =>
      match rule, node with
      | Some rp, Some np =>
          after r <- call_w (rderef R rp);
          after n <- call_w (deref D np);
          after m <- test (matches r np);
          if negb m then no_test (false, [])
          else if negb (is_some (r_child r)) && Nat.eqb (length (r_nested r)) 0 then no_test (true, [])
          else if negb (is_element n) || Nat.eqb (length (children_of n)) 0 then no_test (false, [])
          else
            let first_child := 0 :: np in
            after (matched, sub1) <-
              (match rchild r rp with
               | Some cp => child_loop_w f cp first_child
               | None => no_test (true, [])
               end);
            if negb matched then no_test (false, [])
            else
              after (matched2, sub2) <- nested_loop_w f rp 0 (length (r_nested r)) first_child;
              if negb matched2 then no_test (false, [])
              else no_test (true, sub1 ++ sub2)
      | _, _ => no_test (false, [])
      end
  end
with child_loop_w (fuel : nat) (cp : rpath) (next_node : npath) : W (bool * MatchingNodes) :=
  match fuel with
  | O => no_fuel_w
  | S f =>
      after (next, sub) <- rule_group_w f (Some cp) (Some next_node);
      after mand <- call_w (FindMandatoryRule R (Some cp) None);
      let matched := negb (Nat.eqb (length sub) 0) || negb (is_some mand) in
      match next with
      | None => no_test (matched, sub)
      | Some np' =>
          after (matched', rest) <- child_loop_w f cp np';
          no_test (matched || matched', sub ++ rest)
      end
  end
with nested_loop_w (fuel : nat) (rp : rpath) (k size : nat) (first_child : npath)
  : W (bool * MatchingNodes) :=
  match fuel with
  | O => no_fuel_w
  | S f =>
      if Nat.ltb k size then
        after mn <- save_w f (Some (RNested k :: rp)) (Some first_child);
        after mand <- call_w (FindMandatoryRule R (Some (RNested k :: rp)) None);
        if Nat.eqb (length mn) 0 && is_some mand then no_test (false, [])
        else
          after (matched, rest) <- nested_loop_w f rp (S k) size first_child;
          no_test (matched, concat mn ++ rest)
      else no_test (true, [])
  end
with once_w (fuel : nat) (rule : rptr) (begin_ end_ : nptr) : W (nptr * MatchingNodes) :=
  match fuel with
  | O => no_fuel_w
  | S f =>
      match rule with
      | None => no_test (end_, [])
      | Some _ =>
          match begin_ with
          | None => no_test (end_, [])
          | Some np =>
              if nptr_eqb begin_ end_ then no_test (end_, [])
              else
                after (matched, inner) <- matches_node_w f rule begin_;
                if matched then no_test (begin_, inner)
                else
                  after next <- call_w (NextNode D begin_);
                  once_w f rule next end_
          end
      end
  end
with range_w (fuel : nat) (r_begin r_end : rptr) (n_begin n_end : nptr)
  : W (nptr * MatchingNodes) :=
  match fuel with
  | O => no_fuel_w
  | S f =>
      match n_begin with
      | None => no_test (n_end, [])
      | Some _ => range_loop_w f r_begin r_end n_begin n_end n_end
      end
  end
with range_loop_w (fuel : nat) (r_begin r_end : rptr) (n_begin n_end matching_node : nptr)
  : W (nptr * MatchingNodes) :=
  match fuel with
  | O => no_fuel_w
  | S f =>
      match r_begin with
      | None => no_test (matching_node, [])
      | Some rp =>
          if rptr_eqb r_begin r_end then no_test (matching_node, [])
          else
            after r <- call_w (rderef R rp);
            after (found, inner) <- once_w f r_begin n_begin n_end;
            match found with
            | Some found_np =>
                if nptr_eqb found n_end then
                  after (last, rest) <- range_loop_w f (rnext r rp) r_end n_begin n_end found;
                  no_test (last, inner ++ rest)
                else
                  after next <- call_w (NextNode D found);
                  after (last, rest) <-
                    range_loop_w f (if r_greedy r then r_begin else rnext r rp) r_end next n_end found;
                  no_test (last, inner ++ [(rp, found_np)] ++ rest)
            | None =>
                after (last, rest) <- range_loop_w f (rnext r rp) r_end n_begin n_end found;
                no_test (last, inner ++ rest)
            end
      end
  end.

End Tests.

(** Rule::extract, Rule.cpp 273-300, and the number of calls of Rule::matches. *)
Definition extract_w (fuel : nat) (E : engine) (R : rule) (D : node) (node : nptr)
    (max_searches : N) : outcome (list ResultMap) * nat :=
  let (o, c) := save_w R D (Rule_matches E D) fuel (Some []) node max_searches in
  (obind o (fun '(mn, _) => capture_groups E R D mn), c).
