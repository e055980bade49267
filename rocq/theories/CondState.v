(** RuleMatching.v again, for conditions with side effects: Match::matches
    (Match.h 55) may read and change a state, so that it may answer the same
    question differently each time. *)

From Coq Require Import Ascii String NArith ZArith Bool List.
From Verif Require Import Base StringUtil Tags Dom NodeUtil Values Match Rule RuleMatching CaptureState.
Import ListNotations.

(** What a call of Match::matches does apart from changing the state. *)
Inductive reply := Says (b : bool) | Raises (e : exn) | Breaks (u : ub).

Definition said (x : reply) : outcome bool :=
  match x with Says b => Ok b | Raises e => Throw e | Breaks u => UB u end.

(** What the virtual function Match::matches does for match number [k] of the
    rule at [rp]. *)
Definition match_action (W : Type) : Type := rpath -> nat -> npath -> W -> W * reply.

(** A record of one call of Rule::matches: the rule, the node, and the matches
    that were called, with what they did. *)
Definition entry : Type := rpath * npath * list (nat * reply).

Section Conditions.
Variable W : Type.
Variable act : match_action W.

(** Like [M], with a state, and a log of the calls of Rule::matches. *)
Definition C (A : Type) : Type := N -> W -> outcome (A * N) * (W * list entry).
Definition quiet {A} (a : A) : C A := fun n w => (Ok (a, n), (w, [])).
Definition no_fuel_c {A} : C A := fun _ w => (OutOfFuel, (w, [])).
Definition call_c {A} (m : outcome A) : C A := fun n w => (RuleMatching.lift m n, (w, [])).
Definition tick_c : C unit := fun n w => (tick n, (w, [])).
Definition bind_c {A B} (m : C A) (f : A -> C B) : C B :=
  fun n w =>
    match m n w with
    | (Ok (a, n'), (w', log)) =>
        let '(o, (w'', log')) := f a n' w' in (o, (w'', log ++ log'))
    | (Throw e, x) => (Throw e, x)
    | (UB u, x) => (UB u, x)
    | (OutOfFuel, x) => (OutOfFuel, x)
    end.

Notation "'hear' x <- m ; f" := (bind_c m (fun x => f))
  (at level 200, x pattern, m at level 100, f at level 200, right associativity).

(** The loop of Rule::matches, Rule.cpp 239-241; [k] is the number of the first
    match of [l]. *)
Fixpoint all_match_c (rp : rpath) (k : nat) (l : list (option mtch)) (p : npath) (w : W)
  : outcome bool * (W * list (nat * reply)) :=
  match l with
  | [] => (Ok true, (w, []))
  | None :: l' => all_match_c rp (S k) l' p w
  | Some _ :: l' =>
      match act rp k p w with
      | (w', Says true) =>
          let '(o, (w'', calls)) := all_match_c rp (S k) l' p w' in (o, (w'', (k, Says true) :: calls))
      | (w', x) => (said x, (w', [(k, x)]))
      end
  end.

(** Rule::matches, Rule.cpp 201-244. *)
Definition Rule_matches_c (D : node) (rp : rpath) (r : rule) (p : npath) : C bool :=
  fun n w =>
    match deref D p with
    | Ok t =>
        let '(o, (w', calls)) :=
          if tag_matches r t then all_match_c rp 0 (r_matches r) p w else (Ok false, (w, [])) in
        (RuleMatching.lift o n, (w', [(rp, p, calls)]))
    | Throw e => (Throw e, (w, []))
    | UB u => (UB u, (w, []))
    | OutOfFuel => (OutOfFuel, (w, []))
    end.

Variable R : rule.
Variable D : node.

Fixpoint save_c (fuel : nat) (rule : rptr) (node : nptr)
  : C (list MatchingNodes) :=
  match fuel with
  | O => no_fuel_c
  | S f =>
      match rule, node with
      | Some rp, Some np =>
          hear _ <- tick_c;
          hear gs <- save_groups_c f rp node;
          hear bs <- save_below_c f rp np;
          quiet (gs ++ bs)
      | _, _ => quiet []
      end
  end
with save_groups_c (fuel : nat) (rp : rpath) (next_node : nptr) : C (list MatchingNodes) :=
  match fuel with
  | O => no_fuel_c
  | S f =>
      match next_node with
      | None => quiet []
      | Some _ =>
          hear (next, sub) <- rule_group_c f (Some rp) next_node;
          hear rest <- save_groups_c f rp next;
          quiet (match sub with [] => rest | _ => sub :: rest end)
      end
  end
with save_below_c (fuel : nat) (rp : rpath) (np : npath) : C (list MatchingNodes) :=
  match fuel with
  | O => no_fuel_c
  | S f =>
      hear n <- call_c (deref D np);
      hear here <-
        (if is_element n && negb (Nat.eqb (length (children_of n)) 0)
         then save_c f (Some rp) (Some (0 :: np))
         else quiet []);
      hear next <- call_c (NextNode D (Some np));
      match next with
      | None => quiet here
      | Some np' =>
          hear rest <- save_below_c f rp np';
          quiet (here ++ rest)
      end
  end
with rule_group_c (fuel : nat) (rule : rptr) (node : nptr) : C (nptr * MatchingNodes) :=
  match fuel with
  | O => no_fuel_c
  | S f =>
      match rule, node with
      | Some _, Some _ => group_loop_c f rule rule node []
      | _, _ => quiet (None, [])
      end
  end
with group_loop_c (fuel : nat) (first_rule rule : rptr) (node : nptr) (sub : MatchingNodes)
  : C (nptr * MatchingNodes) :=
  match fuel with
  | O => no_fuel_c
  | S f =>
      match rule, node with
      | Some rp, Some np =>
          hear r <- call_c (rderef R rp);
          if r_optional r || (r_greedy r && back_is sub rp) then
            hear stop_rule <- call_c (FindMandatoryRule R (rnext r rp) None);
            match stop_rule with
            | None =>                                   (* has_wrapped *)
                hear wrapped <- call_c (FindMandatoryRule R first_rule rule);
                let stop_rule := if rptr_eqb wrapped rule then None else wrapped in
                match stop_rule with
                | None =>
                    hear (last, more) <- range_c f rule None node None;
                    hear next <- call_c (match last with None => Ok None | Some _ => NextNode D last end);
                    quiet (next, sub ++ more)
                | Some _ =>
                    hear (stop_node, _) <- once_c f stop_rule node None;
                    hear (_, more) <- range_c f rule None node stop_node;
                    quiet (stop_node, sub ++ more)
                end
            | Some stop_rp =>
                hear (stop_node, inner) <- once_c f stop_rule node None;
                match stop_node with
                | None => quiet (None, [])
                | Some stop_np =>
                    hear (_, more) <- range_c f rule stop_rule node stop_node;
                    hear stop_r <- call_c (rderef R stop_rp);
                    hear next <- call_c (NextNode D stop_node);
                    group_loop_c f first_rule (rnext stop_r stop_rp) next
                               (sub ++ inner ++ more ++ [(stop_rp, stop_np)])
                end
            end
          else
            hear (found, inner) <- once_c f rule node None;
            match found with
            | None => quiet (None, [])
            | Some found_np =>
                hear next <- call_c (NextNode D found);
                group_loop_c f first_rule (if r_greedy r then rule else rnext r rp) next
                           (sub ++ inner ++ [(rp, found_np)])
            end
      | _, _ => call_c (group_tail R rule node sub)
      end
  end
with matches_node_c (fuel : nat) (rule : rptr) (node : nptr)
  : C (bool * MatchingNodes) :=
  match fuel with
  | O => no_fuel_c
  | S f =>
      match rule, node with
      | Some rp, Some np =>
          hear r <- call_c (rderef R rp);
          hear n <- call_c (deref D np);
          hear m <- Rule_matches_c D rp r np;
          if negb m then quiet (false, [])
          else if negb (is_some (r_child r)) && Nat.eqb (length (r_nested r)) 0 then quiet (true, [])
          else if negb (is_element n) || Nat.eqb (length (children_of n)) 0 then quiet (false, [])
          else
            let first_child := 0 :: np in
            hear (matched, sub1) <-
              (match rchild r rp with
               | Some cp => child_loop_c f cp first_child
               | None => quiet (true, [])
               end);
            if negb matched then quiet (false, [])
            else
              hear (matched2, sub2) <- nested_loop_c f rp 0 (length (r_nested r)) first_child;
              if negb matched2 then quiet (false, [])
              else quiet (true, sub1 ++ sub2)
      | _, _ => quiet (false, [])
      end
  end
with child_loop_c (fuel : nat) (cp : rpath) (next_node : npath) : C (bool * MatchingNodes) :=
  match fuel with
  | O => no_fuel_c
  | S f =>
      hear (next, sub) <- rule_group_c f (Some cp) (Some next_node);
      hear mand <- call_c (FindMandatoryRule R (Some cp) None);
      let matched := negb (Nat.eqb (length sub) 0) || negb (is_some mand) in
      match next with
      | None => quiet (matched, sub)
      | Some np' =>
          hear (matched', rest) <- child_loop_c f cp np';
          quiet (matched || matched', sub ++ rest)
      end
  end
with nested_loop_c (fuel : nat) (rp : rpath) (k size : nat) (first_child : npath)
  : C (bool * MatchingNodes) :=
  match fuel with
  | O => no_fuel_c
  | S f =>
      if Nat.ltb k size then
        hear mn <- save_c f (Some (RNested k :: rp)) (Some first_child);
        hear mand <- call_c (FindMandatoryRule R (Some (RNested k :: rp)) None);
        if Nat.eqb (length mn) 0 && is_some mand then quiet (false, [])
        else
          hear (matched, rest) <- nested_loop_c f rp (S k) size first_child;
          quiet (matched, concat mn ++ rest)
      else quiet (true, [])
  end
with once_c (fuel : nat) (rule : rptr) (begin_ end_ : nptr) : C (nptr * MatchingNodes) :=
  match fuel with
  | O => no_fuel_c
  | S f =>
      match rule with
      | None => quiet (end_, [])
      | Some _ =>
          match begin_ with
          | None => quiet (end_, [])
          | Some np =>
              if nptr_eqb begin_ end_ then quiet (end_, [])
              else
                hear (matched, inner) <- matches_node_c f rule begin_;
                if matched then quiet (begin_, inner)
                else
                  hear next <- call_c (NextNode D begin_);
                  once_c f rule next end_
          end
      end
  end
with range_c (fuel : nat) (r_begin r_end : rptr) (n_begin n_end : nptr)
  : C (nptr * MatchingNodes) :=
  match fuel with
  | O => no_fuel_c
  | S f =>
      match n_begin with
      | None => quiet (n_end, [])
      | Some _ => range_loop_c f r_begin r_end n_begin n_end n_end
      end
  end
with range_loop_c (fuel : nat) (r_begin r_end : rptr) (n_begin n_end matching_node : nptr)
  : C (nptr * MatchingNodes) :=
  match fuel with
  | O => no_fuel_c
  | S f =>
      match r_begin with
      | None => quiet (matching_node, [])
      | Some rp =>
          if rptr_eqb r_begin r_end then quiet (matching_node, [])
          else
            hear r <- call_c (rderef R rp);
            hear (found, inner) <- once_c f r_begin n_begin n_end;
            match found with
            | Some found_np =>
                if nptr_eqb found n_end then
                  hear (last, rest) <- range_loop_c f (rnext r rp) r_end n_begin n_end found;
                  quiet (last, inner ++ rest)
                else
                  hear next <- call_c (NextNode D found);
                  hear (last, rest) <-
                    range_loop_c f (if r_greedy r then r_begin else rnext r rp) r_end next n_end found;
                  quiet (last, inner ++ [(rp, found_np)] ++ rest)
            | None =>
                hear (last, rest) <- range_loop_c f (rnext r rp) r_end n_begin n_end found;
                quiet (last, inner ++ rest)
            end
      end
  end.

(** Rule::extract, Rule.cpp 273-300, with conditions and captures that work on
    the same state. *)
Definition extract_c (cact : capture_action W) (fuel : nat) (node : nptr) (max_searches : N) (w : W)
  : outcome (list ResultMap) * (W * list entry) :=
  let '(o, (w', log)) := save_c fuel (Some []) node max_searches w in
  match o with
  | Ok (mn, _) => let (w'', o') := capture_groups_in W cact R mn w' in (o', (w'', log))
  | Throw e => (Throw e, (w', log))
  | UB u => (UB u, (w', log))
  | OutOfFuel => (OutOfFuel, (w', log))
  end.

End Conditions.
