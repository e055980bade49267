(** RuleMatching.v again, with the number of stack frames that are left.

    Every function of RuleMatching.cpp needs a frame while it runs. Loops do not.
    The frames of the functions that do not call back into RuleMatching.cpp
    (NextNode, FindMandatoryRule, Rule::matches, std::vector) are not counted. *)

From Coq Require Import Ascii String NArith ZArith Bool List.
From Verif Require Import Base StringUtil Tags Dom NodeUtil Values Match Rule RuleMatching.
Import ListNotations.

(** Like [M]; [None] is a stack overflow. *)
Definition D (A : Type) := N -> option (outcome (A * N)).
Definition give {A} (a : A) : D A := fun n => Some (Ok (a, n)).
Definition overflow {A} : D A := fun _ => None.
Definition no_fuel {A} : D A := fun _ => Some OutOfFuel.
Definition plain_call {A} (m : outcome A) : D A := fun n => Some (lift m n).
Definition tick_d : D unit := fun n => Some (tick n).
Definition bind_d {A B} (m : D A) (f : A -> D B) : D B :=
  fun n => match m n with
           | None => None
           | Some (Ok (a, n')) => f a n'
           | Some (Throw e) => Some (Throw e)
           | Some (UB u) => Some (UB u)
           | Some OutOfFuel => Some OutOfFuel
           end.

Declare Scope d_scope.
Notation "'take' x <- m ; f" := (bind_d m (fun x => f))
  (at level 200, x pattern, m at level 100, f at level 200, right associativity) : d_scope.

Section Frames.

Variable R : rule.
Variable doc : node.
Variable matches : rule -> npath -> outcome bool.

Open Scope d_scope.

Fixpoint save_d (frames fuel : nat) (rule : rptr) (node : nptr) {struct fuel}
  : D (list MatchingNodes) :=
  match frames, fuel with
  | O, _ => overflow
  | _, O => no_fuel
  | S d, S f =>
      match rule, node with
      | Some rp, Some np =>
          take _ <- tick_d;
          take gs <- save_groups_d d f rp node;
          take bs <- save_below_d d f rp np;
          give (gs ++ bs)
      | _, _ => give []
      end
  end
with save_groups_d (d fuel : nat) (rp : rpath) (next_node : nptr) {struct fuel} : D (list MatchingNodes) :=
  match fuel with
  | O => no_fuel
  | S f =>
      match next_node with
      | None => give []
      | Some _ =>
          take (next, sub) <- rule_group_d d f (Some rp) next_node;
          take rest <- save_groups_d d f rp next;
          give (match sub with [] => rest | _ => sub :: rest end)
      end
  end
with save_below_d (d fuel : nat) (rp : rpath) (np : npath) {struct fuel} : D (list MatchingNodes) :=
  match fuel with
  | O => no_fuel
  | S f =>
      take n <- plain_call (deref doc np);
      take here <-
        (if is_element n && negb (Nat.eqb (length (children_of n)) 0)
         then save_d d f (Some rp) (Some (0 :: np))
         else give []);
      take next <- plain_call (NextNode doc (Some np));
      match next with
      | None => give here
      | Some np' =>
          take rest <- save_below_d d f rp np';
          give (here ++ rest)
      end
  end
with rule_group_d (frames fuel : nat) (rule : rptr) (node : nptr) {struct fuel} : D (nptr * MatchingNodes) :=
  match frames, fuel with
  | O, _ => overflow
  | _, O => no_fuel
  | S d, S f =>
      match rule, node with
      | Some _, Some _ => group_loop_d d f rule rule node []
      | _, _ => give (None, [])
      end
  end
with group_loop_d (d fuel : nat) (first_rule rule : rptr) (node : nptr) (sub : MatchingNodes) {struct fuel}
  : D (nptr * MatchingNodes) :=
  match fuel with
  | O => no_fuel
  | S f =>
      match rule, node with
      | Some rp, Some np =>
          take r <- plain_call (rderef R rp);
          if r_optional r || (r_greedy r && back_is sub rp) then
            take stop_rule <- plain_call (FindMandatoryRule R (rnext r rp) None);
            match stop_rule with
            | None =>                                   (* has_wrapped *)
                take wrapped <- plain_call (FindMandatoryRule R first_rule rule);
                let stop_rule := if rptr_eqb wrapped rule then None else wrapped in
                match stop_rule with
                | None =>
                    take (last, more) <- range_d d f rule None node None;
                    take next <- plain_call (match last with None => Ok None | Some _ => NextNode doc last end);
                    give (next, sub ++ more)
                | Some _ =>
                    take (stop_node, _) <- once_d d f stop_rule node None;
                    take (_, more) <- range_d d f rule None node stop_node;
                    give (stop_node, sub ++ more)
                end
            | Some stop_rp =>
                take (stop_node, inner) <- once_d d f stop_rule node None;
                match stop_node with
                | None => give (None, [])
                | Some stop_np =>
                    take (_, more) <- range_d d f rule stop_rule node stop_node;
                    take stop_r <- plain_call (rderef R stop_rp);
                    take next <- plain_call (NextNode doc stop_node);
                    group_loop_d d f first_rule (rnext stop_r stop_rp) next
                               (sub ++ inner ++ more ++ [(stop_rp, stop_np)])
                end
            end
          else
            take (found, inner) <- once_d d f rule node None;
            match found with
            | None => give (None, [])
            | Some found_np =>
                take next <- plain_call (NextNode doc found);
                group_loop_d d f first_rule (if r_greedy r then rule else rnext r rp) next
                           (sub ++ inner ++ [(rp, found_np)])
            end
      | _, _ => plain_call (group_tail R rule node sub)
      end
  end
with matches_node_d (frames fuel : nat) (rule : rptr) (node : nptr) {struct fuel}
  : D (bool * MatchingNodes) :=
  match frames, fuel with
  | O, _ => overflow
  | _, O => no_fuel
  | S d, S f =>
      match rule, node with
      | Some rp, Some np =>
          take r <- plain_call (rderef R rp);
          take n <- plain_call (deref doc np);
          take m <- plain_call (matches r np);
          if negb m then give (false, [])
          else if negb (is_some (r_child r)) && Nat.eqb (length (r_nested r)) 0 then give (true, [])
          else if negb (is_element n) || Nat.eqb (length (children_of n)) 0 then give (false, [])
          else
            let first_child := 0 :: np in
            take (matched, sub1) <-
              (match rchild r rp with
               | Some cp => child_loop_d d f cp first_child
               | None => give (true, [])
               end);
            if negb matched then give (false, [])
            else
              take (matched2, sub2) <- nested_loop_d d f rp 0 (length (r_nested r)) first_child;
              if negb matched2 then give (false, [])
              else give (true, sub1 ++ sub2)
      | _, _ => give (false, [])
      end
  end
with child_loop_d (d fuel : nat) (cp : rpath) (next_node : npath) {struct fuel} : D (bool * MatchingNodes) :=
  match fuel with
  | O => no_fuel
  | S f =>
      take (next, sub) <- rule_group_d d f (Some cp) (Some next_node);
      take mand <- plain_call (FindMandatoryRule R (Some cp) None);
      let matched := negb (Nat.eqb (length sub) 0) || negb (is_some mand) in
      match next with
      | None => give (matched, sub)
      | Some np' =>
          take (matched', rest) <- child_loop_d d f cp np';
          give (matched || matched', sub ++ rest)
      end
  end
with nested_loop_d (d fuel : nat) (rp : rpath) (k size : nat) (first_child : npath) {struct fuel}
  : D (bool * MatchingNodes) :=
  match fuel with
  | O => no_fuel
  | S f =>
      if Nat.ltb k size then
        take mn <- save_d d f (Some (RNested k :: rp)) (Some first_child);
        take mand <- plain_call (FindMandatoryRule R (Some (RNested k :: rp)) None);
        if Nat.eqb (length mn) 0 && is_some mand then give (false, [])
        else
          take (matched, rest) <- nested_loop_d d f rp (S k) size first_child;
          give (matched, concat mn ++ rest)
      else give (true, [])
  end
with once_d (frames fuel : nat) (rule : rptr) (begin_ end_ : nptr) {struct fuel} : D (nptr * MatchingNodes) :=
  match frames, fuel with
  | O, _ => overflow
  | _, O => no_fuel
  | S d, S f =>
      match rule with
      | None => give (end_, [])
      | Some _ =>
          match begin_ with
          | None => give (end_, [])
          | Some np =>
              if nptr_eqb begin_ end_ then give (end_, [])
              else
                take (matched, inner) <- matches_node_d d f rule begin_;
                if matched then give (begin_, inner)
                else
                  take next <- plain_call (NextNode doc begin_);
                  once_loop_d d f rule next end_
          end
      end
  end
with once_loop_d (d fuel : nat) (rule : rptr) (begin_ end_ : nptr) {struct fuel} : D (nptr * MatchingNodes) :=
  match fuel with
  | O => no_fuel
  | S f =>
      match rule with
      | None => give (end_, [])
      | Some _ =>
          match begin_ with
          | None => give (end_, [])
          | Some np =>
              if nptr_eqb begin_ end_ then give (end_, [])
              else
                take (matched, inner) <- matches_node_d d f rule begin_;
                if matched then give (begin_, inner)
                else
                  take next <- plain_call (NextNode doc begin_);
                  once_loop_d d f rule next end_
          end
      end
  end
with range_d (frames fuel : nat) (r_begin r_end : rptr) (n_begin n_end : nptr) {struct fuel}
  : D (nptr * MatchingNodes) :=
  match frames, fuel with
  | O, _ => overflow
  | _, O => no_fuel
  | S d, S f =>
      match n_begin with
      | None => give (n_end, [])
      | Some _ => range_loop_d d f r_begin r_end n_begin n_end n_end
      end
  end
with range_loop_d (d fuel : nat) (r_begin r_end : rptr) (n_begin n_end matching_node : nptr) {struct fuel}
  : D (nptr * MatchingNodes) :=
  match fuel with
  | O => no_fuel
  | S f =>
      match r_begin with
      | None => give (matching_node, [])
      | Some rp =>
          if rptr_eqb r_begin r_end then give (matching_node, [])
          else
            take r <- plain_call (rderef R rp);
            take (found, inner) <- once_d d f r_begin n_begin n_end;
            match found with
            | Some found_np =>
                if nptr_eqb found n_end then
                  take (last, rest) <- range_loop_d d f (rnext r rp) r_end n_begin n_end found;
                  give (last, inner ++ rest)
                else
                  take next <- plain_call (NextNode doc found);
                  take (last, rest) <-
                    range_loop_d d f (if r_greedy r then r_begin else rnext r rp) r_end next n_end found;
                  give (last, inner ++ [(rp, found_np)] ++ rest)
            | None =>
                take (last, rest) <- range_loop_d d f (rnext r rp) r_end n_begin n_end found;
                give (last, inner ++ rest)
            end
      end
  end.

End Frames.

(** Rule::extract, which needs a frame itself. *)
Definition extract_d (frames fuel : nat) (E : engine) (R : rule) (doc : node) (node : nptr)
    (max_searches : N) : option (outcome (list ResultMap)) :=
  match frames with
  | O => None
  | S d =>
      match save_d R doc (Rule_matches E doc) d fuel (Some []) node max_searches with
      | None => None
      | Some (Ok (mn, _)) => Some (capture_groups E R doc mn)
      | Some (Throw e) => Some (Throw e)
      | Some (UB u) => Some (UB u)
      | Some OutOfFuel => Some OutOfFuel
      end
  end.

(** StripTags, NodeUtil.cpp 32-69, which calls itself for every child. *)
Fixpoint StripTags_d (smart_wrap : bool) (frames : nat) (n : node) {struct n} : option str :=
  match frames with
  | O => None
  | S d =>
      match n with
      | NElement _ _ _ children =>
          (fix loop (l : list node) : option str :=
             match l with
             | [] => Some []
             | c :: l' =>
                 match StripTags_d smart_wrap d c with
                 | None => None
                 | Some x =>
                     match loop l' with
                     | None => None
                     | Some rest =>
                         Some ((match smart_wrap, c with
                                | true, NElement t _ _ _ =>
                                    if TagWrapsText t then ["010"%char] ++ x ++ ["010"%char] else x
                                | _, _ => x
                                end) ++ rest)
                     end
                 end
             end) children
      | NText x | NWhitespace x => Some (c_str x)
      | _ => Some []
      end
  end.

(** SerializeNode, which calls SerializeElement, which calls SerializeNode for
    every child, NodeUtil.cpp 87-130 and 169-200. *)
Fixpoint SerializeNode_d (frames : nat) (n : node) {struct n} : option str :=
  match frames with
  | O => None
  | S d =>
      match n with
      | NElement t orig attrs children | NTemplate t orig attrs children =>
          match d with
          | O => None
          | S d' =>
              let start := s "<" ++ SerializeElementTag t orig ++ concat (map SerializeAttribute attrs) in
              if TagIsSelfClosing t then Some (start ++ s "/>")
              else
                match (fix loop (l : list node) : option str :=
                         match l with
                         | [] => Some []
                         | c :: l' =>
                             match SerializeNode_d d' c with
                             | None => None
                             | Some x => match loop l' with None => None | Some rest => Some (x ++ rest) end
                             end
                         end) children with
                | None => None
                | Some inner => Some (start ++ s ">" ++ inner ++ s "</" ++ SerializeElementTag t orig ++ s ">")
                end
          end
      | _ => Some (SerializeNode n)
      end
  end.

(** Rule::Rule(const Rule&), Rule.cpp 56-80, which copies the nested rules, the
    first child and the next rule. *)
Fixpoint rule_copy_d (frames : nat) (r : rule) {struct r} : option rule :=
  match frames with
  | O => None
  | S d =>
      match r with
      | mk_rule c n l ms cs t o g name =>
          match (fix loop (l : list rule) : option (list rule) :=
                   match l with
                   | [] => Some []
                   | x :: l' =>
                       match rule_copy_d d x with
                       | None => None
                       | Some y => match loop l' with None => None | Some rest => Some (y :: rest) end
                       end
                   end) l with
          | None => None
          | Some l1 =>
              match match c with Some x => option_map Some (rule_copy_d d x) | None => Some None end with
              | None => None
              | Some c1 =>
                  match match n with Some x => option_map Some (rule_copy_d d x) | None => Some None end with
                  | None => None
                  | Some n1 => Some (mk_rule c1 n1 l1 (map (option_map mtch_clone) ms) (map (option_map capture_clone) cs) t o g name)
                  end
              end
          end
      end
  end.

(** ~Rule, Rule.h 124, which destroys the nested rules, the next rule and the
    first child. [false] is a stack overflow. *)
Fixpoint rule_destroy_d (frames : nat) (r : rule) {struct r} : bool :=
  match frames with
  | O => false
  | S d =>
      let 'mk_rule c n l _ _ _ _ _ _ := r in
      forallb (rule_destroy_d d) l
      && match n with Some x => rule_destroy_d d x | None => true end
      && match c with Some x => rule_destroy_d d x | None => true end
  end.
