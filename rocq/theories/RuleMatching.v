(** Model of libhext/src/RuleMatching.cpp and of Rule::extract
    (libhext/src/Rule.cpp 267-300). *)

From Coq Require Import Ascii String NArith ZArith Bool List.
From Verif Require Import Base StringUtil Tags Dom NodeUtil Values Match Rule.
Import ListNotations.
Open Scope outcome_scope.

(** A [const Rule*] is the path from the rule that [extract] was called on:
    the list of member accesses, the last one first. *)
Inductive rstep := RChild | RNext | RNested (k : nat).
Definition rpath := list rstep.
Definition rptr := option rpath.

Definition rstep_eqb (a b : rstep) : bool :=
  match a, b with
  | RChild, RChild | RNext, RNext => true
  | RNested i, RNested j => Nat.eqb i j
  | _, _ => false
  end.
Fixpoint rpath_eqb (a b : rpath) : bool :=
  match a, b with
  | [], [] => true
  | x :: a', y :: b' => rstep_eqb x y && rpath_eqb a' b'
  | _, _ => false
  end.
(** Comparison of [const Rule*]. *)
Definition rptr_eqb (a b : rptr) : bool :=
  match a, b with
  | None, None => true
  | Some x, Some y => rpath_eqb x y
  | _, _ => false
  end.

Definition rstep_get (r : rule) (st : rstep) : option rule :=
  match st with
  | RChild => r_child r
  | RNext => r_next r
  | RNested k => nth_error (r_nested r) k
  end.
Fixpoint rget (R : rule) (p : rpath) : option rule :=
  match p with
  | [] => Some R
  | st :: p' => match rget R p' with Some r => rstep_get r st | None => None end
  end.

Definition rderef (R : rule) (p : rpath) : outcome rule :=
  match rget R p with Some r => Ok r | None => UB BadPointer end.

(** Rule::next and Rule::child as pointers, Rule.cpp 89-97. *)
Definition rnext (r : rule) (p : rpath) : rptr :=
  match r_next r with Some _ => Some (RNext :: p) | None => None end.
Definition rchild (r : rule) (p : rpath) : rptr :=
  match r_child r with Some _ => Some (RChild :: p) | None => None end.

(** FindMandatoryRule, RuleMatching.cpp 298-308, with [begin] the rule [r] at
    path [p]. The loop follows the [next_] chain. *)
Fixpoint find_mandatory (r : rule) (p : rpath) (end_ : rptr) : rptr :=
  if rptr_eqb (Some p) end_ then end_
  else if negb (r_optional r) then Some p
  else match r with
       | mk_rule _ (Some r') _ _ _ _ _ _ _ => find_mandatory r' (RNext :: p) end_
       | mk_rule _ None _ _ _ _ _ _ _ => end_
       end.
Definition FindMandatoryRule (R : rule) (begin_ end_ : rptr) : outcome rptr :=
  match begin_ with
  | None => Ok end_
  | Some p => let! r := rderef R p in Ok (find_mandatory r p end_)
  end.

(** RuleMatching.cpp 169-170: skip optional rules. *)
Fixpoint skip_optional (r : rule) (p : rpath) : rptr :=
  if r_optional r then
    match r with
    | mk_rule _ (Some r') _ _ _ _ _ _ _ => skip_optional r' (RNext :: p)
    | mk_rule _ None _ _ _ _ _ _ _ => None
    end
  else Some p.

(** MatchingNodes, RuleMatching.h 33: std::vector<std::pair<const Rule*,
    const GumboNode*>>. *)
Definition MatchingNodes := list (rpath * npath).

(** Code that reads and writes [max_searches] (an std::uint64_t). *)
Definition M (A : Type) := N -> outcome (A * N).
Definition ret {A} (a : A) : M A := fun n => Ok (a, n).
Definition bind {A B} (m : M A) (f : A -> M B) : M B :=
  fun n => obind (m n) (fun '(a, n') => f a n').
Definition lift {A} (m : outcome A) : M A :=
  fun n => obind m (fun a => Ok (a, n)).
Definition out_of_fuel {A} : M A := fun _ => OutOfFuel.

Declare Scope m_scope.
Delimit Scope m_scope with m.
Notation "'do' x <- m ; f" := (bind m (fun x => f))
  (at level 200, x pattern, m at level 100, f at level 200, right associativity) : m_scope.

(** RuleMatching.cpp 34-35. *)
Definition tick : M unit :=
  fun n => if (n =? 0)%N then Ok (tt, n)
           else let n' := (n - 1)%N in
                if (n' =? 0)%N then Throw MaxSearchError else Ok (tt, n').

Section Matching.

(** The rule that extract was called on, the document, and Rule::matches. *)
Variable R : rule.
Variable D : node.
Variable matches : rule -> npath -> outcome bool.

Open Scope m_scope.

(** [rule == sub.back().first] with [sub] not empty, RuleMatching.cpp 74-76 and
    165. *)
Definition back_is (sub : MatchingNodes) (rp : rpath) : bool :=
  match rev sub with
  | [] => false
  | (q, _) :: _ => rpath_eqb rp q
  end.

(** RuleMatching.cpp 164-179. *)
Definition group_tail (rule : rptr) (node : nptr) (sub : MatchingNodes)
  : outcome (nptr * MatchingNodes) :=
  obind
    (match rule with
     | None => Ok None
     | Some rp =>
         obind (rderef R rp) (fun r =>
           if r_greedy r && back_is sub rp then Ok (rnext r rp) else Ok rule)
     end)
    (fun rule1 =>
       obind
         (match rule1 with
          | None => Ok None
          | Some rp => obind (rderef R rp) (fun r => Ok (skip_optional r rp))
          end)
         (fun rule2 =>
            match rule2 with
            | None => Ok (node, sub)
            | Some _ => Ok (None, [])
            end)).

(** The functions of RuleMatching.cpp. Loops are written as functions of
    their own. Every call costs one unit of [fuel]; the theorems show that
    enough fuel always exists. A [result] parameter that the C++ function
    appends to is a list that the model returns.

    - [SaveMatchingNodesRecursive]: lines 25-60; [save_groups] is the loop
      37-44, [save_below] the loop 46-59.
    - [MatchRuleGroup]: lines 62-180; [group_loop] is the loop 72-162.
    - [RuleMatchesNodeRecursive]: lines 182-247; [child_loop] is the loop
      209-223, [nested_loop] the loop 231-241.
    - [MatchRuleOnce]: lines 249-267.
    - [MatchRange]: lines 269-296; [range_loop] is the loop 281-293. *)
Fixpoint SaveMatchingNodesRecursive (fuel : nat) (rule : rptr) (node : nptr)
  : M (list MatchingNodes) :=
  match fuel with
  | O => out_of_fuel
  | S f =>
      match rule, node with
      | Some rp, Some np =>
          do _ <- tick;
          do gs <- save_groups f rp node;
          do bs <- save_below f rp np;
          ret (gs ++ bs)
      | _, _ => ret []
      end
  end
with save_groups (fuel : nat) (rp : rpath) (next_node : nptr) : M (list MatchingNodes) :=
  match fuel with
  | O => out_of_fuel
  | S f =>
      match next_node with
      | None => ret []
      | Some _ =>
          do (next, sub) <- MatchRuleGroup f (Some rp) next_node;
          do rest <- save_groups f rp next;
          ret (match sub with [] => rest | _ => sub :: rest end)
      end
  end
with save_below (fuel : nat) (rp : rpath) (np : npath) : M (list MatchingNodes) :=
  match fuel with
  | O => out_of_fuel
  | S f =>
      do n <- lift (deref D np);
      do here <-
        (if is_element n && negb (Nat.eqb (length (children_of n)) 0)
         then SaveMatchingNodesRecursive f (Some rp) (Some (0 :: np))
         else ret []);
      do next <- lift (NextNode D (Some np));
      match next with
      | None => ret here
      | Some np' =>
          do rest <- save_below f rp np';
          ret (here ++ rest)
      end
  end
with MatchRuleGroup (fuel : nat) (rule : rptr) (node : nptr) : M (nptr * MatchingNodes) :=
  match fuel with
  | O => out_of_fuel
  | S f =>
      match rule, node with
      | Some _, Some _ => group_loop f rule rule node []
      | _, _ => ret (None, [])
      end
  end
with group_loop (fuel : nat) (first_rule rule : rptr) (node : nptr) (sub : MatchingNodes)
  : M (nptr * MatchingNodes) :=
  match fuel with
  | O => out_of_fuel
  | S f =>
      match rule, node with
      | Some rp, Some np =>
          do r <- lift (rderef R rp);
          if r_optional r || (r_greedy r && back_is sub rp) then
            do stop_rule <- lift (FindMandatoryRule R (rnext r rp) None);
            match stop_rule with
            | None =>                                   (* has_wrapped *)
                do wrapped <- lift (FindMandatoryRule R first_rule rule);
                let stop_rule := if rptr_eqb wrapped rule then None else wrapped in
                match stop_rule with
                | None =>
                    do (last, more) <- MatchRange f rule None node None;
                    do next <- lift (match last with None => Ok None | Some _ => NextNode D last end);
                    ret (next, sub ++ more)
                | Some _ =>
                    do (stop_node, _) <- MatchRuleOnce f stop_rule node None;
                    do (_, more) <- MatchRange f rule None node stop_node;
                    ret (stop_node, sub ++ more)
                end
            | Some stop_rp =>
                do (stop_node, inner) <- MatchRuleOnce f stop_rule node None;
                match stop_node with
                | None => ret (None, [])
                | Some stop_np =>
                    do (_, more) <- MatchRange f rule stop_rule node stop_node;
                    do stop_r <- lift (rderef R stop_rp);
                    do next <- lift (NextNode D stop_node);
                    group_loop f first_rule (rnext stop_r stop_rp) next
                               (sub ++ inner ++ more ++ [(stop_rp, stop_np)])
                end
            end
          else
            do (found, inner) <- MatchRuleOnce f rule node None;
            match found with
            | None => ret (None, [])
            | Some found_np =>
                do next <- lift (NextNode D found);
                group_loop f first_rule (if r_greedy r then rule else rnext r rp) next
                           (sub ++ inner ++ [(rp, found_np)])
            end
      | _, _ => lift (group_tail rule node sub)
      end
  end
with RuleMatchesNodeRecursive (fuel : nat) (rule : rptr) (node : nptr)
  : M (bool * MatchingNodes) :=
  match fuel with
  | O => out_of_fuel
  | S f =>
      match rule, node with
      | Some rp, Some np =>
          do r <- lift (rderef R rp);
          do n <- lift (deref D np);
          do m <- lift (matches r np);
          if negb m then ret (false, [])
          else if negb (is_some (r_child r)) && Nat.eqb (length (r_nested r)) 0 then ret (true, [])
          else if negb (is_element n) || Nat.eqb (length (children_of n)) 0 then ret (false, [])
          else
            let first_child := 0 :: np in
            do (matched, sub1) <-
              (match rchild r rp with
               | Some cp => child_loop f cp first_child
               | None => ret (true, [])
               end);
            if negb matched then ret (false, [])
            else
              do (matched2, sub2) <- nested_loop f rp 0 (length (r_nested r)) first_child;
              if negb matched2 then ret (false, [])
              else ret (true, sub1 ++ sub2)
      | _, _ => ret (false, [])
      end
  end
with child_loop (fuel : nat) (cp : rpath) (next_node : npath) : M (bool * MatchingNodes) :=
  match fuel with
  | O => out_of_fuel
  | S f =>
      do (next, sub) <- MatchRuleGroup f (Some cp) (Some next_node);
      do mand <- lift (FindMandatoryRule R (Some cp) None);
      let matched := negb (Nat.eqb (length sub) 0) || negb (is_some mand) in
      match next with
      | None => ret (matched, sub)
      | Some np' =>
          do (matched', rest) <- child_loop f cp np';
          ret (matched || matched', sub ++ rest)
      end
  end
with nested_loop (fuel : nat) (rp : rpath) (k size : nat) (first_child : npath)
  : M (bool * MatchingNodes) :=
  match fuel with
  | O => out_of_fuel
  | S f =>
      if Nat.ltb k size then
        do mn <- SaveMatchingNodesRecursive f (Some (RNested k :: rp)) (Some first_child);
        do mand <- lift (FindMandatoryRule R (Some (RNested k :: rp)) None);
        if Nat.eqb (length mn) 0 && is_some mand then ret (false, [])
        else
          do (matched, rest) <- nested_loop f rp (S k) size first_child;
          ret (matched, concat mn ++ rest)
      else ret (true, [])
  end
with MatchRuleOnce (fuel : nat) (rule : rptr) (begin_ end_ : nptr) : M (nptr * MatchingNodes) :=
  match fuel with
  | O => out_of_fuel
  | S f =>
      match rule with
      | None => ret (end_, [])
      | Some _ =>
          match begin_ with
          | None => ret (end_, [])
          | Some np =>
              if nptr_eqb begin_ end_ then ret (end_, [])
              else
                do (matched, inner) <- RuleMatchesNodeRecursive f rule begin_;
                if matched then ret (begin_, inner)
                else
                  do next <- lift (NextNode D begin_);
                  MatchRuleOnce f rule next end_
          end
      end
  end
with MatchRange (fuel : nat) (r_begin r_end : rptr) (n_begin n_end : nptr)
  : M (nptr * MatchingNodes) :=
  match fuel with
  | O => out_of_fuel
  | S f =>
      match n_begin with
      | None => ret (n_end, [])
      | Some _ => range_loop f r_begin r_end n_begin n_end n_end
      end
  end
with range_loop (fuel : nat) (r_begin r_end : rptr) (n_begin n_end matching_node : nptr)
  : M (nptr * MatchingNodes) :=
  match fuel with
  | O => out_of_fuel
  | S f =>
      match r_begin with
      | None => ret (matching_node, [])
      | Some rp =>
          if rptr_eqb r_begin r_end then ret (matching_node, [])
          else
            do r <- lift (rderef R rp);
            do (found, inner) <- MatchRuleOnce f r_begin n_begin n_end;
            match found with
            | Some found_np =>
                if nptr_eqb found n_end then
                  do (last, rest) <- range_loop f (rnext r rp) r_end n_begin n_end found;
                  ret (last, inner ++ rest)
                else
                  do next <- lift (NextNode D found);
                  do (last, rest) <-
                    range_loop f (if r_greedy r then r_begin else rnext r rp) r_end next n_end found;
                  ret (last, inner ++ [(rp, found_np)] ++ rest)
            | None =>
                do (last, rest) <- range_loop f (rnext r rp) r_end n_begin n_end found;
                ret (last, inner ++ rest)
            end
      end
  end.

End Matching.

(** ** Rule::extract *)

(** [std::less<std::string>]: lexicographic, bytes compared unsigned. *)
Fixpoint str_ltb (a b : str) : bool :=
  match a, b with
  | _, [] => false
  | [], _ :: _ => true
  | x :: a', y :: b' =>
      if (N_of_ascii x <? N_of_ascii y)%N then true
      else if (N_of_ascii y <? N_of_ascii x)%N then false
      else str_ltb a' b'
  end.

(** ResultMap, Result.h 40: a std::multimap. The model is the sequence of its
    elements in iteration order. *)
Definition ResultMap := list result_pair.

(** std::multimap::insert puts a new element after all elements whose key is
    not greater. *)
Fixpoint multimap_insert (m : ResultMap) (x : result_pair) : ResultMap :=
  match m with
  | [] => [x]
  | y :: m' => if str_ltb (fst x) (fst y) then x :: y :: m' else y :: multimap_insert m' x
  end.
Definition multimap_insert_all (m : ResultMap) (l : list result_pair) : ResultMap :=
  fold_left multimap_insert l m.

(** Rule.cpp 282-291: the map of one group. *)
Fixpoint capture_group (E : engine) (R : rule) (D : node) (group : MatchingNodes) (map : ResultMap)
  : outcome ResultMap :=
  match group with
  | [] => Ok map
  | (rp, np) :: group' =>
      let! r := rderef R rp in
      if Nat.eqb (length (r_captures r)) 0 then capture_group E R D group' map
      else
        let! values := Rule_capture E D r np in
        capture_group E R D group'
          (if Nat.eqb (length values) 0 then map else multimap_insert_all map values)
  end.

(** Rule.cpp 279-297. *)
Fixpoint capture_groups (E : engine) (R : rule) (D : node) (mn : list MatchingNodes)
  : outcome (list ResultMap) :=
  match mn with
  | [] => Ok []
  | group :: mn' =>
      let! map := capture_group E R D group [] in
      let! rest := capture_groups E R D mn' in
      Ok (match map with [] => rest | _ => map :: rest end)
  end.

(** Rule::extract(const GumboNode*, std::uint64_t), Rule.cpp 273-300. *)
Definition extract (fuel : nat) (E : engine) (R : rule) (D : node) (node : nptr)
    (max_searches : N) : outcome (list ResultMap) :=
  let! (mn, _) :=
    SaveMatchingNodesRecursive R D (Rule_matches E D) fuel (Some []) node max_searches in
  capture_groups E R D mn.
