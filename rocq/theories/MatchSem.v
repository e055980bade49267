(** A pointer-free description of the search of RuleMatching.cpp: functions on
    lists of siblings instead of loops over pointers, recursion over the tree
    instead of fuel, no search counter. It is not part of the model; it is an
    intermediate step of the proofs. MatchRefine.v proves that the model
    computes these functions. *)

From Coq Require Import Arith Bool List Lia.
From Verif Require Import Base Dom Match Rule RuleMatching.
Import ListNotations.

(** A rule together with its address. *)
Definition crule := (rpath * rule)%type.

(** A rule and the rules that follow it. *)
Fixpoint chain_of (rp : rpath) (r : rule) : list crule :=
  (rp, r) ::
  match r with
  | mk_rule _ (Some n) _ _ _ _ _ _ _ => chain_of (RNext :: rp) n
  | mk_rule _ None _ _ _ _ _ _ _ => []
  end.

(** A node as the search sees it: its address, whether a rule matches it
    (with the pairs found below it), and the groups found below it. *)
Record item := mk_item {
  it_path : npath;
  it_eval : rpath -> rule -> option MatchingNodes;
  it_below : rpath -> rule -> list MatchingNodes
}.

Definition mandatory (cr : crule) : bool := negb (r_optional (snd cr)).

(** Split a chain at its first mandatory rule. *)
Fixpoint find_mand (rs : list crule) : option (list crule * crule * list crule) :=
  match rs with
  | [] => None
  | cr :: rs' =>
      if mandatory cr then Some ([], cr, rs')
      else match find_mand rs' with
           | Some (pre, m, post) => Some (cr :: pre, m, post)
           | None => None
           end
  end.

(** The first node that matches a rule. *)
Fixpoint once (cr : crule) (ns : list item) : option (list item * item * MatchingNodes * list item) :=
  match ns with
  | [] => None
  | x :: ns' =>
      match it_eval x (fst cr) (snd cr) with
      | Some inner => Some ([], x, inner, ns')
      | None => match once cr ns' with
                | Some (pre, y, inner, rest) => Some (x :: pre, y, inner, rest)
                | None => None
                end
      end
  end.

(** All nodes that match a rule, and what is left after the last one. *)
Fixpoint all_greedy (cr : crule) (ns : list item) : option (MatchingNodes * list item) :=
  match ns with
  | [] => None
  | x :: ns' =>
      match it_eval x (fst cr) (snd cr), all_greedy cr ns' with
      | Some inner, Some (m, rest) => Some (inner ++ [(fst cr, it_path x)] ++ m, rest)
      | Some inner, None => Some (inner ++ [(fst cr, it_path x)], ns')
      | None, o => o
      end
  end.

(** Match rules one after the other in a segment, skipping those that do not
    match. The first component is what follows the match of the last rule. *)
Fixpoint range (rs : list crule) (seg : list item) (last : option (list item))
  : option (list item) * MatchingNodes :=
  match rs with
  | [] => (last, [])
  | cr :: rs' =>
      if r_greedy (snd cr) then
        match all_greedy cr seg with
        | Some (m, rest) => let '(l, m2) := range rs' rest None in (l, m ++ m2)
        | None => range rs' seg None
        end
      else
        match once cr seg with
        | Some (_, y, inner, rest) =>
            let '(l, m2) := range rs' rest (Some rest) in
            (l, inner ++ [(fst cr, it_path y)] ++ m2)
        | None => range rs' seg None
        end
  end.

Definition or_first (fm : option crule) (cr : crule) : option crule :=
  match fm with Some _ => fm | None => Some cr end.

(** One group. [fm] is the first mandatory rule before [rules], [again] tells
    that the first of [rules] is greedy and has just matched. [k] bounds the
    length of [ns]. *)
Fixpoint group (k : nat) (fm : option crule) (again : bool) (rules : list crule) (ns : list item)
  (sub : MatchingNodes) : list item * MatchingNodes :=
  match rules, ns with
  | cr :: rs, _ :: _ =>
      match k with
      | O => ([], [])
      | S k' =>
          if r_optional (snd cr) || again then
            match find_mand rs with
            | None =>
                match fm with
                | None =>
                    let '(last, more) := range rules ns None in
                    (match last with Some rest => rest | None => [] end, sub ++ more)
                | Some stop =>
                    match once stop ns with
                    | Some (pre, y, _, rest) => (y :: rest, sub ++ snd (range rules pre None))
                    | None => ([], sub ++ snd (range rules ns None))
                    end
                end
            | Some (between, stop, after) =>
                match once stop ns with
                | None => ([], [])
                | Some (pre, y, inner, rest) =>
                    let more := snd (range (cr :: between) pre None) in
                    group k' (or_first (if again then or_first fm cr else fm) stop) false after rest
                          (sub ++ inner ++ more ++ [(fst stop, it_path y)])
                end
            end
          else
            match once cr ns with
            | None => ([], [])
            | Some (_, y, inner, rest) =>
                if r_greedy (snd cr)
                then group k' fm true rules rest (sub ++ inner ++ [(fst cr, it_path y)])
                else group k' (or_first fm cr) false rs rest (sub ++ inner ++ [(fst cr, it_path y)])
            end
      end
  | _, _ =>
      match find_mand (if again then tl rules else rules) with
      | None => (ns, sub)
      | Some _ => ([], [])
      end
  end.

(** All groups in a sibling list. *)
Fixpoint groups_k (k : nat) (chain : list crule) (ns : list item) : list MatchingNodes :=
  match k, ns with
  | S k', _ :: _ =>
      let '(next, sub) := group (length ns) None false chain ns [] in
      let rest := groups_k k' chain next in
      match sub with [] => rest | _ => sub :: rest end
  | _, _ => []
  end.
Definition groups (chain : list crule) (ns : list item) : list MatchingNodes :=
  groups_k (length ns) chain ns.

(** All groups in a sibling list and below it. *)
Definition save (ns : list item) (rp : rpath) (r : rule) : list MatchingNodes :=
  groups (chain_of rp r) ns ++ concat (map (fun x => it_below x rp r) ns).

Definition has_mand (rs : list crule) : bool :=
  match find_mand rs with Some _ => true | None => false end.

Definition nonempty {A} (l : list A) : bool := match l with [] => false | _ => true end.

(** What the child rules find among the children of a node. *)
Definition child_part (kids : list item) (rp : rpath) (r : rule) : option MatchingNodes :=
  match r_child r with
  | None => Some []
  | Some c =>
      let chain := chain_of (RChild :: rp) c in
      let gs := groups chain kids in
      if has_mand chain && negb (nonempty gs) then None else Some (concat gs)
  end.

(** What the nested rules find. *)
Fixpoint nested_part (kids : list item) (rp : rpath) (k : nat) (l : list rule) : option MatchingNodes :=
  match l with
  | [] => Some []
  | nr :: l' =>
      let mn := save kids (RNested k :: rp) nr in
      if negb (nonempty mn) && has_mand (chain_of (RNested k :: rp) nr) then None
      else match nested_part kids rp (S k) l' with
           | Some m => Some (concat mn ++ m)
           | None => None
           end
  end.

Section Sem.

(** Whether a node satisfies the tag and the conditions of a rule. *)
Variable b : rule -> npath -> bool.

Definition eval_at (p : npath) (kids : list item) (rp : rpath) (r : rule) : option MatchingNodes :=
  if b r p then
    match r_child r, r_nested r with
    | None, [] => Some []
    | _, _ =>
        match kids with
        | [] => None
        | _ =>
            match child_part kids rp r with
            | None => None
            | Some m1 =>
                match nested_part kids rp 0 (r_nested r) with
                | None => None
                | Some m2 => Some (m1 ++ m2)
                end
            end
        end
    end
  else None.

Fixpoint sem (t : node) (p : npath) {struct t} : item :=
  match t with
  | NElement _ _ _ cs =>
      let kids :=
        (fix go (l : list node) (i : nat) : list item :=
           match l with
           | [] => []
           | c :: l' => sem c (i :: p) :: go l' (S i)
           end) cs 0 in
      mk_item p (eval_at p kids) (save kids)
  | _ => mk_item p (eval_at p []) (fun _ _ => [])
  end.

Fixpoint sem_list (l : list node) (i : nat) (p : npath) : list item :=
  match l with
  | [] => []
  | c :: l' => sem c (i :: p) :: sem_list l' (S i) p
  end.

(** The items of a node's children, if the search looks at them. *)
Definition kids_of (t : node) (p : npath) : list item :=
  match t with NElement _ _ _ cs => sem_list cs 0 p | _ => [] end.

Lemma sem_unfold t p :
  sem t p = mk_item p (eval_at p (kids_of t p))
              (match t with NElement _ _ _ _ => save (kids_of t p) | _ => fun _ _ => [] end).
Proof.
  destruct t; simpl; try reflexivity.
  assert (H : forall l i, (fix go (l : list node) (i : nat) : list item :=
           match l with
           | [] => []
           | c :: l' => sem c (i :: p) :: go l' (S i)
           end) l i = sem_list l i p).
  { induction l as [|c l IH]; intros i; simpl; [reflexivity|]. now rewrite IH. }
  now rewrite H.
Qed.

(** A node and its following siblings as the search walks them: NextNode stops
    at once if the parent is not an element. *)
Definition sibling_items (d : node) (p : npath) : list item :=
  match p with
  | [] => []
  | i :: pp =>
      match nget d pp with
      | Some par =>
          if is_element par then sem_list (skipn i (children_of par)) i pp
          else match nth_error (children_of par) i with
               | Some n => [sem n p]
               | None => []
               end
      | None => []
      end
  end.

End Sem.
