(** Model of the objects of class hext::Rule in memory: constructors,
    assignments, the destructor and the append functions
    (libhext/src/Rule.cpp, libhext/include/hext/Rule.h).

    Simplifications. Every Rule has an address of its own, also the elements of
    [nested_]; the buffer of a vector is the list of the addresses of its
    elements. A Match and a Capture are one cell each, with what they own. An
    object gets its address when its constructor is complete; nobody else can
    see it before. The moves of std::vector and std::optional are those of
    libstdc++. *)

From Coq Require Import Ascii String NArith ZArith Bool List.
From Verif Require Import Base Tags Values Match Rule RuleMatching.
Import ListNotations.
Open Scope outcome_scope.

Definition addr := nat.

(** The members of hext::Rule, Rule.h 269-278. *)
Record members := mk_members {
  o_child : option addr;                (* std::unique_ptr<Rule> first_child_ *)
  o_next : option addr;                 (* std::unique_ptr<Rule> next_ *)
  o_nested : list addr;                 (* std::vector<Rule> nested_ *)
  o_matches : list (option addr);       (* std::vector<std::unique_ptr<Match>> matches_ *)
  o_captures : list (option addr);      (* std::vector<std::unique_ptr<Capture>> captures_ *)
  o_tag : tag;
  o_optional : bool;
  o_greedy : bool;
  o_name : option str
}.

Inductive cell := CRule (m : members) | CMatch (m : mtch) | CCapture (c : capture).

(** The living cells, the next new address, and the addresses that were given
    back, in order. *)
Record heap := mk_heap { h_cells : list (addr * cell); h_fresh : addr; h_freed : list addr }.

Definition empty_heap : heap := mk_heap [] 0 [].

Fixpoint cell_get (l : list (addr * cell)) (a : addr) : option cell :=
  match l with
  | [] => None
  | (b, c) :: l' => if Nat.eqb a b then Some c else cell_get l' a
  end.
Fixpoint cell_set (l : list (addr * cell)) (a : addr) (c : cell) : list (addr * cell) :=
  match l with
  | [] => []
  | (b, d) :: l' => if Nat.eqb a b then (b, c) :: l' else (b, d) :: cell_set l' a c
  end.
Fixpoint cell_del (l : list (addr * cell)) (a : addr) : list (addr * cell) :=
  match l with
  | [] => []
  | (b, d) :: l' => if Nat.eqb a b then l' else (b, d) :: cell_del l' a
  end.

(** ** Cells *)

Definition alloc (h : heap) (c : cell) : addr * heap :=
  (h_fresh h, mk_heap ((h_fresh h, c) :: h_cells h) (S (h_fresh h)) (h_freed h)).

Definition release (h : heap) (a : addr) : outcome heap :=
  match cell_get (h_cells h) a with
  | Some _ => Ok (mk_heap (cell_del (h_cells h) a) (h_fresh h) (h_freed h ++ [a]))
  | None => UB DoubleFree
  end.

(** Reading and changing a Rule. *)
Definition read_rule (h : heap) (a : addr) : outcome members :=
  match cell_get (h_cells h) a with Some (CRule m) => Ok m | _ => UB BadPointer end.
Definition write_rule (h : heap) (a : addr) (m : members) : outcome heap :=
  match cell_get (h_cells h) a with
  | Some (CRule _) => Ok (mk_heap (cell_set (h_cells h) a (CRule m)) (h_fresh h) (h_freed h))
  | _ => UB BadPointer
  end.

Definition with_child (m : members) (x : option addr) : members :=
  mk_members x (o_next m) (o_nested m) (o_matches m) (o_captures m) (o_tag m) (o_optional m) (o_greedy m) (o_name m).
Definition with_next (m : members) (x : option addr) : members :=
  mk_members (o_child m) x (o_nested m) (o_matches m) (o_captures m) (o_tag m) (o_optional m) (o_greedy m) (o_name m).
Definition with_nested (m : members) (x : list addr) : members :=
  mk_members (o_child m) (o_next m) x (o_matches m) (o_captures m) (o_tag m) (o_optional m) (o_greedy m) (o_name m).
Definition with_matches (m : members) (x : list (option addr)) : members :=
  mk_members (o_child m) (o_next m) (o_nested m) x (o_captures m) (o_tag m) (o_optional m) (o_greedy m) (o_name m).
Definition with_captures (m : members) (x : list (option addr)) : members :=
  mk_members (o_child m) (o_next m) (o_nested m) (o_matches m) x (o_tag m) (o_optional m) (o_greedy m) (o_name m).
Definition with_flags (m : members) (t : tag) (o g : bool) (name : option str) : members :=
  mk_members (o_child m) (o_next m) (o_nested m) (o_matches m) (o_captures m) t o g name.

Definition change (h : heap) (a : addr) (f : members -> members) : outcome heap :=
  let! m := read_rule h a in write_rule h a (f m).

Fixpoint each {A} (f : heap -> A -> outcome heap) (h : heap) (l : list A) : outcome heap :=
  match l with
  | [] => Ok h
  | x :: l' => let! h' := f h x in each f h' l'
  end.
Definition if_any {A} (f : heap -> A -> outcome heap) (h : heap) (o : option A) : outcome heap :=
  match o with Some x => f h x | None => Ok h end.

(** ** ~Rule, Rule.h 124 *)

(** The members die in reverse order. For a Rule on the heap [delete] also
    gives back its memory; this is part of the function here. *)
Fixpoint destroy (fuel : nat) (h : heap) (a : addr) : outcome heap :=
  match fuel with
  | O => OutOfFuel
  | S fuel' =>
      let! m := read_rule h a in
      let! h1 := each (if_any release) h (o_captures m) in
      let! h2 := each (if_any release) h1 (o_matches m) in
      let! h3 := each (destroy fuel') h2 (o_nested m) in
      let! h4 := if_any (destroy fuel') h3 (o_next m) in
      let! h5 := if_any (destroy fuel') h4 (o_child m) in
      release h5 a
  end.

(** ** Rule(const Rule&), Rule.cpp 56-80 *)

Definition clone_match (h : heap) (a : addr) : outcome (addr * heap) :=
  match cell_get (h_cells h) a with
  | Some (CMatch m) => Ok (alloc h (CMatch (mtch_clone m)))
  | _ => UB BadPointer
  end.
Definition clone_capture (h : heap) (a : addr) : outcome (addr * heap) :=
  match cell_get (h_cells h) a with
  | Some (CCapture c) => Ok (alloc h (CCapture (capture_clone c)))
  | _ => UB BadPointer
  end.

Fixpoint make_each (f : heap -> addr -> outcome (addr * heap)) (h : heap) (l : list addr) : outcome (list addr * heap) :=
  match l with
  | [] => Ok ([], h)
  | x :: l' =>
      let! (y, h1) := f h x in
      let! (ys, h2) := make_each f h1 l' in
      Ok (y :: ys, h2)
  end.
Definition make_any (f : heap -> addr -> outcome (addr * heap)) (h : heap) (o : option addr) : outcome (option addr * heap) :=
  match o with
  | Some x => let! (y, h1) := f h x in Ok (Some y, h1)
  | None => Ok (None, h)
  end.
Fixpoint make_each_any (f : heap -> addr -> outcome (addr * heap)) (h : heap) (l : list (option addr))
  : outcome (list (option addr) * heap) :=
  match l with
  | [] => Ok ([], h)
  | x :: l' =>
      let! (y, h1) := make_any f h x in
      let! (ys, h2) := make_each_any f h1 l' in
      Ok (y :: ys, h2)
  end.

Fixpoint copy_rule (fuel : nat) (h : heap) (a : addr) : outcome (addr * heap) :=
  match fuel with
  | O => OutOfFuel
  | S fuel' =>
      let! m := read_rule h a in
      let! (nested, h1) := make_each (copy_rule fuel') h (o_nested m) in
      let! (child, h2) := make_any (copy_rule fuel') h1 (o_child m) in
      let! (next, h3) := make_any (copy_rule fuel') h2 (o_next m) in
      let! (matches, h4) := make_each_any clone_match h3 (o_matches m) in
      let! (captures, h5) := make_each_any clone_capture h4 (o_captures m) in
      Ok (alloc h5 (CRule (mk_members child next nested matches captures
                             (o_tag m) (o_optional m) (o_greedy m) (o_name m))))
  end.

(** ** operator=(const Rule&), Rule.cpp 82-87, and swap, 302-316 *)
Definition swap_rules (h : heap) (a b : addr) : outcome heap :=
  if Nat.eqb a b then Ok h
  else
    let! m := read_rule h a in
    let! n := read_rule h b in
    let! h1 := write_rule h a n in
    write_rule h1 b m.

Definition copy_assign (fuel : nat) (h : heap) (a b : addr) : outcome heap :=
  let! (tmp, h1) := copy_rule fuel h b in
  let! h2 := swap_rules h1 a tmp in
  destroy fuel h2 tmp.

(** ** Moves *)

Section Moves.
(** What remains of a std::string that was moved from is not specified. *)
Variable rest : str -> str.

(** A Rule that was moved from. *)
Definition hollow (m : members) : members :=
  mk_members None None [] [] [] (o_tag m) (o_optional m) (o_greedy m) (option_map rest (o_name m)).

(** Rule(Rule&&), Rule.h 125, defaulted. *)
Definition move_construct (h : heap) (b : addr) : outcome (addr * heap) :=
  let! m := read_rule h b in
  let! h1 := write_rule h b (hollow m) in
  Ok (alloc h1 (CRule m)).

(** operator=(Rule&&), Rule.h 127, defaulted: member by member, each read when
    it is its turn. The assignment of a unique_ptr is
    [reset(other.release())]; that of a vector takes the buffer of the other
    one and destroys the elements of the old one at the end. *)
Definition move_pointer (fuel : nat) (get : members -> option addr) (set : members -> option addr -> members)
  (h : heap) (a b : addr) : outcome heap :=
  let! mb := read_rule h b in
  let! h1 := write_rule h b (set mb None) in
  let! ma := read_rule h1 a in
  let! h2 := write_rule h1 a (set ma (get mb)) in
  if_any (destroy fuel) h2 (get ma).

Definition move_vector {A} (kill : heap -> A -> outcome heap) (get : members -> list A) (set : members -> list A -> members)
  (h : heap) (a b : addr) : outcome heap :=
  let! mb := read_rule h b in
  let! ma := read_rule h a in
  let! h1 := write_rule h a (set ma (get mb)) in
  let! mb1 := read_rule h1 b in
  let! h2 := write_rule h1 b (set mb1 []) in
  each kill h2 (get ma).

Definition move_assign (fuel : nat) (h : heap) (a b : addr) : outcome heap :=
  let! h1 := move_pointer fuel o_child with_child h a b in
  let! h2 := move_pointer fuel o_next with_next h1 a b in
  let! h3 := move_vector (destroy fuel) o_nested with_nested h2 a b in
  let! h4 := move_vector (if_any release) o_matches with_matches h3 a b in
  let! h5 := move_vector (if_any release) o_captures with_captures h4 a b in
  let! mb := read_rule h5 b in
  let! h6 := change h5 a (fun m => with_flags m (o_tag mb) (o_optional mb) (o_greedy mb) (o_name mb)) in
  change h6 b (fun m => with_flags m (o_tag m) (o_optional m) (o_greedy m) (option_map rest (o_name m))).

(** ** The append functions, Rule.cpp 119-155 *)

(** [arg] is the parameter, an object of its own. *)
Fixpoint append_next_rule (fuel : nat) (h : heap) (a arg : addr) : outcome heap :=
  match fuel with
  | O => OutOfFuel
  | S fuel' =>
      let! m := read_rule h a in
      match o_next m with
      | Some n => append_next_rule fuel' h n arg
      | None =>
          let! (x, h1) := move_construct h arg in
          change h1 a (fun m => with_next m (Some x))
      end
  end.

Definition append_child_rule (fuel : nat) (h : heap) (a arg : addr) : outcome heap :=
  let! m := read_rule h a in
  match o_child m with
  | Some c =>
      let! (param, h1) := move_construct h arg in
      let! h2 := append_next_rule fuel h1 c param in
      destroy fuel h2 param
  | None =>
      let! (x, h1) := move_construct h arg in
      change h1 a (fun m => with_child m (Some x))
  end.

(** [grow]: the buffer is full, so that the elements are moved to a new one and
    the old ones are destroyed. *)
Definition append_nested_rule (fuel : nat) (grow : bool) (h : heap) (a arg : addr) : outcome heap :=
  let! (x, h1) := move_construct h arg in
  let! m := read_rule h1 a in
  if grow
  then
    let! (moved, h2) := make_each move_construct h1 (o_nested m) in
    let! h3 := each (destroy fuel) h2 (o_nested m) in
    change h3 a (fun m => with_nested m (moved ++ [x]))
  else change h1 a (fun m => with_nested m (o_nested m ++ [x])).

Definition append_match_rule (h : heap) (a : addr) (m : option mtch) : outcome heap :=
  match m with
  | Some x => let (b, h1) := alloc h (CMatch x) in change h1 a (fun m => with_matches m (o_matches m ++ [Some b]))
  | None => change h a (fun m => with_matches m (o_matches m ++ [None]))
  end.
Definition append_capture_rule (h : heap) (a : addr) (c : option capture) : outcome heap :=
  match c with
  | Some x => let (b, h1) := alloc h (CCapture x) in change h1 a (fun m => with_captures m (o_captures m ++ [Some b]))
  | None => change h a (fun m => with_captures m (o_captures m ++ [None]))
  end.

(** ** Programs *)

(** [x.child()->next()], [x.nested()\[1\]], ...: a variable and the accessors
    that are called, first to last. *)
Record place := mk_place { pl_var : nat; pl_path : list rstep }.

(** An argument of type Rule, made by the copy or by the move constructor. *)
Inductive argument := ByCopy (p : place) | ByMove (p : place).

Inductive setter := SetTag (t : tag) | SetOptional (o : bool) | SetGreedy (g : bool) | SetTagname (name : str).

Inductive statement :=
| NewTag (x : nat) (t : tag) (optional greedy : bool)       (* Rule x(t, optional, greedy); *)
| NewName (x : nat) (name : str) (optional greedy : bool)   (* Rule x(name, optional, greedy); *)
| NewRule (x : nat) (arg : argument)                        (* Rule x(y); or Rule x(std::move(y)); *)
| Assign (p : place) (arg : argument)                       (* p = q; or p = std::move(q); *)
| AppendChild (p : place) (arg : argument)
| AppendNext (p : place) (arg : argument)
| AppendNested (p : place) (grow : bool) (arg : argument)
| AppendMatch (p : place) (m : option mtch)
| AppendCapture (p : place) (c : option capture)
| SetFlag (p : place) (f : setter)
| EndOf (x : nat).                                          (* the lifetime of x ends *)

Record machine := mk_machine { env : list (nat * addr); mem : heap }.
Definition start : machine := mk_machine [] empty_heap.

Fixpoint var_get {A} (l : list (nat * A)) (x : nat) : option A :=
  match l with
  | [] => None
  | (y, v) :: l' => if Nat.eqb x y then Some v else var_get l' x
  end.
Fixpoint var_del {A} (l : list (nat * A)) (x : nat) : list (nat * A) :=
  match l with
  | [] => []
  | (y, v) :: l' => if Nat.eqb x y then l' else (y, v) :: var_del l' x
  end.

Fixpoint follow (h : heap) (a : addr) (path : list rstep) : outcome addr :=
  match path with
  | [] => Ok a
  | st :: path' =>
      let! m := read_rule h a in
      match st with
      | RChild => match o_child m with Some b => follow h b path' | None => UB NullDeref end
      | RNext => match o_next m with Some b => follow h b path' | None => UB NullDeref end
      | RNested k => match nth_error (o_nested m) k with Some b => follow h b path' | None => UB OutOfBounds end
      end
  end.

(** The address of a place. [None]: there is no such variable. *)
Definition locate (s : machine) (p : place) : option (outcome addr) :=
  match var_get (env s) (pl_var p) with
  | Some a => Some (follow (mem s) a (pl_path p))
  | None => None
  end.

Definition make_argument (fuel : nat) (s : machine) (arg : argument) : option (outcome (addr * heap)) :=
  match arg with
  | ByCopy q => match locate s q with Some o => Some (let! b := o in copy_rule fuel (mem s) b) | None => None end
  | ByMove q => match locate s q with Some o => Some (let! b := o in move_construct (mem s) b) | None => None end
  end.

(** A call of a member function at [p] with an argument by value; the place is
    evaluated first, and the parameter dies after the call. *)
Definition call_with (fuel : nat) (s : machine) (p : place) (arg : argument)
  (f : heap -> addr -> addr -> outcome heap) : option (outcome machine) :=
  match locate s p, make_argument fuel s arg with
  | Some oa, Some ox =>
      Some (let! a := oa in
            let! (x, h1) := ox in
            let! h2 := f h1 a x in
            let! h3 := destroy fuel h2 x in
            Ok (mk_machine (env s) h3))
  | _, _ => None
  end.

Definition call (s : machine) (p : place) (f : heap -> addr -> outcome heap) : option (outcome machine) :=
  match locate s p with
  | Some oa => Some (let! a := oa in let! h1 := f (mem s) a in Ok (mk_machine (env s) h1))
  | None => None
  end.

Definition declare (s : machine) (x : nat) (o : outcome (addr * heap)) : option (outcome machine) :=
  match var_get (env s) x with
  | Some _ => None
  | None => Some (let! (a, h1) := o in Ok (mk_machine ((x, a) :: env s) h1))
  end.

Definition set_flag (m : members) (f : setter) : members :=
  match f with
  | SetTag t => with_flags m t (o_optional m) (o_greedy m) (o_name m)
  | SetOptional o => with_flags m (o_tag m) o (o_greedy m) (o_name m)
  | SetGreedy g => with_flags m (o_tag m) (o_optional m) g (o_name m)
  | SetTagname name => with_flags m (o_tag m) (o_optional m) (o_greedy m) (Some name)
  end.

(** [None]: the statement is none of a C++ program, because it names a variable
    that does not live or declares one that does. *)
Definition step (fuel : nat) (s : machine) (st : statement) : option (outcome machine) :=
  match st with
  | NewTag x t o g => declare s x (Ok (alloc (mem s) (CRule (mk_members None None [] [] [] t o g None))))
  | NewName x name o g =>
      let t := gumbo_tag_enum (c_str name) in
      declare s x (Ok (alloc (mem s) (CRule (mk_members None None [] [] [] t o g
        (if (t =? TAG_UNKNOWN)%N then Some name else None)))))
  | NewRule x arg => match make_argument fuel s arg with Some o => declare s x o | None => None end
  | Assign p (ByCopy q) =>
      match locate s q with
      | Some ob => match ob with
                   | Ok b => call s p (fun h a => copy_assign fuel h a b)
                   | Throw e => Some (Throw e) | UB u => Some (UB u) | OutOfFuel => Some OutOfFuel
                   end
      | None => None
      end
  | Assign p (ByMove q) =>
      match locate s q with
      | Some ob => match ob with
                   | Ok b => call s p (fun h a => move_assign fuel h a b)
                   | Throw e => Some (Throw e) | UB u => Some (UB u) | OutOfFuel => Some OutOfFuel
                   end
      | None => None
      end
  | AppendChild p arg => call_with fuel s p arg (append_child_rule fuel)
  | AppendNext p arg => call_with fuel s p arg (append_next_rule fuel)
  | AppendNested p grow arg => call_with fuel s p arg (append_nested_rule fuel grow)
  | AppendMatch p m => call s p (fun h a => append_match_rule h a m)
  | AppendCapture p c => call s p (fun h a => append_capture_rule h a c)
  | SetFlag p f => call s p (fun h a => change h a (fun m => set_flag m f))
  | EndOf x =>
      match var_get (env s) x with
      | Some a => Some (let! h1 := destroy fuel (mem s) a in Ok (mk_machine (var_del (env s) x) h1))
      | None => None
      end
  end.

Fixpoint run (fuel : nat) (s : machine) (l : list statement) : option (outcome machine) :=
  match l with
  | [] => Some (Ok s)
  | st :: l' =>
      match step fuel s st with
      | None => None
      | Some (Ok s') => run fuel s' l'
      | Some (Throw e) => Some (Throw e)
      | Some (UB u) => Some (UB u)
      | Some OutOfFuel => Some OutOfFuel
      end
  end.

End Moves.
