(** Model of hext::Rule when there is not enough memory: the constructors, the
    assignments and the append functions of RuleHeap.v, where every request for
    memory may be refused (libhext/src/Rule.cpp 24-155, 195-199, 302-316,
    libhext/include/hext/Rule.h 102-127, libhext/include/hext/Cloneable.h 45-56).

    Simplifications. As in RuleHeap.v; in particular the buffer of a vector is
    no object, and the clone of a Match or Capture is one request, for it and
    all that it owns. A vector whose capacity is not known asks in every case;
    that it did not need to is the case that the request is granted. *)

From Coq Require Import Ascii String NArith ZArith Bool List.
From Verif Require Import Base Tags Values Match Rule RuleMatching RuleHeap.
Import ListNotations.
Open Scope outcome_scope.

(** [NoMemory]: std::bad_alloc is on its way to the caller.
    [Terminated]: it met a noexcept, and std::terminate was called. *)
Inductive result (A : Type) := Got (x : A) | NoMemory | Terminated.
Arguments Got {A} x.
Arguments NoMemory {A}.
Arguments Terminated {A}.

(** The heap, and how often memory was asked for. *)
Record world := mk_world { w_heap : heap; w_asked : nat }.
Definition act (A : Type) := world -> outcome (result A * world).

Definition got {A} (x : A) : act A := fun w => Ok (Got x, w).
Definition andthen {A B} (m : act A) (f : A -> act B) : act B :=
  fun w =>
    let! (r, w') := m w in
    match r with
    | Got x => f x w'
    | NoMemory => Ok (NoMemory, w')
    | Terminated => Ok (Terminated, w')
    end.
Notation "x <- m ;; f" := (andthen m (fun x => f)) (at level 61, m at next level, right associativity).

(** What asks for no memory. *)
Definition quiet {A} (f : heap -> outcome (A * heap)) : act A :=
  fun w => let! (x, h) := f (w_heap w) in Ok (Got x, mk_world h (w_asked w)).
Definition quietly (f : heap -> outcome heap) : act unit :=
  quiet (fun h => let! h' := f h in Ok (tt, h')).

(** The destructors that run while std::bad_alloc passes. *)
Definition undo {A} (m : act A) (f : heap -> outcome heap) : act A :=
  fun w =>
    let! (r, w') := m w in
    match r with
    | NoMemory => let! h := f (w_heap w') in Ok (NoMemory, mk_world h (w_asked w'))
    | _ => Ok (r, w')
    end.

Definition noexcept {A} (m : act A) : act A :=
  fun w =>
    let! (r, w') := m w in
    match r with
    | NoMemory => Ok (Terminated, w')
    | _ => Ok (r, w')
    end.

Section NoMemory.
Variable rest : str -> str.
(** Whether the n-th request is granted. *)
Variable grants : nat -> bool.

Definition request : act unit :=
  fun w => Ok (if grants (w_asked w) then Got tt else NoMemory, mk_world (w_heap w) (S (w_asked w))).
Definition request_if (b : bool) : act unit := if b then request else got tt.

(** The copy of a std::string of libstdc++ asks if it has more than 15
    characters. *)
Definition is_long (x : str) : bool := Nat.ltb 15 (length x).
Definition long_name (o : option str) : bool := match o with Some x => is_long x | None => false end.
Definition filled {A} (l : list A) : bool := match l with [] => false | _ => true end.

(** The elements [l] become the elements of a vector that has those of [done];
    [fail] is what the destructors do if one of them throws. *)
Fixpoint fill {A} (f : A -> act A) (fail : list A -> heap -> outcome heap) (done l : list A) : act (list A) :=
  match l with
  | [] => got done
  | x :: l' =>
      y <- undo (f x) (fail done);;
      fill f fail (done ++ [y]) l'
  end.

(** The members of a Rule die in reverse order, also when its constructor
    throws. *)
Definition end_members (fuel : nat) (m : members) (h : heap) : outcome heap :=
  let! h1 := each (if_any release) h (o_captures m) in
  let! h2 := each (if_any release) h1 (o_matches m) in
  let! h3 := each (destroy fuel) h2 (o_nested m) in
  let! h4 := if_any (destroy fuel) h3 (o_next m) in
  if_any (destroy fuel) h4 (o_child m).

(** Cloneable.h 45-56; Rule.cpp 75, 79: [m ? m->clone() : nullptr]. *)
Definition clone_any (f : heap -> addr -> outcome (addr * heap)) (o : option addr) : act (option addr) :=
  match o with
  | Some a => _ <- request;; y <- quiet (fun h => f h a);; got (Some y)
  | None => got None
  end.

(** std::make_unique<Rule>( *p ), Rule.cpp 68-71. *)
Definition make_unique_any (f : addr -> act addr) (o : option addr) : act (option addr) :=
  match o with
  | Some a => _ <- request;; y <- f a;; got (Some y)
  | None => got None
  end.

(** Rule(const Rule&), Rule.cpp 56-80. *)
Fixpoint try_copy (fuel : nat) (a : addr) : act addr :=
  match fuel with
  | O => fun _ => OutOfFuel
  | S fuel' =>
      m <- quiet (fun h => let! m := read_rule h a in Ok (m, h));;
      _ <- request_if (filled (o_nested m));;
      nested <- fill (try_copy fuel') (fun done h => each (destroy fuel') h done) [] (o_nested m);;
      let p1 := mk_members None None nested [] [] (o_tag m) (o_optional m) (o_greedy m) None in
      _ <- undo (request_if (long_name (o_name m))) (end_members fuel' p1);;
      child <- undo (make_unique_any (try_copy fuel') (o_child m)) (end_members fuel' p1);;
      let p2 := with_child p1 child in
      next <- undo (make_unique_any (try_copy fuel') (o_next m)) (end_members fuel' p2);;
      let p3 := with_next p2 next in
      _ <- undo (request_if (filled (o_matches m))) (end_members fuel' p3);;
      matches <- fill (clone_any clone_match) (fun done => end_members fuel' (with_matches p3 done)) [] (o_matches m);;
      let p4 := with_matches p3 matches in
      _ <- undo (request_if (filled (o_captures m))) (end_members fuel' p4);;
      captures <- fill (clone_any clone_capture) (fun done => end_members fuel' (with_captures p4 done)) [] (o_captures m);;
      quiet (fun h => Ok (alloc h (CRule (mk_members child next nested matches captures
                                            (o_tag m) (o_optional m) (o_greedy m) (o_name m)))))
  end.

(** operator=(const Rule&), Rule.cpp 82-87. *)
Definition try_copy_assign (fuel : nat) (a b : addr) : act unit :=
  tmp <- try_copy fuel b;;
  quietly (fun h => let! h1 := swap_rules h a tmp in destroy fuel h1 tmp).

(** append_next, Rule.cpp 129-137: std::make_unique asks before it moves. *)
Fixpoint try_append_next (fuel : nat) (a arg : addr) : act unit :=
  match fuel with
  | O => fun _ => OutOfFuel
  | S fuel' =>
      m <- quiet (fun h => let! m := read_rule h a in Ok (m, h));;
      match o_next m with
      | Some n => try_append_next fuel' n arg
      | None =>
          _ <- request;;
          x <- quiet (fun h => move_construct rest h arg);;
          quietly (fun h => change h a (fun m => with_next m (Some x)))
      end
  end.

(** append_child, Rule.cpp 119-127. *)
Definition try_append_child (fuel : nat) (a arg : addr) : act unit :=
  m <- quiet (fun h => let! m := read_rule h a in Ok (m, h));;
  match o_child m with
  | Some c =>
      param <- quiet (fun h => move_construct rest h arg);;
      _ <- undo (try_append_next fuel c param) (fun h => destroy fuel h param);;
      quietly (fun h => destroy fuel h param)
  | None =>
      _ <- request;;
      x <- quiet (fun h => move_construct rest h arg);;
      quietly (fun h => change h a (fun m => with_child m (Some x)))
  end.

(** append_nested, Rule.cpp 139-143: std::vector asks for the new buffer before
    it moves, and Rule(Rule&&) is noexcept, Rule.h 125. *)
Definition try_append_nested (fuel : nat) (grow : bool) (a arg : addr) : act unit :=
  _ <- request_if grow;;
  quietly (fun h => append_nested_rule rest fuel grow h a arg).

(** append_match and append_capture, Rule.cpp 145-155. The caller makes the
    object; the parameter owns it until the vector does. *)
Definition try_append_match (a : addr) (m : option mtch) : act unit :=
  b <- match m with
       | Some x => _ <- request;; b <- quiet (fun h => Ok (alloc h (CMatch x)));; got (Some b)
       | None => got None
       end;;
  _ <- undo request (fun h => if_any release h b);;
  quietly (fun h => change h a (fun m => with_matches m (o_matches m ++ [b]))).
Definition try_append_capture (a : addr) (c : option capture) : act unit :=
  b <- match c with
       | Some x => _ <- request;; b <- quiet (fun h => Ok (alloc h (CCapture x)));; got (Some b)
       | None => got None
       end;;
  _ <- undo request (fun h => if_any release h b);;
  quietly (fun h => change h a (fun m => with_captures m (o_captures m ++ [b]))).

(** set_tag, set_optional, set_greedy; and set_tagname, Rule.cpp 195-199, for
    which the caller makes a std::string and which copies it. *)
Definition try_set (a : addr) (f : setter) : act unit :=
  _ <- request_if (match f with SetTagname name => is_long name | _ => false end);;
  _ <- request_if (match f with SetTagname name => is_long name | _ => false end);;
  quietly (fun h => change h a (fun m => set_flag m f)).

(** Rule(HtmlTag, bool, bool), Rule.cpp 24-37. *)
Definition try_new_tag (t : tag) (o g : bool) : act addr :=
  quiet (fun h => Ok (alloc h (CRule (mk_members None None [] [] [] t o g None)))).

(** Rule(std::string, bool, bool), Rule.cpp 39-54: the caller makes the
    parameter; the constructor, which is noexcept, copies it if the name is
    none of HTML. *)
Definition try_new_name (name : str) (o g : bool) : act addr :=
  _ <- request_if (is_long name);;
  noexcept
    (let t := gumbo_tag_enum (c_str name) in
     _ <- request_if ((t =? TAG_UNKNOWN)%N && is_long name);;
     quiet (fun h => Ok (alloc h (CRule (mk_members None None [] [] [] t o g
       (if (t =? TAG_UNKNOWN)%N then Some name else None)))))).

(** ** Programs *)

(** A program tries a statement and goes on in one way if it was done and in
    another one if it threw std::bad_alloc. *)
Inductive program := Stop | Try (st : statement) (done failed : program).

(** The variables, the heap, and the requests so far. *)
Record state := mk_state { s_env : list (nat * addr); s_world : world }.
Definition machine_of (s : state) : machine := mk_machine (s_env s) (w_heap (s_world s)).

Definition try_argument (fuel : nat) (s : state) (arg : argument) : option (act addr) :=
  match arg with
  | ByCopy q =>
      match locate (machine_of s) q with
      | Some o => Some (fun w => let! b := o in try_copy fuel b w)
      | None => None
      end
  | ByMove q =>
      match locate (machine_of s) q with
      | Some o => Some (fun w => let! b := o in quiet (fun h => move_construct rest h b) w)
      | None => None
      end
  end.

(** The result of a statement: what becomes of the variables is known only if
    it was done. *)
Definition finish {A} (s : state) (m : act A) (env' : A -> list (nat * addr)) : outcome (result state * state) :=
  let! (r, w) := m (s_world s) in
  let s' := mk_state (s_env s) w in
  match r with
  | Got x => Ok (Got (mk_state (env' x) w), s')
  | NoMemory => Ok (NoMemory, s')
  | Terminated => Ok (Terminated, s')
  end.

Definition try_declare (s : state) (x : nat) (m : option (act addr)) : option (outcome (result state * state)) :=
  match var_get (s_env s) x, m with
  | None, Some m' => Some (finish s m' (fun a => (x, a) :: s_env s))
  | _, _ => None
  end.

Definition try_call (s : state) (p : place) (f : addr -> act unit) : option (outcome (result state * state)) :=
  match locate (machine_of s) p with
  | Some oa => Some (let! a := oa in finish s (f a) (fun _ => s_env s))
  | None => None
  end.

(** The parameter dies after the call, also if it throws. *)
Definition try_call_with (fuel : nat) (s : state) (p : place) (arg : argument) (f : addr -> addr -> act unit)
  : option (outcome (result state * state)) :=
  match locate (machine_of s) p, try_argument fuel s arg with
  | Some oa, Some mx =>
      Some (let! a := oa in
            finish s (x <- mx;;
                      _ <- undo (f a x) (fun h => destroy fuel h x);;
                      quietly (fun h => destroy fuel h x)) (fun _ => s_env s))
  | _, _ => None
  end.

(** [None]: the statement is none of a C++ program. *)
Definition try_step (fuel : nat) (s : state) (st : statement) : option (outcome (result state * state)) :=
  match st with
  | NewTag x t o g => try_declare s x (Some (try_new_tag t o g))
  | NewName x name o g => try_declare s x (Some (try_new_name name o g))
  | NewRule x arg => try_declare s x (try_argument fuel s arg)
  | Assign p (ByCopy q) =>
      match locate (machine_of s) q with
      | Some ob => try_call s p (fun a w => let! b := ob in try_copy_assign fuel a b w)
      | None => None
      end
  | Assign p (ByMove q) =>
      match locate (machine_of s) q with
      | Some ob => try_call s p (fun a w => let! b := ob in quietly (fun h => move_assign rest fuel h a b) w)
      | None => None
      end
  | AppendChild p arg => try_call_with fuel s p arg (try_append_child fuel)
  | AppendNext p arg => try_call_with fuel s p arg (try_append_next fuel)
  | AppendNested p grow arg => try_call_with fuel s p arg (try_append_nested fuel grow)
  | AppendMatch p m => try_call s p (fun a => try_append_match a m)
  | AppendCapture p c => try_call s p (fun a => try_append_capture a c)
  | SetFlag p f => try_call s p (fun a => try_set a f)
  | EndOf x =>
      match var_get (s_env s) x with
      | Some a => Some (finish s (quietly (fun h => destroy fuel h a)) (fun _ => var_del (s_env s) x))
      | None => None
      end
  end.

Inductive ending := Ended (s : state) | Dead.

Fixpoint try_run (fuel : nat) (s : state) (p : program) : option (outcome ending) :=
  match p with
  | Stop => Some (Ok (Ended s))
  | Try st done failed =>
      match try_step fuel s st with
      | None => None
      | Some (Ok (Got s', _)) => try_run fuel s' done
      | Some (Ok (NoMemory, s')) => try_run fuel s' failed
      | Some (Ok (Terminated, _)) => Some (Ok Dead)
      | Some (Throw e) => Some (Throw e)
      | Some (UB u) => Some (UB u)
      | Some OutOfFuel => Some OutOfFuel
      end
  end.

Definition beginning : state := mk_state [] (mk_world empty_heap 0).

End NoMemory.
