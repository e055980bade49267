(** Model of the parts of the command line tool around main's loops: reading
    files (htmlext/htmlext/File.cpp), the options (htmlext/htmlext/
    ProgramOptions.cpp) and the vectors of main.cpp 55-57 and 88-97. *)

From Coq Require Import Ascii String Arith NArith ZArith Bool List.
From Verif Require Import Base StringUtil Ownership.
Import ListNotations.
Open Scope outcome_scope.

(** ** Reading a file *)

(** Opening a path: the text of errno, or what the file's stream buffer delivers
    until the end of the file or a read error, and whether there was an error. *)
Inductive opened : Type :=
| OpenFails (reason : str)
| Opened (bytes : str) (broken : bool).

(** The state of a stream. *)
Record stream_state := mk_stream { failbit : bool; badbit : bool }.
Definition stream_fail (st : stream_state) : bool := failbit st || badbit st.

(** [out << in.rdbuf()] (external): inserts what the buffer delivers. [out] gets
    failbit if nothing was inserted or if the buffer throws, which the one of
    libstdc++ does on a read error. It only knows the buffer of [in], so the
    state of [in] stays as it is. *)
Definition insert_buffer (bytes : str) (broken : bool) (out : stream_state) : str * stream_state :=
  (bytes, mk_stream (failbit out || broken || match bytes with [] => true | _ => false end) (badbit out)).

(** ReadFileOrThrow, File.cpp 66-89: the contents, or the text of a FileError. *)
Fixpoint ReadFileOrThrow (fuel : nat) (open_path : str -> opened) (path : str) : outcome (str + str) :=
  match fuel with
  | O => OutOfFuel
  | S f =>
      match open_path path with
      | OpenFails reason =>
          if str_eqb path (s "-") then ReadFileOrThrow f open_path (s "/dev/stdin")
          else Ok (inr (s "cannot access '" ++ path ++ s "': " ++ reason))
      | Opened bytes broken =>
          let file := mk_stream false false in
          let '(text, buffer) := insert_buffer bytes broken (mk_stream false false) in
          if stream_fail file then Ok (inr (s "cannot read '" ++ path ++ s "': "))
          else Ok (inl text)
      end
  end.

(** ** The options *)

(** The value of an option: its values, and whether it is the default. *)
Record variable_value := mk_variable { values : list str; defaulted : bool }.
(** boost::program_options::variables_map *)
Definition variables := str -> option variable_value.

(** ProgramOptions::contains, ProgramOptions.cpp 103-106 *)
Definition po_contains (vm : variables) (key : str) : bool :=
  match vm key with
  | None => false
  | Some v => negb (defaulted v)
  end.

(** [vm_\[key\].as<T>()] (external): throws boost::bad_any_cast if there is no
    value. *)
Definition po_get (vm : variables) (key : str) : option (list str) := option_map values (vm key).

(** ProgramOptions::store_and_validate_or_throw, lines 64-101. [run positional
    argv]: the variables that boost::program_options finds, or the text of its
    error. The result is a boost::program_options::error or the variables. *)
Definition po_store (run : bool -> list str -> variables + str) (argv : list str) : variables + str :=
  let lint_given := existsb (str_eqb (s "-l")) argv || existsb (str_eqb (s "--lint")) argv in
  match run (negb lint_given) argv with
  | inr e => inr e
  | inl vm =>
      if po_contains vm (s "help") || po_contains vm (s "version") then inl vm
      else if negb (po_contains vm (s "hext")) && negb (po_contains vm (s "str")) then
        inr (s "missing Hext input, use --hext/-x <file> or --str/-s <string>")
      else if po_contains vm (s "lint") then inl vm
      else if negb (po_contains vm (s "html")) then inr (s "missing HTML input, use --html/-i <html-file>")
      else inl vm
  end.

(** What main does with the variables, main.cpp 38-97 and 103: the names it asks
    for, in order. *)
Definition po_reads (vm : variables) : list str :=
  if po_contains vm (s "help") || po_contains vm (s "version") then []
  else [s "hext"; s "str"] ++
    (if po_contains vm (s "lint") then []
     else [s "html"; s "max-searches"] ++ (if po_contains vm (s "filter") then [s "filter"] else [])).

(** ** A vector of objects *)

(** The elements are at the addresses [base], [base + 1], ...; addresses from
    [unused] on have never been used. *)
Record vector := mk_vector { base : nat; size : nat; capacity : nat; unused : nat }.
Definition empty_vector (free : nat) : vector := mk_vector free 0 0 free.
Definition address (v : vector) (i : nat) : nat := base v + i.
Definition addresses (v : vector) : list nat := map (address v) (seq 0 (size v)).

(** Moving all elements to a new block: each is constructed from the old one,
    then the old ones are destroyed. *)
Definition relocate (v : vector) (to_ : nat) : list html_step :=
  map (fun i => MoveConstruct (to_ + i) (address v i)) (seq 0 (size v)) ++
  map (fun i => Destroy (address v i)) (seq 0 (size v)).

(** std::vector::reserve *)
Definition reserve (n : nat) (v : vector) : vector * list html_step :=
  if n <=? capacity v then (v, [])
  else (mk_vector (unused v) (size v) n (unused v + n), relocate v (unused v)).

(** std::vector::emplace_back with a constructor that makes the output [o];
    [growth] is the strategy of the library. *)
Definition emplace_back (growth : nat -> nat) (o : output_id) (v : vector) : vector * list html_step :=
  if size v <? capacity v then
    (mk_vector (base v) (S (size v)) (capacity v) (unused v), [Construct (address v (size v)) o])
  else
    let c := S (size v) + growth (size v) in
    (mk_vector (unused v) (S (size v)) c (unused v + c),
     Construct (unused v + size v) o :: relocate v (unused v)).

Fixpoint emplace_all (growth : nat -> nat) (os : list output_id) (v : vector) : vector * list html_step :=
  match os with
  | [] => (v, [])
  | o :: os' =>
      let '(v1, steps1) := emplace_back growth o v in
      let '(v2, steps2) := emplace_all growth os' v1 in
      (v2, steps1 ++ steps2)
  end.

(** The objects of parsed_html in main.cpp 57, 89 and 91-97: room is made for
    [n] elements, of which [os] are constructed (fewer than [n] if a file cannot
    be read). Then their roots are used in some order, 99-103, and the vector is
    destroyed at the end of the block, also by an exception. *)
Definition main_html (growth : nat -> nat) (n : nat) (os : list output_id) (uses : list nat) (free : nat) : list html_step :=
  let '(v0, steps0) := reserve n (empty_vector free) in
  let '(v, steps) := emplace_all growth os v0 in
  steps0 ++ steps ++ map (fun i => UseRoot (address v i)) uses ++ map (fun x => Destroy x) (addresses v).
