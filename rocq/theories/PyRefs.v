(** Model of the conversion of a result in the Python binding with its
    reference counts: libhext/bindings/python/pyhext.i 38-121. *)

From Coq Require Import Ascii String Arith NArith Bool List.
From Verif Require Import Base Match RuleMatching Convert.
Import ListNotations.
Open Scope outcome_scope.

(** ** The objects of Python *)

(** A PyObject pointer that is not null. *)
Definition pyid := nat.

(** Simplification: the string objects that a dict makes for its keys belong to
    that dict alone and are not counted. *)
Inductive pydata : Type :=
| PyStr (x : str)
| PyList (l : list pyid)
| PyDict (l : list (str * pyid)).

(** The references that an object holds. *)
Definition held (d : pydata) : list pyid :=
  match d with
  | PyStr _ => []
  | PyList l => l
  | PyDict l => map snd l
  end.

(** The living objects with their reference counts, the number of objects made
    so far, and the number of API calls that could fail. *)
Record pyheap := mk_pyheap {
  cells : list (pyid * (nat * pydata));
  fresh : pyid;
  calls : nat
}.
Definition py_start : pyheap := mk_pyheap [] 0 0.

Fixpoint cell (l : list (pyid * (nat * pydata))) (x : pyid) : option (nat * pydata) :=
  match l with
  | [] => None
  | (y, c) :: l' => if Nat.eqb x y then Some c else cell l' x
  end.
Fixpoint put (l : list (pyid * (nat * pydata))) (x : pyid) (c : nat * pydata) : list (pyid * (nat * pydata)) :=
  match l with
  | [] => []
  | (y, c') :: l' => if Nat.eqb x y then (y, c) :: l' else (y, c') :: put l' x c
  end.
Fixpoint drop (l : list (pyid * (nat * pydata))) (x : pyid) : list (pyid * (nat * pydata)) :=
  match l with
  | [] => []
  | (y, c) :: l' => if Nat.eqb x y then l' else (y, c) :: drop l' x
  end.

(** ** The API of Python (external, from its documentation) *)

(** Python's strict decoder of UTF-8. *)
Definition between (a c b : N) : bool := ((a <=? c) && (c <=? b))%N.
Definition tail_byte (c : ascii) : bool := between 128 (N_of_ascii c) 191.
Fixpoint utf8 (x : str) : bool :=
  match x with
  | [] => true
  | c :: x1 =>
      let n := N_of_ascii c in
      if (n <? 128)%N then utf8 x1
      else
        match x1 with
        | [] => false
        | c1 :: x2 =>
            let n1 := N_of_ascii c1 in
            if between 194 n 223 then tail_byte c1 && utf8 x2
            else
              match x2 with
              | [] => false
              | c2 :: x3 =>
                  if between 224 n 239 then
                    (if (n =? 224)%N then between 160 n1 191
                     else if (n =? 237)%N then between 128 n1 159 else tail_byte c1)
                    && tail_byte c2 && utf8 x3
                  else
                    match x3 with
                    | [] => false
                    | c3 :: x4 =>
                        between 240 n 244 &&
                        (if (n =? 240)%N then between 144 n1 191
                         else if (n =? 244)%N then between 128 n1 143 else tail_byte c1)
                        && tail_byte c2 && tail_byte c3 && utf8 x4
                    end
              end
        end
  end.

(** Py_DECREF for every pointer in [todo]: an object whose count becomes zero
    is deallocated and gives up its references. *)
Fixpoint release (fuel : nat) (todo : list pyid) (l : list (pyid * (nat * pydata)))
  : outcome (list (pyid * (nat * pydata))) :=
  match todo with
  | [] => Ok l
  | x :: todo' =>
      match fuel with
      | O => OutOfFuel
      | S f =>
          match cell l x with
          | None => UB BadPointer
          | Some (S (S n), d) => release f todo' (put l x (S n, d))
          | Some (_, d) => release f (held d ++ todo') (drop l x)
          end
      end
  end.

(** Every round takes one reference away. *)
Definition references (l : list (pyid * (nat * pydata))) : nat :=
  list_sum (map (fun c => fst (snd c)) l).

Definition Py_DECREF (p : option pyid) (h : pyheap) : outcome pyheap :=
  match p with
  | None => UB NullDeref
  | Some x =>
      let! l := release (S (references (cells h))) [x] (cells h) in
      Ok (mk_pyheap l (fresh h) (calls h))
  end.

Section API.

(** Any call can fail for lack of memory: [refuses n] tells whether the [n]th
    one does. *)
Variable refuses : nat -> bool.

Definition called (h : pyheap) : pyheap := mk_pyheap (cells h) (fresh h) (S (calls h)).

(** A new object. The result is null if that fails. *)
Definition py_new (d : pydata) (h : pyheap) : pyheap * option pyid :=
  if refuses (calls h) then (called h, None)
  else (mk_pyheap ((fresh h, (1, d)) :: cells h) (S (fresh h)) (S (calls h)), Some (fresh h)).
Definition PyList_New (h : pyheap) := py_new (PyList []) h.
Definition PyDict_New (h : pyheap) := py_new (PyDict []) h.
Definition PyString_FromString (x : str) (h : pyheap) : pyheap * option pyid :=
  if utf8 (c_str x) then py_new (PyStr (c_str x)) h else (called h, None).

(** Whether the call succeeded; the container takes a new reference. The
    pointers are to living objects. *)
Definition PyList_Append (p v : pyid) (h : pyheap) : outcome (pyheap * bool) :=
  if refuses (calls h) then Ok (called h, false)
  else
    match cell (cells h) v with
    | None => UB BadPointer
    | Some (n, d) =>
        let l := put (cells h) v (S n, d) in
        match cell l p with
        | Some (m, PyList items) =>
            Ok (mk_pyheap (put l p (m, PyList (items ++ [v]))) (fresh h) (S (calls h)), true)
        | Some _ => Ok (called h, false)
        | None => UB BadPointer
        end
    end.

(** The value of a key, and the members with another value for it. *)
Fixpoint dict_get (l : list (str * pyid)) (key : str) : option pyid :=
  match l with
  | [] => None
  | (k, v) :: l' => if str_eqb k key then Some v else dict_get l' key
  end.
Fixpoint dict_set (l : list (str * pyid)) (key : str) (v : pyid) : list (str * pyid) :=
  match l with
  | [] => [(key, v)]
  | (k, w) :: l' => if str_eqb k key then (k, v) :: l' else (k, w) :: dict_set l' key v
  end.

Definition PyDict_SetItemString (p : pyid) (key : str) (v : pyid) (h : pyheap) : outcome (pyheap * bool) :=
  if negb (utf8 (c_str key)) || refuses (calls h) then Ok (called h, false)
  else
    match cell (cells h) v with
    | None => UB BadPointer
    | Some (n, d) =>
        let l := put (cells h) v (S n, d) in
        match cell l p with
        | Some (m, PyDict items) =>
            let h' := mk_pyheap (put l p (m, PyDict (dict_set items (c_str key) v))) (fresh h) (S (calls h)) in
            match dict_get items (c_str key) with
            | None => Ok (h', true)
            | Some old => let! h'' := Py_DECREF (Some old) h' in Ok (h'', true)
            end
        | Some _ => Ok (called h, false)
        | None => UB BadPointer
        end
    end.

(** ** pyhext.i *)

(** Within the typemap: an updated heap, and either a value or [None] if
    SWIG_exception has jumped to [fail]. *)
Definition py (A : Type) := pyheap -> outcome (pyheap * option A).

(** A ScopedPyObject (lines 38-47) with its check for null: its destructor runs
    at the end of its scope and when a jump leaves the scope. *)
Definition scoped {A} (make : pyheap -> pyheap * option pyid) (body : pyid -> py A) : py A :=
  fun h =>
    let '(h1, p) := make h in
    let! (h2, r) := match p with
                    | None => Ok (h1, None)          (* if( !value.obj ) SWIG_exception *)
                    | Some x => body x h1
                    end in
    let! h3 := Py_DECREF p h2 in
    Ok (h3, r).

(** A call that returns non-zero on failure. *)
Definition checked (call : pyheap -> outcome (pyheap * bool)) : py unit :=
  fun h => let! (h1, ok) := call h in Ok (h1, if ok then Some tt else None).

Definition py_then {A B} (m : py A) (k : py B) : py B :=
  fun h =>
    let! (h1, r) := m h in
    match r with
    | None => Ok (h1, None)
    | Some _ => k h1
    end.

(** Lines 94-106 *)
Fixpoint py_values (list_obj : pyid) (values : list result_pair) : py unit :=
  match values with
  | [] => fun h => Ok (h, Some tt)
  | (_, value) :: values' =>
      py_then
        (scoped (PyString_FromString value) (fun v => checked (PyList_Append list_obj v)))
        (py_values list_obj values')
  end.

(** Lines 69-115. The iterator is the rest of the sequence. *)
Fixpoint py_members (fuel : nat) (dict : pyid) (m it : ResultMap) : py unit :=
  match it with
  | [] => fun h => Ok (h, Some tt)
  | (name, value) :: it' =>
      match fuel with
      | O => fun _ => OutOfFuel
      | S f =>
          if Nat.ltb (multimap_count m name) 2 then
            py_then
              (scoped (PyString_FromString value) (fun v => checked (PyDict_SetItemString dict name v)))
              (py_members f dict m it')
          else
            let lower := lower_bound m name in
            let upper := upper_bound m name in
            py_then
              (scoped PyList_New (fun list_obj =>
                 py_then (py_values list_obj (range_between lower upper))
                         (checked (PyDict_SetItemString dict name list_obj))))
              (py_members f dict m upper)
      end
  end.

(** Lines 63-120 *)
Fixpoint py_maps (result : pyid) (maps : list ResultMap) : py unit :=
  match maps with
  | [] => fun h => Ok (h, Some tt)
  | m :: maps' =>
      py_then
        (scoped PyDict_New (fun dict =>
           py_then (py_members (length m) dict m m) (checked (PyList_Append result dict))))
        (py_maps result maps')
  end.

(** The typemap, lines 57-121. After a jump to [fail] the wrapper that SWIG
    generates returns null and does nothing else: [$result] is given up. *)
Definition py_convert (maps : list ResultMap) : py pyid :=
  fun h =>
    let '(h1, p) := PyList_New h in
    match p with
    | None => Ok (h1, None)
    | Some result =>
        let! (h2, r) := py_maps result maps h1 in
        Ok (h2, match r with Some _ => Some result | None => None end)
    end.

End API.
