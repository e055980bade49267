(** Common vocabulary of the model: byte strings, C strings, outcomes. *)

From Coq Require Import Ascii String NArith ZArith Bool List.
Import ListNotations.

(** A [std::string], [std::string_view] or byte buffer: any list of bytes. *)
Definition str := list ascii.

(** String literals of the C++ source. *)
Definition s (x : string) : str := list_ascii_of_string x.

Definition NUL : ascii := "000"%char.

Fixpoint str_eqb (a b : str) : bool :=
  match a, b with
  | [], [] => true
  | x :: a', y :: b' => Ascii.eqb x y && str_eqb a' b'
  | _, _ => false
  end.

(** Passing a [std::string] to a function that takes [const char*] cuts it at
    the first NUL byte ([std::string::c_str], [std::strlen]). *)
Fixpoint c_str (x : str) : str :=
  match x with
  | [] => []
  | c :: x' => if Ascii.eqb c NUL then [] else c :: c_str x'
  end.

(** Exceptions that leave a modelled function. *)
Inductive exn : Type :=
| MaxSearchError            (* libhext/include/hext/MaxSearchError.h *)
| SyntaxError (msg : str)   (* libhext/include/hext/SyntaxError.h *)
| StdOutOfRange             (* std::out_of_range, thrown by std::stoi *)
| RegexRuntimeError         (* std::runtime_error, thrown by boost::regex_search *)
| UserException.            (* thrown by a user supplied std::function *)

(** Kinds of undefined behaviour that the model distinguishes. *)
Inductive ub : Type :=
| NullDeref                 (* dereferencing a null pointer *)
| BadPointer                (* dereferencing a pointer to no object *)
| OutOfBounds               (* reading or writing outside of an array *)
| IntOverflow               (* signed integer overflow *)
| EmptyContainer            (* back() on an empty vector *)
| EmptyOptional             (* operator* on an empty std::optional *)
| BadCtypeArgument          (* <cctype> function on a negative char *)
| DoubleFree.               (* destroying the same object twice *)

(** The outcome of running a piece of C++. [OutOfFuel] is not an outcome of
    the program: it marks that the model's step bound was too small. *)
Inductive outcome (A : Type) : Type :=
| Ok (a : A)
| Throw (e : exn)
| UB (u : ub)
| OutOfFuel.
Arguments Ok {A}. Arguments Throw {A}. Arguments UB {A}. Arguments OutOfFuel {A}.

Definition obind {A B} (m : outcome A) (f : A -> outcome B) : outcome B :=
  match m with
  | Ok a => f a
  | Throw e => Throw e
  | UB u => UB u
  | OutOfFuel => OutOfFuel
  end.

Declare Scope outcome_scope.
Delimit Scope outcome_scope with outcome.
Notation "'let!' x ':=' m 'in' f" := (obind m (fun x => f))
  (at level 200, x pattern, m at level 100, f at level 200, right associativity)
  : outcome_scope.

(** The range of C++ [int] on the supported platforms (32 bit). *)
Definition INT_MAX : Z := 2147483647.
Definition INT_MIN : Z := (-2147483648)%Z.
Definition fits_int (z : Z) : bool := (INT_MIN <=? z)%Z && (z <=? INT_MAX)%Z.

(** The result of a signed [int] operation: overflow is undefined. *)
Definition int_op (z : Z) : outcome Z := if fits_int z then Ok z else UB IntOverflow.

(** The range of C++ [unsigned int]: arithmetic wraps around. *)
Definition UINT_MOD : Z := 4294967296.

(** ASCII case mapping, as [std::tolower]/[std::toupper] in the "C" locale. *)
Definition to_lower (c : ascii) : ascii :=
  let n := N_of_ascii c in
  if (65 <=? n)%N && (n <=? 90)%N then ascii_of_N (n + 32) else c.
Definition to_upper (c : ascii) : ascii :=
  let n := N_of_ascii c in
  if (97 <=? n)%N && (n <=? 122)%N then ascii_of_N (n - 32) else c.

Definition str_lower (x : str) : str := map to_lower x.
Definition str_upper (x : str) : str := map to_upper x.

(** Equality ignoring ASCII case ([strcasecmp] in the "C" locale). *)
Definition str_eqb_nocase (a b : str) : bool := str_eqb (str_lower a) (str_lower b).
