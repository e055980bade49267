(** Vocabulary for the statements about the maps of script languages. *)

From Coq Require Import Ascii String NArith ZArith Bool List Sorted Permutation.
From Verif Require Import Base Match RuleMatching TextSpec ExtractSpec Convert ConvertSpec Scripts.
Import ListNotations.

(** The name of the accessor that all objects of JavaScript have. *)
Definition proto : str := s "__proto__".

(** A map without the values of a name. *)
Definition without (name : str) (m : ResultMap) : ResultMap :=
  filter (fun x => negb (str_eqb (fst x) name)) m.

(** A name that is an array index of JavaScript. *)
Definition is_index (name : str) (n : N) : Prop := decimal_of n name /\ (n < 4294967295)%N.

(** The order in which JavaScript lists properties: numbers first. *)
Definition listed_before (a b : str * member) : Prop :=
  (exists i j, is_index (fst a) i /\ is_index (fst b) j /\ (i < j)%N) \/
  ((exists i, is_index (fst a) i) /\ forall j, ~ is_index (fst b) j) \/
  ((forall i, ~ is_index (fst a) i) /\ (forall j, ~ is_index (fst b) j) /\ str_ltb (fst a) (fst b) = true).

(** The names that are integers to PHP. *)
Inductive php_integer : str -> Z -> Prop :=
| php_natural x n : decimal_of n x -> (Z.of_N n <= 9223372036854775807)%Z -> php_integer x (Z.of_N n)
| php_negative x n : decimal_of n x -> (0 < n)%N -> (Z.of_N n <= 9223372036854775808)%Z ->
    php_integer ("-"%char :: x) (- Z.of_N n).

(** A key stands for a name. *)
Definition key_of (name : str) (k : php_key) : Prop :=
  match k with
  | PhpInt n => php_integer name n
  | PhpString x => x = name /\ forall n, ~ php_integer name n
  end.

(** The names 0 to k-1. *)
Definition one_digit_names : list str := map (fun c => [c]) (s "0123456789").
Definition names_of (m : ResultMap) (names : list str) : Prop :=
  forall name, In name names <-> exists value, In (name, value) m.
