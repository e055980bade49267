(** What a reader sees of an error message (C94): what() is a C string. *)

From Coq Require Import Ascii String NArith ZArith Bool List.
From Verif Require Import Base Values Match SyntaxSpec TextSpec.
Import ListNotations.

(** Where an error is. *)
Inductive position : str -> Prop :=
| position_end : position (s "at end of input")
| position_char l c line column : decimal_of (N.of_nat l + 1) line -> decimal_of (N.of_nat c + 1) column ->
    position (s "at line " ++ line ++ s ", char " ++ column).

(** One line that says what is wrong, and where. *)
Definition headline (x : str) : Prop :=
  ~ In newline x /\ exists what place, what <> [] /\ position place /\ x = what ++ s " " ++ place ++ s ":".

(** The regex library does not put NUL bytes into its messages. *)
Definition plain_reasons (E : engine) : Prop := forall rx reason, eng_compile E rx = Some reason -> ~ In NUL reason.
