(** How the outcomes of ParseHext with a signed and with an unsigned [char]
    are related (C93). *)

From Coq Require Import Ascii String NArith ZArith Bool List.
From Verif Require Import Base Parser Grammar GrammarSpec TextSpec ParserSpec.
Import ListNotations.

Definition unexpected_text (d loc : str) : str :=
  s "Unexpected character '[ascii: " ++ d ++ s "]' " ++ loc.

(** First the outcome with a signed, then that with an unsigned [char]. *)
Inductive with_unsigned {T} (x : str) : outcome T -> outcome T -> Prop :=
| no_difference o : (forall u, o <> UB u) -> with_unsigned x o o
(* the first character that does not continue a text is above 127 *)
| high_byte u c v d before line loc :
    lexical_error x u c v -> (128 <= N_of_ascii c < 255)%N -> decimal_of (N_of_ascii c) d ->
    last_line u before line -> location_message before line (c :: v) 1 loc ->
    with_unsigned x (UB BadCtypeArgument) (Throw (SyntaxError (unexpected_text d loc)))
(* it is 255, which is EOF where char is signed *)
| last_byte u v before line loc :
    lexical_error x u "255" v ->
    last_line u before line -> location_message before line ("255"%char :: v) 1 loc ->
    with_unsigned x (Throw (SyntaxError (unexpected_text (s "-1") loc))) (Throw (SyntaxError (unexpected_text (s "255") loc))).
