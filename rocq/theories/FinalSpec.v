(** Errors of longer texts (C89). *)

From Coq Require Import Ascii String NArith List.
From Verif Require Import Base StringUtil GrammarSpec.
Import ListNotations.

(** The text should go on. *)
Inductive wants_more : exn -> Prop :=
| wants_brace loc : wants_more (SyntaxError (s "Unclosed nested rule " ++ loc))
| wants_tag rest : wants_more (SyntaxError (s "Missing closing tag '</" ++ rest))
| wants_text loc : wants_more (SyntaxError (s "Premature termination " ++ loc)).

Definition is_ascii (c : ascii) : Prop := (N_of_ascii c < 128)%N.
(** The last character is a brace. *)
Definition ends_in_brace (x : str) : Prop := exists u, x = u ++ s "{" \/ x = u ++ s "}".
