(** What the outcome of ParseHext may be (C37 - C40). *)

From Coq Require Import Ascii String NArith ZArith Bool List.
From Verif Require Import Base StringUtil Parser Grammar GrammarSpec TextSpec.
Import ListNotations.

(** ** Numbers *)

Definition is_digit (c : ascii) : Prop := (48 <= N_of_ascii c <= 57)%N.
Definition digit_value (c : ascii) : Z := Z.of_N (N_of_ascii c) - 48.
(** The value of a string of digits. *)
Definition number_value (x : str) : Z := fold_left (fun v c => 10 * v + digit_value c)%Z x 0%Z.

(** The input has a number that does not fit an int. *)
Definition has_big_number (x : str) : Prop :=
  exists a ds b, x = a ++ ds ++ b /\ ds <> [] /\ Forall is_digit ds /\ (INT_MAX < number_value ds)%Z.

(** ** Errors *)

(** [x] stops being the beginning of a text at [c], after [u]. *)
Definition lexical_error (x u : str) (c : ascii) (v : str) : Prop :=
  x = u ++ c :: v /\ prefix_of G u /\ ~ prefix_of G (u ++ [c]).

(** [x] is the beginning of a text, but not a text. *)
Definition incomplete (x : str) : Prop := prefix_of G x /\ ~ text_of G x.

(** Where an error message says the error is: [mark] characters that end with
    the last character of [u], and the message is about this place. *)
Definition points_at (x u : str) (mark : nat) (loc : str) : Prop :=
  exists before line c, u = before ++ line ++ [c] /\ c <> newline /\
    last_line (before ++ line) before line /\
    exists v, x = u ++ v /\ location_message before line (c :: v) mark loc.

(** Messages about the input up to and including [u]. *)
Inductive complaint (x u : str) : str -> Prop :=
| bad_regex loc a d rx error :
    (* [d]: the delimiter; [rx]: the rest of the regex, with its flags *)
    u = a ++ d :: rx -> In d ["/"; "'"; quote]%char -> points_at x u (length (d :: rx)) loc ->
    complaint x u (s "In regular expression " ++ loc ++ [newline] ++ s "Error: " ++ error)
| bad_tag loc a name expected :
    u = a ++ s "</" ++ name -> name <> [] -> points_at x u (length (s "</" ++ name)) loc ->
    complaint x u (s "Unexpected closing tag '</" ++ name ++ s ">'" ++ expected ++ s " " ++ loc)
| bad_nesting loc msg :
    In msg [s "Nested rules must have a parent"; s "Closing nested rule without open"; s "Nested rules cannot be empty"] ->
    points_at x u 1 loc ->
    complaint x u (msg ++ s " " ++ loc).

(** How messages name a character. *)
Inductive character_name : ascii -> str -> Prop :=
| name_newline : character_name "010" (s "[newline]")
| name_tab : character_name "009" (s "[tab]")
| name_return : character_name "013" (s "[carriage-return]")
| name_space : character_name " " (s "[space]")
| name_null : character_name "000" (s "[nullbyte]")
| name_printable c : (32 < N_of_ascii c < 127)%N -> character_name c [c]
| name_control c d : (N_of_ascii c < 32 \/ N_of_ascii c = 127)%N -> ~ In c ["010"; "009"; "013"; "000"]%char ->
    decimal_of (N_of_ascii c) d -> character_name c (s "[ascii: " ++ d ++ s "]")
| name_last : character_name "255" (s "[ascii: -1]").

(** The outcomes of ParseHext. *)
Inductive parse_outcome {T} (x : str) : outcome T -> Prop :=
| parsed r : text_of G x -> parse_outcome x (Ok r)
(* an element, a brace or a regex, after the part [u] of the text *)
| complained u v m : x = u ++ v -> prefix_of G u -> complaint x u m -> parse_outcome x (Throw (SyntaxError m))
(* the first character that does not continue a text *)
| unexpected u c v name before line loc :
    lexical_error x u c v -> character_name c name ->
    last_line u before line -> location_message before line (c :: v) 1 loc ->
    parse_outcome x (Throw (SyntaxError (s "Unexpected character '" ++ name ++ s "' " ++ loc)))
| unexpected_high u c v : lexical_error x u c v -> (128 <= N_of_ascii c < 255)%N -> parse_outcome x (UB BadCtypeArgument)
| premature before line loc :
    incomplete x -> last_line x before line -> location_message before line [] 1 loc ->
    parse_outcome x (Throw (SyntaxError (s "Premature termination " ++ loc)))
| unclosed u c before line loc :
    text_of G x -> x = u ++ [c] -> last_line u before line -> location_message before line [c] 1 loc ->
    parse_outcome x (Throw (SyntaxError (s "Unclosed nested rule " ++ loc)))
| missing_tag name before line loc :
    text_of G x -> last_line x before line -> location_message before line [] 0 loc ->
    parse_outcome x (Throw (SyntaxError (s "Missing closing tag '</" ++ name ++ s ">' " ++ loc)))
| number_too_big : has_big_number x -> parse_outcome x (Throw StdOutOfRange).
