(** Readable descriptions of what the string helpers, value tests and pipes
    compute. *)

From Coq Require Import Ascii String NArith ZArith Bool List.
From Verif Require Import Base.
Import ListNotations.

(** The characters that HTML (and IsSpace) count as white space: blank, tab,
    newline, form feed, carriage return. *)
Definition blank (c : ascii) : Prop :=
  In c [" "%char; "009"%char; "010"%char; "012"%char; "013"%char].

(** [words_of x ws]: [ws] are the maximal blank-free pieces of [x], in order. *)
Inductive words_of : str -> list str -> Prop :=
| words_none g : Forall blank g -> words_of g []
| words_cons g w rest ws :
    Forall blank g ->
    w <> [] -> Forall (fun c => ~ blank c) w ->
    rest = [] \/ (exists c rest', rest = c :: rest' /\ blank c) ->
    words_of rest ws ->
    words_of (g ++ w ++ rest) (w :: ws).

(** The words, separated by single blanks. *)
Fixpoint join_words (ws : list str) : str :=
  match ws with
  | [] => []
  | [w] => w
  | w :: ws' => w ++ [" "%char] ++ join_words ws'
  end.

(** ** Substrings *)

Definition starts_with (lit x : str) : Prop := exists rest, x = lit ++ rest.
Definition ends_with (lit x : str) : Prop := exists before, x = before ++ lit.
Definition occurs_in (lit x : str) : Prop := exists before rest, x = before ++ lit ++ rest.

(** [w] stands in [x] between blanks (0x20) or the ends of [x]. *)
Definition word_in (w x : str) : Prop :=
  exists before rest, x = before ++ w ++ rest /\
    (before = [] \/ exists b, before = b ++ [" "%char]) /\
    (rest = [] \/ exists r, rest = " "%char :: r).

(** [y] is [x] without the longest prefix and suffix made of characters of
    [chars]. *)
Definition trimmed (chars x y : str) : Prop :=
  exists a b, x = a ++ y ++ b /\
    Forall (fun c => In c chars) a /\ Forall (fun c => In c chars) b /\
    (y = [] /\ b = [] \/
     (exists c y', y = c :: y' /\ ~ In c chars) /\ (exists y' c, y = y' ++ [c] /\ ~ In c chars)).

(** Letters of the alphabet and their counterparts. *)
Definition lower_letters : str := list_ascii_of_string "abcdefghijklmnopqrstuvwxyz".
Definition upper_letters : str := list_ascii_of_string "ABCDEFGHIJKLMNOPQRSTUVWXYZ".

(** [d] is [c], or its counterpart in [to] if [c] is in [from]. *)
Definition letter_mapped (from to : str) (c d : ascii) : Prop :=
  (exists k, nth_error from k = Some c /\ nth_error to k = Some d) \/ (~ In c from /\ d = c).

(** Equal up to the case of letters. *)
Definition same_letter (c d : ascii) : Prop :=
  c = d \/ (exists k, nth_error lower_letters k = Some c /\ nth_error upper_letters k = Some d) \/
  (exists k, nth_error upper_letters k = Some c /\ nth_error lower_letters k = Some d).
Definition equal_ignoring_case (a b : str) : Prop := Forall2 same_letter a b.

(** [runs_of sep x ws]: [ws] are the maximal pieces of [x] without separators,
    in order. *)
Inductive runs_of (sep : ascii) : str -> list str -> Prop :=
| runs_none g : Forall (eq sep) g -> runs_of sep g []
| runs_cons g w rest ws :
    Forall (eq sep) g ->
    w <> [] -> ~ In sep w ->
    rest = [] \/ (exists rest', rest = sep :: rest') ->
    runs_of sep rest ws ->
    runs_of sep (g ++ w ++ rest) (w :: ws).
