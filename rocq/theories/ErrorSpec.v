(** Which error a text has (C71). *)

From Coq Require Import Ascii String NArith ZArith Bool List.
From Verif Require Import Base StringUtil Tags Values Match Rule Grammar GrammarSpec SyntaxSpec TextSpec ParserSpec StringSpec.
Import ListNotations.

(** What is open after some tokens, innermost first: elements, and braces with
    or without a complete element in them. *)
Inductive opening := InElement (name : str) | InBraces (filled : bool).
Definition filled (l : list opening) : list opening :=
  match l with InBraces _ :: l' => InBraces true :: l' | _ => l end.

Inductive leaves_open : list token -> list opening -> Prop :=
| open_nothing : leaves_open [] []
| open_blank us l t : leaves_open us l -> is_blank t -> leaves_open (us ++ [t]) l
| open_closed us l h : leaves_open us l -> leaves_open (us ++ [TOpen h true]) (filled l)
| open_element us l h : leaves_open us l -> leaves_open (us ++ [TOpen h false]) (InElement (h_name h) :: l)
| open_close us l x name : leaves_open us (InElement x :: l) -> closes x name -> leaves_open (us ++ [TClose name]) (filled l)
| open_begin us l x : leaves_open us (InElement x :: l) -> leaves_open (us ++ [TBegin]) (InBraces false :: InElement x :: l)
| open_end us l : leaves_open us (InBraces true :: l) -> leaves_open (us ++ [TEnd]) l.

(** ** Regexes and numbers *)

(** The parts of a token in the order of the text: numbers with their signs,
    regexes, the ends of patterns, and other text. *)
Inductive tpart :=
| PText (x : str)
| PNumber (sign ds : str)
| PRegex (r : regex_lit)
| PEnd.
Definition part_text (p : tpart) : str :=
  match p with PText x => x | PNumber sign ds => sign ++ ds | PRegex r => regex_text r | PEnd => [] end.
Definition parts_text (l : list tpart) : str := flat_map part_text l.

Definition nth_parts (n : nth_lit) : list tpart :=
  match n with
  | NthEven | NthOdd => [PText (nth_text n)]
  | NthNumber m ds => [PNumber (minus_text m) ds]
  | NthStep m ds => [PNumber (minus_text m) ds; PText (s "n")]
  | NthStepShift m ds m' ds' => [PNumber (minus_text m) ds; PText (s "n"); PNumber (sign_text m') ds']
  end.
Definition trait_parts (t : trait) : list tpart :=
  match t with
  | TrChildCount ds => [PText (s ":child-count("); PNumber [] ds; PText (s ")")]
  | TrAttributeCount ds => [PText (s ":attribute-count("); PNumber [] ds; PText (s ")")]
  | TrNth true false n => PText (s ":nth-child(") :: nth_parts n ++ [PText (s ")")]
  | TrNth false false n => PText (s ":nth-last-child(") :: nth_parts n ++ [PText (s ")")]
  | TrNth true true n => PText (s ":nth-of-type(") :: nth_parts n ++ [PText (s ")")]
  | TrNth false true n => PText (s ":nth-last-of-type(") :: nth_parts n ++ [PText (s ")")]
  | TrTypeMatches r => [PText (s ":type-matches("); PRegex r; PText (s ")")]
  | _ => [PText (trait_text t)]
  end.
Definition condition_parts (c : condition) : list tpart :=
  match c with
  | Is t => trait_parts t
  | IsNot t ts => PText (s ":not(") :: trait_parts t ++ flat_map trait_parts ts ++ [PText (s ")")]
  end.
Definition pipe_parts (p : pipe_lit) : list tpart :=
  match p with
  | PlFilter r => [PText (s ":filter("); PRegex r; PText (s ")")]
  | PlReplace r sp sp' q => [PText (s ":replace("); PRegex r; PText (sp ++ s "," ++ sp' ++ quoted_text q ++ s ")")]
  | _ => [PText (pipe_text p)]
  end.
Definition test_parts (v : value_test) : list tpart :=
  match v with VRegex r => [PText (s "=~"); PRegex r] | _ => [PText (value_test_text v)] end.
Definition pattern_parts (p : pattern) : list tpart :=
  match p with
  | PBuiltinCapture b ps n => PText (builtin_text b) :: flat_map pipe_parts ps ++ [PText (s ":" ++ cap_name_text n); PEnd]
  | PBuiltinMatch b v ng => PText (builtin_text b) :: test_parts v ++ [PText (negation_text ng); PEnd]
  | PAttrCapture a ps n o => PText a :: flat_map pipe_parts ps ++ [PText (s ":" ++ cap_name_text n ++ optional_text o); PEnd]
  | PAttrMatch a v ng => PText a :: test_parts v ++ [PText (negation_text ng); PEnd]
  | PAttr a ng => [PText (a ++ negation_text ng); PEnd]
  end.
Definition head_parts (h : head) : list tpart :=
  PText (s "<" ++ map option_text (h_options h) ++ h_name h) :: flat_map condition_parts (h_conditions h) ++
  flat_map (fun sp => PText (fst sp) :: pattern_parts (snd sp)) (h_patterns h) ++ [PText (h_space h)].
Definition token_parts (t : token) : list tpart :=
  match t with
  | TOpen h closed => head_parts h ++ [PText (if closed then s "/>" else s ">")]
  | _ => [PText (token_text t)]
  end.

(** The flags in force after some parts. *)
Definition flags_then (fl : flags) (p : tpart) : flags :=
  match p with PRegex r => fold_left add_flag (rl_flags r) fl | PEnd => no_flags | _ => fl end.
(** Numbers must fit an int, regexes must be accepted by the regex library. *)
Definition number_of (sign ds : str) : Z := if str_eqb sign (s "-") then - number_value ds else number_value ds.
Definition regex_of (fl : flags) (r : regex_lit) : regex :=
  let fl' := fold_left add_flag (rl_flags r) fl in mk_regex (rl_body r) (f_icase fl') (f_collate fl').
Definition part_fits (E : engine) (fl : flags) (p : tpart) : Prop :=
  match p with
  | PNumber sign ds => fits_int (number_of sign ds) = true
  | PRegex r => eng_compile E (regex_of fl r) = None
  | _ => True
  end.
Fixpoint fits (E : engine) (fl : flags) (l : list tpart) : Prop :=
  match l with [] => True | p :: l' => part_fits E fl p /\ fits E (flags_then fl p) l' end.

Definition all_parts (ts : list token) : list tpart := flat_map token_parts ts.
Definition acceptable (E : engine) (ts : list token) : Prop := fits E no_flags (all_parts ts).
Definition heads (ts : list token) : list head := flat_map (fun t => match t with TOpen h _ => [h] | _ => [] end) ts.

(** ** Messages *)

(** Messages show standard tags in lower case, as the HTML library spells them,
    and other names as they were written. *)
Definition displayed (x y : str) : Prop :=
  (standard_tag x -> In y tag_names /\ equal_ignoring_case y x) /\ (~ standard_tag x -> y = x).

Inductive expectation : list opening -> str -> Prop :=
| expects_close x y l : displayed x y -> expectation (InElement x :: l) (s ", expected '</" ++ y ++ s ">'")
| expects_nothing l : (forall x l', l <> InElement x :: l') -> expectation l [].

(** [fault us l t msg mark]: [t] must not follow [us], which leaves [l] open. The
    message is [msg]; it points at [mark] characters. *)
Inductive fault (us : list token) (l : list opening) : token -> str -> nat -> Prop :=
| fault_close name e :
    (forall x l', l = InElement x :: l' -> ~ closes x name) -> expectation l e ->
    fault us l (TClose name) (s "Unexpected closing tag '</" ++ name ++ s ">'" ++ e) (length (s "</" ++ name))
| fault_begin : (forall x l', l <> InElement x :: l') ->
    fault us l TBegin (s "Nested rules must have a parent") 1
| fault_end_inside x l' : l = InElement x :: l' ->
    fault us l TEnd (s "Closing nested rule without open") 1
| fault_end_outside : l = [] -> heads us <> [] ->
    fault us l TEnd (s "Closing nested rule without open") 1
| fault_end_first : l = [] -> heads us = [] ->
    fault us l TEnd (s "Nested rules cannot be empty") 1
| fault_end_empty l' : l = InBraces false :: l' ->
    fault us l TEnd (s "Nested rules cannot be empty") 1.

(** A closing tag is rejected when its name is complete. *)
Definition faulty_text (t : token) : str := match t with TClose name => s "</" ++ name | _ => token_text t end.

(** ** What is wrong with a text *)

(** [x] begins with [u], which is a beginning of the tokens [us], [t] and others;
    and [x] goes on as they do, for one character, or ends as they do. *)
Definition reads (x : str) (us : list token) (t : token) (u : str) : Prop :=
  exists ts v y, Forall token_ok (us ++ t :: ts) /\ tokens_text (us ++ t :: ts) = u ++ y /\ x = u ++ v /\ firstn 1 v = firstn 1 y.

(** Something in the text is wrong although each character is as expected; what
    comes before it is fine. *)
Inductive complains (E : engine) (x : str) : exn -> Prop :=
(* a token that is out of place *)
| complains_token us l t msg mark loc :
    acceptable E us -> leaves_open us l -> fault us l t msg mark ->
    let u := tokens_text us ++ faulty_text t in
    reads x us t u -> points_at x u mark loc ->
    complains E x (SyntaxError (msg ++ s " " ++ loc))
(* a regex *)
| complains_regex us l t ps r ps' error loc :
    acceptable E us -> leaves_open us l -> token_parts t = ps ++ PRegex r :: ps' ->
    let before := all_parts us ++ ps in
    fits E no_flags before -> eng_compile E (regex_of (fold_left flags_then before no_flags) r) = Some error ->
    let u := parts_text before ++ regex_text r in
    reads x us t u -> points_at x u (length (regex_text r)) loc ->
    complains E x (SyntaxError (s "In regular expression " ++ loc ++ [newline] ++ s "Error: " ++ error))
(* a number *)
| complains_number us l t ps sign ds ps' :
    acceptable E us -> leaves_open us l -> token_parts t = ps ++ PNumber sign ds :: ps' ->
    let before := all_parts us ++ ps in
    fits E no_flags before -> fits_int (number_of sign ds) = false ->
    reads x us t (parts_text before ++ sign ++ ds) ->
    complains E x StdOutOfRange.

(** The end of the text. *)
Definition at_last (x loc : str) : Prop :=
  exists u c before line, x = u ++ [c] /\ last_line u before line /\ location_message before line [c] 1 loc.
Definition at_end (x loc : str) : Prop :=
  exists before line, last_line x before line /\ location_message before line [] 0 loc.

(** What is wrong with a text without a wrong token. *)
Inductive unfinished (x : str) : list opening -> str -> Prop :=
| unfinished_braces l b loc : In (InBraces b) l -> at_last x loc ->
    unfinished x l (s "Unclosed nested rule " ++ loc)
| unfinished_element name l y loc : (forall b, ~ In (InBraces b) l) -> displayed name y -> at_end x loc ->
    unfinished x (InElement name :: l) (s "Missing closing tag '</" ++ y ++ s ">' " ++ loc).

(** The reasons to reject a text. *)
Inductive rejected (E : engine) (x : str) : exn -> Prop :=
| rejected_complaint e : complains E x e -> rejected E x e
| rejected_unfinished ts l m :
    Forall token_ok ts -> acceptable E ts -> leaves_open ts l -> x = tokens_text ts -> unfinished x l m ->
    rejected E x (SyntaxError m)
| rejected_character u c v name before line loc :
    (forall e, ~ complains E x e) ->
    lexical_error x u c v -> character_name c name -> last_line u before line -> location_message before line (c :: v) 1 loc ->
    rejected E x (SyntaxError (s "Unexpected character '" ++ name ++ s "' " ++ loc))
| rejected_incomplete before line loc :
    (forall e, ~ complains E x e) ->
    incomplete x -> last_line x before line -> location_message before line [] 1 loc ->
    rejected E x (SyntaxError (s "Premature termination " ++ loc)).

(** The unexpected character of [x] is outside of ASCII, and not the last byte
    value. The code asks isprint() about it, which is not allowed. *)
Definition unnamed_character (x : str) : Prop :=
  exists u c v, lexical_error x u c v /\ (128 <= N_of_ascii c < 255)%N.
