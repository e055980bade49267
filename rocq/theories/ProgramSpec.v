(** Vocabulary for the statements about the command line program. *)

From Coq Require Import Ascii String NArith ZArith Bool List.
From Verif Require Import Base Dom Values Match Rule RuleMatching ExtractSpec Parser ParserSpec Cli CliSpec BindSpec
  Ownership OwnershipSpec Program.
Import ListNotations.

(** ** Reading a file *)

(** The complete contents of the file, or the reason why there are none. The
    name "-" is the standard input, unless there is a file of this name. *)
Inductive reads (open_path : str -> opened) : str -> str + str -> Prop :=
| read_all path bytes : open_path path = Opened bytes false -> reads open_path path (inl bytes)
| read_denied path reason : path <> s "-" -> open_path path = OpenFails reason ->
    reads open_path path (inr (s "cannot access '" ++ path ++ s "': " ++ reason))
| read_stdin reason r : open_path (s "-") = OpenFails reason -> reads open_path (s "/dev/stdin") r ->
    reads open_path (s "-") r.

(** No file stops being readable while it is read. *)
Definition readable (open_path : str -> opened) : Prop :=
  forall path bytes, open_path path <> Opened bytes true.

(** ** The options *)

(** The contract with boost::program_options for the descriptions in
    ProgramOptions.cpp 29-55: options with a default are always there, and an
    option that takes a value has one if it is given. *)
Definition boost_contract (run : bool -> list str -> variables + str) : Prop :=
  forall positional argv vm, run positional argv = inl vm ->
    (forall key, In key [s "hext"; s "str"; s "max-searches"] -> vm key <> None) /\
    (forall key v, In key [s "hext"; s "str"; s "html"; s "filter"] -> vm key = Some v -> defaulted v = false ->
       values v <> []).

Definition given (vm : variables) (key : str) : Prop :=
  exists v, vm key = Some v /\ defaulted v = false.

(** What boost::program_options does with command lines that consist of short
    flags, possibly several behind one dash, and of file names. *)
Definition flag_name (c : ascii) : option str :=
  match c with
  | "c"%char => Some (s "compact") | "p"%char => Some (s "pretty") | "a"%char => Some (s "array")
  | "l"%char => Some (s "lint") | "h"%char => Some (s "help") | "V"%char => Some (s "version")
  | _ => None
  end.
Definition with_value (vm : variables) (key x : str) : variables := fun k =>
  if str_eqb k key then
    Some (mk_variable (match vm k with Some v => if defaulted v then [x] else values v ++ [x] | None => [x] end) false)
  else vm k.
Definition with_flag (vm : variables) (key : str) : variables := fun k =>
  if str_eqb k key then Some (mk_variable [] false) else vm k.
Definition no_options : variables := fun k =>
  if str_eqb k (s "hext") || str_eqb k (s "str") || str_eqb k (s "max-searches")
  then Some (mk_variable [] true) else None.
Fixpoint take_flags (l : str) (vm : variables) : variables + str :=
  match l with
  | [] => inl vm
  | c :: l' => match flag_name c with
               | Some key => take_flags l' (with_flag vm key)
               | None => inr (s "unrecognised option")
               end
  end.
Fixpoint take_args (positional first : bool) (args : list str) (vm : variables) : variables + str :=
  match args with
  | [] => inl vm
  | ("-"%char :: l) :: args' =>
      match take_flags l vm with
      | inl vm' => take_args positional first args' vm'
      | inr e => inr e
      end
  | name :: args' =>
      if positional then take_args positional false args' (with_value vm (if first then s "hext" else s "html") name)
      else inr (s "too many positional options have been specified on the command line")
  end.
Definition flags_and_files (positional : bool) (argv : list str) : variables + str :=
  take_args positional true (tl argv) no_options.

(** ** The whole program *)

(** The roots of documents are nodes below the document node. *)
Definition proper_documents (W : surroundings) : Prop := forall text, proper_root (gumbo_parse W text).

(** A hext source with an unexpected byte above 127 (C40). *)
Definition strange_source (W : surroundings) (po : options) : Prop :=
  exists text, In (Some text) (hext_sources W po) /\
    exists u c v, lexical_error (c_str text) u c v /\ (128 <= N_of_ascii c < 255)%N.

(** A rule and a document with an overflow in nth-child (C22). *)
Definition overflowing_rule (W : surroundings) (po : options) : Prop :=
  exists source r name doc, In source (hext_sources W po) /\ source_is W source r /\
    In name (html_files po) /\ html_is W name doc /\
    forall size, small_document size (fst doc) -> ~ rule_params_safe size r.

(** Everything can be read and parsed, and no extraction throws. *)
Definition complete (W : surroundings) (po : options) : Prop :=
  exists rules, Forall2 (source_is W) (hext_sources W po) rules /\
    (lint po = true \/
     exists docs, Forall2 (html_is W) (html_files po) docs /\
       forall r doc, In r rules -> In doc docs -> exists result, extracts W po r doc (Ok result)).

(** A hext source, what is read from it, and the title of its syntax errors. *)
Inductive source := FromFile (name : str) | FromString (text : str).
Definition sources (po : options) : list source := map FromFile (hext_files po) ++ map FromString (hext_strings po).
Definition source_title (x : source) : str :=
  match x with FromFile name => s "Error in " ++ name | FromString _ => s "Error in <hext-string>" end.
Definition source_reads (W : surroundings) (x : source) : str + str :=
  match x with FromFile name => read_file W name | FromString text => inl text end.
Definition source_parses (W : surroundings) (x : source) (r : rule) : Prop :=
  exists text, source_reads W x = inl text /\ ParseHext (regexes W) (c_str text) = Ok r.

(** The message for a source that cannot be read or parsed. *)
Inductive source_fails (W : surroundings) (x : source) : str * str -> Prop :=
| unreadable reason : source_reads W x = inr reason -> source_fails W x (s "Error", reason)
| unparsable text message : source_reads W x = inl text -> ParseHext (regexes W) (c_str text) = Throw (SyntaxError message) ->
    source_fails W x (source_title x, c_str message)
| unexpected text e : source_reads W x = inl text -> ParseHext (regexes W) (c_str text) = Throw e ->
    (forall message, e <> SyntaxError message) -> source_fails W x (s "Error", what W e).

(** The first thing that goes wrong, what was printed before, and the message:
    first all sources are read and parsed, then all documents are read, then
    each rule is used on each document. *)
Inductive first_failure (W : surroundings) (po : options) : str -> str * str -> Prop :=
| failing_source before x after rules message :
    sources po = before ++ x :: after -> Forall2 (source_parses W) before rules -> source_fails W x message ->
    first_failure W po [] message
| failing_document rules before name after docs reason :
    lint po = false -> Forall2 (source_parses W) (sources po) rules ->
    html_files po = before ++ name :: after -> Forall2 (html_is W) before docs -> read_file W name = inr reason ->
    first_failure W po [] (s "Error", reason)
| failing_extraction before r after docs1 doc docs2 results row texts e :
    lint po = false -> Forall2 (source_parses W) (sources po) (before ++ r :: after) ->
    Forall2 (html_is W) (html_files po) (docs1 ++ doc :: docs2) ->
    Forall2 (fun r0 => Forall2 (fun d result => extracts W po r0 d (Ok result)) (docs1 ++ doc :: docs2)) before results ->
    Forall2 (fun d result => extracts W po r d (Ok result)) docs1 row ->
    extracts W po r doc (Throw e) -> Forall2 (Forall2 (shown W po)) (results ++ [row]) texts ->
    first_failure W po (concat (concat texts)) (s "Error", what W e).

Inductive program_outcome (W : surroundings) (po : options) : outcome ending -> Prop :=
| program_succeeds text : complete W po -> program_outcome W po (Ok (mk_ending text [] false))
| program_fails text message : ~ complete W po -> first_failure W po text message ->
    program_outcome W po (Ok (mk_ending text [message] true))
| program_strange : strange_source W po -> program_outcome W po (UB BadCtypeArgument)
| program_overflow : lint po = false -> overflowing_rule W po -> program_outcome W po (UB IntOverflow).
