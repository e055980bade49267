(** What the process htmlext is expected to do: what it opens and writes, in
    which order, and its exit status. *)

From Coq Require Import Ascii String NArith ZArith Bool List.
From Verif Require Import Base Dom Values Match Rule RuleMatching ExtractSpec Parser ParserSpec Convert Cli CliSpec BindSpec Program ProgramSpec Process.
Import ListNotations.

Section Expected.
Context {World : Type}.
Variable S0 : system World.

(** ** The inputs *)

(** Reading the input [name] in a world: its bytes or the reason why there are
    none, the paths that are opened, and the world afterwards. "-" is the
    standard input, unless there is a file of this name. A read error ends the
    bytes (C55). *)
Inductive reading : World -> str -> str + str -> list str -> World -> Prop :=
| reading_bytes w name bytes broken w' : open_at S0 w name = (Opened bytes broken, w') ->
    reading w name (inl bytes) [name] w'
| reading_denied w name reason w' : name <> s "-" -> open_at S0 w name = (OpenFails reason, w') ->
    reading w name (inr (s "cannot access '" ++ name ++ s "': " ++ reason)) [name] w'
| reading_stdin w reason w1 r paths w2 : open_at S0 w (s "-") = (OpenFails reason, w1) ->
    reading w1 (s "/dev/stdin") r paths w2 -> reading w (s "-") r (s "-" :: paths) w2.

(** The text of a source; nothing is opened for a text of the command line. *)
Inductive source_text : World -> source -> str + str -> list str -> World -> Prop :=
| text_of_file w name r paths w' : reading w name r paths w' -> source_text w (FromFile name) r paths w'
| text_of_string w text : source_text w (FromString text) (inl text) [] w.

(** The rules of sources that are read and parsed one after the other. *)
Inductive rules_of : World -> list source -> list rule -> list str -> World -> Prop :=
| no_rules w : rules_of w [] [] [] w
| one_rule w x text paths w1 r l rs paths' w2 : source_text w x (inl text) paths w1 ->
    ParseHext (sys_regexes S0) (c_str text) = Ok r -> rules_of w1 l rs paths' w2 ->
    rules_of w (x :: l) (r :: rs) (paths ++ paths') w2.

(** The message for a source that cannot be read or parsed. *)
Inductive source_bad : World -> source -> str * str -> list str -> World -> Prop :=
| bad_reading w x reason paths w' : source_text w x (inr reason) paths w' -> source_bad w x (s "Error", reason) paths w'
| bad_syntax w x text message paths w' : source_text w x (inl text) paths w' ->
    ParseHext (sys_regexes S0) (c_str text) = Throw (SyntaxError message) -> source_bad w x (source_title x, c_str message) paths w'
| bad_number w x text e paths w' : source_text w x (inl text) paths w' ->
    ParseHext (sys_regexes S0) (c_str text) = Throw e -> (forall message, e <> SyntaxError message) ->
    source_bad w x (s "Error", sys_what S0 e) paths w'.

(** A source with an unexpected byte above 127 (C40), after sources that are all
    right. *)
Definition strange_at (w : World) (l : list source) : Prop :=
  exists before x after rs p w1 text p' w2, l = before ++ x :: after /\ rules_of w before rs p w1 /\
    source_text w1 x (inl text) p' w2 /\ ParseHext (sys_regexes S0) (c_str text) = UB BadCtypeArgument /\
    exists u c v, lexical_error (c_str text) u c v /\ (128 <= N_of_ascii c < 255)%N.

(** The documents of files that are read one after the other. *)
Inductive documents_of : World -> list str -> list (node * nptr) -> list str -> World -> Prop :=
| no_documents w : documents_of w [] [] [] w
| one_document w name text paths w1 l docs paths' w2 : reading w name (inl text) paths w1 ->
    documents_of w1 l docs paths' w2 -> documents_of w (name :: l) (sys_parse S0 text :: docs) (paths ++ paths') w2.

(** ** The run with valid options *)

(** The paths that are opened, what is printed, and the message, if any. *)
Inductive course (po : options) : World -> list str -> str -> option (str * str) -> World -> Prop :=
| course_source w before x after rules message paths w1 paths' w2 : sources po = before ++ x :: after ->
    rules_of w before rules paths w1 -> source_bad w1 x message paths' w2 ->
    course po w (paths ++ paths') [] (Some message) w2
| course_lint w rules paths w1 : lint po = true -> rules_of w (sources po) rules paths w1 -> course po w paths [] None w1
| course_document w rules paths w1 before name after docs paths' w2 reason paths'' w3 : lint po = false ->
    rules_of w (sources po) rules paths w1 -> html_files po = before ++ name :: after ->
    documents_of w1 before docs paths' w2 -> reading w2 name (inr reason) paths'' w3 ->
    course po w (paths ++ paths' ++ paths'') [] (Some (s "Error", reason)) w3
| course_extraction w before r after paths w1 docs1 doc docs2 paths' w2 results row texts e : lint po = false ->
    rules_of w (sources po) (before ++ r :: after) paths w1 -> documents_of w1 (html_files po) (docs1 ++ doc :: docs2) paths' w2 ->
    Forall2 (fun r0 => Forall2 (fun d result => extracts (libraries S0) po r0 d (Ok result)) (docs1 ++ doc :: docs2)) before results ->
    Forall2 (fun d result => extracts (libraries S0) po r d (Ok result)) docs1 row ->
    extracts (libraries S0) po r doc (Throw e) -> Forall2 (Forall2 (shown (libraries S0) po)) (results ++ [row]) texts ->
    course po w (paths ++ paths') (concat (concat texts)) (Some (s "Error", sys_what S0 e)) w2
| course_success w rules paths w1 docs paths' w2 results texts : lint po = false ->
    rules_of w (sources po) rules paths w1 -> documents_of w1 (html_files po) docs paths' w2 ->
    Forall2 (fun r => Forall2 (fun d result => extracts (libraries S0) po r d (Ok result)) docs) rules results ->
    Forall2 (Forall2 (shown (libraries S0) po)) results texts ->
    course po w (paths ++ paths') (concat (concat texts)) None w2.

(** A rule and a document with an overflow in nth-child (C22). *)
Definition overflow_at (po : options) (w : World) : Prop :=
  exists rules paths w1 docs paths' w2 r doc, lint po = false /\ rules_of w (sources po) rules paths w1 /\
    documents_of w1 (html_files po) docs paths' w2 /\ In r rules /\ In doc docs /\
    forall size, small_document size (fst doc) -> ~ rule_params_safe size r.

(** ** The options *)

(** The variables that boost::program_options finds; with the word -l or --lint
    without positional options. *)
Definition found (argv : list str) (r : variables + str) : Prop :=
  (In (s "-l") argv \/ In (s "--lint") argv) /\ boost_run S0 false argv = r \/
  (~ In (s "-l") argv /\ ~ In (s "--lint") argv) /\ boost_run S0 true argv = r.

(** What is wrong with the options. *)
Inductive refused (argv : list str) : str -> Prop :=
| refused_by_boost e : found argv (inr e) -> refused argv e
| refused_no_hext vm : found argv (inl vm) -> ~ given vm (s "help") -> ~ given vm (s "version") ->
    ~ given vm (s "hext") -> ~ given vm (s "str") ->
    refused argv (s "missing Hext input, use --hext/-x <file> or --str/-s <string>")
| refused_no_html vm : found argv (inl vm) -> ~ given vm (s "help") -> ~ given vm (s "version") ->
    given vm (s "hext") \/ given vm (s "str") -> ~ given vm (s "lint") -> ~ given vm (s "html") ->
    refused argv (s "missing HTML input, use --html/-i <html-file>").

Inductive accepted (argv : list str) (vm : variables) : Prop :=
| accepted_input : found argv (inl vm) -> ~ given vm (s "help") -> ~ given vm (s "version") ->
    given vm (s "hext") \/ given vm (s "str") -> given vm (s "lint") \/ given vm (s "html") -> accepted argv vm.

(** The options that the variables stand for. *)
Definition all_values (vm : variables) (key : str) : list str :=
  match vm key with Some v => values v | None => [] end.
Record chosen (vm : variables) (po : options) : Prop := {
  chosen_files : hext_files po = all_values vm (s "hext");
  chosen_strings : hext_strings po = all_values vm (s "str");
  chosen_html : html_files po = all_values vm (s "html");
  chosen_lint : lint po = true <-> given vm (s "lint");
  chosen_filter : forall key, filter_key po = Some key <-> given vm (s "filter") /\ exists l, all_values vm (s "filter") = key :: l;
  chosen_number : max_searches_option po = boost_number S0 (all_values vm (s "max-searches"));
  chosen_array : ArrayEnvelope (json_options po) = true <-> given vm (s "array");
  chosen_pretty : PrettyPrint (json_options po) = true <->
    given vm (s "pretty") \/ (~ given vm (s "compact") /\ stdout_tty S0 = true)
}.

(** ** The process *)

(** The line for a message; red on a terminal. *)
Definition message_line (name : str) (message : str * str) : str :=
  let red := "027"%char :: s "[1;31m" in
  let normal := "027"%char :: s "[0m" in
  if stderr_tty S0 then red ++ name ++ s ": " ++ fst message ++ s ": " ++ normal ++ snd message ++ newline
  else name ++ s ": " ++ fst message ++ s ": " ++ snd message ++ newline.

(** The parts of the help text: it names the program and describes the options. *)
Definition is_help (name text : str) : Prop :=
  exists middle, text = name ++ middle ++ boost_text S0.
Definition is_version (text : str) : Prop :=
  exists x y z, text = s "htmlext v" ++ htmlext_version S0 ++ x ++ libhext_version S0 ++ y ++ newline ++ z.

(** The events and the status of a run with valid options. *)
Definition run_events (name : str) (paths : list str) (text : str) (message : option (str * str)) : list event :=
  map Opens paths ++ match text with [] => [] | _ => [Prints text] end ++
  match message with Some m => [Complains (message_line name m)] | None => [] end.
Definition run_status (message : option (str * str)) : nat := match message with Some _ => 1 | None => 0 end.

(** Everything that is opened is opened before anything is printed, which is
    before a message; the status tells whether there is a message. *)
Inductive behaves (name : str) (more : list str) : World -> list event -> nat -> World -> Prop :=
| behaves_refused w e help : refused (name :: more) e -> more <> [] \/ is_help name help ->
    behaves name more w
      (Complains (message_line name (s "Argument error", e)) ::
       match more with [] => [Complains newline; Complains help] | _ => [] end) 1 w
| behaves_help w vm help : found (name :: more) (inl vm) -> given vm (s "help") -> is_help name help ->
    behaves name more w [Prints help] 0 w
| behaves_version w vm text : found (name :: more) (inl vm) -> ~ given vm (s "help") -> given vm (s "version") -> is_version text ->
    behaves name more w [Prints text] 0 w
| behaves_run w vm po paths text message w' : accepted (name :: more) vm -> chosen vm po -> course po w paths text message w' ->
    behaves name more w (run_events name paths text message) (run_status message) w'.

(** If opening files does not change the world: the surroundings of C51 and
    C58. *)
Definition unchanging (w : World) : Prop := forall path, snd (open_at S0 w path) = w.
Definition surroundings_at (w : World) (W : surroundings) : Prop :=
  (forall name r paths w', reading w name r paths w' -> read_file W name = r) /\
  gumbo_parse W = sys_parse S0 /\ regexes W = sys_regexes S0 /\ writer W = sys_writer S0 /\ what W = sys_what S0.

End Expected.

(** ** What can be seen *)

Definition printed (t : list event) : str := concat (map (fun e => match e with Prints text => text | _ => [] end) t).
Definition complaints (t : list event) : list str := concat (map (fun e => match e with Complains text => [text] | _ => [] end) t).
Definition opened_paths (t : list event) : list str := concat (map (fun e => match e with Opens path => [path] | _ => [] end) t).

(** What is opened is opened before anything is printed, and a message is the
    last thing. *)
Definition orderly (t : list event) : Prop :=
  exists paths texts messages, t = map Opens paths ++ map Prints texts ++ map Complains messages.

(** The inputs in the order in which they are wanted. *)
Definition inputs (po : options) : list str := hext_files po ++ (if lint po then [] else html_files po).
(** What is opened for an input. *)
Inductive opening : str -> list str -> Prop :=
| opening_path name : opening name [name]
| opening_stdin : opening (s "-") [s "-"; s "/dev/stdin"].
