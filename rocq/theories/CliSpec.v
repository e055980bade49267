(** Vocabulary for the statements about the command line tool. *)

From Coq Require Import Ascii String NArith ZArith Bool List.
From Verif Require Import Base Dom Values Match Rule RuleMatching ExtractSpec Parser Convert ConvertSpec Cli.
Import ListNotations.

(** The model's step bound does not matter. *)
Definition main_yields (W : surroundings) (po : options) (o : outcome ending) : Prop :=
  exists f0, forall f, f0 <= f -> main f W po = o.

(** The hext sources that the program reads, in order: a file that cannot be
    read is [None]. *)
Definition hext_sources (W : surroundings) (po : options) : list (option str) :=
  map (fun name => match read_file W name with inl text => Some text | inr _ => None end) (hext_files po)
  ++ map Some (hext_strings po).

(** A source that parses to a rule. *)
Definition source_is (W : surroundings) (source : option str) (r : rule) : Prop :=
  exists text, source = Some text /\ ParseHext (regexes W) (c_str text) = Ok r.

(** The parser returns a rule or throws. *)
Definition parses_defined (W : surroundings) (source : option str) : Prop :=
  forall text, source = Some text ->
    (exists r, ParseHext (regexes W) (c_str text) = Ok r) \/ (exists e, ParseHext (regexes W) (c_str text) = Throw e).

(** An HTML file that can be read, and its document. *)
Definition html_is (W : surroundings) (name : str) (doc : node * nptr) : Prop :=
  exists text, read_file W name = inl text /\ doc = gumbo_parse W text.

(** What a rule extracts from a document. *)
Definition extracts (W : surroundings) (po : options) (r : rule) (doc : node * nptr)
    (o : outcome (list ResultMap)) : Prop :=
  extract_yields (regexes W) r (fst doc) (snd doc) (max_searches_option po) o.

(** What is to be printed for a result: with --filter the values of the key, a
    line each; otherwise the objects, a line each, or one array. *)
Definition lines (values : list str) : str := concat (map (fun v => v ++ newline) values).
Definition shown (W : surroundings) (po : options) (result : list ResultMap) (text : str) : Prop :=
  match filter_key po with
  | Some key => text = lines (concat (map (values_of key) result))
  | None =>
      exists objects, Forall2 converted (map cut_map result) objects /\
        let printed v := c_str (writer W (PrettyPrint (json_options po)) v) in
        if ArrayEnvelope (json_options po)
        then (result <> [] /\ text = lines [printed (JArray objects)]) \/ (result = [] /\ text = [])
        else text = lines (map (fun o => printed (JObject o)) objects)
  end.
