(** Vocabulary for the statements about the scripts of the bindings. *)

From Coq Require Import Ascii String NArith ZArith Bool List Sorted Permutation.
From Verif Require Import Base Dom Values Match Rule RuleMatching ExtractSpec Convert ConvertSpec Parser Cli CliSpec JsonText JsonSpec Scripts ScriptSpec BindSpec ScriptRun.
Import ListNotations.

(** Texts, one per line; each has a JSON value. *)
Definition prints (output : str) (values : list json) : Prop :=
  exists texts, output = lines texts /\
    Forall2 (fun t v => means t v /\ ~ In "010"%char t) texts values.

(** The decoder of JavaScript leaves UTF-8 as it is. *)
Definition decoder_ok (M : machine) : Prop := forall x, is_utf8 x -> decode M x = x.

(** Two files of UTF-8 that no script reads differently than htmlext. *)
Record plain_files (M : machine) (hext_file html_file text html : str) : Prop := {
  hext_contents : contents M hext_file = Some text;
  html_contents : contents M html_file = Some html;
  hext_utf8 : is_utf8 text;
  html_utf8 : is_utf8 html;
  hext_nul : ~ In "000"%char text;
  hext_cr : ~ In "013"%char text;
  html_cr : ~ In "013"%char html
}.

(** What PHP prints for an object: a list if the names are 0, 1 and so on up to
    at most 9, otherwise the object. *)
Definition php_value (o : object) (v : json) : Prop :=
  ((exists k, map fst o = firstn k one_digit_names) -> v = JList (map (fun kv => member_value (snd kv)) o)) /\
  ((~ exists k, map fst o = firstn k one_digit_names) -> v = object_value o).

(** What JavaScript prints for an object: all members but "__proto__", numbers
    first. *)
Definition js_value_of (o : object) (v : json) : Prop :=
  exists o', v = object_value o' /\ StronglySorted listed_before o' /\
    Permutation o' (filter (fun kv => negb (str_eqb (fst kv) proto)) o).

(** htmlext, called with the same two files, the limit of the scripts and the
    format of their output. *)
Definition tool (M : machine) (unreadable : str -> str) (message : exn -> str) : surroundings :=
  mk_surroundings (fun file => match contents M file with Some x => inl x | None => inr (unreadable file) end)
    (to_document M) (engine_of M) rapidjson message.
Definition tool_options (hext_file html_file : str) : options :=
  mk_options [hext_file] [] [html_file] false None 10000 (mk_json_option false false).

(** All names and values of a map are UTF-8. *)
Definition map_utf8 (m : ResultMap) : Prop := forall kv, In kv m -> is_utf8 (fst kv) /\ is_utf8 (snd kv).

(** How a script may end: with its output, with a message, by an exception of
    its language ([raises]) or of C++, or with undefined behaviour ([crashes]:
    also a null pointer that is used). *)
Inductive script_outcome (E : engine) (raises crashes : Prop) : outcome script_end -> Prop :=
| ends_well output : script_outcome E raises crashes (Ok (Exits output [] 0))
| ends_with_message message : message <> [] -> script_outcome E raises crashes (Ok (Exits [] message 1))
| ends_uncaught output : raises -> script_outcome E raises crashes (Ok (Uncaught output))
| killed_by_number : script_outcome E raises crashes (Ok (Killed StdOutOfRange))
| killed_by_regex : ~ engine_total E -> script_outcome E raises crashes (Ok (Killed RegexRuntimeError))
| undefined_ctype : script_outcome E raises crashes (UB BadCtypeArgument)
| undefined_overflow : script_outcome E raises crashes (UB IntOverflow)
| undefined_null : crashes -> script_outcome E raises crashes (UB NullDeref).

(** A file that is read. *)
Definition readable (M : machine) (file : str) : Prop := contents M file <> None.
Definition readable_utf8 (M : machine) (file : str) : Prop := exists x, contents M file = Some x /\ is_utf8 x.

(** The program and the four scripts end well and print the same values. *)
Definition same_prints (M : machine) (name : str) (args : list str) (unreadable : str -> str) (message : exn -> str)
    (hext_file html_file : str) (objects : list object) : Prop :=
  (exists output, main_yields (tool M unreadable message) (tool_options hext_file html_file) (Ok (mk_ending output [] false)) /\
     prints output (map object_value objects)) /\
  (exists output, eventually (fun f => python_main M name f args) (Ok (Exits output [] 0)) /\ prints output (map object_value objects)) /\
  (exists output, eventually (fun f => ruby_main M name f args) (Ok (Exits output [] 0)) /\ prints output (map object_value objects)) /\
  (exists output values, eventually (fun f => php_main M name f args) (Ok (Exits output [] 0)) /\
     prints output values /\ Forall2 php_value objects values) /\
  (exists output values, eventually (fun f => js_main M name f args) (Ok (Exits output [] 0)) /\
     prints output values /\ Forall2 js_value_of objects values).

(** The code points of a text and those of the same text with LF at the end of
    each line instead of CR LF or CR. *)
Inductive same_lines : list N -> list N -> Prop :=
| no_line : same_lines [] []
| line_crlf x y : same_lines x y -> same_lines (13 :: 10 :: x)%N (10 :: y)%N
| line_cr x y : hd 0%N x <> 10%N -> same_lines x y -> same_lines (13 :: x)%N (10 :: y)%N
| line_char n x y : n <> 13%N -> same_lines x y -> same_lines (n :: x) (n :: y).

(** Two machines with the same Gumbo and regular expressions. *)
Definition same_libraries (M M' : machine) : Prop := to_document M = to_document M' /\ engine_of M = engine_of M'.

(** The one file has LF where the other has CR LF or CR. *)
Definition same_text (M M' : machine) (file file' : str) : Prop :=
  exists x y, Forall scalar x /\ same_lines x y /\
    contents M file = Some (flat_map bytes_of x) /\ contents M' file' = Some (flat_map bytes_of y).
