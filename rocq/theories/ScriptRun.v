(** Model of the programs htmlext.py, htmlext.rb, htmlext.php and htmlext.js in
    libhext/bindings. *)

From Coq Require Import Ascii String NArith ZArith Bool List.
From Verif Require Import Base StringUtil Dom Values Match Rule RuleMatching Parser Convert Bindings Scripts PyRefs JsonText.
Import ListNotations.
Open Scope outcome_scope.

(** ** The libraries for JSON (external, from their documentation) *)

(** json.dumps with ensure_ascii=False, JSON.stringify and to_json escape what
    rapidjson escapes, but write small digits. *)
Definition low_hex (n : N) : ascii :=
  if (n <? 10)%N then ascii_of_N (48 + n) else ascii_of_N (87 + n).
Definition low_escape (c : ascii) : str :=
  let n := N_of_ascii c in
  if Ascii.eqb c dquote then s "\" ++ [dquote]
  else if Ascii.eqb c "\"%char then s "\\"
  else if (n =? 8)%N then s "\b"
  else if (n =? 9)%N then s "\t"
  else if (n =? 10)%N then s "\n"
  else if (n =? 12)%N then s "\f"
  else if (n =? 13)%N then s "\r"
  else if (n <? 32)%N then s "\u00" ++ [low_hex (n / 16); low_hex (n mod 16)]
  else [c].
Definition low_quote (x : str) : str := [dquote] ++ concat (map low_escape x) ++ [dquote].

(** json_encode with JSON_UNESCAPED_SLASHES and JSON_UNESCAPED_UNICODE does so
    too, but escapes U+2028 and U+2029 (E2 80 A8 and E2 80 A9). *)
Definition byte (n : N) (c : ascii) : bool := N.eqb (N_of_ascii c) n.
Fixpoint php_chars (x : str) : str :=
  match x with
  | [] => []
  | c :: x1 =>
      match x1 with
      | c1 :: c2 :: x3 =>
          if byte 226 c && byte 128 c1 && byte 168 c2 then s "\u2028" ++ php_chars x3
          else if byte 226 c && byte 128 c1 && byte 169 c2 then s "\u2029" ++ php_chars x3
          else low_escape c ++ php_chars x1
      | _ => low_escape c ++ php_chars x1
      end
  end.
Definition php_quote (x : str) : str := [dquote] ++ php_chars x ++ [dquote].

(** Values without blanks. *)
Fixpoint joined (texts : list str) : str :=
  match texts with
  | [] => []
  | [t] => t
  | t :: texts' => t ++ s "," ++ joined texts'
  end.
Definition compact_member (quote : str -> str) (m : member) : str :=
  match m with
  | One v => quote v
  | Many vs => s "[" ++ joined (map quote vs) ++ s "]"
  end.
Definition compact_object (quote : str -> str) (o : object) : str :=
  s "{" ++ joined (map (fun kv => quote (fst kv) ++ s ":" ++ compact_member quote (snd kv)) o) ++ s "}".
Definition compact_list (quote : str -> str) (l : list member) : str :=
  s "[" ++ joined (map (compact_member quote) l) ++ s "]".

(** ** The surroundings *)

(** The contents of a file, if it can be read; Gumbo; boost::regex; and the
    decoder of JavaScript, which replaces what is not UTF-8. *)
Record machine := mk_machine {
  contents : str -> option str;
  to_document : str -> node * nptr;
  engine_of : engine;
  decode : str -> str
}.

(** How a script ends: by itself, with its output, its messages and its status;
    by an exception that it does not catch, which the interpreter reports; or by
    a C++ exception, which ends the interpreter. *)
Inductive script_end : Type :=
| Exits (output errors : str) (status : nat)
| Uncaught (output : str)
| Killed (e : exn).

Definition usage (name : str) : str :=
  s "Usage: " ++ name ++ s " <file-hext> <file-html>" ++ newline ++
  s "  Applies Hext from <file-hext> to the HTML document in <file-html>" ++ newline ++
  s "  and prints the result as JSON, one object per line." ++ newline.

(** htmlext.py 22-30, htmlext.rb 19-27, htmlext.php 20-32, htmlext.js 38-52.
    [name] is the name of the script. *)
Definition with_arguments (name : str) (args : list str) (run : str -> str -> outcome script_end) : outcome script_end :=
  match args with
  | [] => Ok (Exits (usage name) [] 0)
  | [_] => Ok (Exits [] (name ++ s ": Error: missing arguments" ++ newline) 1)
  | hext_file :: html_file :: _ => run hext_file html_file
  end.

(** The handlers of the two try blocks. *)
Definition in_file (name file message : str) : str :=
  name ++ s ": In '" ++ file ++ s "': " ++ message ++ newline.

Section Run.
Variable M : machine.
Variable name : str.

(** Constructing a rule and extracting with it, as Python, Ruby and PHP do. *)
Definition swig_script (fuel : nat) (hext_file text html : str) (limit : N)
    (print : list ResultMap -> outcome script_end) : outcome script_end :=
  let! r := swig_new_rule (engine_of M) text in
  match r with
  | Bindings.Raises _ m => Ok (Exits [] (in_file name hext_file m) 1)
  | Escapes e => Ok (Killed e)
  | Returns R =>
      let! x := swig_extract (engine_of M) fuel R (to_document M html) limit in
      match x with
      | Bindings.Raises _ m => Ok (Exits [] (in_file name hext_file m) 1)
      | Escapes e => Ok (Killed e)
      | Returns result => print result
      end
  end.

(** *** htmlext.py *)

(** open(...).read(): text mode decodes UTF-8 (the encoding of the locale; an
    exception if it is not) and makes newlines of CR and CR LF. *)
Fixpoint universal_newlines (after_cr : bool) (x : str) : str :=
  match x with
  | [] => []
  | c :: x' =>
      if byte 13 c then newline ++ universal_newlines true x'
      else if byte 10 c && after_cr then universal_newlines false x'
      else c :: universal_newlines false x'
  end.
Definition python_read (file : str) : option str :=
  match contents M file with
  | Some x => if utf8 x then Some (universal_newlines false x) else None
  | None => None
  end.

(** What json.dumps gets to see. Anything else than strings, lists of strings
    and dicts of these is left out (there is nothing else, see C53). *)
Definition py_text (h : pyheap) (x : pyid) : list str :=
  match cell (cells h) x with Some (_, PyStr v) => [v] | _ => [] end.
Definition py_value (h : pyheap) (x : pyid) : list member :=
  match cell (cells h) x with
  | Some (_, PyStr v) => [One v]
  | Some (_, PyList ids) => [Many (flat_map (py_text h) ids)]
  | _ => []
  end.
Definition py_object (h : pyheap) (x : pyid) : list object :=
  match cell (cells h) x with
  | Some (_, PyDict l) => [flat_map (fun kv => map (fun v => (fst kv, v)) (py_value h (snd kv))) l]
  | _ => []
  end.
Definition py_objects (h : pyheap) (x : pyid) : list object :=
  match cell (cells h) x with Some (_, PyList ids) => flat_map (py_object h) ids | _ => [] end.

(** sort_keys=True: code points are ordered as the bytes of UTF-8 are. *)
Fixpoint insert_key (x : str * member) (o : object) : object :=
  match o with
  | [] => [x]
  | y :: o' => if str_ltb (fst x) (fst y) then x :: o else y :: insert_key x o'
  end.
Definition sort_keys (o : object) : object := fold_left (fun l x => insert_key x l) o [].

(** Lines 33-53. The API of Python does not fail. An exception of the typemap is
    a RuntimeError (pyhext.i 57-121). *)
Definition python_main (fuel : nat) (args : list str) : outcome script_end :=
  with_arguments name args (fun hext_file html_file =>
    match python_read hext_file, python_read html_file with
    | Some text, Some html =>
        swig_script fuel hext_file text html 10000 (fun result =>
          let! (h, r) := py_convert (fun _ => false) result py_start in
          match r with
          | Some x =>
              Ok (Exits (concat (map (fun o => compact_object low_quote (sort_keys o) ++ newline) (py_objects h x))) [] 0)
          | None => Ok (Exits [] (in_file name hext_file (s "PyDict_SetItemString returned != 0")) 1)
          end)
    | _, _ => Ok (Uncaught [])
    end).

(** *** htmlext.rb *)

Definition member_texts (m : member) : list str := match m with One v => [v] | Many vs => vs end.
Definition object_texts (o : object) : list str := flat_map (fun kv => fst kv :: member_texts (snd kv)) o.

(** Lines 47-49: to_json raises an exception if a string is not UTF-8; the lines
    before have been printed. *)
Fixpoint ruby_print (output : str) (result : list ResultMap) : outcome script_end :=
  match result with
  | [] => Ok (Exits output [] 0)
  | m :: result' =>
      let! o := convert_map ruby_handover m in
      if forallb utf8 (object_texts o)
      then ruby_print (output ++ compact_object low_quote o ++ newline) result'
      else Ok (Uncaught output)
  end.
(** Lines 29-45: File.read does not change anything, and no limit is given. *)
Definition ruby_main (fuel : nat) (args : list str) : outcome script_end :=
  with_arguments name args (fun hext_file html_file =>
    match contents M hext_file, contents M html_file with
    | Some text, Some html => swig_script fuel hext_file text html 0 (ruby_print [])
    | _, _ => Ok (Uncaught [])
    end).

(** *** htmlext.php *)

Definition cannot_access (file : str) : str := name ++ s ": Error: cannot access '" ++ file ++ s "'" ++ newline.

(** The name that json_encode writes for a key. *)
Definition key_name (k : php_key) : str :=
  match k with
  | PhpString x => x
  | PhpInt n => if (n <? 0)%Z then s "-" ++ decimal (Z.to_N (- n)) else decimal (Z.to_N n)
  end.
(** json_encode returns false if a string is not UTF-8; false is printed as
    nothing. *)
Definition php_json (a : php_array) : str :=
  let o := map (fun kv => (key_name (fst kv), snd kv)) a in
  if forallb utf8 (object_texts o) then
    if encoded_as_list a then compact_list php_quote (map snd a) else compact_object php_quote o
  else [].
Fixpoint php_print (output : str) (result : list ResultMap) : outcome script_end :=
  match result with
  | [] => Ok (Exits output [] 0)
  | m :: result' => let! a := php_map m in php_print (output ++ php_json a ++ newline) result'
  end.
(** Lines 34-69 *)
Definition php_main (fuel : nat) (args : list str) : outcome script_end :=
  with_arguments name args (fun hext_file html_file =>
    match contents M hext_file, contents M html_file with
    | Some text, Some html => swig_script fuel hext_file text html 10000 (php_print [])
    | None, _ => Ok (Exits [] (cannot_access hext_file) 1)
    | Some _, None => Ok (Exits [] (cannot_access html_file) 1)
    end).

(** *** htmlext.js *)

(** Rule::extract as in Bindings.v ([node_run_on], [node_run]), with the objects
    of Scripts.v. The strings of the result are decoded. *)
Definition js_handover : handover := mk_handover (decode M) (decode M) (decode M).
Definition js_decoded (m : ResultMap) : outcome js_object :=
  script_loop js_set js_handover (length m) m m (mk_js [] None).
Fixpoint js_print (output : str) (result : list ResultMap) : outcome script_end :=
  match result with
  | [] => Ok (Exits output [] 0)
  | m :: result' =>
      let! o := js_decoded m in
      js_print (output ++ compact_object low_quote (own_properties o) ++ newline) result'
  end.
Definition in_js_file (file message : str) : str := name ++ s ": In " ++ file ++ s ": " ++ message ++ newline.
Definition js_extract (fuel : nat) (hext_file : str) (R : rule) (doc : node * nptr) (limit : N) : outcome script_end :=
  match snd doc with
  | None => Ok (Exits [] (in_js_file hext_file (s "Internal Error: html_ is uninitialized")) 1)
  | Some _ =>
      match extract fuel (engine_of M) R (fst doc) (snd doc) limit with
      | Ok result => js_print [] result
      | Throw MaxSearchError => Ok (Exits [] (in_js_file hext_file (s "Error: " ++ limit_text)) 1)
      | Throw e => Ok (Killed e)
      | UB u => UB u
      | OutOfFuel => OutOfFuel
      end
  end.
(** Lines 54-81 *)
Definition js_main (fuel : nat) (args : list str) : outcome script_end :=
  with_arguments name args (fun hext_file html_file =>
    match contents M hext_file, contents M html_file with
    | Some text, Some html =>
        let! r := node_new_rule (engine_of M) [JsString (decode M text)] in
        match r with
        | Bindings.Raises _ m => Ok (Exits [] (in_js_file hext_file m) 1)
        | Escapes e => Ok (Killed e)
        | Returns R =>
            js_extract fuel hext_file R (to_document M (decode M html)) (node_max_searches (Some (JsFinite 10000 0)))
        end
    | _, _ => Ok (Uncaught [])
    end).

End Run.
