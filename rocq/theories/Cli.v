(** Model of the command line tool, htmlext/main.cpp. *)

From Coq Require Import Ascii String NArith ZArith Bool List.
From Verif Require Import Base Dom Values Match Rule RuleMatching Parser Convert.
Import ListNotations.
Open Scope outcome_scope.

(** The surroundings of the program. [read_file] is htmlext::ReadFileOrThrow
    (File.cpp 66-89): the contents or the text of the FileError. [gumbo_parse]
    is the document that Gumbo builds for a buffer and its root element
    (Html.cpp 23-48; the root is null if there is no output). [what] is the
    text of an exception that the library throws. *)
Record surroundings := mk_surroundings {
  read_file : str -> str + str;
  gumbo_parse : str -> node * nptr;
  regexes : engine;
  writer : bool -> json_value -> str;
  what : exn -> str
}.

(** The options after ProgramOptions::store_and_validate_or_throw (external:
    boost::program_options), without --help and --version. *)
Record options := mk_options {
  hext_files : list str;
  hext_strings : list str;
  html_files : list str;
  lint : bool;
  filter_key : option str;
  max_searches_option : N;
  json_options : json_option
}.

(** How the program ends: what it wrote to the standard output, the messages
    (title and contents) that it wrote to the standard error, and whether the
    exit status is EXIT_FAILURE. *)
Record ending := mk_ending { out : str; err : list (str * str); failed : bool }.

(** Either a value or a message that ends the program. *)
Definition or_error (A : Type) := (A + (str * str))%type.

(** ParseHext within the try blocks of main.cpp 66-72, 77-82 and the outer
    one, 37-139. *)
Definition parse_or_error (W : surroundings) (title text : str) : outcome (or_error rule) :=
  match ParseHext (regexes W) (c_str text) with
  | Ok r => Ok (inl r)
  | Throw (SyntaxError msg) => Ok (inr (title, c_str msg))
  | Throw e => Ok (inr (s "Error", what W e))
  | UB u => UB u
  | OutOfFuel => OutOfFuel
  end.

(** main.cpp 64-73 *)
Fixpoint load_files (W : surroundings) (names : list str) : outcome (or_error (list rule)) :=
  match names with
  | [] => Ok (inl [])
  | name :: names' =>
      match read_file W name with
      | inr msg => Ok (inr (s "Error", msg))
      | inl text =>
          let! r := parse_or_error W (s "Error in " ++ name) text in
          match r with
          | inr e => Ok (inr e)
          | inl x =>
              let! rest := load_files W names' in
              Ok (match rest with inl xs => inl (x :: xs) | inr e => inr e end)
          end
      end
  end.

(** main.cpp 75-83 *)
Fixpoint load_strings (W : surroundings) (texts : list str) : outcome (or_error (list rule)) :=
  match texts with
  | [] => Ok (inl [])
  | text :: texts' =>
      let! r := parse_or_error W (s "Error in <hext-string>") text in
      match r with
      | inr e => Ok (inr e)
      | inl x =>
          let! rest := load_strings W texts' in
          Ok (match rest with inl xs => inl (x :: xs) | inr e => inr e end)
      end
  end.

(** main.cpp 88-97 *)
Fixpoint load_html (W : surroundings) (names : list str) : or_error (list (node * nptr)) :=
  match names with
  | [] => inl []
  | name :: names' =>
      match read_file W name with
      | inr msg => inr (s "Error", msg)
      | inl text =>
          match load_html W names' with
          | inl xs => inl (gumbo_parse W text :: xs)
          | inr e => inr e
          end
      end
  end.

(** main.cpp 105-112: printing with --filter. *)
Definition print_filtered (key : str) (result : list ResultMap) : str :=
  concat (map (fun group =>
    concat (map (fun p => if str_eqb (fst p) key then snd p ++ newline else []) group)) result).

(** main.cpp 105-116 *)
Definition print_result (W : surroundings) (po : options) (result : list ResultMap) : str :=
  match filter_key po with
  | Some key => print_filtered key result
  | None => PrintJson (writer W) (json_options po) result
  end.

(** The loops of main.cpp 99-117 for one rule. The second component is the
    message of an exception. *)
Fixpoint print_inputs (fuel : nat) (W : surroundings) (po : options) (r : rule)
    (htmls : list (node * nptr)) : outcome (str * option (str * str)) :=
  match htmls with
  | [] => Ok ([], None)
  | (D, root) :: htmls' =>
      match extract fuel (regexes W) r D root (max_searches_option po) with
      | Ok result =>
          let! (rest, e) := print_inputs fuel W po r htmls' in
          Ok (print_result W po result ++ rest, e)
      | Throw e => Ok ([], Some (s "Error", what W e))
      | UB u => UB u
      | OutOfFuel => OutOfFuel
      end
  end.
Fixpoint print_rules (fuel : nat) (W : surroundings) (po : options) (rules : list rule)
    (htmls : list (node * nptr)) : outcome (str * option (str * str)) :=
  match rules with
  | [] => Ok ([], None)
  | r :: rules' =>
      let! (text, e) := print_inputs fuel W po r htmls in
      match e with
      | Some _ => Ok (text, e)
      | None =>
          let! (rest, e') := print_rules fuel W po rules' htmls in
          Ok (text ++ rest, e')
      end
  end.

Definition failure (text : str) (e : str * str) : ending := mk_ending text [e] true.

(** main, main.cpp 32-142 *)
Definition main (fuel : nat) (W : surroundings) (po : options) : outcome ending :=
  let! rf := load_files W (hext_files po) in
  match rf with
  | inr e => Ok (failure [] e)
  | inl from_files =>
      let! rs := load_strings W (hext_strings po) in
      match rs with
      | inr e => Ok (failure [] e)
      | inl from_strings =>
          if lint po then Ok (mk_ending [] [] false)
          else
            match load_html W (html_files po) with
            | inr e => Ok (failure [] e)
            | inl htmls =>
                let! (text, e) := print_rules fuel W po (from_files ++ from_strings) htmls in
                Ok (match e with Some x => failure text x | None => mk_ending text [] false end)
            end
      end
  end.
