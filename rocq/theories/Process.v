(** Model of htmlext as a process: main from the command line to the exit status
    (htmlext/main.cpp 32-142), with the files it opens and the texts it
    writes, in the order in which it does so (htmlext/htmlext/File.cpp 66-89,
    ErrorOutput.cpp 21-43, ProgramOptions.cpp 108-149, Version.cpp.in 28-39).

    Opening a file may change the world: a pipe that was read is empty.

    Simplifications. A file is read to its end when it is opened. What the loops
    of main.cpp 99-117 write is one event (none if it is nothing), since they do
    nothing else that can be seen. The values of --max-searches and --filter are looked up before these
    loops instead of in them (C56: they are always there). *)

From Coq Require Import Ascii String NArith ZArith Bool List.
From Verif Require Import Base Dom Values Match Rule RuleMatching Parser Convert Cli Program.
Import ListNotations.
Open Scope outcome_scope.

(** What can be seen of a process. *)
Inductive event :=
| Opens (path : str)
| Prints (text : str)      (* to std::cout *)
| Complains (text : str).  (* to std::cerr *)

(** The surroundings of the process, with their state. *)
Record system (World : Type) := mk_system {
  open_at : World -> str -> opened * World;
  (* boost::program_options: the variables for a command line, the text that
     describes the options, the number of --max-searches, the text of
     boost::bad_any_cast *)
  boost_run : bool -> list str -> variables + str;
  boost_text : str;
  boost_number : list str -> N;
  boost_bad_cast : str;
  (* the numbers of the versions of htmlext and of libhext *)
  htmlext_version : str;
  libhext_version : str;
  stdout_tty : bool;
  stderr_tty : bool;
  (* as in [surroundings] *)
  sys_parse : str -> node * nptr;
  sys_regexes : engine;
  sys_writer : bool -> json_value -> str;
  sys_what : exn -> str
}.
Arguments open_at {World} s.
Arguments boost_run {World} s.
Arguments boost_text {World} s.
Arguments boost_number {World} s.
Arguments boost_bad_cast {World} s.
Arguments htmlext_version {World} s.
Arguments libhext_version {World} s.
Arguments stdout_tty {World} s.
Arguments stderr_tty {World} s.
Arguments sys_parse {World} s.
Arguments sys_regexes {World} s.
Arguments sys_writer {World} s.
Arguments sys_what {World} s.

Section Process.
Context {World : Type}.
Variable S0 : system World.

(** The libraries. Files are not read through this record. *)
Definition libraries : surroundings :=
  mk_surroundings (fun _ => inr []) (sys_parse S0) (sys_regexes S0) (sys_writer S0) (sys_what S0).

(** A part of main: its result, the world after it, and what could be seen. *)
Definition seen (A : Type) := outcome (A * World * list event).

(** ReadFileOrThrow, File.cpp 66-89; see Program.v. *)
Fixpoint read_at (fuel : nat) (w : World) (path : str) : seen (str + str) :=
  match fuel with
  | O => OutOfFuel
  | S f =>
      let '(o, w1) := open_at S0 w path in
      match o with
      | OpenFails reason =>
          if str_eqb path (s "-") then
            let! (r, w2, t) := read_at f w1 (s "/dev/stdin") in
            Ok (r, w2, Opens path :: t)
          else Ok (inr (s "cannot access '" ++ path ++ s "': " ++ reason), w1, [Opens path])
      | Opened bytes broken =>
          let file := mk_stream false false in
          let '(text, buffer) := insert_buffer bytes broken (mk_stream false false) in
          if stream_fail file then Ok (inr (s "cannot read '" ++ path ++ s "': "), w1, [Opens path])
          else Ok (inl text, w1, [Opens path])
      end
  end.

(** main.cpp 64-73 *)
Fixpoint load_files_at (fuel : nat) (w : World) (names : list str) : seen (or_error (list rule)) :=
  match names with
  | [] => Ok (inl [], w, [])
  | name :: names' =>
      let! (r, w1, t1) := read_at fuel w name in
      match r with
      | inr msg => Ok (inr (s "Error", msg), w1, t1)
      | inl text =>
          let! x := parse_or_error libraries (s "Error in " ++ name) text in
          match x with
          | inr e => Ok (inr e, w1, t1)
          | inl rule_ =>
              let! (rest, w2, t2) := load_files_at fuel w1 names' in
              Ok (match rest with inl xs => inl (rule_ :: xs) | inr e => inr e end, w2, t1 ++ t2)
          end
      end
  end.

(** main.cpp 88-97 *)
Fixpoint load_html_at (fuel : nat) (w : World) (names : list str) : seen (or_error (list (node * nptr))) :=
  match names with
  | [] => Ok (inl [], w, [])
  | name :: names' =>
      let! (r, w1, t1) := read_at fuel w name in
      match r with
      | inr msg => Ok (inr (s "Error", msg), w1, t1)
      | inl text =>
          let! (rest, w2, t2) := load_html_at fuel w1 names' in
          Ok (match rest with inl xs => inl (sys_parse S0 text :: xs) | inr e => inr e end, w2, t1 ++ t2)
      end
  end.

(** ** The texts *)

(** ErrorOutput::print, ErrorOutput.cpp 30-43; [source]: argv[0], null if argc
    is 0. Inserting a null pointer into a stream is undefined. *)
Definition escape_red : str := "027"%char :: s "[1;31m".
Definition escape_reset : str := "027"%char :: s "[0m".
Definition error_text (source : option str) (title contents : str) : outcome str :=
  match source with
  | None => UB NullDeref
  | Some name =>
      Ok ((if stderr_tty S0 then escape_red else []) ++ name ++ s ": " ++ title ++ s ": " ++
          (if stderr_tty S0 then escape_reset else []) ++ contents ++ newline)
  end.

(** ProgramOptions::print, ProgramOptions.cpp 123-132 *)
Definition help_text (source : option str) : outcome str :=
  match source with
  | None => UB NullDeref
  | Some name =>
      Ok (name ++ s " - Extract structured content from HTML." ++ newline ++ newline ++
          s "Usage:" ++ newline ++ s "  " ++ name ++
          s " [options] <hext-file> <html-file...>" ++ newline ++
          s "      Apply extraction rules from <hext-file> to each" ++ newline ++
          s "      <html-file> and print the captured content as JSON." ++ newline ++ newline ++
          boost_text S0)
  end.

(** PrintVersion, Version.cpp.in 28-39 *)
Definition version_text : str :=
  s "htmlext v" ++ htmlext_version S0 ++ s ", Copyright (C) 2024 Thomas Trapp" ++ newline ++
  s "linked with libhext v" ++ libhext_version S0 ++ newline ++
  s "Released under the Apache License v2" ++ newline ++
  s "Documentation: https://hext.thomastrapp.com" ++ newline.

(** ProgramOptions::get_json_options, ProgramOptions.cpp 134-149 *)
Definition json_options_of (vm : variables) : json_option :=
  mk_json_option
    (po_contains vm (s "pretty") || (negb (po_contains vm (s "compact")) && stdout_tty S0))
    (po_contains vm (s "array")).

(** ** main *)

(** The exit status. *)
Definition EXIT_SUCCESS : nat := 0.
Definition EXIT_FAILURE : nat := 1.

(** The handlers of main.cpp 119-139 and the returns in 71 and 81. *)
Definition give_up (source : option str) (w : World) (t : list event) (e : str * str) : seen nat :=
  let! text := error_text source (fst e) (snd e) in
  Ok (EXIT_FAILURE, w, t ++ [Complains text]).

(** main.cpp 55-118, with the variables [vm]. *)
Definition main_at (fuel : nat) (source : option str) (vm : variables) (w : World) : seen nat :=
  match po_get vm (s "hext"), po_get vm (s "str") with
  | Some hext_filenames, Some hext_inputs =>
      let! (rf, w1, t1) := load_files_at fuel w hext_filenames in
      match rf with
      | inr e => give_up source w1 t1 e
      | inl from_files =>
          let! rs := load_strings libraries hext_inputs in
          match rs with
          | inr e => give_up source w1 t1 e
          | inl from_strings =>
              if po_contains vm (s "lint") then Ok (EXIT_SUCCESS, w1, t1)
              else
                match po_get vm (s "html") with
                | None => give_up source w1 t1 (s "Error", boost_bad_cast S0)
                | Some html_filenames =>
                    let! (rd, w2, t2) := load_html_at fuel w1 html_filenames in
                    match rd, po_get vm (s "max-searches"), po_get vm (s "filter") with
                    | inr e, _, _ => give_up source w2 (t1 ++ t2) e
                    | inl _, None, _ => give_up source w2 (t1 ++ t2) (s "Error", boost_bad_cast S0)
                    | inl docs, Some number, key =>
                        match po_contains vm (s "filter"), key with
                        | true, None | true, Some [] => give_up source w2 (t1 ++ t2) (s "Error", boost_bad_cast S0)
                        | _, _ =>
                            let po := mk_options hext_filenames hext_inputs html_filenames false
                              (if po_contains vm (s "filter") then option_map (hd []) key else None)
                              (boost_number S0 number) (json_options_of vm) in
                            let! (text, e) := print_rules fuel libraries po (from_files ++ from_strings) docs in
                            let t := t1 ++ t2 ++ match text with [] => [] | _ => [Prints text] end in
                            match e with
                            | Some x => give_up source w2 t x
                            | None => Ok (EXIT_SUCCESS, w2, t)
                            end
                        end
                    end
                end
          end
      end
  | _, _ => give_up source w [] (s "Error", boost_bad_cast S0)
  end.

(** main, main.cpp 32-142 *)
Definition process (fuel : nat) (argv : list str) (w : World) : seen nat :=
  let source := hd_error argv in
  match po_store (boost_run S0) argv with
  | inr e =>
      let! text := error_text source (s "Argument error") e in
      match argv with
      | _ :: _ :: _ => Ok (EXIT_FAILURE, w, [Complains text])
      | _ =>
          let! help := help_text source in
          Ok (EXIT_FAILURE, w, [Complains text; Complains newline; Complains help])
      end
  | inl vm =>
      if po_contains vm (s "help") then
        let! help := help_text source in
        Ok (EXIT_SUCCESS, w, [Prints help])
      else if po_contains vm (s "version") then Ok (EXIT_SUCCESS, w, [Prints version_text])
      else main_at fuel source vm w
  end.

End Process.

(** ** The standard output *)

(** std::cout on a device with room for [room] bytes: an insertion writes what
    fits; if that is not everything the stream is bad from then on. (When the
    buffer of the stream is flushed makes no difference to the end.) *)
Record device := mk_device { holds : str; room : nat; bad : bool }.
Definition insert (d : device) (text : str) : device :=
  if bad d then d
  else if Nat.leb (length text) (room d) then mk_device (holds d ++ text) (room d - length text) false
  else mk_device (holds d ++ firstn (room d) text) 0 true.
Fixpoint output (d : device) (t : list event) : device :=
  match t with
  | [] => d
  | Prints text :: t' => output (insert d text) t'
  | _ :: t' => output d t'
  end.
