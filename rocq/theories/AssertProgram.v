(** htmlext in a build with assertions: the functions of Process.v (and of Cli.v
    and Convert.v below it) with the assertions of main.cpp 61 and Json.cpp 77,
    on top of the library with its assertions. *)

From Coq Require Import Ascii String NArith ZArith Bool List.
From Verif Require Import Base Dom Values Match Rule RuleMatching Parser Convert Cli Program Process Asserts.
Import ListNotations.
Open Scope outcome_scope.

Section Debug.
Variable abort : forall A : Type, outcome A.
Context {World : Type}.
Variable S0 : system World.

(** main.cpp 66-72, 77-82 *)
Definition parse_or_error_a (title text : str) : outcome (or_error rule) :=
  match ParseHext_debug abort (sys_regexes S0) (c_str text) with
  | Ok r => Ok (inl r)
  | Throw (SyntaxError msg) => Ok (inr (title, c_str msg))
  | Throw e => Ok (inr (s "Error", sys_what S0 e))
  | UB u => UB u
  | OutOfFuel => OutOfFuel
  end.

(** main.cpp 64-73 *)
Fixpoint load_files_a (fuel : nat) (w : World) (names : list str) : seen (World := World) (or_error (list rule)) :=
  match names with
  | [] => Ok (inl [], w, [])
  | name :: names' =>
      let! (r, w1, t1) := read_at S0 fuel w name in
      match r with
      | inr msg => Ok (inr (s "Error", msg), w1, t1)
      | inl text =>
          let! x := parse_or_error_a (s "Error in " ++ name) text in
          match x with
          | inr e => Ok (inr e, w1, t1)
          | inl rule_ =>
              let! (rest, w2, t2) := load_files_a fuel w1 names' in
              Ok (match rest with inl xs => inl (rule_ :: xs) | inr e => inr e end, w2, t1 ++ t2)
          end
      end
  end.

(** main.cpp 75-83 *)
Fixpoint load_strings_a (texts : list str) : outcome (or_error (list rule)) :=
  match texts with
  | [] => Ok (inl [])
  | text :: texts' =>
      let! r := parse_or_error_a (s "Error in <hext-string>") text in
      match r with
      | inr e => Ok (inr e)
      | inl x =>
          let! rest := load_strings_a texts' in
          Ok (match rest with inl xs => inl (x :: xs) | inr e => inr e end)
      end
  end.

(** Json.cpp 73-80: the document is an array of values; the assertion is that
    each of them is an object. *)
Definition is_object (v : json_value) : bool := match v with JObject _ => true | JArray _ => false end.
Fixpoint print_values_a (print : json_value -> str) (l : list json_value) : outcome str :=
  match l with
  | [] => Ok []
  | v :: l' =>
      check abort (is_object v)
        (let! rest := print_values_a print l' in Ok (print v ++ rest))
  end.

(** PrintJson, Json.cpp 25-82 *)
Definition PrintJson_a (opt : json_option) (result : list ResultMap) : outcome str :=
  let doc := json_array result in
  let print v := c_str (sys_writer S0 (PrettyPrint opt) v) ++ newline in
  if ArrayEnvelope opt then
    Ok (match doc with [] => [] | _ :: _ => print (JArray doc) end)
  else print_values_a print (map JObject doc).

(** main.cpp 105-116 *)
Definition print_result_a (po : options) (result : list ResultMap) : outcome str :=
  match filter_key po with
  | Some key => Ok (print_filtered key result)
  | None => PrintJson_a (json_options po) result
  end.

(** main.cpp 99-117 *)
Fixpoint print_inputs_a (fuel : nat) (po : options) (r : rule) (htmls : list (node * nptr)) : outcome (str * option (str * str)) :=
  match htmls with
  | [] => Ok ([], None)
  | (D, root) :: htmls' =>
      match extract_debug abort fuel (sys_regexes S0) r D root (max_searches_option po) with
      | Ok result =>
          let! text := print_result_a po result in
          let! (rest, e) := print_inputs_a fuel po r htmls' in
          Ok (text ++ rest, e)
      | Throw e => Ok ([], Some (s "Error", sys_what S0 e))
      | UB u => UB u
      | OutOfFuel => OutOfFuel
      end
  end.
Fixpoint print_rules_a (fuel : nat) (po : options) (rules : list rule) (htmls : list (node * nptr)) : outcome (str * option (str * str)) :=
  match rules with
  | [] => Ok ([], None)
  | r :: rules' =>
      let! (text, e) := print_inputs_a fuel po r htmls in
      match e with
      | Some _ => Ok (text, e)
      | None =>
          let! (rest, e') := print_rules_a fuel po rules' htmls in
          Ok (text ++ rest, e')
      end
  end.

(** main.cpp 55-118; line 61: there is a hext file or a hext string. *)
Definition main_a (fuel : nat) (source : option str) (vm : variables) (w : World) : seen (World := World) nat :=
  match po_get vm (s "hext"), po_get vm (s "str") with
  | Some hext_filenames, Some hext_inputs =>
      check abort (Nat.ltb 0 (length hext_filenames + length hext_inputs))
      (let! (rf, w1, t1) := load_files_a fuel w hext_filenames in
      match rf with
      | inr e => give_up S0 source w1 t1 e
      | inl from_files =>
          let! rs := load_strings_a hext_inputs in
          match rs with
          | inr e => give_up S0 source w1 t1 e
          | inl from_strings =>
              if po_contains vm (s "lint") then Ok (EXIT_SUCCESS, w1, t1)
              else
                match po_get vm (s "html") with
                | None => give_up S0 source w1 t1 (s "Error", boost_bad_cast S0)
                | Some html_filenames =>
                    let! (rd, w2, t2) := load_html_at S0 fuel w1 html_filenames in
                    match rd, po_get vm (s "max-searches"), po_get vm (s "filter") with
                    | inr e, _, _ => give_up S0 source w2 (t1 ++ t2) e
                    | inl _, None, _ => give_up S0 source w2 (t1 ++ t2) (s "Error", boost_bad_cast S0)
                    | inl docs, Some number, key =>
                        match po_contains vm (s "filter"), key with
                        | true, None | true, Some [] => give_up S0 source w2 (t1 ++ t2) (s "Error", boost_bad_cast S0)
                        | _, _ =>
                            let po := mk_options hext_filenames hext_inputs html_filenames false
                              (if po_contains vm (s "filter") then option_map (hd []) key else None)
                              (boost_number S0 number) (json_options_of S0 vm) in
                            let! (text, e) := print_rules_a fuel po (from_files ++ from_strings) docs in
                            let t := t1 ++ t2 ++ match text with [] => [] | _ => [Prints text] end in
                            match e with
                            | Some x => give_up S0 source w2 t x
                            | None => Ok (EXIT_SUCCESS, w2, t)
                            end
                        end
                    end
                end
          end
      end)
  | _, _ => give_up S0 source w [] (s "Error", boost_bad_cast S0)
  end.

(** main, main.cpp 32-142 *)
Definition process_debug (fuel : nat) (argv : list str) (w : World) : seen (World := World) nat :=
  let source := hd_error argv in
  match po_store (boost_run S0) argv with
  | inr e =>
      let! text := error_text S0 source (s "Argument error") e in
      match argv with
      | _ :: _ :: _ => Ok (EXIT_FAILURE, w, [Complains text])
      | _ =>
          let! help := help_text S0 source in
          Ok (EXIT_FAILURE, w, [Complains text; Complains newline; Complains help])
      end
  | inl vm =>
      if po_contains vm (s "help") then
        let! help := help_text S0 source in
        Ok (EXIT_SUCCESS, w, [Prints help])
      else if po_contains vm (s "version") then Ok (EXIT_SUCCESS, w, [Prints (version_text S0)])
      else main_a fuel source vm w
  end.

End Debug.
