(** C66: no assertion of htmlext fails. *)

From Coq Require Import Ascii String Arith NArith ZArith Bool List Lia.
From Verif Require Import Samples Base Dom Values Rule RuleMatching Parser Convert Cli Program ProgramSpec
  Process ProcessMain Asserts AssertProgram AssertMain.
Import ListNotations.

(** Whatever a failed assertion does, htmlext in a build with assertions does the
    same as in one without, for every command line and every world. The
    conditions are on the libraries: boost::program_options keeps its contract
    (C56) and Gumbo returns a document with a root. *)
Theorem C66_process : forall (abort : forall A : Type, outcome A) World (S0 : system World) f argv w,
  boost_contract (boost_run S0) -> (forall text, snd (sys_parse S0 text) <> None) ->
  process_debug abort S0 f argv w = process S0 f argv w.
Proof. exact @process_no_assertion. Qed.
Print Assumptions C66_process.

(** The conditions hold for the libraries of C74, where rules are loaded and
    results printed. *)
Example C66_process_case : boost_contract (boost_run pipe_system) /\ (forall text, snd (sys_parse pipe_system text) <> None) /\
  forall u, process_debug (fun _ => UB u) pipe_system 100 [s "htmlext"; s "list.hext"; s "-"] (s "<html>") =
    Ok (EXIT_SUCCESS, [], [Opens (s "list.hext"); Opens (s "-"); Opens (s "/dev/stdin"); Prints (s "{}" ++ newline ++ s "{}" ++ newline)]).
Proof. split; [exact named_contract|]. split; [intros [|c text] H; discriminate H|]. intros u. vm_compute. reflexivity. Qed.

(** The assertions can fail: that of main if both lists are empty, that of
    PrintJson for a value that is no object. *)
Definition no_rules : variables := fun key =>
  if str_eqb key (s "hext") || str_eqb key (s "str") then Some (mk_variable [] true) else None.
Example C66_process_fails : forall u f w,
  main_a (fun _ => UB u) pipe_system f None no_rules w = UB u /\
  print_values_a (fun _ => UB u) (fun _ => []) [JObject []; JArray []] = UB u.
Proof. intros u f w. split; reflexivity. Qed.
