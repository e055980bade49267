(** C74: htmlext as a process: what it opens and writes, in which order, and its
    exit status. *)

From Coq Require Import Ascii String Arith NArith ZArith Bool List Lia.
From Verif Require Import Samples Base Dom Values Rule RuleMatching ExtractSpec Parser Convert Cli CliSpec CliProofs BindSpec Program ProgramSpec ProgramProofs
  Process ProcessSpec ProcessProofs ProcessMain.
Import ListNotations.

(** Whatever is on the command line and in the files, also if reading them
    changes the world: the process ends, and it did what is expected; except that
    behaviour is undefined for the reasons of C40 and C22. *)
Theorem C74_outcomes_partial : forall World (S0 : system World) name more w,
  boost_contract (boost_run S0) -> (forall text, proper_root (sys_parse S0 text)) ->
  exists o, eventually (fun f => process S0 f (name :: more) w) o /\
    match o with
    | Ok (status, w', t) => behaves S0 name more w t status w'
    | UB BadCtypeArgument => exists vm po, accepted S0 (name :: more) vm /\ chosen S0 vm po /\ strange_at S0 w (sources po)
    | UB IntOverflow => exists vm po, accepted S0 (name :: more) vm /\ chosen S0 vm po /\ overflow_at S0 po w
    | _ => False
    end.
Proof. exact @process_total. Qed.
Print Assumptions C74_outcomes_partial.

(** With options that are accepted the course of the run is the only one. *)
Theorem C74_run : forall World (S0 : system World) name more vm po w paths text message w', boost_contract (boost_run S0) ->
  accepted S0 (name :: more) vm -> chosen S0 vm po -> course S0 po w paths text message w' ->
  eventually (fun f => process S0 f (name :: more) w) (Ok (run_status message, w', run_events S0 name paths text message)).
Proof. exact @process_runs. Qed.
Print Assumptions C74_run.

(** A hext file, and a document on the standard input, which is used up: *)
Definition list_options : options := mk_options [s "list.hext"] [] [s "-"] false None 0 (mk_json_option false false).
Example C74_run_case : boost_contract (boost_run pipe_system) /\ (forall text, proper_root (sys_parse pipe_system text)) /\
  exists vm, accepted pipe_system [s "htmlext"; s "list.hext"; s "-"] vm /\ chosen pipe_system vm list_options /\
    course pipe_system list_options (s "<html>") [s "list.hext"; s "-"; s "/dev/stdin"] (s "{}" ++ newline ++ s "{}" ++ newline) None [].
Proof.
  split; [exact named_contract|]. split; [exact pipe_proper|]. exists (named_variables [s "htmlext"; s "list.hext"; s "-"]). split; [|split].
  - assert (G : forall key v, named_variables [s "htmlext"; s "list.hext"; s "-"] key = v -> v = None -> ~ given (named_variables [s "htmlext"; s "list.hext"; s "-"]) key).
    { intros key v E ->. intros [x [E' _]]. congruence. }
    split.
    + right. split; [|reflexivity]. split; intros [H|[H|[H|[]]]]; discriminate H.
    + eapply G; reflexivity.
    + eapply G; reflexivity.
    + left. eexists. split; reflexivity.
    + right. eexists. split; reflexivity.
  - exact (options_chosen pipe_system (named_variables [s "htmlext"; s "list.hext"; s "-"]) ltac:(discriminate)).
  - assert (R : exists r result text, ParseHext sample_engine (s "<li id:x/>") = Ok r /\
      extract_yields sample_engine r list_page (Some [0]) 0 (Ok result) /\ shown (libraries pipe_system) list_options result text /\
      text = s "{}" ++ newline ++ s "{}" ++ newline).
    { do 3 eexists. split; [vm_compute; reflexivity|]. split; [run_extract|]. split; [apply print_result_shown; repeat constructor|]. vm_compute. reflexivity. }
    destruct R as [r [result [text [HP [HX [HS HT]]]]]]. rewrite <- HT. clear HT.
    assert (T : concat (concat [[text]]) = text) by (cbn [concat app]; apply app_nil_r). rewrite <- T. clear T.
    apply (course_success pipe_system list_options (s "<html>") [r] [s "list.hext"] (s "<html>") [(list_page, Some [0])] [s "-"; s "/dev/stdin"] [] [[result]]).
    + reflexivity.
    + apply (one_rule pipe_system _ (FromFile (s "list.hext")) (s "<li id:x/>") [s "list.hext"] (s "<html>") r [] [] []); [|exact HP|constructor].
      constructor. eapply reading_bytes. reflexivity.
    + apply (one_document pipe_system _ (s "-") (s "<html>") [s "-"; s "/dev/stdin"] [] [] [] [] []); [|constructor].
      eapply (reading_stdin pipe_system); [reflexivity|]. eapply reading_bytes. reflexivity.
    + repeat constructor. exact HX.
    + constructor; [|constructor]. constructor; [exact HS|constructor].
Qed.

(** "-" for both: the document is empty, and nobody is told. *)
Example C74_twice : process pipe_system 100 [s "htmlext"; s "-"; s "-"] (s "<li id:x/>") =
  Ok (0, [], [Opens (s "-"); Opens (s "/dev/stdin"); Opens (s "-"); Opens (s "/dev/stdin")]).
Proof. vm_compute. reflexivity. Qed.

(** The exit status is 0 or 1, and 1 if and only if there is a message; what is
    opened is opened before anything is printed, and messages come last. *)
Theorem C74_status : forall World (S0 : system World) name more w status w' t,
  boost_contract (boost_run S0) -> (forall text, proper_root (sys_parse S0 text)) ->
  eventually (fun f => process S0 f (name :: more) w) (Ok (status, w', t)) ->
  (status = 0 /\ complaints t = [] \/ status = 1 /\ complaints t <> []) /\ orderly t.
Proof. exact @process_status. Qed.
Print Assumptions C74_status.

(** The inputs are opened in the order in which they are given, the hext files
    first, each at most once; all of them unless there is a message, in which
    case nothing was printed if an input was left out. *)
Theorem C74_inputs : forall World (S0 : system World) name more vm po w status w' t,
  boost_contract (boost_run S0) -> (forall text, proper_root (sys_parse S0 text)) ->
  accepted S0 (name :: more) vm -> chosen S0 vm po ->
  eventually (fun f => process S0 f (name :: more) w) (Ok (status, w', t)) ->
  exists names rest groups, inputs po = names ++ rest /\ Forall2 opening names groups /\ opened_paths t = concat groups /\
    (rest <> [] -> status = 1 /\ printed t = []).
Proof. exact @process_inputs. Qed.
Print Assumptions C74_inputs.

(** If the world does not change, the process writes what the program of C51 and
    C58 writes. *)
Theorem C74_same : forall World (S0 : system World) w W, unchanging S0 w -> surroundings_at S0 w W ->
  forall name more vm po e, boost_contract (boost_run S0) -> accepted S0 (name :: more) vm -> chosen S0 vm po -> main_yields W po (Ok e) ->
  exists t, eventually (fun f => process S0 f (name :: more) w) (Ok ((if failed e then 1 else 0), w, t)) /\
    printed t = out e /\ complaints t = map (message_line S0 name) (err e).
Proof. exact @process_same. Qed.
Print Assumptions C74_same.

Example C74_same_case : unchanging pipe_system [] /\ exists W, surroundings_at pipe_system [] W /\
  read_file W (s "list.hext") = inl (s "<li id:x/>") /\ read_file W (s "-") = inl [].
Proof. exact pipe_unchanging. Qed.

(** What a device of limited size holds afterwards. *)
Theorem C74_written : forall t d, bad d = false ->
  holds (output d t) = holds d ++ firstn (room d) (printed t) /\ (bad (output d t) = true <-> room d < length (printed t)).
Proof. exact output_written. Qed.
Print Assumptions C74_written.

(** Nobody looks at the state of std::cout: the exit status is 0 although not
    everything was written. *)
Theorem C74_lost_refuted : exists World (S0 : system World) argv w w' t d, boost_contract (boost_run S0) /\
  eventually (fun f => process S0 f argv w) (Ok (0, w', t)) /\ bad d = false /\ bad (output d t) = true /\
  holds (output d t) <> holds d ++ printed t.
Proof.
  destruct C74_run_case as [HB [_ [vm [HA [HC H]]]]].
  exists str, pipe_system, [s "htmlext"; s "list.hext"; s "-"], (s "<html>"). do 2 eexists. exists (mk_device [] 4 false).
  split; [exact HB|]. split; [eapply (C74_run _ pipe_system (s "htmlext") _ _ _ _ _ _ None); eassumption|].
  split; [reflexivity|]. split; [vm_compute; reflexivity|]. vm_compute. discriminate.
Qed.
Print Assumptions C74_lost_refuted.

(** Without argv[0] (argc = 0) a null pointer is printed. *)
Theorem C74_no_name_refuted : exists World (S0 : system World) w, boost_contract (boost_run S0) /\ (forall text, proper_root (sys_parse S0 text)) /\
  eventually (fun f => process S0 f [] w) (UB NullDeref).
Proof. exists str, pipe_system, []. split; [exact named_contract|]. split; [exact pipe_proper|]. exists 0. intros f _. reflexivity. Qed.
Print Assumptions C74_no_name_refuted.

Example C74_refused_case : process pipe_system 0 [s "htmlext"; s "list.hext"] (s "<html>") =
  Ok (1, s "<html>", [Complains (s "htmlext: Argument error: missing HTML input, use --html/-i <html-file>" ++ newline)]).
Proof. vm_compute. reflexivity. Qed.
