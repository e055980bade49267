(** C55 - C58: the command line program. *)

From Coq Require Import Ascii String NArith ZArith Bool List Lia.
From Verif Require Import Samples Base Dom Values Rule Parser Convert Cli CliSpec BindSpec Ownership OwnershipSpec Program ProgramSpec ProgramProofs.
Import ListNotations.

(** ** C55 *)

(** As stated it does not hold: if reading fails after the file was opened (a
    directory, a disk error), what was read so far counts as the contents. The
    second test in ReadFileOrThrow looks at a stream whose state the insertion
    cannot have changed. *)
Theorem C55_read_error_refuted : exists open_path path, open_path path = Opened [] true /\
  eventually (fun f => ReadFileOrThrow f open_path path) (Ok (inl [])) /\ ~ reads open_path path (inl []).
Proof.
  exists (fun _ => Opened [] true), (s "directory/"). split; [reflexivity|]. split.
  - exists 1. intros [|f] Hf; [lia|reflexivity].
  - intros H. inversion H; discriminate.
Qed.
Print Assumptions C55_read_error_refuted.

Theorem C55_read_error : forall open_path path bytes f, open_path path = Opened bytes true ->
  ReadFileOrThrow (S f) open_path path = Ok (inl bytes).
Proof. exact ReadFile_broken. Qed.
Print Assumptions C55_read_error.

(** Without such errors it does: the complete contents or a message with the
    name and the reason; "-" is the standard input. *)
Theorem C55_reads_partial : forall open_path path, readable open_path ->
  exists r, reads open_path path r /\ eventually (fun f => ReadFileOrThrow f open_path path) (Ok r).
Proof. exact ReadFile_reads. Qed.
Print Assumptions C55_reads_partial.

Example C55_case :
  let open_path p := if str_eqb p (s "/dev/stdin") then Opened (s "abc") false else OpenFails (s "No such file or directory") in
  readable open_path /\ ReadFileOrThrow 2 open_path (s "-") = Ok (inl (s "abc")) /\
  ReadFileOrThrow 2 open_path (s "x") = Ok (inr (s "cannot access 'x': No such file or directory")).
Proof.
  cbn zeta. split; [|split; vm_compute; reflexivity]. intros path bytes.
  destruct (str_eqb path (s "/dev/stdin")); discriminate.
Qed.

(** ** C56 *)

(** Whatever the command line is: every option that main asks for has a value
    (else boost::bad_any_cast), the assertion in main holds, and there is an HTML
    file unless linting. *)
Theorem C56_values_present : forall run argv vm, boost_contract run -> po_store run argv = inl vm ->
  (forall key, In key (po_reads vm) -> po_get vm key <> None) /\
  (po_reads vm <> [] -> exists files strings, po_get vm (s "hext") = Some files /\ po_get vm (s "str") = Some strings /\
     files ++ strings <> []) /\
  (In (s "html") (po_reads vm) -> exists files, po_get vm (s "html") = Some files /\ files <> []).
Proof. exact options_there. Qed.
Print Assumptions C56_values_present.

(** With the word "-l" or "--lint" file names without option are not accepted
    (boost is called without positional options); *)
Theorem C56_lint_partial : forall run run' argv, In (s "-l") argv \/ In (s "--lint") argv ->
  run false argv = run' false argv -> po_store run argv = po_store run' argv.
Proof. exact lint_word. Qed.
Print Assumptions C56_lint_partial.

(** but linting can be asked for in other words: with "-cl" (or "--lin") a
    second hext file is taken as HTML and never checked. *)
Theorem C56_lint_refuted : exists run argv vm files, boost_contract run /\
  po_store run argv = inl vm /\ given vm (s "lint") /\ In (s "second.hext") argv /\
  po_get vm (s "html") = Some files /\ In (s "second.hext") files /\ ~ In (s "html") (po_reads vm).
Proof.
  exists flags_and_files, [s "htmlext"; s "-cl"; s "first.hext"; s "second.hext"]. eexists. exists [s "second.hext"].
  split; [exact flags_contract|]. split; [reflexivity|]. split; [apply contains_given; vm_compute; reflexivity|].
  split; [right; right; right; now left|]. split; [vm_compute; reflexivity|]. split; [now left|].
  vm_compute. intros [H|[H|[]]]; discriminate H.
Qed.
Print Assumptions C56_lint_refuted.

Example C56_case : boost_contract flags_and_files /\
  (exists vm, po_store flags_and_files [s "htmlext"; s "a.hext"; s "b.html"] = inl vm /\
     po_reads vm = [s "hext"; s "str"; s "html"; s "max-searches"]) /\
  (exists e, po_store flags_and_files [s "htmlext"; s "-l"; s "a.hext"] = inr e) /\
  (exists e, po_store flags_and_files [s "htmlext"; s "a.hext"] = inr e).
Proof.
  split; [exact flags_contract|]. split; [eexists; split; [reflexivity|vm_compute; reflexivity]|].
  split; eexists; vm_compute; reflexivity.
Qed.

(** ** C57 *)

(** Since room was reserved, no Html object is ever moved (C49): each document
    is used while it lives and destroyed exactly once, also if reading the files
    stops early. *)
Theorem C57_documents : forall growth n os uses free,
  length os <= n -> NoDup os -> (forall i, In i uses -> i < length os) ->
  exists st, history (main_html growth n os uses free) (Ok st) /\ living st = [] /\ destroyed st = os.
Proof.
  intros growth n os uses free H1 H2 H3. exists (mk_html_state [] (rev os) os). split; [|auto].
  exact (main_html_history growth n os uses free H1 H2 H3).
Qed.
Print Assumptions C57_documents.

(** No element changes its address when more elements are added, so the pointers
    of the documents into the texts stay valid. *)
Theorem C57_addresses : forall growth n os os' free i, length os + length os' <= n -> i < length os ->
  let v0 := fst (reserve n (empty_vector free)) in
  address (fst (emplace_all growth (os ++ os') v0)) i = address (fst (emplace_all growth os v0)) i.
Proof. exact emplace_stays. Qed.
Print Assumptions C57_addresses.

(** With room for one element less the program would use and free destroyed
    documents. *)
Theorem C57_room_needed : forall growth,
  history (main_html growth 1 [7; 8] [0] 0) (UB BadPointer) /\ history (main_html growth 1 [7; 8] [] 0) (UB DoubleFree).
Proof. intros growth. split; reflexivity. Qed.
Print Assumptions C57_room_needed.

Example C57_case : main_html (fun n => n) 2 [7; 8] [0; 1; 0] 5 =
  [Construct 5 7; Construct 6 8; UseRoot 5; UseRoot 6; UseRoot 5; Destroy 5; Destroy 6].
Proof. reflexivity. Qed.

(** ** C58 *)

(** Every run of the program ends. It succeeds without message if everything can
    be read and parsed and no extraction throws; otherwise it fails with exactly
    one message, that of the first failure. The only undefined behaviour is that of C40 and C22. *)
Theorem C58_outcomes_partial : forall W po, proper_documents W -> exists o, main_yields W po o /\ program_outcome W po o.
Proof. exact main_total. Qed.
Print Assumptions C58_outcomes_partial.

(** The first failure, wherever it is, is what the program reports. *)
Theorem C58_first_failure : forall W po text message, first_failure W po text message ->
  main_yields W po (Ok (mk_ending text [message] true)).
Proof. exact first_failure_reported. Qed.
Print Assumptions C58_first_failure.

Definition two_files : surroundings :=
  mk_surroundings (fun name => if str_eqb name (s "gone") then inr (s "no such file") else inl (s "<ul/>"))
    (fun _ => (list_page, Some [0])) sample_engine (fun _ _ => []) (fun _ => []).
Example C58_first_failure_case :
  let po := mk_options [s "a"; s "gone"] [s "<"] [] true None 0 (mk_json_option false false) in
  first_failure two_files po [] (s "Error", s "no such file") /\
  let po' := mk_options [s "a"] [s "<"; s "<ul>"] [] true None 0 (mk_json_option false false) in
  exists text, first_failure two_files po' [] (s "Error in <hext-string>", text).
Proof.
  split.
  - eapply (failing_source _ _ [FromFile (s "a")] (FromFile (s "gone")) [FromString (s "<")]).
    + reflexivity.
    + constructor; [|constructor]. eexists. split; [reflexivity|vm_compute; reflexivity].
    + now apply unreadable.
  - eexists. eapply (failing_source _ _ [FromFile (s "a")] (FromString (s "<")) [FromString (s "<ul>")]).
    + reflexivity.
    + constructor; [|constructor]. eexists. split; [reflexivity|vm_compute; reflexivity].
    + eapply (unparsable _ (FromString (s "<"))); [reflexivity|]. vm_compute. reflexivity.
Qed.

Definition quiet_surroundings : surroundings :=
  mk_surroundings (fun _ => inl (s "<ul>")) (fun _ => (list_page, Some [0])) sample_engine (fun _ _ => []) (fun _ => []).
Definition run_of (text : str) : options :=
  mk_options [] [text] [s "list.html"] false None 0 (mk_json_option false false).

(** Both occur. *)
Theorem C58_undefined_refuted : exists W po po', proper_documents W /\
  main_yields W po (UB BadCtypeArgument) /\ main_yields W po' (UB IntOverflow).
Proof.
  exists quiet_surroundings, (run_of ["233"%char]), (run_of (s "<li:nth-child(2n-2147483648)/>")).
  split; [split; discriminate|]. split.
  - exists 0. intros f _. vm_compute. reflexivity.
  - assert (H : exists r, load_strings quiet_surroundings [s "<li:nth-child(2n-2147483648)/>"] = Ok (inl [r]) /\
      ExtractSpec.extract_yields sample_engine r list_page (Some [0]) 0 (UB IntOverflow)).
    { eexists. split; [vm_compute; reflexivity|]. run_extract. }
    destruct H as [r [H1 [f0 H2]]]. exists f0. intros f Hf. unfold main.
    cbn [hext_files run_of load_files obind hext_strings]. rewrite H1.
    cbn [obind lint run_of html_files load_html read_file gumbo_parse quiet_surroundings app print_rules print_inputs regexes max_searches_option].
    now rewrite (H2 f Hf).
Qed.
Print Assumptions C58_undefined_refuted.

Example C58_case : proper_documents quiet_surroundings /\
  main 100 quiet_surroundings (run_of (s "<li id:x/>")) = Ok (mk_ending (Convert.newline ++ Convert.newline) [] false) /\
  exists m, main 100 quiet_surroundings (run_of (s "<li")) = Ok (mk_ending [] [m] true).
Proof. split; [split; discriminate|]. split; [vm_compute; reflexivity|]. eexists. vm_compute. reflexivity. Qed.
