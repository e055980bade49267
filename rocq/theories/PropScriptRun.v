(** C70: the htmlext scripts of the bindings. *)

From Coq Require Import Ascii String NArith ZArith Bool List Lia.
From Verif Require Import Base StringUtil Tags Dom Values Match Rule RuleMatching ExtractSpec ExtractMain Samples Convert ConvertSpec Parser
  Bindings BindSpec Scripts ScriptSpec PyRefs JsonText JsonSpec Utf8Proofs Cli CliSpec ScriptRun ScriptRunSpec ScriptRunMain ScriptLines.
Import ListNotations.

(** C70. Given the same two files, htmlext and the scripts of the four bindings
    end successfully and print the same values, one per line: Python and Ruby
    what htmlext prints, PHP lists in place of objects with the names 0, 1 and so
    on, JavaScript without "__proto__" and with numbers first. *)
Theorem C70_same : forall M name hext_file html_file text html args R unreadable message result,
  plain_files M hext_file html_file text html -> (exists more, args = hext_file :: html_file :: more) ->
  decoder_ok M -> proper_root (to_document M html) -> snd (to_document M html) <> None ->
  ParseHext (engine_of M) text = Ok R ->
  extract_yields (engine_of M) R (fst (to_document M html)) (snd (to_document M html)) 10000 (Ok result) ->
  Forall no_nul result -> Forall map_utf8 result ->
  exists objects, Forall2 converted result objects /\ same_prints M name args unreadable message hext_file html_file objects.
Proof.
  intros M name hext_file html_file text html args R unreadable message result H1 H2 H3 H4 H5 H6.
  exact (scripts_same M name hext_file html_file text html args R unreadable message H1 H2 H3 H4 H5 H6 result).
Qed.
Print Assumptions C70_same.

(** A rule with a syntax error: all of them say what the parser says. *)
Theorem C70_syntax : forall M name hext_file html_file text html args unreadable message m,
  plain_files M hext_file html_file text html -> (exists more, args = hext_file :: html_file :: more) ->
  decoder_ok M -> ParseHext (engine_of M) text = Throw (SyntaxError m) ->
  main_yields (tool M unreadable message) (tool_options hext_file html_file)
    (Ok (mk_ending [] [(s "Error in " ++ hext_file, c_str m)] true)) /\
  forall f,
    python_main M name f args = Ok (Exits [] (in_file name hext_file (c_str m)) 1) /\
    ruby_main M name f args = Ok (Exits [] (in_file name hext_file (c_str m)) 1) /\
    php_main M name f args = Ok (Exits [] (in_file name hext_file (c_str m)) 1) /\
    js_main M name f args = Ok (Exits [] (in_js_file name hext_file (s "Hext syntax error: " ++ c_str m)) 1).
Proof. exact scripts_report_syntax. Qed.
Print Assumptions C70_syntax.

(** A search that takes too long: all but the script for Ruby give up, which
    prints the result that the search would have without a limit. *)
Theorem C70_limit_partial : forall M name hext_file html_file text html args R unreadable message result objects,
  plain_files M hext_file html_file text html -> (exists more, args = hext_file :: html_file :: more) ->
  decoder_ok M -> snd (to_document M html) <> None -> ParseHext (engine_of M) text = Ok R ->
  extract_yields (engine_of M) R (fst (to_document M html)) (snd (to_document M html)) 10000 (Throw MaxSearchError) ->
  extract_yields (engine_of M) R (fst (to_document M html)) (snd (to_document M html)) 0 (Ok result) ->
  Forall map_utf8 result -> Forall2 converted result objects ->
  main_yields (tool M unreadable message) (tool_options hext_file html_file)
    (Ok (mk_ending [] [(s "Error", message MaxSearchError)] true)) /\
  eventually (fun f => python_main M name f args) (Ok (Exits [] (in_file name hext_file limit_text) 1)) /\
  eventually (fun f => php_main M name f args) (Ok (Exits [] (in_file name hext_file limit_text) 1)) /\
  eventually (fun f => js_main M name f args) (Ok (Exits [] (in_js_file name hext_file (s "Error: " ++ limit_text)) 1)) /\
  exists output, eventually (fun f => ruby_main M name f args) (Ok (Exits output [] 0)) /\ prints output (map object_value objects).
Proof. exact scripts_report_limit. Qed.
Print Assumptions C70_limit_partial.

(** A result with a value that is not UTF-8: htmlext prints it as it is, Python
    uses a null pointer, Ruby raises an exception after the objects before it,
    PHP prints an empty line for it, and JavaScript replaces the value. *)
Theorem C70_not_utf8_partial : forall M name hext_file html_file text html args R unreadable message result good bad rest objects,
  plain_files M hext_file html_file text html -> (exists more, args = hext_file :: html_file :: more) ->
  decoder_ok M -> proper_root (to_document M html) -> snd (to_document M html) <> None ->
  ParseHext (engine_of M) text = Ok R ->
  extract_yields (engine_of M) R (fst (to_document M html)) (snd (to_document M html)) 10000 (Ok result) ->
  Forall no_nul result -> result = good ++ bad :: rest -> Forall map_utf8 good -> ~ map_utf8 bad ->
  (forall m kv, In m result -> In kv m -> is_utf8 (fst kv)) -> Forall2 converted result objects ->
  (exists output, main_yields (tool M unreadable message) (tool_options hext_file html_file) (Ok (mk_ending output [] false)) /\
     prints output (map object_value objects)) /\
  eventually (fun f => python_main M name f args) (UB NullDeref) /\
  (exists output, eventually (fun f => ruby_main M name f args) (Ok (Uncaught output)) /\
     prints output (map object_value (firstn (length good) objects))) /\
  (exists texts, eventually (fun f => php_main M name f args) (Ok (Exits (lines texts) [] 0)) /\
     length texts = length result /\ nth_error texts (length good) = Some []) /\
  (exists output values, eventually (fun f => js_main M name f args) (Ok (Exits output [] 0)) /\
     prints output (map object_value values) /\ length values = length result).
Proof.
  intros M name hext_file html_file text html args R unreadable message result good bad rest objects H1 H2 H3 H4 H5 H6.
  exact (scripts_differ M name hext_file html_file text html args R unreadable message H1 H2 H3 H4 H5 H6 result good bad rest objects).
Qed.
Print Assumptions C70_not_utf8_partial.

(** Every run of a script, whatever its arguments and files are. *)
Theorem C70_outcomes_partial : forall M name args, (forall x, proper_root (to_document M x)) ->
  (exists o, eventually (fun f => python_main M name f args) o /\
     script_outcome (engine_of M) (exists h d more, args = h :: d :: more /\ ~ (readable_utf8 M h /\ readable_utf8 M d)) True o) /\
  (exists o, eventually (fun f => ruby_main M name f args) o /\ script_outcome (engine_of M) True False o) /\
  (exists o, eventually (fun f => php_main M name f args) o /\ script_outcome (engine_of M) False False o) /\
  (exists o, eventually (fun f => js_main M name f args) o /\
     script_outcome (engine_of M) (exists h d more, args = h :: d :: more /\ ~ (readable M h /\ readable M d)) False o).
Proof. exact scripts_outcomes. Qed.
Print Assumptions C70_outcomes_partial.

(** The script for Python does the same whether the lines of its files end with
    CR LF, with CR or with LF. *)
Theorem C70_newlines : forall M M' name f hext_file html_file html_file' more more', same_libraries M M' ->
  same_text M M' hext_file hext_file -> same_text M M' html_file html_file' ->
  python_main M name f (hext_file :: html_file :: more) = python_main M' name f (hext_file :: html_file' :: more').
Proof. exact python_lines. Qed.
Print Assumptions C70_newlines.

(** ** Cases *)

Definition machine_of (hext : str) (document : node) : machine :=
  mk_machine (fun file => if str_eqb file (s "r") then Some hext else if str_eqb file (s "d") then Some (s "page") else None)
    (fun _ => (document, Some [0])) sample_engine (fun x => x).
Definition me : str := s "htmlext".
Definition run_all (M : machine) (f : nat) (args : list str) : list (outcome script_end) :=
  [python_main M me f args; ruby_main M me f args; php_main M me f args; js_main M me f args].
Definition both : list str := [s "r"; s "d"].

Lemma utf8_case x : utf8 x = true -> is_utf8 x.
Proof. apply utf8_iff. Qed.
Lemma machine_files hext document : utf8 hext = true -> ~ In "000"%char hext -> ~ In "013"%char hext ->
  plain_files (machine_of hext document) (s "r") (s "d") hext (s "page").
Proof. intros H1 H2 H3. constructor; try reflexivity; try assumption; try (now apply utf8_case); cbn; intuition discriminate. Qed.

(** <li id:x/> for <li id="1"></li><li id="/"></li> *)
Definition two_items : node := page [el_id TAG_LI (s "1") []; el_id TAG_LI (s "/") []].
Example C70_case :
  let M := machine_of (s "<li id:x/>") two_items in
  plain_files M (s "r") (s "d") (s "<li id:x/>") (s "page") /\ decoder_ok M /\ proper_root (to_document M (s "page")) /\
  (exists R result, ParseHext (engine_of M) (s "<li id:x/>") = Ok R /\
     extract_yields (engine_of M) R two_items (Some [0]) 10000 (Ok result) /\ Forall no_nul result /\ Forall map_utf8 result /\ length result = 2) /\
  run_all M 100 both = repeat (Ok (Exits (lines [s "{""x"":""1""}"; s "{""x"":""/""}"]) [] 0)) 4.
Proof.
  cbv zeta. split; [apply machine_files; [reflexivity|cbn; intuition discriminate|cbn; intuition discriminate]|].
  split; [intros x _; reflexivity|]. split; [split; discriminate|]. split; [|vm_compute; reflexivity].
  exists (mk_rule None None [] [Some (AttributeMatch (s "id") None)] [Some (AttributeCapture (s "id") (s "x") None)] TAG_LI false false None), [[(s "x", s "1")]; [(s "x", s "/")]].
  split; [vm_compute; reflexivity|]. split; [run_extract|]. split; [|split; [|reflexivity]].
  - apply Forall_forall. intros m [<-|[<-|[]]] k v [[= <- <-]|[]]; cbn; intuition discriminate.
  - apply Forall_forall. intros m [<-|[<-|[]]] kv [<-|[]]; split; apply utf8_case; reflexivity.
Qed.

(** The names that PHP and JavaScript treat in their own way. *)
Theorem C70_names_refuted :
  run_all (machine_of (s "<li id:0/>") two_items) 100 both =
    [Ok (Exits (lines [s "{""0"":""1""}"; s "{""0"":""/""}"]) [] 0); Ok (Exits (lines [s "{""0"":""1""}"; s "{""0"":""/""}"]) [] 0);
     Ok (Exits (lines [s "[""1""]"; s "[""/""]"]) [] 0); Ok (Exits (lines [s "{""0"":""1""}"; s "{""0"":""/""}"]) [] 0)] /\
  nth_error (run_all (machine_of (s "<li id:__proto__/>") two_items) 100 both) 3 = Some (Ok (Exits (lines [s "{}"; s "{}"]) [] 0)).
Proof. split; vm_compute; reflexivity. Qed.
Print Assumptions C70_names_refuted.

(** A value that is not UTF-8, after one that is. *)
Definition latin_items : node := page [el_id TAG_LI (s "1") []; el_id TAG_LI ["233"%char] []; el_id TAG_LI (s "2") []].
Example C70_not_utf8_case :
  run_all (machine_of (s "<li id:x/>") latin_items) 100 both =
    [UB NullDeref; Ok (Uncaught (lines [s "{""x"":""1""}"]));
     Ok (Exits (lines [s "{""x"":""1""}"; []; s "{""x"":""2""}"]) [] 0);
     Ok (Exits (lines [s "{""x"":""1""}"; s "{""x"":""" ++ ["233"%char] ++ s """}"; s "{""x"":""2""}"]) [] 0)] /\
  ~ map_utf8 [(s "x", ["233"%char])].
Proof.
  split; [vm_compute; reflexivity|]. intros H. destruct (H _ (or_introl eq_refl)) as [_ HU]. apply utf8_iff in HU. discriminate.
Qed.

(** <ul id:x>{<b/>}...</ul>: for each of the inner rules, all items are searched. *)
Definition wide_rule : rule :=
  mk_rule None None (repeat (Samples.plain TAG_B true false None) 110) [] [Some (AttributeCapture (s "id") (s "x") None)] TAG_UL false false None.
Definition wide_page : node := page [el_id TAG_UL (s "1") (repeat (el TAG_LI [el TAG_P []]) 100)].
Example C70_limit_case :
  extract_yields sample_engine wide_rule wide_page (Some [0]) 10000 (Throw MaxSearchError) /\
  extract_yields sample_engine wide_rule wide_page (Some [0]) 0 (Ok [[(s "x", s "1")]]).
Proof.
  split; match goal with |- extract_yields ?E ?R ?D ?p ?n ?o =>
    let H := fresh in assert (H : extract 1000 E R D p n = o) by (vm_compute; reflexivity);
    rewrite <- H; apply extract_yields_at; rewrite H; discriminate end.
Qed.

(** Too few arguments, files that are not there, a rule that is none. *)
Example C70_errors :
  let M := machine_of (s "<") two_items in
  run_all M 0 [] = repeat (Ok (Exits (usage me) [] 0)) 4 /\
  run_all M 0 [s "r"] = repeat (Ok (Exits [] (s "htmlext: Error: missing arguments" ++ newline) 1)) 4 /\
  run_all M 0 [s "r"; s "x"] =
    [Ok (Uncaught []); Ok (Uncaught []); Ok (Exits [] (s "htmlext: Error: cannot access 'x'" ++ newline) 1); Ok (Uncaught [])] /\
  exists m, ParseHext sample_engine (s "<") = Throw (SyntaxError m).
Proof. cbv zeta. split; [reflexivity|]. split; [reflexivity|]. split; [reflexivity|]. eexists. vm_compute. reflexivity. Qed.

(** <li id="a CR LF b" id:x/>, with e acute for a, on a page with <li id="a LF b"></li>;
    without the conversion, as in the script for PHP, there is no such item. *)
Definition ended (e : list N) : str := s "<li id=""" ++ flat_map bytes_of (233 :: e)%N ++ s "b"" id:x/>".
Example C70_newlines_case :
  let d := page [el_id TAG_LI (flat_map bytes_of [233; 10]%N ++ s "b") []] in
  let M := machine_of (ended [13; 10]%N) d in
  let M' := machine_of (ended [10]%N) d in
  let line := s "{""x"":""" ++ flat_map bytes_of [233%N] ++ s "\nb""}" in
  same_libraries M M' /\ same_text M M' (s "r") (s "r") /\ same_text M M' (s "d") (s "d") /\
  python_main M me 100 both = Ok (Exits (lines [line]) [] 0) /\
  php_main M me 100 both = Ok (Exits [] [] 0) /\ php_main M' me 100 both = Ok (Exits (lines [line]) [] 0).
Proof.
  cbv zeta. split; [split; reflexivity|]. split; [|split; [|split; [vm_compute; reflexivity|split; vm_compute; reflexivity]]].
  - exists (map N_of_ascii (s "<li id=""") ++ [233; 13; 10]%N ++ map N_of_ascii (s "b"" id:x/>")),
           (map N_of_ascii (s "<li id=""") ++ [233; 10]%N ++ map N_of_ascii (s "b"" id:x/>")).
    split; [repeat constructor|]. split; [|split; vm_compute; reflexivity].
    cbn. repeat first [apply line_crlf|apply line_char; [discriminate|]]. constructor.
  - exists (map N_of_ascii (s "page")), (map N_of_ascii (s "page")).
    split; [repeat constructor|]. split; [|split; vm_compute; reflexivity].
    cbn. repeat (apply line_char; [discriminate|]). constructor.
Qed.
