(** C47 - C51: converting results, the command line tool and object ownership. *)

From Coq Require Import Ascii String NArith ZArith Bool List Sorted Lia.
From Verif Require Import Base Tags Dom Values Match Rule RuleMatching ExtractSpec Parser Convert ConvertSpec ConvertProofs
  Cli CliSpec CliProofs LimitProofs Ownership OwnershipSpec OwnershipProofs ExtractProofs Samples.
Import ListNotations.

(** ** C47 *)

(** The JSON object for a map has one member per name, in name order: the
    string if there is one value, the array of all values in order otherwise.
    It is made of the strings cut at their first NUL byte. *)
Theorem C47_json : forall m,
  StronglySorted name_le m -> converted (cut_map m) (json_object m).
Proof. exact json_object_converted. Qed.
Print Assumptions C47_json.

(** So values with a NUL byte are not kept. They occur: the pipes "append",
    "prepend" and "replace" can add one. *)
Theorem C47_nul_refuted : exists m,
  StronglySorted name_le m /\ ~ converted m (json_object m) /\
  (exists m', m' <> m /\ StronglySorted name_le m' /\ json_object m' = json_object m) /\
  (exists o, convert_map python_handover m = Ok o /\ ~ converted m o) /\
  (exists o, convert_map php_handover m = Ok o /\ ~ converted m o).
Proof.
  exists [(s "a", [NUL])].
  assert (Hno : forall o, o = [(s "a", One [])] -> ~ converted [(s "a", [NUL])] o).
  { intros o -> [_ [H _]]. specialize (H _ _ (or_introl eq_refl)). discriminate H. }
  split; [repeat constructor|]. split; [now apply Hno|]. split.
  - exists [(s "a", [])]. split; [discriminate|]. split; [repeat constructor|reflexivity].
  - split; (eexists; split; [vm_compute; reflexivity|]; now apply Hno).
Qed.
Print Assumptions C47_nul_refuted.

(** Without NUL bytes nothing is lost, and all conversions agree. *)
Theorem C47_json_keeps_partial : forall m,
  StronglySorted name_le m -> no_nul m -> converted m (json_object m).
Proof. exact json_keeps. Qed.
Print Assumptions C47_json_keeps_partial.

Theorem C47_bindings_keep_partial : forall h m,
  In h [node_handover; python_handover; ruby_handover; php_handover] ->
  StronglySorted name_le m -> no_nul m -> exists o, convert_map h m = Ok o /\ converted m o.
Proof. exact bindings_keep. Qed.
Print Assumptions C47_bindings_keep_partial.

(** The Node and Ruby bindings keep NUL bytes, too. For names that are special
    to JavaScript or PHP see C63. *)
Theorem C47_node_and_ruby : forall h m,
  In h [node_handover; ruby_handover] ->
  StronglySorted name_le m -> exists o, convert_map h m = Ok o /\ converted m o.
Proof. exact full_bindings_keep. Qed.
Print Assumptions C47_node_and_ruby.

(** The other two cut strings at the first NUL byte: Python names and values, PHP
    names and values that are alone. If names become equal, only the values of
    the last one remain. *)
Theorem C47_python_cuts : forall m, StronglySorted name_le m ->
  exists o o', converted m o /\ convert_map python_handover m = Ok o' /\
    written c_str (fun v => match v with One x => One (c_str x) | Many xs => Many (map c_str xs) end) o o'.
Proof. exact python_cuts. Qed.
Print Assumptions C47_python_cuts.

Theorem C47_php_cuts : forall m, StronglySorted name_le m ->
  exists o o', converted m o /\ convert_map php_handover m = Ok o' /\
    written c_str (fun v => match v with One x => One (c_str x) | Many xs => Many xs end) o o'.
Proof. exact php_cuts. Qed.
Print Assumptions C47_php_cuts.

Example C47_cuts_case :
  let m := [(s "a", s "1"); (s "a" ++ [NUL], s "2" ++ [NUL]); (s "a" ++ [NUL], s "3"); (s "b", NUL :: s "4")] in
  StronglySorted name_le m /\
  convert_map php_handover m = Ok [(s "a", Many [s "2" ++ [NUL]; s "3"]); (s "b", One [])] /\
  convert_map python_handover m = Ok [(s "a", Many [s "2"; s "3"]); (s "b", One [])].
Proof. split; [repeat constructor|]. split; vm_compute; reflexivity. Qed.

(** There is one such object for a map, and one map for such an object. *)
Theorem C47_unique : forall m o o', converted m o -> converted m o' -> o = o'.
Proof. exact converted_unique. Qed.
Print Assumptions C47_unique.

Theorem C47_recoverable : forall m m' o,
  StronglySorted name_le m -> StronglySorted name_le m' ->
  converted m o -> converted m' o -> m = m'.
Proof. exact converted_inj. Qed.
Print Assumptions C47_recoverable.

Definition some_map : ResultMap := [(s "a", s "1"); (s "a", s "2"); (s "b", s "3"); (s "c", s "4"); (s "c", s "4"); (s "c", s "5")].

Example C47_case :
  StronglySorted name_le some_map /\ no_nul some_map /\
  json_object some_map = [(s "a", Many [s "1"; s "2"]); (s "b", One (s "3")); (s "c", Many [s "4"; s "4"; s "5"])] /\
  convert_map php_handover some_map = Ok (json_object some_map).
Proof.
  split; [repeat constructor|]. split; [|split; reflexivity].
  intros n v H. simpl in H.
  repeat (destruct H as [[= <- <-]|H]; [split; simpl; intros [E|[]]; discriminate E|]). destruct H.
Qed.

(** ** C48 *)

(** As stated it does not hold: 2^32, 0.5 and infinity are taken for 0, which
    means that there is no limit, and the search goes on where the limit 1 would
    end it. *)
Theorem C48_no_limit_refuted : exists E R D p,
  extract_yields E R D p (node_max_searches (Some (JsFinite 1 0))) (Throw MaxSearchError) /\
  forall x, In x [JsFinite 1 32; JsFinite 1 (-1); JsInfinity false] ->
    exists result, extract_yields E R D p (node_max_searches (Some x)) (Ok result).
Proof.
  exists sample_engine, list_rule, list_page, (Some [0]). split; [run_extract|].
  intros x Hx. eexists. destruct Hx as [<-|[<-|[<-|[]]]]; cbn [node_max_searches Uint32Value]; run_extract.
Qed.
Print Assumptions C48_no_limit_refuted.

(** Whole numbers below 2^32 are passed on as they are. *)
Theorem C48_exact_partial : forall m e n,
  (0 <= n < 4294967296)%Z -> js_truncate m e = n ->
  Z.of_N (node_max_searches (Some (JsFinite m e))) = n.
Proof. exact node_limit_exact. Qed.
Print Assumptions C48_exact_partial.

(** A number limits the search (to at most itself) exactly when its whole part
    is no multiple of 2^32. *)
Theorem C48_limits_partial : forall m e,
  (0 <= m)%Z ->
  ((node_max_searches (Some (JsFinite m e)) <> 0%N) <-> ~ (4294967296 | js_truncate m e)%Z) /\
  (Z.of_N (node_max_searches (Some (JsFinite m e))) <= js_truncate m e)%Z.
Proof. exact node_limit_limits. Qed.
Print Assumptions C48_limits_partial.

(** Of every number, also of a negative one: the limit is what is left of its
    whole part when multiples of 2^32 are taken away (so -1 is the limit
    2^32 - 1). *)
Theorem C48_every : forall m e w, whole_part m e w ->
  exists k, (w = k * 4294967296 + Z.of_N (node_max_searches (Some (JsFinite m e))))%Z /\
    (0 <= Z.of_N (node_max_searches (Some (JsFinite m e))) < 4294967296)%Z.
Proof. exact node_limit_every. Qed.
Print Assumptions C48_every.

(** Every number has a whole part. *)
Theorem C48_whole_part : forall m e, exists w, whole_part m e w.
Proof. exact whole_part_exists. Qed.
Print Assumptions C48_whole_part.

Example C48_every_case : whole_part (-1) 0 (-1) /\ node_max_searches (Some (JsFinite (-1) 0)) = 4294967295%N /\
  whole_part (-7) (-1) (-3) /\ node_max_searches (Some (JsFinite (-7) (-1))) = 4294967293%N.
Proof. split; [left; now split|]. split; [reflexivity|]. split; [right; now repeat split|reflexivity]. Qed.

Example C48_case :
  js_truncate 25 2 = 100%Z /\ node_max_searches (Some (JsFinite 25 2)) = 100%N /\
  node_max_searches (Some (JsFinite 7 (-1))) = 3%N /\
  node_max_searches (Some (JsFinite 4294967297 1)) = 2%N /\ node_max_searches None = 0%N.
Proof. vm_compute. repeat split. Qed.

(** ** C49 *)

(** As stated it does not hold: the defaulted move operations copy the pointer,
    so both objects destroy the output. *)
Theorem C49_move_construct_refuted :
  history [Construct 0 7; MoveConstruct 1 0; Destroy 1; Destroy 0] (UB DoubleFree).
Proof. reflexivity. Qed.
Print Assumptions C49_move_construct_refuted.

Theorem C49_move_assign_refuted :
  history [Construct 0 7; Construct 1 8; MoveAssign 0 1; Destroy 1; UseRoot 0] (UB BadPointer) /\
  history [Construct 0 7; Construct 1 8; MoveAssign 0 1; Destroy 1; Destroy 0] (UB DoubleFree).
Proof. split; reflexivity. Qed.
Print Assumptions C49_move_assign_refuted.

(** No history with a move is harmless: if it has had no undefined behaviour
    then there are still objects to be destroyed. *)
Theorem C49_moves_never_safe : forall h st,
  moves h -> history h (Ok st) -> living st <> [].
Proof. exact moved_history. Qed.
Print Assumptions C49_moves_never_safe.

(** Without moves every output is destroyed at most once, and exactly once when
    all objects are gone. The program htmlext and the bindings have no moves. *)
Theorem C49_without_moves_partial : forall h o,
  ~ moves h -> history h o ->
  exists st, o = Ok st /\
    (forall x, times_destroyed st x <= 1) /\
    (living st = [] -> forall x, In x (made st) -> times_destroyed st x = 1).
Proof. exact unmoved_history. Qed.
Print Assumptions C49_without_moves_partial.

Definition some_history : list html_step :=
  [Construct 0 7; UseRoot 0; Construct 1 8; MoveAssign 1 1; Destroy 0; Construct 0 9; Destroy 1; UseRoot 0; Destroy 0].

Example C49_case :
  ~ moves some_history /\ history some_history (Ok (mk_html_state [] [9; 8; 7] [7; 8; 9])) /\
  moves [Construct 0 7; MoveConstruct 1 0] /\
  history [Construct 0 7; MoveConstruct 1 0] (Ok (mk_html_state [(1, Some 7); (0, Some 7)] [7] [])).
Proof.
  split; [|split; [reflexivity|split; [|reflexivity]]].
  - intros [x [y H]]. unfold some_history in H. simpl in H.
    destruct H as [H|[H Hn]]; repeat (destruct H as [H|H];
      [first [discriminate H | injection H as <- <-; now destruct (Hn eq_refl)]|]); destruct H.
  - exists 1, 0. left. right. now left.
Qed.

(** ** C50 *)

(** As stated it does not hold: assigning a capture without pipe dereferences
    the null pointer. *)
Theorem C50_null_pipe_refuted : forall this other o,
  capture_assign false this other = Some o -> capture_pipe other = None -> o = UB NullDeref.
Proof. exact capture_assign_null. Qed.
Print Assumptions C50_null_pipe_refuted.

(** With a pipe, or to itself, the assignment makes the capture equal. *)
Theorem C50_capture_partial : forall same this other o,
  (same = true -> this = other) ->
  capture_assign same this other = Some o -> (same = true \/ capture_pipe other <> None) -> o = Ok other.
Proof. exact capture_assign_defined. Qed.
Print Assumptions C50_capture_partial.

Theorem C50_match : forall this other o, match_assign this other = Some o -> o = Ok other.
Proof. exact assign_defined. Qed.
Print Assumptions C50_match.

Theorem C50_test : forall this other o, test_assign this other = Some o -> o = Ok other.
Proof. exact test_assign_defined. Qed.
Print Assumptions C50_test.

Example C50_case :
  let a := AttributeCapture (s "href") (s "link") None in
  let b := AttributeCapture (s "src") (s "image") (Some (Pipe CollapseWsPipe None)) in
  capture_assign false b a = Some (UB NullDeref) /\ capture_assign false a b = Some (Ok b) /\
  match_assign (AttributeMatch (s "a") (Some (EqualsTest (s "x")))) (AttributeMatch (s "b") None)
    = Some (Ok (AttributeMatch (s "b") None)) /\
  test_assign (NegateTest None) (NegateTest (Some (EqualsTest (s "x")))) = Some (Ok (NegateTest (Some (EqualsTest (s "x"))))).
Proof. repeat split. Qed.

(** ** C51 *)

(** The output is the text for each rule in order and for each input in order.
    [shown] says what the text for one result is: with --filter the values of
    that name, a line each. *)
Theorem C51_prints_all : forall W po rules docs results,
  lint po = false ->
  Forall2 (source_is W) (hext_sources W po) rules ->
  Forall2 (html_is W) (html_files po) docs ->
  Forall2 (fun r => Forall2 (fun doc result => extracts W po r doc (Ok result)) docs) rules results ->
  exists texts, Forall2 (Forall2 (shown W po)) results texts /\
    main_yields W po (Ok (mk_ending (concat (concat texts)) [] false)).
Proof. exact main_prints_all. Qed.
Print Assumptions C51_prints_all.

(** The text for a result is determined by it. *)
Theorem C51_text_determined : forall W po result t t',
  shown W po result t -> shown W po result t' -> t = t'.
Proof. exact shown_unique. Qed.
Print Assumptions C51_text_determined.

(** If a search fails, the program prints what came before and fails. *)
Theorem C51_failing_search : forall W po before r after docs1 d docs2 results row1 e texts,
  lint po = false ->
  Forall2 (source_is W) (hext_sources W po) (before ++ r :: after) ->
  Forall2 (html_is W) (html_files po) (docs1 ++ d :: docs2) ->
  Forall2 (fun r0 => Forall2 (fun doc result => extracts W po r0 doc (Ok result)) (docs1 ++ d :: docs2)) before results ->
  Forall2 (fun doc result => extracts W po r doc (Ok result)) docs1 row1 ->
  extracts W po r d (Throw e) ->
  Forall2 (Forall2 (shown W po)) (results ++ [row1]) texts ->
  main_yields W po (Ok (mk_ending (concat (concat texts)) [(s "Error", what W e)] true)).
Proof. exact main_stops. Qed.
Print Assumptions C51_failing_search.

(** If any rule has an error (a file that cannot be read, or a text that is not
    accepted) the program fails, with no output and one message. *)
Theorem C51_no_output_on_error : forall W po,
  (forall x, In x (hext_sources W po) -> parses_defined W x) ->
  (exists x, In x (hext_sources W po) /\ forall r, ~ source_is W x r) ->
  exists e, forall f, main f W po = Ok (mk_ending [] [e] true).
Proof. exact main_rejects. Qed.
Print Assumptions C51_no_output_on_error.

Theorem C51_missing_html : forall W po rules name msg,
  lint po = false -> Forall2 (source_is W) (hext_sources W po) rules ->
  In name (html_files po) -> read_file W name = inr msg ->
  exists e, forall f, main f W po = Ok (mk_ending [] [e] true).
Proof. exact main_html_missing. Qed.
Print Assumptions C51_missing_html.

Theorem C51_lint : forall W po rules,
  lint po = true -> Forall2 (source_is W) (hext_sources W po) rules ->
  forall f, main f W po = Ok (mk_ending [] [] false).
Proof. exact main_lint. Qed.
Print Assumptions C51_lint.

(** A program run: two rules, two inputs. *)
Definition sample_surroundings : surroundings :=
  mk_surroundings
    (fun name => if str_eqb name (s "list.html") then inl (s "<ul>...") else inr (s "no such file"))
    (fun _ => (list_page, Some [0]))
    sample_engine
    (fun _ v => match v with
                | JObject o => s "{" ++ concat (map (fun x => fst x ++ s ",") o) ++ s "}"
                | JArray l => s "[" ++ concat (map (fun _ => s "{},") l) ++ s "]"
                end)
    (fun _ => s "error").
Definition sample_options (texts : list str) (filter : option str) (arr : bool) : options :=
  mk_options [] texts [s "list.html"; s "list.html"] false filter 0 (mk_json_option false arr).

Definition li_source : str := s "<li id:item/>".
Definition p_source : str := s "<p id:item/>".
Definition li_rule : rule :=
  mk_rule None None [] [Some (AttributeMatch (s "id") None)] [Some (AttributeCapture (s "id") (s "item") None)] TAG_LI false false None.
Definition p_rule : rule :=
  mk_rule None None [] [Some (AttributeMatch (s "id") None)] [Some (AttributeCapture (s "id") (s "item") None)] TAG_P false false None.

Local Tactic Notation "each" tactic3(tac) := repeat (apply Forall2_cons; [tac|]); apply Forall2_nil.

Example C51_case :
  Forall2 (source_is sample_surroundings) (hext_sources sample_surroundings (sample_options [li_source; p_source] None false)) [li_rule; p_rule] /\
  Forall2 (html_is sample_surroundings) (html_files (sample_options [li_source; p_source] None false)) [(list_page, Some [0]); (list_page, Some [0])] /\
  extracts sample_surroundings (sample_options [] None false) li_rule (list_page, Some [0])
    (Ok [[(s "item", s "1")]; [(s "item", s "2")]]) /\
  extracts sample_surroundings (sample_options [] None false) p_rule (list_page, Some [0]) (Ok []) /\
  main 100 sample_surroundings (sample_options [li_source; p_source] (Some (s "item")) false)
    = Ok (mk_ending (lines [s "1"; s "2"; s "1"; s "2"]) [] false) /\
  parses_defined sample_surroundings (Some (s "<li")) /\
  (forall r, ~ source_is sample_surroundings (Some (s "<li")) r) /\
  exists e, main 100 sample_surroundings (sample_options [li_source; s "<li"] None false) = Ok (mk_ending [] [e] true).
Proof.
  split; [each (eexists; split; [reflexivity|vm_compute; reflexivity])|].
  split; [each (eexists; split; vm_compute; reflexivity)|].
  split; [unfold extracts; cbn [fst snd regexes sample_surroundings max_searches_option sample_options]; run_extract|].
  split; [unfold extracts; cbn [fst snd regexes sample_surroundings max_searches_option sample_options]; run_extract|].
  split; [vm_compute; reflexivity|].
  split; [intros text [= <-]; right; eexists; vm_compute; reflexivity|].
  split; [intros r [text [[= <-] H]]; vm_compute in H; discriminate H|].
  eexists. vm_compute. reflexivity.
Qed.

(** The last part of the property does not hold: with --array nothing at all is
    printed for an extraction without results. [shown] has the other case: an
    array of all objects on one line. *)
Theorem C51_empty_array_refuted : exists W po rules docs,
  lint po = false /\ ArrayEnvelope (json_options po) = true /\ filter_key po = None /\
  Forall2 (source_is W) (hext_sources W po) rules /\ Forall2 (html_is W) (html_files po) docs /\ docs <> [] /\ rules <> [] /\
  main_yields W po (Ok (mk_ending [] [] false)).
Proof.
  exists sample_surroundings, (sample_options [p_source] None true), [p_rule], [(list_page, Some [0]); (list_page, Some [0])].
  split; [reflexivity|]. split; [reflexivity|]. split; [reflexivity|].
  assert (H1 : Forall2 (source_is sample_surroundings) (hext_sources sample_surroundings (sample_options [p_source] None true)) [p_rule])
    by each (eexists; split; [reflexivity|vm_compute; reflexivity]).
  assert (H2 : Forall2 (html_is sample_surroundings) (html_files (sample_options [p_source] None true)) [(list_page, Some [0]); (list_page, Some [0])])
    by each (eexists; split; vm_compute; reflexivity).
  split; [exact H1|]. split; [exact H2|]. split; [discriminate|]. split; [discriminate|].
  apply (main_prints sample_surroundings (sample_options [p_source] None true) [p_rule] [(list_page, Some [0]); (list_page, Some [0])]
           [[[]; []]] [[[]; []]]); auto.
  - each (each (unfold extracts; cbn [fst snd regexes sample_surroundings max_searches_option sample_options]; run_extract)).
  - each (each (exists []; split; [constructor|right; now split])).
Qed.
Print Assumptions C51_empty_array_refuted.
