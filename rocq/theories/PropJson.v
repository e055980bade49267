(** C62: the text that is printed, as JSON. *)

From Coq Require Import Ascii String NArith ZArith Bool List Sorted Lia.
From Verif Require Import Base Tags Dom Values Match Rule RuleMatching ExtractSpec Parser Convert ConvertSpec
  Cli CliSpec PyRefs JsonText JsonSpec JsonUnique Utf8Proofs JsonMain ExtractProofs Samples.
Import ListNotations.

(** C62. A JSON text, and a sequence of arrays and objects, means at most one
    value. *)
Theorem C62_unambiguous : forall t v v', means t v -> means t v' -> v = v'.
Proof. exact means_unique. Qed.
Print Assumptions C62_unambiguous.

Theorem C62_stream_unambiguous : forall t vs vs', stream t vs -> stream t vs' -> vs = vs'.
Proof. exact (fun t vs vs' H => stream_unique t vs H vs'). Qed.
Print Assumptions C62_stream_unambiguous.

(** What rapidjson writes is a JSON text that means the given value, in both
    formats. It has no NUL byte, so that printing it with GetString is all of
    it. *)
Theorem C62_text : forall pretty v,
  means (rapidjson pretty v) (value_of v) /\ ~ In NUL (rapidjson pretty v).
Proof. exact rapidjson_means. Qed.
Print Assumptions C62_text.

(** Quotes, a control character, a tab, and bytes of UTF-8. *)
Definition odd_value : str := [dquote; "\"%char; "007"%char; "009"%char; "195"%char; "169"%char].
Example C62_text_case :
  rapidjson false (JObject [(s "a", One odd_value); (s "b", Many [s "1"; s "2"])]) =
    s "{""a"":""\""\\\u0007\t" ++ ["195"%char; "169"%char] ++ s """,""b"":[""1"",""2""]}" /\
  rapidjson true (JArray [[(s "a", Many [s "1"; s "2"])]; []]) =
    lines [s "["; s "    {"; s "        ""a"": ["; s "            ""1"","; s "            ""2"""; s "        ]"; s "    },"; s "    {}"] ++ s "]".
Proof. split; vm_compute; reflexivity. Qed.

(** The printed text of a result is a sequence of values: one object per map, in
    order, or one array of them. By C62_stream_unambiguous there is no other
    reading. *)
Theorem C62_printed : forall opt result, Forall (StronglySorted name_le) result ->
  exists objects, Forall2 converted (map cut_map result) objects /\
    stream (PrintJson rapidjson opt result) (printed_values (ArrayEnvelope opt) objects).
Proof. exact print_means. Qed.
Print Assumptions C62_printed.

(** Without options there is one line per map: the text of an object has no
    newline in it. *)
Theorem C62_lines : forall opt result,
  PrettyPrint opt = false -> ArrayEnvelope opt = false -> Forall (StronglySorted name_le) result ->
  exists objects texts, Forall2 converted (map cut_map result) objects /\
    PrintJson rapidjson opt result = lines texts /\
    Forall2 (fun text o => means text (object_value o) /\ ~ In "010"%char text) texts objects.
Proof. exact print_lines. Qed.
Print Assumptions C62_lines.

(** Results with different values have different texts, even if one of them is
    pretty and the other one is not. *)
Theorem C62_determines_partial : forall opt opt' result result',
  Forall (StronglySorted name_le) result -> Forall (StronglySorted name_le) result' ->
  Forall no_nul result -> Forall no_nul result' ->
  ArrayEnvelope opt = ArrayEnvelope opt' ->
  PrintJson rapidjson opt result = PrintJson rapidjson opt' result' ->
  Forall2 (fun m m' => forall name, values_of name m = values_of name m') result result'.
Proof. exact print_determines. Qed.
Print Assumptions C62_determines_partial.

Definition two_maps : list ResultMap := [[(s "a", odd_value); (s "b", s "1"); (s "b", newline)]; []].
Example C62_printed_case :
  Forall (StronglySorted name_le) two_maps /\ Forall no_nul two_maps /\
  PrintJson rapidjson (mk_json_option false false) two_maps =
    lines [s "{""a"":""\""\\\u0007\t" ++ ["195"%char; "169"%char] ++ s """,""b"":[""1"",""\n""]}"; s "{}"].
Proof.
  split; [repeat constructor|]. split; [|vm_compute; reflexivity].
  repeat constructor; try (intros []); try (match goal with H : In _ _ |- _ => cbn in H; intuition congruence end).
  all: match goal with H : In _ _ |- _ => cbn in H end;
    repeat match goal with H : _ \/ _ |- _ => destruct H as [H|H] end; try contradiction;
    match goal with H : (_, _) = (_, _) |- _ => injection H as <- <- end; cbn; intuition discriminate.
Qed.

(** The whole standard output of the program. *)
Theorem C62_program : forall W po rules docs results,
  writer W = rapidjson -> filter_key po = None -> lint po = false ->
  Forall2 (source_is W) (hext_sources W po) rules ->
  Forall2 (html_is W) (html_files po) docs ->
  Forall2 (fun r => Forall2 (fun doc result => extracts W po r doc (Ok result)) docs) rules results ->
  exists output objects, main_yields W po (Ok (mk_ending output [] false)) /\
    Forall2 (Forall2 (fun result os => Forall2 converted (map cut_map result) os)) results objects /\
    stream output (concat (concat (map (map (printed_values (ArrayEnvelope (json_options po)))) objects))).
Proof. exact program_stream. Qed.
Print Assumptions C62_program.

Definition json_surroundings : surroundings :=
  mk_surroundings
    (fun name => if str_eqb name (s "list.html") then inl (s "<ul>...") else inr (s "no such file"))
    (fun _ => (list_page, Some [0])) sample_engine rapidjson (fun _ => s "error").
Definition json_options_used : options :=
  mk_options [] [s "<li id:item/>"; s "<p id:item/>"] [s "list.html"] false None 0 (mk_json_option false false).
Local Tactic Notation "each" tactic3(tac) := repeat (apply Forall2_cons; [tac|]); apply Forall2_nil.
Example C62_program_case : exists r r',
  Forall2 (source_is json_surroundings) (hext_sources json_surroundings json_options_used) [r; r'] /\
  Forall2 (html_is json_surroundings) (html_files json_options_used) [(list_page, Some [0])] /\
  Forall2 (fun r => Forall2 (fun doc result => extracts json_surroundings json_options_used r doc (Ok result)) [(list_page, Some [0])])
    [r; r'] [[[[(s "item", s "1")]; [(s "item", s "2")]]]; [[]]] /\
  main 100 json_surroundings json_options_used =
    Ok (mk_ending (lines [s "{""item"":""1""}"; s "{""item"":""2""}"]) [] false).
Proof.
  do 2 eexists.
  split; [each (eexists; split; [reflexivity|vm_compute; reflexivity])|].
  split; [each (eexists; split; vm_compute; reflexivity)|].
  split; [|vm_compute; reflexivity].
  each (each (unfold extracts; cbn [fst snd regexes json_surroundings max_searches_option json_options_used]; run_extract)).
Qed.

(** RFC 8259 wants the text to be UTF-8. It is exactly if all names and values
    are. *)
Theorem C62_utf8 : forall opt result, Forall (StronglySorted name_le) result ->
  (is_utf8 (PrintJson rapidjson opt result) <-> result_utf8 result).
Proof. exact print_is_utf8. Qed.
Print Assumptions C62_utf8.

(** A snippet and a document in UTF-8 may have results that are not, because
    the pipe "trim" removes single bytes; then the output is no JSON. *)
Definition trim_text : str := s "<p @text:trim('" ++ ["195"%char; "169"%char] ++ s "'):x/>".
Theorem C62_utf8_refuted : exists text chars R result,
  is_utf8 text /\ is_utf8 chars /\ ParseHext sample_engine text = Ok R /\
  extract_yields sample_engine R (page [el TAG_P [NText chars]]) (Some [0]) 0 (Ok result) /\
  forall opt, ~ is_utf8 (PrintJson rapidjson opt result).
Proof.
  exists trim_text, ["195"%char; "160"%char]. eexists. exists [[(s "x", ["160"%char])]].
  split; [apply utf8_iff; reflexivity|]. split; [apply utf8_iff; reflexivity|]. split; [vm_compute; reflexivity|].
  split; [run_extract|]. intros [[|] [|]] H; apply utf8_iff in H; vm_compute in H; discriminate.
Qed.
Print Assumptions C62_utf8_refuted.

(** The decoder of the model, which C53 uses for Python's one, accepts exactly
    UTF-8. *)
Theorem C53_decoder : forall x, utf8 x = true <-> is_utf8 x.
Proof. exact utf8_iff. Qed.
Print Assumptions C53_decoder.
