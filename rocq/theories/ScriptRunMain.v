(** The scripts of the bindings as a whole (C70). *)

From Coq Require Import Ascii String NArith ZArith Bool List Sorted Permutation Lia.
From Verif Require Import Base StringUtil Dom Values Match Rule RuleMatching TextSpec ExtractSpec ExtractMain StringProofs NodeProofs Convert ConvertSpec ConvertProofs
  Parser ParserSpec Bindings BindSpec BindProofs Scripts ScriptSpec PyRefs PySpec PyProofs JsonText JsonSpec JsonMain Utf8Proofs
  Cli CliSpec CliProofs ScriptRun ScriptRunSpec ScriptRunProofs.
Import ListNotations.
Open Scope outcome_scope.

Section Main.
Variable M : machine.
Variable name : str.

Lemma swig_script_ok hext_file text html limit print R result : ParseHext (engine_of M) text = Ok R ->
  extract_yields (engine_of M) R (fst (to_document M html)) (snd (to_document M html)) limit (Ok result) ->
  eventually (fun f => swig_script M name f hext_file text html limit print) (print result).
Proof.
  intros HP [f0 HX]. exists f0. intros f Hf. unfold swig_script, swig_new_rule, swig_extract. rewrite HP. cbn [obind]. rewrite (HX f Hf). reflexivity.
Qed.
Lemma swig_script_limit hext_file text html limit print R : ParseHext (engine_of M) text = Ok R ->
  extract_yields (engine_of M) R (fst (to_document M html)) (snd (to_document M html)) limit (Throw MaxSearchError) ->
  eventually (fun f => swig_script M name f hext_file text html limit print) (Ok (Exits [] (in_file name hext_file limit_text) 1)).
Proof.
  intros HP [f0 HX]. exists f0. intros f Hf. unfold swig_script, swig_new_rule, swig_extract. rewrite HP. cbn [obind]. rewrite (HX f Hf). reflexivity.
Qed.
Lemma swig_script_syntax hext_file text html limit print m f : ParseHext (engine_of M) text = Throw (SyntaxError m) ->
  swig_script M name f hext_file text html limit print = Ok (Exits [] (in_file name hext_file (c_str m)) 1).
Proof. intros HP. unfold swig_script, swig_new_rule. now rewrite HP. Qed.

Definition python_finish (hext_file : str) (result : list ResultMap) : outcome script_end :=
  let! (h, r) := py_convert (fun _ => false) result py_start in
  match r with
  | Some x => Ok (Exits (concat (map (fun o => compact_object low_quote (sort_keys o) ++ newline) (py_objects h x))) [] 0)
  | None => Ok (Exits [] (in_file name hext_file (s "PyDict_SetItemString returned != 0")) 1)
  end.

Section Files.
Variables hext_file html_file text html : str.
Hypothesis files : plain_files M hext_file html_file text html.
Variable args : list str.
Hypothesis arguments : exists more, args = hext_file :: html_file :: more.

Lemma python_main_files f : python_main M name f args =
  swig_script M name f hext_file text html 10000 (python_finish hext_file).
Proof.
  destruct arguments as [more ->], files as [F1 F2 F3 F4 F5 F6 F7]. unfold python_main, with_arguments, python_read. rewrite F1, F2.
  rewrite !(proj2 (utf8_iff _)) by assumption. now rewrite !no_cr by assumption.
Qed.
Lemma ruby_main_files f : ruby_main M name f args = swig_script M name f hext_file text html 0 (ruby_print []).
Proof. destruct arguments as [more ->], files as [F1 F2 F3 F4 F5 F6 F7]. unfold ruby_main, with_arguments. now rewrite F1, F2. Qed.
Lemma php_main_files f : php_main M name f args = swig_script M name f hext_file text html 10000 (php_print []).
Proof. destruct arguments as [more ->], files as [F1 F2 F3 F4 F5 F6 F7]. unfold php_main, with_arguments. now rewrite F1, F2. Qed.
Lemma js_main_files f : decoder_ok M -> js_main M name f args =
  (let! r := node_new_rule (engine_of M) [JsString text] in
   match r with
   | Bindings.Raises _ m => Ok (Exits [] (in_js_file name hext_file m) 1)
   | Escapes e => Ok (Killed e)
   | Returns R => js_extract M name f hext_file R (to_document M html) 10000
   end).
Proof.
  intros HD. destruct arguments as [more ->], files as [F1 F2 F3 F4 F5 F6 F7]. unfold js_main, with_arguments. rewrite F1, F2. now rewrite !HD by assumption.
Qed.

Variables (unreadable : str -> str) (message : exn -> str).
Let W := tool M unreadable message.
Let po := tool_options hext_file html_file.

Lemma tool_source R : ParseHext (engine_of M) text = Ok R -> Forall2 (source_is W) (hext_sources W po) [R].
Proof.
  intros HP. destruct files as [F1 F2 F3 F4 F5 F6 F7]. unfold hext_sources. cbn [map app po tool_options hext_files hext_strings W tool read_file]. rewrite F1.
  constructor; [|constructor]. exists text. split; [reflexivity|]. cbn [regexes]. now rewrite c_str_id.
Qed.
Lemma tool_html : Forall2 (html_is W) (html_files po) [to_document M html].
Proof.
  destruct files as [F1 F2 F3 F4 F5 F6 F7]. cbn [po tool_options html_files]. constructor; [|constructor]. exists html. cbn [W tool read_file gumbo_parse]. now rewrite F2.
Qed.

Section Result.
Variables (R : rule) (result : list ResultMap) (objects : list object).
Hypothesis parsed : ParseHext (engine_of M) text = Ok R.
Hypothesis yields : extract_yields (engine_of M) R (fst (to_document M html)) (snd (to_document M html)) 10000 (Ok result).
Hypothesis nul : Forall no_nul result.
Hypothesis conv : Forall2 converted result objects.

Lemma sorted_result : Forall (StronglySorted name_le) result.
Proof. eapply extract_sorted; exact yields. Qed.

Theorem tool_run : exists output, main_yields W po (Ok (mk_ending output [] false)) /\ prints output (map object_value objects).
Proof.
  destruct (print_lines (mk_json_option false false) result eq_refl eq_refl sorted_result) as [os [texts [HC [HP HF]]]].
  exists (lines texts). split.
  - pose proof (main_prints W po [R] [to_document M html] [[result]] [[lines texts]] eq_refl (tool_source R parsed) tool_html) as H.
    assert (H1 : concat (concat [[lines texts]]) = lines texts) by (cbn; now rewrite app_nil_r). rewrite H1 in H. apply H.
    + constructor; [|constructor]. constructor; [|constructor]. exact yields.
    + constructor; [|constructor]. constructor; [|constructor]. cbn [shown po tool_options filter_key]. exists os. split; [exact HC|].
      cbn [json_options ArrayEnvelope PrettyPrint W tool writer]. cbv zeta. rewrite <- HP.
      assert (EO : os = json_array result) by (eapply Forall2_converted_unique; [exact HC|apply json_array_spec, sorted_result]).
      rewrite EO. unfold PrintJson. cbn [ArrayEnvelope PrettyPrint]. unfold lines. now rewrite map_map.
  - assert (EC : map cut_map result = result).
    { clear - nul. induction nul as [|m l H HF IH]; [reflexivity|]. cbn [map]. now rewrite IH, no_nul_cut. }
    rewrite EC in HC. rewrite (Forall2_converted_unique _ _ _ HC conv) in HF. exists texts. split; [reflexivity|].
    clear - HF. induction HF; cbn [map]; constructor; assumption.
Qed.

Theorem python_run : Forall map_utf8 result ->
  exists output, eventually (fun f => python_main M name f args) (Ok (Exits output [] 0)) /\ prints output (map object_value objects).
Proof.
  intros HU. destruct (python_print name hext_file result objects sorted_result nul HU conv) as [h [x [_ EP]]].
  eexists. split; [|apply prints_objects, low_quotes].
  destruct (swig_script_ok hext_file text html 10000 (python_finish hext_file) R result parsed yields) as [f0 H]. exists f0. intros f Hf. rewrite python_main_files.
  rewrite H by exact Hf. exact EP.
Qed.
Theorem python_crash : (forall m kv, In m result -> In kv m -> is_utf8 (fst kv)) -> ~ Forall map_utf8 result ->
  eventually (fun f => python_main M name f args) (UB NullDeref).
Proof.
  intros HK HU. assert (EP : py_convert (fun _ => false) result py_start = UB NullDeref).
  { apply (py_convert_crash (fun _ => false) result sorted_result).
    - intros n. reflexivity.
    - intros m [k v] Hm Hi. cbn [fst]. rewrite Forall_forall in nul. destruct (nul m Hm k v Hi) as [N1 N2]. rewrite c_str_id by exact N1.
      apply utf8_iff. exact (HK m (k, v) Hm Hi).
    - intros HV. apply HU. apply Forall_forall. intros m Hm [k v] Hi. rewrite Forall_forall in nul. destruct (nul m Hm k v Hi) as [N1 N2].
      split; [exact (HK m (k, v) Hm Hi)|]. specialize (HV m (k, v) Hm Hi). cbn [fst snd] in *. rewrite c_str_id in HV by exact N2. now apply utf8_iff. }
  destruct (swig_script_ok hext_file text html 10000 (python_finish hext_file) R result parsed yields) as [f0 H].
  exists f0. intros f Hf. rewrite python_main_files. rewrite H by exact Hf. unfold python_finish. now rewrite EP.
Qed.

Theorem php_run : exists texts, eventually (fun f => php_main M name f args) (Ok (Exits (lines texts) [] 0)) /\ Forall2 php_line result texts.
Proof.
  destruct (php_print_lines result sorted_result nul []) as [texts [EP HF]]. exists texts. split; [|exact HF].
  destruct (swig_script_ok hext_file text html 10000 (php_print []) R result parsed yields) as [f0 H].
  exists f0. intros f Hf. rewrite php_main_files. rewrite H by exact Hf. exact EP.
Qed.

Lemma js_run_with o : decoder_ok M -> snd (to_document M html) <> None -> js_print M [] result = o -> eventually (fun f => js_main M name f args) o.
Proof.
  intros HD HR <-. destruct yields as [f0 HX]. exists f0. intros f Hf. rewrite js_main_files by exact HD. unfold node_new_rule. destruct files as [F1 F2 F3 F4 F5 F6 F7].
  rewrite c_str_id by assumption. rewrite parsed. cbn [obind]. unfold js_extract. rewrite (HX f Hf). destruct (snd (to_document M html)); [reflexivity|congruence].
Qed.
Theorem js_run : decoder_ok M -> snd (to_document M html) <> None -> Forall map_utf8 result ->
  exists output values, eventually (fun f => js_main M name f args) (Ok (Exits output [] 0)) /\ prints output values /\ Forall2 js_value_of objects values.
Proof.
  intros HD HR HU. destruct (js_print_spec M result objects HD sorted_result HU conv []) as [rest [values [E [HP HF]]]].
  exists rest, values. split; [|split; assumption]. now apply js_run_with.
Qed.
Theorem js_run_any : decoder_ok M -> snd (to_document M html) <> None ->
  exists output values, eventually (fun f => js_main M name f args) (Ok (Exits output [] 0)) /\ prints output (map object_value values) /\ length values = length result.
Proof.
  intros HD HR. destruct (js_print_total M result sorted_result []) as [rest [values [E [HP HF]]]].
  exists rest, values. split; [|split; assumption]. now apply js_run_with.
Qed.
End Result.

Section RubyResult.
Variables (R : rule) (result : list ResultMap).
Hypothesis parsed : ParseHext (engine_of M) text = Ok R.
Hypothesis yields : extract_yields (engine_of M) R (fst (to_document M html)) (snd (to_document M html)) 0 (Ok result).

Theorem ruby_run objects : Forall map_utf8 result -> Forall2 converted result objects ->
  exists output, eventually (fun f => ruby_main M name f args) (Ok (Exits output [] 0)) /\ prints output (map object_value objects).
Proof.
  intros HU HC. pose proof (extract_sorted _ _ _ _ _ _ yields) as HS.
  eexists. split; [|apply prints_objects, low_quotes].
  destruct (swig_script_ok hext_file text html 0 (ruby_print []) R result parsed yields) as [f0 H].
  exists f0. intros f Hf. rewrite ruby_main_files. rewrite H by exact Hf.
  pose proof (ruby_print_good result objects HS HU HC [] []) as E. rewrite app_nil_r in E. rewrite E. reflexivity.
Qed.
Theorem ruby_crash good bad rest objects : result = good ++ bad :: rest -> Forall map_utf8 good -> ~ map_utf8 bad -> Forall2 converted good objects ->
  exists output, eventually (fun f => ruby_main M name f args) (Ok (Uncaught output)) /\ prints output (map object_value objects).
Proof.
  intros -> HU HB HC. pose proof (extract_sorted _ _ _ _ _ _ yields) as HS. apply Forall_app in HS as [HS1 HS2]. inversion HS2 as [|? ? HSb _]; subst.
  eexists. split; [|apply prints_objects, low_quotes].
  destruct (swig_script_ok hext_file text html 0 (ruby_print []) R _ parsed yields) as [f0 H].
  exists f0. intros f Hf. rewrite ruby_main_files. rewrite H by exact Hf.
  eapply eq_trans; [exact (ruby_print_good good objects HS1 HU HC [] (bad :: rest))|]. now apply ruby_print_bad.
Qed.
End RubyResult.

(** *** Errors *)

Theorem tool_syntax m : ParseHext (engine_of M) text = Throw (SyntaxError m) ->
  main_yields W po (Ok (mk_ending [] [(s "Error in " ++ hext_file, c_str m)] true)).
Proof.
  intros HP. exists 0. intros f _. destruct files as [F1 F2 F3 F4 F5 F6 F7]. unfold main, W, po, tool_options, hext_files, load_files, read_file, tool.
  rewrite F1. unfold parse_or_error. cbn [regexes]. rewrite (c_str_id text) by exact F5. now rewrite HP.
Qed.
Theorem scripts_syntax m f : ParseHext (engine_of M) text = Throw (SyntaxError m) ->
  python_main M name f args = Ok (Exits [] (in_file name hext_file (c_str m)) 1) /\
  ruby_main M name f args = Ok (Exits [] (in_file name hext_file (c_str m)) 1) /\
  php_main M name f args = Ok (Exits [] (in_file name hext_file (c_str m)) 1) /\
  (decoder_ok M -> js_main M name f args = Ok (Exits [] (in_js_file name hext_file (s "Hext syntax error: " ++ c_str m)) 1)).
Proof.
  intros HP. rewrite python_main_files, ruby_main_files, php_main_files. rewrite !(swig_script_syntax _ _ _ _ _ m) by exact HP.
  split; [reflexivity|]. split; [reflexivity|]. split; [reflexivity|]. intros HD. rewrite js_main_files by exact HD. unfold node_new_rule.
  destruct files as [F1 F2 F3 F4 F5 F6 F7]. rewrite (c_str_id text) by exact F5. now rewrite HP.
Qed.

Theorem tool_limit R : ParseHext (engine_of M) text = Ok R ->
  extract_yields (engine_of M) R (fst (to_document M html)) (snd (to_document M html)) 10000 (Throw MaxSearchError) ->
  main_yields W po (Ok (mk_ending [] [(s "Error", message MaxSearchError)] true)).
Proof.
  intros HP HX. pose proof (main_stops W po [] R [] [] (to_document M html) [] [] [] MaxSearchError [[]] eq_refl (tool_source R HP) tool_html) as H.
  apply H.
  - constructor.
  - constructor.
  - exact HX.
  - constructor; [constructor|constructor].
Qed.
Theorem scripts_limit R : ParseHext (engine_of M) text = Ok R ->
  extract_yields (engine_of M) R (fst (to_document M html)) (snd (to_document M html)) 10000 (Throw MaxSearchError) ->
  eventually (fun f => python_main M name f args) (Ok (Exits [] (in_file name hext_file limit_text) 1)) /\
  eventually (fun f => php_main M name f args) (Ok (Exits [] (in_file name hext_file limit_text) 1)) /\
  (decoder_ok M -> snd (to_document M html) <> None ->
   eventually (fun f => js_main M name f args) (Ok (Exits [] (in_js_file name hext_file (s "Error: " ++ limit_text)) 1))).
Proof.
  intros HP HX. split; [|split].
  - destruct (swig_script_limit hext_file text html 10000 (python_finish hext_file) R HP HX) as [f0 H]. exists f0. intros f Hf. rewrite python_main_files. now apply H.
  - destruct (swig_script_limit hext_file text html 10000 (php_print []) R HP HX) as [f0 H]. exists f0. intros f Hf. rewrite php_main_files. now apply H.
  - intros HD HR. destruct HX as [f0 HX]. exists f0. intros f Hf. rewrite js_main_files by exact HD. unfold node_new_rule.
    destruct files as [F1 F2 F3 F4 F5 F6 F7]. rewrite c_str_id by assumption. rewrite HP. cbn [obind]. unfold js_extract. rewrite (HX f Hf).
    destruct (snd (to_document M html)); [reflexivity|congruence].
Qed.
End Files.

(** ** All outcomes *)

Lemma swig_script_outcome hext_file text html limit print (raises crashes : Prop) : proper_root (to_document M html) ->
  (forall result, Forall (StronglySorted name_le) result -> script_outcome (engine_of M) raises crashes (print result)) ->
  exists o, eventually (fun f => swig_script M name f hext_file text html limit print) o /\ script_outcome (engine_of M) raises crashes o.
Proof.
  intros HR HP. destruct (swig_new_rule (engine_of M) text) as [[R|k m|e]|e|u|] eqn:ER; pose proof (swig_rule_made (engine_of M) text) as HM; rewrite ER in HM; cbn [rule_made] in HM; try contradiction.
  - destruct (parsed_extract _ _ R (to_document M html) limit HM HR) as [o [HX Ho]]. destruct o as [result|[]|[]|]; try contradiction.
    + exists (print result). split; [|now apply HP]. now apply (swig_script_ok hext_file text html limit print R result).
    + eexists. split; [now apply (swig_script_limit hext_file text html limit print R)|]. constructor. destruct name; discriminate.
    + exists (Ok (Killed RegexRuntimeError)). split; [|now constructor]. destruct HX as [f0 HX]. exists f0. intros f Hf. unfold swig_script, swig_extract. rewrite ER. cbn [obind]. now rewrite (HX f Hf).
    + exists (UB IntOverflow). split; [|constructor]. destruct HX as [f0 HX]. exists f0. intros f Hf. unfold swig_script, swig_extract. rewrite ER. cbn [obind]. now rewrite (HX f Hf).
  - eexists. split; [exists 0; intros f _; unfold swig_script; rewrite ER; cbn [obind]; reflexivity|]. constructor. destruct name; discriminate.
  - destruct HM as [-> _]. eexists. split; [exists 0; intros f _; unfold swig_script; rewrite ER; cbn [obind]; reflexivity|]. constructor.
  - destruct HM as [-> _]. eexists. split; [exists 0; intros f _; unfold swig_script; rewrite ER; cbn [obind]; reflexivity|]. constructor.
Qed.

Lemma with_arguments_outcome args (run : nat -> str -> str -> outcome script_end) (raises crashes : Prop) :
  (forall hext_file html_file more, args = hext_file :: html_file :: more ->
     exists o, eventually (fun f => run f hext_file html_file) o /\ script_outcome (engine_of M) raises crashes o) ->
  exists o, eventually (fun f => with_arguments name args (run f)) o /\ script_outcome (engine_of M) raises crashes o.
Proof.
  intros H. destruct args as [|a [|b more]]; cbn [with_arguments].
  - eexists. split; [exists 0; intros f _; cbn [obind with_arguments]; reflexivity|]. constructor.
  - eexists. split; [exists 0; intros f _; cbn [obind with_arguments]; reflexivity|]. constructor. destruct name; discriminate.
  - now apply (H a b more).
Qed.

Hypothesis roots : forall x, proper_root (to_document M x).

Theorem python_outcome args : exists o, eventually (fun f => python_main M name f args) o /\
  script_outcome (engine_of M) (exists h d more, args = h :: d :: more /\ ~ (readable_utf8 M h /\ readable_utf8 M d)) True o.
Proof.
  apply with_arguments_outcome. intros h d more Ea. unfold python_read.
  assert (HU : forall o, (~ (readable_utf8 M h /\ readable_utf8 M d)) -> o = Ok (Uncaught []) ->
    exists o', eventually (fun _ => o) o' /\ script_outcome (engine_of M) (exists h d more, args = h :: d :: more /\ ~ (readable_utf8 M h /\ readable_utf8 M d)) True o').
  { intros o HN ->. eexists. split; [exists 0; reflexivity|]. constructor. now exists h, d, more. }
  destruct (contents M h) as [x|] eqn:Ex; [|apply HU; [intros [[y [E _]] _]; congruence|reflexivity]].
  destruct (utf8 x) eqn:Ux; [|apply HU; [intros [[y [E H]] _]; assert (y = x) by congruence; subst; apply utf8_iff in H; congruence|reflexivity]].
  destruct (contents M d) as [y|] eqn:Ey; [|apply HU; [intros [_ [z [E _]]]; congruence|reflexivity]].
  destruct (utf8 y) eqn:Uy; [|apply HU; [intros [_ [z [E H]]]; assert (z = y) by congruence; subst; apply utf8_iff in H; congruence|reflexivity]].
  apply (swig_script_outcome h _ _ _ (python_finish h)); [apply roots|]. intros result HS. unfold python_finish.
  pose proof (py_convert_outcome (fun _ => false) result HS) as HO.
  destruct (py_convert (fun _ => false) result py_start) as [[hp [r|]]|e|[]|]; try contradiction; cbn [obind].
  - constructor.
  - constructor. destruct name; discriminate.
  - now constructor.
Qed.
Theorem ruby_outcome args : exists o, eventually (fun f => ruby_main M name f args) o /\ script_outcome (engine_of M) True False o.
Proof.
  apply with_arguments_outcome. intros h d more Ea. destruct (contents M h) as [x|].
  2: { eexists. split; [exists 0; reflexivity|]. now constructor. }
  destruct (contents M d) as [y|]; [|eexists; split; [exists 0; reflexivity|now constructor]].
  apply swig_script_outcome; [apply roots|]. intros result HS. destruct (ruby_print_total result HS []) as [[t ->]|[t ->]]; now constructor.
Qed.
Theorem php_outcome args : exists o, eventually (fun f => php_main M name f args) o /\ script_outcome (engine_of M) False False o.
Proof.
  apply with_arguments_outcome. intros h d more Ea. destruct (contents M h) as [x|].
  2: { eexists. split; [exists 0; reflexivity|]. constructor. destruct name; discriminate. }
  destruct (contents M d) as [y|]; [|eexists; split; [exists 0; reflexivity|constructor; destruct name; discriminate]].
  apply swig_script_outcome; [apply roots|]. intros result HS. destruct (php_print_total result HS []) as [t ->]. constructor.
Qed.
Theorem js_outcome args : exists o, eventually (fun f => js_main M name f args) o /\
  script_outcome (engine_of M) (exists h d more, args = h :: d :: more /\ ~ (readable M h /\ readable M d)) False o.
Proof.
  apply with_arguments_outcome. intros h d more Ea. unfold readable.
  destruct (contents M h) as [x|] eqn:Ex.
  2: { eexists. split; [exists 0; reflexivity|]. constructor. exists h, d, more. split; [exact Ea|]. intros [HN _]. congruence. }
  destruct (contents M d) as [y|] eqn:Ey.
  2: { eexists. split; [exists 0; reflexivity|]. constructor. exists h, d, more. split; [exact Ea|]. intros [_ HN]. congruence. }
  pose proof (node_rule_made (engine_of M) [JsString (decode M x)]) as HM. cbv beta iota in HM.
  destruct (node_new_rule (engine_of M) [JsString (decode M x)]) as [[R|k m|e]|e|u|] eqn:ER; cbn [rule_made] in HM; try contradiction.
  - set (doc := to_document M (decode M y)). destruct (parsed_extract _ _ R doc (node_max_searches (Some (JsFinite 10000 0))) HM (roots _)) as [o [HX Ho]].
    destruct (snd doc) as [p|] eqn:Ep.
    2: { eexists. split; [exists 0; intros f _; cbn [obind]; unfold js_extract; fold doc; rewrite Ep; reflexivity|]. constructor. destruct name; discriminate. }
    destruct HX as [f0 HX].
    assert (HE : forall f, f0 <= f -> js_extract M name f h R doc (node_max_searches (Some (JsFinite 10000 0))) =
      match o with
      | Ok result => js_print M [] result
      | Throw MaxSearchError => Ok (Exits [] (in_js_file name h (s "Error: " ++ limit_text)) 1)
      | Throw e => Ok (Killed e)
      | UB u => UB u
      | OutOfFuel => OutOfFuel
      end).
    { intros f Hf. unfold js_extract. rewrite Ep. now rewrite (HX f Hf). }
    destruct o as [result|[]|[]|]; try contradiction.
    + destruct (js_print_total M result Ho []) as [t [vs [EJ _]]]. eexists. split; [exists f0; intros f Hf; cbn [obind]; rewrite (HE f Hf); exact EJ|]. constructor.
    + eexists. split; [exists f0; intros f Hf; cbn [obind]; exact (HE f Hf)|]. constructor. destruct name; discriminate.
    + eexists. split; [exists f0; intros f Hf; cbn [obind]; exact (HE f Hf)|]. now constructor.
    + eexists. split; [exists f0; intros f Hf; cbn [obind]; exact (HE f Hf)|]. constructor.
  - eexists. split; [exists 0; intros f _; cbn [obind with_arguments]; reflexivity|]. constructor. destruct name; discriminate.
  - destruct HM as [-> _]. eexists. split; [exists 0; intros f _; cbn [obind with_arguments]; reflexivity|]. constructor.
  - destruct HM as [-> _]. eexists. split; [exists 0; intros f _; cbn [obind with_arguments]; reflexivity|]. constructor.
Qed.
End Main.

(** ** The four scripts together *)

Lemma Forall2_length {A B} (P : A -> B -> Prop) l l' : Forall2 P l l' -> length l = length l'.
Proof. induction 1; cbn; congruence. Qed.

Section Together.
Variables (M : machine) (name hext_file html_file text html : str) (args : list str) (R : rule).
Variables (unreadable : str -> str) (message : exn -> str).
Hypothesis files : plain_files M hext_file html_file text html.
Hypothesis arguments : exists more, args = hext_file :: html_file :: more.
Hypothesis decoder : decoder_ok M.
Hypothesis root : proper_root (to_document M html).
Hypothesis present : snd (to_document M html) <> None.
Hypothesis parsed : ParseHext (engine_of M) text = Ok R.
Let yields := extract_yields (engine_of M) R (fst (to_document M html)) (snd (to_document M html)).

Lemma without_limit result : yields 10000 (Ok result) -> yields 0 (Ok result).
Proof.
  intros H. destruct (parsed_extract (engine_of M) text R (to_document M html) 0 parsed root) as [o [Ho _]].
  destruct (extract_limit _ _ _ _ _ _ _ Ho H) as [_ [HE|HE]]; [discriminate|]. unfold yields. rewrite HE. exact Ho.
Qed.

Lemma convert_all result : Forall (StronglySorted name_le) result -> exists objects, Forall2 converted result objects.
Proof.
  induction 1 as [|m result HS HF [os IH]]; [exists []; constructor|]. destruct (full_bindings_keep node_handover m) as [o [_ HC]]; [cbn; auto|exact HS|].
  exists (o :: os). now constructor.
Qed.

Lemma php_lines result objects texts : Forall map_utf8 result -> Forall2 converted result objects -> Forall2 php_line result texts ->
  exists values, prints (lines texts) values /\ Forall2 php_value objects values.
Proof.
  intros HU HC. revert texts. induction HC as [|m o result objects H HC IH]; intros texts HL; inversion HL as [|? t ? ts HL1 HL2]; subst.
  - exists []. split; [apply prints_nil|constructor].
  - inversion HU as [|? ? HU1 HU2]; subst. destruct (IH HU2 ts HL2) as [values [HP HF]]. destruct HL1 as [o' [HC' [HY _]]]. destruct (HY HU1) as [v [HV HS]].
    rewrite (converted_unique _ _ _ HC' H) in HV. exists (v :: values). split; [|now constructor].
    unfold lines. cbn [map concat]. rewrite <- app_assoc. now apply prints_more.
Qed.

Theorem scripts_same result : yields 10000 (Ok result) -> Forall no_nul result -> Forall map_utf8 result ->
  exists objects, Forall2 converted result objects /\ same_prints M name args unreadable message hext_file html_file objects.
Proof.
  intros HX HN HU. destruct (convert_all result (extract_sorted _ _ _ _ _ _ HX)) as [objects HC]. exists objects. split; [exact HC|].
  split; [|split; [|split; [|split]]].
  - now apply (tool_run M hext_file html_file text html files unreadable message R result objects parsed HX HN HC).
  - now apply (python_run M name hext_file html_file text html files args arguments R result objects parsed HX HN HC).
  - now apply (ruby_run M name hext_file html_file text html files args arguments R result parsed (without_limit _ HX) objects).
  - destruct (php_run M name hext_file html_file text html files args arguments R result parsed HX HN) as [texts [HE HL]].
    destruct (php_lines result objects texts HU HC HL) as [values [HP HF]]. exists (lines texts), values. auto.
  - now apply (js_run M name hext_file html_file text html files args arguments R result objects parsed HX HC).
Qed.

(** A result with a value that is not UTF-8. *)
Theorem scripts_differ result good bad rest objects : yields 10000 (Ok result) -> Forall no_nul result ->
  result = good ++ bad :: rest -> Forall map_utf8 good -> ~ map_utf8 bad -> (forall m kv, In m result -> In kv m -> is_utf8 (fst kv)) ->
  Forall2 converted result objects ->
  (exists output, main_yields (tool M unreadable message) (tool_options hext_file html_file) (Ok (mk_ending output [] false)) /\
     prints output (map object_value objects)) /\
  eventually (fun f => python_main M name f args) (UB NullDeref) /\
  (exists output, eventually (fun f => ruby_main M name f args) (Ok (Uncaught output)) /\
     prints output (map object_value (firstn (length good) objects))) /\
  (exists texts, eventually (fun f => php_main M name f args) (Ok (Exits (lines texts) [] 0)) /\
     length texts = length result /\ nth_error texts (length good) = Some []) /\
  (exists output values, eventually (fun f => js_main M name f args) (Ok (Exits output [] 0)) /\
     prints output (map object_value values) /\ length values = length result).
Proof.
  intros HX HN ER HG HB HK HC. split; [|split; [|split; [|split]]].
  - now apply (tool_run M hext_file html_file text html files unreadable message R result objects parsed HX HN HC).
  - apply (python_crash M name hext_file html_file text html files args arguments R result parsed HX HN HK).
    intros HF. rewrite ER in HF. apply Forall_app in HF as [_ HF]. inversion HF; subst. contradiction.
  - apply (ruby_crash M name hext_file html_file text html files args arguments R result parsed (without_limit _ HX) good bad rest); try assumption.
    clear - HC ER. subst result. apply Forall2_app_inv_l in HC as [l1 [l2 [H1 [H2 ->]]]]. rewrite (Forall2_length _ _ _ H1), firstn_app, Nat.sub_diag, firstn_all, app_nil_r. exact H1.
  - destruct (php_run M name hext_file html_file text html files args arguments R result parsed HX HN) as [texts [HE HL]]. exists texts. split; [exact HE|].
    split; [symmetry; exact (Forall2_length _ _ _ HL)|]. clear - HL ER HB. subst result. apply Forall2_app_inv_l in HL as [l1 [l2 [H1 [H2 ->]]]].
    inversion H2 as [|? t ? ts [o [_ [_ HT]]] _]; subst. rewrite (Forall2_length _ _ _ H1), nth_error_app2, Nat.sub_diag by lia. cbn. now rewrite HT.
  - now apply (js_run_any M name hext_file html_file text html files args arguments R result parsed HX).
Qed.
End Together.

Theorem scripts_report_syntax M name hext_file html_file text html args unreadable message m :
  plain_files M hext_file html_file text html -> (exists more, args = hext_file :: html_file :: more) ->
  decoder_ok M -> ParseHext (engine_of M) text = Throw (SyntaxError m) ->
  main_yields (tool M unreadable message) (tool_options hext_file html_file)
    (Ok (mk_ending [] [(s "Error in " ++ hext_file, c_str m)] true)) /\
  forall f,
    python_main M name f args = Ok (Exits [] (in_file name hext_file (c_str m)) 1) /\
    ruby_main M name f args = Ok (Exits [] (in_file name hext_file (c_str m)) 1) /\
    php_main M name f args = Ok (Exits [] (in_file name hext_file (c_str m)) 1) /\
    js_main M name f args = Ok (Exits [] (in_js_file name hext_file (s "Hext syntax error: " ++ c_str m)) 1).
Proof.
  intros HF HA HD HP. split; [eapply tool_syntax; eassumption|]. intros f.
  destruct (scripts_syntax M name hext_file html_file text html HF args HA m f HP) as (H1 & H2 & H3 & H4). auto.
Qed.

Theorem scripts_report_limit M name hext_file html_file text html args R unreadable message result objects :
  plain_files M hext_file html_file text html -> (exists more, args = hext_file :: html_file :: more) ->
  decoder_ok M -> snd (to_document M html) <> None -> ParseHext (engine_of M) text = Ok R ->
  extract_yields (engine_of M) R (fst (to_document M html)) (snd (to_document M html)) 10000 (Throw MaxSearchError) ->
  extract_yields (engine_of M) R (fst (to_document M html)) (snd (to_document M html)) 0 (Ok result) ->
  Forall map_utf8 result -> Forall2 converted result objects ->
  main_yields (tool M unreadable message) (tool_options hext_file html_file)
    (Ok (mk_ending [] [(s "Error", message MaxSearchError)] true)) /\
  eventually (fun f => python_main M name f args) (Ok (Exits [] (in_file name hext_file limit_text) 1)) /\
  eventually (fun f => php_main M name f args) (Ok (Exits [] (in_file name hext_file limit_text) 1)) /\
  eventually (fun f => js_main M name f args) (Ok (Exits [] (in_js_file name hext_file (s "Error: " ++ limit_text)) 1)) /\
  exists output, eventually (fun f => ruby_main M name f args) (Ok (Exits output [] 0)) /\ prints output (map object_value objects).
Proof.
  intros HF HA HD HR HP HX H0 HU HC. split; [eapply tool_limit; eassumption|].
  destruct (scripts_limit M name hext_file html_file text html HF args HA R HP HX) as (H1 & H2 & H3).
  split; [exact H1|]. split; [exact H2|]. split; [now apply H3|]. eapply ruby_run; eassumption.
Qed.

Theorem scripts_outcomes M name args : (forall x, proper_root (to_document M x)) ->
  (exists o, eventually (fun f => python_main M name f args) o /\
     script_outcome (engine_of M) (exists h d more, args = h :: d :: more /\ ~ (readable_utf8 M h /\ readable_utf8 M d)) True o) /\
  (exists o, eventually (fun f => ruby_main M name f args) o /\ script_outcome (engine_of M) True False o) /\
  (exists o, eventually (fun f => php_main M name f args) o /\ script_outcome (engine_of M) False False o) /\
  (exists o, eventually (fun f => js_main M name f args) o /\
     script_outcome (engine_of M) (exists h d more, args = h :: d :: more /\ ~ (readable M h /\ readable M d)) False o).
Proof.
  intros HR. split; [now apply python_outcome|]. split; [now apply ruby_outcome|]. split; [now apply php_outcome|]. now apply js_outcome.
Qed.
