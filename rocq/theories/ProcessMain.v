(** The process htmlext does what is expected. *)

From Coq Require Import Ascii String Arith NArith ZArith Bool List Lia.
From Verif Require Import Samples Base StringUtil StringProofs Dom Values Match Rule RuleMatching ExtractSpec Parser ParserSpec ParserSafety Convert Cli CliSpec CliProofs
  BindSpec BindProofs Program ProgramSpec ProgramProofs Process ProcessSpec ProcessProofs.
Import ListNotations.

Section Main.
Context {World : Type}.
Variable S0 : system World.
Notation L := (libraries S0).

(** ** Printing *)

Lemma print_success po rules docs results texts :
  Forall2 (fun r => Forall2 (fun d result => extracts L po r d (Ok result)) docs) rules results ->
  Forall2 (Forall2 (shown L po)) results texts ->
  exists f0, forall f, f0 <= f -> print_rules f L po rules docs = Ok (concat (concat texts), None).
Proof.
  intros HT HX. rewrite (shown_texts _ _ _ _ _ _ HT HX), <- table_text_concat.
  destruct (print_rules_app _ _ _ _ _ HT) as [f0 H0]. exists f0. intros f Hf. specialize (H0 f [] Hf). rewrite app_nil_r in H0. rewrite H0.
  cbn. now rewrite app_nil_r.
Qed.

Lemma print_stops po before r after docs1 d docs2 results row e texts :
  Forall2 (fun r0 => Forall2 (fun doc result => extracts L po r0 doc (Ok result)) (docs1 ++ d :: docs2)) before results ->
  Forall2 (fun doc result => extracts L po r doc (Ok result)) docs1 row -> extracts L po r d (Throw e) ->
  Forall2 (Forall2 (shown L po)) (results ++ [row]) texts ->
  exists f0, forall f, f0 <= f -> print_rules f L po (before ++ r :: after) (docs1 ++ d :: docs2) = Ok (concat (concat texts), Some (s "Error", sys_what S0 e)).
Proof.
  intros HT HR [f3 HE] HX.
  assert (E : texts = map (map (print_result L po)) (results ++ [row])).
  { apply (Forall2_unique (Forall2 (shown L po))) with (l := results ++ [row]); [|exact HX|].
    - intros a b b'. apply Forall2_unique. apply shown_unique.
    - rewrite map_app. apply Forall2_app; [eapply table_shown; exact HT|]. constructor; [|constructor]. eapply row_shown. exact HR. }
  rewrite E, <- table_text_concat.
  destruct (print_rules_app _ _ _ _ _ HT) as [f0 H0]. destruct (print_inputs_app _ _ _ _ _ HR) as [f1 H1].
  exists (max f0 (max f1 f3)). intros f Hf. rewrite H0 by lia.
  cbn [print_rules]. rewrite H1 by lia. destruct d as [D root]. cbn [print_inputs fst snd] in *. rewrite HE by lia.
  cbn [obind fst snd]. unfold table_text. rewrite map_app, concat_app. cbn [map concat]. now rewrite !app_nil_r.
Qed.

(** ** The options *)

Lemma lint_words argv : existsb (str_eqb (s "-l")) argv || existsb (str_eqb (s "--lint")) argv = true <-> In (s "-l") argv \/ In (s "--lint") argv.
Proof.
  rewrite orb_true_iff, !existsb_exists. split.
  - intros [[x [H E]]|[x [H E]]]; apply str_eqb_eq in E; subst x; auto.
  - intros [H|H]; [left|right]; eexists; (split; [exact H|now apply str_eqb_eq]).
Qed.

Lemma found_run argv r : found S0 argv r <->
  boost_run S0 (negb (existsb (str_eqb (s "-l")) argv || existsb (str_eqb (s "--lint")) argv)) argv = r.
Proof.
  pose proof (lint_words argv) as H. unfold found. destruct (existsb _ argv || existsb _ argv); cbn [negb].
  - split; [intros [[_ E]|[[H1 H2] _]]; [exact E|tauto]|]. intros E. left. tauto.
  - split; [intros [[HI _]|[_ E]]; [|exact E]|].
    + apply H in HI. discriminate.
    + intros E. right. split; [|exact E]. split; intros HI; assert (X : false = true) by tauto; discriminate.
Qed.

Lemma not_given vm key : po_contains vm key = false <-> ~ given vm key.
Proof. rewrite <- contains_given. destruct (po_contains vm key); intuition congruence. Qed.

Lemma store_accepted argv vm : accepted S0 argv vm -> po_store (boost_run S0) argv = inl vm.
Proof.
  intros [HF HH HV HX HL]. apply found_run in HF. unfold po_store. rewrite HF. apply not_given in HH, HV. rewrite HH, HV. cbn [orb].
  rewrite <- !contains_given in HX, HL. destruct (po_contains vm (s "hext")), (po_contains vm (s "str")), (po_contains vm (s "lint")), (po_contains vm (s "html"));
    cbn; intuition congruence.
Qed.

Lemma store_refused argv e : po_store (boost_run S0) argv = inr e -> refused S0 argv e.
Proof.
  unfold po_store. set (b := negb _). destruct (boost_run S0 b argv) as [vm|e'] eqn:E; [|intros [= ->]; apply refused_by_boost; now apply found_run].
  assert (F : found S0 argv (inl vm)) by now apply found_run.
  destruct (po_contains vm (s "help")) eqn:E1; [discriminate|]. destruct (po_contains vm (s "version")) eqn:E2; [discriminate|]. cbn [orb].
  apply not_given in E1, E2.
  destruct (po_contains vm (s "hext")) eqn:E3, (po_contains vm (s "str")) eqn:E4; cbn [negb andb];
    try (intros [= <-]; eapply refused_no_hext; try eassumption; now apply not_given);
    (destruct (po_contains vm (s "lint")) eqn:E5; [discriminate|]; destruct (po_contains vm (s "html")) eqn:E6; [discriminate|]; cbn [negb];
     intros [= <-]; eapply refused_no_html; try eassumption; try (now apply not_given); rewrite <- !contains_given; auto).
Qed.

Lemma store_found argv vm : po_store (boost_run S0) argv = inl vm ->
  found S0 argv (inl vm) /\ (po_contains vm (s "help") = true \/ po_contains vm (s "version") = true \/ accepted S0 argv vm).
Proof.
  unfold po_store. set (b := negb _). destruct (boost_run S0 b argv) as [vm'|e'] eqn:E; [|discriminate].
  assert (F : found S0 argv (inl vm')) by now apply found_run.
  destruct (po_contains vm' (s "help")) eqn:E1; [intros [= <-]; auto|]. destruct (po_contains vm' (s "version")) eqn:E2; [intros [= <-]; auto|]. cbn [orb].
  destruct (po_contains vm' (s "hext")) eqn:E3, (po_contains vm' (s "str")) eqn:E4; cbn [negb andb]; try discriminate;
    (destruct (po_contains vm' (s "lint")) eqn:E5; [|destruct (po_contains vm' (s "html")) eqn:E6; [|discriminate]]; cbn [negb]; intros [= <-];
     (split; [exact F|]; right; right; split; [exact F|now apply not_given|now apply not_given| |]; rewrite <- !contains_given; auto)).
Qed.

Definition options_of (vm : variables) : options :=
  mk_options (all_values vm (s "hext")) (all_values vm (s "str")) (all_values vm (s "html")) (po_contains vm (s "lint"))
    (if po_contains vm (s "filter") then option_map (hd []) (po_get vm (s "filter")) else None)
    (boost_number S0 (all_values vm (s "max-searches"))) (json_options_of S0 vm).

Lemma bool_iff a b : (a = true <-> b = true) -> a = b.
Proof. destruct a, b; intuition congruence. Qed.

Lemma filter_value vm : (po_contains vm (s "filter") = true -> all_values vm (s "filter") <> []) ->
  forall key, (if po_contains vm (s "filter") then option_map (hd []) (po_get vm (s "filter")) else None) = Some key <->
    given vm (s "filter") /\ exists l, all_values vm (s "filter") = key :: l.
Proof.
  intros HF key. rewrite <- contains_given. destruct (po_contains vm (s "filter")) eqn:E; [|split; [discriminate|intros [X _]; discriminate]].
  specialize (HF eq_refl). unfold po_get, all_values in *. destruct (vm (s "filter")) as [v|]; [|congruence]. cbn [option_map].
  destruct (values v) as [|x l]; [congruence|]. cbn [hd]. split; [intros [= ->]; eauto|]. intros [_ [l' [= -> _]]]. reflexivity.
Qed.

Lemma options_chosen vm : (po_contains vm (s "filter") = true -> all_values vm (s "filter") <> []) -> chosen S0 vm (options_of vm).
Proof.
  intros HF. constructor; try reflexivity.
  - apply contains_given.
  - apply filter_value. exact HF.
  - apply contains_given.
  - cbn. rewrite orb_true_iff, andb_true_iff, negb_true_iff, contains_given, not_given. reflexivity.
Qed.

Lemma chosen_options vm po : (po_contains vm (s "filter") = true -> all_values vm (s "filter") <> []) -> chosen S0 vm po -> po = options_of vm.
Proof.
  intros HF H. destruct (options_chosen vm HF) as [_ _ _ l _ _ a p]. destruct H as [H1 H2 H3 H4 H5 H6 H7 H8].
  pose proof (filter_value vm HF) as V.
  destruct po as [files strings html lint0 key number [pretty array]]. cbn [hext_files hext_strings html_files lint filter_key max_searches_option json_options PrettyPrint ArrayEnvelope options_of] in *.
  unfold options_of. subst. f_equal.
  - apply bool_iff. rewrite H4. symmetry. exact l.
  - destruct key as [key|].
    + symmetry. apply V. now apply H5.
    + destruct (if po_contains vm (s "filter") then _ else _) as [key|] eqn:E; [|reflexivity]. exfalso.
      assert (X : None = Some key) by (apply H5; now apply V). discriminate.
  - destruct (json_options_of S0 vm) as [p' a'] eqn:E. cbn [PrettyPrint ArrayEnvelope] in a, p. f_equal; apply bool_iff; [rewrite H8|rewrite H7]; symmetry; assumption.
Qed.

(** What there is, by the contract with boost. *)
Record there (vm : variables) : Prop := {
  there_hext : po_get vm (s "hext") = Some (all_values vm (s "hext"));
  there_str : po_get vm (s "str") = Some (all_values vm (s "str"));
  there_html : po_contains vm (s "lint") = false -> po_get vm (s "html") = Some (all_values vm (s "html"));
  there_number : po_get vm (s "max-searches") = Some (all_values vm (s "max-searches"));
  there_filter : po_contains vm (s "filter") = true -> all_values vm (s "filter") <> []
}.

Lemma accepted_there argv vm : boost_contract (boost_run S0) -> accepted S0 argv vm -> there vm.
Proof.
  intros HC [HF HH HV HX HL]. apply found_run in HF. destruct (HC _ _ _ HF) as [H1 H2].
  assert (G : forall key, vm key <> None -> po_get vm key = Some (all_values vm key)).
  { intros key. unfold po_get, all_values. destruct (vm key); [reflexivity|congruence]. }
  constructor.
  - apply G, H1. now left.
  - apply G, H1. right. now left.
  - intros E. apply not_given in E. destruct HL as [HL|[v [Ev _]]]; [contradiction|]. apply G. congruence.
  - apply G, H1. right. right. now left.
  - intros E. apply contains_given in E as [v [Ev Hd]]. unfold all_values. rewrite Ev. apply (H2 (s "filter") v); [do 3 right; now left|exact Ev|exact Hd].
Qed.

(** ** The run *)

Definition rest_of_main (fuel : nat) (name : str) (po : options) (rules : list rule) (w1 : World) (t1 : list event) : seen (World := World) nat :=
  if lint po then Ok (EXIT_SUCCESS, w1, t1)
  else
    let! (rd, w2, t2) := load_html_at S0 fuel w1 (html_files po) in
    match rd with
    | inr e => give_up S0 (Some name) w2 (t1 ++ t2) e
    | inl docs =>
        let! (text, e) := print_rules fuel L po rules docs in
        let t := t1 ++ t2 ++ match text with [] => [] | _ => [Prints text] end in
        match e with
        | Some x => give_up S0 (Some name) w2 t x
        | None => Ok (EXIT_SUCCESS, w2, t)
        end
    end.

Lemma main_at_eq f name vm w : there vm ->
  main_at S0 f (Some name) vm w =
    let po := options_of vm in
    let! (rf, w1, t1) := load_files_at S0 f w (hext_files po) in
    match rf with
    | inr e => give_up S0 (Some name) w1 t1 e
    | inl from_files =>
        let! rs := load_strings L (hext_strings po) in
        match rs with
        | inr e => give_up S0 (Some name) w1 t1 e
        | inl from_strings => rest_of_main f name po (from_files ++ from_strings) w1 t1
        end
    end.
Proof.
  intros [H1 H2 H3 H4 H5]. unfold main_at. rewrite H1, H2, H4. cbv zeta. cbn [options_of hext_files hext_strings].
  destruct (load_files_at S0 f w (all_values vm (s "hext"))) as [[[rf w1] t1]| | |]; cbn [obind]; try reflexivity. destruct rf as [from_files|e]; [|reflexivity].
  destruct (load_strings L (all_values vm (s "str"))) as [[from_strings|e]| | |]; cbn [obind]; try reflexivity.
  unfold rest_of_main. cbn [options_of lint html_files]. destruct (po_contains vm (s "lint")) eqn:EL; [reflexivity|]. rewrite (H3 eq_refl).
  destruct (load_html_at S0 f w1 (all_values vm (s "html"))) as [[[[docs|e] w2] t2]| | |]; cbn [obind]; try reflexivity.
  unfold options_of. rewrite EL. destruct (po_contains vm (s "filter")) eqn:EF.
  - specialize (H5 eq_refl). unfold po_get, all_values in *. destruct (vm (s "filter")) as [v|]; [|congruence]. cbn [option_map]. destruct (values v); [congruence|reflexivity].
  - destruct (po_get vm (s "filter")) as [[|]|]; reflexivity.
Qed.

Lemma error_line name m : error_text S0 (Some name) (fst m) (snd m) = Ok (message_line S0 name m).
Proof. unfold error_text, message_line. destruct (stderr_tty S0); reflexivity. Qed.

Lemma give_up_eq name w t m : give_up S0 (Some name) w t m = Ok (1, w, t ++ [Complains (message_line S0 name m)]).
Proof. unfold give_up. rewrite error_line. reflexivity. Qed.

(** The rest of main, once the rules are there. *)
Theorem course_runs name vm po w paths text message w' : there vm -> chosen S0 vm po -> course S0 po w paths text message w' ->
  eventually (fun f => main_at S0 f (Some name) vm w) (Ok (run_status message, w', run_events S0 name paths text message)).
Proof.
  intros HT HC H. pose proof (chosen_options vm po (there_filter vm HT) HC) as ->. clear HC. unfold eventually.
  assert (LD : forall rules p w1, rules_of S0 w (sources (options_of vm)) rules p w1 -> forall f, 2 <= f ->
    main_at S0 f (Some name) vm w = rest_of_main f name (options_of vm) rules w1 (map Opens p)).
  { intros rules p w1 HR f Hf. rewrite (main_at_eq _ _ _ _ HT). unfold sources in HR. apply rules_of_app in HR as [r1 [r2 [p1 [p2 [wm [-> [-> [H1 H2]]]]]]]].
    cbv zeta. rewrite (files_ok S0 f Hf _ _ _ _ _ H1). cbn [obind]. rewrite (strings_ok S0 _ _ _ _ _ H2). cbn [obind].
    destruct (strings_world S0 _ _ _ _ _ H2) as [-> ->]. now rewrite app_nil_r. }
  inversion H as [? before x after rules m p w1 p' ? ES HR HB|? rules p ? EL HR|? rules p w1 before n after docs p' w2 reason p'' ? EL HR EH HD HN
                 |? before r after p w1 docs1 doc docs2 p' ? results row texts e EL HR HD H1 H2 H3 H4
                 |? rules p w1 docs p' ? results texts EL HR HD H1 H2]; subst.
  - exists 2. intros f Hf. rewrite (main_at_eq _ _ _ _ HT). cbv zeta.
    assert (B : bad_at S0 w (sources (options_of vm)) m (p ++ p') w') by (exists before, x, after, rules, p, w1, p'; auto).
    unfold run_events. cbn [run_status app]. unfold sources in ES.
    destruct (app_split _ _ _ _ _ ES) as [[a' E1]|[b' [-> E2]]].
    + rewrite (files_bad S0 f Hf _ w m (p ++ p') w') by (exists before, x, a', rules, p, w1, p'; auto). cbn [obind]. now rewrite give_up_eq.
    + apply rules_of_app in HR as [r1 [r2 [p1 [p2 [wm [-> [-> [G1 G2]]]]]]]]. rewrite (files_ok S0 f Hf _ _ _ _ _ G1). cbn [obind].
      destruct (strings_bad S0 (hext_strings (options_of vm)) wm m (p2 ++ p') w') as [-> [Ep ->]]; [exists b', x, after, r2, p2, w1, p'; auto|].
      cbn [obind]. rewrite give_up_eq. rewrite <- app_assoc, Ep, app_nil_r. reflexivity.
  - exists 2. intros f Hf. rewrite (LD _ _ _ HR f Hf). unfold rest_of_main. rewrite EL. unfold run_events. cbn [app]. now rewrite app_nil_r.
  - exists 2. intros f Hf. rewrite (LD _ _ _ HR f Hf). unfold rest_of_main. rewrite EL, EH. rewrite (html_bad S0 f Hf _ _ _ _ _ _ _ _ _ _ HD HN). cbn [obind].
    rewrite give_up_eq. unfold run_events. cbn [app run_status]. now rewrite <- map_app.
  - destruct (print_stops _ _ _ after _ _ _ _ _ _ _ H1 H2 H3 H4) as [f0 H0]. exists (max 2 f0). intros f Hf. rewrite (LD _ _ _ HR f) by lia.
    unfold rest_of_main. rewrite EL. rewrite (html_ok S0 f) with (docs := docs1 ++ doc :: docs2) (p := p') (w' := w') by (lia || exact HD). cbn [obind].
    rewrite H0 by lia. cbn [obind]. rewrite give_up_eq. unfold run_events. cbn [run_status]. rewrite map_app. now rewrite <- !app_assoc.
  - destruct (print_success _ _ _ _ _ H1 H2) as [f0 H0]. exists (max 2 f0). intros f Hf. rewrite (LD _ _ _ HR f) by lia.
    unfold rest_of_main. rewrite EL. rewrite (html_ok S0 f) with (docs := docs) (p := p') (w' := w') by (lia || exact HD). cbn [obind].
    rewrite H0 by lia. cbn [obind]. unfold run_events. cbn [run_status]. rewrite map_app, app_nil_r. now rewrite <- app_assoc.
Qed.

Theorem run_total name vm po w : there vm -> chosen S0 vm po -> (forall text, proper_root (sys_parse S0 text)) ->
  (exists paths text message w', course S0 po w paths text message w') \/
  (strange_at S0 w (sources po) /\ eventually (fun f => main_at S0 f (Some name) vm w) (UB BadCtypeArgument)) \/
  (overflow_at S0 po w /\ eventually (fun f => main_at S0 f (Some name) vm w) (UB IntOverflow)).
Proof.
  intros HT HC HP. pose proof (chosen_options vm po (there_filter vm HT) HC) as ->. clear HC. set (po := options_of vm).
  destruct (sources_total S0 (sources po) w) as [[rules [p [w1 HR]]]|[[m [p [w1 HB]]]|HS]].
  2: { left. destruct HB as [b [x [a [rs [p1 [wm [p' [E [H1 [H2 ->]]]]]]]]]]. exists (p1 ++ p'), [], (Some m), w1. eapply course_source; eassumption. }
  2: { right. left. split; [exact HS|]. exists 2. intros f Hf. rewrite (main_at_eq _ _ _ _ HT). cbv zeta. fold po.
       destruct HS as [b [x [a [rs [p [w1 [text [p' [w2 [E [H1 [H2 [H3 H4]]]]]]]]]]]]]. unfold sources in E.
       destruct (app_split _ _ _ _ _ E) as [[a' E1]|[b' [-> E2]]].
       - rewrite (files_strange S0 f Hf); [reflexivity|]. exists b, x, a', rs, p, w1, text, p', w2. auto.
       - apply rules_of_app in H1 as [r1 [r2 [p1 [p2 [wm [-> [-> [G1 G2]]]]]]]]. rewrite (files_ok S0 f Hf _ _ _ _ _ G1). cbn [obind].
         rewrite (strings_strange S0 _ wm); [reflexivity|]. exists b', x, a, r2, p2, w1, text, p', w2. auto. }
  destruct (lint po) eqn:EL; [left; do 4 eexists; eapply course_lint; eassumption|].
  destruct (documents_total S0 (html_files po) w1) as [[docs [p' [w2 HD]]]|[b [n [a [docs [p' [w2 [reason [p'' [w3 [E [H1 H2]]]]]]]]]]]].
  2: { left. do 4 eexists. eapply course_document; eassumption. }
  destruct (print_rules_total L po docs rules) as [f0 [o [Ho Hok]]].
  { exact (rules_parsed S0 _ _ _ _ _ HR). }
  { exact (documents_proper S0 _ _ _ _ _ HP HD). }
  destruct o as [[t [e|]]|e|u|]; try contradiction.
  - left. destruct Hok as [bf [r [af [d1 [d [d2 [results [row [x [-> [-> [G1 [G2 G3]]]]]]]]]]]]].
    do 4 eexists. eapply course_extraction; try eassumption. eapply shown_rows; eassumption.
  - left. destruct (choose_results (fun r results => Forall2 (fun doc result => extracts L po r doc (Ok result)) docs results) rules) as [results HX].
    { intros r Hr. apply (choose_results (fun doc result => extracts L po r doc (Ok result)) docs). intros d Hi. now apply Hok. }
    do 4 eexists. eapply course_success; try eassumption. eapply table_shown. exact HX.
  - destruct u; try contradiction. right. right. destruct Hok as [r [d [Hr [Hi Ho']]]]. split.
    + exists rules, p, w1, docs, p', w2, r, d. repeat split; assumption.
    + exists (max 2 f0). intros f Hf. rewrite (main_at_eq _ _ _ _ HT). cbv zeta. fold po. unfold sources in HR.
      apply rules_of_app in HR as [r1 [r2 [p1 [p2 [wm [-> [-> [H1 H2]]]]]]]].
      rewrite (files_ok S0 f) with (rs := r1) (p := p1) (w' := wm) by (lia || exact H1). cbn [obind]. rewrite (strings_ok S0 _ _ _ _ _ H2). cbn [obind].
      destruct (strings_world S0 _ _ _ _ _ H2) as [-> ->]. unfold rest_of_main. rewrite EL.
      rewrite (html_ok S0 f) with (docs := docs) (p := p') (w' := w2) by (lia || exact HD). cbn [obind]. rewrite Ho by lia. reflexivity.
Qed.

(** ** The process *)

Definition help_middle (name : str) : str :=
  s " - Extract structured content from HTML." ++ newline ++ newline ++
  s "Usage:" ++ newline ++ s "  " ++ name ++
  s " [options] <hext-file> <html-file...>" ++ newline ++
  s "      Apply extraction rules from <hext-file> to each" ++ newline ++
  s "      <html-file> and print the captured content as JSON." ++ newline ++ newline.

Lemma help_is name : exists text, help_text S0 (Some name) = Ok text /\ is_help S0 name text.
Proof. eexists. split; [reflexivity|]. exists (help_middle name). unfold help_middle. now rewrite <- !app_assoc. Qed.

Lemma version_is : is_version S0 (version_text S0).
Proof.
  exists (s ", Copyright (C) 2024 Thomas Trapp" ++ newline ++ s "linked with libhext v"), [],
    (s "Released under the Apache License v2" ++ newline ++ s "Documentation: https://hext.thomastrapp.com" ++ newline).
  unfold version_text. now rewrite <- !app_assoc.
Qed.

Theorem process_runs name more vm po w paths text message w' : boost_contract (boost_run S0) ->
  accepted S0 (name :: more) vm -> chosen S0 vm po -> course S0 po w paths text message w' ->
  eventually (fun f => process S0 f (name :: more) w) (Ok (run_status message, w', run_events S0 name paths text message)).
Proof.
  intros HB HA HC H. pose proof (accepted_there _ _ HB HA) as HT. destruct (course_runs name vm po w paths text message w' HT HC H) as [f0 H0].
  exists f0. intros f Hf. unfold process. rewrite (store_accepted _ _ HA). destruct HA as [_ H1 H2 _ _]. apply not_given in H1, H2. rewrite H1, H2. cbn [hd_error]. now apply H0.
Qed.

Definition process_outcome (name : str) (more : list str) (w : World) (o : outcome (nat * World * list event)) : Prop :=
  match o with
  | Ok (status, w', t) => behaves S0 name more w t status w'
  | UB BadCtypeArgument => exists vm po, accepted S0 (name :: more) vm /\ chosen S0 vm po /\ strange_at S0 w (sources po)
  | UB IntOverflow => exists vm po, accepted S0 (name :: more) vm /\ chosen S0 vm po /\ overflow_at S0 po w
  | _ => False
  end.

Theorem process_total name more w : boost_contract (boost_run S0) -> (forall text, proper_root (sys_parse S0 text)) ->
  exists o, eventually (fun f => process S0 f (name :: more) w) o /\ process_outcome name more w o.
Proof.
  intros HB HP. destruct (po_store (boost_run S0) (name :: more)) as [vm|e] eqn:ES.
  2: { destruct (help_is name) as [help [EH HH]].
       exists (Ok (1, w, Complains (message_line S0 name (s "Argument error", e)) :: match more with [] => [Complains newline; Complains help] | _ => [] end)). split.
       - exists 0. intros f _. unfold process. rewrite ES. cbn [hd_error].
         pose proof (error_line name (s "Argument error", e)) as EL. cbn [fst snd] in EL. rewrite EL. cbn [obind]. rewrite EH. destruct more; reflexivity.
       - cbn. apply behaves_refused; [now apply store_refused|now right]. }
  destruct (store_found _ _ ES) as [HF HX].
  destruct (po_contains vm (s "help")) eqn:EH.
  { destruct (help_is name) as [help [Eh Hh]]. exists (Ok (0, w, [Prints help])). split.
    - exists 0. intros f _. unfold process. rewrite ES, EH. cbn [hd_error]. rewrite Eh. reflexivity.
    - cbn. eapply behaves_help; [exact HF|now apply contains_given|exact Hh]. }
  destruct (po_contains vm (s "version")) eqn:EV.
  { exists (Ok (0, w, [Prints (version_text S0)])). split.
    - exists 0. intros f _. unfold process. now rewrite ES, EH, EV.
    - cbn. eapply behaves_version; [exact HF|now apply not_given|now apply contains_given|exact version_is]. }
  destruct HX as [X|[X|HA]]; [discriminate|discriminate|].
  pose proof (accepted_there _ _ HB HA) as HT. pose proof (options_chosen vm (there_filter vm HT)) as HC.
  assert (M : forall o, eventually (fun f => main_at S0 f (Some name) vm w) o -> eventually (fun f => process S0 f (name :: more) w) o).
  { intros o [f0 H0]. exists f0. intros f Hf. unfold process. rewrite ES, EH, EV. now apply H0. }
  destruct (run_total name vm (options_of vm) w HT HC HP) as [[paths [text [message [w' H]]]]|[[HS H]|[HO H]]].
  - eexists. split; [apply M; eapply course_runs; eassumption|]. cbn. eapply behaves_run; eassumption.
  - exists (UB BadCtypeArgument). split; [now apply M|]. cbn. eauto.
  - exists (UB IntOverflow). split; [now apply M|]. cbn. eauto.
Qed.

(** ** What can be seen *)

Lemma eventually_unique {A} (run : nat -> outcome A) o o' : eventually run o -> eventually run o' -> o = o'.
Proof. intros [f H] [f' H']. rewrite <- (H (max f f')), <- (H' (max f f')) by lia. reflexivity. Qed.

Theorem process_behaves name more w status w' t : boost_contract (boost_run S0) -> (forall text, proper_root (sys_parse S0 text)) ->
  eventually (fun f => process S0 f (name :: more) w) (Ok (status, w', t)) -> behaves S0 name more w t status w'.
Proof.
  intros HB HP H. destruct (process_total name more w HB HP) as [o [H1 H2]]. pose proof (eventually_unique _ _ _ H H1) as E. subst o. exact H2.
Qed.

Lemma run_complaints name paths text message : complaints (run_events S0 name paths text message) =
  match message with Some m => [message_line S0 name m] | None => [] end.
Proof.
  unfold complaints, run_events. rewrite !map_app, !concat_app. rewrite map_map.
  replace (concat (map (fun x => match Opens x with Complains text0 => [text0] | _ => [] end) paths)) with (@nil str) by (induction paths; [reflexivity|exact IHpaths]).
  destruct text; destruct message; reflexivity.
Qed.

Lemma run_printed name paths text message : printed (run_events S0 name paths text message) = text.
Proof.
  unfold printed, run_events. rewrite !map_app, !concat_app. rewrite map_map.
  replace (concat (map (fun x => match Opens x with Prints text0 => text0 | _ => [] end) paths)) with (@nil ascii) by (induction paths; [reflexivity|exact IHpaths]).
  destruct text; destruct message; cbn; rewrite ?app_nil_r; reflexivity.
Qed.

Lemma run_opened name paths text message : opened_paths (run_events S0 name paths text message) = paths.
Proof.
  unfold opened_paths, run_events. rewrite !map_app, !concat_app. rewrite map_map.
  replace (concat (map (fun x => match Opens x with Opens path => [path] | _ => [] end) paths)) with paths.
  - destruct text; destruct message; cbn; rewrite ?app_nil_r; reflexivity.
  - induction paths; [reflexivity|]. cbn [map concat app]. now f_equal.
Qed.

Theorem status_told name more w status w' t : behaves S0 name more w t status w' ->
  (status = 0 /\ complaints t = [] \/ status = 1 /\ complaints t <> []) /\ orderly t.
Proof.
  intros [w0 e help HR HH|w0 vm help HF HG HH|w0 vm text HF HN HG HH|w0 vm po paths text message w1 HA HC H].
  - split; [right; split; [reflexivity|discriminate]|]. destruct more as [|x more'].
    + exists [], [], [message_line S0 name (s "Argument error", e); newline; help]. reflexivity.
    + exists [], [], [message_line S0 name (s "Argument error", e)]. reflexivity.
  - split; [left; split; reflexivity|]. exists [], [help], []. reflexivity.
  - split; [left; split; reflexivity|]. exists [], [text], []. reflexivity.
  - rewrite run_complaints. split; [destruct message; [right; split; [reflexivity|discriminate]|left; split; reflexivity]|].
    exists paths, (match text with [] => [] | _ => [text] end), (match message with Some m => [message_line S0 name m] | None => [] end).
    unfold run_events. destruct text, message; reflexivity.
Qed.

Theorem process_status name more w status w' t : boost_contract (boost_run S0) -> (forall text, proper_root (sys_parse S0 text)) ->
  eventually (fun f => process S0 f (name :: more) w) (Ok (status, w', t)) ->
  (status = 0 /\ complaints t = [] \/ status = 1 /\ complaints t <> []) /\ orderly t.
Proof. intros HB HP H. eapply status_told. eapply process_behaves; eassumption. Qed.

(** ** The inputs *)

Definition file_names (l : list source) : list str := concat (map (fun x => match x with FromFile n => [n] | FromString _ => [] end) l).

Lemma file_names_app l l' : file_names (l ++ l') = file_names l ++ file_names l'.
Proof. unfold file_names. now rewrite map_app, concat_app. Qed.

Lemma file_names_sources po : file_names (sources po) = hext_files po.
Proof.
  unfold sources. rewrite file_names_app. unfold file_names. rewrite !map_map.
  replace (concat (map _ (hext_strings po))) with (@nil str) by (induction (hext_strings po); [reflexivity|assumption]). rewrite app_nil_r.
  induction (hext_files po); [reflexivity|]. cbn [map concat app]. now f_equal.
Qed.

Lemma reading_opens w name r p w' : reading S0 w name r p w' -> opening name p.
Proof.
  intros [w0 n b br w1 E|w0 n reason w1 HN E|w0 reason w1 r0 p0 w2 E HR]; [constructor|constructor|].
  assert (X : p0 = [s "/dev/stdin"]).
  { remember (s "/dev/stdin") as n eqn:En. destruct HR; [now rewrite En|now rewrite En|discriminate En]. }
  rewrite X. constructor.
Qed.

Definition opens_names (names p : list str) : Prop := exists groups, Forall2 opening names groups /\ p = concat groups.

Lemma opens_nil : opens_names [] [].
Proof. exists []. split; [constructor|reflexivity]. Qed.

Lemma opens_one w name r p w' : reading S0 w name r p w' -> opens_names [name] p.
Proof. intros H. exists [p]. split; [constructor; [eapply reading_opens; exact H|constructor]|]. cbn. now rewrite app_nil_r. Qed.

Lemma opens_app a b p q : opens_names a p -> opens_names b q -> opens_names (a ++ b) (p ++ q).
Proof. intros [g [H1 ->]] [g' [H2 ->]]. exists (g ++ g'). split; [now apply Forall2_app|now rewrite concat_app]. Qed.

Lemma source_opens w x r p w' : source_text S0 w x r p w' -> opens_names (file_names [x]) p.
Proof. intros [w0 name r0 p0 w1 H|w0 text]; [eapply opens_one; exact H|exact opens_nil]. Qed.

Lemma rules_open w l rs p w' : rules_of S0 w l rs p w' -> opens_names (file_names l) p.
Proof.
  induction 1 as [|w x text p w1 r l rs p' w2 H1 H2 H3 IH]; [exact opens_nil|]. change (x :: l) with ([x] ++ l). rewrite file_names_app.
  apply opens_app; [eapply source_opens; exact H1|exact IH].
Qed.

Lemma documents_open w l docs p w' : documents_of S0 w l docs p w' -> opens_names l p.
Proof.
  induction 1 as [|w name text p w1 l docs p' w2 H1 H2 IH]; [exact opens_nil|]. change (name :: l) with ([name] ++ l).
  apply opens_app; [eapply opens_one; exact H1|exact IH].
Qed.

Theorem inputs_opened po w paths text message w' : course S0 po w paths text message w' ->
  exists names rest groups, inputs po = names ++ rest /\ Forall2 opening names groups /\ paths = concat groups /\
    (rest <> [] -> message <> None /\ text = []).
Proof.
  intros H. enough (E : exists names rest, inputs po = names ++ rest /\ opens_names names paths /\ (rest <> [] -> message <> None /\ text = [])).
  { destruct E as [names [rest [E1 [[groups [E2 E3]] E4]]]]. exists names, rest, groups. auto. }
  unfold inputs.
  inversion H as [? before x after rules m p w1 p' ? ES HR HB|? rules p ? EL HR|? rules p w1 before n after docs p' w2 reason p'' ? EL HR EH HD HN
                 |? before r after p w1 docs1 doc docs2 p' ? results row texts e EL HR HD H1 H2 H3 H4
                 |? rules p w1 docs p' ? results texts EL HR HD H1 H2]; subst.
  - exists (file_names (before ++ [x])), (file_names after ++ if lint po then [] else html_files po). split; [|split].
    + rewrite app_assoc, <- file_names_app. rewrite <- file_names_sources, ES. now rewrite <- app_assoc.
    + rewrite file_names_app. apply opens_app; [eapply rules_open; exact HR|]. inversion HB; subst; eapply source_opens; eassumption.
    + intros _. split; [discriminate|reflexivity].
  - exists (hext_files po), []. rewrite EL. split; [reflexivity|]. split; [|congruence]. rewrite <- file_names_sources. eapply rules_open; exact HR.
  - exists (hext_files po ++ before ++ [n]), after. rewrite EL, EH. split; [now rewrite <- !app_assoc|]. split; [|intros _; split; [discriminate|reflexivity]].
    apply opens_app; [rewrite <- file_names_sources; eapply rules_open; exact HR|]. apply opens_app; [eapply documents_open; exact HD|eapply opens_one; exact HN].
  - exists (hext_files po ++ html_files po), []. rewrite EL, app_nil_r. split; [reflexivity|]. split; [|congruence].
    apply opens_app; [rewrite <- file_names_sources; eapply rules_open; exact HR|eapply documents_open; exact HD].
  - exists (hext_files po ++ html_files po), []. rewrite EL, app_nil_r. split; [reflexivity|]. split; [|congruence].
    apply opens_app; [rewrite <- file_names_sources; eapply rules_open; exact HR|eapply documents_open; exact HD].
Qed.

Theorem process_inputs name more vm po w status w' t : boost_contract (boost_run S0) -> (forall text, proper_root (sys_parse S0 text)) ->
  accepted S0 (name :: more) vm -> chosen S0 vm po ->
  eventually (fun f => process S0 f (name :: more) w) (Ok (status, w', t)) ->
  exists names rest groups, inputs po = names ++ rest /\ Forall2 opening names groups /\ opened_paths t = concat groups /\
    (rest <> [] -> status = 1 /\ printed t = []).
Proof.
  intros HB HP HA HC H. pose proof (accepted_there _ _ HB HA) as HT.
  assert (M : forall o, eventually (fun f => main_at S0 f (Some name) vm w) o -> o = Ok (status, w', t)).
  { intros o [f0 H0]. apply (eventually_unique (fun f => process S0 f (name :: more) w)); [|exact H]. exists f0. intros f Hf. unfold process.
    rewrite (store_accepted _ _ HA). pose proof HA as [_ G1 G2 _ _]. apply not_given in G1, G2. rewrite G1, G2. now apply H0. }
  destruct (run_total name vm po w HT HC HP) as [[paths [text [message [w1 X]]]]|[[_ X]|[_ X]]].
  - pose proof (M _ (course_runs _ _ _ _ _ _ _ _ HT HC X)) as E. injection E as <- _ <-. rewrite run_opened, run_printed.
    destruct (inputs_opened _ _ _ _ _ _ X) as [names [rest [groups [E1 [E2 [E3 E4]]]]]]. exists names, rest, groups. split; [exact E1|]. split; [exact E2|]. split; [exact E3|].
    intros HR. destruct (E4 HR) as [E5 E6]. split; [|exact E6]. destruct message; [reflexivity|congruence].
  - apply M in X. discriminate.
  - apply M in X. discriminate.
Qed.

(** ** A world that does not change *)

Section Unchanging.
Variable w : World.
Variable W : surroundings.
Hypothesis HQ : unchanging S0 w.
Hypothesis HW : surroundings_at S0 w W.

Lemma reading_same name r p w' : reading S0 w name r p w' -> w' = w.
Proof.
  assert (G : forall w0, reading S0 w0 name r p w' -> w0 = w -> w' = w).
  { induction 1 as [w0 n b br w1 E|w0 n reason w1 HN E|w0 reason w1 r p w2 E HR IH]; intros ->.
    - specialize (HQ n). rewrite E in HQ. exact HQ.
    - specialize (HQ n). rewrite E in HQ. exact HQ.
    - apply IH. specialize (HQ (s "-")). rewrite E in HQ. exact HQ. }
  intros H. exact (G w H eq_refl).
Qed.

Lemma read_same name : exists p, forall f, 2 <= f -> read_at S0 f w name = Ok (read_file W name, w, map Opens p).
Proof.
  destruct (reading_total S0 w name) as [r [p [w' H]]]. exists p. intros f Hf. rewrite (read_at_ok S0 w name r p w' H f Hf).
  destruct HW as [HR _]. rewrite (HR _ _ _ _ H). now rewrite (reading_same _ _ _ _ H).
Qed.

Lemma parse_same title text : parse_or_error L title text = parse_or_error W title text.
Proof. destruct HW as [_ [_ [H1 [_ H2]]]]. unfold parse_or_error. rewrite H1, H2. reflexivity. Qed.

Lemma files_same names : exists p, forall f, 2 <= f -> load_files_at S0 f w names = let! r := load_files W names in Ok (r, w, map Opens p).
Proof.
  induction names as [|n names [p IH]]; [exists []; reflexivity|]. destruct (read_same n) as [p1 E]. cbn [load_files_at load_files].
  destruct (read_file W n) as [text|m]; [|exists p1; intros f Hf; rewrite (E f Hf); reflexivity].
  destruct (parse_or_error W (s "Error in " ++ n) text) as [[r|e]| | |] eqn:EP;
    try (exists p1; intros f Hf; rewrite (E f Hf); cbn [obind]; rewrite parse_same, EP; reflexivity).
  exists (p1 ++ p). intros f Hf. rewrite (E f Hf). cbn [obind]. rewrite parse_same, EP. cbn [obind]. rewrite (IH f Hf).
  destruct (load_files W names) as [[rs|e]| | |]; cbn [obind]; rewrite ?map_app; reflexivity.
Qed.

Lemma strings_same texts : load_strings L texts = load_strings W texts.
Proof. induction texts as [|t l IH]; [reflexivity|]. cbn [load_strings]. rewrite parse_same, IH. reflexivity. Qed.

Lemma html_same names : exists p, forall f, 2 <= f -> load_html_at S0 f w names = Ok (load_html W names, w, map Opens p).
Proof.
  induction names as [|n names [p IH]]; [exists []; reflexivity|]. destruct (read_same n) as [p1 E]. cbn [load_html_at load_html].
  destruct (read_file W n) as [text|m]; [|exists p1; intros f Hf; rewrite (E f Hf); reflexivity]. exists (p1 ++ p). intros f Hf. rewrite (E f Hf). cbn [obind].
  rewrite (IH f Hf). cbn [obind]. rewrite map_app. destruct HW as [_ [-> _]]. reflexivity.
Qed.

Lemma inputs_same f po r docs : print_inputs f L po r docs = print_inputs f W po r docs.
Proof.
  destruct HW as [_ [_ [H1 [H3 H2]]]]. induction docs as [|[D root] docs IH]; [reflexivity|]. cbn [print_inputs]. rewrite IH. unfold print_result. rewrite H1, H2, H3. reflexivity.
Qed.

Lemma rules_same f po rules docs : print_rules f L po rules docs = print_rules f W po rules docs.
Proof. induction rules as [|r rules IH]; [reflexivity|]. cbn [print_rules]. rewrite inputs_same, IH. reflexivity. Qed.

Theorem process_same name more vm po e : boost_contract (boost_run S0) -> accepted S0 (name :: more) vm -> chosen S0 vm po -> main_yields W po (Ok e) ->
  exists t, eventually (fun f => process S0 f (name :: more) w) (Ok ((if failed e then 1 else 0), w, t)) /\
    printed t = out e /\ complaints t = map (message_line S0 name) (err e).
Proof.
  intros HB HA HC [f0 H0]. pose proof (accepted_there _ _ HB HA) as HT. pose proof (chosen_options vm po (there_filter vm HT) HC) as ->. set (po := options_of vm) in *.
  enough (E : exists p text message, e = mk_ending text (match message with Some m => [m] | None => [] end) (match message with Some _ => true | None => false end) /\
    eventually (fun f => main_at S0 f (Some name) vm w) (Ok (run_status message, w, run_events S0 name p text message))).
  { destruct E as [p [text [message [-> [f1 H1]]]]]. exists (run_events S0 name p text message). rewrite run_printed, run_complaints. split.
    - exists f1. intros f Hf. unfold process. rewrite (store_accepted _ _ HA). destruct HA as [_ G1 G2 _ _]. apply not_given in G1, G2. rewrite G1, G2. cbn [hd_error].
      rewrite (H1 f Hf). destruct message; reflexivity.
    - destruct message; split; reflexivity. }
  pose proof (fun f => main_at_eq f name vm w HT) as EQ. cbv zeta in EQ. fold po in EQ.
  destruct (files_same (hext_files po)) as [p EF]. assert (H1 := H0 f0 (Nat.le_refl _)). unfold main in H1.
  destruct (load_files W (hext_files po)) as [[from_files|m]| | |] eqn:EFW; cbn [obind] in H1, EF; try discriminate.
  2: { injection H1 as <-. exists p, [], (Some m). split; [reflexivity|]. exists 2. intros f Hf. rewrite EQ, (EF f Hf). cbn [obind]. now rewrite give_up_eq. }
  destruct (load_strings W (hext_strings po)) as [[from_strings|m]| | |] eqn:ES; cbn [obind] in H1; try discriminate.
  2: { injection H1 as <-. exists p, [], (Some m). split; [reflexivity|]. exists 2. intros f Hf. rewrite EQ, (EF f Hf). cbn [obind]. rewrite strings_same, ES. cbn [obind]. now rewrite give_up_eq. }
  destruct (lint po) eqn:EL.
  { injection H1 as <-. exists p, [], None. split; [reflexivity|]. exists 2. intros f Hf. rewrite EQ, (EF f Hf). cbn [obind]. rewrite strings_same, ES. cbn [obind].
    unfold rest_of_main. rewrite EL. unfold run_events. cbn [app]. now rewrite app_nil_r. }
  destruct (html_same (html_files po)) as [p' EH].
  destruct (load_html W (html_files po)) as [docs|m] eqn:EHW.
  2: { injection H1 as <-. exists (p ++ p'), [], (Some m). split; [reflexivity|]. exists 2. intros f Hf. rewrite EQ, (EF f Hf). cbn [obind]. rewrite strings_same, ES. cbn [obind].
       unfold rest_of_main. rewrite EL, (EH f Hf). cbn [obind]. rewrite give_up_eq. unfold run_events. cbn [app]. now rewrite map_app. }
  destruct (print_rules f0 W po (from_files ++ from_strings) docs) as [[text e']| | |] eqn:EP; cbn [obind] in H1; try discriminate.
  assert (PR : forall f, f0 <= f -> print_rules f W po (from_files ++ from_strings) docs = Ok (text, e')).
  { intros f Hf. specialize (H0 f Hf). unfold main in H0. rewrite EFW in H0. cbn [obind] in H0. rewrite ES in H0. cbn [obind] in H0. rewrite EL, EHW in H0.
    destruct (print_rules f W po (from_files ++ from_strings) docs) as [[text2 e2]| | |]; cbn [obind] in H0; try discriminate.
    rewrite <- H1 in H0. destruct e' as [x|], e2 as [y|]; unfold failure in H0; congruence. }
  injection H1 as <-. exists (p ++ p'), text, e'. split; [destruct e'; reflexivity|]. exists (max 2 f0). intros f Hf. rewrite EQ, (EF f) by lia. cbn [obind].
  rewrite strings_same, ES. cbn [obind]. unfold rest_of_main. rewrite EL, (EH f) by lia. cbn [obind]. rewrite rules_same, (PR f) by lia. cbn [obind].
  unfold run_events. rewrite map_app. destruct e' as [x|]; [rewrite give_up_eq; now rewrite <- !app_assoc|now rewrite app_nil_r, <- app_assoc].
Qed.

End Unchanging.

End Main.

(** ** The standard output *)

Lemma insert_bad d text : bad d = true -> insert d text = d.
Proof. intros H. unfold insert. now rewrite H. Qed.

Lemma output_bad t : forall d, bad d = true -> output d t = d.
Proof. induction t as [|[p|x|x] t IH]; intros d H; cbn [output]; [reflexivity|now apply IH| |now apply IH]. rewrite insert_bad by exact H. now apply IH. Qed.

Theorem output_written t : forall d, bad d = false ->
  holds (output d t) = holds d ++ firstn (room d) (printed t) /\ (bad (output d t) = true <-> room d < length (printed t)).
Proof.
  induction t as [|[p|x|x] t IH]; intros d H; unfold printed; cbn [output map concat app].
  - rewrite firstn_nil, app_nil_r, H. split; [reflexivity|]. cbn. split; [discriminate|lia].
  - exact (IH d H).
  - fold (printed t). unfold insert. rewrite H. destruct (Nat.leb_spec (length x) (room d)) as [L|L].
    + destruct (IH (mk_device (holds d ++ x) (room d - length x) false) eq_refl) as [E1 E2]. rewrite E1, E2. cbn [holds room]. split.
      * rewrite firstn_app, (firstn_all2 x) by exact L. now rewrite app_assoc.
      * rewrite app_length. lia.
    + rewrite output_bad by reflexivity. cbn [holds bad]. split.
      * rewrite firstn_app. replace (room d - length x) with 0 by lia. now rewrite app_nil_r.
      * rewrite app_length. split; [lia|reflexivity].
  - exact (IH d H).
Qed.

(** ** Samples *)

(** Command lines with a hext file and HTML files only. *)
Definition named_variables (argv : list str) : variables := fun key =>
  if str_eqb key (s "hext") then Some (match tl argv with [] => mk_variable [] true | x :: _ => mk_variable [x] false end)
  else if str_eqb key (s "str") || str_eqb key (s "max-searches") then Some (mk_variable [] true)
  else if str_eqb key (s "html") then match tl (tl argv) with [] => None | l => Some (mk_variable l false) end
  else None.
Definition named_files (positional : bool) (argv : list str) : variables + str :=
  inl (named_variables argv).

Lemma named_contract : boost_contract named_files.
Proof.
  intros positional argv vm E. assert (X : vm = named_variables argv) by (unfold named_files in E; congruence). subst vm. clear E. unfold named_variables. split.
  - intros key H. cbv beta. destruct (str_eqb key (s "hext")) eqn:E1; [discriminate|]. destruct (str_eqb key (s "str")) eqn:E2; [discriminate|].
    destruct (str_eqb key (s "max-searches")) eqn:E3; [discriminate|]. exfalso.
    destruct H as [<-|[<-|[<-|[]]]]; [rewrite (proj2 (str_eqb_eq _ _) eq_refl) in E1|rewrite (proj2 (str_eqb_eq _ _) eq_refl) in E2|rewrite (proj2 (str_eqb_eq _ _) eq_refl) in E3]; discriminate.
  - intros key v _. cbv beta. destruct (str_eqb key (s "hext")); [destruct (tl argv); intros [= <-] H; [discriminate H|discriminate]|].
    destruct (str_eqb key (s "str") || str_eqb key (s "max-searches")); [intros [= <-] H; discriminate H|].
    destruct (str_eqb key (s "html")); [|discriminate]. destruct (tl (tl argv)); [discriminate|intros [= <-] _]. discriminate.
Qed.

(** The world: what can still be read from the standard input, a pipe. *)
Definition pipe_open (w : str) (path : str) : opened * str :=
  if str_eqb path (s "/dev/stdin") then (Opened w false, [])
  else if str_eqb path (s "list.hext") then (Opened (s "<li id:x/>") false, w)
  else (OpenFails (s "No such file or directory"), w).
Definition pipe_system : system str :=
  mk_system str pipe_open named_files (s "Options") (fun _ => 0%N) (s "bad cast") (s "1") (s "1") false false
    (fun text => match text with [] => (page [], Some [0]) | _ => (list_page, Some [0]) end) sample_engine
    (fun _ _ => s "{}") (fun _ => s "what").

Lemma pipe_proper text : proper_root (sys_parse pipe_system text).
Proof. destruct text; split; discriminate. Qed.

Lemma pipe_unchanging : unchanging pipe_system [] /\ exists W, surroundings_at pipe_system [] W /\
  read_file W (s "list.hext") = inl (s "<li id:x/>") /\ read_file W (s "-") = inl [].
Proof.
  split.
  - intros path. cbn [pipe_system open_at]. unfold pipe_open. destruct (str_eqb path (s "/dev/stdin")); [reflexivity|]. destruct (str_eqb path (s "list.hext")); reflexivity.
  - exists (mk_surroundings (fun name => match read_at pipe_system 2 [] name with Ok (r, _, _) => r | _ => inr [] end)
      (sys_parse pipe_system) (sys_regexes pipe_system) (sys_writer pipe_system) (sys_what pipe_system)).
    split; [|split; reflexivity]. split; [|repeat split]. intros name r p w' H. cbn [read_file]. rewrite (read_at_ok pipe_system _ _ _ _ _ H 2 (Nat.le_refl _)). reflexivity.
Qed.
