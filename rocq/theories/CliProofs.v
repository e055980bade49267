(** Proofs about the command line tool. *)

From Coq Require Import Ascii String NArith ZArith Bool List Sorted Lia.
From Verif Require Import Base Dom Values Match Rule RuleMatching ExtractSpec StringProofs ResultProofs ExtractMain Parser
  Convert ConvertSpec ConvertProofs Cli CliSpec.
Import ListNotations.

(** ** What is printed for one result *)

Lemma lines_app a b : lines (a ++ b) = lines a ++ lines b.
Proof. unfold lines. now rewrite map_app, concat_app. Qed.

Lemma filtered_group key m :
  concat (map (fun p : result_pair => if str_eqb (fst p) key then snd p ++ newline else []) m) = lines (values_of key m).
Proof.
  induction m as [|x m IH]; [reflexivity|]. cbn [map concat]. rewrite IH, values_of_cons.
  destruct (str_eqb (fst x) key); [|reflexivity]. rewrite lines_app. unfold lines at 2. cbn. now rewrite app_nil_r.
Qed.

Lemma filtered key result : print_filtered key result = lines (concat (map (values_of key) result)).
Proof.
  unfold print_filtered. induction result as [|m result IH]; [reflexivity|]. cbn [map concat].
  rewrite IH, filtered_group, lines_app. reflexivity.
Qed.

Lemma json_array_spec result : Forall (StronglySorted name_le) result ->
  Forall2 converted (map cut_map result) (json_array result).
Proof.
  intros H. induction H as [|m result Hm H IH]; [constructor|]. cbn. constructor; [now apply json_object_converted|exact IH].
Qed.

Lemma print_result_shown W po result : Forall (StronglySorted name_le) result ->
  shown W po result (print_result W po result).
Proof.
  intros HS. unfold shown, print_result. destruct (filter_key po) as [key|]; [apply filtered|].
  exists (json_array result). split; [now apply json_array_spec|]. unfold PrintJson.
  destruct (ArrayEnvelope (json_options po)).
  - destruct result as [|m result]; [right; now split|]. left. split; [discriminate|].
    unfold lines. cbn. now rewrite app_nil_r.
  - unfold lines. rewrite map_map. reflexivity.
Qed.

Lemma lines_inj_single a b : lines [a] = lines [b] -> a = b.
Proof. unfold lines. cbn. rewrite !app_nil_r. apply app_inv_tail. Qed.

Lemma Forall2_converted_unique ms o : forall o', Forall2 converted ms o -> Forall2 converted ms o' -> o = o'.
Proof.
  revert o. induction ms as [|m ms IH]; intros o o' H H'; inversion H; subst; inversion H'; subst; [reflexivity|].
  f_equal; [eapply converted_unique; eauto|now apply IH].
Qed.

(** The printed text is determined. *)
Lemma shown_unique W po result t t' : shown W po result t -> shown W po result t' -> t = t'.
Proof.
  unfold shown. destruct (filter_key po); [congruence|]. intros [o [H1 H2]] [o' [H1' H2']].
  rewrite (Forall2_converted_unique _ _ _ H1' H1) in H2'. cbv zeta in *.
  destruct (ArrayEnvelope (json_options po)); [|congruence].
  destruct H2 as [[N1 ->]|[N1 ->]], H2' as [[N2 ->]|[N2 ->]]; congruence.
Qed.

(** ** Loading *)

Lemma parse_or_error_ok W title text r : ParseHext (regexes W) (c_str text) = Ok r ->
  parse_or_error W title text = Ok (inl r).
Proof. unfold parse_or_error. intros ->. reflexivity. Qed.

Definition file_source (W : surroundings) (name : str) : option str :=
  match read_file W name with inl text => Some text | inr _ => None end.

Lemma load_files_ok W names : forall rules, Forall2 (source_is W) (map (file_source W) names) rules ->
  load_files W names = Ok (inl rules).
Proof.
  induction names as [|n names IH]; intros rules H; inversion H as [|? r ? rs H1 H2]; subst; [reflexivity|].
  cbn [load_files]. destruct H1 as [text [E1 E2]]. unfold file_source in E1. destruct (read_file W n) as [t|]; [|discriminate].
  injection E1 as ->. rewrite (parse_or_error_ok W _ _ _ E2). cbn [obind]. rewrite (IH rs H2). reflexivity.
Qed.

Lemma load_strings_ok W texts : forall rules, Forall2 (source_is W) (map Some texts) rules ->
  load_strings W texts = Ok (inl rules).
Proof.
  induction texts as [|t texts IH]; intros rules H; inversion H as [|? r ? rs H1 H2]; subst; [reflexivity|].
  cbn [load_strings]. destruct H1 as [text [E1 E2]]. injection E1 as ->.
  rewrite (parse_or_error_ok W _ _ _ E2). cbn [obind]. rewrite (IH rs H2). reflexivity.
Qed.

Lemma load_html_ok W names docs : Forall2 (html_is W) names docs -> load_html W names = inl docs.
Proof.
  intros H. induction H as [|n d names docs [text [E1 ->]] H IH]; [reflexivity|]. cbn [load_html]. rewrite E1, IH. reflexivity.
Qed.

Lemma Forall2_app_split {A B} (P : A -> B -> Prop) l1 : forall l2 l, Forall2 P (l1 ++ l2) l ->
  exists a b, l = a ++ b /\ Forall2 P l1 a /\ Forall2 P l2 b.
Proof. intros l2 l H. apply Forall2_app_inv_l in H as [a [b [H1 [H2 E]]]]. exists a, b. auto. Qed.

Lemma sources_split W po rules : Forall2 (source_is W) (hext_sources W po) rules ->
  exists a b, rules = a ++ b /\ load_files W (hext_files po) = Ok (inl a) /\ load_strings W (hext_strings po) = Ok (inl b).
Proof.
  intros H. apply Forall2_app_split in H as [a [b [-> [H1 H2]]]]. exists a, b. split; [reflexivity|].
  split; [now apply load_files_ok|now apply load_strings_ok].
Qed.

Lemma main_loaded W po rules docs f : lint po = false ->
  Forall2 (source_is W) (hext_sources W po) rules -> Forall2 (html_is W) (html_files po) docs ->
  main f W po = obind (print_rules f W po rules docs) (fun x =>
    Ok (match snd x with Some e => failure (fst x) e | None => mk_ending (fst x) [] false end)).
Proof.
  intros Hl Hs Hh. destruct (sources_split _ _ _ Hs) as [a [b [-> [H1 H2]]]]. unfold main. rewrite H1. cbn [obind].
  rewrite H2. cbn [obind]. rewrite Hl, (load_html_ok _ _ _ Hh). destruct (print_rules f W po (a ++ b) docs) as [[t e]| | |]; reflexivity.
Qed.

(** ** Printing *)

Definition row (W : surroundings) (po : options) (r : rule) (docs : list (node * nptr)) (results : list (list ResultMap)) : Prop :=
  Forall2 (fun doc result => extracts W po r doc (Ok result)) docs results.

Lemma print_inputs_app W po r docs results : row W po r docs results ->
  exists f0, forall f rest, f0 <= f -> print_inputs f W po r (docs ++ rest) =
    obind (print_inputs f W po r rest) (fun x => Ok (concat (map (print_result W po) results) ++ fst x, snd x)).
Proof.
  intros H. induction H as [|[D root] result docs results [f1 H1] H [f2 IH]].
  - exists 0. intros f rest _. cbn. destruct (print_inputs f W po r rest) as [[t e]| | |]; reflexivity.
  - exists (max f1 f2). intros f rest Hf. cbn [app print_inputs fst snd] in *. rewrite H1 by lia.
    rewrite IH by lia. destruct (print_inputs f W po r rest) as [[t e]| | |]; cbn; try reflexivity. now rewrite app_assoc.
Qed.

Lemma print_inputs_ok W po r docs results : row W po r docs results ->
  exists f0, forall f, f0 <= f -> print_inputs f W po r docs = Ok (concat (map (print_result W po) results), None).
Proof.
  intros H. destruct (print_inputs_app _ _ _ _ _ H) as [f0 H0]. exists f0. intros f Hf. specialize (H0 f [] Hf).
  rewrite app_nil_r in H0. rewrite H0. cbn. now rewrite app_nil_r.
Qed.

Definition table (W : surroundings) (po : options) (rules : list rule) (docs : list (node * nptr))
    (results : list (list (list ResultMap))) : Prop := Forall2 (fun r => row W po r docs) rules results.

Definition table_text (W : surroundings) (po : options) (results : list (list (list ResultMap))) : str :=
  concat (map (fun l => concat (map (print_result W po) l)) results).

Lemma print_rules_app W po docs rules results : table W po rules docs results ->
  exists f0, forall f rest, f0 <= f -> print_rules f W po (rules ++ rest) docs =
    obind (print_rules f W po rest docs) (fun x => Ok (table_text W po results ++ fst x, snd x)).
Proof.
  intros H. induction H as [|r results0 rules results H1 H [f2 IH]].
  - exists 0. intros f rest _. cbn. destruct (print_rules f W po rest docs) as [[t e]| | |]; reflexivity.
  - destruct (print_inputs_ok _ _ _ _ _ H1) as [f1 E1]. exists (max f1 f2). intros f rest Hf. cbn [app print_rules].
    rewrite E1 by lia. cbn [obind]. rewrite IH by lia. destruct (print_rules f W po rest docs) as [[t e]| | |]; try reflexivity.
    cbn [obind fst snd]. unfold table_text. cbn [map concat]. now rewrite app_assoc.
Qed.

Lemma extract_sorted E r D p n result : extract_yields E r D p n (Ok result) -> Forall (StronglySorted name_le) result.
Proof.
  intros [f0 H]. specialize (H f0 (le_n _)). unfold extract in H.
  destruct (SaveMatchingNodesRecursive r D (Rule_matches E D) f0 (Some []) p n) as [[mn k]| | |]; try discriminate.
  cbn [obind] in H. revert result H. induction mn as [|g mn IH]; intros result H.
  - injection H as <-. constructor.
  - cbn [capture_groups] in H. destruct (capture_group E r D g []) as [m| | |] eqn:Eg; try discriminate. cbn [obind] in H.
    destruct (capture_groups E r D mn) as [rest| | |] eqn:Er; try discriminate. cbn [obind] in H. injection H as <-.
    specialize (IH rest eq_refl).
    destruct m as [|x m]; [exact IH|]. constructor; [|exact IH].
    assert (G : forall g m0 m1, StronglySorted name_le m0 -> capture_group E r D g m0 = Ok m1 -> StronglySorted name_le m1).
    { clear. induction g as [|[rp np] g IH]; intros m0 m1 Hm H; cbn [capture_group] in H; [now injection H as <-|].
      destruct (rderef r rp) as [r'| | |]; try discriminate. cbn [obind] in H.
      destruct (Nat.eqb (length (r_captures r')) 0); [now apply (IH m0)|].
      destruct (Rule_capture E D r' np) as [values| | |]; try discriminate. cbn [obind] in H.
      destruct (Nat.eqb (length values) 0); [now apply (IH m0)|]. apply (IH (multimap_insert_all m0 values)); [|exact H].
      now apply insert_all_spec. }
    apply (G g [] _ (SSorted_nil _) Eg).
Qed.

Lemma row_shown W po r docs results : row W po r docs results ->
  Forall2 (shown W po) results (map (print_result W po) results).
Proof.
  intros H. induction H as [|doc result docs results H1 H IH]; [constructor|]. cbn [map]. constructor; [|exact IH].
  apply print_result_shown. eapply extract_sorted. exact H1.
Qed.

Lemma table_shown W po rules docs results : table W po rules docs results ->
  Forall2 (Forall2 (shown W po)) results (map (map (print_result W po)) results).
Proof.
  intros H. induction H as [|r l rules results H1 H IH]; [constructor|]. cbn [map]. constructor; [|exact IH].
  eapply row_shown. exact H1.
Qed.

Lemma Forall2_unique {A B} (P : A -> B -> Prop) (HP : forall a b b', P a b -> P a b' -> b = b') l :
  forall x y, Forall2 P l x -> Forall2 P l y -> x = y.
Proof.
  induction l as [|a l IH]; intros x y H H'; inversion H; subst; inversion H'; subst; [reflexivity|].
  f_equal; [eapply HP; eauto|now apply IH].
Qed.

Lemma shown_texts W po rules docs results texts : table W po rules docs results ->
  Forall2 (Forall2 (shown W po)) results texts -> texts = map (map (print_result W po)) results.
Proof.
  intros H H'. apply (Forall2_unique (Forall2 (shown W po))) with (l := results); [|exact H'|eapply table_shown; exact H].
  intros a b b'. apply Forall2_unique. apply shown_unique.
Qed.

Lemma table_text_concat W po results :
  table_text W po results = concat (concat (map (map (print_result W po)) results)).
Proof.
  unfold table_text. induction results as [|l results IH]; [reflexivity|]. cbn [map concat]. now rewrite IH, concat_app.
Qed.

Theorem main_prints W po rules docs results texts : lint po = false ->
  Forall2 (source_is W) (hext_sources W po) rules -> Forall2 (html_is W) (html_files po) docs ->
  Forall2 (fun r => Forall2 (fun doc result => extracts W po r doc (Ok result)) docs) rules results ->
  Forall2 (Forall2 (shown W po)) results texts ->
  main_yields W po (Ok (mk_ending (concat (concat texts)) [] false)).
Proof.
  intros Hl Hs Hh Ht Hx. rewrite (shown_texts _ _ _ _ _ _ Ht Hx), <- table_text_concat.
  destruct (print_rules_app _ _ _ _ _ Ht) as [f0 H0]. exists f0. intros f Hf.
  rewrite (main_loaded _ _ _ _ f Hl Hs Hh). specialize (H0 f [] Hf). rewrite app_nil_r in H0. rewrite H0.
  cbn. now rewrite app_nil_r.
Qed.

Theorem main_prints_all W po rules docs results : lint po = false ->
  Forall2 (source_is W) (hext_sources W po) rules -> Forall2 (html_is W) (html_files po) docs ->
  Forall2 (fun r => Forall2 (fun doc result => extracts W po r doc (Ok result)) docs) rules results ->
  exists texts, Forall2 (Forall2 (shown W po)) results texts /\
    main_yields W po (Ok (mk_ending (concat (concat texts)) [] false)).
Proof.
  intros Hl Hs Hh Ht. exists (map (map (print_result W po)) results).
  assert (Hx : Forall2 (Forall2 (shown W po)) results (map (map (print_result W po)) results)) by (eapply table_shown; exact Ht).
  split; [exact Hx|]. eapply main_prints; eauto.
Qed.

Theorem main_stops W po before r after docs1 d docs2 results row1 e texts : lint po = false ->
  Forall2 (source_is W) (hext_sources W po) (before ++ r :: after) ->
  Forall2 (html_is W) (html_files po) (docs1 ++ d :: docs2) ->
  Forall2 (fun r0 => Forall2 (fun doc result => extracts W po r0 doc (Ok result)) (docs1 ++ d :: docs2)) before results ->
  Forall2 (fun doc result => extracts W po r doc (Ok result)) docs1 row1 ->
  extracts W po r d (Throw e) ->
  Forall2 (Forall2 (shown W po)) (results ++ [row1]) texts ->
  main_yields W po (Ok (mk_ending (concat (concat texts)) [(s "Error", what W e)] true)).
Proof.
  intros Hl Hs Hh Ht Hr [f3 He] Hx.
  assert (Htexts : texts = map (map (print_result W po)) (results ++ [row1])).
  { apply (Forall2_unique (Forall2 (shown W po))) with (l := results ++ [row1]); [|exact Hx|].
    - intros a b b'. apply Forall2_unique. apply shown_unique.
    - rewrite map_app. apply Forall2_app; [eapply table_shown; exact Ht|]. constructor; [|constructor].
      eapply row_shown. exact Hr. }
  rewrite Htexts, <- table_text_concat.
  destruct (print_rules_app _ _ _ _ _ Ht) as [f0 H0]. destruct (print_inputs_app _ _ _ _ _ Hr) as [f1 H1].
  exists (max f0 (max f1 f3)). intros f Hf. rewrite (main_loaded _ _ _ _ f Hl Hs Hh). rewrite H0 by lia.
  cbn [print_rules]. rewrite H1 by lia. destruct d as [D root]. cbn [print_inputs fst snd] in *. rewrite He by lia.
  cbn [obind fst snd]. unfold failure. unfold table_text. rewrite map_app, concat_app. cbn [map concat].
  now rewrite !app_nil_r.
Qed.

(** ** Failing to load *)

Lemma parse_or_error_defined W title text : parses_defined W (Some text) ->
  (exists r, parse_or_error W title text = Ok (inl r) /\ source_is W (Some text) r) \/
  (exists e, parse_or_error W title text = Ok (inr e)).
Proof.
  intros H. unfold parse_or_error. destruct (H text eq_refl) as [[r E]|[e E]]; rewrite E.
  - left. exists r. split; [reflexivity|]. exists text. auto.
  - right. destruct e; eauto.
Qed.

Lemma load_files_defined W names : (forall x, In x (map (file_source W) names) -> parses_defined W x) ->
  (exists rules, load_files W names = Ok (inl rules) /\ Forall2 (source_is W) (map (file_source W) names) rules) \/
  (exists e, load_files W names = Ok (inr e)).
Proof.
  induction names as [|n names IH]; intros H; [left; exists []; split; [reflexivity|constructor]|].
  cbn [map] in *. pose proof (H _ (or_introl eq_refl)) as Hn. specialize (IH (fun x Hx => H x (or_intror Hx))).
  cbn [load_files]. unfold file_source in Hn at 1. unfold file_source at 1. destruct (read_file W n) as [text|msg]; [|right; eauto].
  destruct (parse_or_error_defined W (s "Error in " ++ n) text Hn) as [[r [E Hr]]|[e E]]; rewrite E; cbn [obind]; [|right; eauto].
  destruct IH as [[rules [E' Hrs]]|[e E']]; rewrite E'; cbn [obind]; [|right; eauto].
  left. exists (r :: rules). split; [reflexivity|]. now constructor.
Qed.

Lemma load_strings_defined W texts : (forall x, In x (map Some texts) -> parses_defined W x) ->
  (exists rules, load_strings W texts = Ok (inl rules) /\ Forall2 (source_is W) (map Some texts) rules) \/
  (exists e, load_strings W texts = Ok (inr e)).
Proof.
  induction texts as [|text texts IH]; intros H; [left; exists []; split; [reflexivity|constructor]|].
  cbn [map] in *. pose proof (H _ (or_introl eq_refl)) as Hn. specialize (IH (fun x Hx => H x (or_intror Hx))).
  cbn [load_strings].
  destruct (parse_or_error_defined W (s "Error in <hext-string>") text Hn) as [[r [E Hr]]|[e E]]; rewrite E; cbn [obind]; [|right; eauto].
  destruct IH as [[rules [E' Hrs]]|[e E']]; rewrite E'; cbn [obind]; [|right; eauto].
  left. exists (r :: rules). split; [reflexivity|]. now constructor.
Qed.

Lemma sources_file_source W po : hext_sources W po = map (file_source W) (hext_files po) ++ map Some (hext_strings po).
Proof. reflexivity. Qed.

Theorem main_rejects W po : (forall x, In x (hext_sources W po) -> parses_defined W x) ->
  (exists x, In x (hext_sources W po) /\ forall r, ~ source_is W x r) ->
  exists e, forall f, main f W po = Ok (mk_ending [] [e] true).
Proof.
  intros Hd [x [Hx Hno]]. rewrite sources_file_source in Hd, Hx. unfold main.
  destruct (load_files_defined W (hext_files po)) as [[a [Ea Ha]]|[e Ee]].
  { intros y Hy. apply Hd, in_or_app. now left. }
  2: { exists e. intros f. rewrite Ee. reflexivity. }
  destruct (load_strings_defined W (hext_strings po)) as [[b [Eb Hb]]|[e Ee]].
  { intros y Hy. apply Hd, in_or_app. now right. }
  2: { exists e. intros f. rewrite Ea. cbn [obind]. rewrite Ee. reflexivity. }
  exfalso.
  assert (G : forall l rs, Forall2 (source_is W) l rs -> ~ In x l).
  { clear - Hno. intros l rs H. induction H as [|y r l rs H1 H IH]; [intros []|]. intros [->|Hi]; [now apply (Hno r)|contradiction]. }
  apply in_app_or in Hx as [Hx|Hx]; [exact (G _ _ Ha Hx)|exact (G _ _ Hb Hx)].
Qed.

Theorem main_lint W po rules : lint po = true -> Forall2 (source_is W) (hext_sources W po) rules ->
  forall f, main f W po = Ok (mk_ending [] [] false).
Proof.
  intros Hl Hs f. destruct (sources_split _ _ _ Hs) as [a [b [-> [H1 H2]]]]. unfold main. rewrite H1. cbn [obind].
  rewrite H2. cbn [obind]. rewrite Hl. reflexivity.
Qed.

Lemma load_html_missing W names name msg : In name names -> read_file W name = inr msg ->
  exists e, load_html W names = inr e.
Proof.
  induction names as [|n names IH]; intros Hin E; [destruct Hin|]. destruct Hin as [Hn|Hn].
  - subst n. exists (s "Error", msg). cbn [load_html]. now rewrite E.
  - destruct (IH Hn E) as [e He]. cbn [load_html]. destruct (read_file W n); [rewrite He|]; eauto.
Qed.

Theorem main_html_missing W po rules name msg : lint po = false -> Forall2 (source_is W) (hext_sources W po) rules ->
  In name (html_files po) -> read_file W name = inr msg ->
  exists e, forall f, main f W po = Ok (mk_ending [] [e] true).
Proof.
  intros Hl Hs Hin Hr. destruct (load_html_missing _ _ _ _ Hin Hr) as [e He]. exists e. intros f.
  destruct (sources_split _ _ _ Hs) as [a [b [-> [H1 H2]]]]. unfold main. rewrite H1. cbn [obind].
  rewrite H2. cbn [obind]. now rewrite Hl, He.
Qed.
