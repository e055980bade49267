(** Proofs about the scripts of the bindings (C70). *)

From Coq Require Import Ascii String NArith ZArith Bool List Sorted Permutation Lia.
From Verif Require Import Base StringUtil Dom Values Match Rule RuleMatching TextSpec ExtractSpec StringProofs NodeProofs ResultProofs Convert ConvertSpec ConvertProofs Parser ParserSpec
  Bindings BindSpec BindProofs Scripts ScriptSpec ScriptProofs LocationProofs PyRefs PySpec PyProofs JsonText JsonSpec JsonProofs JsonMain Utf8Proofs
  Cli CliSpec CliProofs ScriptRun ScriptRunSpec.
Import ListNotations.
Open Scope outcome_scope.

(** ** Strings *)

Definition quotes (quote : str -> str) : Prop := forall x, string_means (quote x) x /\ ~ In "010"%char (quote x).

Lemma low_hex_digit n : (n < 16)%N -> digit (low_hex n) n /\ low_hex n <> "010"%char.
Proof. revert n. apply small_cases; (split; [unfold digit; cbn; lia|discriminate]). Qed.

Lemma low_escape_spec c : char_means (low_escape c) [c] /\ ~ In "010"%char (low_escape c).
Proof.
  unfold low_escape. destruct (Ascii.eqb_spec c dquote) as [->|N1]; [split; [apply (escaped """"%char 34); cbn; tauto|cbn; intuition discriminate]|].
  destruct (Ascii.eqb_spec c "\"%char) as [->|N2]; [split; [apply (escaped "\"%char 92); cbn; tauto|cbn; intuition discriminate]|].
  destruct (N.eqb_spec (N_of_ascii c) 8) as [H|_]; [rewrite <- (low_number c _ H); split; [apply (escaped "b"%char 8); cbn; tauto|cbn; intuition discriminate]|].
  destruct (N.eqb_spec (N_of_ascii c) 9) as [H|_]; [rewrite <- (low_number c _ H); split; [apply (escaped "t"%char 9); cbn; tauto|cbn; intuition discriminate]|].
  destruct (N.eqb_spec (N_of_ascii c) 10) as [H|_]; [rewrite <- (low_number c _ H); split; [apply (escaped "n"%char 10); cbn; tauto|cbn; intuition discriminate]|].
  destruct (N.eqb_spec (N_of_ascii c) 12) as [H|_]; [rewrite <- (low_number c _ H); split; [apply (escaped "f"%char 12); cbn; tauto|cbn; intuition discriminate]|].
  destruct (N.eqb_spec (N_of_ascii c) 13) as [H|_]; [rewrite <- (low_number c _ H); split; [apply (escaped "r"%char 13); cbn; tauto|cbn; intuition discriminate]|].
  destruct (N.ltb_spec (N_of_ascii c) 32) as [H|H].
  - set (n := N_of_ascii c) in *.
    assert (HB : bytes_of n = [c]). { unfold bytes_of. destruct (N.ltb_spec n 128); [|lia]. cbn [map]. f_equal. now apply low_number. }
    destruct (low_hex_digit (n / 16)) as [A1 A2]; [apply N.div_lt_upper_bound; lia|]. destruct (low_hex_digit (n mod 16)) as [B1 B2]; [apply N.mod_lt; lia|].
    split.
    + rewrite <- HB. change (s "\u00" ++ ?x) with (s "\u" ++ ["0"; "0"]%char ++ x). apply code; [|lia].
      exists "0"%char, "0"%char, (low_hex (n / 16)), (low_hex (n mod 16)), 0%N, 0%N, (n / 16)%N, (n mod 16)%N. split; [reflexivity|].
      split; [unfold digit; cbn; lia|]. split; [unfold digit; cbn; lia|]. split; [exact A1|]. split; [exact B1|].
      pose proof (N.div_mod n 16). lia.
    + cbn [s app In String.list_ascii_of_string]. intros HI; repeat (destruct HI as [HI|HI]; [solve [discriminate|congruence]|]); exact HI.
  - split; [now apply plain|]. cbn [In]. intros [->|[]]; cbn in H; lia.
Qed.

Lemma quote_spec chars x : chars_mean chars x -> ~ In "010"%char chars -> string_means ([dquote] ++ chars ++ [dquote]) x /\ ~ In "010"%char ([dquote] ++ chars ++ [dquote]).
Proof.
  intros H1 H2. split; [now apply quoted|]. cbn [app In]. rewrite in_app_iff. cbn [In]. intuition discriminate.
Qed.

Lemma low_quotes : quotes low_quote.
Proof.
  intros x. apply quote_spec.
  - induction x as [|c x IH]; cbn [map concat]; [constructor|]. apply (chars_cons (low_escape c) [c] _ x); [apply low_escape_spec|exact IH].
  - intros H. apply in_concat in H as [y [Hy Hi]]. apply in_map_iff in Hy as [c [<- _]]. now apply low_escape_spec in Hi.
Qed.

Lemma byte_true n c : byte n c = true -> c = ascii_of_N n.
Proof. unfold byte. intros H. apply N.eqb_eq in H. rewrite <- H. symmetry. apply ascii_N_embedding. Qed.

Lemma separator_means (c3 : ascii) n d : four_digits (s "202" ++ [c3]) n -> n = (8224 + d)%N -> (d < 32)%N ->
  char_means (s "\u202" ++ [c3]) [ascii_of_N 226; ascii_of_N 128; ascii_of_N (160 + d)].
Proof.
  intros H -> Hd. change (s "\u202" ++ [c3]) with (s "\u" ++ s "202" ++ [c3]).
  assert (HB : bytes_of (8224 + d) = [ascii_of_N 226; ascii_of_N 128; ascii_of_N (160 + d)]).
  { unfold bytes_of. destruct (N.ltb_spec (8224 + d) 128); [lia|]. destruct (N.ltb_spec (8224 + d) 2048); [lia|].
    destruct (N.ltb_spec (8224 + d) 65536); [|lia]. cbn [map].
    assert (E1 : ((8224 + d) / 4096 = 2)%N) by (symmetry; apply N.div_unique with (r := (32 + d)%N); lia).
    assert (E2 : ((8224 + d) / 64 = 128)%N) by (symmetry; apply N.div_unique with (r := (32 + d)%N); lia).
    assert (E3 : ((8224 + d) mod 64 = 32 + d)%N) by (symmetry; apply N.mod_unique with (q := 128%N); lia).
    rewrite E1, E2, E3. replace (128 + (32 + d))%N with (160 + d)%N by lia. reflexivity. }
  rewrite <- HB. apply code; [exact H|lia].
Qed.

Lemma four_202 c3 d : digit c3 d -> four_digits (s "202" ++ [c3]) (8224 + d).
Proof.
  intros H. exists "2"%char, "0"%char, "2"%char, c3, 2%N, 0%N, 2%N, d. split; [reflexivity|].
  split; [unfold digit; cbn; lia|]. split; [unfold digit; cbn; lia|]. split; [unfold digit; cbn; lia|]. split; [exact H|]. lia.
Qed.

Lemma php_chars_spec n : forall x, length x <= n -> chars_mean (php_chars x) x /\ ~ In "010"%char (php_chars x).
Proof.
  assert (L : forall c x t, chars_mean t x /\ ~ In "010"%char t -> chars_mean (low_escape c ++ t) (c :: x) /\ ~ In "010"%char (low_escape c ++ t)).
  { intros c x t [H1 H2]. destruct (low_escape_spec c) as [E1 E2]. split; [now apply (chars_cons (low_escape c) [c] t x)|].
    rewrite in_app_iff. tauto. }
  induction n as [|n IH]; intros x Hx; [destruct x; [split; [constructor|intros []]|cbn in Hx; lia]|].
  destruct x as [|c x]; [split; [constructor|intros []]|]. cbn [length] in Hx. pose proof (IH x ltac:(lia)) as H1.
  cbn [php_chars]. destruct x as [|c1 [|c2 x]]; try (now apply L).
  assert (HX : length x <= n) by (cbn [length] in Hx; lia). destruct (IH x HX) as [M1 M2].
  destruct (byte 226 c && byte 128 c1 && byte 168 c2) eqn:E8.
  { apply andb_prop in E8 as [E8 B3]. apply andb_prop in E8 as [B1 B2]. apply byte_true in B1, B2, B3. subst c c1 c2. split.
    - apply (chars_cons (s "\u2028") [ascii_of_N 226; ascii_of_N 128; ascii_of_N 168] _ x); [|exact M1].
      apply (separator_means "8" 8232 8); [apply (four_202 "8" 8); unfold digit; cbn; lia|reflexivity|reflexivity].
    - rewrite in_app_iff. intros [H|H]; [|tauto]. cbn in H. intuition discriminate. }
  destruct (byte 226 c && byte 128 c1 && byte 169 c2) eqn:E9; [|now apply L].
  apply andb_prop in E9 as [E9 B3]. apply andb_prop in E9 as [B1 B2]. apply byte_true in B1, B2, B3. subst c c1 c2. split.
  - apply (chars_cons (s "\u2029") [ascii_of_N 226; ascii_of_N 128; ascii_of_N 169] _ x); [|exact M1].
    apply (separator_means "9" 8233 9); [apply (four_202 "9" 9); unfold digit; cbn; lia|reflexivity|reflexivity].
  - rewrite in_app_iff. intros [H|H]; [|tauto]. cbn in H. intuition discriminate.
Qed.

Lemma php_quotes : quotes php_quote.
Proof. intros x. destruct (php_chars_spec (length x) x (le_n _)). now apply quote_spec. Qed.

(** ** Values *)

Definition says (t : str) (v : json) : Prop := means t v /\ ~ In "010"%char t.

Lemma joined_items ts vs : Forall2 says ts vs -> items (joined ts) vs /\ ~ In "010"%char (joined ts).
Proof.
  induction 1 as [|t v ts vs [H1 H2] HF [IH1 IH2]]; [split; [constructor; constructor|intros []]|].
  destruct HF as [|t2 v2 ts vs HF1 HF2].
  - cbn [joined]. split; [|exact H2]. rewrite <- (app_nil_r t). apply (items_last [] t [] v); [constructor|exact H1|constructor].
  - change (joined (t :: t2 :: ts)) with (t ++ s "," ++ joined (t2 :: ts)). split.
    + apply (items_more [] t [] v _ (v2 :: vs)); try constructor; try assumption. discriminate.
    + rewrite !in_app_iff. cbn [s In String.list_ascii_of_string]. intuition discriminate.
Qed.

Lemma joined_members quote (f : str * member -> str) o : quotes quote -> (forall kv, In kv o -> says (f kv) (member_value (snd kv))) ->
  let t := joined (map (fun kv => quote (fst kv) ++ s ":" ++ f kv) o) in
  members t (map (fun kv => (fst kv, member_value (snd kv))) o) /\ ~ In "010"%char t.
Proof.
  intros HQ. induction o as [|[k m] o IH]; intros Hf; cbv zeta; [split; [constructor; constructor|intros []]|].
  specialize (IH (fun kv Hi => Hf kv (or_intror Hi))). cbv zeta in IH. destruct IH as [IH1 IH2].
  destruct (Hf (k, m) (or_introl eq_refl)) as [F1 F2]. destruct (HQ k) as [Q1 Q2]. cbn [fst snd] in *.
  destruct o as [|x o].
  - cbn [map joined fst snd]. split.
    + pose proof (members_last [] (quote k) [] [] (f (k, m)) [] k (member_value m)) as H. rewrite !app_nil_r in H. apply H; try constructor; assumption.
    + rewrite !in_app_iff. cbn [s In String.list_ascii_of_string]. intuition discriminate.
  - set (rest := x :: o) in *. change (joined (map (fun kv => quote (fst kv) ++ s ":" ++ f kv) ((k, m) :: rest)))
      with ((quote k ++ s ":" ++ f (k, m)) ++ s "," ++ joined (map (fun kv => quote (fst kv) ++ s ":" ++ f kv) rest)). split.
    + rewrite <- !app_assoc. cbn [map fst snd]. apply (members_more [] (quote k) [] [] (f (k, m)) [] k (member_value m)); try constructor; try assumption. discriminate.
    + rewrite !in_app_iff. cbn [s In String.list_ascii_of_string]. intuition discriminate.
Qed.

Lemma compact_member_says quote m : quotes quote -> says (compact_member quote m) (member_value m).
Proof.
  intros HQ. destruct m as [v|vs]; cbn [compact_member member_value].
  - destruct (HQ v). split; [now constructor|assumption].
  - destruct (joined_items (map quote vs) (map JText vs)) as [H1 H2].
    { induction vs as [|v vs IH]; constructor; [|exact IH]. destruct (HQ v). split; [now constructor|assumption]. }
    split; [now constructor|]. rewrite !in_app_iff. cbn [s In String.list_ascii_of_string]. intuition discriminate.
Qed.

Lemma compact_object_says quote o : quotes quote -> says (compact_object quote o) (object_value o).
Proof.
  intros HQ. destruct (joined_members quote (fun kv => compact_member quote (snd kv)) o HQ) as [H1 H2].
  { intros kv _. now apply compact_member_says. }
  split; [now constructor|]. unfold compact_object. rewrite !in_app_iff. cbn [s In String.list_ascii_of_string]. intuition discriminate.
Qed.

Lemma compact_list_says quote l : quotes quote -> says (compact_list quote l) (JList (map member_value l)).
Proof.
  intros HQ. destruct (joined_items (map (compact_member quote) l) (map member_value l)) as [H1 H2].
  { induction l as [|m l IH]; constructor; [|exact IH]. now apply compact_member_says. }
  split; [now constructor|]. unfold compact_list. rewrite !in_app_iff. cbn [s In String.list_ascii_of_string]. intuition discriminate.
Qed.

Lemma prints_nil : prints [] [].
Proof. exists []. split; [reflexivity|constructor]. Qed.
Lemma prints_more t v output values : says t v -> prints output values -> prints (t ++ newline ++ output) (v :: values).
Proof.
  intros H [ts [-> HF]]. exists (t :: ts). split; [unfold lines; cbn [map concat]; now rewrite <- app_assoc|now constructor].
Qed.
Lemma prints_objects quote l : quotes quote -> prints (concat (map (fun o => compact_object quote o ++ newline) l)) (map object_value l).
Proof.
  intros HQ. induction l as [|o l IH]; [apply prints_nil|]. cbn [map concat]. rewrite <- app_assoc. apply prints_more; [now apply compact_object_says|exact IH].
Qed.

(** ** What the strings of an object are *)

Lemma object_texts_in o x : In x (object_texts o) <-> In x (strings (object_value o)).
Proof.
  rewrite strings_of_object. unfold object_texts. rewrite in_flat_map. split.
  - intros [[k m] [Hi Hx]]. exists k, m. split; [exact Hi|]. cbn [fst snd In] in Hx. rewrite strings_of_member.
    destruct m; cbn [member_texts In] in Hx; intuition.
  - intros [k [m [Hi Hx]]]. exists (k, m). split; [exact Hi|]. cbn [fst snd In]. rewrite strings_of_member in Hx.
    destruct m; cbn [member_texts In]; intuition.
Qed.

Lemma texts_utf8 m o : converted m o -> (forallb utf8 (object_texts o) = true <-> map_utf8 m).
Proof.
  intros HC. rewrite forallb_forall. split.
  - intros H kv Hi. split; apply utf8_iff; apply H; apply object_texts_in; apply (converted_strings m o HC); exists kv; auto.
  - intros H x Hx. apply utf8_iff. apply object_texts_in in Hx. apply (converted_strings m o HC) in Hx as [kv [Hi Hx]].
    destruct (H kv Hi). destruct Hx as [->| ->]; assumption.
Qed.

Lemma result_map_utf8 result : Forall no_nul result -> result_utf8 result -> Forall map_utf8 result.
Proof.
  intros HN HU. rewrite Forall_forall in *. intros m Hm [k v] Hi. destruct (HU m (k, v) Hm Hi) as [H1 H2].
  destruct (HN m Hm k v Hi) as [N1 N2]. cbn [fst snd] in *. rewrite c_str_id in H1 by exact N1. rewrite c_str_id in H2 by exact N2. now split.
Qed.

(** ** Python *)

Lemma py_value_ok h x m : is_member h x m -> py_value h x = [m].
Proof.
  unfold py_value. destruct m as [v|vs]; cbn [is_member].
  - intros [n ->]. reflexivity.
  - intros [n [ids [-> HF]]]. f_equal. f_equal. induction HF as [|i v ids vs [k Hi] HF IH]; [reflexivity|].
    cbn [flat_map]. rewrite IH. unfold py_text. rewrite Hi. reflexivity.
Qed.
Lemma py_object_ok h x o : is_dict h x o -> py_object h x = [o].
Proof.
  unfold py_object. intros [n [l [-> HF]]]. f_equal. induction HF as [|[k i] [k' m] l o [H1 H2] HF IH]; [reflexivity|].
  cbn [flat_map fst snd] in *. subst k'. rewrite IH, (py_value_ok h i m H2). reflexivity.
Qed.
Lemma py_objects_ok h x os : is_list_of_dicts h x os -> py_objects h x = os.
Proof.
  unfold py_objects. intros [n [ids [-> HF]]]. induction HF as [|i o ids os H HF IH]; [reflexivity|].
  cbn [flat_map]. rewrite IH, (py_object_ok h i o H). reflexivity.
Qed.

Lemma insert_last o x : (forall y, In y o -> str_ltb (fst y) (fst x) = true) -> insert_key x o = o ++ [x].
Proof.
  induction o as [|y o IH]; intros H; [reflexivity|]. cbn [insert_key]. rewrite (str_ltb_asym _ _ (H y (or_introl eq_refl))).
  cbn [app]. f_equal. apply IH. intros z Hz. apply H. now right.
Qed.
Lemma sort_sorted o : forall pre, StronglySorted key_lt (pre ++ o) -> fold_left (fun l x => insert_key x l) o pre = pre ++ o.
Proof.
  induction o as [|x o IH]; intros pre HS; [cbn; now rewrite app_nil_r|]. cbn [fold_left]. rewrite insert_last.
  - rewrite IH; rewrite <- app_assoc; [reflexivity|exact HS].
  - intros y Hy. apply sorted_app_inv in HS as [_ [_ HS]]. exact (HS _ _ Hy (or_introl eq_refl)).
Qed.
Lemma sort_keys_sorted o : StronglySorted key_lt o -> sort_keys o = o.
Proof. intros H. unfold sort_keys. exact (sort_sorted o [] H). Qed.

Lemma no_cr x : ~ In "013"%char x -> universal_newlines false x = x.
Proof.
  induction x as [|c x IH]; intros H; [reflexivity|]. cbn [universal_newlines In] in *.
  destruct (byte 13 c) eqn:E; [apply byte_true in E; subst; destruct H; now left|]. rewrite andb_false_r. f_equal. apply IH. tauto.
Qed.

(** ** The loops over the results *)

Lemma script_loop_any {A B} (set : A -> str -> member -> A) (set' : B -> str -> member -> B) h h' m : forall fuel it a b x,
  script_loop set h fuel m it a = Ok x -> exists y, script_loop set' h' fuel m it b = Ok y.
Proof.
  induction fuel as [|f IH]; intros it a b x H; destruct it as [|[k v] it]; cbn [script_loop] in *; try discriminate; eauto.
  destruct (Nat.ltb (multimap_count m k) 2); eapply IH; exact H.
Qed.
Lemma script_loop_total {B} (set' : B -> str -> member -> B) h m b : StronglySorted name_le m -> exists y, script_loop set' h (length m) m m b = Ok y.
Proof.
  intros HS. destruct (script_map js_set node_handover m (mk_js [] None) HS) as [o [E _]]; [intros n v _; cbn; auto|].
  eapply script_loop_any. exact E.
Qed.

(** *** Ruby *)

Lemma ruby_print_good good objects : Forall (StronglySorted name_le) good -> Forall map_utf8 good -> Forall2 converted good objects ->
  forall output rest, ruby_print output (good ++ rest) = ruby_print (output ++ concat (map (fun o => compact_object low_quote o ++ newline) objects)) rest.
Proof.
  intros HS HU HC. induction HC as [|m o good objects H HC IH]; intros output rest; [cbn; now rewrite app_nil_r|].
  inversion HS; subst. inversion HU; subst. cbn [app ruby_print]. destruct (full_bindings_keep ruby_handover m) as [o' [E HC']]; [cbn; auto|assumption|].
  rewrite E. cbn [obind]. rewrite (converted_unique _ _ _ HC' H). rewrite (proj2 (texts_utf8 m o H)) by assumption.
  rewrite IH by assumption. cbn [map concat]. now rewrite <- !app_assoc.
Qed.
Lemma ruby_print_bad m rest output : StronglySorted name_le m -> ~ map_utf8 m -> ruby_print output (m :: rest) = Ok (Uncaught output).
Proof.
  intros HS HU. cbn [ruby_print]. destruct (full_bindings_keep ruby_handover m) as [o [E HC]]; [cbn; auto|assumption|].
  rewrite E. cbn [obind]. destruct (forallb utf8 (object_texts o)) eqn:EU; [|reflexivity]. apply (texts_utf8 m o HC) in EU. contradiction.
Qed.
Lemma ruby_print_total result : Forall (StronglySorted name_le) result -> forall output,
  (exists t, ruby_print output result = Ok (Exits t [] 0)) \/ (exists t, ruby_print output result = Ok (Uncaught t)).
Proof.
  induction 1 as [|m result HS HF IH]; intros output; cbn [ruby_print]; [eauto|].
  destruct (full_bindings_keep ruby_handover m) as [o [E HC]]; [cbn; auto|assumption|]. rewrite E. cbn [obind].
  destruct (forallb utf8 (object_texts o)); eauto.
Qed.

(** *** PHP *)

Lemma key_name_of name k : key_of name k -> key_name k = name.
Proof.
  destruct k as [n|x]; cbn [key_of key_name]; [|intros [-> _]; reflexivity]. intros H. destruct H as [x n Hd Hn|x n Hd Hp Hn].
  - destruct (Z.ltb_spec (Z.of_N n) 0); [lia|]. rewrite N2Z.id. apply (decimal_unique n); [apply decimal_spec|exact Hd].
  - destruct (Z.ltb_spec (- Z.of_N n) 0); [|lia]. rewrite Z.opp_involutive, N2Z.id. cbn. f_equal. apply (decimal_unique n); [apply decimal_spec|exact Hd].
Qed.
Lemma names_keyed o : map (fun kv => (key_name (fst kv), snd kv)) (keyed o) = o.
Proof.
  unfold keyed. rewrite map_map. rewrite <- (map_id o) at 2. apply map_ext. intros [k m]. cbn [fst snd]. now rewrite (key_name_of k _ (to_key_spec k)).
Qed.

Definition php_line (m : ResultMap) (t : str) : Prop :=
  exists o, converted m o /\
    (map_utf8 m -> exists v, php_value o v /\ says t v) /\ (~ map_utf8 m -> t = []).

Lemma php_json_spec m : StronglySorted name_le m -> no_nul m -> exists a, php_map m = Ok a /\ php_line m (php_json a).
Proof.
  intros HS HN. destruct (php_map_fill m HS HN) as [o [E HC]]. exists (keyed o). split; [exact E|]. exists o. split; [exact HC|].
  unfold php_json. rewrite names_keyed. pose proof (texts_utf8 m o HC) as HU. destruct (forallb utf8 (object_texts o)).
  - assert (HM : map_utf8 m) by now apply HU. split; [intros _|contradiction]. pose proof (list_iff_digits o (proj1 HC)) as HL.
    destruct (encoded_as_list (keyed o)).
    + exists (JList (map member_value (map snd (keyed o)))). split; [|apply compact_list_says, php_quotes]. split.
      * intros _. unfold keyed. now rewrite !map_map.
      * intros HNo. destruct HNo. now apply HL.
    + exists (object_value o). split; [|apply compact_object_says, php_quotes]. split; [|reflexivity].
      intros HYes. apply HL in HYes. discriminate.
  - split; [intros HM; apply HU in HM; discriminate|reflexivity].
Qed.
Lemma php_print_lines result : Forall (StronglySorted name_le) result -> Forall no_nul result -> forall output,
  exists texts, php_print output result = Ok (Exits (output ++ lines texts) [] 0) /\ Forall2 php_line result texts.
Proof.
  intros HS HN. induction HS as [|m result H HS IH]; intros output; [exists []; split; [cbn; now rewrite app_nil_r|constructor]|].
  inversion HN; subst. destruct (php_json_spec m H) as [a [E HL]]; [assumption|]. cbn [php_print]. rewrite E. cbn [obind].
  destruct (IH ltac:(assumption) (output ++ php_json a ++ newline)) as [texts [ET HF]]. exists (php_json a :: texts). split; [|now constructor].
  rewrite ET. unfold lines. cbn [map concat]. now rewrite <- !app_assoc.
Qed.
Lemma php_print_total result : Forall (StronglySorted name_le) result -> forall output, exists t, php_print output result = Ok (Exits t [] 0).
Proof.
  induction 1 as [|m result HS HF IH]; intros output; cbn [php_print]; [eauto|].
  destruct (script_loop_total php_set php_handover m [] HS) as [a E]. unfold php_map. rewrite E. cbn [obind]. apply IH.
Qed.

(** *** JavaScript *)

Section Js.
Variable M : machine.

Lemma js_print_total result : Forall (StronglySorted name_le) result -> forall output,
  exists rest values, js_print M output result = Ok (Exits (output ++ rest) [] 0) /\ prints rest (map object_value values) /\ length values = length result.
Proof.
  induction 1 as [|m result HS HF IH]; intros output; cbn [js_print]; [exists [], []; split; [now rewrite app_nil_r|split; [apply prints_nil|reflexivity]]|].
  unfold js_decoded. destruct (script_loop_total js_set (js_handover M) m (mk_js [] None) HS) as [o E]. rewrite E. cbn [obind].
  destruct (IH (output ++ compact_object low_quote (own_properties o) ++ newline)) as [rest [values [ER [HP HL]]]].
  exists (compact_object low_quote (own_properties o) ++ newline ++ rest), (own_properties o :: values). split; [|split].
  - rewrite ER. now rewrite <- !app_assoc.
  - cbn [map]. apply prints_more; [apply compact_object_says, low_quotes|exact HP].
  - cbn [length]. now rewrite HL.
Qed.

Lemma js_decoded_spec m o : decoder_ok M -> StronglySorted name_le m -> map_utf8 m -> converted m o ->
  exists j, js_decoded M m = Ok j /\ js_value_of o (object_value (own_properties j)).
Proof.
  intros HD HS HU HC. destruct (script_map js_set (js_handover M) m (mk_js [] None) HS) as [o' [E HC']].
  { intros k v Hi. destruct (HU (k, v) Hi) as [H1 H2]. cbn. now rewrite !HD. }
  rewrite (converted_unique _ _ _ HC' HC) in E. rewrite js_fill in E; [|intros x y []|exact (proj1 HC)]. cbn [app] in E.
  unfold js_decoded. rewrite E. eexists. split; [reflexivity|]. eexists. split; [reflexivity|].
  pose proof (converted_without proto m o HC) as HW.
  destruct (own_properties_spec (mk_js (filter (fun x => negb (str_eqb (fst x) proto)) o)
        (match FindMember o proto with Some (Many vs) => Some vs | _ => None end))) as [H1 H2]; [exact (proj1 HW)|]. split; [exact H2|exact H1].
Qed.

Lemma js_print_spec result objects : decoder_ok M -> Forall (StronglySorted name_le) result -> Forall map_utf8 result -> Forall2 converted result objects ->
  forall output, exists rest values, js_print M output result = Ok (Exits (output ++ rest) [] 0) /\ prints rest values /\ Forall2 js_value_of objects values.
Proof.
  intros HD HS HU HC. induction HC as [|m o result objects H HC IH]; intros output.
  - exists [], []. split; [cbn; now rewrite app_nil_r|]. split; [apply prints_nil|constructor].
  - inversion HS; subst. inversion HU; subst. cbn [js_print]. destruct (js_decoded_spec m o HD) as [j [E HV]]; try assumption. rewrite E. cbn [obind].
    destruct (IH ltac:(assumption) ltac:(assumption) (output ++ compact_object low_quote (own_properties j) ++ newline)) as [rest [values [ER [HP HL]]]].
    exists (compact_object low_quote (own_properties j) ++ newline ++ rest), (object_value (own_properties j) :: values). split; [|split].
    + rewrite ER. now rewrite <- !app_assoc.
    + apply prints_more; [apply compact_object_says, low_quotes|exact HP].
    + now constructor.
Qed.
End Js.

(** *** Python *)

Lemma python_print name hext_file result objects : Forall (StronglySorted name_le) result -> Forall no_nul result -> Forall map_utf8 result ->
  Forall2 converted result objects ->
  exists h x, py_convert (fun _ => false) result py_start = Ok (h, Some x) /\
    (let! (h, r) := py_convert (fun _ => false) result py_start in
     match r with
     | Some x => Ok (Exits (concat (map (fun o => compact_object low_quote (sort_keys o) ++ newline) (py_objects h x))) [] 0)
     | None => Ok (Exits [] (in_file name hext_file (s "PyDict_SetItemString returned != 0")) 1)
     end) = Ok (Exits (concat (map (fun o => compact_object low_quote o ++ newline) objects)) [] 0).
Proof.
  intros HS HN HU HC. assert (HU2 : forall m kv, In m result -> In kv m -> utf8 (c_str (fst kv)) = true /\ utf8 (c_str (snd kv)) = true).
  { rewrite Forall_forall in *. intros m [k v] Hm Hi. destruct (HN m Hm k v Hi) as [N1 N2]. destruct (HU m Hm (k, v) Hi) as [U1 U2]. cbn [fst snd] in *.
    rewrite !c_str_id by assumption. now rewrite !(proj2 (utf8_iff _)). }
  destruct (py_convert_success (fun _ => false) result HS) as [h [x [objs [E [HO [HD _]]]]]].
  - intros n. reflexivity.
  - intros m p Hm Hp. now apply (HU2 m p).
  - intros m p Hm Hp. now apply (HU2 m p).
  - exists h, x. split; [exact E|]. rewrite E. cbn [obind]. rewrite (py_objects_ok _ _ _ HD). do 2 f_equal.
    assert (EO : objs = objects).
    { clear - HO HC HS HN. revert objs HO. induction HC as [|m o result objects H HC IH]; intros objs HO; inversion HO; subst; [reflexivity|].
      inversion HS; subst. inversion HN; subst. f_equal; [|now apply IH]. destruct (bindings_keep python_handover m) as [o' [E1 E2]]; [cbn; auto|assumption|assumption|].
      replace y with o' by congruence. eapply converted_unique; eassumption. }
    subst objs. f_equal. clear - HC. induction HC as [|m o result objects H HC IH]; [reflexivity|]. cbn [map]. rewrite IH. now rewrite (sort_keys_sorted o (proj1 H)).
Qed.
