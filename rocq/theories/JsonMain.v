(** The printed text as a whole. *)

From Coq Require Import Ascii String NArith ZArith Bool List Sorted Lia.
From Verif Require Import Base Dom Values Match Rule RuleMatching ExtractSpec StringProofs NodeProofs ResultProofs ExtractMain Parser
  Convert ConvertSpec ConvertProofs Cli CliSpec CliProofs PyRefs JsonText JsonSpec JsonUnique JsonProofs Utf8Proofs.
Import ListNotations.

Lemma no_nul_c_str (t : str) : ~ In NUL t -> c_str t = t.
Proof. apply c_str_id. Qed.

Lemma printed_text pretty v : means (c_str (rapidjson pretty v)) (value_of v) /\ piece pretty (c_str (rapidjson pretty v)) (strings_ok (value_of v)).
Proof.
  destruct (rapidjson_text pretty v) as [t [-> [HM HP]]]. rewrite no_nul_c_str by apply HP. now split.
Qed.

Theorem rapidjson_means pretty v : means (rapidjson pretty v) (value_of v) /\ ~ In NUL (rapidjson pretty v).
Proof. destruct (rapidjson_text pretty v) as [t [-> [HM HP]]]. split; [exact HM|apply HP]. Qed.

(** ** Streams *)

Lemma stream_blanks w t l : blanks w -> stream t l -> stream (w ++ t) l.
Proof.
  intros Hw H. destruct H as [w' Hw'|w' t v ts l Hw' HM HC HS].
  - constructor. now apply Forall_app.
  - rewrite app_assoc. constructor; try assumption. now apply Forall_app.
Qed.
Lemma stream_app t l : stream t l -> forall t' l', stream t' l' -> stream (t ++ t') (l ++ l').
Proof.
  induction 1 as [w Hw|w t v ts l Hw HM HC HS IH]; intros t' l' H'; [now apply stream_blanks|].
  rewrite <- !app_assoc. cbn [app]. constructor; try assumption. now apply IH.
Qed.

Lemma newline_blank : blanks newline.
Proof. constructor; [unfold blank; cbn; tauto|constructor]. Qed.

Lemma stream_line pretty v : closed (value_of v) -> stream (c_str (rapidjson pretty v) ++ newline) [value_of v].
Proof.
  intros HC. apply (stream_next [] _ (value_of v) newline []); [constructor|apply printed_text|exact HC|]. constructor. apply newline_blank.
Qed.

Lemma stream_objects pretty objects : stream (lines (map (fun o => c_str (rapidjson pretty (JObject o))) objects)) (map object_value objects).
Proof.
  unfold lines. induction objects as [|o objects IH]; cbn [map concat]; [constructor; constructor|].
  apply (stream_app _ [object_value o]); [|exact IH]. now apply (stream_line pretty (JObject o)).
Qed.

Lemma print_stream opt result : stream (PrintJson rapidjson opt result) (printed_values (ArrayEnvelope opt) (json_array result)).
Proof.
  unfold PrintJson, printed_values. destruct (ArrayEnvelope opt).
  - destruct (json_array result) as [|o os] eqn:E; [constructor; constructor|]. now apply (stream_line (PrettyPrint opt) (JArray (o :: os))).
  - pose proof (stream_objects (PrettyPrint opt) (json_array result)) as H. unfold lines in H. rewrite map_map in H. exact H.
Qed.

Theorem print_means opt result : Forall (StronglySorted name_le) result ->
  exists objects, Forall2 converted (map cut_map result) objects /\
    stream (PrintJson rapidjson opt result) (printed_values (ArrayEnvelope opt) objects).
Proof. intros H. exists (json_array result). split; [now apply json_array_spec|apply print_stream]. Qed.

Theorem print_lines opt result : PrettyPrint opt = false -> ArrayEnvelope opt = false -> Forall (StronglySorted name_le) result ->
  exists objects texts, Forall2 converted (map cut_map result) objects /\
    PrintJson rapidjson opt result = lines texts /\
    Forall2 (fun text o => means text (object_value o) /\ ~ In "010"%char text) texts objects.
Proof.
  intros HP HA H. exists (json_array result), (map (fun o => c_str (rapidjson false (JObject o))) (json_array result)).
  split; [now apply json_array_spec|]. split.
  - unfold PrintJson. rewrite HP, HA. unfold lines. now rewrite map_map.
  - induction (json_array result) as [|o os IH]; cbn [map]; constructor; [|exact IH]. destruct (printed_text false (JObject o)) as [HM HPi]. split; [exact HM|]. now apply HPi.
Qed.

(** ** The text determines the values *)

Lemma member_value_inj m m' : member_value m = member_value m' -> m = m'.
Proof.
  destruct m as [v|vs], m' as [v'|vs']; cbn [member_value]; intros E; try discriminate; injection E as E; [now subst|]. f_equal.
  revert vs' E. induction vs as [|x vs IH]; intros [|x' vs'] E; try discriminate; [reflexivity|]. cbn [map] in E. injection E as -> E. f_equal. now apply IH.
Qed.
Lemma object_value_inj o o' : object_value o = object_value o' -> o = o'.
Proof.
  unfold object_value. intros E. injection E as E. revert o' E. induction o as [|[k m] o IH]; intros [|[k' m'] o'] E; try discriminate; [reflexivity|].
  cbn [map fst snd] in E. injection E as -> E1 E. apply member_value_inj in E1 as ->. f_equal. now apply IH.
Qed.
Lemma cons_inj {A} (x y : A) l l' : x :: l = y :: l' -> x = y /\ l = l'.
Proof. intros E. now injection E. Qed.
Lemma map_object_value_inj l : forall l', map object_value l = map object_value l' -> l = l'.
Proof.
  induction l as [|o l IH]; intros [|o' l'] E; try discriminate; [reflexivity|]. cbn [map] in E. apply cons_inj in E as [E1 E]. apply object_value_inj in E1 as ->. f_equal. now apply IH.
Qed.
Lemma printed_values_inj e l l' : printed_values e l = printed_values e l' -> l = l'.
Proof.
  unfold printed_values. destruct e; [|apply map_object_value_inj]. destruct l, l'; intros E; try discriminate; [reflexivity|]. apply cons_inj in E as [E _]. apply map_object_value_inj. congruence.
Qed.

Lemma cut_map_id m : no_nul m -> cut_map m = m.
Proof.
  unfold no_nul, cut_map. induction m as [|[k v] m IH]; intros H; [reflexivity|]. cbn [map fst snd]. destruct (H k v (or_introl eq_refl)) as [H1 H2].
  rewrite !no_nul_c_str by assumption. rewrite IH; [reflexivity|]. intros k' v' Hi. apply H. now right.
Qed.

Lemma values_of_none name m : (forall v, ~ In (name, v) m) -> values_of name m = [].
Proof.
  induction m as [|[k v] m IH]; intros H; [reflexivity|]. rewrite values_of_cons. cbn [fst snd]. destruct (str_eqb k name) eqn:E.
  - apply str_eqb_eq in E. subst k. exfalso. apply (H v). now left.
  - cbn [app]. apply IH. intros v' Hi. apply (H v'). now right.
Qed.

Lemma converted_values m m' o : converted m o -> converted m' o -> forall name, values_of name m = values_of name m'.
Proof.
  intros (S1 & H1 & C1) (S2 & H2 & C2) name.
  assert (HD : (exists v, In (name, v) o) \/ forall v, ~ In (name, v) o).
  { clear. induction o as [|[k v] o IH]; [right; intros v []|]. destruct (str_eqb k name) eqn:E.
    - apply str_eqb_eq in E. subst k. left. exists v. now left.
    - destruct IH as [[v' Hv]|HN]; [left; exists v'; now right|right]. intros v' [Ev|Hv]; [|now apply (HN v')]. injection Ev as -> _. 
      assert (HE : str_eqb name name = true) by now apply str_eqb_eq. congruence. }
  destruct HD as [[v Hv]|HN].
  - specialize (H1 name v Hv). specialize (H2 name v Hv). destruct v as [x|xs]; cbn [stands_for] in *; [congruence|]. destruct H1 as [-> _], H2 as [-> _]. reflexivity.
  - rewrite !values_of_none; [reflexivity| |]; intros v Hi; [destruct (C2 name v Hi) as [w Hw]|destruct (C1 name v Hi) as [w Hw]]; now apply (HN w).
Qed.

Theorem print_determines opt opt' result result' :
  Forall (StronglySorted name_le) result -> Forall (StronglySorted name_le) result' -> Forall no_nul result -> Forall no_nul result' ->
  ArrayEnvelope opt = ArrayEnvelope opt' -> PrintJson rapidjson opt result = PrintJson rapidjson opt' result' ->
  Forall2 (fun m m' => forall name, values_of name m = values_of name m') result result'.
Proof.
  intros HS HS' HN HN' HA E. pose proof (print_stream opt result) as H1. pose proof (print_stream opt' result') as H2. rewrite E, HA in H1.
  pose proof (printed_values_inj _ _ _ (stream_unique _ _ H1 _ H2)) as EA.
  pose proof (json_array_spec _ HS) as C1. pose proof (json_array_spec _ HS') as C2. rewrite EA in C1.
  assert (HM : forall r, Forall no_nul r -> map cut_map r = r).
  { clear. intros r H. induction H as [|m r Hm H IH]; [reflexivity|]. cbn [map]. now rewrite cut_map_id, IH. }
  rewrite (HM _ HN) in C1. rewrite (HM _ HN') in C2. clear - C1 C2. revert result C1. generalize dependent (json_array result'). intros os C2.
  induction C2 as [|m' o r' os Hm HR IH]; intros r C1; inversion C1; subst; constructor; [now apply converted_values with o|now apply IH].
Qed.

(** ** UTF-8 *)

Lemma low_newline r : low_start (newline ++ r).
Proof. unfold low_start, low. cbn. lia. Qed.

Lemma lines_piece ts bs : Forall2 (fun t b => piece true t b) ts bs -> piece true (lines ts) (forallb (fun b => b) bs).
Proof.
  induction 1 as [|t b ts bs H HF IH]; [apply piece_nil|]. unfold lines. cbn [map concat forallb]. apply piece_app; [|exact IH].
  apply piece_app' with b true; [exact H|apply newline_piece|now rewrite andb_true_r].
Qed.

Lemma piece_weaken p t b : piece p t b -> piece true t b.
Proof. intros (H1 & H2 & H3 & H4). split; [exact H1|split; [exact H2|split; [exact H3|discriminate]]]. Qed.

Lemma print_utf8 opt result : utf8 (PrintJson rapidjson opt result) = forallb (fun o => strings_ok (object_value o)) (json_array result).
Proof.
  unfold PrintJson. destruct (ArrayEnvelope opt).
  - destruct (json_array result) as [|o os] eqn:E; [reflexivity|]. pose proof (lines_piece [c_str (rapidjson (PrettyPrint opt) (JArray (o :: os)))] [strings_ok (value_of (JArray (o :: os)))]) as H.
    assert (HF : Forall2 (fun t b => piece true t b) [c_str (rapidjson (PrettyPrint opt) (JArray (o :: os)))] [strings_ok (value_of (JArray (o :: os)))]).
    { constructor; [|constructor]. apply piece_weaken with (PrettyPrint opt). apply printed_text. }
    specialize (H HF). destruct H as (_ & H & _). unfold lines in H. cbn [map concat forallb] in H. rewrite app_nil_r, andb_true_r in H. rewrite H.
    cbn [value_of]. rewrite strings_list. clear. generalize (o :: os). intros l. induction l as [|x l IH]; [reflexivity|]. cbn [map forallb]. now rewrite IH.
  - pose proof (lines_piece (map (fun o => c_str (rapidjson (PrettyPrint opt) (JObject o))) (json_array result)) (map (fun o => strings_ok (object_value o)) (json_array result))) as H.
    destruct H as (_ & H & _).
    { induction (json_array result) as [|o os IH]; cbn [map]; constructor; [|exact IH]. apply piece_weaken with (PrettyPrint opt). apply (printed_text _ (JObject o)). }
    unfold lines in H. rewrite map_map in H. rewrite H. clear. induction (json_array result) as [|x l IH]; [reflexivity|]. cbn [map forallb]. now rewrite IH.
Qed.

Lemma strings_of_member m x : In x (strings (member_value m)) <-> match m with One v => x = v | Many vs => In x vs end.
Proof.
  destruct m as [v|vs]; cbn [member_value strings In]; [intuition congruence|].
  induction vs as [|y vs IH]; cbn [map flat_map In app strings]; [tauto|]. rewrite IH. intuition congruence.
Qed.

Lemma strings_of_object o x : In x (strings (object_value o)) <-> exists k m, In (k, m) o /\ (x = k \/ In x (strings (member_value m))).
Proof.
  unfold object_value. cbn [strings]. rewrite in_flat_map. split.
  - intros [kv [Hk Hx]]. apply in_map_iff in Hk as [[k m] [<- Hi]]. cbn [fst snd In] in Hx. exists k, m. split; [exact Hi|]. destruct Hx as [->|Hx]; [now left|now right].
  - intros [k [m [Hi Hx]]]. exists (k, member_value m). split; [apply in_map_iff; exists (k, m); now split|]. cbn [fst snd In]. destruct Hx as [->|Hx]; [now left|now right].
Qed.

Lemma in_values name m x : In x (values_of name m) <-> In (name, x) m.
Proof.
  induction m as [|[k v] m IH]; [tauto|]. rewrite values_of_cons. cbn [fst snd]. rewrite in_app_iff, IH. cbn [In]. destruct (str_eqb k name) eqn:E.
  - apply str_eqb_eq in E. subst k. cbn [In]. intuition congruence.
  - assert (HN : k <> name). { intros ->. assert (HE : str_eqb name name = true) by now apply str_eqb_eq. congruence. } cbn [In]. intuition congruence.
Qed.

Lemma converted_strings m o : converted m o -> forall x, In x (strings (object_value o)) <-> exists kv, In kv m /\ (x = fst kv \/ x = snd kv).
Proof.
  intros (_ & HV & HC) x. rewrite strings_of_object. split.
  - intros [k [mb [Hi Hx]]]. specialize (HV k mb Hi). rewrite strings_of_member in Hx.
    assert (HI : forall v, match mb with One w => v = w | Many ws => In v ws end -> In (k, v) m).
    { intros v Hv. apply in_values. destruct mb as [w|ws]; cbn [stands_for] in HV; [rewrite HV; subst; now left|]. destruct HV as [-> _]. exact Hv. }
    destruct Hx as [->|Hx]; [|exists (k, x); split; [now apply HI|now right]].
    assert (HE : exists v, match mb with One w => v = w | Many ws => In v ws end).
    { destruct mb as [w|[|w ws]]; [eauto| |exists w; now left]. destruct HV as [_ HL]. cbn in HL. lia. }
    destruct HE as [v Hv]. exists (k, v). split; [now apply HI|now left].
  - intros [[k v] [Hi Hx]]. cbn [fst snd] in Hx. destruct (HC k v Hi) as [mb Hm]. exists k, mb. split; [exact Hm|]. rewrite strings_of_member. specialize (HV k mb Hm).
    apply in_values in Hi. destruct Hx as [-> | ->]; [now left|right]. destruct mb as [w|ws]; cbn [stands_for] in HV.
    + rewrite HV in Hi. cbn in Hi. intuition congruence.
    + destruct HV as [HV _]. now rewrite HV in Hi.
Qed.

Theorem print_is_utf8 opt result : Forall (StronglySorted name_le) result ->
  (is_utf8 (PrintJson rapidjson opt result) <-> result_utf8 result).
Proof.
  intros HS. rewrite <- utf8_iff, print_utf8. rewrite forallb_forall. unfold strings_ok. unfold result_utf8. pose proof (json_array_spec _ HS) as HC.
  assert (HX : (forall o, In o (json_array result) -> forallb utf8 (strings (object_value o)) = true) <->
    forall m x kv, In m (map cut_map result) -> In kv m -> (x = fst kv \/ x = snd kv) -> utf8 x = true).
  { clear HS. revert HC. generalize (map cut_map result). intros ms HC. induction HC as [|m o ms os Hm HC IH]; [split; [intros _ m x kv []|intros _ o []]|]. split.
    - intros H m' x kv [<-|Hi] Hk Hx.
      + specialize (H o (or_introl eq_refl)). rewrite forallb_forall in H. apply H. apply (converted_strings _ _ Hm). eauto.
      + apply (proj1 IH) with (m := m') (kv := kv); try assumption. intros o' Ho. apply H. now right.
    - intros H o' [<-|Hi].
      + apply forallb_forall. intros x Hx. apply (converted_strings _ _ Hm) in Hx as [kv [Hk Hx]]. apply (H m x kv); [now left|exact Hk|exact Hx].
      + apply (proj2 IH); [|exact Hi]. intros m' x kv Hm' Hk Hx. apply (H m' x kv); [now right|exact Hk|exact Hx]. }
  rewrite HX. clear. split.
  - intros H m kv Hm Hk. rewrite <- !utf8_iff. split; (apply (H (cut_map m) _ (c_str (fst kv), c_str (snd kv))); [now apply in_map|apply (in_map (fun x => (c_str (fst x), c_str (snd x)))); exact Hk|cbn [fst snd]; tauto]).
  - intros H m x kv Hm Hk Hx. apply in_map_iff in Hm as [m0 [<- Hm]]. unfold cut_map in Hk. apply in_map_iff in Hk as [kv0 [<- Hk]]. cbn [fst snd] in Hx.
    destruct (H m0 kv0 Hm Hk) as [H1 H2]. destruct Hx as [-> | ->]; now apply utf8_iff.
Qed.

(** ** The program *)

Lemma shown_stream W po result text : writer W = rapidjson -> filter_key po = None -> shown W po result text ->
  exists objects, Forall2 converted (map cut_map result) objects /\ stream text (printed_values (ArrayEnvelope (json_options po)) objects).
Proof.
  intros HW HK. unfold shown. rewrite HK, HW. intros [objects [HC HT]]. exists objects. split; [exact HC|]. cbv zeta in HT. unfold printed_values.
  destruct (ArrayEnvelope (json_options po)).
  - destruct HT as [[HN ->]|[-> ->]].
    + destruct objects as [|o os]; [inversion HC; destruct result; [contradiction|discriminate]|]. unfold lines. cbn [map concat]. rewrite app_nil_r. now apply (stream_line _ (JArray (o :: os))).
    + inversion HC; subst. constructor. constructor.
  - rewrite HT. apply stream_objects.
Qed.

Theorem program_stream W po rules docs results : writer W = rapidjson -> filter_key po = None -> lint po = false ->
  Forall2 (source_is W) (hext_sources W po) rules ->
  Forall2 (html_is W) (html_files po) docs ->
  Forall2 (fun r => Forall2 (fun doc result => extracts W po r doc (Ok result)) docs) rules results ->
  exists output objects, main_yields W po (Ok (mk_ending output [] false)) /\
    Forall2 (Forall2 (fun result os => Forall2 converted (map cut_map result) os)) results objects /\
    stream output (concat (concat (map (map (printed_values (ArrayEnvelope (json_options po)))) objects))).
Proof.
  intros HW HK HL HS HH HE. destruct (main_prints_all W po rules docs results HL HS HH HE) as [texts [HT HM]].
  exists (concat (concat texts)).
  assert (HR : forall row trow, Forall2 (shown W po) row trow -> exists os, Forall2 (fun result os => Forall2 converted (map cut_map result) os) row os /\
    stream (concat trow) (concat (map (printed_values (ArrayEnvelope (json_options po))) os))).
  { intros row trow H. induction H as [|r t row trow Hr H IH]; [exists []; split; [constructor|constructor; constructor]|].
    destruct (shown_stream W po r t HW HK Hr) as [o [Ho So]]. destruct IH as [os [Hos Sos]]. exists (o :: os). split; [now constructor|]. cbn [map concat]. now apply stream_app. }
  assert (HA : exists objects, Forall2 (Forall2 (fun result os => Forall2 converted (map cut_map result) os)) results objects /\
    stream (concat (concat texts)) (concat (concat (map (map (printed_values (ArrayEnvelope (json_options po)))) objects)))).
  { clear HM HE. induction HT as [|row trow results texts Hr HT IH]; [exists []; split; [constructor|constructor; constructor]|].
    destruct (HR row trow Hr) as [os [Hos Sos]]. destruct IH as [objects [Ho So]]. exists (os :: objects). split; [now constructor|].
    cbn [map concat]. rewrite !concat_app. now apply stream_app. }
  destruct HA as [objects [H1 H2]]. exists objects. split; [exact HM|]. split; [exact H1|exact H2].
Qed.
