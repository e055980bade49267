(** Proofs about the process htmlext. *)

From Coq Require Import Ascii String Arith NArith ZArith Bool List Lia.
From Verif Require Import Base StringUtil StringProofs Dom Values Match Rule RuleMatching ExtractSpec Parser ParserSpec ParserSafety Convert Cli CliSpec CliProofs
  BindSpec BindProofs Program ProgramSpec ProgramProofs Process ProcessSpec.
Import ListNotations.

Section Proofs.
Context {World : Type}.
Variable S0 : system World.
Notation reading := (reading S0).
Notation source_text := (source_text S0).
Notation rules_of := (rules_of S0).
Notation source_bad := (source_bad S0).
Notation documents_of := (documents_of S0).
Notation L := (libraries S0).

(** ** Reading *)

Lemma reading_total w name : exists r paths w', reading w name r paths w'.
Proof.
  assert (G : forall w name, name <> s "-" -> exists r paths w', reading w name r paths w').
  { intros w0 n Hn. destruct (open_at S0 w0 n) as [[reason|bytes b] w'] eqn:E; [|eauto using reading_bytes].
    do 3 eexists. eapply reading_denied; eassumption. }
  destruct (list_eq_dec ascii_dec name (s "-")) as [->|Hn]; [|now apply G].
  destruct (open_at S0 w (s "-")) as [[reason|bytes b] w'] eqn:E; [|eauto using reading_bytes].
  destruct (G w' (s "/dev/stdin")) as [r [paths [w2 H]]]; [discriminate|]. do 3 eexists. eapply reading_stdin; eassumption.
Qed.

Lemma read_at_ok w name r paths w' : reading w name r paths w' -> forall f, 2 <= f -> read_at S0 f w name = Ok (r, w', map Opens paths).
Proof.
  intros H.
  assert (G : forall w name r paths w', reading w name r paths w' -> name <> s "-" -> forall f, 1 <= f -> read_at S0 f w name = Ok (r, w', map Opens paths)).
  { clear. intros w name r paths w' H Hn f Hf. destruct f as [|f]; [lia|]. cbn [read_at].
    inversion H as [? ? bytes broken ? E|? ? reason ? _ E|? reason w1 ? ? ? E _]; subst; [rewrite E; reflexivity| |congruence].
    rewrite E. destruct (str_eqb name (s "-")) eqn:X; [apply str_eqb_eq in X; contradiction|reflexivity]. }
  intros f Hf. destruct (list_eq_dec ascii_dec name (s "-")) as [->|Hn]; [|apply G; [exact H|exact Hn|lia]].
  destruct f as [|f]; [lia|]. cbn [read_at].
  inversion H as [? ? bytes broken ? E|? ? reason ? Hn E|? reason w1 ? ps ? E H']; subst; [rewrite E; reflexivity|congruence|].
  rewrite E. replace (str_eqb (s "-") (s "-")) with true by reflexivity.
  rewrite (G _ _ _ _ _ H') by (discriminate || lia). reflexivity.
Qed.

Lemma source_text_total w x : exists r paths w', source_text w x r paths w'.
Proof.
  destruct x as [name|text].
  - destruct (reading_total w name) as [r [p [w' H]]]. do 3 eexists. constructor. exact H.
  - do 3 eexists. constructor.
Qed.

(** ** The sources *)

Lemma rules_of_app w l1 : forall l2 rs paths w', rules_of w (l1 ++ l2) rs paths w' ->
  exists rs1 rs2 p1 p2 w1, rs = rs1 ++ rs2 /\ paths = p1 ++ p2 /\ rules_of w l1 rs1 p1 w1 /\ rules_of w1 l2 rs2 p2 w'.
Proof.
  revert w. induction l1 as [|x l1 IH]; intros w l2 rs paths w' H.
  - exists [], rs, [], paths, w. repeat split; [constructor|exact H].
  - cbn [app] in H. inversion H as [|? ? text ps w1 r ? rs' ps' ? HT HP HR]; subst.
    destruct (IH _ _ _ _ _ HR) as [rs1 [rs2 [p1 [p2 [wm [-> [-> [H1 H2]]]]]]]].
    exists (r :: rs1), rs2, (ps ++ p1), p2, wm. repeat split; [now rewrite app_assoc| |exact H2]. econstructor; eassumption.
Qed.

Lemma app_rules_of w l1 rs1 p1 w1 : rules_of w l1 rs1 p1 w1 -> forall l2 rs2 p2 w2, rules_of w1 l2 rs2 p2 w2 ->
  rules_of w (l1 ++ l2) (rs1 ++ rs2) (p1 ++ p2) w2.
Proof.
  intros H. induction H as [|w x text ps w1 r l rs ps' w2 HT HP HR IH]; intros l2 rs2 p2 w3 H2; [exact H2|].
  cbn [app]. rewrite <- app_assoc. econstructor; [exact HT|exact HP|]. now apply IH.
Qed.

Notation strange_at := (strange_at S0).
Definition bad_at (w : World) (l : list source) (m : str * str) (paths : list str) (w' : World) : Prop :=
  exists before x after rs p w1 p', l = before ++ x :: after /\ rules_of w before rs p w1 /\
    source_bad w1 x m p' w' /\ paths = p ++ p'.

Lemma sources_total l : forall w,
  (exists rs p w', rules_of w l rs p w') \/ (exists m p w', bad_at w l m p w') \/ strange_at w l.
Proof.
  induction l as [|x l IH]; intros w; [left; do 3 eexists; constructor|].
  destruct (source_text_total w x) as [[text|reason] [ps [w1 HT]]].
  2: { right. left. exists (s "Error", reason), ps, w1, [], x, l, [], [], w, ps. repeat split; [constructor|now apply bad_reading]. }
  destruct (parse_total (sys_regexes S0) (c_str text)) as [[r HP]|[[e HP]|[HP HL]]].
  - destruct (IH w1) as [[rs [p [w' H]]]|[[m [p [w' H]]]|H]].
    + left. do 3 eexists. econstructor; eassumption.
    + right. left. destruct H as [b [y [a [rs [p1 [w2 [p' [-> [H1 [H2 ->]]]]]]]]]]. exists m, ((ps ++ p1) ++ p'), w', (x :: b), y, a, (r :: rs), (ps ++ p1), w2, p'.
      repeat split; [|exact H2]. econstructor; eassumption.
    + right. right. destruct H as [b [y [a [rs [p1 [w2 [t [p' [w3 [-> [H1 [H2 H3]]]]]]]]]]]].
      exists (x :: b), y, a, (r :: rs), (ps ++ p1), w2, t, p', w3. split; [reflexivity|]. split; [econstructor; eassumption|]. split; [exact H2|exact H3].
  - assert (HE : (exists m, e = SyntaxError m) \/ forall m, e <> SyntaxError m) by (destruct e; [right|left|right|right|right]; try discriminate; eauto).
    right. left. destruct HE as [[m ->]|HE].
    + exists (source_title x, c_str m), ps, w1, [], x, l, [], [], w, ps. split; [reflexivity|]. split; [constructor|]. split; [|reflexivity]. eapply bad_syntax; eassumption.
    + exists (s "Error", sys_what S0 e), ps, w1, [], x, l, [], [], w, ps. split; [reflexivity|]. split; [constructor|]. split; [|reflexivity]. eapply bad_number; eassumption.
  - right. right. exists [], x, l, [], [], w, text, ps, w1. repeat split; [constructor|exact HT|exact HP|exact HL].
Qed.

Lemma parse_ok title text r : ParseHext (sys_regexes S0) (c_str text) = Ok r -> parse_or_error L title text = Ok (inl r).
Proof. intros H. unfold parse_or_error. cbn [regexes libraries]. now rewrite H. Qed.

Lemma bad_text w x m p w' : source_bad w x m p w' ->
  (exists reason, source_text w x (inr reason) p w' /\ m = (s "Error", reason)) \/
  (exists text, source_text w x (inl text) p w' /\ parse_or_error L (source_title x) text = Ok (inr m)).
Proof.
  intros H. inversion H as [? ? reason ? ? HT|? ? text msg ? ? HT HP|? ? text e ? ? HT HP HN]; subst.
  - left. eauto.
  - right. exists text. split; [exact HT|]. unfold parse_or_error. cbn [regexes libraries]. now rewrite HP.
  - right. exists text. split; [exact HT|]. unfold parse_or_error. cbn [regexes libraries]. rewrite HP.
    destruct e as [|m| | |]; try reflexivity. now destruct (HN m).
Qed.

Lemma files_ok f : 2 <= f -> forall names w rs p w', rules_of w (map FromFile names) rs p w' ->
  load_files_at S0 f w names = Ok (inl rs, w', map Opens p).
Proof.
  intros Hf. induction names as [|n names IH]; intros w rs p w' H; cbn [map] in H.
  - inversion H; subst. reflexivity.
  - inversion H as [|? ? text ps w1 r ? rs' ps' ? HT HP HR]; subst. inversion HT as [? ? ? ? ? HRd|]; subst. cbn [load_files_at].
    rewrite (read_at_ok _ _ _ _ _ HRd f Hf). cbn [obind]. rewrite (parse_ok _ _ _ HP). cbn [obind]. rewrite (IH _ _ _ _ HR). cbn [obind]. now rewrite map_app.
Qed.

Lemma files_bad f : 2 <= f -> forall names w m p w', bad_at w (map FromFile names) m p w' ->
  load_files_at S0 f w names = Ok (inr m, w', map Opens p).
Proof.
  intros Hf. induction names as [|n names IH]; intros w m p w' [b [x [a [rs [p1 [w1 [p' [E [H1 [H2 ->]]]]]]]]]]; [destruct b; discriminate|].
  destruct b as [|y b]; cbn [map app] in E; injection E as E1 E; subst.
  - inversion H1; subst. cbn [app load_files_at]. destruct (bad_text _ _ _ _ _ H2) as [[reason [HT ->]]|[text [HT HP]]]; inversion HT as [? ? ? ? ? HR|]; subst;
      rewrite (read_at_ok _ _ _ _ _ HR f Hf); cbn [obind]; [reflexivity|]. cbn [source_title] in HP. rewrite HP. reflexivity.
  - inversion H1 as [|? ? text ps w2 r ? rs' ps' ? HT HP HR]; subst. inversion HT as [? ? ? ? ? HRd|]; subst. cbn [load_files_at].
    rewrite (read_at_ok _ _ _ _ _ HRd f Hf). cbn [obind]. rewrite (parse_ok _ _ _ HP). cbn [obind].
    rewrite (IH w2 m (ps' ++ p') w'); [|exists b, x, a, rs', ps', w1, p'; repeat split; assumption]. cbn [obind]. now rewrite !map_app, app_assoc.
Qed.

Lemma files_strange f : 2 <= f -> forall names w, strange_at w (map FromFile names) ->
  load_files_at S0 f w names = UB BadCtypeArgument.
Proof.
  intros Hf. induction names as [|n names IH]; intros w [b [x [a [rs [p [w1 [text [p' [w2 [E [H1 [H2 [H3 H4]]]]]]]]]]]]]; [destruct b; discriminate|].
  destruct b as [|y b]; cbn [map app] in E; injection E as E1 E; subst.
  - inversion H1; subst. inversion H2 as [? ? ? ? ? HR|]; subst. cbn [load_files_at]. rewrite (read_at_ok _ _ _ _ _ HR f Hf). cbn [obind].
    unfold parse_or_error. cbn [regexes libraries]. rewrite H3. reflexivity.
  - inversion H1 as [|? ? t ps wm r ? rs' ps' ? HT HP HR]; subst. inversion HT as [? ? ? ? ? HRd|]; subst. cbn [load_files_at].
    rewrite (read_at_ok _ _ _ _ _ HRd f Hf). cbn [obind]. rewrite (parse_ok _ _ _ HP). cbn [obind]. rewrite IH; [reflexivity|].
    exists b, x, a, rs', ps', w1, text, p', w2. repeat split; assumption.
Qed.

(** Texts of the command line change nothing. *)
Lemma strings_world texts : forall w rs p w', rules_of w (map FromString texts) rs p w' -> p = [] /\ w' = w.
Proof.
  induction texts as [|t texts IH]; intros w rs p w' H; cbn [map] in H; inversion H as [|? ? text ps w1 r ? rs' ps' ? HT HP HR]; subst; [auto|].
  inversion HT; subst. destruct (IH _ _ _ _ HR) as [-> ->]. auto.
Qed.
Lemma strings_ok texts : forall w rs p w', rules_of w (map FromString texts) rs p w' -> load_strings L texts = Ok (inl rs).
Proof.
  induction texts as [|t texts IH]; intros w rs p w' H; cbn [map] in H; inversion H as [|? ? text ps w1 r ? rs' ps' ? HT HP HR]; subst; [reflexivity|].
  inversion HT; subst. cbn [load_strings]. rewrite (parse_ok _ _ _ HP). cbn [obind]. now rewrite (IH _ _ _ _ HR).
Qed.
Lemma strings_bad texts : forall w m p w', bad_at w (map FromString texts) m p w' -> load_strings L texts = Ok (inr m) /\ p = [] /\ w' = w.
Proof.
  induction texts as [|t texts IH]; intros w m p w' [b [x [a [rs [p1 [w1 [p' [E [H1 [H2 ->]]]]]]]]]]; [destruct b; discriminate|].
  destruct b as [|y b]; cbn [map app] in E; injection E as E1 E; subst.
  - inversion H1; subst. cbn [load_strings]. destruct (bad_text _ _ _ _ _ H2) as [[reason [HT ->]]|[text [HT HP]]]; inversion HT; subst.
    cbn [source_title] in HP. rewrite HP. auto.
  - inversion H1 as [|? ? text ps w2 r ? rs' ps' ? HT HP HR]; subst. inversion HT; subst. cbn [load_strings]. rewrite (parse_ok _ _ _ HP). cbn [obind].
    destruct (IH w2 m (ps' ++ p') w') as [-> [E' ->]]; [exists b, x, a, rs', ps', w1, p'; repeat split; assumption|].
    cbn [app obind]. split; [reflexivity|]. split; [exact E'|reflexivity].
Qed.
Lemma strings_strange texts : forall w, strange_at w (map FromString texts) -> load_strings L texts = UB BadCtypeArgument.
Proof.
  induction texts as [|t texts IH]; intros w [b [x [a [rs [p [w1 [text [p' [w2 [E [H1 [H2 [H3 H4]]]]]]]]]]]]]; [destruct b; discriminate|].
  destruct b as [|y b]; cbn [map app] in E; injection E as E1 E; subst.
  - inversion H1; subst. inversion H2; subst. cbn [load_strings]. unfold parse_or_error. cbn [regexes libraries]. rewrite H3. reflexivity.
  - inversion H1 as [|? ? tx ps wm r ? rs' ps' ? HT HP HR]; subst. inversion HT; subst. cbn [load_strings]. rewrite (parse_ok _ _ _ HP). cbn [obind].
    rewrite (IH wm); [reflexivity|]. exists b, x, a, rs', ps', w1, text, p', w2. repeat split; assumption.
Qed.

(** ** The documents *)

Lemma documents_total names : forall w,
  (exists docs p w', documents_of w names docs p w') \/
  (exists before name after docs p w1 reason p' w2, names = before ++ name :: after /\ documents_of w before docs p w1 /\ reading w1 name (inr reason) p' w2).
Proof.
  induction names as [|n names IH]; intros w; [left; do 3 eexists; constructor|].
  destruct (reading_total w n) as [[text|reason] [ps [w1 HT]]].
  - destruct (IH w1) as [[docs [p [w' H]]]|[b [m [a [docs [p [w2 [reason [p' [w3 [-> [H1 H2]]]]]]]]]]]].
    + left. do 3 eexists. econstructor; eassumption.
    + right. exists (n :: b), m, a, (sys_parse S0 text :: docs), (ps ++ p), w2, reason, p', w3. repeat split; [|exact H2]. econstructor; eassumption.
  - right. exists [], n, names, [], [], w, reason, ps, w1. repeat split; [constructor|exact HT].
Qed.

Lemma html_ok f : 2 <= f -> forall names w docs p w', documents_of w names docs p w' ->
  load_html_at S0 f w names = Ok (inl docs, w', map Opens p).
Proof.
  intros Hf names w docs p w' H. induction H as [|w name text ps w1 l docs ps' w2 HR H IH]; [reflexivity|]. cbn [load_html_at].
  rewrite (read_at_ok _ _ _ _ _ HR f Hf). cbn [obind]. rewrite IH. cbn [obind]. now rewrite map_app.
Qed.
Lemma html_bad f : 2 <= f -> forall before w docs p w1 name after reason p' w2, documents_of w before docs p w1 -> reading w1 name (inr reason) p' w2 ->
  load_html_at S0 f w (before ++ name :: after) = Ok (inr (s "Error", reason), w2, map Opens (p ++ p')).
Proof.
  intros Hf before w docs p w1 name after reason p' w2 H. induction H as [|w n text ps w1 l docs ps' wm HR H IH]; intros HN; cbn [app load_html_at].
  - rewrite (read_at_ok _ _ _ _ _ HN f Hf). reflexivity.
  - rewrite (read_at_ok _ _ _ _ _ HR f Hf). cbn [obind]. rewrite (IH HN). cbn [obind]. now rewrite !map_app, app_assoc.
Qed.

Lemma documents_proper w names docs p w' : (forall text, proper_root (sys_parse S0 text)) -> documents_of w names docs p w' -> Forall proper_root docs.
Proof. intros HP H. induction H; constructor; auto. Qed.
Lemma rules_parsed w l rs p w' : rules_of w l rs p w' -> Forall (fun r => exists text, ParseHext (sys_regexes S0) text = Ok r) rs.
Proof. intros H. induction H; constructor; eauto. Qed.

End Proofs.
