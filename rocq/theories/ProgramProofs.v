(** Proofs about the command line program. *)

From Coq Require Import Ascii String Arith NArith ZArith Bool List Lia.
From Verif Require Import Base StringUtil StringProofs Dom Values Match Rule RuleMatching ExtractSpec Parser ParserSpec ParserSafety Cli CliSpec CliProofs BindSpec BindProofs
  Ownership OwnershipSpec OwnershipProofs Program ProgramSpec.
Import ListNotations.

(** ** Reading a file *)

Lemma ReadFile_reads open_path path : readable open_path ->
  exists r, reads open_path path r /\ eventually (fun f => ReadFileOrThrow f open_path path) (Ok r).
Proof.
  intros HR.
  assert (G : forall path, path <> s "-" -> exists r, reads open_path path r /\
    forall f, ReadFileOrThrow (S f) open_path path = Ok r).
  { intros p Hp. cbn [ReadFileOrThrow]. destruct (open_path p) as [reason|bytes b] eqn:E.
    - exists (inr (s "cannot access '" ++ p ++ s "': " ++ reason)). split; [now constructor|]. intros f.
      destruct (str_eqb p (s "-")) eqn:Ep; [apply str_eqb_eq in Ep; contradiction|reflexivity].
    - destruct b; [now destruct (HR p bytes)|]. exists (inl bytes). split; [now constructor|reflexivity]. }
  destruct (list_eq_dec ascii_dec path (s "-")) as [->|Hp].
  - destruct (open_path (s "-")) as [reason|bytes b] eqn:E.
    + destruct (G (s "/dev/stdin")) as [r [H1 H2]]; [discriminate|]. exists r. split; [eapply read_stdin; eauto|].
      exists 2. intros [|[|f]] Hf; [lia|lia|]. specialize (H2 f).
      change (match open_path (s "-") with
              | OpenFails reason => if str_eqb (s "-") (s "-") then ReadFileOrThrow (S f) open_path (s "/dev/stdin")
                                    else Ok (inr (s "cannot access '" ++ (s "-") ++ s "': " ++ reason))
              | Opened bytes broken => Ok (inl bytes) end = Ok r).
      rewrite E. cbn [str_eqb]. destruct (str_eqb (s "-") (s "-")) eqn:X; [|now vm_compute in X].
      exact H2.
    + destruct b; [now destruct (HR _ _ E)|]. exists (inl bytes). split; [now constructor|].
      exists 1. intros [|f] Hf; [lia|]. cbn [ReadFileOrThrow]. rewrite E. reflexivity.
  - destruct (G path Hp) as [r [H1 H2]]. exists r. split; [exact H1|]. exists 1. intros [|f] Hf; [lia|]. apply H2.
Qed.

Lemma ReadFile_broken open_path path bytes f : open_path path = Opened bytes true ->
  ReadFileOrThrow (S f) open_path path = Ok (inl bytes).
Proof. intros E. cbn [ReadFileOrThrow]. rewrite E. reflexivity. Qed.

(** ** The options *)

Lemma contains_given vm key : po_contains vm key = true <-> given vm key.
Proof.
  unfold po_contains, given. destruct (vm key) as [v|]; split.
  - intros H. exists v. split; [reflexivity|now apply negb_true_iff].
  - intros [v' [E H]]. injection E as <-. now rewrite H.
  - discriminate.
  - intros [v' [E _]]. discriminate.
Qed.

Lemma store_stored run argv vm : po_store run argv = inl vm ->
  (exists p, run p argv = inl vm) /\
  (given vm (s "help") \/ given vm (s "version") \/
   ((given vm (s "hext") \/ given vm (s "str")) /\ (given vm (s "lint") \/ given vm (s "html")))).
Proof.
  unfold po_store. set (p := negb _). destruct (run p argv) as [vm'|e] eqn:E; [|discriminate].
  rewrite <- !contains_given.
  destruct (po_contains vm' (s "help") || po_contains vm' (s "version")) eqn:Ehv.
  - intros H. injection H as ->. split; [eauto|]. apply orb_true_iff in Ehv as [H|H]; auto.
  - destruct (negb (po_contains vm' (s "hext")) && negb (po_contains vm' (s "str"))) eqn:Ehs; [discriminate|].
    apply andb_false_iff in Ehs.
    destruct (po_contains vm' (s "lint")) eqn:El.
    + intros H. injection H as ->. split; [eauto|]. right. right. split; [|auto].
      destruct Ehs as [H|H]; apply negb_false_iff in H; auto.
    + destruct (po_contains vm' (s "html")) eqn:Eh; cbn [negb]; [|discriminate].
      intros H. injection H as ->. split; [eauto|]. right. right. split; [|auto].
      destruct Ehs as [H|H]; apply negb_false_iff in H; auto.
Qed.

Lemma options_there run argv vm : boost_contract run -> po_store run argv = inl vm ->
  (forall key, In key (po_reads vm) -> po_get vm key <> None) /\
  (po_reads vm <> [] -> exists files strings, po_get vm (s "hext") = Some files /\ po_get vm (s "str") = Some strings /\
     files ++ strings <> []) /\
  (In (s "html") (po_reads vm) -> exists files, po_get vm (s "html") = Some files /\ files <> []).
Proof.
  intros HC HS. apply store_stored in HS as [[p HR] HS]. destruct (HC _ _ _ HR) as [H1 H2].
  assert (N : forall key, vm key <> None -> po_get vm key <> None).
  { intros key. unfold po_get. destruct (vm key); [discriminate|congruence]. }
  assert (V : forall key, In key [s "hext"; s "str"; s "html"; s "filter"] -> given vm key ->
    exists l, po_get vm key = Some l /\ l <> []).
  { intros key Hk [v [Ev Hd]]. exists (values v). unfold po_get. rewrite Ev. split; [reflexivity|now apply (H2 key v)]. }
  assert (Hhext : vm (s "hext") <> None) by (apply H1; now left).
  assert (Hstr : vm (s "str") <> None) by (apply H1; right; now left).
  assert (Hmax : vm (s "max-searches") <> None) by (apply H1; right; right; now left).
  unfold po_reads.
  destruct (po_contains vm (s "help") || po_contains vm (s "version")) eqn:Ehv.
  { split; [intros key []|]. split; [congruence|intros []]. }
  apply orb_false_iff in Ehv as [Eh Ev].
  destruct HS as [H|[H|[Hsrc Hhtml]]]; [apply contains_given in H; congruence|apply contains_given in H; congruence|].
  split; [|split].
  - intros key Hin. apply in_app_or in Hin as [[<-|[<-|[]]]|Hin]; [now apply N|now apply N|].
    destruct (po_contains vm (s "lint")) eqn:El; [destruct Hin|].
    destruct Hhtml as [Hl|Hh]; [apply contains_given in Hl; congruence|].
    apply in_app_or in Hin as [[<-|[<-|[]]]|Hin]; [|now apply N|].
    + destruct Hh as [v [E _]]. apply N. congruence.
    + destruct (po_contains vm (s "filter")) eqn:Ef; [|destruct Hin]. destruct Hin as [<-|[]].
      apply contains_given in Ef as [v [E _]]. apply N. congruence.
  - intros _. unfold po_get in *. destruct (vm (s "hext")) as [vh|] eqn:E1; [|congruence]. destruct (vm (s "str")) as [vs|] eqn:E2; [|congruence].
    exists (values vh), (values vs). split; [reflexivity|]. split; [reflexivity|]. intros Ha. apply app_eq_nil in Ha as [A1 A2].
    destruct Hsrc as [[v [E Hd]]|[v [E Hd]]].
    + rewrite E1 in E. injection E as <-. revert A1. apply (H2 (s "hext") vh); auto. now left.
    + rewrite E2 in E. injection E as <-. revert A2. apply (H2 (s "str") vs); auto. right. now left.
  - intros Hin. apply V; [right; right; now left|]. apply in_app_or in Hin as [[H|[H|[]]]|Hin]; [discriminate|discriminate|].
    destruct (po_contains vm (s "lint")) eqn:El; [destruct Hin|].
    destruct Hhtml as [Hl|Hh]; [apply contains_given in Hl; congruence|exact Hh].
Qed.

Lemma lint_word run run' argv : In (s "-l") argv \/ In (s "--lint") argv ->
  run false argv = run' false argv -> po_store run argv = po_store run' argv.
Proof.
  intros H E. unfold po_store.
  replace (existsb (str_eqb (s "-l")) argv || existsb (str_eqb (s "--lint")) argv) with true.
  - cbn [negb]. now rewrite E.
  - symmetry. apply orb_true_iff. destruct H as [H|H]; [left|right]; apply existsb_exists; eexists; (split; [exact H|now apply str_eqb_eq]).
Qed.

(** The contract can be met. *)
Lemma take_flags_inv l : forall vm vm', take_flags l vm = inl vm' ->
  forall key, In key [s "hext"; s "str"; s "max-searches"; s "html"; s "filter"] -> vm' key = vm key.
Proof.
  induction l as [|c l IH]; intros vm vm' H key Hk; cbn [take_flags] in H; [injection H as ->; reflexivity|].
  destruct (flag_name c) as [n|] eqn:En; [|discriminate]. rewrite (IH _ _ H key Hk). unfold with_flag.
  destruct (str_eqb key n) eqn:E; [|reflexivity]. apply str_eqb_eq in E. subst key. exfalso.
  assert (Hn : In n [s "compact"; s "pretty"; s "array"; s "lint"; s "help"; s "version"]).
  { unfold flag_name in En. destruct c as [[] [] [] [] [] [] [] []]; try discriminate; injection En as <-; cbn; tauto. }
  cbn [In] in Hn, Hk. destruct Hn as [<-|[<-|[<-|[<-|[<-|[<-|[]]]]]]]; now repeat (destruct Hk as [Hk|Hk]; [discriminate Hk|]).
Qed.

Definition sane (vm : variables) : Prop :=
  (forall key, In key [s "hext"; s "str"; s "max-searches"] -> vm key <> None) /\
  (forall key v, In key [s "hext"; s "str"; s "html"; s "filter"] -> vm key = Some v -> defaulted v = false -> values v <> []).

Lemma take_args_sane positional args : forall first vm vm', take_args positional first args vm = inl vm' -> sane vm -> sane vm'.
Proof.
  assert (W : forall vm key name, sane vm -> sane (with_value vm key name)).
  { intros vm key name [H1 H2]. split.
    - intros k Hk. unfold with_value. destruct (str_eqb k key); [discriminate|now apply H1].
    - intros k v Hk Hv Hd. unfold with_value in Hv. destruct (str_eqb k key); [|now apply (H2 k v)].
      injection Hv as <-. cbn [values]. destruct (vm k) as [w|]; [|discriminate]. destruct (defaulted w); [discriminate|].
      destruct (values w); discriminate. }
  induction args as [|a args IH]; intros first vm vm' H HV; cbn [take_args] in H; [injection H as <-; exact HV|].
  assert (P : forall name, (if positional
     then take_args positional false args (with_value vm (if first then s "hext" else s "html") name)
     else inr (s "too many positional options have been specified on the command line")) = inl vm' -> sane vm').
  { intros name Hp. destruct positional; [|discriminate]. apply (IH _ _ _ Hp). now apply W. }
  destruct a as [|c a]; [now apply P in H|].
  destruct (ascii_dec c "-"%char) as [->|Hc].
  - destruct (take_flags a vm) as [vm1|e] eqn:Ef; [|discriminate]. apply (IH _ _ _ H). pose proof (take_flags_inv _ _ _ Ef) as K.
    destruct HV as [H1 H2]. split.
    + intros key Hk. rewrite K; [now apply H1|]. cbn [In] in *. tauto.
    + intros key v Hk Hv Hd. rewrite K in Hv; [now apply (H2 key v)|]. cbn [In] in *. tauto.
  - apply (P (c :: a)). rewrite <- H. destruct c as [[] [] [] [] [] [] [] []]; try reflexivity. congruence.
Qed.

Lemma flags_contract : boost_contract flags_and_files.
Proof.
  intros positional argv vm H. apply (take_args_sane _ _ _ _ _ H). split.
  - intros key [<-|[<-|[<-|[]]]]; discriminate.
  - intros key v [<-|[<-|[<-|[<-|[]]]]] Hv Hd; vm_compute in Hv; try discriminate; injection Hv as <-; discriminate.
Qed.

(** ** The vectors *)

Fixpoint owners (x : nat) (os : list output_id) : list (object_id * option output_id) :=
  match os with
  | [] => []
  | o :: os' => (x, Some o) :: owners (S x) os'
  end.
Fixpoint constructions (x : nat) (os : list output_id) : list html_step :=
  match os with
  | [] => []
  | o :: os' => Construct x o :: constructions (S x) os'
  end.

Lemma emplace_all_room growth os : forall v, size v + length os <= capacity v ->
  emplace_all growth os v =
    (mk_vector (base v) (size v + length os) (capacity v) (unused v), constructions (base v + size v) os).
Proof.
  induction os as [|o os IH]; intros [b n c u]; cbn [size length capacity base unused emplace_all constructions]; intros H.
  - now rewrite Nat.add_0_r.
  - unfold emplace_back. cbn [size capacity base unused]. rewrite (proj2 (Nat.ltb_lt n c)) by lia.
    rewrite IH by (cbn [size capacity]; lia). cbn [base size capacity unused app]. unfold address. cbn [base].
    now rewrite !Nat.add_succ_r.
Qed.

Lemma reserve_room n free : exists u, reserve n (empty_vector free) = (mk_vector free 0 n u, []).
Proof.
  unfold reserve, empty_vector. cbn [capacity unused size]. destruct (n <=? 0) eqn:E.
  - apply Nat.leb_le in E. assert (n = 0) by lia. subst. eauto.
  - eexists. reflexivity.
Qed.

Lemma main_html_steps growth n os uses free : length os <= n ->
  main_html growth n os uses free =
    constructions free os ++ map (fun i => UseRoot (free + i)) uses ++ map (fun x => Destroy x) (seq free (length os)).
Proof.
  intros H. unfold main_html. destruct (reserve_room n free) as [u ->].
  rewrite emplace_all_room by (cbn [size capacity]; lia). cbn [base size capacity unused]. rewrite Nat.add_0_r.
  cbn [app]. unfold addresses. cbn [size]. unfold address. cbn [base]. do 2 f_equal. f_equal.
  rewrite Nat.add_0_l. clear. generalize (length os). intros k.
  assert (G : forall k s, map (fun i => free + i) (seq s k) = seq (free + s) k).
  { clear. induction k as [|k IH]; intros s; [reflexivity|]. cbn [seq map]. now rewrite IH, Nat.add_succ_r. }
  rewrite G. now rewrite Nat.add_0_r.
Qed.

Lemma emplace_stays growth n os os' free i : length os + length os' <= n -> i < length os ->
  let v0 := fst (reserve n (empty_vector free)) in
  address (fst (emplace_all growth (os ++ os') v0)) i = address (fst (emplace_all growth os v0)) i.
Proof.
  intros H Hi. cbn zeta. destruct (reserve_room n free) as [u ->]. cbn [fst].
  rewrite !emplace_all_room by (cbn [size capacity]; rewrite ?app_length; lia). reflexivity.
Qed.

Lemma lookup_owners os : forall x y, y < x \/ x + length os <= y -> lookup (rev (owners x os)) y = None.
Proof.
  induction os as [|o os IH]; intros x y H; [reflexivity|]. cbn [owners rev length] in *.
  assert (L : forall l, lookup (l ++ [(x, Some o)]) y = match lookup l y with Some h => Some h | None => if Nat.eqb y x then Some (Some o) else None end).
  { clear. induction l as [|[z h] l IH]; [reflexivity|]. cbn [app lookup]. now destruct (Nat.eqb y z). }
  rewrite L, IH by lia. destruct (Nat.eqb_spec y x); [lia|reflexivity].
Qed.

Lemma lookup_app l1 l2 y : lookup (l1 ++ l2) y = match lookup l1 y with Some h => Some h | None => lookup l2 y end.
Proof. induction l1 as [|[z h] l IH]; [reflexivity|]. cbn [app lookup]. now destruct (Nat.eqb y z). Qed.
Lemma remove_app l1 l2 y : lookup l1 y = None -> remove (l1 ++ l2) y = l1 ++ remove l2 y.
Proof.
  induction l1 as [|[z h] l IH]; intros H; [reflexivity|]. cbn [app lookup remove] in *. destruct (Nat.eqb y z); [discriminate|].
  now rewrite IH.
Qed.

Lemma lookup_owner os : forall x i, i < length os -> exists o, lookup (rev (owners x os)) (x + i) = Some (Some o) /\ In o os.
Proof.
  induction os as [|o os IH]; intros x i H; cbn [length] in H; [lia|]. cbn [owners rev]. rewrite lookup_app. destruct i as [|i].
  - rewrite lookup_owners by lia. cbn [lookup]. rewrite Nat.add_0_r, Nat.eqb_refl. exists o. split; [reflexivity|now left].
  - destruct (IH (S x) i) as [o' [E Hi]]; [lia|]. rewrite Nat.add_succ_r, <- Nat.add_succ_l, E. exists o'. split; [reflexivity|now right].
Qed.

Lemma run_constructions os : forall x l mk ds h, NoDup os -> (forall o, In o os -> ~ In o mk) ->
  (forall y, x <= y -> lookup l y = None) ->
  html_run (mk_html_state l mk ds) (constructions x os ++ h) =
  html_run (mk_html_state (rev (owners x os) ++ l) (rev os ++ mk) ds) h.
Proof.
  induction os as [|o os IH]; intros x l mk ds h Hn Hm Hl; [reflexivity|]. inversion Hn as [|? ? Ho Hn']; subst.
  cbn [constructions app html_run html_do living made destroyed]. rewrite Hl by lia.
  rewrite (proj2 (member_of_false o mk)) by (apply Hm; now left).
  rewrite IH.
  - cbn [owners rev]. now rewrite <- !app_assoc.
  - exact Hn'.
  - intros o' Ho' [<-|Hi]; [contradiction|]. apply (Hm o'); [now right|exact Hi].
  - intros y Hy. cbn [lookup]. destruct (Nat.eqb_spec y x); [lia|]. apply Hl. lia.
Qed.

Lemma run_uses x os mk ds uses h : (forall o, In o os -> ~ In o ds) -> (forall i, In i uses -> i < length os) ->
  html_run (mk_html_state (rev (owners x os)) mk ds) (map (fun i => UseRoot (x + i)) uses ++ h) =
  html_run (mk_html_state (rev (owners x os)) mk ds) h.
Proof.
  intros Hd. induction uses as [|i uses IH]; intros Hu; [reflexivity|]. cbn [map app html_run html_do living destroyed].
  destruct (lookup_owner os x i) as [o [E Ho]]; [apply Hu; now left|]. rewrite E.
  rewrite (proj2 (member_of_false o ds)) by now apply Hd. apply IH. intros j Hj. apply Hu. now right.
Qed.

Lemma run_destroys os : forall x mk ds, NoDup os -> (forall o, In o os -> ~ In o ds) ->
  html_run (mk_html_state (rev (owners x os)) mk ds) (map (fun y => Destroy y) (seq x (length os))) =
  Some (Ok (mk_html_state [] mk (ds ++ os))).
Proof.
  induction os as [|o os IH]; intros x mk ds Hn Hd; cbn [owners rev length seq map html_run]; [now rewrite app_nil_r|].
  inversion Hn as [|? ? Ho Hn']; subst. cbn [html_do living destroyed made].
  rewrite lookup_app, lookup_owners by lia. cbn [lookup]. rewrite Nat.eqb_refl.
  rewrite (proj2 (member_of_false o ds)) by (apply Hd; now left).
  rewrite remove_app by (apply lookup_owners; lia). cbn [remove]. rewrite Nat.eqb_refl, app_nil_r.
  rewrite IH; [now rewrite <- app_assoc|exact Hn'|].
  intros o' Ho' Hi. apply in_app_or in Hi as [Hi|[<-|[]]]; [|contradiction]. apply (Hd o'); [now right|exact Hi].
Qed.

Lemma main_html_history growth n os uses free : length os <= n -> NoDup os -> (forall i, In i uses -> i < length os) ->
  history (main_html growth n os uses free) (Ok (mk_html_state [] (rev os) os)).
Proof.
  intros Hn Hd Hu. unfold history. rewrite main_html_steps by exact Hn. unfold html_start.
  rewrite run_constructions; [|exact Hd|intros o _ []|reflexivity]. rewrite !app_nil_r.
  rewrite run_uses; [|intros o _ []|exact Hu]. now rewrite run_destroys; [|exact Hd|intros o _ []].
Qed.

(** ** The whole program *)

Lemma parse_or_error_total W x text : source_reads W x = inl text ->
  (exists r, parse_or_error W (source_title x) text = Ok (inl r) /\ source_is W (Some text) r) \/
  (exists e, parse_or_error W (source_title x) text = Ok (inr e) /\ source_fails W x e) \/
  (parse_or_error W (source_title x) text = UB BadCtypeArgument /\
   exists u c v, lexical_error (c_str text) u c v /\ (128 <= N_of_ascii c < 255)%N).
Proof.
  intros Hx. unfold parse_or_error. destruct (parse_total (regexes W) (c_str text)) as [[r H]|[[e H]|[H HL]]]; rewrite H.
  - left. exists r. split; [reflexivity|]. exists text. auto.
  - right. left. destruct e; (eexists; split; [reflexivity|]);
      solve [eapply unparsable; eassumption|eapply unexpected; [exact Hx|exact H|discriminate]].
  - right. right. auto.
Qed.

(** A source among others that fails. *)
Definition fails_among (W : surroundings) (l : list source) (e : str * str) : Prop :=
  exists before x after rules, l = before ++ x :: after /\ Forall2 (source_parses W) before rules /\ source_fails W x e.

Lemma fails_here W x l e : source_fails W x e -> fails_among W (x :: l) e.
Proof. intros H. exists [], x, l, []. repeat split; [constructor|exact H]. Qed.
Lemma fails_later W x r l e : source_parses W x r -> fails_among W l e -> fails_among W (x :: l) e.
Proof. intros Hx [b [y [a [rs [-> [H1 H2]]]]]]. exists (x :: b), y, a, (r :: rs). repeat split; [constructor; assumption|exact H2]. Qed.
Lemma fails_after W l l' rs e : Forall2 (source_parses W) l rs -> fails_among W l' e -> fails_among W (l ++ l') e.
Proof. intros H He. induction H as [|x r l rs Hx _ IH]; [exact He|]. exact (fails_later W x r _ e Hx IH). Qed.
Lemma fails_before W l l' e : fails_among W l e -> fails_among W (l ++ l') e.
Proof. intros [b [y [a [rs [-> [H1 H2]]]]]]. exists b, y, (a ++ l'), rs. rewrite <- app_assoc. auto. Qed.

Definition strange (l : list (option str)) : Prop :=
  exists text, In (Some text) l /\ exists u c v, lexical_error (c_str text) u c v /\ (128 <= N_of_ascii c < 255)%N.

Lemma strange_cons x l : strange l -> strange (x :: l).
Proof. intros [text [Hi H]]. exists text. split; [now right|exact H]. Qed.

Lemma load_files_total W names :
  (exists rules, load_files W names = Ok (inl rules) /\ Forall2 (source_parses W) (map FromFile names) rules) \/
  (exists e, load_files W names = Ok (inr e) /\ fails_among W (map FromFile names) e) \/
  (load_files W names = UB BadCtypeArgument /\ strange (map (file_source W) names)).
Proof.
  induction names as [|n names IH]; [left; exists []; split; [reflexivity|constructor]|].
  cbn [map load_files]. unfold file_source at 1. destruct (read_file W n) as [text|msg] eqn:Er.
  2: { right. left. eexists. split; [reflexivity|]. apply fails_here. now apply unreadable. }
  destruct (parse_or_error_total W (FromFile n) text Er) as [[r [E Hr]]|[[e [E He]]|[E HE]]]; cbn [source_title] in E; rewrite E; cbn [obind].
  2: { right. left. eexists. split; [reflexivity|]. now apply fails_here. }
  2: { right. right. split; [reflexivity|]. exists text. split; [now left|exact HE]. }
  assert (Hp : source_parses W (FromFile n) r).
  { destruct Hr as [x [[= <-] Hr]]. exists text. auto. }
  destruct IH as [[rules [E' Hrs]]|[[e [E' He]]|[E' HE']]]; rewrite E'; cbn [obind].
  - left. exists (r :: rules). split; [reflexivity|]. now constructor.
  - right. left. eexists. split; [reflexivity|]. eapply fails_later; eassumption.
  - right. right. split; [reflexivity|now apply strange_cons].
Qed.

Lemma load_strings_total W texts :
  (exists rules, load_strings W texts = Ok (inl rules) /\ Forall2 (source_parses W) (map FromString texts) rules) \/
  (exists e, load_strings W texts = Ok (inr e) /\ fails_among W (map FromString texts) e) \/
  (load_strings W texts = UB BadCtypeArgument /\ strange (map Some texts)).
Proof.
  induction texts as [|text texts IH]; [left; exists []; split; [reflexivity|constructor]|].
  cbn [map load_strings].
  destruct (parse_or_error_total W (FromString text) text eq_refl) as [[r [E Hr]]|[[e [E He]]|[E HE]]]; cbn [source_title] in E; rewrite E; cbn [obind].
  2: { right. left. eexists. split; [reflexivity|]. now apply fails_here. }
  2: { right. right. split; [reflexivity|]. exists text. split; [now left|exact HE]. }
  assert (Hp : source_parses W (FromString text) r).
  { destruct Hr as [x [[= <-] Hr]]. exists text. auto. }
  destruct IH as [[rules [E' Hrs]]|[[e [E' He]]|[E' HE']]]; rewrite E'; cbn [obind].
  - left. exists (r :: rules). split; [reflexivity|]. now constructor.
  - right. left. eexists. split; [reflexivity|]. eapply fails_later; eassumption.
  - right. right. split; [reflexivity|now apply strange_cons].
Qed.

Lemma parses_sources W po rules : Forall2 (source_parses W) (sources po) rules -> Forall2 (source_is W) (hext_sources W po) rules.
Proof.
  unfold hext_sources, sources. intros H. apply Forall2_app_inv_l in H as [a [b [Ha [Hb ->]]]]. apply Forall2_app.
  - remember (map FromFile (hext_files po)) as l eqn:El. revert El. generalize (hext_files po).
    induction Ha as [|x r l rs Hx _ IH]; intros [|n names] El; try discriminate; [constructor|]. injection El as -> ->.
    cbn [map]. constructor; [|now apply IH]. destruct Hx as [text [E H]]. cbn [source_reads] in E. rewrite E. exists text. auto.
  - remember (map FromString (hext_strings po)) as l eqn:El. revert El. generalize (hext_strings po).
    induction Hb as [|x r l rs Hx _ IH]; intros [|n names] El; try discriminate; [constructor|]. injection El as -> ->.
    cbn [map]. constructor; [|now apply IH]. destruct Hx as [text [[= <-] H]]. exists n. auto.
Qed.

Lemma load_html_total W names :
  (exists docs, load_html W names = inl docs /\ Forall2 (html_is W) names docs) \/
  (exists before name after docs reason, load_html W names = inr (s "Error", reason) /\
     names = before ++ name :: after /\ Forall2 (html_is W) before docs /\ read_file W name = inr reason).
Proof.
  induction names as [|n names IH]; [left; exists []; split; [reflexivity|constructor]|]. cbn [load_html].
  destruct (read_file W n) as [text|msg] eqn:E; [|right; exists [], n, names, [], msg; auto].
  destruct IH as [[docs [E' H]]|[b [m [a [docs [reason [E' [-> [H1 H2]]]]]]]]]; rewrite E'.
  - left. eexists. split; [reflexivity|]. constructor; [|exact H]. exists text. auto.
  - right. exists (n :: b), m, a, (gumbo_parse W text :: docs), reason. repeat split; [|exact H2]. constructor; [|exact H1]. exists text. auto.
Qed.

(** Printing for a rule that was parsed. *)
Definition overflows (r : rule) (doc : node * nptr) : Prop :=
  forall size, small_document size (fst doc) -> ~ rule_params_safe size r.

Lemma print_inputs_total W po text r docs : ParseHext (regexes W) text = Ok r -> Forall proper_root docs ->
  exists f0 o, (forall f, f0 <= f -> print_inputs f W po r docs = o) /\
    match o with
    | Ok (_, None) => forall doc, In doc docs -> exists result, extracts W po r doc (Ok result)
    | Ok (_, Some _) => exists docs1 doc docs2 row e, docs = docs1 ++ doc :: docs2 /\
        Forall2 (fun d result => extracts W po r d (Ok result)) docs1 row /\ extracts W po r doc (Throw e)
    | UB IntOverflow => exists doc, In doc docs /\ overflows r doc
    | _ => False
    end.
Proof.
  intros HP. induction 1 as [|doc docs Hr _ IH]; [exists 0, (Ok ([], None)); split; [reflexivity|intros d []]|].
  destruct (parsed_extract (regexes W) text r doc (max_searches_option po) HP Hr) as [o [H0 Hok]].
  pose proof H0 as H0'. destruct H0 as [f1 H1].
  destruct doc as [D root]. cbn [fst snd] in H1.
  destruct IH as [f2 [o2 [H2 Hok2]]].
  destruct o as [res|e|u|]; [| | |contradiction].
  - exists (max f1 f2). exists (obind o2 (fun x => Ok (print_result W po res ++ fst x, snd x))). split.
    + intros f Hf. cbn [print_inputs]. rewrite H1, H2 by lia. destruct o2 as [[t e]| | |]; reflexivity.
    + destruct o2 as [[t [e|]]|e|[]|]; try contradiction; cbn [obind snd fst]; auto.
      * destruct Hok2 as [d1 [d [d2 [row [x [-> [G1 G2]]]]]]]. exists ((D, root) :: d1), d, d2, (res :: row), x.
        repeat split; [constructor; assumption|exact G2].
      * intros d [<-|Hi]; [now exists res|now apply Hok2].
      * destruct Hok2 as [d [Hi Hd]]. exists d. split; [now right|exact Hd].
  - exists f1, (Ok ([], Some (s "Error", what W e))). split; [intros f Hf; cbn [print_inputs]; now rewrite H1|].
    exists [], (D, root), docs, [], e. repeat split; [constructor|exact H0'].
  - destruct u; try contradiction. exists f1, (UB IntOverflow). split.
    + intros f Hf. cbn [print_inputs]. now rewrite H1.
    + exists (D, root). split; [now left|exact Hok].
Qed.

Lemma choose_results {A B} (P : A -> B -> Prop) l : (forall a, In a l -> exists b, P a b) -> exists l', Forall2 P l l'.
Proof.
  induction l as [|a l IH]; intros H; [exists []; constructor|]. destruct (H a (or_introl eq_refl)) as [b Hb].
  destruct IH as [l' Hl]; [intros x Hx; apply H; now right|]. exists (b :: l'). now constructor.
Qed.

Lemma print_rules_total W po docs rules : Forall (fun r => exists text, ParseHext (regexes W) text = Ok r) rules -> Forall proper_root docs ->
  exists f0 o, (forall f, f0 <= f -> print_rules f W po rules docs = o) /\
    match o with
    | Ok (_, None) => forall r doc, In r rules -> In doc docs -> exists result, extracts W po r doc (Ok result)
    | Ok (_, Some _) => exists before r after docs1 doc docs2 results row e, rules = before ++ r :: after /\ docs = docs1 ++ doc :: docs2 /\
        Forall2 (fun r0 => Forall2 (fun d result => extracts W po r0 d (Ok result)) docs) before results /\
        Forall2 (fun d result => extracts W po r d (Ok result)) docs1 row /\ extracts W po r doc (Throw e)
    | UB IntOverflow => exists r doc, In r rules /\ In doc docs /\ overflows r doc
    | _ => False
    end.
Proof.
  intros HR HD. induction HR as [|r rules [text Hr] _ IH]; [exists 0, (Ok ([], None)); split; [reflexivity|intros x d []]|].
  destruct (print_inputs_total W po text r docs Hr HD) as [f1 [o1 [H1 Hok1]]].
  destruct IH as [f2 [o2 [H2 Hok2]]].
  destruct o1 as [[t [e|]]|e|u|]; try contradiction.
  - exists f1, (Ok (t, Some e)). split; [intros f Hf; cbn [print_rules]; now rewrite H1|].
    destruct Hok1 as [d1 [d [d2 [row [x [-> [G1 G2]]]]]]]. exists [], r, rules, d1, d, d2, [], row, x. repeat split; [constructor|exact G1|exact G2].
  - exists (max f1 f2), (obind o2 (fun x => Ok (t ++ fst x, snd x))). split.
    + intros f Hf. cbn [print_rules]. rewrite H1 by lia. cbn [obind]. rewrite H2 by lia. destruct o2 as [[t' e]| | |]; reflexivity.
    + destruct o2 as [[t' [e|]]|e|[]|]; try contradiction; cbn [obind fst snd]; auto.
      * destruct Hok2 as [b [r' [a [d1 [d [d2 [results [row [x [-> [Ed [G1 [G2 G3]]]]]]]]]]]]].
        destruct (choose_results (fun d result => extracts W po r d (Ok result)) docs) as [row0 Hrow0]; [exact Hok1|].
        exists (r :: b), r', a, d1, d, d2, (row0 :: results), row, x. repeat split; [exact Ed|constructor; assumption|exact G2|exact G3].
      * intros x d [<-|Hx] Hd; [now apply Hok1|now apply Hok2].
      * destruct Hok2 as [r' [d [Hi Hd]]]. exists r', d. split; [now right|exact Hd].
  - destruct u; try contradiction. exists f1, (UB IntOverflow). split.
    + intros f Hf. cbn [print_rules]. now rewrite H1.
    + destruct Hok1 as [d [Hi Hd]]. exists r, d. split; [now left|auto].
Qed.

Lemma Forall2_in_r {A B} (P : A -> B -> Prop) l : forall l' b, Forall2 P l l' -> In b l' -> exists a, In a l /\ P a b.
Proof.
  intros l' b H. induction H as [|x y l l' Hx H IH]; [intros []|]. intros [->|Hi]; [exists x; split; [now left|exact Hx]|].
  destruct (IH Hi) as [a [Ha Hp]]. exists a. split; [now right|exact Hp].
Qed.

Lemma main_yields_unique W po o o' : main_yields W po o -> main_yields W po o' -> o = o'.
Proof. intros [f H] [f' H']. rewrite <- (H (max f f')) by lia. apply H'. lia. Qed.

Lemma complete_succeeds W po : complete W po -> exists text, main_yields W po (Ok (mk_ending text [] false)).
Proof.
  intros [rules [Hs H]]. destruct (lint po) eqn:El.
  - exists []. exists 0. intros f _. eapply main_lint; eauto.
  - destruct H as [H|[docs [Hd H]]]; [discriminate|].
    destruct (choose_results (fun r results => Forall2 (fun doc result => extracts W po r doc (Ok result)) docs results) rules) as [results HR].
    { intros r Hr. apply (choose_results (fun doc result => extracts W po r doc (Ok result)) docs). intros d Hi. now apply H. }
    destruct (main_prints_all W po rules docs results El Hs Hd HR) as [texts [_ HY]]. eauto.
Qed.

Lemma shown_rows W po docs before docs1 r results row :
  Forall2 (fun r0 => Forall2 (fun d result => extracts W po r0 d (Ok result)) docs) before results ->
  Forall2 (fun d result => extracts W po r d (Ok result)) docs1 row ->
  Forall2 (Forall2 (shown W po)) (results ++ [row]) (map (map (print_result W po)) (results ++ [row])).
Proof.
  intros H1 H2. rewrite map_app. apply Forall2_app; [eapply table_shown; exact H1|]. constructor; [|constructor]. eapply row_shown. exact H2.
Qed.

Lemma failing W po text e : main_yields W po (Ok (mk_ending text [e] true)) -> first_failure W po text e ->
  program_outcome W po (Ok (mk_ending text [e] true)).
Proof.
  intros H. apply program_fails. intros HC. destruct (complete_succeeds W po HC) as [t Ht].
  pose proof (main_yields_unique _ _ _ _ H Ht) as E. discriminate E.
Qed.

Lemma main_total W po : proper_documents W -> exists o, main_yields W po o /\ program_outcome W po o.
Proof.
  intros HW.
  assert (F : forall t e, main_yields W po (Ok (mk_ending t [e] true)) -> first_failure W po t e ->
    exists o, main_yields W po o /\ program_outcome W po o).
  { intros t e H H'. eexists. split; [exact H|]. now apply failing. }
  destruct (load_files_total W (hext_files po)) as [[a [E1 Ha]]|[[e [E1 He]]|[E1 HS]]].
  2: { apply (F [] e). { exists 0. intros f _. unfold main. now rewrite E1. }
       apply (fails_before W _ (map FromString (hext_strings po))) in He as [b [x [a [rs [E [H1 H2]]]]]]. eapply failing_source; eassumption. }
  2: { exists (UB BadCtypeArgument). split; [exists 0; intros f _; unfold main; rewrite E1; reflexivity|]. apply program_strange. destruct HS as [t [Hi H]]. exists t. split; [|exact H].
       unfold hext_sources. apply in_or_app. left. exact Hi. }
  destruct (load_strings_total W (hext_strings po)) as [[b [E2 Hb]]|[[e [E2 He]]|[E2 HS]]].
  2: { apply (F [] e). { exists 0. intros f _. unfold main. rewrite E1. cbn [obind]. now rewrite E2. }
       apply (fails_after W _ _ _ _ Ha) in He as [b [x [a' [rs [E [H1 H2]]]]]]. eapply failing_source; eassumption. }
  2: { exists (UB BadCtypeArgument). split; [exists 0; intros f _; unfold main; rewrite E1; cbn [obind]; rewrite E2; reflexivity|].
       apply program_strange. destruct HS as [t [Hi H]]. exists t. split; [|exact H].
       unfold hext_sources. apply in_or_app. right. exact Hi. }
  assert (HP : Forall2 (source_parses W) (sources po) (a ++ b)) by (apply Forall2_app; assumption).
  pose proof (parses_sources W po _ HP) as HS.
  destruct (lint po) eqn:El.
  { exists (Ok (mk_ending [] [] false)). split; [exists 0; intros f _; eapply main_lint; eassumption|]. apply program_succeeds. exists (a ++ b). auto. }
  destruct (load_html_total W (html_files po)) as [[docs [E3 Hd]]|[bf [n [af [docs [reason [E3 [En [H1 H2]]]]]]]]].
  2: { apply (F [] (s "Error", reason)).
       { exists 0. intros f _. unfold main. rewrite E1. cbn [obind]. rewrite E2. cbn [obind]. rewrite El. now rewrite E3. }
       eapply failing_document; eassumption. }
  destruct (print_rules_total W po docs (a ++ b)) as [f0 [o [Ho Hok]]].
  { apply Forall_forall. intros r Hr. destruct (Forall2_in_r _ _ _ _ HS Hr) as [x [_ [text [_ Ht]]]]. eauto. }
  { apply Forall_forall. intros d Hi. destruct (Forall2_in_r _ _ _ _ Hd Hi) as [x [_ [text [_ ->]]]]. apply HW. }
  assert (M : forall f, main f W po = let! (text, e) := print_rules f W po (a ++ b) docs in
      Ok (match e with Some x => failure text x | None => mk_ending text [] false end)).
  { intros f. unfold main. rewrite E1. cbn [obind]. rewrite E2. cbn [obind]. rewrite El. now rewrite E3. }
  destruct o as [[t [e|]]|e|u|]; try contradiction.
  - destruct Hok as [bf [r [af [d1 [d [d2 [results [row [x [Er [-> [G1 [G2 G3]]]]]]]]]]]]].
    rewrite Er in HS, HP. apply (F (concat (concat (map (map (print_result W po)) (results ++ [row])))) (s "Error", what W x)).
    + eapply main_stops; try eassumption. apply (shown_rows W po (d1 ++ d :: d2) bf d1 r); assumption.
    + eapply failing_extraction; try eassumption. apply (shown_rows W po (d1 ++ d :: d2) bf d1 r); assumption.
  - exists (Ok (mk_ending t [] false)). split; [exists f0; intros f Hf; rewrite M; now rewrite Ho|].
    apply program_succeeds. exists (a ++ b). split; [exact HS|]. right. exists docs. auto.
  - destruct u; try contradiction. exists (UB IntOverflow). split; [exists f0; intros f Hf; rewrite M; now rewrite Ho|].
    apply program_overflow; [exact El|]. destruct Hok as [r [d [Hr [Hi Ho']]]].
    destruct (Forall2_in_r _ _ _ _ HS Hr) as [source [Hsrc Hr']]. destruct (Forall2_in_r _ _ _ _ Hd Hi) as [name [Hname Hdoc]].
    exists source, r, name, d. auto.
Qed.

(** The first failure is what the program reports. *)
Lemma app_split {A} (l1 : list A) : forall l2 before x after, l1 ++ l2 = before ++ x :: after ->
  (exists after', l1 = before ++ x :: after') \/ (exists before', before = l1 ++ before' /\ l2 = before' ++ x :: after).
Proof.
  induction l1 as [|y l1 IH]; intros l2 before x after E; [right; exists before; auto|].
  destruct before as [|z before]; cbn [app] in E; injection E as -> E; [left; now exists l1|].
  destruct (IH _ _ _ _ E) as [[a ->]|[b [-> ->]]]; [left; now exists a|right; now exists b].
Qed.

Lemma parse_fails W x text m : source_reads W x = inl text -> source_fails W x m -> parse_or_error W (source_title x) text = Ok (inr m).
Proof.
  intros Hx H. unfold parse_or_error. inversion H as [r Hr|t' msg Hr Hp|t' e Hr Hp Hn]; subst; rewrite Hx in Hr; [discriminate| |]; injection Hr as <-; rewrite Hp.
  - reflexivity.
  - destruct e; try reflexivity. exfalso. eapply Hn. reflexivity.
Qed.
Lemma parse_succeeds W x text r : source_reads W x = inl text -> source_parses W x r -> parse_or_error W (source_title x) text = Ok (inl r).
Proof. intros Hx [t' [Hr Hp]]. rewrite Hx in Hr. injection Hr as <-. unfold parse_or_error. now rewrite Hp. Qed.

Lemma load_files_fails W x m : source_fails W x m -> forall names before after rules,
  map FromFile names = before ++ x :: after -> Forall2 (source_parses W) before rules -> load_files W names = Ok (inr m).
Proof.
  intros Hf. induction names as [|n names IH]; intros before after rules E H; [destruct before; discriminate|].
  destruct before as [|y before]; cbn [map app] in E; injection E as E1 E; subst; cbn [load_files].
  - destruct (read_file W n) as [text|reason] eqn:Er.
    + pose proof (parse_fails W (FromFile n) text m Er Hf ) as E0; cbn [source_title] in E0; rewrite E0. reflexivity.
    + inversion Hf as [r Hr|t' msg Hr Hp|t' e Hr Hp Hn]; subst; cbn [source_reads] in Hr; rewrite Er in Hr; [|discriminate|discriminate].
      now injection Hr as ->.
  - inversion H as [|y2 r l rs Hy Hl]; subst. pose proof Hy as [text [Er _]]. cbn [source_reads] in Er. rewrite Er.
    pose proof (parse_succeeds W (FromFile n) text r Er Hy ) as E0; cbn [source_title] in E0; rewrite E0. cbn [obind]. now rewrite (IH _ _ _ E Hl).
Qed.
Lemma load_files_succeeds W : forall names rules, Forall2 (source_parses W) (map FromFile names) rules -> load_files W names = Ok (inl rules).
Proof.
  induction names as [|n names IH]; intros rules H; inversion H as [|y r l rs Hy Hl]; subst; [reflexivity|]. cbn [load_files].
  pose proof Hy as [text [Er _]]. cbn [source_reads] in Er. rewrite Er.
  pose proof (parse_succeeds W (FromFile n) text r Er Hy ) as E0; cbn [source_title] in E0; rewrite E0. cbn [obind]. now rewrite (IH _ Hl).
Qed.
Lemma load_strings_fails W x m : source_fails W x m -> forall texts before after rules,
  map FromString texts = before ++ x :: after -> Forall2 (source_parses W) before rules -> load_strings W texts = Ok (inr m).
Proof.
  intros Hf. induction texts as [|n texts IH]; intros before after rules E H; [destruct before; discriminate|].
  destruct before as [|y before]; cbn [map app] in E; injection E as E1 E; subst; cbn [load_strings].
  - pose proof (parse_fails W (FromString n) n m eq_refl Hf ) as E0; cbn [source_title] in E0; rewrite E0. reflexivity.
  - inversion H as [|y r l rs Hy Hl]; subst.
    pose proof (parse_succeeds W (FromString n) n r eq_refl Hy ) as E0; cbn [source_title] in E0; rewrite E0. cbn [obind]. now rewrite (IH _ _ _ E Hl).
Qed.
Lemma load_strings_succeeds W : forall texts rules, Forall2 (source_parses W) (map FromString texts) rules -> load_strings W texts = Ok (inl rules).
Proof.
  induction texts as [|n texts IH]; intros rules H; inversion H as [|y r l rs Hy Hl]; subst; [reflexivity|]. cbn [load_strings].
  pose proof (parse_succeeds W (FromString n) n r eq_refl Hy ) as E0; cbn [source_title] in E0; rewrite E0. cbn [obind]. now rewrite (IH _ Hl).
Qed.
Lemma load_html_fails W reason : forall names before name after docs,
  names = before ++ name :: after -> Forall2 (html_is W) before docs -> read_file W name = inr reason -> load_html W names = inr (s "Error", reason).
Proof.
  induction names as [|n names IH]; intros before name after docs E H Hr; [destruct before; discriminate|].
  destruct before as [|y before]; cbn [app] in E; injection E as E1 E; subst; cbn [load_html]; [now rewrite Hr|].
  inversion H as [|y2 d l ds [text [Ey _]] Hl]; subst. rewrite Ey. now rewrite (IH _ _ _ _ eq_refl Hl Hr).
Qed.

Theorem first_failure_reported W po text message : first_failure W po text message ->
  main_yields W po (Ok (mk_ending text [message] true)).
Proof.
  intros [before x after rules m E H Hf|rules before name after docs reason El H E Hd Hr|before r after d1 d d2 results row texts e El H Hd H1 H2 H3 H4].
  - exists 0. intros f _. unfold main. unfold sources in E. destruct (app_split _ _ _ _ _ E) as [[a' E1]|[b' [-> E2]]].
    + now rewrite (load_files_fails W x m Hf _ _ _ _ E1 H).
    + apply Forall2_app_inv_l in H as [ra [rb [Ha [Hb ->]]]]. rewrite (load_files_succeeds W _ _ Ha). cbn [obind].
      now rewrite (load_strings_fails W x m Hf _ _ _ _ E2 Hb).
  - exists 0. intros f _. unfold main. unfold sources in H. apply Forall2_app_inv_l in H as [ra [rb [Ha [Hb ->]]]].
    rewrite (load_files_succeeds W _ _ Ha). cbn [obind]. rewrite (load_strings_succeeds W _ _ Hb). cbn [obind]. rewrite El.
    now rewrite (load_html_fails W reason _ _ _ _ _ E Hd Hr).
  - apply (main_stops W po before r after d1 d d2 results row e texts); try assumption. apply parses_sources. exact H.
Qed.
