(** The errors of texts. *)

From Coq Require Import Ascii String NArith ZArith Bool List Lia.
From Verif Require Import Base StringUtil StringSpec StringProofs Tags Dom NodeUtil Values ValueProofs Match Rule Regular RegularProofs ParserTables Parser MachineRows Grammar GrammarSpec GrammarCheck
  GrammarProofs GrammarTexts TextSpec LocationProofs SafetyCheck ParserSpec SafetyProofs ParserSafety
  SyntaxSpec SyntaxWords SyntaxRun SyntaxMeaning SyntaxTree SyntaxProofs ErrorSpec ErrorRun ErrorParts ErrorPlaces ErrorProofs.
Import ListNotations.

Definition fails {A} (o : outcome A) : Prop := forall y, o <> Ok y.

Lemma fails_bind {A B} (o : outcome A) (f : A -> outcome B) : fails o -> fails (obind o f).
Proof. intros H. destruct o; try discriminate. now destruct (H a). Qed.

Lemma no_error_mark w : L G_exact w -> ~ In (IAct 88) w.
Proof.
  intros HL H. assert (Hm : In 88%N (marks w)).
  { clear HL. induction w as [|[a|c] w IH]; [destruct H| |].
    - destruct H as [H|H]; [injection H as ->; now left|right; auto].
    - destruct H as [H|H]; [discriminate|auto]. }
  apply (marks_actions G_exact w HL) in Hm.
  assert (X : existsb (N.eqb 88) (actions_of G_exact) = true) by (apply existsb_exists; exists 88%N; split; [exact Hm|reflexivity]).
  vm_compute in X. discriminate.
Qed.

Lemma acts_or_char w : (exists l, w = map IAct l) \/ (exists l c w', w = map IAct l ++ IChr c :: w').
Proof.
  induction w as [|[a|c] w [[l ->]|[l [d [w' ->]]]]].
  - left. now exists [].
  - left. now exists (a :: l).
  - right. now exists (a :: l), d, w'.
  - right. now exists [], c, (map IAct l).
  - right. now exists [], c, (map IAct l ++ IChr d :: w').
Qed.

Section Texts.

Variable E : engine.

Lemma parse_exec x : ParseHext E x = let! st := exec E x x hext_start st_initial in finish x st.
Proof. reflexivity. Qed.

(** An action that fails ends the run. *)
Lemma exec_cut x wa a wb v : L G_exact (wa ++ IAct a :: wb) -> x = chars wa ++ v -> firstn 1 v = firstn 1 (chars wb) ->
  fails (wrun E x (wa ++ [IAct a]) st_initial) -> exec E x x hext_start st_initial = wrun E x (wa ++ [IAct a]) st_initial.
Proof.
  intros HL Hx Hv HF. set (o := wrun E x (wa ++ [IAct a]) st_initial) in *. destruct (acts_or_char wb) as [[l ->]|[l [c [w' ->]]]].
  - rewrite chars_acts in Hv. assert (v = []) as -> by (destruct v; [reflexivity|discriminate]). rewrite app_nil_r in Hx.
    assert (Hc : chars (wa ++ IAct a :: map IAct l) = x) by (rewrite chars_app, chars_cons_act, chars_acts, app_nil_r; auto).
    rewrite <- Hc at 2. rewrite (exec_whole E x _ st_initial HL) by (right; now apply no_error_mark).
    replace (wa ++ IAct a :: map IAct l) with ((wa ++ [IAct a]) ++ map IAct l) by now rewrite <- app_assoc. rewrite wrun_app.
    fold o. destruct o; try reflexivity. now destruct (HF a0).
  - rewrite chars_app, chars_acts in Hv. cbn [app] in Hv. rewrite chars_cons_chr in Hv. destruct v as [|d v]; [discriminate|]. cbn [firstn] in Hv. injection Hv as ->.
    assert (HW : wa ++ IAct a :: map IAct l ++ IChr c :: w' = (wa ++ IAct a :: map IAct l) ++ IChr c :: w') by (rewrite <- app_assoc; reflexivity).
    rewrite HW in HL. destruct (exec_word E x _ c w' v st_initial HL) as [q Hq].
    rewrite chars_app, chars_cons_act, chars_acts, app_nil_r, <- Hx in Hq. rewrite Hq.
    replace (wa ++ IAct a :: map IAct l) with ((wa ++ [IAct a]) ++ map IAct l) by now rewrite <- app_assoc. rewrite wrun_app.
    fold o. destruct o; try reflexivity. now destruct (HF a0).
Qed.

Lemma cut_parse x wa a wb v : L G_exact (wa ++ IAct a :: wb) -> x = chars wa ++ v -> firstn 1 v = firstn 1 (chars wb) ->
  match wrun E x (wa ++ [IAct a]) st_initial with
  | Ok _ => True
  | Throw e => ParseHext E x = Throw e
  | UB u => ParseHext E x = UB u /\ u = BadCtypeArgument
  | OutOfFuel => False
  end.
Proof.
  intros HL Hx Hv. pose proof (exec_cut x wa a wb v HL Hx Hv) as H. pose proof (parse_spec E x) as HP. rewrite parse_exec in *.
  destruct (wrun E x (wa ++ [IAct a]) st_initial) as [st|e|u|]; [exact I| | |]; rewrite H in * by (intros y; discriminate); cbn [obind] in *.
  - reflexivity.
  - split; [reflexivity|]. now inversion HP.
  - inversion HP.
Qed.

Lemma wrun_snoc x wa a st0 st : wrun E x wa st0 = Ok st -> wrun E x (wa ++ [IAct a]) st0 = run_action E x a st.
Proof. intros H. rewrite wrun_app, H. cbn [obind wrun]. destruct (run_action E x a st); reflexivity. Qed.

Lemma failing_action x w : forall st, fails (wrun E x w st) ->
  exists wa a wb st', w = wa ++ IAct a :: wb /\ wrun E x wa st = Ok st' /\ run_action E x a st' = wrun E x w st.
Proof.
  induction w as [|[a|c] w IH]; intros st HF.
  - now destruct (HF st).
  - cbn [wrun] in HF. destruct (run_action E x a st) as [st1| | |] eqn:Ea.
    + cbn [obind] in HF. destruct (IH st1 HF) as [wa [b [wb [st' [-> [H1 H2]]]]]]. exists (IAct a :: wa), b, wb, st'. cbn [wrun app]. rewrite Ea. auto.
    + exists [], a, w, st. cbn [wrun app]. rewrite Ea. auto.
    + exists [], a, w, st. cbn [wrun app]. rewrite Ea. auto.
    + exists [], a, w, st. cbn [wrun app]. rewrite Ea. auto.
  - destruct (IH _ HF) as [wa [b [wb [st' [-> [H1 H2]]]]]]. exists (IChr c :: wa), b, wb, st'. auto.
Qed.

Lemma flat_split {A B} (f : A -> list B) l : forall u x v, flat_map f l = u ++ x :: v ->
  exists l1 y l2 u' v', l = l1 ++ y :: l2 /\ u = flat_map f l1 ++ u' /\ f y = u' ++ x :: v' /\ v = v' ++ flat_map f l2.
Proof.
  induction l as [|y l IH]; intros u x v H; [destruct u; discriminate|]. cbn [flat_map] in H. apply app_split in H as [[e [H ->]]|[e [-> H]]].
  - exists [], y, l, u, e. auto.
  - destruct (IH _ _ _ H) as [l1 [z [l2 [u' [v' [-> [-> [H1 ->]]]]]]]]. exists (y :: l1), z, l2, u', v'. cbn [flat_map]. rewrite <- app_assoc. auto.
Qed.

(** ** A check *)

Definition refuses (x u : str) (fl : flags) (p : tpart) (o : outcome pstate) : Prop :=
  match p with
  | PRegex r => exists error loc, eng_compile E (regex_of fl r) = Some error /\ points_at x u (length (regex_text r)) loc /\
      o = Throw (SyntaxError (s "In regular expression " ++ loc ++ [newline] ++ s "Error: " ++ error))
  | PNumber sg ds => fits_int (number_of sg ds) = false /\ o = Throw StdOutOfRange
  | _ => False
  end.

Lemma regex_last r : regex_ok r -> exists y c, regex_text r = y ++ [c] /\ c <> newline.
Proof.
  intros [Hm _]. unfold regex_text. destruct (rl_flags r) as [|f l] eqn:Ef using rev_ind.
  - exists (rl_mark r :: rl_body r), (rl_mark r). split; [reflexivity|]. intros H. rewrite H in Hm. cbn in Hm. intuition discriminate.
  - exists (rl_mark r :: rl_body r ++ rl_mark r :: map flag_text l), (flag_text f). rewrite map_app. cbn [map app]. rewrite <- app_assoc. cbn [app].
    split; [reflexivity|]. destruct f; discriminate.
Qed.

Lemma slice_length x b p : p <= length x -> b <= p -> length (slice x b p) = p - b.
Proof. intros H1 H2. unfold slice. rewrite firstn_length, skipn_length. lia. Qed.

Lemma check_outcome x u v st k k1 p wx a : checks p wx a -> checked p k k1 -> sim x (length u) st k1 -> x = u ++ v ->
  (exists u', u = u' ++ part_text p) ->
  (part_fits E (kflags k) p /\ exists st', run_action E x a st = Ok st') \/
  (~ part_fits E (kflags k) p /\ refuses x u (kflags k) p (run_action E x a st)).
Proof.
  intros HC HK HS Hx [u' Hu]. pose proof (checked_fits E p wx a k k1 HC HK) as HF. pose proof (agree_action E x a _ st k1 HS) as HA.
  destruct (kaction E a k1) as [k2|]; [left; destruct HA as [st' [HA _]]; split; [apply HF|eauto]|].
  right. split; [exact HF|]. destruct p as [y|sg ds|r|]; cbn [checks checked part_fits refuses part_text] in *; [contradiction| | |contradiction].
  - destruct HC as [Hs [Hd [a0 [Ha _]]]]. destruct HK as [Hk _]. destruct (fits_int (number_of sg ds)) eqn:Ef; [now destruct HF|]. split; [reflexivity|].
    pose proof (agree_stop x _ _ _ HS) as HT. unfold k_stop in HT. rewrite Hk in HT. cbn [option_map agree] in HT. destruct HT as [st1 [HT HT2]].
    assert (Htok : ps_tok st1 = sg ++ ds) by apply HT2.
    assert (Hz : stoi (ps_tok st1) = Throw StdOutOfRange) by (rewrite Htok, (stoi_part sg ds Hs Hd), Ef; reflexivity).
    cbn [In] in Ha. repeat (destruct Ha as [Ha|Ha]; [injection Ha as <- <-; cbn [run_action]; rewrite HT; cbn [obind]; now rewrite Hz|]). contradiction.
  - destruct HC as [Hr [_ ->]]. destruct HK as [Ht [Hf [y [Hc Hlen]]]]. destruct HS as [S1 [S2 [S3 [S4 S5]]]]. cbn [run_action].
    rewrite S2, S3, Ht. unfold regex_of in *. rewrite <- Hf in *. unfold kflags in HF |- *. cbn [f_icase f_collate] in *.
    destruct (eng_compile E (mk_regex (rl_body r) (pv_icase (k_pv k1)) (pv_collate (k_pv k1)))) as [error|] eqn:Ee; [|now destruct HF].
    exists error, (print_error_location x (length u - 1) (length (regex_text r))). split; [reflexivity|]. split.
    + destruct (regex_last r Hr) as [y' [c [Ey Hnl]]]. assert (Eu : u = (u' ++ y') ++ [c]) by (rewrite Hu, Ey, app_assoc; reflexivity).
      pose proof (points_here x (u' ++ y') c v (length (regex_text r))) as HP. rewrite <- Eu in HP.
      replace (length u - 1) with (length (u' ++ y')); [now apply HP|]. rewrite Eu, app_length with (l' := [c]). cbn [length]. lia.
    + rewrite Hc in S5. destruct (ps_tok_begin st) as [b|]; [|contradiction]. destruct S5 as [S5 ->]. rewrite S4.
      rewrite slice_length in Hlen by (auto; rewrite Hx, app_length; lia).
      assert (HB : length u - b + 1 = length (regex_text r)) by lia.
      assert (HU : 1 <= length u) by (rewrite Hu, app_length; unfold regex_text; cbn [length]; lia).
      unfold throw_regex_error, p_minus_1. rewrite S4, HB. destruct (length u) as [|n]; [lia|]. cbn [obind]. replace (S n - 1) with n by lia. reflexivity.
Qed.

(** ** A part that does not fit *)

Lemma idle_flags k sk fl : Idle k sk fl -> kflags k = fl.
Proof. intros [j [b [a [cv ->]]]]. destruct fl. reflexivity. Qed.

Definition words (ts : list token) : list item := flat_map w_token ts.

Lemma words_app u v : words (u ++ v) = words u ++ words v.
Proof. apply flat_map_app. Qed.

Lemma run_state x w v st : x = chars w ++ v -> wrun E x w st_initial = Ok st -> exists k, crun E w k_initial = Some k /\ sim x (length (chars w)) st k.
Proof.
  intros Hx H. pose proof (agree_wrun E x w [] v st_initial k_initial) as HA. cbn [app length] in HA. specialize (HA Hx (sim_initial x)). rewrite H in HA.
  destruct (crun E w k_initial) as [k|]; cbn [agree] in HA; [|now destruct (HA st)]. destruct HA as [st' [HA HS]]. injection HA as <-. eauto.
Qed.

Lemma state_run x w v k : x = chars w ++ v -> crun E w k_initial = Some k -> exists st, wrun E x w st_initial = Ok st /\ sim x (length (chars w)) st k.
Proof.
  intros Hx H. pose proof (agree_wrun E x w [] v st_initial k_initial) as HA. cbn [app length] in HA. specialize (HA Hx (sim_initial x)). rewrite H in HA. exact HA.
Qed.

Lemma part_failure us l sk fl w ps rest wa a wb x v st : Forall token_ok us -> reaches E us l sk fl -> W w ps ->
  L G_exact (words us ++ w ++ rest) -> w = wa ++ IAct a :: wb -> x = chars (words us ++ wa) ++ v ->
  firstn 1 v = firstn 1 (chars (wb ++ rest)) -> wrun E x (words us ++ wa) st_initial = Ok st -> fails (run_action E x a st) ->
  exists ps1 p ps2, ps = ps1 ++ p :: ps2 /\ chars wa = parts_text ps1 ++ part_text p /\ fits E fl ps1 /\
    ~ part_fits E (flags_after ps1 fl) p /\ refuses x (chars (words us ++ wa)) (flags_after ps1 fl) p (run_action E x a st).
Proof.
  intros Hok HR HW HL Hw Hx Hv Hst HF. destruct (W_split w ps HW wa a wb Hw) as [Ha|[Ha|[wp [ps1 [p [ps2 [wx [-> [W1 [-> HC]]]]]]]]]].
  - exfalso. pose proof (plain_outcome E x a st Ha) as HO. pose proof (cut_parse x (words us ++ wa) a (wb ++ rest) v) as HP.
    rewrite Hw in HL. replace (words us ++ (wa ++ IAct a :: wb) ++ rest) with ((words us ++ wa) ++ IAct a :: wb ++ rest) in HL by (rewrite <- !app_assoc; reflexivity).
    specialize (HP HL Hx Hv). rewrite (wrun_snoc _ _ a _ _ Hst) in HP. destruct (run_action E x a st) as [st'|e|b|]; try contradiction; [now destruct (HF st')|].
    destruct HP as [_ HP]. now apply HO.
  - exfalso. destruct (flags_outcome E x a st Ha) as [st' H]. now destruct (HF st').
  - exists ps1, p, ps2. split; [reflexivity|]. split; [rewrite chars_app, (W_chars _ _ W1), (checks_chars _ _ _ HC); reflexivity|].
    destruct (reaches_word E us l sk fl Hok HR) as [k0 [Hk0 HI]]. destruct (run_state _ _ v _ Hx Hst) as [k2 [Hk2 HS]].
    rewrite app_assoc, crun_app in Hk2. destruct (crun E (words us ++ wp) k_initial) as [k1|] eqn:Ek1; [|discriminate]. cbn [obind'] in Hk2.
    rewrite crun_app in Ek1. unfold words in Ek1. rewrite Hk0 in Ek1. cbn [obind'] in Ek1.
    destruct (W_run E wp ps1 W1 k0 k1 Ek1) as [F1 F2]. rewrite (idle_flags _ _ _ HI) in F1, F2.
    destruct (checks_run E p wx a k1 HC) as [k2' [H1 H2]]. rewrite Hk2 in H1. injection H1 as <-.
    split; [exact F1|]. rewrite <- F2.
    destruct (check_outcome x (chars (words us ++ wp ++ wx)) v st k1 k2 p wx a HC H2 HS Hx) as [[_ [st' H]]|H]; [|now destruct (HF st')|exact H].
    exists (chars (words us ++ wp)). rewrite app_assoc, chars_app. f_equal. now apply (checks_chars p wx a).
Qed.

(** ** Tokens *)

Lemma part_of_token t : token_ok t -> parts_text (token_parts t) = token_text t.
Proof.
  intros Ht. destruct t as [c|x| | |h closed|name]; try (cbn [token_parts parts_text flat_map part_text]; apply app_nil_r).
  rewrite <- (chars_token _ Ht). cbn [w_token token_ok] in *. rewrite w_open_head, chars_app, (W_chars _ _ (W_head h Ht)).
  cbn [token_parts]. unfold parts_text. rewrite flat_map_app. f_equal. destruct closed; reflexivity.
Qed.

Lemma parts_tokens ts : Forall token_ok ts -> parts_text (all_parts ts) = tokens_text ts.
Proof.
  induction 1 as [|t ts Ht H IH]; [reflexivity|]. unfold all_parts, tokens_text, parts_text in *. cbn [flat_map]. rewrite flat_map_app, IH.
  f_equal. now apply part_of_token.
Qed.

Lemma progress us l sk fl t : reaches E us l sk fl -> leaves_open us l -> token_ok t -> (forall h c, t <> TOpen h c) ->
  (exists l', leaves_open (us ++ [t]) l') \/ (exists msg mark, fault us l t msg mark).
Proof.
  intros HR HL Ht HO. destruct t as [c|x| | |h closed|name].
  - left. exists l. apply open_blank; [exact HL|exact I].
  - left. exists l. apply open_blank; [exact HL|exact I].
  - destruct l as [|[x|f] l].
    + right. eexists _, _. apply fault_begin. discriminate.
    + left. eexists. eapply open_begin. exact HL.
    + right. eexists _, _. apply fault_begin. discriminate.
  - destruct l as [|[x|[|]] l].
    + right. destruct (heads us) eqn:Eh; eexists _, _; [now apply fault_end_first|apply fault_end_outside; [reflexivity|congruence]].
    + right. eexists _, _. now apply (fault_end_inside _ _ x l).
    + left. eexists. eapply open_end. exact HL.
    + right. eexists _, _. now apply (fault_end_empty _ _ l).
  - now destruct (HO h closed).
  - destruct l as [|[x|f] l].
    + right. eexists _, _. apply fault_close; [discriminate|apply expects_nothing; discriminate].
    + destruct HR as [_ [_ [b [HP _]]]]. cbn [Open] in HP. destruct HP as [r [t [rest [_ [HS _]]]]]. destruct (closes' r name) eqn:Ec.
      * left. eexists. eapply open_close; [exact HL|]. now apply (closes_same _ r name HS Ht).
      * right. eexists _, _. apply fault_close; [|apply expects_close; apply displayed_name; exact HS].
        intros x' l' H Hc. injection H as <- <-. apply (closes_same _ r name HS Ht) in Hc. congruence.
    + right. eexists _, _. apply fault_close; [discriminate|apply expects_nothing; discriminate].
Qed.

(** The action of a token that can be out of place. *)
Lemma fault_word us l t msg mark : fault us l t msg mark ->
  exists w a wc, w_token t = w ++ IAct a :: chs wc /\ chars w = faulty_text t /\
    (forall wa b wb, w_token t = wa ++ IAct b :: wb -> b = 84%N \/ wa = w /\ b = a /\ wb = chs wc).
Proof.
  intros H. assert (HT : t = TBegin \/ t = TEnd \/ exists name, t = TClose name) by (inversion H; eauto).
  destruct HT as [->|[->|[name ->]]].
  - exists [IChr "{"%char], 86%N, []. split; [reflexivity|]. split; [reflexivity|]. intros wa b wb Hw. right.
    destruct wa as [|i [|j wa]]; cbn in Hw; injection Hw; intros; subst; try discriminate; auto. destruct wa; discriminate.
  - exists [IChr "}"%char], 87%N, []. split; [reflexivity|]. split; [reflexivity|]. intros wa b wb Hw. right.
    destruct wa as [|i [|j wa]]; cbn in Hw; injection Hw; intros; subst; try discriminate; auto. destruct wa; discriminate.
  - exists (chs (s "</") ++ IAct 84 :: chs name), 85%N, (s ">"). split; [cbn [w_token]; unfold w_close; rewrite <- app_assoc; reflexivity|].
    split; [rewrite chars_app, chars_chs, chars_cons_act, chars_chs; reflexivity|]. intros wa b wb Hw. cbn [w_token] in Hw. unfold w_close in Hw.
    assert (HC : forall y u c v, chs y <> u ++ IAct c :: v).
    { intros y u c v Hy. assert (Hin : In (IAct c) (chs y)) by (rewrite Hy; apply in_or_app; right; now left).
      unfold chs in Hin. apply in_map_iff in Hin as [d [Hd _]]. discriminate. }
    apply app_split in Hw as [[e [Hw _]]|[e [-> Hw]]]; [now apply HC in Hw|]. destruct e as [|i e]; [injection Hw as <- _; now left|].
    injection Hw as <- Hw. apply app_split in Hw as [[e' [Hw _]]|[e' [-> Hw]]]; [now apply HC in Hw|].
    destruct e' as [|j e']; [injection Hw as <- <-; right; rewrite app_nil_r; auto|]. injection Hw as <- Hw. destruct e' as [|k e']; [discriminate|].
    injection Hw as <- Hw. destruct e'; discriminate.
Qed.

Lemma wrun_chs x y st : exists st', wrun E x (chs y) st = Ok st'.
Proof. revert st. induction y as [|c y IH]; intros st; cbn; [eauto|apply IH]. Qed.

Lemma refused_complains us l sk fl h closed ts ps1 p ps2 x u v y o : Forall token_ok (us ++ TOpen h closed :: ts) ->
  reaches E us l sk fl -> leaves_open us l -> head_parts h = ps1 ++ p :: ps2 -> fits E fl ps1 -> refuses x u (flags_after ps1 fl) p o ->
  u = tokens_text us ++ parts_text ps1 ++ part_text p -> tokens_text (us ++ TOpen h closed :: ts) = u ++ y -> x = u ++ v -> firstn 1 v = firstn 1 y ->
  exists e, o = Throw e /\ complains E x e.
Proof.
  intros Hok HR HL Hp Hf HO Hu Hy Hx Hv. destruct (reaches_flags E us l sk fl HR) as [Ha ->].
  assert (HT : token_parts (TOpen h closed) = ps1 ++ p :: (ps2 ++ [PText (if closed then s "/>" else s ">")])) by (cbn [token_parts]; rewrite Hp, <- app_assoc; reflexivity).
  assert (HB : fits E no_flags (all_parts us ++ ps1)) by (apply fits_app; auto).
  assert (Hus : Forall token_ok us) by (now apply Forall_app in Hok as [Hok _]).
  assert (HU : parts_text (all_parts us ++ ps1) ++ part_text p = u).
  { rewrite Hu, <- (parts_tokens us Hus). unfold parts_text. rewrite flat_map_app, <- app_assoc. reflexivity. }
  destruct p as [z|sg ds|r|]; cbn [refuses part_text] in *; [contradiction| | |contradiction].
  - destruct HO as [H1 ->]. exists StdOutOfRange. split; [reflexivity|].
    eapply (complains_number E x us l _ ps1 sg ds _ Ha HL HT HB H1). rewrite HU. exists ts, v, y. auto.
  - destruct HO as [error [loc [H1 [H2 ->]]]]. eexists. split; [reflexivity|]. rewrite <- flags_after_app in H1.
    apply (complains_regex E x us l _ ps1 r _ error loc Ha HL HT HB H1); rewrite HU; [|exact H2]. exists ts, v, y. auto.
Qed.

Theorem token_failure ts wa a wb x v st : Forall token_ok ts -> words ts = wa ++ IAct a :: wb -> x = chars wa ++ v ->
  firstn 1 v = firstn 1 (chars wb) -> wrun E x wa st_initial = Ok st -> fails (run_action E x a st) ->
  exists e, run_action E x a st = Throw e /\ complains E x e.
Proof.
  intros Hok Hw Hx Hv Hst HF. destruct (flat_split w_token ts wa _ wb Hw) as [us [t [ts' [wa' [wb' [-> [-> [Ht ->]]]]]]]].
  fold (words us) in *. fold (words ts') in *.
  assert (HL : L G_exact (words (us ++ t :: ts'))) by (apply L_tokens; eauto).
  pose proof Hok as Hok'. apply Forall_app in Hok' as [Hus Hts]. inversion Hts as [|? ? Htok Hts']; subst.
  set (x := chars (words us ++ wa') ++ v) in *.
  (* the tokens before *)
  assert (HU : exists st0, wrun E x (words us) st_initial = Ok st0).
  { rewrite wrun_app in Hst. destruct (wrun E x (words us) st_initial); try discriminate. eauto. }
  destruct HU as [st0 HU].
  assert (Hx0 : x = chars (words us) ++ chars wa' ++ v) by (unfold x; rewrite chars_app, <- app_assoc; reflexivity).
  destruct (run_state x (words us) _ st0 Hx0 HU) as [k0 [Hk0 _]].
  assert (HI0 : Idle k_initial [[]; []] no_flags) by (eexists (mk_junk _ _ _ _ _), _, _, _; reflexivity).
  assert (HN : [[]; []] <> @nil (list rule)) by discriminate.
  pose proof (run_tokens E us k_initial _ _ Hus HN HI0) as HT. fold (words us) in HT.
  destruct (trun E us ([[]; []], no_flags)) as [[sk fl]|] eqn:Et; [|congruence].
  destruct (run_open E us sk fl Hus Et) as [l [HO HR]]. clear HT.
  (* the whole token has no meaning *)
  assert (Hno : forall l', leaves_open (us ++ [t]) l' -> acceptable E (us ++ [t]) -> False).
  { intros l' HO' Ha. assert (Hok1 : Forall token_ok (us ++ [t])) by (apply Forall_app; auto).
    destruct (open_reaches E _ _ HO' Hok1 (proj2 (meant_acceptable E _) Ha)) as [sk' [fl' HR']].
    destruct (reaches_word E _ _ _ _ Hok1 HR') as [k [Hk _]]. fold (words (us ++ [t])) in Hk.
    rewrite words_app in Hk. unfold words at 2 in Hk. cbn [flat_map] in Hk. rewrite app_nil_r, Ht in Hk.
    replace (words us ++ wa' ++ IAct a :: wb') with ((words us ++ wa' ++ [IAct a]) ++ wb') in Hk by (rewrite <- !app_assoc; reflexivity).
    rewrite crun_app in Hk. destruct (crun E (words us ++ wa' ++ [IAct a]) k_initial) as [k1|] eqn:E1; [|discriminate].
    destruct (state_run x (words us ++ wa' ++ [IAct a]) v k1) as [st1 [H1 _]]; [|exact E1|].
    - unfold x. f_equal. rewrite !chars_app. cbn. now rewrite app_nil_r.
    - rewrite app_assoc in H1. rewrite (wrun_snoc x _ a _ _ Hst) in H1. now apply (HF st1). }
  assert (Hblank : (forall h c, t <> TOpen h c) -> acceptable E (us ++ [t])).
  { intros H. apply meant_acceptable. destruct HR as [_ [[rs HR] _]]. exists rs, fl. rewrite heads_blank; auto. }
  assert (Hother : (forall h c, t <> TOpen h c) -> exists e, run_action E x a st = Throw e /\ complains E x e).
  { intros Ho. destruct (progress us l sk fl t HR HO Htok Ho) as [[l' HP]|[msg [mark HP]]]; [exfalso; eauto|].
    destruct (fault_word us l t msg mark HP) as [w [b [wc [Hw1 [Hw2 Hw3]]]]].
    destruct (Hw3 _ _ _ Ht) as [->|[-> [-> ->]]]; [exfalso; cbn [run_action] in HF; now apply (HF (tk_start st))|].
    assert (Hxs : x = (tokens_text us ++ faulty_text t) ++ v) by (unfold x; rewrite chars_app; unfold words; rewrite (chars_tokens us Hus), Hw2; reflexivity).
    destruct (fault_stops E x us l sk fl t v msg mark Hus Htok HR HP Hxs) as [loc [HPt Hrun]].
    exists (SyntaxError (msg ++ s " " ++ loc)). split.
    - rewrite Hw1 in Hrun. fold (words us) in Hrun. replace (words us ++ w ++ IAct b :: chs wc) with (((words us ++ w) ++ [IAct b]) ++ chs wc) in Hrun by (rewrite <- !app_assoc; reflexivity).
      rewrite wrun_app, (wrun_snoc x _ b _ _ Hst) in Hrun. destruct (run_action E x b st) as [st1|e| |]; cbn [obind] in Hrun; try discriminate; [now destruct (HF st1)|].
      exact Hrun.
    - eapply complains_token; [apply (reaches_flags E us l sk fl HR)|exact HO|exact HP| |exact HPt].
      exists ts', v, (wc ++ tokens_text ts'). split; [exact Hok|]. split; [|split; [exact Hxs|]].
      + unfold tokens_text. rewrite flat_map_app. cbn [flat_map]. rewrite <- !app_assoc. f_equal.
        rewrite <- (chars_token t Htok), Hw1, chars_app, chars_cons_act, chars_chs, Hw2, <- app_assoc. reflexivity.
      + rewrite Hv, chars_app, chars_chs. unfold words. rewrite (chars_tokens ts' Hts'). reflexivity. }
  destruct t as [c|y| | |h closed|name]; try (apply Hother; discriminate).
  (* an opening tag *)
  cbn [w_token token_ok] in *. rewrite w_open_head in Ht. pose proof (W_head h Htok) as HW.
  apply app_split in Ht as [[e [Ht ->]]|[e [-> Ht]]].
  - rewrite words_app in HL. unfold words at 2 in HL. cbn [flat_map w_token] in HL. fold (words ts') in HL. rewrite w_open_head, <- app_assoc in HL.
    rewrite <- app_assoc in Hv.
    destruct (part_failure us l sk fl (w_head h) (head_parts h) (w_tail closed ++ words ts') wa' a e x v st Hus HR HW HL Ht eq_refl Hv Hst HF)
      as [ps1 [p [ps2 [Hp [Hc [Hf [_ Href]]]]]]].
    eapply (refused_complains us l sk fl h closed ts' ps1 p ps2 x _ v (chars (e ++ w_tail closed ++ words ts')) _ Hok HR HO Hp Hf Href).
    + rewrite chars_app, Hc. unfold words. now rewrite (chars_tokens us Hus).
    + unfold tokens_text. rewrite flat_map_app. cbn [flat_map]. rewrite <- (chars_token (TOpen h closed) Htok). cbn [w_token]. rewrite w_open_head, Ht.
      rewrite <- (chars_tokens us Hus), <- (chars_tokens ts' Hts'). fold (words us) (words ts'). rewrite !chars_app, chars_cons_act, <- !app_assoc. reflexivity.
    + reflexivity.
    + exact Hv.
  - exfalso. assert (Hh : exists st1, wrun E x (words us ++ w_head h) st_initial = Ok st1).
    { rewrite app_assoc, wrun_app in Hst. destruct (wrun E x (words us ++ w_head h) st_initial); try discriminate. eauto. }
    destruct Hh as [st1 Hh]. destruct (run_state x (words us ++ w_head h) (chars e ++ v) st1) as [k1 [Hk1 _]]; [|exact Hh|].
    { unfold x. rewrite !chars_app, <- !app_assoc. reflexivity. }
    rewrite crun_app, Hk0 in Hk1. cbn [obind'] in Hk1.
    destruct (reaches_word E us l sk fl Hus HR) as [k0' [Hk0' HI]]. fold (words us) in Hk0'. rewrite Hk0 in Hk0'. injection Hk0' as <-.
    destruct (W_run E _ _ HW k0 k1 Hk1) as [F _]. rewrite (idle_flags _ _ _ HI) in F. destruct (reaches_flags E us l sk fl HR) as [Ha ->].
    destruct closed; (eapply Hno; [apply open_closed || apply open_element; exact HO|]).
    + unfold acceptable, all_parts. rewrite flat_map_app. apply fits_app. split; [exact Ha|]. cbn [flat_map token_parts]. rewrite app_nil_r.
      apply fits_app. split; [exact F|]. cbn. auto.
    + unfold acceptable, all_parts. rewrite flat_map_app. apply fits_app. split; [exact Ha|]. cbn [flat_map token_parts]. rewrite app_nil_r.
      apply fits_app. split; [exact F|]. cbn. auto.
Qed.

End Texts.
