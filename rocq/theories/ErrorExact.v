(** Which error a text has. *)

From Coq Require Import Ascii String NArith ZArith Bool List Lia.
From Verif Require Import Base StringUtil StringSpec StringProofs Tags Dom NodeUtil Values ValueProofs Match Rule Regular RegularProofs ParserTables Parser MachineRows Grammar GrammarSpec GrammarCheck
  GrammarProofs GrammarTexts TextSpec LocationProofs SafetyCheck ParserSpec SafetyProofs ParserSafety
  SyntaxSpec SyntaxWords SyntaxRun SyntaxMeaning SyntaxTree SyntaxProofs ErrorSpec ErrorRun ErrorParts ErrorPlaces ErrorProofs ErrorTexts.
Import ListNotations.

Section Exact.

Variable E : engine.

(** ** Complaints *)

Lemma initial_idle : Idle k_initial [[]; []] no_flags.
Proof. eexists (mk_junk _ _ _ _ _), _, _, _. reflexivity. Qed.

Lemma fault_parse us l t msg mark loc ts v y x : Forall token_ok (us ++ t :: ts) -> acceptable E us -> leaves_open us l -> fault us l t msg mark ->
  let u := tokens_text us ++ faulty_text t in
  tokens_text (us ++ t :: ts) = u ++ y -> x = u ++ v -> firstn 1 v = firstn 1 y -> points_at x u mark loc ->
  ParseHext E x = Throw (SyntaxError (msg ++ s " " ++ loc)).
Proof.
  intros Hok Ha HO HF u Hy Hx Hv HP. pose proof Hok as Hok'. apply Forall_app in Hok' as [Hus Hts]. inversion Hts as [|? ? Ht Hts']; subst x0 l0.
  destruct (open_reaches E us l HO Hus (proj2 (meant_acceptable E us) Ha)) as [sk [fl HR]].
  destruct (fault_stops E x us l sk fl t v msg mark Hus Ht HR HF Hx) as [loc' [HP' Hrun]].
  assert (loc' = loc) as -> by (rewrite (points_unique _ _ _ _ HP), (points_unique _ _ _ _ HP'); reflexivity).
  destruct (fault_word us l t msg mark HF) as [w [b [wc [Hw [Hc _]]]]].
  assert (HL : L G_exact (words (us ++ t :: ts))) by (apply L_tokens; eauto).
  rewrite words_app in HL. unfold words at 2 in HL. cbn [flat_map] in HL. fold (words ts) in HL. rewrite Hw in HL.
  replace (words us ++ (w ++ IAct b :: chs wc) ++ words ts) with ((words us ++ w) ++ IAct b :: chs wc ++ words ts) in HL by (rewrite <- !app_assoc; reflexivity).
  assert (Hu : u = chars (words us ++ w)) by (unfold u, words; rewrite chars_app, (chars_tokens us Hus), Hc; reflexivity).
  assert (Hyc : y = chars (chs wc ++ words ts)).
  { apply (app_inv_head u). rewrite <- Hy. unfold tokens_text. rewrite flat_map_app. cbn [flat_map].
    rewrite Hu. rewrite <- (chars_token t Ht), Hw. unfold words. rewrite !chars_app, (chars_tokens us Hus), (chars_tokens ts Hts'), chars_cons_act, chars_chs, <- !app_assoc. reflexivity. }
  assert (Hx' : x = chars (words us ++ w) ++ v) by (rewrite <- Hu; exact Hx).
  rewrite Hyc in Hv. pose proof (cut_parse E x _ b _ v HL Hx' Hv) as HC. fold (words us) in Hrun. rewrite Hw in Hrun.
  replace (words us ++ w ++ IAct b :: chs wc) with (((words us ++ w) ++ [IAct b]) ++ chs wc) in Hrun by (rewrite <- !app_assoc; reflexivity).
  rewrite wrun_app in Hrun. destruct (wrun E x ((words us ++ w) ++ [IAct b]) st_initial) as [st|e|ub|]; cbn [obind] in Hrun; try discriminate.
  - destruct (wrun_chs E x wc st) as [st' H]. congruence.
  - injection Hrun as ->. exact HC.
Qed.

Lemma part_nonempty p wx a : checks p wx a -> part_text p <> [].
Proof.
  destruct p as [y|sg ds|r|]; cbn [checks part_text]; try contradiction.
  - intros [_ [[Hd _] _]] H. apply app_eq_nil in H as [_ H]. contradiction.
  - intros _ H. discriminate.
Qed.

Lemma firstn_one_app {A} (a b c : list A) : a <> [] -> firstn 1 (a ++ b) = firstn 1 (a ++ c).
Proof. destruct a; [contradiction|reflexivity]. Qed.

Lemma part_parse us l t ps p ps' ts x u v y : Forall token_ok (us ++ t :: ts) -> acceptable E us -> leaves_open us l ->
  token_parts t = ps ++ p :: ps' -> (exists r, p = PRegex r) \/ (exists sg ds, p = PNumber sg ds) ->
  fits E no_flags (all_parts us ++ ps) -> ~ part_fits E (flags_after (all_parts us ++ ps) no_flags) p ->
  u = parts_text (all_parts us ++ ps) ++ part_text p -> tokens_text (us ++ t :: ts) = u ++ y -> x = u ++ v -> firstn 1 v = firstn 1 y ->
  exists o, refuses E x u (flags_after (all_parts us ++ ps) no_flags) p o /\ forall e, o = Throw e -> ParseHext E x = Throw e.
Proof.
  intros Hok Ha HO Hp Hkind Hf Hnf Hu Hy Hx Hv. pose proof Hok as Hok'. apply Forall_app in Hok' as [Hus Hts]. inversion Hts as [|? ? Ht Hts']; subst x0 l0.
  assert (Htext : forall z, p <> PText z) by (intros z ->; destruct Hkind as [[r H]|[sg [ds H]]]; discriminate).
  destruct t as [c|z| | |h closed|name]; cbn [token_parts] in Hp; try (apply single_split in Hp as [_ [Hp _]]; exfalso; now apply (Htext _ (eq_sym Hp))).
  apply app_split in Hp as [[e [Hp _]]|[e [_ Hp]]]; [|apply single_split in Hp as [_ [Hp _]]; exfalso; now apply (Htext _ (eq_sym Hp))].
  cbn [token_ok] in Ht. destruct (W_at _ _ (W_head h Ht) _ _ _ Hp Hkind) as [wp [wx [a [wq [Hw [HW HC]]]]]].
  destruct (open_reaches E us l HO Hus (proj2 (meant_acceptable E us) Ha)) as [sk [fl HR]].
  destruct (reaches_flags E us l sk fl HR) as [_ Hfl]. rewrite flags_after_app in *. rewrite <- Hfl in *.
  apply fits_app in Hf as [_ Hf]. rewrite <- Hfl in Hf.
  set (rest := wx ++ IAct a :: wq ++ w_tail closed ++ words ts).
  assert (HWD : words (us ++ TOpen h closed :: ts) = words us ++ wp ++ rest).
  { rewrite words_app. unfold words at 2. cbn [flat_map w_token]. fold (words ts). rewrite w_open_head, Hw. unfold rest. rewrite <- ?app_assoc. cbn [app]. rewrite <- ?app_assoc. reflexivity. }
  assert (HL : L G_exact (words us ++ wp ++ rest)) by (rewrite <- HWD; apply L_tokens; eauto).
  assert (Huc : u = chars (words us ++ wp ++ wx)).
  { rewrite Hu. unfold parts_text. rewrite flat_map_app. fold (parts_text (all_parts us)) (parts_text ps). rewrite (parts_tokens us Hus), !chars_app, (W_chars _ _ HW), (checks_chars _ _ _ HC).
    unfold words. rewrite (chars_tokens us Hus), <- app_assoc. reflexivity. }
  assert (Hyc : y = chars (wq ++ w_tail closed ++ words ts)).
  { apply (app_inv_head u). rewrite <- Hy. change (tokens_text (us ++ TOpen h closed :: ts)) with (flat_map token_text (us ++ TOpen h closed :: ts)). rewrite <- (chars_tokens _ Hok). fold (words (us ++ TOpen h closed :: ts)). rewrite HWD, Huc. unfold rest.
    rewrite !chars_app, chars_cons_act, !chars_app, <- !app_assoc. reflexivity. }
  destruct (reaches_word E us l sk fl Hus HR) as [k0 [Hk0 HI]]. fold (words us) in Hk0.
  assert (Hx0 : x = chars (words us) ++ (chars wp ++ chars wx ++ v)) by (rewrite Hx, Huc, !chars_app, <- !app_assoc; reflexivity).
  destruct (state_run E x (words us) _ k0 Hx0 Hk0) as [st0 [Hst0 _]].
  assert (Hk1 : exists k1, crun E wp k0 = Some k1).
  { destruct (wrun E x wp st0) as [st1| | |] eqn:E1.
    1:{ destruct (run_state E x (words us ++ wp) (chars wx ++ v) st1) as [k1 [K1 _]].
        - rewrite Hx0, chars_app, <- app_assoc. reflexivity.
        - rewrite wrun_app, Hst0. exact E1.
        - rewrite crun_app, Hk0 in K1. eauto. }
    all: exfalso; destruct (failing_action E x wp st0) as [wa1 [a1 [wb1 [st' [Hwp [H1 H2]]]]]]; [rewrite E1; intros q; discriminate|].
    all: destruct (part_failure E us l sk fl wp ps rest wa1 a1 wb1 x (chars wb1 ++ chars wx ++ v) st' Hus HR HW HL Hwp) as [ps1 [q [ps2 [Hq [_ [_ [Hq2 _]]]]]]].
    all: try (rewrite Hx0, Hwp, !chars_app, chars_cons_act, <- !app_assoc; reflexivity).
    all: try (rewrite chars_app; unfold rest; rewrite chars_app, !app_assoc; apply firstn_one_app; rewrite (checks_chars _ _ _ HC); intros X; apply app_eq_nil in X as [_ X]; now apply (part_nonempty p wx a)).
    all: try (rewrite wrun_app, Hst0; exact H1).
    all: try (rewrite H2, E1; intros ?; discriminate).
    all: rewrite Hq in Hf; apply fits_app in Hf as [_ Hf]; cbn [fits] in Hf; now apply Hq2. }
  destruct Hk1 as [k1 Hk1]. destruct (W_run E wp ps HW k0 k1 Hk1) as [_ F2]. rewrite (idle_flags _ _ _ HI) in F2.
  destruct (checks_run E p wx a k1 HC) as [k2 [Hk2 HK]].
  assert (Hk : crun E (words us ++ wp ++ wx) k_initial = Some k2) by (rewrite !crun_app, Hk0; cbn [obind']; rewrite crun_app, Hk1; cbn [obind']; exact Hk2).
  assert (Hx2 : x = chars (words us ++ wp ++ wx) ++ v) by (rewrite <- Huc; exact Hx).
  destruct (state_run E x _ v k2 Hx2 Hk) as [st [Hst HS]]. rewrite <- Huc in HS.
  assert (HU : exists u', u = u' ++ part_text p) by (rewrite Hu; eauto).
  exists (run_action E x a st). split.
  - destruct (check_outcome E x u v st k1 k2 p wx a HC HK HS Hx HU) as [[H _]|[_ H]]; rewrite F2 in H; [contradiction|exact H].
  - intros ex He. rewrite <- (wrun_snoc E x (words us ++ wp ++ wx) a st_initial st Hst) in He.
    assert (HL2 : L G_exact ((words us ++ wp ++ wx) ++ IAct a :: wq ++ w_tail closed ++ words ts)) by (unfold rest in HL; rewrite <- !app_assoc; exact HL).
    rewrite Hyc in Hv. pose proof (cut_parse E x _ a _ v HL2 Hx2 Hv) as HCP. rewrite He in HCP. exact HCP.
Qed.

Theorem complains_parse x e : complains E x e -> ParseHext E x = Throw e.
Proof.
  intros H. destruct H as [us l t msg mark loc Ha HO HF u [ts [v [y [H1 [H2 [H3 H4]]]]]] HP
    |us l t ps r ps' error loc Ha HO Hp before Hf He u [ts [v [y [H1 [H2 [H3 H4]]]]]] HP
    |us l t ps sg ds ps' Ha HO Hp before Hf He [ts [v [y [H1 [H2 [H3 H4]]]]]]].
  - eapply fault_parse; eauto.
  - destruct (part_parse us l t ps (PRegex r) ps' ts x u v y H1 Ha HO Hp) as [o [HR HO']]; auto.
    + left. eauto.
    + cbn [part_fits]. unfold flags_after. fold before. rewrite He. discriminate.
    + cbn [refuses] in HR. destruct HR as [error' [loc' [R1 [R2 R3]]]]. unfold flags_after in R1. fold before in R1. rewrite He in R1. injection R1 as <-.
      rewrite (points_unique _ _ _ _ HP), <- (points_unique _ _ _ _ R2). now apply HO'.
  - destruct (part_parse us l t ps (PNumber sg ds) ps' ts x (parts_text before ++ sg ++ ds) v y H1 Ha HO Hp) as [o [HR HO']]; auto.
    + right. eauto.
    + cbn [part_fits]. congruence.
    + cbn [refuses] in HR. now apply HO'.
Qed.

(** ** The end of a text *)

Lemma last_line_unique x b l b' l' : last_line x b l -> last_line x b' l' -> b = b' /\ l = l'.
Proof.
  intros H H'. pose proof (CharPosition_spec _ _ _ H) as P. pose proof (CharPosition_spec _ _ _ H') as P'. rewrite P in P'. injection P' as _ HL.
  destruct H as [H _]. destruct H' as [H' _]. rewrite H in H'. assert (HB : length b = length b') by (apply (f_equal (@length _)) in H'; rewrite !app_length in H'; lia).
  clear -H' HB. revert b' HB H'. induction b as [|c b IH]; intros [|c' b'] HB H; try discriminate; [auto|]. cbn [app] in H. injection H as <- H.
  injection HB as HB. destruct (IH _ HB H) as [-> ->]. auto.
Qed.

Lemma at_last_unique x y z : at_last x y -> at_last x z -> y = z.
Proof.
  intros [u [c [b [l [-> [HL HM]]]]]] [u' [c' [b' [l' [Hx [HL' HM']]]]]]. apply app_inj_tail in Hx as [<- <-].
  destruct (last_line_unique _ _ _ _ _ HL HL') as [<- <-]. eapply location_unique; eauto.
Qed.
Lemma at_end_unique x y z : at_end x y -> at_end x z -> y = z.
Proof. intros [b [l [HL HM]]] [b' [l' [HL' HM']]]. destruct (last_line_unique _ _ _ _ _ HL HL') as [<- <-]. eapply location_unique; eauto. Qed.

Lemma unfinished_unique x l m m' : unfinished x l m -> unfinished x l m' -> m = m'.
Proof.
  intros H H'. inversion H as [l1 b loc Hb Hl|name l1 y loc Hb Hd Hl]; subst; inversion H' as [l2 b' loc' Hb' Hl'|name' l2 y' loc' Hb' Hd' Hl']; subst.
  - now rewrite (at_last_unique _ _ _ Hl Hl').
  - exfalso. destruct Hb as [Hb|Hb]; [discriminate|]. now apply (Hb' b).
  - exfalso. destruct Hb' as [Hb'|Hb']; [discriminate|]. now apply (Hb b').
  - rewrite (at_end_unique _ _ _ Hl Hl'), (displayed_unique _ _ _ Hd Hd'). reflexivity.
Qed.

Lemma idle_stacks k sk fl : Idle k sk fl -> k_stacks k = sk.
Proof. intros [j [b [a [cv ->]]]]. reflexivity. Qed.

Lemma tokens_exec ts x k : Forall token_ok ts -> x = tokens_text ts -> crun E (words ts) k_initial = Some k ->
  exists st, exec E x x hext_start st_initial = Ok st /\ ps_stacks st = k_stacks k /\ ps_p st = length x.
Proof.
  intros Hok Hx Hk. assert (HL : L G_exact (words ts)) by (apply L_tokens; eauto).
  assert (Hc : chars (words ts) = x) by (rewrite Hx; now apply chars_tokens).
  pose proof (exec_whole E x (words ts) st_initial HL (or_intror (no_error_mark _ HL))) as HE. rewrite Hc in HE.
  destruct (state_run E x (words ts) [] k) as [st [H1 H2]]; [now rewrite app_nil_r|exact Hk|]. exists st. rewrite HE. split; [exact H1|].
  rewrite Hc in H2. destruct H2 as [H2 [_ [_ [H3 _]]]]. auto.
Qed.

Lemma plain_start x st : x = [] \/ x = [newline] -> exec E x x hext_start st_initial = Ok st -> ps_stacks st = [[]; []].
Proof. intros [-> | ->] H; vm_compute in H; injection H as <-; reflexivity. Qed.

Lemma finish_spec ts l sk fl x : Forall token_ok ts -> reaches E ts l sk fl -> x = tokens_text ts ->
  (l = [] /\ exists r, ParseHext E x = Ok r) \/ (exists m, unfinished x l m /\ ParseHext E x = Throw (SyntaxError m)).
Proof.
  intros Hok HR Hx. destruct (reaches_word E ts l sk fl Hok HR) as [k [Hk HI]].
  destruct (tokens_exec ts x k Hok Hx Hk) as [st [Hex [Hsk Hp]]]. rewrite (idle_stacks _ _ _ HI) in Hsk.
  rewrite parse_exec, Hex. cbn [obind]. pose proof HR as [_ [_ [b [HO _]]]]. pose proof (open_length _ _ _ HO) as [Hlen Hbr].
  assert (Hne : l <> [] -> x <> [] /\ x <> [newline]).
  { intros Hl. assert (Hs : sk <> [[]; []]).
    { intros ->. destruct l as [|[n|f] l]; [contradiction| |]; cbn [Open] in HO; [destruct HO as [r [t [rest [H _]]]]; discriminate|].
      destruct HO as [lv [sk' [H [_ [_ H']]]]]. injection H as <- <-. apply open_length in H' as [H' _]. cbn in H'. lia. }
    split; intros Hx'; apply Hs; rewrite <- Hsk; apply (plain_start x st); auto. }
  unfold finish. rewrite Hsk. destruct sk as [|s0 srest] eqn:Es; [cbn in Hlen; lia|]. rewrite <- Es in *.
  destruct (Nat.ltb_spec 2 (length sk)) as [H2|H2].
  - right. destruct (proj1 Hbr H2) as [f Hf]. destruct Hne as [N1 N2]; [intros ->; destruct Hf|].
    destruct (exists_last N1) as [u [c Hu]]. unfold throw_error_message, p_minus_1. rewrite Hp.
    assert (HLx : length x = S (length u)) by (rewrite Hu, app_length; cbn; lia). rewrite HLx. cbn [obind].
    destruct (location_here x (length u) 1) as [before [line [HL HM]]]; [lia|lia| |].
    { intros Hn. destruct u as [|d u]; [|cbn; lia]. rewrite Hu in Hn. cbn in Hn. injection Hn as ->. now destruct N2. }
    exists (s "Unclosed nested rule " ++ print_error_location x (length u) 1). split; [|reflexivity].
    apply (unfinished_braces x l f); [exact Hf|]. exists u, c, before, line. split; [exact Hu|].
    rewrite Hu in HL, HM at 1. rewrite firstn_app, firstn_all, Nat.sub_diag in HL. cbn [firstn] in HL. rewrite app_nil_r in HL.
    rewrite skipn_length_app in HM. auto.
  - assert (Hnb : forall f, ~ In (InBraces f) l) by (intros f Hf; assert (X : 2 < length sk) by (apply Hbr; eauto); lia).
    destruct l as [|[name|f] l]; cbn [Open] in HO.
    + left. split; [reflexivity|]. destruct HO as [lv [-> HV]]. cbn [pop_empty]. destruct lv as [|r [|]]; cbn in *; [eauto|eauto|contradiction].
    + right. destruct HO as [r [t [rest [Hsk' [HS HO]]]]]. rewrite Hsk' in *. cbn [pop_empty]. cbn [length] in Hlen.
      destruct rest as [|r1 rest]; [cbn in Hlen; lia|]. change (Nat.ltb 1 (length ((r :: t) :: r1 :: rest))) with true. cbn [orb]. unfold throw_missing_tag.
      destruct Hne as [N1 _]; [discriminate|].
      destruct (location_here x (length x) 0) as [before [line [HL HM]]]; [lia| | |].
      { intros _. destruct x; [contradiction|cbn; lia]. }
      { intros Hn. assert (X : length x < length x) by (apply nth_error_Some; congruence). lia. }
      rewrite firstn_all in HL. rewrite skipn_all in HM.
      eexists. split; [|reflexivity]. change (match r_tagname r with Some n => n | None => tag_display (r_tag r) end) with (name_of r).
      apply unfinished_element; [intros f Hf; apply (Hnb f); now right|now apply displayed_name|]. exists before, line. auto.
    + exfalso. apply (Hnb f). now left.
Qed.

(** ** Texts of the grammar and their beginnings *)

Lemma text_word x : text_of G x -> exists tr q l, walk hext_start x = Some (tr, q) /\ machine_eof q = Ok l /\ L G_exact (weave tr x ++ map IAct l).
Proof.
  intros Hx. assert (HP : prefix_of G x) by (exists []; now rewrite app_nil_r). apply G_consumed in HP as [tr [q Hw]].
  destruct (proj1 (G_end x tr q Hw) Hx) as [l [Hl [_ Hin]]]. exists tr, q, l. split; [exact Hw|]. split; [exact Hl|].
  destruct (X_text x tr q l Hw Hl) as [->|H]; [|exact H]. exfalso. apply (no_error_action x), Hin. now left.
Qed.

Lemma weave_char tr : forall u wa a wb, length tr = length u -> weave tr u = wa ++ IAct a :: wb -> chars wb <> [].
Proof.
  induction tr as [|l tr IH]; intros [|c u] wa a wb HL H; try discriminate; cbn [weave] in H; [destruct wa; discriminate|]. injection HL as HL.
  apply app_split in H as [[e [_ ->]]|[e [_ H]]]; [intros X; rewrite chars_app, chars_cons_chr in X; apply app_eq_nil in X as [_ X]; discriminate|].
  destruct e as [|i e]; [discriminate|]. injection H as _ H. now apply (IH u e a wb).
Qed.

Lemma until x u v tr q : x = u ++ v -> walk hext_start u = Some (tr, q) ->
  (exists e, wrun E x (weave tr u) st_initial = Throw e /\ complains E x e) \/
  (exists st, wrun E x (weave tr u) st_initial = Ok st /\ ps_p st = length u).
Proof.
  intros Hx Hw. assert (HP : prefix_of G u) by (apply G_consumed; eauto). destruct HP as [y Hy].
  destruct (text_word _ Hy) as [tr' [q' [l [Hw' [_ HL]]]]]. apply walk_app in Hw' as [tr1 [q1 [tr2 [H1 [H2 ->]]]]]. rewrite Hw in H1. injection H1 as <- <-.
  pose proof (walk_length _ _ _ _ Hw) as HT. rewrite (weave_app _ _ _ _ HT), <- app_assoc in HL. pose proof HL as HL'. apply L_tokens in HL' as [ts [Hok Hts]].
  assert (Hc : chars (weave tr u) = u) by (now apply chars_weave).
  destruct (wrun E x (weave tr u) st_initial) as [st| | |] eqn:Er.
  1:{ right. exists st. split; [reflexivity|]. destruct (run_state E x (weave tr u) v st) as [k [_ HS]]; [now rewrite Hc|exact Er|]. rewrite Hc in HS. apply HS. }
  all: left; destruct (failing_action E x (weave tr u) st_initial) as [wa [a [wb [st' [HW [HA HB]]]]]]; [rewrite Er; intros z; discriminate|].
  all: destruct (token_failure E ts wa a (wb ++ weave tr2 y ++ map IAct l) x (chars wb ++ v) st' Hok) as [ex [T1 T2]];
    [unfold words; rewrite <- Hts, HW, <- app_assoc; reflexivity
    |rewrite Hx, <- Hc, HW, chars_app, chars_cons_act, <- app_assoc; reflexivity
    |rewrite chars_app; apply firstn_one_app; eapply weave_char; [exact HT|exact HW]
    |exact HA|rewrite HB, Er; intros z; discriminate|].
  all: rewrite HB, Er in T1; eauto; discriminate.
Qed.

(** The outcomes. *)

Theorem text_outcome x : text_of G x ->
  (exists e, ParseHext E x = Throw e /\ complains E x e) \/
  (exists ts l, Forall token_ok ts /\ acceptable E ts /\ leaves_open ts l /\ x = tokens_text ts /\
     ((l = [] /\ exists r, ParseHext E x = Ok r) \/ (exists m, unfinished x l m /\ ParseHext E x = Throw (SyntaxError m)))).
Proof.
  intros Hx. destruct (text_word x Hx) as [tr [q [l [Hw [Hl HL]]]]]. pose proof (walk_length _ _ _ _ Hw) as HT.
  pose proof HL as HL'. apply L_tokens in HL' as [ts [Hok Hts]]. fold (words ts) in Hts. rewrite Hts in HL.
  assert (Hc : chars (words ts) = x) by (rewrite <- Hts, chars_app, chars_acts, app_nil_r; now apply chars_weave).
  pose proof (exec_whole E x (words ts) st_initial HL (or_intror (no_error_mark _ HL))) as HE. rewrite Hc in HE.
  assert (Htx : x = tokens_text ts) by (rewrite <- Hc; now apply chars_tokens).
  destruct (wrun E x (words ts) st_initial) as [st| | |] eqn:Er.
  1:{ right. destruct (run_state E x (words ts) [] st) as [k [Hk _]]; [now rewrite app_nil_r|exact Er|].
      assert (HN : [[]; []] <> @nil (list rule)) by discriminate.
      pose proof (run_tokens E ts k_initial _ _ Hok HN initial_idle) as HR. fold (words ts) in HR.
      destruct (trun E ts ([[]; []], no_flags)) as [[sk fl]|] eqn:Et; [|congruence].
      destruct (run_open E ts sk fl Hok Et) as [lo [HO HRe]]. exists ts, lo. split; [exact Hok|]. split; [apply (reaches_flags E ts lo sk fl HRe)|].
      split; [exact HO|]. split; [exact Htx|]. now apply (finish_spec ts lo sk fl x). }
  all: left; destruct (failing_action E x (words ts) st_initial) as [wa [a [wb [st' [HW [HA HB]]]]]]; [rewrite Er; intros z; discriminate|].
  all: destruct (token_failure E ts wa a wb x (chars wb) st' Hok HW) as [ex [T1 T2]];
    [rewrite <- Hc, HW, chars_app, chars_cons_act; reflexivity|reflexivity|exact HA|rewrite HB, Er; intros z; discriminate|].
  all: rewrite HB, Er in T1; try discriminate.
  injection T1 as ->. exists ex. split; [|exact T2]. rewrite parse_exec, HE. reflexivity.
Qed.

Theorem lexical_outcome x u c v : lexical_error x u c v ->
  (exists e, ParseHext E x = Throw e /\ complains E x e) \/
  (ParseHext E x = (let! name := CharName c in Throw (SyntaxError (s "Unexpected character '" ++ name ++ s "' " ++ print_error_location x (length u) 1)))).
Proof.
  intros [Hx [HP HN]]. apply G_consumed in HP as [tr [q Hw]]. pose proof (proj2 (G_step u tr q c Hw) HN) as Hm.
  pose proof (exec_prefix E x u (c :: v) hext_start st_initial tr q Hw) as HE. rewrite <- Hx in HE. rewrite parse_exec, HE. clear HE.
  destruct (until x u (c :: v) tr q Hx Hw) as [[e [H1 H2]]|[st [H1 H2]]]; rewrite H1; cbn [obind].
  - left. eauto.
  - right. cbn [exec]. rewrite Hm. cbn [obind run_actions]. change (run_action E x 88 st) with (@throw_unexpected x pstate st). unfold throw_unexpected.
    rewrite H2. assert (HL : length u < length x) by (rewrite Hx, app_length; cbn; lia). destruct (Nat.eqb_spec (length u) (length x)); [lia|].
    assert (Hc : nth_error x (length u) = Some c) by (rewrite Hx, nth_error_app2, Nat.sub_diag by lia; reflexivity). rewrite Hc.
    destruct (CharName c); cbn [obind]; rewrite <- ?app_assoc; reflexivity.
Qed.

Theorem incomplete_outcome x : incomplete x ->
  (exists e, ParseHext E x = Throw e /\ complains E x e) \/
  (ParseHext E x = Throw (SyntaxError (s "Premature termination " ++ print_error_location x (length x) 1))).
Proof.
  intros [HP HN]. apply G_consumed in HP as [tr [q Hw]]. pose proof (proj2 (G_end x tr q Hw) HN) as Hm.
  rewrite parse_exec. assert (Hx : x = x ++ []) by now rewrite app_nil_r.
  pose proof (exec_prefix E x x [] hext_start st_initial tr q Hw) as HE. rewrite <- Hx in HE. rewrite HE. clear HE.
  destruct (until x x [] tr q Hx Hw) as [[e [H1 H2]]|[st [H1 H2]]]; rewrite H1; cbn [obind].
  - left. eauto.
  - right. cbn [exec]. rewrite Hm. cbn [obind run_eof_actions run_eof_action]. change (run_action E x 88 st) with (@throw_unexpected x pstate st). unfold throw_unexpected.
    rewrite H2, Nat.eqb_refl. reflexivity.
Qed.

(** ** Every error *)

Lemma complaint_begins x e : complains E x e ->
  e = StdOutOfRange \/ exists m, e = SyntaxError m /\ In (firstn 13 m) [s "In regular ex"; s "Unexpected cl"; s "Nested rules "; s "Closing neste"].
Proof.
  intros H. destruct H as [us l t msg mark loc _ _ HF u _ _|us l t ps r ps' error loc _ _ _ before _ _ u _ _|]; [| |now left].
  - right. destruct HF; (eexists; split; [reflexivity|]).
    + right. left. reflexivity.
    + right. right. left. reflexivity.
    + right. right. right. left. reflexivity.
    + right. right. right. left. reflexivity.
    + right. right. left. reflexivity.
    + right. right. left. reflexivity.
  - right. eexists. split; [reflexivity|]. left. reflexivity.
Qed.

Lemma walk_fails x : forall cs, walk cs x = None -> exists u c v tr q, x = u ++ c :: v /\ walk cs u = Some (tr, q) /\ walk cs (u ++ [c]) = None.
Proof.
  induction x as [|c x IH]; intros cs H; [discriminate|]. destruct (walk cs [c]) as [[tr q]|] eqn:E1.
  - cbn [walk] in H, E1. destruct (machine_step cs c) as [[cs' acts]| | |] eqn:Em; try discriminate. destruct (cs' =? hext_error)%N eqn:Ee; [discriminate|].
    destruct (walk cs' x) as [[tr' q']|] eqn:Ew; [discriminate|]. destruct (IH cs' Ew) as [u [d [v [tr1 [q1 [-> [H1 H2]]]]]]].
    exists (c :: u), d, v, (acts :: tr1), q1. split; [reflexivity|]. cbn [app walk]. rewrite Em, Ee, H1, H2. auto.
  - exists [], c, x, [], cs. auto.
Qed.

Lemma text_cases x : text_of G x \/ incomplete x \/ exists u c v, lexical_error x u c v.
Proof.
  destruct (walk hext_start x) as [[tr q]|] eqn:Ew.
  - assert (HP : prefix_of G x) by (apply G_consumed; eauto). pose proof (walk_state lG cG acts_union check_G x _ _ _ start_state Ew) as Hq.
    destruct (machine_end lG cG acts_union check_G q Hq) as [acts [Ee Hp]].
    pose proof (parts_after lG cG acts_union lG_ok check_G start_G star_G x tr q Ew) as HA. rewrite erase_lG in HA.
    destruct Hp as [[-> Hno]|[[t [l [Ht Hl]]] _]].
    + right. left. split; [exact HP|]. intros [w [Hw1 Hc]]. destruct (proj2 (HA (last_marks w))) as [t [Ht Hl]]; [eauto|]. now apply (Hno t (last_marks w)).
    + left. destruct (proj1 (HA l)) as [w [Hw1 [Hc _]]]; [eauto|]. exists w. auto.
  - right. right. destruct (walk_fails x _ Ew) as [u [c [v [tr [q [Hx [H1 H2]]]]]]]. exists u, c, v. split; [exact Hx|].
    split; [apply G_consumed; eauto|]. intros HP. apply G_consumed in HP as [tr' [q' HP]]. congruence.
Qed.

Lemma newline_first : prefix_of G [newline].
Proof. apply G_consumed. destruct (walk hext_start [newline]) as [[tr q]|] eqn:Ew; [eauto|]. vm_compute in Ew. discriminate. Qed.
Lemma empty_text : text_of G [].
Proof. exists []. split; [constructor|reflexivity]. Qed.

Lemma lexical_place x u c v : lexical_error x u c v -> exists before line, last_line u before line /\
  location_message before line (c :: v) 1 (print_error_location x (length u) 1).
Proof.
  intros [Hx [HP HN]]. assert (Hl : length x = length u + S (length v)) by (rewrite Hx, app_length; reflexivity).
  destruct (location_here x (length u) 1) as [before [line [HL HM]]]; [lia|lia| |].
  - intros Hn. destruct u as [|d u]; [|cbn; lia]. exfalso. rewrite Hx in Hn. cbn in Hn. injection Hn as ->. apply HN, newline_first.
  - rewrite Hx in HL at 1. rewrite Hx in HM at 1. rewrite firstn_app, firstn_all, Nat.sub_diag in HL. cbn [firstn] in HL. rewrite app_nil_r in HL.
    rewrite skipn_length_app in HM. eauto.
Qed.

Lemma incomplete_place x : incomplete x -> exists before line, last_line x before line /\
  location_message before line [] 1 (print_error_location x (length x) 1).
Proof.
  intros [HP HN]. assert (Hx : x <> []) by (intros ->; apply HN, empty_text).
  destruct (location_here x (length x) 1) as [before [line [HL HM]]]; [lia| | |].
  - intros _. destruct x; [contradiction|cbn; lia].
  - intros Hn. assert (X : length x < length x) by (apply nth_error_Some; congruence). lia.
  - rewrite firstn_all in HL. rewrite skipn_all in HM. eauto.
Qed.

Ltac other_message H := destruct (complaint_begins _ _ H) as [?|[? [Hm Hin]]]; [discriminate|]; injection Hm as <-;
  repeat (destruct Hin as [Hin|Hin]; [discriminate|]); destruct Hin.

Theorem error_rejected x e : ParseHext E x = Throw e -> rejected E x e.
Proof.
  intros H. destruct (text_cases x) as [HT|[HT|[u [c [v HT]]]]].
  - destruct (text_outcome x HT) as [[e' [H1 H2]]|[ts [l [Hok [Ha [HO [Hx Hfin]]]]]]].
    + rewrite H in H1. injection H1 as <-. now apply rejected_complaint.
    + destruct Hfin as [[_ [r H1]]|[m [Hm H1]]]; rewrite H in H1; [discriminate|]. injection H1 as ->. eapply rejected_unfinished; eauto.
  - destruct (incomplete_outcome x HT) as [[e' [H1 H2]]|H1]; rewrite H in H1; injection H1 as ->; [now apply rejected_complaint|].
    destruct (incomplete_place x HT) as [before [line [HL HM]]]. apply (rejected_incomplete E x before line); auto.
    intros e' He. pose proof (complains_parse _ _ He) as X. rewrite H in X. injection X as <-. other_message He.
  - destruct (lexical_outcome x u c v HT) as [[e' [H1 H2]]|H1].
    + rewrite H in H1. injection H1 as ->. now apply rejected_complaint.
    + rewrite H in H1. destruct (name_defined c) as [[name En]|[En _]]; rewrite En in H1; [|discriminate]. cbn [obind] in H1. injection H1 as ->.
      destruct (lexical_place x u c v HT) as [before [line [HL HM]]]. apply (rejected_character E x u c v name before line); auto; [|now apply name_spec].
      intros e' He. pose proof (complains_parse _ _ He) as X. rewrite H in X. injection X as <-. other_message He.
Qed.

Theorem rejected_error x e : rejected E x e -> ParseHext E x = Throw e.
Proof.
  intros H. destruct H as [e He|ts l m Hok Ha HO Hx Hm|u c v name before line loc Hno HT Hn HL HM|before line loc Hno HT HL HM].
  - now apply complains_parse.
  - destruct (open_reaches E ts l HO Hok (proj2 (meant_acceptable E ts) Ha)) as [sk [fl HR]].
    destruct (finish_spec ts l sk fl x Hok HR Hx) as [[-> _]|[m' [Hm' H]]].
    + inversion Hm; subst. contradiction.
    + now rewrite (unfinished_unique _ _ _ _ Hm Hm').
  - destruct (lexical_outcome x u c v HT) as [[e' [_ H]]|H]; [now apply Hno in H|]. rewrite H, (name_known _ _ Hn). cbn [obind].
    destruct (lexical_place x u c v HT) as [b' [l' [HL' HM']]]. destruct (last_line_unique _ _ _ _ _ HL HL') as [<- <-].
    now rewrite (location_unique _ _ _ _ _ _ HM HM').
  - destruct (incomplete_outcome x HT) as [[e' [_ H]]|H]; [now apply Hno in H|]. rewrite H.
    destruct (incomplete_place x HT) as [b' [l' [HL' HM']]]. destruct (last_line_unique _ _ _ _ _ HL HL') as [<- <-].
    now rewrite (location_unique _ _ _ _ _ _ HM HM').
Qed.

Theorem errors_exact x e : ParseHext E x = Throw e <-> rejected E x e.
Proof. split; [apply error_rejected|apply rejected_error]. Qed.

Theorem rejected_once x e e' : rejected E x e -> rejected E x e' -> e = e'.
Proof. intros H H'. apply rejected_error in H, H'. rewrite H in H'. now injection H'. Qed.

(** A character without a name. *)
Theorem undefined_exact x b : ParseHext E x = UB b <-> b = BadCtypeArgument /\ (forall e, ~ complains E x e) /\ unnamed_character x.
Proof.
  split.
  - intros H. destruct (text_cases x) as [HT|[HT|[u [c [v HT]]]]].
    + destruct (text_outcome x HT) as [[e' [H1 _]]|[ts [l [_ [_ [_ [_ [[_ [r H1]]|[m [_ H1]]]]]]]]]]; rewrite H in H1; discriminate.
    + destruct (incomplete_outcome x HT) as [[e' [H1 _]]|H1]; rewrite H in H1; discriminate.
    + destruct (lexical_outcome x u c v HT) as [[e' [H1 _]]|H1]; rewrite H in H1; [discriminate|].
      destruct (name_defined c) as [[name En]|[En Hc]]; rewrite En in H1; [discriminate|]. injection H1 as ->. split; [reflexivity|]. split.
      * intros e He. apply complains_parse in He. rewrite H in He. discriminate.
      * exists u, c, v. auto.
  - intros [-> [Hno [u [c [v [HT Hc]]]]]]. destruct (lexical_outcome x u c v HT) as [[e' [_ H]]|H]; [now apply Hno in H|]. rewrite H.
    destruct (name_defined c) as [[name En]|[-> _]]; [|reflexivity]. exfalso. apply name_spec in En. destruct En as [| | | | |c' Hp|c' d Hc' Hn Hd|];
      cbn in Hc; try lia.
Qed.

Theorem outcomes x : (exists r, ParseHext E x = Ok r) \/ (exists e, rejected E x e) \/ ((forall e, ~ complains E x e) /\ unnamed_character x).
Proof.
  destruct (ParseHext E x) as [r|e|b|] eqn:H; [eauto|right; left; exists e; now apply errors_exact| |].
  - right. right. apply (proj1 (undefined_exact x b) H).
  - exfalso. destruct (text_cases x) as [HT|[HT|[u [c [v HT]]]]].
    + destruct (text_outcome x HT) as [[e' [H1 _]]|[ts [l [_ [_ [_ [_ [[_ [r H1]]|[m [_ H1]]]]]]]]]]; rewrite H in H1; discriminate.
    + destruct (incomplete_outcome x HT) as [[e' [H1 _]]|H1]; rewrite H in H1; discriminate.
    + destruct (lexical_outcome x u c v HT) as [[e' [H1 _]]|H1]; rewrite H in H1; [discriminate|].
      destruct (name_defined c) as [[name En]|[En _]]; rewrite En in H1; discriminate.
Qed.

End Exact.
