(** The outcomes of ParseHext. *)

From Coq Require Import Ascii String NArith ZArith Bool List Lia.
From Verif Require Import Base StringUtil Values Match Rule Regular RegularProofs Arrays ParserTables Parser MachineRows
  Grammar GrammarCheck GrammarSpec GrammarProofs GrammarTexts TextSpec LocationProofs SafetyCheck ParserSpec SafetyProofs.
Import ListNotations.

(** ** The error action is not part of the grammar *)

Fixpoint actions_of (r : re) : list N :=
  match r with
  | Eps | Sym _ => []
  | Act a => [a]
  | Cat r r' | Alt r r' => actions_of r ++ actions_of r'
  | Star r | Plus r => actions_of r
  end.

Lemma marks_app u v : marks (u ++ v) = marks u ++ marks v.
Proof. apply flat_map_app. Qed.

Lemma marks_actions r w : L r w -> incl (marks w) (actions_of r).
Proof.
  induction 1; cbn [actions_of]; rewrite ?marks_app; try apply incl_nil_l.
  - apply incl_refl.
  - apply incl_app; [now apply incl_appl|now apply incl_appr].
  - now apply incl_appl.
  - now apply incl_appr.
  - apply incl_app; auto.
  - apply incl_app; auto.
Qed.

Lemma last_marks_marks w : incl (last_marks w) (marks w).
Proof.
  induction w as [|[a|c] w IH]; cbn; [apply incl_refl| |exact IH].
  destruct (existsb _ w); [now apply incl_tl|]. intros b [<-|H]; [now left|right; now apply IH].
Qed.

Lemma no_error_action x : ~ embeds_after G x 88.
Proof.
  intros [w [Hw [_ Ha]]]. apply last_marks_marks, (marks_actions G w Hw) in Ha.
  assert (X : existsb (N.eqb 88) (actions_of G) = true) by (apply existsb_exists; exists 88%N; split; [exact Ha|reflexivity]).
  vm_compute in X. discriminate.
Qed.

(** ** Characters *)

Lemma subset_spec m m' c : subset m m' = true -> has m c = true -> has m' c = true.
Proof. apply subset_of. Qed.

Lemma has_digit c : has m_digit c = true -> is_digit c.
Proof. unfold m_digit, is_digit. rewrite has_range by lia. intros H. apply andb_true_iff in H as [H1 H2]. apply N.leb_le in H1, H2. lia. Qed.

Lemma has_sign c : has m_sign c = true -> c = "+"%char \/ c = "-"%char.
Proof.
  unfold m_sign. rewrite has_lor, !has_cls. intros H. apply orb_true_iff in H as [H|H]; apply Ascii.eqb_eq in H; auto.
Qed.

Lemma has_one d c : has (cls d) c = true -> c = d.
Proof. rewrite has_cls. intros H. now apply Ascii.eqb_eq in H. Qed.

Lemma has_delim c : has m_delim c = true -> In c ["/"; "'"; quote]%char.
Proof.
  unfold m_delim. rewrite !has_lor. intros H. apply orb_true_iff in H as [H|H]; [|apply orb_true_iff in H as [H|H]];
    apply has_one in H; subst; cbn; auto.
Qed.

Lemma name_spec c name : CharName c = Ok name -> character_name c name.
Proof.
  destruct c as [[] [] [] [] [] [] [] []]; cbv [CharName isprint char_to_int obind] in *; cbn -[decimal decimal_Z] in *;
    intros H; try discriminate H; injection H as <-;
    try (apply name_newline || apply name_tab || apply name_return || apply name_space || apply name_null || exact name_last);
    try (apply name_printable; cbn; lia);
    match goal with |- character_name ?c _ =>
      refine (name_control c (decimal (N_of_ascii c)) _ _ (proj1 (decimal_exact (N_of_ascii c))));
        [cbn; lia|cbn; intuition discriminate] end.
Qed.

Lemma name_defined c : (exists name, CharName c = Ok name) \/ (CharName c = UB BadCtypeArgument /\ (128 <= N_of_ascii c < 255)%N).
Proof.
  destruct c as [[] [] [] [] [] [] [] []]; cbv [CharName isprint char_to_int obind]; cbn -[decimal decimal_Z];
    (left; eexists; reflexivity) || (right; split; [reflexivity|lia]).
Qed.

Section Running.

Variable E : engine.
Variable input : str.

Lemma actions_fine l : forall A A' st, conc input A st -> abs_actions l A = Some A' ->
  fine input (ps_p st) (kept input A' st) (run_actions E input l st).
Proof.
  induction l as [|a l IH]; intros A A' st HA H; cbn in *.
  - injection H as <-. split; auto.
  - destruct (N.ltb_spec a 88); [|discriminate]. destruct (abs_action a A) as [A1|] eqn:E1; [|discriminate].
    eapply fine_bind; [eapply action_fine; eauto|]. intros st1 [H1 H2]. rewrite <- H2.
    eapply fine_mono; [|eapply IH; eauto]. intros st2 [K1 K2]. split; [exact K1|congruence].
Qed.

Lemma eof_actions_same l : forallb is_eof_action l = true -> forall st, run_eof_actions E input l st = run_actions E input l st.
Proof.
  induction l as [|a l IH]; intros H st; [reflexivity|]. apply andb_true_iff in H as [Ha H]. cbn [run_eof_actions run_actions].
  assert (HE : run_eof_action E input a st = run_action E input a st).
  { unfold is_eof_action in Ha. apply existsb_exists in Ha as [b [Hb Eb]]. apply N.eqb_eq in Eb as ->.
    cbn in Hb. destruct Hb as [<-|[<-|[<-|[]]]]; reflexivity. }
  rewrite HE. destruct (run_action E input a st); cbn; auto.
Qed.

Lemma conc_char A st m c : conc input A st -> nth_error input (ps_p st) = Some c -> has m c = true ->
  conc input (abs_char m A) (with_p st (S (ps_p st))).
Proof.
  intros [H1 H2 H3 H4 H5 H6 H7 L1 L2 L3 L4 L5 H8 H9 H10] Hc Hm.
  split; cbn [abs_char a_open a_tok a_rx a_neg a_pos a_nl a_num a_ctx x_lt x_close x_delim x_tag x_regex with_p ps_stacks ps_p ps_tok_begin ps_pv]; auto.
  - lia.
  - intros Hn. exists (ps_p st), c. repeat split; auto. intros ->. apply negb_true_iff in Hn. change (has m newline = false) in Hn. congruence.
  - assert (HS : forall b, ps_tok_begin st = Some b -> slice input b (S (ps_p st)) = slice input b (ps_p st) ++ [c]).
    { intros b Hb. apply slice_next; auto. }
    revert H7. destruct (a_num A); intros H7; [exact I| | | |]; destruct H7 as [b [Hb Hf]]; specialize (HS b Hb).
    + cbn [number_form] in Hf. rewrite Hf in HS. cbn [app] in HS. destruct (subset m m_digit) eqn:Ed; [|destruct (subset m m_sign) eqn:Es]; exists b; (split; [exact Hb|]); rewrite HS.
      * exists [], [c]. repeat split; [now left|discriminate|]. constructor; [|constructor]. apply has_digit. now apply (subset_spec m).
      * cbn. destruct (has_sign c (subset_spec m m_sign c Es Hm)) as [->| ->]; auto.
      * discriminate.
    + destruct (subset m m_digit) eqn:Ed; exists b; (split; [exact Hb|]); rewrite HS.
      * exists (slice input b (ps_p st)), [c]. repeat split; [now right|discriminate|]. constructor; [|constructor]. apply has_digit. now apply (subset_spec m).
      * intros X. apply app_eq_nil in X as [_ X]. discriminate.
    + destruct (subset m m_digit) eqn:Ed; exists b; (split; [exact Hb|]); rewrite HS.
      * destruct Hf as [sg [ds [-> [Hs [Hne Hd]]]]]. exists sg, (ds ++ [c]). rewrite <- app_assoc. repeat split; auto.
        -- intros X. apply app_eq_nil in X as [_ X]. discriminate.
        -- apply Forall_app. split; [exact Hd|]. constructor; [|constructor]. apply has_digit. now apply (subset_spec m).
      * intros X. apply app_eq_nil in X as [_ X]. discriminate.
    + exists b. split; [exact Hb|]. rewrite HS. intros X. apply app_eq_nil in X as [_ X]. discriminate.
  - intros Hs. exists (ps_p st). split; [reflexivity|]. now rewrite Hc, (has_one "<" c (subset_spec _ _ _ Hs Hm)).
  - intros Hs. apply andb_true_iff in Hs as [Hs Hl]. destruct (L1 Hl) as [k [E1 E2]]. exists k. rewrite E1 in *. split; [reflexivity|].
    split; [exact E2|]. now rewrite Hc, (has_one "/" c (subset_spec _ _ _ Hs Hm)).
  - intros Hs. exists (ps_p st), c. split; [reflexivity|]. split; [exact Hc|]. apply has_delim. now apply (subset_spec m).
  - apply nth_error_Some. congruence.
Qed.

Lemma checked_state q : state q -> safe_state q = true.
Proof.
  intros [H H0]. pose proof (proj1 (forallb_forall _ _) safe_all_states q (below_spec _ _ H)) as X. cbn beta in X.
  apply orb_true_iff in X as [X|X]; [|exact X]. now apply N.eqb_eq in X.
Qed.

(** The position where the text stops. *)
Lemma location_here k mark : k <= length input ->
  (k = length input -> 1 <= k) -> (nth_error input k = Some newline -> 1 <= k) ->
  exists before line, last_line (firstn k input) before line /\
    location_message before line (skipn k input) mark (print_error_location input k mark).
Proof.
  intros Hk H1 H2. destruct (last_line_exists (firstn k input)) as [before [line HL]]. exists before, line. split; [exact HL|].
  pose proof HL as [E1 _]. rewrite E1 in HL. assert (Hx : input = before ++ line ++ skipn k input).
  { rewrite app_assoc, <- E1. symmetry. apply firstn_skipn. }
  assert (HM : location_message before line (skipn k input) mark (print_error_location (before ++ line ++ skipn k input) (length (before ++ line)) mark)).
  { apply print_error_location_spec; [exact HL|]. intros X. rewrite app_assoc in X. apply app_eq_nil in X as [X1 X2].
    assert (Hk0 : k = 0).
    { rewrite X1 in E1. assert (HH : length (firstn k input) = 0) by now rewrite E1. rewrite firstn_length in HH. lia. }
    subst k. cbn [skipn] in X2. destruct input as [|c x]; [specialize (H1 eq_refl); lia|]. cbn in X2.
    destruct (ascii_dec c TextSpec.newline) as [->|]; [specialize (H2 eq_refl); lia|discriminate]. }
  rewrite <- Hx in HM. rewrite <- E1, firstn_length, Nat.min_l in HM by lia. exact HM.
Qed.

(** What [exec] leads to. *)
Definition exec_outcome (o : outcome pstate) : Prop :=
  match o with
  | Ok st => text_of G input /\ shape (ps_stacks st) /\ ps_p st = length input
  | _ => parse_outcome input o
  end.

Lemma fine_outcome {T} p (P : T -> Prop) (o : outcome T) (f : T -> outcome pstate) : fine input p P o -> prefix_of G (firstn p input) ->
  (forall x, P x -> exec_outcome (f x)) -> exec_outcome (obind o f).
Proof.
  intros HF HG Hf. destruct o as [x|e|u|]; cbn in *; [now apply Hf| |contradiction|contradiction].
  destruct e; try contradiction.
  - eapply complained; [symmetry; apply (firstn_skipn p)|exact HG|exact HF].
  - now apply number_too_big.
Qed.

Lemma exec_spec rest : forall u cs st tr, input = u ++ rest -> length u = ps_p st -> walk hext_start u = Some (tr, cs) ->
  conc input (at_state cs) st -> exec_outcome (exec E input rest cs st).
Proof.
  induction rest as [|c rest IH]; intros u cs st tr Hx Hu Hw HA.
  - pose proof (walk_state lG cG acts_union check_G u _ _ _ start_state Hw) as Hq. pose proof (checked_state cs Hq) as HS.
    unfold safe_state in HS. apply andb_true_iff in HS as [_ HS]. cbn [exec].
    rewrite app_nil_r in Hx. subst u. destruct (machine_eof cs) as [acts| | |] eqn:Ee; try discriminate. cbn [obind].
    destruct (G_end _ _ _ Hw) as [HT HN].
    assert (Hcase : text_of G input \/ ~ text_of G input /\ acts = [88%N]).
    { (* decidable from the machine *)
      destruct (machine_end lG cG acts_union check_G cs Hq) as [acts' [Ee' Hp]].
      pose proof (parts_after lG cG acts_union lG_ok check_G start_G star_G input tr cs Hw) as HP. rewrite erase_lG in HP.
      rewrite Ee in Ee'. apply ok_inj in Ee' as <-. destruct Hp as [[-> Hno]|[[t [l [Ht Hl]]] _]].
      - right. split; [|reflexivity]. intros [w [Hw1 Hc]]. destruct (proj2 (HP (last_marks w))) as [t [Ht Hl]]; [eauto|]. now apply (Hno t (last_marks w)).
      - left. destruct (proj1 (HP l)) as [w [Hw1 [Hc _]]]; [eauto|]. exists w. auto. }
    assert (Hpre : prefix_of G input) by (apply G_consumed; eauto).
    destruct Hcase as [HG|[HG ->]].
    + destruct (HT HG) as [acts' [Ee' [_ Hin]]]. rewrite Ee in Ee'. apply ok_inj in Ee' as <-.
      apply orb_true_iff in HS as [HS|HS].
      { apply andb_true_iff in HS as [HS _]. apply thread_eqb_eq in HS as ->.
        exfalso. apply (no_error_action input). apply Hin. now left. }
      apply andb_true_iff in HS as [HE HS]. rewrite eof_actions_same by exact HE.
      destruct (abs_actions acts (at_state cs)) as [A'|] eqn:EA; [|discriminate].
      pose proof (actions_fine acts _ _ st HA EA) as HF.
      replace (run_actions E input acts st) with (obind (run_actions E input acts st) Ok) by (destruct (run_actions E input acts st); reflexivity).
      eapply fine_outcome; [exact HF| |].
      * rewrite <- Hu, firstn_all. exact Hpre.
      * intros st1 [K1 K2]. cbn. split; [exact HG|]. split; [apply (c_shape _ _ _ K1)|congruence].
    + cbn [run_eof_actions run_eof_action]. change (run_action E input 88 st) with (@throw_unexpected input pstate st).
      unfold throw_unexpected. rewrite <- Hu, Nat.eqb_refl. cbn [obind exec_outcome].
      apply orb_true_iff in HS as [HS|HS]; [|discriminate].
      apply andb_true_iff in HS as [_ HS]. pose proof (c_pos _ _ _ HA HS) as Hp.
      destruct (location_here (length input) 1) as [before [line [HL HM]]]; [lia|lia|lia|].
      rewrite firstn_all in HL. rewrite skipn_all in HM.
      eapply premature; [split; [exact Hpre|exact HG]|exact HL|exact HM].
  - pose proof (walk_state lG cG acts_union check_G u _ _ _ start_state Hw) as Hq. pose proof (checked_state cs Hq) as HS.
    unfold safe_state in HS. apply andb_true_iff in HS as [HS _].
    destruct (row_step cs c (proj1 Hq)) as [e [He [Hm [Hto Es]]]].
    pose proof (proj1 (forallb_forall _ _) HS e He) as HE. unfold safe_entry in HE. apply orb_true_iff in HE as [HE|HE].
    { apply N.eqb_eq in HE. rewrite HE, has_0 in Hm. discriminate. }
    cbn [exec]. rewrite Es. cbn [obind].
    assert (Hc : nth_error input (ps_p st) = Some c).
    { rewrite Hx, <- Hu, nth_error_app2, Nat.sub_diag by lia. reflexivity. }
    assert (Hpre : prefix_of G u) by (apply G_consumed; eauto).
    assert (Hfu : firstn (ps_p st) input = u) by (rewrite Hx, <- Hu, firstn_app, Nat.sub_diag, firstn_O, app_nil_r; apply firstn_all).
    assert (Hsu : skipn (ps_p st) input = c :: rest) by (rewrite Hx, <- Hu, skipn_app, Nat.sub_diag, skipn_all; reflexivity).
    destruct (N.eqb_spec (e_to e) hext_error) as [Et|Et].
    + apply andb_true_iff in HE as [HE Hnl]. apply thread_eqb_eq in HE. rewrite HE.
      assert (Hlex : lexical_error input u c rest).
      { split; [exact Hx|]. split; [exact Hpre|]. intros HG. destruct (proj1 (G_step u tr cs c Hw) HG) as [q' [acts' [Es' [Hne _]]]].
        rewrite Es in Es'. apply ok_inj in Es'. injection Es' as E1 _. congruence. }
      cbn [run_actions]. change (run_action E input 88 st) with (@throw_unexpected input pstate st).
      unfold throw_unexpected. assert (Hlt : ps_p st < length input) by (apply nth_error_Some; congruence).
      destruct (Nat.eqb_spec (ps_p st) (length input)); [lia|]. rewrite Hc.
      destruct (name_defined c) as [[name En]|[En Hhigh]]; rewrite En; cbn [obind exec_outcome].
      * destruct (location_here (ps_p st) 1) as [before [line [HL HM]]]; [lia|lia| |].
        { intros Hn. rewrite Hc in Hn. injection Hn as ->. apply orb_true_iff in Hnl as [Hnl|Hnl]; [now apply (c_pos _ _ _ HA)|].
          apply negb_true_iff in Hnl. change (has (e_mask e) newline = false) in Hnl. congruence. }
        rewrite Hfu in HL. rewrite Hsu in HM.
        match goal with |- parse_outcome _ (Throw (SyntaxError ?m)) => replace m with (s "Unexpected character '" ++ name ++ s "' " ++ print_error_location input (ps_p st) 1) by now rewrite <- !app_assoc end.
        eapply unexpected; [exact Hlex|apply name_spec, En|exact HL|exact HM].
      * eapply unexpected_high; eauto.
    + destruct (abs_actions (e_acts e) (at_state cs)) as [A1|] eqn:EA; [|discriminate].
      eapply fine_outcome; [apply (actions_fine (e_acts e) _ _ st HA EA)|now rewrite Hfu|]. intros st1 [K1 K2].
      assert (Hw' : walk hext_start (u ++ [c]) = Some (tr ++ [e_acts e], e_to e)).
      { apply walk_app. exists tr, cs, [e_acts e]. split; [exact Hw|]. split; [|reflexivity]. cbn. rewrite Es.
        destruct (N.eqb_spec (e_to e) hext_error); [contradiction|reflexivity]. }
      eapply (IH (u ++ [c])); [rewrite <- app_assoc; exact Hx|cbn; rewrite app_length, K2; cbn; lia|exact Hw'|].
      eapply conc_le; [exact HE|]. apply (conc_char _ _ _ c); [exact K1|now rewrite K2|exact Hm].
Qed.

End Running.

(** ** ParseHext *)

Lemma outcome_throw {T U} x e : parse_outcome x (@Throw T e) -> parse_outcome x (@Throw U e).
Proof.
  intros H. inversion H; subst;
    [eapply complained|eapply unexpected|eapply premature|eapply unclosed|eapply missing_tag|eapply number_too_big]; eauto.
Qed.
Lemma outcome_ub {T U} x u : parse_outcome x (@UB T u) -> parse_outcome x (@UB U u).
Proof. intros H. inversion H; subst. eapply unexpected_high; eauto. Qed.

Theorem parse_spec E x : parse_outcome x (ParseHext E x).
Proof.
  unfold ParseHext, parse. set (st0 := mk_ps [[]; []] 0 None [] pv_initial).
  assert (H0 : conc x (at_state hext_start) st0).
  { apply (conc_le x abs_initial); [vm_compute; reflexivity|]. split; cbn; auto; try discriminate; try lia. }
  pose proof (exec_spec E x x [] hext_start st0 [] eq_refl eq_refl eq_refl H0) as HX.
  destruct (exec E x x hext_start st0) as [st|e|u|] eqn:Ex; cbn [obind exec_outcome] in *.
  2:{ exact (outcome_throw x e HX). }
  2:{ exact (outcome_ub x u HX). }
  2:{ inversion HX. }
  destruct HX as [HG [HS Hp]].
  assert (Hlen : 2 < length (ps_stacks st) \/ hd [] (ps_stacks st) <> [] -> x <> [] /\ x <> [newline]).
  { intros H. split; intros ->; vm_compute in Ex; injection Ex as <-; cbn in H; destruct H as [H|H]; try lia; now apply H. }
  unfold finish. destruct (ps_stacks st) as [|w rest] eqn:Es; [destruct HS|].
  destruct (Nat.ltb_spec 2 (length (w :: rest))) as [H2|H2].
  - unfold throw_error_message, p_minus_1. destruct Hlen as [Hx1 Hx2]; [now left|].
    destruct (ps_p st) as [|k]; [destruct x; [contradiction|discriminate]|]. cbn [obind].
    destruct (location_here x k 1) as [before [line [HL HM]]]; [lia|lia| |].
    { intros Hn. destruct k; [|lia]. destruct x as [|c [|]]; [discriminate| |discriminate]. cbn in Hn. injection Hn as ->. now exfalso. }
    assert (Hk : k < length x) by lia. destruct (nth_error x k) as [c|] eqn:Ec; [|apply nth_error_None in Ec; lia].
    assert (Hsk : skipn k x = [c]).
    { assert (HH : firstn (S k) x = x) by (rewrite Hp; apply firstn_all). rewrite (firstn_S_nth _ _ _ Ec) in HH.
      rewrite <- (firstn_skipn k x) in HH at 2. now apply app_inv_head in HH. }
    rewrite Hsk in HM. eapply (unclosed x (firstn k x) c); eauto. rewrite <- Hsk. symmetry. apply firstn_skipn.
  - destruct rest as [|r [|]]; [destruct HS| |cbn in H2; lia]. destruct HS as [HS _].
    destruct w as [|w0 w]; cbn [pop_empty].
    + destruct r as [|r0 [|]]; cbn; [now constructor|now constructor|cbn in HS; lia].
    + destruct Hlen as [Hx1 Hx2]; [right; discriminate|]. cbn [length]. cbn [Nat.ltb Nat.leb orb]. unfold throw_missing_tag.
      destruct (location_here x (length x) 0) as [before [line [HL HM]]]; [lia| | |].
      { intros _. destruct x; [contradiction|cbn; lia]. }
      { intros Hn. assert (X : length x < length x) by (apply nth_error_Some; congruence). lia. }
      rewrite firstn_all in HL. rewrite skipn_all in HM. eapply missing_tag; eauto.
Qed.

Theorem parse_total E x :
  (exists r, ParseHext E x = Ok r) \/ (exists e, ParseHext E x = Throw e) \/
  (ParseHext E x = UB BadCtypeArgument /\ exists u c v, lexical_error x u c v /\ (128 <= N_of_ascii c < 255)%N).
Proof. destruct (parse_spec E x); eauto 9. Qed.

Theorem parsed_text E x r : ParseHext E x = Ok r -> text_of G x.
Proof. intros H. pose proof (parse_spec E x) as HP. rewrite H in HP. now inversion HP. Qed.

Theorem parse_exceptions E x e : ParseHext E x = Throw e ->
  (exists m, e = SyntaxError m) \/ (e = StdOutOfRange /\ has_big_number x).
Proof. intros H. pose proof (parse_spec E x) as HP. rewrite H in HP. inversion HP; subst; eauto. Qed.

Theorem parse_defined E x : (forall c, In c x -> (N_of_ascii c < 128)%N) ->
  (exists r, ParseHext E x = Ok r) \/ (exists e, ParseHext E x = Throw e).
Proof.
  intros H. destruct (parse_total E x) as [H1|[H1|[_ [u [c [v [[-> _] Hc]]]]]]]; auto.
  specialize (H c). rewrite in_app_iff in H. cbn in H. assert (N_of_ascii c < 128)%N by auto. lia.
Qed.
