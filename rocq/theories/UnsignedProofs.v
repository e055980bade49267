(** Proofs about the parser with an unsigned [char] (C93). *)

From Coq Require Import Ascii String NArith ZArith Bool List Lia.
From Verif Require Import Base StringUtil Values Match Rule Regular RegularProofs Arrays ParserTables Parser MachineRows
  Grammar GrammarCheck GrammarSpec GrammarProofs GrammarTexts TextSpec LocationProofs SafetyCheck ParserSpec SafetyProofs ParserSafety
  UnsignedChar UnsignedSpec.
Import ListNotations.

(** ** Transitions *)

Lemma small_same c : (N_of_ascii c < 128)%N -> uchar_to_int c = char_to_int c.
Proof. unfold uchar_to_int, char_to_int. intros H. destruct (Z.ltb_spec (Z.of_N (N_of_ascii c)) 128); lia. Qed.

Lemma interval_same c l : small_keys l = true -> find_interval (uchar_to_int c) l = find_interval (char_to_int c) l.
Proof.
  induction l as [|[[lo hi] t] l IH]; intros H; [reflexivity|]. cbn in H. apply andb_true_iff in H as [Hb H].
  apply andb_true_iff in Hb as [Hb Hhi]. apply andb_true_iff in Hb as [Hlo Hle]. apply Z.leb_le in Hlo, Hle, Hhi.
  cbn [find_interval]. rewrite IH by exact H.
  replace ((lo <=? uchar_to_int c) && (uchar_to_int c <=? hi))%Z with ((lo <=? char_to_int c) && (char_to_int c <=? hi))%Z; [reflexivity|].
  unfold uchar_to_int, char_to_int. apply eq_true_iff_eq. rewrite !andb_true_iff, !Z.leb_le.
  destruct (Z.ltb_spec (Z.of_N (N_of_ascii c)) 128); pose proof (byte_bound c); lia.
Qed.

Lemma small_app l l' : small_keys (l ++ l') = true -> small_keys l = true /\ small_keys l' = true.
Proof. unfold small_keys. rewrite forallb_app. apply andb_true_iff. Qed.

Lemma step_same cs c : (cs < N.of_nat state_count)%N -> machine_step_u cs c = machine_step cs c.
Proof.
  intros H. pose proof (row_is cs H) as HR. unfold row_of in HR.
  destruct (intervals_of cs) as [iv| | |] eqn:Ei; try discriminate. cbn [obind] in HR.
  destruct (ascending (iv_singles iv) && ascending (iv_ranges iv) && small_keys (iv_singles iv ++ iv_ranges iv)) eqn:Ea; [|discriminate].
  apply andb_true_iff in Ea as [Ea Hs]. apply andb_true_iff in Ea as [Ha Hr]. apply small_app in Hs as [S1 S2].
  unfold machine_step_u, machine_step. rewrite !(find_trans_intervals cs iv _ Ei Ha Hr).
  now rewrite (interval_same c _ S1), (interval_same c _ S2).
Qed.

(** ** Names *)

Lemma name_low c : (N_of_ascii c < 128)%N -> CharName_u c = CharName c.
Proof. intros H. unfold CharName_u, CharName. now rewrite (small_same c H). Qed.

Lemma name_high c : (128 <= N_of_ascii c)%N -> CharName_u c = Ok (s "[ascii: " ++ decimal (N_of_ascii c) ++ s "]").
Proof.
  destruct c as [[] [] [] [] [] [] [] []]; cbn -[decimal]; intros H; try (exfalso; apply H; reflexivity);
    cbv [CharName_u uchar_to_int isprint obind decimal_Z]; cbn -[decimal]; reflexivity.
Qed.

Lemma name_undefined c : (128 <= N_of_ascii c < 255)%N -> CharName c = UB BadCtypeArgument.
Proof.
  intros H. destruct (name_defined c) as [[name En]|[E _]]; [|exact E]. exfalso. revert H En.
  destruct c as [[] [] [] [] [] [] [] []]; cbn -[decimal]; intros H; try (exfalso; lia); cbv; discriminate.
Qed.

Section Running.

Variable E : engine.
Variable input : str.

Lemma not_unexpected u r : ~ complaint input u (s "Unexpected character '" ++ r).
Proof.
  intros H. remember (s "Unexpected character '" ++ r) as m eqn:Em. destruct H as [loc a d rx error _ _ _|loc a name expected _ _ _|loc msg Hm _].
  - discriminate.
  - discriminate.
  - cbn in Hm. destruct Hm as [<-|[<-|[<-|[]]]]; discriminate.
Qed.

Lemma throw_same {A} p P st : fine (T := A) input p P (throw_unexpected input st) -> throw_unexpected_u input st = @throw_unexpected input A st.
Proof.
  unfold throw_unexpected, throw_unexpected_u. destruct (Nat.eqb _ _); [reflexivity|]. destruct (nth_error _ _) as [c|]; [|reflexivity].
  destruct (CharName c) as [n|e|u|] eqn:En; cbn [obind fine].
  - rewrite <- app_assoc. intros H. now apply not_unexpected in H.
  - destruct (name_defined c) as [[n' En']|[En' _]]; congruence.
  - contradiction.
  - contradiction.
Qed.

Lemma action_same a p P st : (a < 88)%N -> fine input p P (run_action E input a st) -> run_action_u E input a st = run_action E input a st.
Proof.
  intros Ha.
  assert (HP : forall st', fine input p P (pop_rule input st') -> pop_rule_u input st' = pop_rule input st').
  { intros st'. unfold pop_rule, pop_rule_u. destruct (ps_stacks st') as [|[|r [|r' t]] [|[|w0 w] rest]]; try reflexivity; apply throw_same. }
  destruct (N.eq_dec a 83) as [->|H83]; [apply HP|].
  destruct (N.eq_dec a 85) as [->|H85].
  { change (run_action E input 85 st) with (let! st1 := tk_stop input st in let! st2 := validate_close_tag_or_throw input st1 (ps_tok st1) in pop_rule input st2).
    change (run_action_u E input 85 st) with (let! st1 := tk_stop input st in let! st2 := validate_close_tag_or_throw input st1 (ps_tok st1) in pop_rule_u input st2).
    destruct (tk_stop input st) as [st1| | |]; try reflexivity. cbn [obind].
    destruct (validate_close_tag_or_throw input st1 (ps_tok st1)) as [st2| | |]; try reflexivity. cbn [obind]. apply HP. }
  destruct (N.eq_dec a 87) as [->|H87].
  { change (run_action E input 87 st) with (pop_nested input st). change (run_action_u E input 87 st) with (pop_nested_u input st).
    unfold pop_nested, pop_nested_u.
    destruct (ps_stacks st) as [|[|? ?] [|[|? [|? ?]] [|[|? ?] ?]]]; try reflexivity; apply throw_same. }
  intros _. destruct a as [|q]; [reflexivity|].
  do 7 (try destruct q as [q|q|]); try reflexivity; exfalso; first [now apply H83|now apply H85|now apply H87|discriminate Ha].
Qed.

Lemma actions_same l : forall A A' st, conc input A st -> abs_actions l A = Some A' ->
  run_actions_u E input l st = run_actions E input l st.
Proof.
  induction l as [|a l IH]; intros A A' st HA H; [reflexivity|]. cbn [abs_actions] in H.
  destruct (N.ltb_spec a 88) as [Ha|]; [|discriminate]. destruct (abs_action a A) as [A1|] eqn:E1; [|discriminate].
  pose proof (action_fine E input a A A1 st Ha HA E1) as HF. cbn [run_actions run_actions_u].
  rewrite (action_same a _ _ st Ha HF). destruct (run_action E input a st) as [st1| | |]; try reflexivity.
  cbn [obind]. cbn in HF. destruct HF as [K1 _]. eapply IH; eauto.
Qed.

Lemma eof_actions_unsigned l : forallb is_eof_action l = true -> forall st, run_eof_actions_u E input l st = run_actions_u E input l st.
Proof.
  induction l as [|a l IH]; intros H st; [reflexivity|]. cbn [forallb] in H. apply andb_true_iff in H as [Ha H].
  cbn [run_eof_actions_u run_actions_u]. replace (run_eof_action_u E input a st) with (run_action_u E input a st).
  - destruct (run_action_u E input a st); try reflexivity. cbn [obind]. now apply IH.
  - revert Ha. unfold is_eof_action. intros Ha. destruct a as [|q]; [discriminate|].
    do 7 (try destruct q as [q|q|]); try reflexivity; discriminate.
Qed.

Lemma fine_no_ub {T} p (P : T -> Prop) o u : fine input p P o -> o <> UB u.
Proof. intros H ->. exact H. Qed.

Lemma exec_unsigned rest : forall u cs st tr, input = u ++ rest -> length u = ps_p st -> walk hext_start u = Some (tr, cs) ->
  conc input (at_state cs) st -> with_unsigned input (exec E input rest cs st) (exec_u E input rest cs st).
Proof.
  induction rest as [|c rest IH]; intros u cs st tr Hx Hu Hw HA.
  - pose proof (walk_state lG cG acts_union check_G u _ _ _ start_state Hw) as Hq. pose proof (checked_state cs Hq) as HS.
    unfold safe_state in HS. apply andb_true_iff in HS as [_ HS]. cbn [exec exec_u].
    rewrite app_nil_r in Hx. subst u. destruct (machine_eof cs) as [acts| | |]; try discriminate. cbn [obind].
    apply orb_true_iff in HS as [HS|HS].
    + apply andb_true_iff in HS as [HS _]. apply thread_eqb_eq in HS as ->.
      cbn [run_eof_actions run_eof_action run_eof_actions_u run_eof_action_u].
      change (run_action E input 88 st) with (@throw_unexpected input pstate st).
      change (run_action_u E input 88 st) with (@throw_unexpected_u input pstate st).
      unfold throw_unexpected, throw_unexpected_u. rewrite <- Hu, Nat.eqb_refl. cbn [obind]. apply no_difference. discriminate.
    + apply andb_true_iff in HS as [HE HS]. rewrite eof_actions_same, eof_actions_unsigned by exact HE.
      destruct (abs_actions acts (at_state cs)) as [A'|] eqn:EA; [|discriminate].
      rewrite (actions_same acts _ _ st HA EA). apply no_difference. intros ub.
      eapply fine_no_ub, (actions_fine E input acts _ _ st HA EA).
  - pose proof (walk_state lG cG acts_union check_G u _ _ _ start_state Hw) as Hq. pose proof (checked_state cs Hq) as HS.
    unfold safe_state in HS. apply andb_true_iff in HS as [HS _].
    destruct (row_step cs c (proj1 Hq)) as [e [He [Hm [Hto Es]]]].
    pose proof (proj1 (forallb_forall _ _) HS e He) as HE. unfold safe_entry in HE. apply orb_true_iff in HE as [HE|HE].
    { apply N.eqb_eq in HE. rewrite HE, has_0 in Hm. discriminate. }
    cbn [exec exec_u]. rewrite (step_same cs c (proj1 Hq)), Es. cbn [obind].
    assert (Hc : nth_error input (ps_p st) = Some c).
    { rewrite Hx, <- Hu, nth_error_app2, Nat.sub_diag by lia. reflexivity. }
    assert (Hpre : prefix_of G u) by (apply G_consumed; eauto).
    assert (Hfu : firstn (ps_p st) input = u) by (rewrite Hx, <- Hu, firstn_app, Nat.sub_diag, firstn_O, app_nil_r; apply firstn_all).
    assert (Hsu : skipn (ps_p st) input = c :: rest) by (rewrite Hx, <- Hu, skipn_app, Nat.sub_diag, skipn_all; reflexivity).
    destruct (N.eqb_spec (e_to e) hext_error) as [Et|Et].
    + apply andb_true_iff in HE as [HE Hnl]. apply thread_eqb_eq in HE. rewrite HE.
      assert (Hlex : lexical_error input u c rest).
      { split; [exact Hx|]. split; [exact Hpre|]. intros HG. destruct (proj1 (G_step u tr cs c Hw) HG) as [q' [acts' [Es' [Hne _]]]].
        rewrite Es in Es'. apply ok_inj in Es'. injection Es' as E1 _. congruence. }
      cbn [run_actions run_actions_u]. change (run_action E input 88 st) with (@throw_unexpected input pstate st).
      change (run_action_u E input 88 st) with (@throw_unexpected_u input pstate st).
      unfold throw_unexpected, throw_unexpected_u. assert (Hlt : ps_p st < length input) by (apply nth_error_Some; congruence).
      destruct (Nat.eqb_spec (ps_p st) (length input)); [lia|]. rewrite Hc.
      destruct (N.ltb_spec (N_of_ascii c) 128) as [Hlow|Hhigh].
      { rewrite (name_low c Hlow). destruct (name_defined c) as [[name En]|[_ Hh]]; [|lia]. rewrite En. cbn [obind].
        apply no_difference. discriminate. }
      destruct (location_here input (ps_p st) 1) as [before [line [HL HM]]]; [lia|lia| |].
      { intros Hn. rewrite Hc in Hn. injection Hn as ->. cbn in Hhigh. exfalso. now apply Hhigh. }
      rewrite Hfu in HL. rewrite Hsu in HM. rewrite (name_high c Hhigh). cbn [obind].
      assert (HT : forall d, (s "Unexpected character '" ++ (s "[ascii: " ++ d ++ s "]") ++ s "' ") ++ print_error_location input (ps_p st) 1 =
        unexpected_text d (print_error_location input (ps_p st) 1)).
      { intros d. unfold unexpected_text. rewrite <- !app_assoc. reflexivity. }
      rewrite HT. destruct (N.ltb_spec (N_of_ascii c) 255) as [Hlt255|H255].
      * rewrite (name_undefined c) by lia. cbn [obind].
        eapply high_byte; [exact Hlex|lia|apply (proj1 (decimal_exact (N_of_ascii c)))|exact HL|exact HM].
      * assert (c = "255"%char) as ->.
        { pose proof (byte_bound c). rewrite <- (ascii_N_embedding c). replace (N_of_ascii c) with 255%N by lia. reflexivity. }
        change (CharName "255") with (Ok (A := str) (s "[ascii: " ++ s "-1" ++ s "]")). cbn [obind]. rewrite HT.
        change (decimal (N_of_ascii "255")) with (s "255").
        eapply last_byte; eauto.
    + destruct (abs_actions (e_acts e) (at_state cs)) as [A1|] eqn:EA; [|discriminate].
      rewrite (actions_same (e_acts e) _ _ st HA EA).
      pose proof (actions_fine E input (e_acts e) _ _ st HA EA) as HF.
      destruct (run_actions E input (e_acts e) st) as [st1|ex|ub|]; cbn [obind]; [|apply no_difference; discriminate|destruct HF|destruct HF].
      destruct HF as [K1 K2].
      assert (Hw' : walk hext_start (u ++ [c]) = Some (tr ++ [e_acts e], e_to e)).
      { apply walk_app. exists tr, cs, [e_acts e]. split; [exact Hw|]. split; [|reflexivity]. cbn. rewrite Es.
        destruct (N.eqb_spec (e_to e) hext_error); [contradiction|reflexivity]. }
      eapply (IH (u ++ [c])); [rewrite <- app_assoc; exact Hx|cbn; rewrite app_length, K2; cbn; lia|exact Hw'|].
      eapply conc_le; [exact HE|]. apply (conc_char _ _ _ _ c); [exact K1|now rewrite K2|exact Hm].
Qed.

End Running.

(** ** ParseHext *)

Theorem parse_unsigned E x : with_unsigned x (ParseHext E x) (ParseHext_u E x).
Proof.
  unfold ParseHext, ParseHext_u, parse, parse_u. set (st0 := mk_ps [[]; []] 0 None [] pv_initial).
  assert (H0 : conc x (at_state hext_start) st0).
  { apply (conc_le x abs_initial); [vm_compute; reflexivity|]. split; cbn; auto; try discriminate; try lia. }
  pose proof (exec_unsigned E x x [] hext_start st0 [] eq_refl eq_refl eq_refl H0) as HX.
  pose proof (parse_spec E x) as HP. unfold ParseHext, parse in HP. fold st0 in HP.
  remember (exec E x x hext_start st0) as a eqn:Ea. remember (exec_u E x x hext_start st0) as b eqn:Eb'. clear Ea Eb'.
  destruct HX as [o Ho|u c v d before line loc HL Hc Hd Hl HM|u v before line loc HL Hl HM]; cbn [obind].
  - apply no_difference. intros ub Eb. rewrite Eb in HP. inversion HP; subst.
    destruct o as [st|e|ub|]; try discriminate; [|now apply (Ho ub)].
    cbn [obind] in Eb. revert Eb. unfold finish, throw_error_message, throw_missing_tag, p_minus_1.
    repeat (match goal with |- context [match ?y with _ => _ end] => destruct y; cbn [obind] end; try discriminate).
  - eapply high_byte; eauto.
  - eapply last_byte; eauto.
Qed.

Lemma unsigned_total E x : (exists r, ParseHext_u E x = Ok r) \/ (exists e, ParseHext_u E x = Throw e).
Proof.
  pose proof (parse_unsigned E x) as H. destruct (parse_total E x) as [[r Hr]|[[e He]|[Hu _]]].
  - rewrite Hr in H. inversion H; subst; eauto.
  - rewrite He in H. inversion H; subst; eauto.
  - rewrite Hu in H. inversion H as [o Ho| |]; eauto. exfalso. now apply (Ho BadCtypeArgument).
Qed.

Lemma unsigned_accepts E x r : ParseHext_u E x = Ok r <-> ParseHext E x = Ok r.
Proof.
  pose proof (parse_unsigned E x) as H. split; intros HO; rewrite HO in H; inversion H; reflexivity.
Qed.

Lemma unsigned_ascii E x : (forall c, In c x -> (N_of_ascii c < 128)%N) -> ParseHext_u E x = ParseHext E x.
Proof.
  intros HA. pose proof (parse_unsigned E x) as H. inversion H as [o Ho E1 E2|u c v d before line loc [Ex _] Hc|u v before line loc [Ex _]]; [reflexivity| |].
  - exfalso. specialize (HA c). rewrite Ex in HA. assert (N_of_ascii c < 128)%N; [|lia]. apply HA, in_or_app. right. now left.
  - exfalso. specialize (HA "255"%char). rewrite Ex in HA. assert (N_of_ascii "255" < 128)%N; [|discriminate]. apply HA, in_or_app. right. now left.
Qed.

Lemma messages_differ : exists x m m', m <> m' /\
  (forall E, ParseHext E x = Throw (SyntaxError m)) /\ (forall E, ParseHext_u E x = Throw (SyntaxError m')).
Proof.
  exists ["255"%char]. eexists. eexists. split; [|split; intros E; vm_compute; reflexivity]. intros H. discriminate H.
Qed.
