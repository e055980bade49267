(** No assertion of the parser fails. *)

From Coq Require Import Ascii String NArith ZArith Bool List Lia.
From Verif Require Import Base StringUtil Tags Values Match Rule Regular RegularProofs Arrays ParserTables Parser MachineRows
  Grammar GrammarCheck GrammarSpec GrammarProofs GrammarTexts TextSpec LocationProofs SafetyCheck ParserSpec SafetyProofs
  ParserSafety AssertCheck Asserts.
Import ListNotations.

(** ** PatternValues *)

Definition nulls_hold (A : nulls) (v : pvals) : Prop :=
  (n_pipe A = true -> pv_pipe v = None) /\ (n_test A = true -> pv_test v = None) /\
  (n_trait A = true -> pv_trait v = None) /\ (n_negate A = true -> pv_negate v = None).

Lemma nulls_le A B v : null_le A B = true -> nulls_hold A v -> nulls_hold B v.
Proof.
  unfold null_le, nulls_hold. intros H (H1 & H2 & H3 & H4). repeat (apply andb_true_iff in H; destruct H as [H ?]).
  repeat split; intros X; rewrite X in *; cbn in *; auto.
Qed.

(** ** Rules with a custom tag have its name *)

Definition named (r : rule) : Prop := r_tag r = TAG_UNKNOWN -> r_tagname r <> None.
Definition all_named (l : list (list rule)) : Prop := Forall (Forall named) l.

Lemma tag_append_child r x : r_tag (append_child r x) = r_tag r /\ r_tagname (append_child r x) = r_tagname r.
Proof. destruct r as [[c|] n ne m ca t o g tn]; auto. Qed.
Lemma tag_append_next r x : r_tag (append_next r x) = r_tag r /\ r_tagname (append_next r x) = r_tagname r.
Proof. destruct r as [c [n|] ne m ca t o g tn]; auto. Qed.
Lemma tag_append_nested r x : r_tag (append_nested r x) = r_tag r /\ r_tagname (append_nested r x) = r_tagname r.
Proof. destruct r; auto. Qed.
Lemma tag_append_match r x : r_tag (append_match r x) = r_tag r /\ r_tagname (append_match r x) = r_tagname r.
Proof. destruct r; auto. Qed.
Lemma tag_append_capture r x : r_tag (append_capture r x) = r_tag r /\ r_tagname (append_capture r x) = r_tagname r.
Proof. destruct r; auto. Qed.

Lemma named_same r r' : r_tag r' = r_tag r /\ r_tagname r' = r_tagname r -> named r -> named r'.
Proof. unfold named. intros [-> ->]. auto. Qed.

Lemma update_named st f st' : (forall r, named r -> named (f r)) -> update_cur_rule st f = Ok st' -> all_named (ps_stacks st) ->
  all_named (ps_stacks st') /\ ps_pv st' = ps_pv st.
Proof.
  unfold update_cur_rule, all_named. intros Hf. destruct (ps_stacks st) as [|[|r t] rest] eqn:Es; try discriminate.
  intros H HN. injection H as <-. cbn. inversion HN as [|? ? H1 H2]; subst. inversion H1; subst. split; [|reflexivity].
  constructor; [|exact H2]. constructor; auto.
Qed.

Section Actions.

Variable E : engine.
Variable input : str.

Lemma stop_same st st' : tk_stop input st = Ok st' -> ps_stacks st' = ps_stacks st /\ ps_pv st' = ps_pv st.
Proof. unfold tk_stop. destruct (ps_tok_begin st); [|discriminate]. destruct (Nat.leb _ _); [|discriminate]. intros H. injection H as <-. auto. Qed.

Lemma bind_ok {A B} (o : outcome A) (f : A -> outcome B) b : obind o f = Ok b -> exists a, o = Ok a /\ f a = Ok b.
Proof. destruct o; try discriminate. cbn. eauto. Qed.

Lemma throw_not_ok {A} st msg (x : A) : throw_error_message input st msg <> Ok x.
Proof. unfold throw_error_message, p_minus_1. destruct (ps_p st); discriminate. Qed.
Lemma unexpected_not_ok {A} st (x : A) : throw_unexpected input st <> Ok x.
Proof.
  unfold throw_unexpected. destruct (Nat.eqb _ _); [discriminate|]. destruct (nth_error _ _) as [c|]; [|discriminate].
  cbn. destruct (CharName c); discriminate.
Qed.
Lemma tag_not_ok {A} st n e t (x : A) : throw_unexpected_tag input st n e t <> Ok x.
Proof. unfold throw_unexpected_tag, p_minus_1. destruct (ps_p st); discriminate. Qed.
Lemma regex_not_ok {A} st n e (x : A) : throw_regex_error input st n e <> Ok x.
Proof. unfold throw_regex_error, p_minus_1. destruct (ps_p st); discriminate. Qed.

Ltac impossible H := exfalso; first [exact (throw_not_ok _ _ _ H)|exact (unexpected_not_ok _ _ H)|exact (tag_not_ok _ _ _ _ _ H)|discriminate H].

Lemma pop_rule_named st st' : pop_rule input st = Ok st' -> all_named (ps_stacks st) -> all_named (ps_stacks st') /\ ps_pv st' = ps_pv st.
Proof.
  unfold pop_rule, all_named. destruct (ps_stacks st) as [|[|r [|parent t]] rest] eqn:Es; intros H HN; try (impossible H).
  - destruct rest as [|[|top t] rest]; [impossible H| |]; injection H as <-; cbn; (split; [|reflexivity]);
      inversion HN as [|? ? H1 H2]; subst; inversion H2 as [|? ? H3 H4]; subst; inversion H1; subst.
    + constructor; [constructor|]. constructor; [|exact H4]. constructor; [assumption|constructor].
    + inversion H3; subst. constructor; [constructor|]. constructor; [|exact H4]. constructor; [|assumption].
      eapply named_same; [apply tag_append_next|assumption].
  - injection H as <-. cbn. split; [|reflexivity]. inversion HN as [|? ? H1 H2]; subst. inversion H1 as [|? ? H3 H4]; subst. inversion H4; subst.
    constructor; [|exact H2]. constructor; [|assumption]. eapply named_same; [apply tag_append_child|assumption].
Qed.

Lemma push_nested_named st st' : push_nested input st = Ok st' -> all_named (ps_stacks st) -> all_named (ps_stacks st') /\ ps_pv st' = ps_pv st.
Proof.
  unfold push_nested, top_stack, all_named. destruct (ps_stacks st) as [|[|r t] rest] eqn:Es; cbn [obind]; intros H HN; try (impossible H).
  injection H as <-. cbn. split; [|reflexivity]. now do 2 (constructor; [constructor|]).
Qed.

Lemma pop_nested_named st st' : pop_nested input st = Ok st' -> all_named (ps_stacks st) -> all_named (ps_stacks st') /\ ps_pv st' = ps_pv st.
Proof.
  unfold pop_nested, all_named. destruct (ps_stacks st) as [|[|r t] rest] eqn:Es; intros H HN; try (impossible H).
  destruct rest as [|[|n [|m ns]] rest]; try (impossible H).
  destruct rest as [|[|r t] rest]; try (impossible H).
  injection H as <-. cbn. split; [|reflexivity]. inversion HN as [|? ? _ H2]; subst. inversion H2 as [|? ? _ H3]; subst.
  inversion H3 as [|? ? H4 H5]; subst. inversion H4; subst. constructor; [|exact H5]. constructor; [|assumption].
  eapply named_same; [apply tag_append_nested|assumption].
Qed.

Lemma set_open_named st name st' : set_open_tag_or_throw st name = Ok st' -> all_named (ps_stacks st) ->
  all_named (ps_stacks st') /\ ps_pv st' = ps_pv st.
Proof.
  unfold set_open_tag_or_throw, top_stack. destruct (ps_stacks st) as [|[|r t] rest] eqn:Es; cbn [obind]; intros H HN; try discriminate.
  - injection H as <-. rewrite Es. auto.
  - rewrite <- Es in HN. destruct (is_star name).
    + eapply update_named; [|exact H|exact HN]. intros [] _. unfold named. cbn. discriminate.
    + eapply update_named; [|exact H|exact HN]. intros [c n ne m ca tg o g tn] Hn. unfold named. cbn [set_tag].
      destruct (N.eqb_spec (gumbo_tag_enum (c_str name)) TAG_UNKNOWN); cbn [set_tagname r_tag r_tagname]; [discriminate|contradiction].
Qed.

Lemma validate_same st name st' : validate_close_tag_or_throw input st name = Ok st' -> st' = st.
Proof.
  unfold validate_close_tag_or_throw, top_stack. destruct (ps_stacks st) as [|[|r t] rest]; cbn [obind]; intros H; try (impossible H).
  destruct (r_tag r =? _)%N.
  - destruct (r_tagname r) as [e|]; [|impossible H]. destruct (str_eqb e name); [now injection H as <-|impossible H].
  - destruct (is_star name); [destruct (r_tag r =? _)%N|destruct (_ || _)]; try (now injection H as <-); impossible H.
Qed.

(** What an action leaves behind. *)
Definition keeps (A' : nulls) (st' : pstate) : Prop := nulls_hold A' (ps_pv st') /\ all_named (ps_stacks st').

Ltac pv_only := split; [unfold nulls_hold in *; match goal with v : pvals |- _ => destruct v end; cbn in *; intuition congruence|assumption].

Ltac needs H := apply need_some in H as [H ->]; repeat (apply andb_true_iff in H; destruct H as [H ?]).

Ltac named_rule :=
  let r := fresh "r" in let Hr := fresh "Hr" in
  intros r Hr; try (match goal with |- context [if ?b then _ else _] => destruct b end);
  repeat (first [apply (named_same _ _ (tag_append_match _ _))|apply (named_same _ _ (tag_append_capture _ _))]);
  first [exact Hr|revert Hr; apply named_same; destruct r; split; reflexivity].

Ltac pv_done :=
  unfold nulls_hold in *; cbn in *;
  repeat match goal with H : ps_pv ?x = _ |- _ => rewrite H in *; clear H end;
  repeat match goal with v : pvals |- _ => destruct v end;
  try match goal with |- context [ps_pv ?x] => destruct (ps_pv x) end;
  cbn in *; intuition congruence.

Lemma action_keeps a A A' st st' : null_action a A = Some A' -> nulls_hold A (ps_pv st) -> all_named (ps_stacks st) ->
  (a < 88)%N -> run_action E input a st = Ok st' -> keeps A' st'.
Proof.
  intros HA HN HS Ha HR. destruct A as [np nt ntr nn]. apply (below_spec 88) in Ha. cbn in Ha. unfold keeps.
  repeat (destruct Ha as [<-|Ha];
    [cbn [null_action run_action] in HA, HR; unfold token, nth_trait, pipe_action, test_action, need_regex in HR;
     first
     [ (* Ok (with_pv ..), tk_start *)
       injection HA as <-; injection HR as <-; split; [pv_done|exact HS]
     | (* tokens and numbers *)
       injection HA as <-; repeat (apply bind_ok in HR as (? & ? & HR));
       match goal with H : tk_stop _ _ = Ok _ |- _ => apply stop_same in H as [H1 H2] end;
       injection HR as <-; split; [pv_done|cbn; rewrite H1; exact HS]
     | injection HA as <-; apply stop_same in HR as [H1 H2]; split; [now rewrite H2|now rewrite H1]
     | (* regex needed *)
       injection HA as <-; apply bind_ok in HR as (rx & _ & HR); injection HR as <-; split; [pv_done|exact HS]
     | (* the current rule *)
       injection HA as <-; apply bind_ok in HR as (st1 & H1 & HR); apply update_named in H1 as [H1 H2]; [|named_rule|exact HS];
       injection HR as <-; split; [pv_done|exact H1]
     | injection HA as <-; apply update_named in HR as [H1 H2]; [split; [now rewrite H2|exact H1]|named_rule|exact HS]
     | idtac ]|]); [..|destruct Ha].
  all: try (injection HA as <-).
  - apply pop_nested_named in HR as [H1 H2]; [|exact HS]. split; [now rewrite H2|exact H1].
  - apply push_nested_named in HR as [H1 H2]; [|exact HS]. split; [now rewrite H2|exact H1].
  - apply bind_ok in HR as (st1 & H1 & HR). apply bind_ok in HR as (st2 & H2 & HR). apply stop_same in H1 as [E1 E2].
    apply validate_same in H2 as ->. apply pop_rule_named in HR as [H1 H2]; [|now rewrite E1]. split; [now rewrite H2, E2|exact H1].
  - apply pop_rule_named in HR as [H1 H2]; [|exact HS]. split; [now rewrite H2|exact H1].
  - apply bind_ok in HR as (st1 & H1 & HR). apply stop_same in H1 as [E1 E2].
    apply set_open_named in HR as [H1 H2]; [|now rewrite E1]. split; [now rewrite H2, E2|exact H1].
  - unfold push_rule in HR. destruct (ps_stacks st) as [|t rest] eqn:Es; [discriminate|]. injection HR as <-. split; [exact HN|].
    cbn. inversion HS; subst. constructor; [|assumption]. constructor; [discriminate|assumption].
  - destruct (np && nt && ntr && nn) eqn:Ex; [|discriminate]. injection HA as <-. injection HR as <-. split; [|exact HS].
    unfold nulls_hold. cbn. auto.
  - destruct (pv_negate (ps_pv st)) as [l|] eqn:El; [|discriminate]. injection HR as <-. split; [pv_done|exact HS].
  - destruct (eng_compile E _) as [error|].
    + destruct (ps_tok_begin st); [|discriminate]. exfalso. exact (regex_not_ok _ _ _ _ HR).
    + injection HR as <-. split; [pv_done|exact HS].
Qed.

(** ** The assertions hold *)

Lemma before_ok A st : conc input A st -> a_nl A = true -> before_in_buffer input st = true.
Proof.
  intros HA Hn. destruct (c_nl _ _ _ HA Hn) as (k & c & Ep & Hc & _). unfold before_in_buffer, in_buffer. rewrite Ep.
  apply Nat.leb_le. assert (k < length input) by (apply nth_error_Some; congruence). lia.
Qed.

Lemma shape_stack A st : conc input A st -> has_stack st = true.
Proof. intros HA. pose proof (c_shape _ _ _ HA) as H. unfold has_stack. now destruct (ps_stacks st). Qed.

Lemma open_ok A st : conc input A st -> a_open A = true -> has_stack st && has_rule st = true.
Proof. intros HA Ho. destruct (c_open _ _ _ HA Ho) as (r & t & rest & Es). unfold has_stack, has_rule. now rewrite Es. Qed.

Lemma tok_ok A st : conc input A st -> a_tok A = true -> token_begun st = true.
Proof. intros HA Ho. apply (c_tok _ _ _ HA) in Ho. unfold token_begun. now destruct (ps_tok_begin st). Qed.

Lemma pop_rule_holds A st : conc input A st -> opens (ps_stacks st) -> pop_rule_ok st = true.
Proof.
  intros HA (r & t & rest & Es). pose proof (c_shape _ _ _ HA) as HS. unfold pop_rule_ok. rewrite Es in *.
  destruct t; [|reflexivity]. now destruct rest.
Qed.

Lemma pop_nested_holds A st : conc input A st -> a_nl A = true -> pop_nested_ok input st = true.
Proof.
  intros HA Hn. pose proof (c_shape _ _ _ HA) as HS. unfold pop_nested_ok.
  destruct (ps_stacks st) as [|[|r t] rest]; [destruct HS| |now apply (before_ok A)].
  destruct rest as [|[|n [|m ns]] rest]; [destruct HS|now apply (before_ok A)| |destruct HS as [HS _]; cbn in HS; lia].
  destruct rest as [|[|r t] rest]; [now apply (before_ok A)|now apply (before_ok A)|reflexivity].
Qed.

Lemma validate_holds A st name : conc input A st -> a_nl A = true -> all_named (ps_stacks st) -> validate_ok input st name = true.
Proof.
  intros HA Hn HN. unfold validate_ok. rewrite (shape_stack A st HA). cbn [andb]. apply andb_true_iff. split.
  - destruct (ps_stacks st) as [|[|r t] rest] eqn:Es; try reflexivity. inversion HN as [|? ? H1 _]; subst. inversion H1 as [|? ? H2 _]; subst.
    destruct (N.eqb_spec (r_tag r) TAG_UNKNOWN) as [Et|]; [|reflexivity]. specialize (H2 Et). now destruct (r_tagname r).
  - rewrite (before_ok A st HA Hn). now destruct (validate_close_tag_or_throw _ _ _).
Qed.

Lemma action_holds a A A' B B' st : (a < 88)%N -> conc input A st -> abs_action a A = Some A' ->
  null_action a B = Some B' -> nulls_hold B (ps_pv st) -> all_named (ps_stacks st) ->
  (a = 80%N -> a_open A = true) -> action_ok E input a st = true.
Proof.
  intros Ha HA H1 H2 HN HS H80. apply (below_spec 88) in Ha. cbn in Ha.
  repeat (destruct Ha as [<-|Ha];
    [cbn [abs_action null_action action_ok] in *;
     first
     [ reflexivity
     | needs H1; now apply (tok_ok A)
     | needs H1; now apply (open_ok A)
     | needs H1; apply (c_rx _ _ _ HA) in H1; now destruct (pv_regex (ps_pv st))
     | needs H1; apply (c_neg _ _ _ HA) in H1; now destruct (pv_negate (ps_pv st))
     | idtac ]|]); [..|destruct Ha].
  - needs H1. now apply (pop_nested_holds A).
  - needs H1. unfold push_nested_ok. rewrite (shape_stack A st HA), (before_ok A st HA); auto. apply orb_true_r.
  - needs H1. rewrite (tok_ok A st HA) by assumption. cbn [andb]. pose proof (tk_stop_fine input A st HA H1) as HF.
    destruct (tk_stop input st) as [st1|e|u|] eqn:Et; try reflexivity. cbn [fine] in HF. destruct HF as (K1 & _ & _ & K4 & _).
    rewrite <- K4 in HS. rewrite (validate_holds A st1 (ps_tok st1)) by assumption. cbn [andb].
    destruct (validate_close_tag_or_throw input st1 (ps_tok st1)) as [st2| | |] eqn:Ev; try reflexivity.
    pose proof Ev as Ev'. apply validate_same in Ev as ->. apply (pop_rule_holds A); [exact K1|].
    unfold validate_close_tag_or_throw, top_stack in Ev'. unfold opens.
    destruct (ps_stacks st1) as [|[|r t] rest]; [cbn in Ev'; discriminate Ev'| |eauto]. exfalso. cbn [obind] in Ev'. exact (tag_not_ok _ _ _ _ _ Ev').
  - needs H1. apply (pop_rule_holds A); [exact HA|]. now apply (c_open _ _ _ HA).
  - needs H1. rewrite (tok_ok A st HA H1). cbn [andb]. apply (open_ok A st HA). now apply H80.
  - apply (shape_stack A st HA).
  - destruct B as [p t tr n]. cbn [null_action] in H2. destruct (p && t && tr && n) eqn:Ex; [|discriminate H2].
    repeat (apply andb_true_iff in Ex; destruct Ex as [Ex ?]). subst. destruct HN as (N1 & N2 & N3 & N4). unfold all_moved.
    now rewrite N1, N2, N3, N4.
  - needs H1. rewrite (before_ok A st HA) by assumption. now destruct (eng_compile _ _).
Qed.

End Actions.

Section Running.

Variable abort : forall A : Type, outcome A.
Variable E : engine.
Variable input : str.

Lemma actions_hold l : forall A A' B B' st, conc input A st -> abs_actions l A = Some A' -> tag_actions l A = true ->
  null_actions l B = Some B' -> nulls_hold B (ps_pv st) -> all_named (ps_stacks st) ->
  run_actions_a abort E input l st = run_actions E input l st /\
  forall st', run_actions E input l st = Ok st' -> keeps B' st'.
Proof.
  induction l as [|a l IH]; intros A A' B B' st HA HL HT HB HN HS; cbn [run_actions_a run_actions abs_actions null_actions tag_actions] in *.
  - injection HB as <-. split; [reflexivity|]. intros st' H. injection H as <-. split; assumption.
  - destruct (N.ltb_spec a 88) as [Ha|]; [|discriminate]. destruct (abs_action a A) as [A1|] eqn:E1; [|discriminate].
    destruct (null_action a B) as [B1|] eqn:E2; [|discriminate]. apply andb_true_iff in HT as [HT1 HT2].
    assert (HOK : action_ok E input a st = true).
    { eapply (action_holds E input a A A1 B B1 st); eauto. intros ->. exact HT1. }
    unfold check. rewrite HOK. pose proof (action_fine E input a A A1 st Ha HA E1) as HF.
    destruct (run_action E input a st) as [st1|e|u|] eqn:Er; cbn [obind]; try (split; [reflexivity|discriminate]).
    destruct HF as [K1 K2]. destruct (action_keeps E input a B B1 st st1 E2 HN HS Ha Er) as [K3 K4].
    eapply IH; eauto.
Qed.

Lemma eof_actions_hold l : forallb is_eof_action l = true -> forall A A' B st, conc input A st -> abs_actions l A = Some A' ->
  nulls_hold B (ps_pv st) -> all_named (ps_stacks st) ->
  run_eof_actions_a abort E input l st = run_eof_actions E input l st.
Proof.
  intros HE A A' B st HA HL HN HS. rewrite eof_actions_same by exact HE.
  assert (HB : null_actions l B = Some B).
  { clear HL HA HS. induction l as [|a l IH]; [reflexivity|]. cbn [forallb] in HE. apply andb_true_iff in HE as [Ha HE].
    cbn [null_actions]. unfold is_eof_action in Ha. apply existsb_exists in Ha as (b & Hb & Eb). apply N.eqb_eq in Eb as ->.
    destruct B. cbn in Hb. destruct Hb as [<-|[<-|[<-|[]]]]; cbn [null_action]; apply IH; exact HE. }
  assert (HT : tag_actions l A = true).
  { clear - HE HL. revert A A' HL. induction l as [|a l IH]; intros A A' HL; [reflexivity|]. cbn [forallb] in HE.
    apply andb_true_iff in HE as [Ha HE]. cbn [tag_actions abs_actions] in *.
    assert (Ha80 : negb (a =? 80)%N = true).
    { unfold is_eof_action in Ha. apply existsb_exists in Ha as (b & Hb & Eb). apply N.eqb_eq in Eb as ->.
      cbn in Hb. destruct Hb as [<-|[<-|[<-|[]]]]; reflexivity. }
    rewrite Ha80. cbn [orb andb]. destruct (a <? 88)%N; [|discriminate]. destruct (abs_action a A); [|reflexivity]. eapply IH; eauto. }
  rewrite <- (proj1 (actions_hold l A A' B B st HA HL HT HB HN HS)).
  clear - HE. revert st. induction l as [|a l IH]; intros st; [reflexivity|]. cbn [forallb] in HE. apply andb_true_iff in HE as [Ha HE].
  cbn [run_eof_actions_a run_actions_a]. unfold is_eof_action in Ha. apply existsb_exists in Ha as (b & Hb & Eb). apply N.eqb_eq in Eb as ->.
  assert (X : eof_action_ok E input b st = action_ok E input b st /\ run_eof_action E input b st = run_action E input b st).
  { cbn in Hb. destruct Hb as [<-|[<-|[<-|[]]]]; split; reflexivity. }
  destruct X as [-> ->]. destruct (check _ _ _) as [st1| | |]; cbn [obind]; auto.
Qed.

Lemma exec_holds rest : forall u cs st tr, input = u ++ rest -> length u = ps_p st -> walk hext_start u = Some (tr, cs) ->
  conc input (at_state cs) st -> nulls_hold (null_at cs) (ps_pv st) -> all_named (ps_stacks st) ->
  exec_a abort E input rest cs st = exec E input rest cs st.
Proof.
  induction rest as [|c rest IH]; intros u cs st tr Hx Hu Hw HA HN HS.
  - pose proof (walk_state lG cG acts_union check_G u _ _ _ start_state Hw) as Hq. pose proof (checked_state cs Hq) as HC.
    unfold safe_state in HC. apply andb_true_iff in HC as [_ HC]. cbn [exec exec_a].
    destruct (machine_eof cs) as [acts| | |]; try discriminate. cbn [obind]. apply orb_true_iff in HC as [HC|HC].
    + apply andb_true_iff in HC as [HC _]. apply thread_eqb_eq in HC as ->. cbn [run_eof_actions_a run_eof_actions eof_action_ok action_ok].
      unfold check, in_buffer. now rewrite (proj2 (Nat.leb_le _ _) (c_end _ _ _ HA)).
    + apply andb_true_iff in HC as [HE HC]. destruct (abs_actions acts (at_state cs)) as [A'|] eqn:EA; [|discriminate].
      eapply eof_actions_hold; eauto.
  - pose proof (walk_state lG cG acts_union check_G u _ _ _ start_state Hw) as Hq. pose proof (checked_state cs Hq) as HC.
    unfold safe_state in HC. apply andb_true_iff in HC as [HC _].
    destruct (row_step cs c (proj1 Hq)) as [e [He [Hm [Hto Es]]]].
    pose proof (proj1 (forallb_forall _ _) HC e He) as HE. unfold safe_entry in HE. apply orb_true_iff in HE as [HE|HE].
    { apply N.eqb_eq in HE. rewrite HE, has_0 in Hm. discriminate. }
    assert (HM : (e_mask e =? 0)%N = false).
    { apply N.eqb_neq. intros X. rewrite X, has_0 in Hm. discriminate. }
    cbn [exec exec_a]. rewrite Es. cbn [obind].
    assert (Hc : nth_error input (ps_p st) = Some c).
    { rewrite Hx, <- Hu, nth_error_app2, Nat.sub_diag by lia. reflexivity. }
    destruct (N.eqb_spec (e_to e) hext_error) as [Et|Et].
    + apply andb_true_iff in HE as [HE _]. apply thread_eqb_eq in HE. rewrite HE. cbn [run_actions_a run_actions action_ok].
      unfold check, in_buffer. now rewrite (proj2 (Nat.leb_le _ _) (c_end _ _ _ HA)).
    + destruct (abs_actions (e_acts e) (at_state cs)) as [A1|] eqn:EA; [|discriminate].
      pose proof (proj1 (forallb_forall _ _) null_all_states cs (below_spec _ _ (proj1 Hq))) as X. cbn beta in X.
      pose proof (proj1 (forallb_forall _ _) tag_all_states cs (below_spec _ _ (proj1 Hq))) as Y. cbn beta in Y.
      rewrite (proj2 (N.eqb_neq _ _) (proj2 Hq)) in X, Y. cbn [orb] in X, Y. unfold null_state in X.
      apply (proj1 (forallb_forall _ _)) with (x := e) in X; [|exact He]. apply (proj1 (forallb_forall _ _)) with (x := e) in Y; [|exact He].
      unfold null_entry in X. cbn beta in Y. rewrite HM in X, Y. rewrite (proj2 (N.eqb_neq _ _) Et) in X. cbn [orb] in X, Y.
      destruct (null_actions (e_acts e) (null_at cs)) as [B1|] eqn:EB; [|discriminate].
      destruct (actions_hold (e_acts e) _ _ _ _ st HA EA Y EB HN HS) as [H1 H2]. rewrite H1.
      pose proof (actions_fine E input (e_acts e) _ _ st HA EA) as HF.
      destruct (run_actions E input (e_acts e) st) as [st1|?|?|] eqn:Er; cbn [obind]; try reflexivity.
      destruct HF as [K1 K2]. destruct (H2 st1 eq_refl) as [K3 K4].
      assert (Hw' : walk hext_start (u ++ [c]) = Some (tr ++ [e_acts e], e_to e)).
      { apply walk_app. exists tr, cs, [e_acts e]. split; [exact Hw|]. split; [|reflexivity]. cbn. rewrite Es.
        destruct (N.eqb_spec (e_to e) hext_error); [contradiction|reflexivity]. }
      eapply (IH (u ++ [c])); [rewrite <- app_assoc; exact Hx|cbn; rewrite app_length, K2; cbn; lia|exact Hw'| | |exact K4].
      * eapply conc_le; [exact HE|]. apply (conc_char _ _ _ _ c); [exact K1|now rewrite K2|exact Hm].
      * cbn. exact (nulls_le _ _ _ X K3).
Qed.

End Running.

Theorem parse_no_assertion abort E x : ParseHext_debug abort E x = ParseHext E x.
Proof.
  unfold ParseHext_debug, parse_a, ParseHext, parse. set (st0 := mk_ps [[]; []] 0 None [] pv_initial).
  assert (H0 : conc x (at_state hext_start) st0).
  { apply (conc_le x abs_initial); [vm_compute; reflexivity|]. split; cbn; auto; try discriminate; try lia. }
  rewrite (exec_holds abort E x x [] hext_start st0 [] eq_refl eq_refl eq_refl H0);
    [|unfold nulls_hold; cbn; auto|repeat constructor].
  pose proof (exec_spec E x x [] hext_start st0 [] eq_refl eq_refl eq_refl H0) as HX.
  destruct (exec E x x hext_start st0) as [st|e|u|] eqn:Ex; cbn [obind]; try reflexivity.
  destruct HX as (_ & HS & Hp). unfold check.
  assert (HF : finish_ok x st = true); [|now rewrite HF].
  unfold finish_ok. destruct (ps_stacks st) as [|w rest] eqn:Es; [destruct HS|].
  destruct (Nat.ltb_spec 2 (length (w :: rest))) as [H2|H2]; [|reflexivity].
  unfold before_in_buffer, in_buffer. rewrite Hp. destruct (length x) as [|k] eqn:El; [|apply Nat.leb_le; lia].
  destruct x; [|discriminate]. vm_compute in Ex. injection Ex as <-. cbn in Es. injection Es as <- <-. cbn in H2. lia.
Qed.
