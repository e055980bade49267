(** The regex library only adds regex errors. *)

From Coq Require Import Ascii String NArith ZArith Bool List Lia.
From Verif Require Import Base StringUtil Tags Dom NodeUtil Values Match Rule Parser ParserSpec ParserSafety StringProofs RegexSpec RegexParse LenientSpec.
Import ListNotations.

Section Two.
Variables E E' : engine.
Hypothesis HE : forall rx, eng_compile E rx = eng_compile E' rx \/ eng_compile E' rx = None.

(** An error for a regex that only the first library rejects. *)
Definition bad {A} (o : outcome A) : Prop :=
  (exists rx e, regex_error E rx e /\ eng_compile E' rx = None /\ o = Throw e) \/ (exists b, b <> BadCtypeArgument /\ o = UB b).
Definition le {A} (o o' : outcome A) : Prop := o = o' \/ bad o.
Lemma le_refl {A} (o : outcome A) : le o o.
Proof. now left. Qed.
Lemma le_bind {A B} (o o' : outcome A) (k k' : A -> outcome B) : le o o' -> (forall a, le (k a) (k' a)) -> le (obind o k) (obind o' k').
Proof.
  intros [->|[[rx [e [H1 [H2 ->]]]]|[b [H ->]]]] Hk.
  - destruct o'; cbn [obind]; [apply Hk| | |]; apply le_refl.
  - right. left. exists rx, e. auto.
  - right. right. exists b. auto.
Qed.

Variable input : str.

Lemma compile_le st : le (run_action E input 27 st) (run_action E' input 27 st).
Proof.
  unfold run_action. set (rx := mk_regex _ _ _). destruct (HE rx) as [H|H].
  - rewrite H. apply le_refl.
  - rewrite H. destruct (eng_compile E rx) as [error|] eqn:Hc; [|apply le_refl]. right.
    destruct (ps_tok_begin st) as [b|]; [|right; exists NullDeref; split; [discriminate|reflexivity]].
    unfold throw_regex_error, p_minus_1. destruct (ps_p st) as [|k]; cbn [obind].
    + right. eexists. split; [|reflexivity]. discriminate.
    + left. eexists rx, _. split; [|split; [exact H|reflexivity]]. exists error. eexists. split; [exact Hc|reflexivity].
Qed.

Lemma action_same a st : a <> 27%N -> run_action E input a st = run_action E' input a st.
Proof.
  intros H. unfold run_action. destruct a as [|p]; [reflexivity|].
  do 7 (try (destruct p as [p|p|]; try reflexivity)). congruence.
Qed.
Lemma action_le a st : le (run_action E input a st) (run_action E' input a st).
Proof.
  destruct (N.eq_dec a 27) as [->|H]; [apply compile_le|]. rewrite (action_same a st H). apply le_refl.
Qed.
Lemma actions_le : forall l st, le (run_actions E input l st) (run_actions E' input l st).
Proof. induction l as [|a l IH]; intros st; [apply le_refl|]. cbn [run_actions]. apply le_bind; [apply action_le|exact IH]. Qed.
Lemma eof_action_le a st : le (run_eof_action E input a st) (run_eof_action E' input a st).
Proof.
  unfold run_eof_action. destruct a as [|p]; [apply le_refl|]. do 7 (try (destruct p as [p|p|]; try apply le_refl)); apply action_le.
Qed.
Lemma eof_actions_le : forall l st, le (run_eof_actions E input l st) (run_eof_actions E' input l st).
Proof. induction l as [|a l IH]; intros st; [apply le_refl|]. cbn [run_eof_actions]. apply le_bind; [apply eof_action_le|exact IH]. Qed.
Lemma exec_le : forall rest cs st, le (exec E input rest cs st) (exec E' input rest cs st).
Proof.
  induction rest as [|c rest IH]; intros cs st; cbn [exec].
  - apply le_bind; [apply le_refl|]. intros l. apply eof_actions_le.
  - apply le_bind; [apply le_refl|]. intros [cs' l]. apply le_bind; [apply actions_le|]. intros st1.
    match goal with |- context [if ?b then _ else _] => destruct b end; [apply le_refl|apply IH].
Qed.
Lemma parse_le : le (ParseHext E input) (ParseHext E' input).
Proof. unfold ParseHext, parse. apply le_bind; [apply exec_le|]. intros st. apply le_refl. Qed.

Theorem parse_or_error : ParseHext E input = ParseHext E' input \/
  exists rx e, regex_error E rx e /\ eng_compile E' rx = None /\ ParseHext E input = Throw e.
Proof.
  destruct parse_le as [H|[H|[b [Hb H]]]]; [now left|now right|].
  destruct (parse_total E input) as [[r Hr]|[[e He]|[Hu _]]]; congruence.
Qed.
End Two.

Theorem only_errors E x : ParseHext E x = ParseHext lenient x \/ exists rx e, regex_error E rx e /\ ParseHext E x = Throw e.
Proof.
  destruct (parse_or_error E lenient (fun _ => or_intror eq_refl) x) as [H|[rx [e [H1 [_ H2]]]]]; [now left|]. right. eauto.
Qed.

(** [E] with the regexes [l]. *)
Definition same_regex (rx rx' : regex) : bool :=
  str_eqb (rx_source rx) (rx_source rx') && Bool.eqb (rx_icase rx) (rx_icase rx') && Bool.eqb (rx_collate rx) (rx_collate rx').
Lemma same_regex_eq rx rx' : same_regex rx rx' = true <-> rx = rx'.
Proof.
  unfold same_regex. rewrite !andb_true_iff, str_eqb_eq, !eqb_true_iff. destruct rx, rx'. cbn. split; [intros [[-> ->] ->]; reflexivity|].
  intros H. injection H as -> -> ->. auto.
Qed.
Definition taught (E : engine) (l : list use) : engine :=
  mk_engine (fun rx => if existsb (fun u => same_regex rx (use_regex u)) l then None else eng_compile E rx) (eng_search E) (eng_replace E).
Lemma taught_accepts E l : accepts (taught E l) l.
Proof.
  intros u Hu. cbn [taught eng_compile]. assert (existsb (fun u' => same_regex (use_regex u) (use_regex u')) l = true) as ->; [|reflexivity].
  apply existsb_exists. exists u. split; [exact Hu|now apply same_regex_eq].
Qed.

Theorem rule_or_error E0 E x r : ParseHext E0 x = Ok r -> ParseHext E x = Ok r \/
  exists u e, In u (rule_uses r) /\ regex_error E (use_regex u) e /\ ParseHext E x = Throw e.
Proof.
  intros H. assert (Ht : ParseHext (taught E (rule_uses r)) x = Ok r) by (apply (parse_same E0 _ x r H), taught_accepts).
  destruct (parse_or_error E (taught E (rule_uses r))) with (input := x) as [He|[rx [e [H1 [H2 H3]]]]].
  - intros rx. cbn [taught eng_compile]. destruct (existsb _ _); auto.
  - left. now rewrite He.
  - right. cbn [taught eng_compile] in H2. destruct (existsb _ _) eqn:Hx.
    + apply existsb_exists in Hx as [u [Hu Hs]]. apply same_regex_eq in Hs. subst rx. eauto.
    + destruct H1 as [error [loc [H1 _]]]. congruence.
Qed.

Theorem one_rule E E' x r r' : ParseHext E x = Ok r -> ParseHext E' x = Ok r' -> r = r'.
Proof.
  intros H H'. destruct (rule_or_error E E' x r H) as [H1|[u [e [_ [_ H1]]]]]; congruence.
Qed.
