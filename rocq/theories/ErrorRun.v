(** Where the parser stops. *)

From Coq Require Import Ascii String NArith ZArith Bool List Lia.
From Verif Require Import Base StringUtil StringSpec Tags Values Match Rule Regular RegularProofs ParserTables Parser MachineRows Grammar GrammarSpec GrammarCheck GrammarProofs GrammarTexts
  TextSpec LocationProofs SafetyCheck ParserSpec SafetyProofs ParserSafety SyntaxSpec SyntaxWords SyntaxRun SyntaxMeaning SyntaxTree SyntaxProofs ErrorSpec.
Import ListNotations.

(** ** Words of actions and characters *)

Section Words.

Variable E : engine.
Variable input : str.

Fixpoint wrun (w : list item) (st : pstate) : outcome pstate :=
  match w with
  | [] => Ok st
  | IAct a :: w' => let! st1 := run_action E input a st in wrun w' st1
  | IChr _ :: w' => wrun w' (with_p st (S (ps_p st)))
  end.

Lemma wrun_app u v st : wrun (u ++ v) st = let! st1 := wrun u st in wrun v st1.
Proof.
  revert st. induction u as [|[a|c] u IH]; intros st; [reflexivity| |]; cbn [app wrun].
  - destruct (run_action E input a st); cbn [obind]; auto.
  - apply IH.
Qed.

Lemma wrun_acts l st : wrun (map IAct l) st = run_actions E input l st.
Proof. revert st. induction l as [|a l IH]; intros st; [reflexivity|]. cbn [map wrun run_actions]. destruct (run_action E input a st); cbn [obind]; auto. Qed.

Lemma exec_prefix u : forall v cs st tr q, walk cs u = Some (tr, q) ->
  exec E input (u ++ v) cs st = let! st1 := wrun (weave tr u) st in exec E input v q st1.
Proof.
  induction u as [|c u IH]; intros v cs st tr q H; cbn [walk] in H.
  - injection H as <- <-. reflexivity.
  - destruct (machine_step cs c) as [[cs' acts]| | |] eqn:Em; try discriminate. destruct (cs' =? hext_error)%N eqn:Ee; [discriminate|].
    destruct (walk cs' u) as [[tr' q']|] eqn:Ew; [|discriminate]. injection H as <- <-. cbn [app exec weave]. rewrite Em. cbn [obind].
    rewrite wrun_app, wrun_acts. destruct (run_actions E input acts st) as [st1| | |]; try reflexivity. cbn [obind]. rewrite Ee. cbn [wrun]. now apply IH.
Qed.

Lemma exec_end q l st : machine_eof q = Ok l -> forallb is_eof_action l = true -> exec E input [] q st = wrun (map IAct l) st.
Proof. intros He Hl. cbn [exec]. rewrite He. cbn [obind]. now rewrite eof_actions_same, wrun_acts. Qed.

Lemma agree_wrun w : forall u v st k, input = u ++ chars w ++ v -> sim input (length u) st k ->
  agree input (length (u ++ chars w)) (wrun w st) (crun E w k).
Proof.
  induction w as [|[a|c] w IH]; intros u v st k Ei H; cbn [wrun crun].
  - cbn. rewrite app_nil_r. eauto.
  - rewrite chars_cons_act in *. pose proof (agree_action E input a _ st k H) as HA. destruct (kaction E a k) as [k1|]; cbn [agree obind'] in *.
    + destruct HA as [st1 [-> H1]]. cbn [obind]. now apply (IH u v).
    + intros st'. destruct (run_action E input a st) as [st1| | |]; try discriminate. now specialize (HA st1).
  - rewrite chars_cons_chr in *. replace (u ++ c :: chars w) with ((u ++ [c]) ++ chars w) by now rewrite <- app_assoc.
    apply (IH _ v); [now rewrite Ei, <- app_assoc|]. rewrite app_length, Nat.add_comm. cbn [length Nat.add]. apply agree_chr; [exact H|].
    rewrite Ei, nth_error_app2, Nat.sub_diag by lia. reflexivity.
Qed.

End Words.

Definition st_initial : pstate := mk_ps [[]; []] 0 None [] pv_initial.
Lemma sim_initial x : sim x 0 st_initial k_initial.
Proof. unfold sim. cbn. auto. Qed.

(** Reading a word that begins the text: until the end of the text, or until a
    character. *)
Lemma same_prefix a : forall a' c c' b b', a ++ IChr c :: b = a' ++ IChr c' :: b' -> length (chars a) = length (chars a') -> a = a' /\ c = c' /\ b = b'.
Proof.
  induction a as [|i a IH]; intros [|i' a'] c c' b b' H HL; cbn [app] in H.
  - injection H as -> ->. auto.
  - injection H as <- ->. discriminate.
  - injection H as -> H. discriminate.
  - injection H as <- H. destruct (IH a' c c' b b' H) as [-> H']; [|auto]. destruct i; [rewrite !chars_cons_act in HL; exact HL|rewrite !chars_cons_chr in HL; now injection HL].
Qed.

Lemma weave_app tr1 : forall x1 tr2 x2, length tr1 = length x1 -> weave (tr1 ++ tr2) (x1 ++ x2) = weave tr1 x1 ++ weave tr2 x2.
Proof.
  induction tr1 as [|l tr1 IH]; intros [|c x1] tr2 x2 H; try discriminate; [reflexivity|]. cbn [app weave]. rewrite IH by (cbn in H; lia).
  rewrite <- app_assoc. reflexivity.
Qed.

(** A word that a word of the grammar begins with, before a character. *)
Lemma exec_word E input w c w' v st : L G_exact (w ++ IChr c :: w') -> exists q,
  exec E input (chars w ++ c :: v) hext_start st = let! st1 := wrun E input w st in exec E input v q (with_p st1 (S (ps_p st1))).
Proof.
  intros HL. destruct (X_run _ HL) as [tr [q [l [Hw [He Ew]]]]]. rewrite chars_app, chars_cons_chr in Hw, Ew.
  replace (chars w ++ c :: chars w') with ((chars w ++ [c]) ++ chars w') in Hw, Ew by now rewrite <- app_assoc.
  apply walk_app in Hw as [tr1 [q1 [tr2 [H1 [H2 ->]]]]]. pose proof H1 as H1'. apply walk_app in H1 as [tr0 [q0 [trc [H0 [Hc ->]]]]].
  pose proof (walk_length _ _ _ _ H0) as L0. pose proof (walk_length _ _ _ _ Hc) as Lc. destruct trc as [|acts [|]]; try discriminate Lc.
  rewrite weave_app in Ew by (rewrite !app_length; cbn [length] in *; lia). rewrite weave_app in Ew by exact L0. cbn [weave] in Ew.
  replace ((weave tr0 (chars w) ++ map IAct acts ++ [IChr c]) ++ weave tr2 (chars w')) with
    ((weave tr0 (chars w) ++ map IAct acts) ++ IChr c :: weave tr2 (chars w')) in Ew by now rewrite <- !app_assoc.
  rewrite <- app_assoc in Ew. cbn [app] in Ew.
  destruct (same_prefix _ _ _ _ _ _ Ew) as [EW _].
  { rewrite chars_app, chars_acts, app_nil_r, chars_weave by exact L0. reflexivity. }
  exists q1. replace (chars w ++ c :: v) with ((chars w ++ [c]) ++ v) by now rewrite <- app_assoc.
  rewrite (exec_prefix E input (chars w ++ [c]) v hext_start st _ _ H1').
  rewrite weave_app by exact L0. cbn [weave]. rewrite app_assoc. rewrite <- EW, wrun_app.
  destruct (wrun E input w st); reflexivity.
Qed.

(** A whole text. *)
Lemma exec_whole E input w st : L G_exact w -> crun E w k_initial <> None \/ ~ In (IAct 88) w ->
  exec E input (chars w) hext_start st = wrun E input w st.
Proof.
  intros HL H88. destruct (X_run _ HL) as [tr [q [l [Hw [He Ew]]]]].
  replace (chars w) with (chars w ++ []) at 1 by apply app_nil_r. rewrite (exec_prefix E input _ _ _ _ _ _ Hw).
  assert (Hl : forallb is_eof_action l = true).
  { destruct (eof_actions _ _ _ _ Hw He) as [->|Hl]; [|exact Hl]. exfalso. destruct H88 as [H88|H88].
    - apply H88. rewrite Ew, crun_app. destruct (crun E (weave tr (chars w)) k_initial); reflexivity.
    - apply H88. rewrite Ew. apply in_or_app. right. now left. }
  rewrite Ew at 2. rewrite wrun_app. destruct (wrun E input (weave tr (chars w)) st); try reflexivity. cbn [obind]. now apply exec_end.
Qed.

(** ** What is open *)

Definition same_name (x : str) (r : rule) : Prop := same_tag (mk_head [] x [] [] []) r.

Definition level (b : bool) (l : list rule) : Prop := match l with [] => b = false | [_] => b = true | _ => False end.

(** [Open b l sk]: the stacks when [l] is open; [b]: there is a complete element
    outside of all. *)
Fixpoint Open (b : bool) (l : list opening) (sk : list (list rule)) : Prop :=
  match l with
  | [] => exists lv, sk = [[]; lv] /\ level b lv
  | InElement x :: l' => exists r t rest, sk = (r :: t) :: rest /\ same_name x r /\ Open b l' (t :: rest)
  | InBraces f :: l' => exists lv sk', sk = [] :: lv :: sk' /\ level f lv /\ (exists x l'', l' = InElement x :: l'') /\ Open b l' sk'
  end.

Definition closed_top (b : bool) (l : list opening) : bool := match l with [] => true | _ => b end.

Lemma open_pop b l sk r t rest sk' : Open b l (t :: rest) -> pop_rule' ((r :: t) :: rest) = Some sk' -> sk = t :: rest ->
  Open (closed_top b l) (filled l) sk'.
Proof.
  intros H Hp _. destruct l as [|[x|f] l]; cbn [Open filled closed_top] in *.
  - destruct H as [lv [H HL]]. injection H as -> ->. destruct lv as [|top [|]]; cbn [level pop_rule'] in *; try contradiction; injection Hp as <-;
      eexists; (split; [reflexivity|]); reflexivity.
  - destruct H as [r' [t' [rest' [H1 [H2 H3]]]]]. injection H1 as -> ->. cbn [pop_rule'] in Hp. injection Hp as <-.
    exists (append_child r' r), t', rest'. split; [reflexivity|]. split; [now apply child_same_tag|exact H3].
  - destruct H as [lv [sk0 [H1 [H2 [H3 H4]]]]]. injection H1 as -> ->. destruct lv as [|top [|]]; cbn [level pop_rule'] in *; try contradiction; injection Hp as <-;
      eexists _, sk0; (split; [reflexivity|]); (split; [reflexivity|]); auto.
Qed.

Lemma open_length b l sk : Open b l sk -> 2 <= length sk /\ (2 < length sk <-> exists f, In (InBraces f) l).
Proof.
  revert sk. induction l as [|[x|f] l IH]; intros sk H; cbn [Open] in H.
  - destruct H as [lv [-> _]]. cbn [length]. split; [lia|]. split; [lia|intros [f []]].
  - destruct H as [r [t [rest [-> [_ H]]]]]. apply IH in H as [H1 H2]. cbn [length] in *. split; [exact H1|]. rewrite H2. split.
    + intros [f Hf]. exists f. now right.
    + intros [f [Hf|Hf]]; [discriminate|eauto].
  - destruct H as [lv [sk' [-> [_ [_ H]]]]]. apply IH in H as [H1 _]. cbn [length]. split; [lia|]. split; [|lia]. intros _. exists f. now left.
Qed.

Lemma open_can_pop b l t rest r : Open b l (t :: rest) -> exists sk, pop_rule' ((r :: t) :: rest) = Some sk.
Proof.
  destruct l as [|[x|f] l]; cbn [Open].
  - intros [lv [H _]]. injection H as -> ->. destruct lv; cbn; eauto.
  - intros [r' [t' [rest' [H _]]]]. injection H as -> ->. cbn. eauto.
  - intros [lv [sk' [H _]]]. injection H as -> ->. destruct lv; cbn; eauto.
Qed.

Lemma filled_nil l : filled l = [] <-> l = [].
Proof. destruct l as [|[]]; split; intros H; try discriminate; auto. Qed.

Section Tokens.

Variable E : engine.

(** The state after tokens. *)
Definition reaches (us : list token) (l : list opening) (sk : list (list rule)) (fl : flags) : Prop :=
  trun E us ([[]; []], no_flags) = Some (sk, fl) /\
  (exists rs, each (head_meaning (regex_meaning E)) (heads us) no_flags = Some (rs, fl)) /\
  exists b, Open b l sk /\ (b = true -> heads us <> []) /\ (heads us = [] -> l = []) /\ (l = [] -> heads us <> [] -> b = true).

Lemma heads_app u v : heads (u ++ v) = heads u ++ heads v.
Proof. apply flat_map_app. Qed.

Lemma each_app {A B} (f : A -> meaning B) u v fl : each f (u ++ v) fl = bind (each f u) (fun a => bind (each f v) (fun b => ret (a ++ b))) fl.
Proof.
  revert fl. induction u as [|x u IH]; intros fl; cbn [app each].
  - unfold bind, ret. destruct (each f v fl) as [[b fl']|]; reflexivity.
  - unfold bind in *. destruct (f x fl) as [[y fl1]|]; [|reflexivity]. rewrite IH. destruct (each f u fl1) as [[ys fl2]|]; [|reflexivity].
    unfold ret. destruct (each f v fl2) as [[zs fl3]|]; reflexivity.
Qed.

(** Each opening tag has a meaning. *)
Definition meant (ts : list token) : Prop :=
  exists l fl, each (head_meaning (regex_meaning E)) (heads ts) no_flags = Some (l, fl).

Lemma meant_app u v : meant (u ++ v) -> meant u.
Proof.
  intros [l [fl H]]. rewrite heads_app, each_app in H. unfold bind in H. unfold meant.
  destruct (each _ (heads u) no_flags) as [[rs fl']|]; [eauto|discriminate].
Qed.

Lemma trun_last us t sk fl : trun E us ([[]; []], no_flags) = Some (sk, fl) -> trun E (us ++ [t]) ([[]; []], no_flags) = tstep E t (sk, fl).
Proof. intros H. rewrite trun_app, H. cbn [obind' trun]. destruct (tstep E t (sk, fl)); reflexivity. Qed.

Lemma each_last h us rs fl f fl' : each (head_meaning (regex_meaning E)) (heads us) no_flags = Some (rs, fl) ->
  head_meaning (regex_meaning E) h fl = Some (f, fl') ->
  each (head_meaning (regex_meaning E)) (heads us ++ [h]) no_flags = Some (rs ++ [f], fl').
Proof. intros H1 H2. rewrite each_app. unfold bind. rewrite H1. cbn [each]. unfold bind. rewrite H2. reflexivity. Qed.

Lemma heads_blank us t : (forall h c, t <> TOpen h c) -> heads (us ++ [t]) = heads us.
Proof. intros H. rewrite heads_app. destruct t; try apply app_nil_r. now destruct (H h closed). Qed.
Lemma heads_open us h c : heads (us ++ [TOpen h c]) = heads us ++ [h].
Proof. now rewrite heads_app. Qed.
Lemma snoc_nonempty {A} (l : list A) x : l ++ [x] <> [].
Proof. destruct l; discriminate. Qed.

Lemma reach_blank us l sk fl t : reaches us l sk fl -> is_blank t -> reaches (us ++ [t]) l sk fl.
Proof.
  intros [H1 [H2 H3]] Ht. unfold reaches. rewrite (trun_last _ _ _ _ H1), heads_blank by (intros; intros ->; exact Ht).
  split; [destruct t; try contradiction; reflexivity|]. auto.
Qed.

Lemma reach_closed us l sk fl h f fl' : reaches us l sk fl -> head_meaning (regex_meaning E) h fl = Some (f, fl') ->
  exists sk', reaches (us ++ [TOpen h true]) (filled l) sk' fl'.
Proof.
  intros [H1 [[rs H2] [b [HO [H3 [H4 H5]]]]]] Hh. pose proof (open_length _ _ _ HO) as [HL _]. destruct sk as [|t rest]; [cbn in HL; lia|].
  destruct (open_can_pop _ _ _ _ (f None []) HO) as [sk' Hp]. exists sk'. unfold reaches. rewrite heads_open.
  split; [rewrite (trun_last _ _ _ _ H1); cbn [tstep]; rewrite Hh; cbn [push_rule' obind']; now rewrite Hp|].
  split; [exists (rs ++ [f]); now apply (each_last h us rs fl f fl')|]. exists (closed_top b l). split; [eapply open_pop; [exact HO|exact Hp|reflexivity]|].
  split; [intros _; apply snoc_nonempty|]. split; [intros H; now apply snoc_nonempty in H|]. intros Hl _. apply filled_nil in Hl as ->. reflexivity.
Qed.

Lemma reach_element us l sk fl h f fl' : reaches us l sk fl -> head_meaning (regex_meaning E) h fl = Some (f, fl') ->
  exists sk', reaches (us ++ [TOpen h false]) (InElement (h_name h) :: l) sk' fl'.
Proof.
  intros [H1 [[rs H2] [b [HO [H3 [H4 H5]]]]]] Hh. pose proof (open_length _ _ _ HO) as [HL _]. destruct sk as [|t rest]; [cbn in HL; lia|].
  exists ((f None [] :: t) :: rest). unfold reaches. rewrite heads_open.
  split; [rewrite (trun_last _ _ _ _ H1); cbn [tstep]; rewrite Hh; reflexivity|].
  split; [exists (rs ++ [f]); now apply (each_last h us rs fl f fl')|]. exists b. split.
  { cbn [Open]. exists (f None []), t, rest. split; [reflexivity|]. split; [|exact HO]. apply head_meaning_form in Hh as [ms [mcs ->]]. split; reflexivity. }
  split; [intros _; apply snoc_nonempty|]. split; [intros H; now apply snoc_nonempty in H|]. discriminate.
Qed.

Lemma reach_close us l sk fl x name : is_tag_name name -> reaches us (InElement x :: l) sk fl -> closes x name ->
  exists sk', reaches (us ++ [TClose name]) (filled l) sk' fl.
Proof.
  intros Hn [H1 [H2 [b [HO [H3 [H4 H5]]]]]] Hc. pose proof HO as HO'. cbn [Open] in HO. destruct HO as [r [t [rest [-> [HS HO]]]]].
  destruct (open_can_pop _ _ _ _ r HO) as [sk' Hp]. exists sk'. unfold reaches. rewrite heads_blank by discriminate.
  split.
  { rewrite (trun_last _ _ _ _ H1). cbn [tstep check_close']. rewrite (proj2 (closes_same _ r name HS Hn) Hc). cbn [obind']. now rewrite Hp. }
  split; [exact H2|]. exists (closed_top b l). split; [eapply open_pop; [exact HO|exact Hp|reflexivity]|].
  assert (HH : heads us <> []). { intros H. apply H4 in H. discriminate. }
  split; [auto|]. split; [contradiction|]. intros Hl _. apply filled_nil in Hl as ->. reflexivity.
Qed.

Lemma reach_begin us l sk fl x : reaches us (InElement x :: l) sk fl ->
  exists sk', reaches (us ++ [TBegin]) (InBraces false :: InElement x :: l) sk' fl.
Proof.
  intros [H1 [H2 [b [HO [H3 [H4 H5]]]]]]. pose proof HO as HO'. cbn [Open] in HO. destruct HO as [r [t [rest [-> [HS HO]]]]].
  exists ([] :: [] :: (r :: t) :: rest). unfold reaches. rewrite heads_blank by discriminate.
  split; [rewrite (trun_last _ _ _ _ H1); reflexivity|]. split; [exact H2|]. exists b. split.
  { exists [], ((r :: t) :: rest). split; [reflexivity|]. split; [reflexivity|]. split; [eauto|exact HO']. }
  split; [exact H3|]. split; [intros H; apply H4 in H; discriminate|discriminate].
Qed.

Lemma reach_end us l sk fl : reaches us (InBraces true :: l) sk fl -> exists sk', reaches (us ++ [TEnd]) l sk' fl.
Proof.
  intros [H1 [H2 [b [HO [H3 [H4 H5]]]]]]. cbn [Open] in HO. destruct HO as [lv [sk' [-> [HL [[x [l'' ->]] HO]]]]].
  destruct lv as [|n [|]]; try discriminate; [|destruct HL]. cbn [Open] in HO. destruct HO as [r [t [rest [-> [HS HO]]]]].
  exists ((append_nested r n :: t) :: rest). unfold reaches. rewrite heads_blank by discriminate.
  split; [rewrite (trun_last _ _ _ _ H1); reflexivity|]. split; [exact H2|]. exists b. split.
  { exists (append_nested r n), t, rest. split; [reflexivity|]. split; [now apply nested_same_tag|exact HO]. }
  split; [exact H3|]. split; [intros H; apply H4 in H; discriminate|discriminate].
Qed.

Theorem open_reaches us l : leaves_open us l -> Forall token_ok us -> meant us -> exists sk fl, reaches us l sk fl.
Proof.
  induction 1 as [|us l t H IH Ht|us l h H IH|us l h H IH|us l x name H IH Hc|us l x H IH|us l H IH]; intros Hok Ha.
  - exists [[]; []], no_flags. split; [reflexivity|]. split; [exists []; reflexivity|]. exists false. split; [exists []; split; reflexivity|].
    split; [discriminate|]. split; [reflexivity|]. intros _ H. now destruct H.
  - apply Forall_app in Hok as [Hok _]. destruct (IH Hok (meant_app _ _ Ha)) as [sk [fl HR]]. exists sk, fl. now apply reach_blank.
  - apply Forall_app in Hok as [Hok _]. destruct (IH Hok (meant_app _ _ Ha)) as [sk [fl HR]]. pose proof HR as [_ [[rs Hr] _]].
    destruct Ha as [rs' [fl' Ha]]. rewrite heads_open, each_app in Ha. unfold bind in Ha. rewrite Hr in Ha. cbn [each] in Ha. unfold bind in Ha.
    destruct (head_meaning (regex_meaning E) h fl) as [[f fl1]|] eqn:Eh; [|discriminate]. destruct (reach_closed _ _ _ _ _ _ _ HR Eh) as [sk' HR']. eauto.
  - apply Forall_app in Hok as [Hok _]. destruct (IH Hok (meant_app _ _ Ha)) as [sk [fl HR]]. pose proof HR as [_ [[rs Hr] _]].
    destruct Ha as [rs' [fl' Ha]]. rewrite heads_open, each_app in Ha. unfold bind in Ha. rewrite Hr in Ha. cbn [each] in Ha. unfold bind in Ha.
    destruct (head_meaning (regex_meaning E) h fl) as [[f fl1]|] eqn:Eh; [|discriminate]. destruct (reach_element _ _ _ _ _ _ _ HR Eh) as [sk' HR']. eauto.
  - apply Forall_app in Hok as [Hok Hn]. destruct (IH Hok (meant_app _ _ Ha)) as [sk [fl HR]]. inversion Hn as [|? ? Hn' _]; subst.
    destruct (reach_close _ _ _ _ _ _ Hn' HR Hc) as [sk' HR']. eauto.
  - apply Forall_app in Hok as [Hok _]. destruct (IH Hok (meant_app _ _ Ha)) as [sk [fl HR]]. destruct (reach_begin _ _ _ _ _ HR) as [sk' HR']. eauto.
  - apply Forall_app in Hok as [Hok _]. destruct (IH Hok (meant_app _ _ Ha)) as [sk [fl HR]]. destruct (reach_end _ _ _ _ HR) as [sk' HR']. eauto.
Qed.

(** Conversely. *)
Theorem run_open us sk fl : Forall token_ok us -> trun E us ([[]; []], no_flags) = Some (sk, fl) ->
  exists l, leaves_open us l /\ reaches us l sk fl.
Proof.
  revert sk fl. induction us as [|t us IH] using rev_ind; intros sk fl Hok Hr.
  - exists []. split; [constructor|]. cbn in Hr. injection Hr as <- <-. split; [reflexivity|]. split; [exists []; reflexivity|].
    exists false. split; [exists []; split; reflexivity|]. split; [discriminate|]. split; [reflexivity|]. intros _ H. now destruct H.
  - apply Forall_app in Hok as [Hok Ht]. inversion Ht as [|? ? Ht' _]; subst. rewrite trun_app in Hr.
    destruct (trun E us ([[]; []], no_flags)) as [[sk0 fl0]|] eqn:Eu; [|discriminate]. cbn [obind' trun] in Hr.
    destruct (IH _ _ Hok eq_refl) as [l [HL HR]].
    assert (Hs : tstep E t (sk0, fl0) = Some (sk, fl)) by (destruct (tstep E t (sk0, fl0)); [exact Hr|discriminate]). clear Hr.
    assert (Hdone : forall l' sk' fl', leaves_open (us ++ [t]) l' -> reaches (us ++ [t]) l' sk' fl' -> exists l, leaves_open (us ++ [t]) l /\ reaches (us ++ [t]) l sk fl).
    { intros l' sk' fl' H1 H2. pose proof H2 as [H3 _]. rewrite (trun_last _ _ _ _ Eu), Hs in H3. injection H3 as <- <-. eauto. }
    pose proof HR as [_ [_ [b [HO _]]]].
    destruct t as [c|x| | |h closed|name]; cbn [tstep] in Hs.
    + eapply Hdone; [apply open_blank; [exact HL|exact I]|apply reach_blank; [exact HR|exact I]].
    + eapply Hdone; [apply open_blank; [exact HL|exact I]|apply reach_blank; [exact HR|exact I]].
    + destruct l as [|[x|f] l]; cbn [Open] in HO.
      * destruct HO as [lv [-> _]]. discriminate.
      * destruct (reach_begin _ _ _ _ _ HR) as [sk' HR']. eapply Hdone; [apply open_begin; exact HL|exact HR'].
      * destruct HO as [lv [sk' [-> _]]]. discriminate.
    + destruct l as [|[x|f] l]; cbn [Open] in HO.
      * destruct HO as [lv [-> _]]. destruct lv as [|n [|]]; discriminate.
      * destruct HO as [r [t [rest [-> _]]]]. discriminate.
      * destruct HO as [lv [sk' [-> [HV _]]]]. destruct f.
        -- destruct (reach_end _ _ _ _ HR) as [sk'' HR']. eapply Hdone; [apply open_end; exact HL|exact HR'].
        -- destruct lv as [|n [|]]; [discriminate|discriminate|destruct HV].
    + destruct (head_meaning (regex_meaning E) h fl0) as [[f fl1]|] eqn:Eh; [|discriminate]. destruct closed.
      * destruct (reach_closed _ _ _ _ _ _ _ HR Eh) as [sk' HR']. eapply Hdone; [apply open_closed; exact HL|exact HR'].
      * destruct (reach_element _ _ _ _ _ _ _ HR Eh) as [sk' HR']. eapply Hdone; [apply open_element; exact HL|exact HR'].
    + destruct l as [|[x|f] l]; cbn [Open] in HO.
      * destruct HO as [lv [-> _]]. discriminate.
      * destruct HO as [r [t [rest [-> [HS HO]]]]]. cbn [check_close'] in Hs. destruct (closes' r name) eqn:Ec; [|discriminate].
        apply (closes_same _ _ _ HS Ht') in Ec. cbn [h_name] in Ec. destruct (reach_close _ _ _ _ _ _ Ht' HR Ec) as [sk'' HR'].
        eapply Hdone; [eapply open_close; [exact HL|exact Ec]|exact HR'].
      * destruct HO as [lv [sk' [-> _]]]. discriminate.
Qed.

End Tokens.
