(** The regexes and numbers of tokens. *)

From Coq Require Import Ascii String NArith ZArith Bool List Lia.
From Verif Require Import Base StringUtil StringSpec StringProofs Tags Dom NodeUtil Values ValueProofs Match Rule Regular RegularProofs ParserTables Parser MachineRows Grammar GrammarSpec GrammarCheck
  GrammarProofs GrammarTexts TextSpec LocationProofs SafetyCheck ParserSpec SafetyProofs ParserSafety
  SyntaxSpec SyntaxWords SyntaxRun SyntaxMeaning SyntaxTree SyntaxProofs ErrorSpec ErrorRun.
Import ListNotations.

Section Parts.

Variable E : engine.

Definition flags_after (ps : list tpart) (fl : flags) : flags := fold_left flags_then ps fl.

Lemma flags_after_app u v fl : flags_after (u ++ v) fl = flags_after v (flags_after u fl).
Proof. apply fold_left_app. Qed.

Lemma fits_app u v fl : fits E fl (u ++ v) <-> fits E fl u /\ fits E (flags_after u fl) v.
Proof. revert fl. induction u as [|p u IH]; intros fl; cbn [app fits flags_after fold_left]; [tauto|]. rewrite IH. unfold flags_after. tauto. Qed.

(** ** Meanings *)

(** A meaning exists if the parts fit. *)
Definition M {A} (m : meaning A) (ps : list tpart) : Prop :=
  forall fl, match m fl with Some (_, fl') => fits E fl ps /\ fl' = flags_after ps fl | None => ~ fits E fl ps end.

Lemma M_ret {A} (a : A) : M (ret a) [].
Proof. intros fl. cbn. auto. Qed.
Lemma M_bind {A B} (m : meaning A) (f : A -> meaning B) ps qs : M m ps -> (forall a, M (f a) qs) -> M (bind m f) (ps ++ qs).
Proof.
  intros Hm Hf fl. unfold bind. specialize (Hm fl). destruct (m fl) as [[a fl']|]; [|intros H; apply fits_app in H as [H _]; contradiction].
  destruct Hm as [H1 ->]. specialize (Hf a (flags_after ps fl)). destruct (f a (flags_after ps fl)) as [[b fl2]|].
  - destruct Hf as [H2 ->]. split; [now apply fits_app|now rewrite flags_after_app].
  - intros H. apply fits_app in H as [_ H]. contradiction.
Qed.
Lemma M_then {A B} (m : meaning A) (f : A -> B) ps : M m ps -> M (bind m (fun a => ret (f a))) ps.
Proof. intros H. rewrite <- (app_nil_r ps). apply M_bind; [exact H|]. intros a. apply M_ret. Qed.
Lemma M_text {A} (m : meaning A) x ps : M m ps -> M m (PText x :: ps).
Proof. intros H fl. specialize (H fl). destruct (m fl) as [[a fl']|]; cbn [fits part_fits flags_then]; [|tauto]. destruct H as [H1 H2]. auto. Qed.
Lemma M_last {A} (m : meaning A) x ps : M m ps -> M m (ps ++ [PText x]).
Proof.
  intros H fl. specialize (H fl). destruct (m fl) as [[a fl']|].
  - destruct H as [H1 ->]. split; [apply fits_app; cbn; auto|]. rewrite flags_after_app. reflexivity.
  - intros HF. apply fits_app in HF as [HF _]. contradiction.
Qed.
Lemma M_each {A B} (f : A -> meaning B) (g : A -> list tpart) l : (forall a, M (f a) (g a)) -> M (each f l) (flat_map g l).
Proof.
  intros H. induction l as [|a l IH]; cbn [each flat_map]; [apply M_ret|]. apply M_bind; [apply H|]. intros b. now apply M_then.
Qed.

Lemma M_regex r : M (regex_meaning E r) [PRegex r].
Proof.
  intros fl. unfold regex_meaning. cbv zeta. cbn [fits part_fits flags_after fold_left flags_then]. unfold regex_of. cbv zeta.
  destruct (eng_compile E _) eqn:Ee.
  - intros [H _]. discriminate.
  - auto.
Qed.
Lemma M_number sg m ds : str_eqb sg (s "-") = m -> M (number_meaning m ds) [PNumber sg ds].
Proof.
  intros Hm fl. unfold number_meaning. cbn [fits part_fits flags_after fold_left flags_then]. unfold number_of. rewrite Hm.
  destruct (fits_int _); cbn; [auto|]. intros [H _]. discriminate.
Qed.

Lemma M_nth n : M (nth_meaning n) (nth_parts n).
Proof.
  destruct n as [| |m ds|m ds|m ds m' ds']; cbn [nth_meaning nth_parts].
  - apply M_text, M_ret.
  - apply M_text, M_ret.
  - apply M_then, M_number. apply minus_sign.
  - apply (M_last _ _ ([PNumber (minus_text m) ds])). apply M_then, M_number. apply minus_sign.
  - apply (M_bind _ _ ([PNumber (minus_text m) ds])); [apply M_number, minus_sign|]. intros z. apply M_text. apply M_then, M_number. apply sign_sign.
Qed.

Lemma M_trait t : M (trait_meaning (regex_meaning E) t) (trait_parts t).
Proof.
  destruct t as [|ds|ds|[] [] n|[] []|[]|r]; cbn [trait_meaning trait_parts]; try (apply M_text, M_ret).
  - apply M_text. apply (M_last _ _ ([PNumber [] ds])). now apply M_then, M_number.
  - apply M_text. apply (M_last _ _ ([PNumber [] ds])). now apply M_then, M_number.
  - apply M_text, M_last, M_then, M_nth.
  - apply M_text, M_last, M_then, M_nth.
  - apply M_text, M_last, M_then, M_nth.
  - apply M_text, M_last, M_then, M_nth.
  - apply M_text. apply (M_last _ _ ([PRegex r])). apply M_then, M_regex.
Qed.

Lemma M_condition c : M (condition_meaning (regex_meaning E) c) (condition_parts c).
Proof.
  destruct c as [t|t ts]; cbn [condition_meaning condition_parts]; [apply M_trait|]. apply M_text. rewrite app_assoc. apply M_last, M_then.
  exact (M_each _ _ (t :: ts) M_trait).
Qed.

Lemma M_pipe p : M (pipe_meaning (regex_meaning E) p) (pipe_parts p).
Proof.
  destruct p as [|q| | | |q|q|r|r sp sp' q]; cbn [pipe_meaning pipe_parts]; try (apply M_text, M_ret);
    apply M_text, (M_last _ _ ([PRegex r])), M_then, M_regex.
Qed.

Lemma M_test v : M (value_test_meaning (regex_meaning E) v) (test_parts v).
Proof.
  destruct v as [r|[] q]; cbn [value_test_meaning test_parts]; try (apply M_text, M_ret). apply M_text, M_then, M_regex.
Qed.

Lemma M_end {A} (m : meaning A) ps : M m ps -> M (bind m (fun a _ => Some (a, no_flags))) (ps ++ [PEnd]).
Proof.
  intros H. apply M_bind; [exact H|]. intros a fl. cbn. auto.
Qed.

Lemma M_pattern p : M (pattern_meaning (regex_meaning E) p) (pattern_parts p).
Proof.
  unfold pattern_meaning. destruct p as [b ps n|b v ng|a ps n o|a v ng|a ng]; cbn [pattern_parts].
  - change [PText (s ":" ++ cap_name_text n); PEnd] with ([PText (s ":" ++ cap_name_text n)] ++ [PEnd]). rewrite app_assoc. apply M_text, M_end, M_last, M_then, M_each, M_pipe.
  - change [PText (negation_text ng); PEnd] with ([PText (negation_text ng)] ++ [PEnd]). rewrite app_assoc. apply M_text, M_end, M_last, M_then, M_test.
  - change [PText (s ":" ++ cap_name_text n ++ optional_text o); PEnd] with ([PText (s ":" ++ cap_name_text n ++ optional_text o)] ++ [PEnd]). rewrite app_assoc.
    apply M_text, M_end, M_last, M_then, M_each, M_pipe.
  - change [PText (negation_text ng); PEnd] with ([PText (negation_text ng)] ++ [PEnd]). rewrite app_assoc. apply M_text, M_end, M_last, M_then, M_test.
  - apply M_text, (M_end _ []), M_ret.
Qed.

Lemma M_head h : M (head_meaning (regex_meaning E) h) (head_parts h).
Proof.
  unfold head_meaning, head_parts. apply M_text, M_bind; [apply M_each, M_condition|]. intros ms. apply M_last, M_then.
  apply (M_each _ (fun sp => PText (fst sp) :: pattern_parts (snd sp))). intros sp. apply M_text, M_pattern.
Qed.

Lemma M_tokens ts : M (each (head_meaning (regex_meaning E)) (heads ts)) (all_parts ts).
Proof.
  induction ts as [|t ts IH]; [apply M_ret|].
  change (all_parts (t :: ts)) with (token_parts t ++ all_parts ts).
  destruct t as [c|x| | |h closed|name]; try (apply M_text; exact IH).
  change (heads (TOpen h closed :: ts)) with (h :: heads ts). cbn [each token_parts]. apply M_bind; [apply M_last, M_head|]. intros f. apply M_then. exact IH.
Qed.

Lemma meant_acceptable ts : meant E ts <-> acceptable E ts.
Proof.
  unfold meant, acceptable. pose proof (M_tokens ts no_flags) as H. destruct (each _ (heads ts) no_flags) as [[l fl]|].
  - destruct H as [H _]. split; [auto|]. intros _. eauto.
  - split; [intros [l [fl H']]; discriminate|contradiction].
Qed.

Lemma reaches_flags us l sk fl : reaches E us l sk fl -> acceptable E us /\ fl = flags_after (all_parts us) no_flags.
Proof.
  intros [_ [[rs H] _]]. pose proof (M_tokens us no_flags) as HM. rewrite H in HM. exact HM.
Qed.

(** ** Words *)

(** The actions that neither change the flags nor look at them, and do not read
    numbers. *)
Definition plain_actions : list N :=
  Eval vm_compute in filter (fun a => negb (existsb (N.eqb a) [15; 18; 25; 26; 27; 31; 33; 75]%N)) (map N.of_nat (seq 0 83)).
Definition plain_action (a : N) : bool := existsb (N.eqb a) plain_actions.
Definition plain (w : list item) : bool := forallb plain_action (marks w).

Lemma plain_app u v : plain (u ++ v) = plain u && plain v.
Proof. unfold plain. now rewrite marks_app, forallb_app. Qed.
Lemma plain_chs x : plain (chs x) = true.
Proof. unfold plain. induction x as [|c x IH]; [reflexivity|]. exact IH. Qed.
Lemma plain_cons_chr c w : plain (IChr c :: w) = plain w. Proof. reflexivity. Qed.
Lemma plain_cons_act a w : plain (IAct a :: w) = plain_action a && plain w. Proof. reflexivity. Qed.
Lemma plain_quoted a q : a = 8%N \/ a = 4%N -> plain (w_quoted a q) = true.
Proof.
  intros [-> | ->]; unfold w_quoted, w_delimited; destruct (Ascii.eqb (q_mark q) quote);
    rewrite plain_cons_chr, plain_cons_act, plain_app, plain_chs; reflexivity.
Qed.

(** [W w ps]: the word [w] has the parts [ps]. *)
Inductive W : list item -> list tpart -> Prop :=
| W_silent w : plain w = true -> chars w = [] -> W w []
| W_text w x : plain w = true -> chars w = x -> W w [PText x]
| W_regex r : regex_ok r -> W (w_regex r) [PRegex r]
| W_number a0 a sg ds : In (a0, a) [(14, 15); (17, 18); (30, 31); (32, 33)]%N -> is_sign sg -> is_digits ds ->
    W (IAct a0 :: chs sg ++ chs ds ++ [IAct a]) [PNumber sg ds]
| W_end : W [IAct 75] [PEnd]
| W_app w1 w2 ps1 ps2 : W w1 ps1 -> W w2 ps2 -> W (w1 ++ w2) (ps1 ++ ps2).

Lemma W_nil : W [] [].
Proof. now apply W_silent. Qed.
Lemma W_cons w1 w2 p ps : W w1 [p] -> W w2 ps -> W (w1 ++ w2) (p :: ps).
Proof. apply (W_app w1 w2 [p] ps). Qed.
Lemma W_then w1 w2 ps : W w1 ps -> plain w2 = true -> chars w2 = [] -> W (w1 ++ w2) ps.
Proof. intros H1 H2 H3. rewrite <- (app_nil_r ps). apply W_app; [exact H1|now apply W_silent]. Qed.
Lemma W_flat {A} (f : A -> list item) (g : A -> list tpart) l : (forall a, In a l -> W (f a) (g a)) -> W (flat_map f l) (flat_map g l).
Proof.
  induction l as [|a l IH]; intros H; cbn [flat_map]; [apply W_nil|]. apply W_app; [apply H; now left|]. apply IH. intros b Hb. apply H. now right.
Qed.
Lemma W_eq w w' ps : W w ps -> w = w' -> W w' ps.
Proof. now intros H <-. Qed.

Lemma W_nth n : nth_ok n -> W (w_nth n) (nth_parts n).
Proof.
  destruct n as [| |m ds|m ds|m ds m' ds']; cbn [nth_ok w_nth nth_parts]; intros H.
  - now apply W_text.
  - now apply W_text.
  - apply W_number; [now left|apply minus_sign|exact H].
  - eapply W_eq; [apply (W_cons (IAct 14 :: chs (minus_text m) ++ chs ds ++ [IAct 15]) [IChr "n"%char; IAct 16])|].
    + apply W_number; [now left|apply minus_sign|exact H].
    + now apply W_text.
    + cbn [app]. now rewrite <- !app_assoc.
  - destruct H as [H H']. eapply W_eq; [apply (W_cons (IAct 14 :: chs (minus_text m) ++ chs ds ++ [IAct 15])
      ([IChr "n"%char; IAct 16] ++ IAct 17 :: chs (sign_text m') ++ chs ds' ++ [IAct 18]))|].
    + apply W_number; [now left|apply minus_sign|exact H].
    + apply W_cons; [now apply W_text|]. apply W_number; [now right; left|apply sign_sign|exact H'].
    + cbn [app]. now rewrite <- !app_assoc.
Qed.

Lemma W_trait t : trait_ok t -> W (w_trait t) (trait_parts t).
Proof.
  destruct t as [|ds|ds|[] [] n|[] []|[]|r]; cbn [trait_ok w_trait trait_parts]; intros H; try (now apply W_text).
  - eapply W_eq; [apply (W_cons (IChr ":"%char :: chs (s "child-count(")) ((IAct 30 :: chs [] ++ chs ds ++ [IAct 31]) ++ [IChr ")"%char]))|].
    + now apply W_text.
    + apply W_cons; [|now apply W_text]. apply W_number; [now right; right; left|now left|exact H].
    + cbn [app chs map]. now rewrite <- !app_assoc.
  - eapply W_eq; [apply (W_cons (IChr ":"%char :: chs (s "attribute-count(")) ((IAct 32 :: chs [] ++ chs ds ++ [IAct 33]) ++ [IChr ")"%char]))|].
    + now apply W_text.
    + apply W_cons; [|now apply W_text]. apply W_number; [now right; right; right; left|now left|exact H].
    + cbn [app chs map]. now rewrite <- !app_assoc.
  - apply (W_cons (IChr ":"%char :: chs (s "nth-of-type("))); [now apply W_text|]. apply W_app; [now apply W_nth|now apply W_text].
  - apply (W_cons (IChr ":"%char :: chs (s "nth-child("))); [now apply W_text|]. apply W_app; [now apply W_nth|now apply W_text].
  - apply (W_cons (IChr ":"%char :: chs (s "nth-last-of-type("))); [now apply W_text|]. apply W_app; [now apply W_nth|now apply W_text].
  - apply (W_cons (IChr ":"%char :: chs (s "nth-last-child("))); [now apply W_text|]. apply W_app; [now apply W_nth|now apply W_text].
  - apply (W_cons (IChr ":"%char :: chs (s "type-matches("))); [now apply W_text|]. apply W_cons; [now apply W_regex|now apply W_text].
Qed.

Lemma W_condition c : condition_ok c -> W (w_condition c) (condition_parts c).
Proof.
  destruct c as [t|t ts]; cbn [condition_ok w_condition condition_parts].
  - intros H. apply W_then; [now apply W_trait|reflexivity|reflexivity].
  - intros [H Hs]. apply (W_cons (chs (s ":not(") ++ [IAct 45]) (w_not_part t ++ flat_map w_not_part ts ++ [IChr ")"%char; IAct 81])); [now apply W_text|].
    apply W_app; [apply W_then; [now apply W_trait|reflexivity|reflexivity]|]. apply W_app; [|now apply W_text]. apply W_flat. intros a Ha.
    apply W_then; [apply W_trait|reflexivity|reflexivity]. rewrite Forall_forall in Hs. auto.
Qed.

Ltac plain_word := repeat (rewrite plain_app || rewrite plain_cons_chr || rewrite plain_cons_act || rewrite plain_chs).

Lemma plain_pipe p : match p with PlFilter _ | PlReplace _ _ _ _ => True | _ => plain (w_pipe p) = true end.
Proof.
  destruct p; try exact I; try reflexivity; unfold w_pipe; rewrite plain_cons_chr, plain_cons_act, plain_app, plain_chs, plain_app, plain_quoted by auto; reflexivity.
Qed.

Lemma W_pipe p : pipe_ok p -> W (w_pipe p) (pipe_parts p).
Proof.
  intros H. pose proof (plain_pipe p) as HP. pose proof (chars_pipe p H) as HC.
  destruct p as [|q| | | |q|q|r|r sp sp' q]; cbn [pipe_parts]; try (apply W_text; assumption); cbn [pipe_ok w_pipe] in *.
  - apply (W_cons (IChr ":"%char :: IAct 60 :: chs (s "filter("))); [now apply W_text|]. apply W_cons; [now apply W_regex|now apply W_text].
  - destruct H as [Hr [_ [_ Hq]]].
    apply (W_cons (IChr ":"%char :: IAct 60 :: chs (s "replace("))); [now apply W_text|]. apply W_cons; [now apply W_regex|]. apply W_text.
    + rewrite plain_app, plain_chs, plain_cons_chr, plain_app, plain_chs, plain_app, plain_quoted by auto. reflexivity.
    + rewrite chars_app, chars_chs, chars_cons_chr, chars_app, chars_chs, chars_app, chars_quoted by exact Hq. reflexivity.
Qed.

Lemma W_test v : value_test_ok v -> W (w_test v) (test_parts v).
Proof.
  intros H. pose proof (chars_test v H) as HC. destruct v as [r|o q]; cbn [value_test_ok w_test test_parts] in *.
  - unfold w_regex_test. apply W_cons; [now apply W_text|]. apply W_then; [now apply W_regex|reflexivity|reflexivity].
  - apply W_text; [|exact HC]. unfold w_literal_test. destruct o; rewrite plain_app, plain_chs, plain_app, plain_quoted by auto; reflexivity.
Qed.

Lemma W_pipes ps : Forall pipe_ok ps -> W (flat_map w_pipe ps) (flat_map pipe_parts ps).
Proof. intros H. apply W_flat. intros p Hp. apply W_pipe. rewrite Forall_forall in H. auto. Qed.

Lemma W_name n w x : cap_name_ok n -> plain w = true -> chars w = x -> W (IChr ":"%char :: w_cap_name n ++ w) [PText (s ":" ++ cap_name_text n ++ x)].
Proof.
  intros Hn Hw Hx. apply W_text.
  - rewrite plain_cons_chr, plain_app, Hw. destruct n as [q|y]; cbn [w_cap_name].
    + rewrite plain_app, plain_quoted by auto. reflexivity.
    + rewrite plain_cons_act, plain_app, plain_chs. reflexivity.
  - rewrite chars_cons_chr, chars_app, Hx. destruct n as [q|y]; cbn [w_cap_name cap_name_ok cap_name_text] in *.
    + rewrite chars_app, chars_quoted by exact Hn. cbn. now rewrite app_nil_r.
    + rewrite chars_cons_act, chars_app, chars_chs. cbn. now rewrite app_nil_r.
Qed.

Lemma W_builtin b : W (w_builtin b) [PText (builtin_text b)].
Proof. destruct b; now apply W_text. Qed.
Lemma W_attr_name a : W (w_attr_name a) [PText a].
Proof. apply W_text; [|apply chars_attr_name]. unfold w_attr_name. rewrite plain_cons_act, plain_app, plain_chs. reflexivity. Qed.

Lemma W_pattern p : pattern_ok p -> W (w_pattern p) (pattern_parts p).
Proof.
  destruct p as [b ps n|b v ng|a ps n o|a v ng|a ng]; cbn [pattern_ok w_pattern pattern_parts]; intros H.
  - destruct H as [Hps Hn]. unfold w_capture. eapply W_eq;
      [apply (W_cons (w_builtin b) (flat_map w_pipe ps ++ (IChr ":"%char :: w_cap_name n ++ [IAct 67]) ++ [IAct 75]))|].
    + apply W_builtin.
    + apply W_app; [now apply W_pipes|]. apply W_cons; [|apply W_end]. pose proof (W_name n [IAct 67] [] Hn eq_refl eq_refl) as HW.
      now rewrite app_nil_r in HW.
    + rewrite <- !app_assoc. cbn [app]. now rewrite <- !app_assoc.
  - apply (W_cons (w_builtin b)); [apply W_builtin|]. apply W_app; [now apply W_test|].
    apply (W_eq ((w_negate ng ++ [IAct (match v with VRegex _ => 68 | _ => 69 end)]) ++ [IAct 75])); [|now rewrite <- app_assoc].
    apply W_cons; [|apply W_end]. destruct ng, v; now apply W_text.
  - destruct H as [Ha [Hps Hn]]. unfold w_capture. eapply W_eq;
      [apply (W_cons (w_attr_name a) (flat_map w_pipe ps ++ (IChr ":"%char :: w_cap_name n ++ (w_optional o ++ [IAct 70])) ++ [IAct 75]))|].
    + apply W_attr_name.
    + apply W_app; [now apply W_pipes|]. apply W_cons; [|apply W_end]. apply W_name; [exact Hn| |]; now destruct o.
    + rewrite <- !app_assoc. cbn [app]. now rewrite <- !app_assoc.
  - destruct H as [Ha H]. apply (W_cons (w_attr_name a)); [apply W_attr_name|]. apply W_app; [now apply W_test|].
    apply (W_eq ((w_negate ng ++ [IAct (match v with VRegex _ => 71 | _ => 72 end)]) ++ [IAct 75])); [|now rewrite <- app_assoc].
    apply W_cons; [|apply W_end]. destruct ng, v; now apply W_text.
  - apply (W_eq ((w_attr_name a ++ IAct 73 :: w_negate ng ++ [IAct 74]) ++ [IAct 75])).
    + apply W_cons; [|apply W_end]. apply W_text.
      * unfold w_attr_name. destruct ng; cbn [w_negate app]; plain_word; reflexivity.
      * rewrite chars_app, chars_attr_name, chars_cons_act, chars_app, chars_negate. now rewrite app_nil_r.
    + rewrite <- app_assoc. cbn [app]. now rewrite <- app_assoc.
Qed.

(** The word of an opening tag without its end. *)
Definition w_head (h : head) : list item :=
  IChr "<"%char :: IAct 76 :: flat_map w_option (h_options h) ++ IAct 79 :: chs (h_name h) ++ IAct 80 ::
  flat_map w_condition (h_conditions h) ++ flat_map w_spaced (h_patterns h) ++ chs (h_space h).
Definition w_tail (closed : bool) : list item := if closed then chs (s "/>") ++ [IAct 83] else [IChr ">"%char].

Lemma w_open_head h closed : w_open h closed = w_head h ++ w_tail closed.
Proof. unfold w_open, w_head, w_tail. cbn [app]. rewrite <- !app_assoc. cbn [app]. rewrite <- !app_assoc. cbn [app]. now rewrite <- !app_assoc. Qed.

Lemma W_head h : head_ok h -> W (w_head h) (head_parts h).
Proof.
  intros [_ [Hc [Hp _]]]. unfold head_parts.
  apply (W_eq ((IChr "<"%char :: IAct 76 :: flat_map w_option (h_options h) ++ IAct 79 :: chs (h_name h) ++ [IAct 80]) ++
    (flat_map w_condition (h_conditions h) ++ flat_map w_spaced (h_patterns h) ++ chs (h_space h)))).
  2:{ unfold w_head. cbn [app]. rewrite <- !app_assoc. cbn [app]. now rewrite <- !app_assoc. }
  apply W_cons.
  - apply W_text.
    + rewrite plain_cons_chr, plain_cons_act, plain_app, plain_cons_act, plain_app, plain_chs.
      replace (plain (flat_map w_option (h_options h))) with true; [reflexivity|]. symmetry.
      induction (h_options h) as [|[] l IH]; [reflexivity| |]; cbn [flat_map]; rewrite plain_app, IH; reflexivity.
    + rewrite chars_cons_chr, chars_cons_act, chars_app, chars_cons_act, chars_app, chars_chs, (chars_flat w_option (fun f => [option_text f])) by (intros [|] _; reflexivity).
      replace (flat_map (fun f => [option_text f]) (h_options h)) with (map option_text (h_options h))
        by (induction (h_options h) as [|f l IH]; [reflexivity|cbn; now f_equal]).
      cbn. now rewrite app_nil_r.
  - apply W_app; [apply W_flat; intros c Hin; apply W_condition; rewrite Forall_forall in Hc; auto|].
    apply W_app; [|apply W_text; [apply plain_chs|apply chars_chs]].
    apply (W_flat w_spaced (fun sp => PText (fst sp) :: pattern_parts (snd sp))). intros sp Hin. unfold w_spaced.
    apply W_cons; [apply W_text; [apply plain_chs|apply chars_chs]|]. apply W_pattern. rewrite Forall_forall in Hp. now apply Hp.
Qed.

(** ** Running words *)

Definition kflags (k : kst) : flags := mk_flags (pv_icase (k_pv k)) (pv_collate (k_pv k)).

Lemma plain_in a : plain_action a = true -> In a plain_actions.
Proof. unfold plain_action. intros H. apply existsb_exists in H as [b [Hb H]]. apply N.eqb_eq in H as ->. exact Hb. Qed.

Ltac each_action Ha := apply plain_in in Ha; unfold plain_actions in Ha; cbn [In] in Ha; repeat (destruct Ha as [<-|Ha]); [..|contradiction].

Lemma stop_flags k k' : k_stop k = Some k' -> kflags k' = kflags k /\ k_pv k' = k_pv k.
Proof. unfold k_stop. destruct (k_cur k); [|discriminate]. cbn [option_map]. intros H. now injection H as <-. Qed.

Lemma plain_flags a k k' : plain_action a = true -> kaction E a k = Some k' -> kflags k' = kflags k.
Proof.
  intros Ha. destruct k as [[|[|r0 t0] rest] pv cur tok]; destruct pv as [x1 x2 x3 x4 x5 x6 x7 x8 x9 x10 x11 x12 x13]; each_action Ha; cbn [kaction];
    unfold k_pvs, k_token, k_need, k_rule, k_update, k_stop, k_start, nth_of, add_pipe, k_stacked; cbn [k_pv k_stacks k_cur k_tok pv_regex pv_negate pv_pipe obind' option_map];
    intros H;
    repeat match type of H with
    | obind' (option_map _ ?o) _ = Some _ => destruct o; cbn [option_map obind'] in H; [|discriminate]
    | option_map _ ?o = Some _ => destruct o; cbn [option_map] in H; [|discriminate]
    | obind' ?o _ = Some _ => destruct o as [|] eqn:?; cbn [obind'] in H; [|discriminate]
    | match ?l with _ => _ end = Some _ => destruct l as [|] eqn:?; try discriminate
    end; try discriminate; injection H as <-; reflexivity.
Qed.


Lemma plain_word_flags w : forall k k', plain w = true -> crun E w k = Some k' -> kflags k' = kflags k.
Proof.
  induction w as [|[a|c] w IH]; intros k k' Hw H; cbn [crun] in H.
  - now injection H as <-.
  - rewrite plain_cons_act in Hw. apply andb_true_iff in Hw as [Ha Hw]. destruct (kaction E a k) as [k1|] eqn:Ek; [|discriminate]. cbn [obind'] in H.
    rewrite (IH _ _ Hw H). now apply (plain_flags a).
  - rewrite (IH _ _ Hw H). reflexivity.
Qed.

(** The word of a regex or a number, without the action that ends it. *)
Definition checks (p : tpart) (wx : list item) (a : N) : Prop :=
  match p with
  | PRegex r => regex_ok r /\ wx = w_regex_body r ++ flat_map w_flag (rl_flags r) /\ a = 27%N
  | PNumber sg ds => is_sign sg /\ is_digits ds /\ exists a0, In (a0, a) [(14, 15); (17, 18); (30, 31); (32, 33)]%N /\ wx = IAct a0 :: chs sg ++ chs ds
  | _ => False
  end.

Lemma checks_chars p wx a : checks p wx a -> chars wx = part_text p.
Proof.
  destruct p as [x|sg ds|r|]; cbn [checks part_text]; [contradiction| | |contradiction].
  - intros [_ [_ [a0 [_ ->]]]]. rewrite chars_cons_act, chars_app, !chars_chs. reflexivity.
  - intros [Hr [-> _]]. pose proof (chars_regex r Hr) as H. unfold w_regex in H. rewrite app_assoc, chars_app in H. cbn in H. now rewrite app_nil_r in H.
Qed.

(** What is known when the check runs. *)
Definition checked (p : tpart) (k k1 : kst) : Prop :=
  match p with
  | PRegex r => k_tok k1 = rl_body r /\ kflags k1 = fold_left add_flag (rl_flags r) (kflags k) /\
      exists x, k_cur k1 = Some x /\ S (length x) = length (regex_text r)
  | PNumber sg ds => k_cur k1 = Some (sg ++ ds) /\ kflags k1 = kflags k
  | _ => False
  end.

Lemma crun_chs' x : forall w k, crun E (chs x ++ w) k = crun E w (mk_k (k_stacks k) (k_pv k) (option_map (fun y => y ++ x) (k_cur k)) (k_tok k)).
Proof.
  induction x as [|c x IH]; intros w [sk pv cur tok]; cbn [chs map app crun].
  - f_equal. cbn. destruct cur; cbn; [now rewrite app_nil_r|reflexivity].
  - rewrite IH. f_equal. unfold k_chr. cbn. destruct cur; cbn; [now rewrite <- app_assoc|reflexivity].
Qed.

Lemma flags_word l : forall k x, k_cur k = Some x ->
  exists k1, crun E (flat_map w_flag l) k = Some k1 /\ k_tok k1 = k_tok k /\ kflags k1 = fold_left add_flag l (kflags k) /\ k_cur k1 = Some (x ++ map flag_text l).
Proof.
  induction l as [|f l IH]; intros k x Hx; cbn [flat_map map fold_left].
  - exists k. rewrite app_nil_r. cbn. auto.
  - destruct k as [sk pv cur tok]. cbn [k_cur] in Hx. subst cur. rewrite crun_app.
    destruct f; cbn [w_flag crun obind' k_chr kaction k_pvs k_with_pv k_stacks k_pv k_cur k_tok option_map flag_text].
    + destruct (IH (mk_k sk (set_icase pv) (Some (x ++ ["i"%char])) tok) _ eq_refl) as [k1 [H1 [H2 [H3 H4]]]]. exists k1. rewrite <- app_assoc in H4.
      split; [exact H1|]. split; [exact H2|]. split; [|exact H4]. rewrite H3. f_equal. destruct pv; reflexivity.
    + destruct (IH (mk_k sk (set_collate pv) (Some (x ++ ["c"%char])) tok) _ eq_refl) as [k1 [H1 [H2 [H3 H4]]]]. exists k1. rewrite <- app_assoc in H4.
      split; [exact H1|]. split; [exact H2|]. split; [|exact H4]. rewrite H3. f_equal. destruct pv; reflexivity.
Qed.

Lemma body_word m a b x k : kaction E a = (fun k => Some (k_start k)) -> kaction E b = k_stop ->
  exists k1, crun E (w_delimited m a b x) k = Some k1 /\ k_tok k1 = x /\ kflags k1 = kflags k /\ k_cur k1 = Some (x ++ [m]).
Proof.
  intros Ha Hb. unfold w_delimited. cbn [crun]. rewrite Ha. cbn [obind']. rewrite crun_chs'. cbn [crun k_start k_cur k_stacks k_pv k_tok option_map app]. rewrite Hb.
  cbn [k_stop k_cur option_map obind' crun]. eexists. split; [reflexivity|]. auto.
Qed.

Lemma regex_body_word r k : exists m k1, crun E (w_regex_body r) k = Some k1 /\ k_tok k1 = rl_body r /\ kflags k1 = kflags k /\ k_cur k1 = Some (rl_body r ++ [m]).
Proof.
  unfold w_regex_body. destruct (Ascii.eqb (rl_mark r) "/"); [|destruct (Ascii.eqb (rl_mark r) apostrophe)]; eexists; apply body_word; reflexivity.
Qed.

Lemma checks_run p wx a k : checks p wx a -> exists k1, crun E wx k = Some k1 /\ checked p k k1.
Proof.
  destruct p as [x|sg ds|r|]; cbn [checks checked]; [contradiction| | |contradiction].
  - intros [Hs [Hd [a0 [Ha ->]]]].
    assert (H0 : kaction E a0 = fun k => Some (k_start k)) by (cbn [In] in Ha; repeat (destruct Ha as [Ha|Ha]; [injection Ha as <- <-; reflexivity|]); contradiction).
    cbn [crun]. rewrite H0. cbn [obind']. rewrite crun_chs'. rewrite <- (app_nil_r (chs ds)), crun_chs'. cbn [crun k_start k_cur k_stacks k_pv k_tok option_map app].
    eexists. split; [reflexivity|]. split; reflexivity.
  - intros [Hr [-> _]]. destruct (regex_body_word r k) as [m [k1 [H1 [H2 [H3 H4]]]]]. destruct (flags_word (rl_flags r) k1 _ H4) as [k2 [K1 [K2 [K3 K4]]]].
    exists k2. rewrite crun_app, H1. cbn [obind']. split; [exact K1|]. split; [congruence|]. split; [now rewrite K3, H3|].
    eexists. split; [exact K4|]. unfold regex_text. cbn [length]. rewrite !app_length. cbn [length]. rewrite map_length. lia.
Qed.

Lemma stoi_part sg ds : is_sign sg -> is_digits ds -> stoi (sg ++ ds) = if fits_int (number_of sg ds) then Ok (number_of sg ds) else Throw StdOutOfRange.
Proof. intros Hs [H1 H2]. rewrite (stoi_sign sg ds Hs H1 (digits_forall ds H2)). reflexivity. Qed.

Lemma checked_fits p wx a k k1 : checks p wx a -> checked p k k1 ->
  match kaction E a k1 with
  | Some k2 => part_fits E (kflags k) p /\ kflags k2 = flags_then (kflags k) p
  | None => ~ part_fits E (kflags k) p
  end.
Proof.
  destruct p as [x|sg ds|r|]; cbn [checks checked part_fits flags_then]; [contradiction| | |contradiction].
  - intros [Hs [Hd [a0 [Ha _]]]] [Hc Hf].
    assert (Hk : exists f, kaction E a k1 = k_number k1 f /\ forall v z, pv_icase (f v z) = pv_icase v /\ pv_collate (f v z) = pv_collate v).
    { cbn [In] in Ha. repeat (destruct Ha as [Ha|Ha]; [injection Ha as <- <-; cbn [kaction]; eexists; split; [reflexivity|intros [] z; split; reflexivity]|]). contradiction. }
    destruct Hk as [f [-> Hk]]. unfold k_number, k_stop, k_stoi. rewrite Hc. cbn [option_map obind' k_tok]. rewrite (stoi_part sg ds Hs Hd).
    destruct (fits_int (number_of sg ds)); cbn [obind' k_pvs k_with_pv k_pv].
    + split; [reflexivity|]. rewrite <- Hf. unfold kflags, k_with_pv. cbn [k_pv]. destruct (Hk (k_pv k1) (number_of sg ds)) as [-> ->]. reflexivity.
    + discriminate.
  - intros [Hr [_ ->]] [Ht [Hf _]]. cbn [kaction]. unfold regex_of. rewrite <- Hf. unfold kflags at 1 2. cbn [f_icase f_collate]. rewrite Ht.
    change (kflags k1) with (mk_flags (pv_icase (k_pv k1)) (pv_collate (k_pv k1))) in *. cbn [f_icase f_collate].
    destruct (eng_compile E _) eqn:Ee; [discriminate|]. cbn [k_pvs]. split; [reflexivity|]. unfold k_with_pv, kflags. cbn [k_pv]. destruct (k_pv k1); reflexivity.
Qed.

Lemma W_run w ps : W w ps -> forall k k', crun E w k = Some k' -> fits E (kflags k) ps /\ kflags k' = flags_after ps (kflags k).
Proof.
  induction 1 as [w Hw _|w x Hw _|r Hr|a0 a sg ds Ha Hs Hd| |w1 w2 ps1 ps2 _ IH1 _ IH2]; intros k k' H.
  - cbn. split; [exact I|]. now apply (plain_word_flags w).
  - cbn. split; [auto|]. now apply (plain_word_flags w).
  - unfold w_regex in H. rewrite app_assoc, crun_app in H.
    assert (HC : checks (PRegex r) (w_regex_body r ++ flat_map w_flag (rl_flags r)) 27) by (cbn; auto).
    destruct (checks_run _ _ _ k HC) as [k1 [H1 H2]]. rewrite H1 in H. cbn [obind' crun] in H. pose proof (checked_fits _ _ _ _ _ HC H2) as HF.
    destruct (kaction E 27 k1) as [k2|]; [|discriminate]. cbn [obind'] in H. injection H as <-. destruct HF as [HF1 HF2].
    cbn [fits flags_after fold_left]. auto.
  - assert (HC : checks (PNumber sg ds) (IAct a0 :: chs sg ++ chs ds) a) by (cbn [checks]; eauto).
    assert (Ew : IAct a0 :: chs sg ++ chs ds ++ [IAct a] = (IAct a0 :: chs sg ++ chs ds) ++ [IAct a]) by (cbn [app]; now rewrite <- app_assoc).
    rewrite Ew, crun_app in H. destruct (checks_run _ _ _ k HC) as [k1 [H1 H2]]. rewrite H1 in H. cbn [obind' crun] in H.
    pose proof (checked_fits _ _ _ _ _ HC H2) as HF.
    destruct (kaction E a k1) as [k2|]; [|discriminate]. cbn [obind'] in H. injection H as <-. destruct HF as [HF1 HF2].
    cbn [fits flags_after fold_left]. auto.
  - cbn in H. injection H as <-. cbn. split; [auto|]. unfold kflags. destruct (k_pv k). reflexivity.
  - rewrite crun_app in H. destruct (crun E w1 k) as [k1|] eqn:E1; [|discriminate]. cbn [obind'] in H.
    destruct (IH1 _ _ E1) as [F1 F2]. destruct (IH2 _ _ H) as [F3 F4]. rewrite F2 in *. split; [apply fits_app; auto|]. now rewrite flags_after_app.
Qed.

Lemma W_chars w ps : W w ps -> chars w = parts_text ps.
Proof.
  induction 1 as [w Hw Hc|w x Hw Hc|r Hr|a0 a sg ds Ha Hs Hd| |w1 w2 ps1 ps2 _ IH1 _ IH2].
  - exact Hc.
  - cbn. now rewrite app_nil_r.
  - cbn. rewrite app_nil_r. now apply chars_regex.
  - rewrite chars_cons_act, !chars_app, !chars_chs. cbn. now rewrite !app_nil_r.
  - reflexivity.
  - rewrite chars_app, IH1, IH2. unfold parts_text. now rewrite flat_map_app.
Qed.

(** ** Where checks are *)

Lemma app_split {A} (a b c d : list A) x : a ++ b = c ++ x :: d ->
  (exists e, a = c ++ x :: e /\ d = e ++ b) \/ (exists e, c = a ++ e /\ b = e ++ x :: d).
Proof.
  revert c. induction a as [|y a IH]; intros c H; cbn [app] in H.
  - right. exists c. auto.
  - destruct c as [|z c]; cbn [app] in H.
    + injection H as -> H. left. exists a. auto.
    + injection H as -> H. destruct (IH c H) as [[e [-> ->]]|[e [-> ->]]]; [left|right]; exists e; auto.
Qed.

Definition sets_flags (a : N) : Prop := In a [25; 26; 75]%N.

Lemma plain_split w wa a wb : plain w = true -> w = wa ++ IAct a :: wb -> plain_action a = true.
Proof. intros H ->. rewrite plain_app, plain_cons_act in H. apply andb_true_iff in H as [_ H]. now apply andb_true_iff in H as [H _]. Qed.

Lemma flags_split l wa a wb : flat_map w_flag l = wa ++ IAct a :: wb -> sets_flags a.
Proof.
  revert wa. induction l as [|f l IH]; intros wa H; cbn [flat_map] in H; [destruct wa; discriminate|].
  apply app_split in H as [[e [H _]]|[e [_ H]]]; [|eauto].
  destruct f; cbn [w_flag] in H; (destruct wa as [|[]  [|[] [|]]]; cbn [app] in H; try discriminate; injection H; intros; subst; cbn; auto).
Qed.

Lemma body_plain r : plain (w_regex_body r) = true.
Proof.
  unfold w_regex_body, w_delimited. destruct (Ascii.eqb (rl_mark r) "/"); [|destruct (Ascii.eqb (rl_mark r) apostrophe)]; plain_word; reflexivity.
Qed.

Lemma W_split w ps : W w ps -> forall wa a wb, w = wa ++ IAct a :: wb ->
  plain_action a = true \/ sets_flags a \/
  exists wp ps1 p ps2 wx, ps = ps1 ++ p :: ps2 /\ W wp ps1 /\ wa = wp ++ wx /\ checks p wx a.
Proof.
  induction 1 as [w Hw _|w x Hw _|r Hr|a1 a2 sg ds Ha Hs Hd| |w1 w2 ps1 ps2 W1 IH1 W2 IH2]; intros wa a wb Hw'.
  - left. eapply plain_split; eauto.
  - left. eapply plain_split; eauto.
  - unfold w_regex in Hw'. apply app_split in Hw' as [[e [H _]]|[e [-> H]]]; [left; eapply plain_split; [apply body_plain|exact H]|].
    apply app_split in H as [[e' [H _]]|[e' [-> H]]]; [right; left; eapply flags_split; exact H|].
    destruct e' as [|i e']; [|injection H as <- H; destruct e'; discriminate]. injection H as <- <-. rewrite app_nil_r.
    right. right. exists [], [], (PRegex r), [], (w_regex_body r ++ flat_map w_flag (rl_flags r)). repeat split; auto; apply W_nil || apply Hr.
  - destruct wa as [|i wa]; [injection Hw' as <- _; left; cbn [In] in Ha; repeat (destruct Ha as [Ha|Ha]; [injection Ha as <- <-; reflexivity|]); contradiction|].
    injection Hw' as <- Hw'. apply app_split in Hw' as [[e [H _]]|[e [-> H]]]; [left; eapply plain_split; [apply plain_chs|exact H]|].
    apply app_split in H as [[e' [H _]]|[e' [-> H]]]; [left; eapply plain_split; [apply plain_chs|exact H]|].
    destruct e' as [|i e']; [|injection H as <- H; destruct e'; discriminate]. injection H as <- <-. rewrite app_nil_r.
    right. right. exists [], [], (PNumber sg ds), [], (IAct a1 :: chs sg ++ chs ds). split; [reflexivity|]. split; [apply W_nil|]. split; [reflexivity|].
    cbn [checks]. eauto.
  - destruct wa as [|i wa]; [injection Hw' as <- _; right; left; cbn; auto|]. injection Hw' as _ Hw'. destruct wa; discriminate.
  - apply app_split in Hw' as [[e [H _]]|[e [-> H]]].
    + destruct (IH1 _ _ _ H) as [X|[X|[wp [q1 [p [q2 [wx [-> [X1 [X2 X3]]]]]]]]]]; auto. right. right.
      exists wp, q1, p, (q2 ++ ps2), wx. rewrite <- app_assoc. auto.
    + destruct (IH2 _ _ _ H) as [X|[X|[wp [q1 [p [q2 [wx [-> [X1 [-> X3]]]]]]]]]]; auto. right. right.
      exists (w1 ++ wp), (ps1 ++ q1), p, q2, wx. rewrite <- !app_assoc. split; [reflexivity|]. split; [now apply W_app|]. auto.
Qed.

Lemma single_split {A} (x y : A) u v : [x] = u ++ y :: v -> u = [] /\ x = y /\ v = [].
Proof. destruct u as [|z u]; cbn; intros H; [injection H as -> <-; auto|]. injection H as <- H. destruct u; discriminate. Qed.

Lemma W_at w ps : W w ps -> forall ps1 p ps2, ps = ps1 ++ p :: ps2 -> (exists r, p = PRegex r) \/ (exists sg ds, p = PNumber sg ds) ->
  exists wp wx a wq, w = wp ++ wx ++ IAct a :: wq /\ W wp ps1 /\ checks p wx a.
Proof.
  induction 1 as [w Hw _|w x Hw _|r Hr|a1 a2 sg ds Ha Hs Hd| |w1 w2 qs1 qs2 W1 IH1 W2 IH2]; intros ps1 p ps2 Hp Hc.
  - destruct ps1; discriminate.
  - apply single_split in Hp as [_ [<- _]]. destruct Hc as [[r H]|[sg [ds H]]]; discriminate.
  - apply single_split in Hp as [-> [<- ->]]. exists [], (w_regex_body r ++ flat_map w_flag (rl_flags r)), 27%N, []. split; [unfold w_regex; now rewrite <- app_assoc|].
    split; [apply W_nil|]. cbn. auto.
  - apply single_split in Hp as [-> [<- ->]]. exists [], (IAct a1 :: chs sg ++ chs ds), a2, []. split; [cbn [app]; now rewrite <- app_assoc|].
    split; [apply W_nil|]. cbn [checks]. eauto.
  - apply single_split in Hp as [_ [<- _]]. destruct Hc as [[r H]|[sg [ds H]]]; discriminate.
  - apply app_split in Hp as [[e [-> ->]]|[e [-> ->]]].
    + destruct (IH1 _ _ _ eq_refl Hc) as [wp [wx [a [wq [-> [H1 H2]]]]]]. exists wp, wx, a, (wq ++ w2). split; [now rewrite <- !app_assoc|]. auto.
    + destruct (IH2 _ _ _ eq_refl Hc) as [wp [wx [a [wq [-> [H1 H2]]]]]]. exists (w1 ++ wp), wx, a, wq. split; [now rewrite <- !app_assoc|]. split; [now apply W_app|exact H2].
Qed.

(** ** The actions themselves *)

Section Input.
Variable input : str.

Lemma plain_outcome a st : plain_action a = true ->
  match run_action E input a st with Ok _ => True | UB u => u <> BadCtypeArgument | _ => False end.
Proof.
  intros Ha. destruct st as [sk p tb tok pv]; destruct sk as [|[|r0 t0] rest]; destruct pv as [x1 x2 x3 x4 x5 x6 [x7|] x8 x9 [x10|] x11 x12 x13]; destruct tb as [b|];
    each_action Ha; cbn [run_action];
    unfold Parser.token, tk_stop, need_regex, set_open_tag_or_throw, top_stack, update_cur_rule, pipe_action, test_action, nth_trait, push_rule;
    cbn [ps_stacks ps_tok_begin ps_pv ps_p pv_regex pv_negate obind with_pv with_stacks ps_tok]; try exact I; try discriminate;
    try (destruct (Nat.leb b p); cbn [obind ps_stacks ps_tok]; try exact I; try discriminate); try (destruct (is_star _); exact I).
Qed.

Lemma flags_outcome a st : sets_flags a -> exists st', run_action E input a st = Ok st'.
Proof. intros [<-|[<-|[<-|[]]]]; cbn [run_action]; eauto. Qed.

End Input.

End Parts.
