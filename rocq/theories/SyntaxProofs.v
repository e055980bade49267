(** Any way to read a text gives its rule; tags and braces pair up; blanks and
    flags. *)

From Coq Require Import Ascii String NArith ZArith Bool List Lia.
From Verif Require Import Base StringUtil Tags Dom NodeUtil Values Match Rule Parser
  Regular Grammar GrammarProofs ParserSpec SyntaxSpec SyntaxWords SyntaxRun SyntaxMeaning SyntaxTree.
Import ListNotations.

Lemma word_unique w w' : L G_exact w -> L G_exact w' -> chars w = chars w' -> w = w'.
Proof.
  intros H H' Hc. destruct (X_run w H) as [tr [q [l [Hw [He Ew]]]]]. destruct (X_run w' H') as [tr' [q' [l' [Hw' [He' Ew']]]]].
  rewrite <- Hc in Hw', Ew'. rewrite Hw in Hw'. injection Hw' as <- <-. rewrite He in He'. injection He' as <-. congruence.
Qed.

Section Run.

Variable E : engine.

Lemma parse_given_tokens ts r : Forall token_ok ts ->
  ParseHext E (tokens_text ts) = Ok r <->
  exists sk fl, trun E ts ([[]; []], no_flags) = Some (sk, fl) /\ finish' sk = Some r.
Proof.
  intros Hts. split.
  - intros H. apply parse_word in H as [w [k [HL [Hc [Hr Hf]]]]].
    assert (HT : L G_exact (flat_map w_token ts)) by (apply L_tokens; eauto).
    assert (w = flat_map w_token ts) as -> by (apply word_unique; auto; now rewrite chars_tokens).
    assert (HI : Idle k_initial [[]; []] no_flags) by (eexists (mk_junk _ _ _ _ _), _, _, _; reflexivity).
    assert (HN : [[]; []] <> @nil (list rule)) by discriminate.
    pose proof (run_tokens E ts k_initial _ _ Hts HN HI) as H. destruct (trun E ts ([[]; []], no_flags)) as [[sk fl]|]; [|congruence].
    destruct H as [k' [H Hk']]. rewrite Hr in H. injection H as <-. destruct Hk' as [j [b [a [cv ->]]]]. exists sk, fl. auto.
  - intros [sk [fl [H1 H2]]]. apply parse_tokens. exists ts, sk, fl. auto.
Qed.

Lemma pieces_tokens ps : Forall (piece_ok false) ps -> Forall token_ok (flat_map tokens_of ps).
Proof. intros H. apply Forall_flat_map'. eapply Forall_impl; [|exact H]. intros p. apply tokens_ok. Qed.

Theorem parse_given_pieces ps x r : spells ps x -> ParseHext E x = Ok r <-> text_meaning (regex_meaning E) ps = Some r.
Proof.
  intros [Hok <-]. rewrite <- text_tokens. fold (tokens_text (flat_map tokens_of ps)).
  rewrite parse_given_tokens by now apply pieces_tokens. rewrite <- run_text by exact Hok. split.
  - intros [sk [fl [H1 H2]]]. rewrite H1. exact H2.
  - intros H. destruct (trun E (flat_map tokens_of ps) ([[]; []], no_flags)) as [[sk fl]|]; [|discriminate]. exists sk, fl. auto.
Qed.

(** ** Pairs *)

Lemma balanced_app i u v : balanced i u -> balanced i v -> balanced i (u ++ v).
Proof.
  induction 1 as [i|i t l Ht Hl IH|i h l Hl IH|i h body name l Hb _ Hc Hl IH|body l Hb _ He Hl IH]; intros Hv; cbn [app]; auto.
  - now apply balanced_blank; auto.
  - apply balanced_closed; auto.
  - rewrite <- app_assoc. cbn [app]. apply balanced_pair; auto.
  - rewrite <- app_assoc. cbn [app]. apply balanced_braces; auto.
Qed.

Lemma element_token q : is_element q = true -> exists h c, In (TOpen h c) (tokens_of q).
Proof. destruct q; try discriminate; intros _; [exists h, true|exists h, false]; now left. Qed.

Lemma balanced_piece p : forall i, piece_ok i p -> balanced i (tokens_of p).
Proof.
  induction p as [c|x|h|h body name Hb|body Hb] using piece_ind'; intros i H; cbn [tokens_of].
  - apply balanced_blank; [exact I|constructor].
  - apply balanced_blank; [exact I|constructor].
  - apply balanced_closed. constructor.
  - apply opened_ok in H as [_ [_ [Hc H]]]. apply (balanced_pair i h _ name []); [|exact Hc|constructor].
    induction body as [|q body IH]; [constructor|]. inversion Hb; inversion H; subst. cbn [flat_map]. apply balanced_app; auto.
  - apply nested_ok in H as [-> [[q [Hq1 Hq2]] H]]. apply (balanced_braces _ []); [| |constructor].
    + clear Hq1. induction body as [|q' body IH]; [constructor|]. inversion Hb; inversion H; subst. cbn [flat_map]. apply balanced_app; auto.
    + destruct (element_token q Hq2) as [h [c Hin]]. exists h, c. apply in_flat_map. eauto.
Qed.

Theorem parsed_balanced ts r : Forall token_ok ts -> ParseHext E (tokens_text ts) = Ok r -> balanced false ts.
Proof.
  intros Hts H. apply (parse_given_tokens ts r Hts) in H as [sk [fl [Hr Hf]]].
  assert (HS : Shape [] [] [[]; []]) by (split; [constructor|eauto]).
  destruct (shape_run E ts _ _ _ _ _ _ Hts HS Hr) as [fs [cur [Hu HS']]]. pose proof (shape_finish _ _ _ _ HS' Hf) as ->.
  cbn [unparse flat_map app] in Hu. destruct HS' as [Hok _]. rewrite <- Hu. clear -Hok.
  induction cur as [|q cur IH]; [constructor|]. inversion Hok; subst. cbn [flat_map inside] in *. apply balanced_app; auto. now apply balanced_piece.
Qed.

Theorem parsed_has_tokens x r : ParseHext E x = Ok r -> exists ts, Forall token_ok ts /\ tokens_text ts = x.
Proof. intros H. apply parse_tokens in H as [ts [sk [fl [H1 [H2 _]]]]]. exists ts. auto. Qed.

(** ** Blanks *)

Theorem blank_ignored u g v r : Forall token_ok u -> Forall token_ok v -> token_ok g -> is_blank g ->
  ParseHext E (tokens_text u ++ token_text g ++ tokens_text v) = Ok r <-> ParseHext E (tokens_text u ++ tokens_text v) = Ok r.
Proof.
  intros Hu Hv Hg Hb. assert (H1 : tokens_text u ++ token_text g ++ tokens_text v = tokens_text (u ++ g :: v)) by (unfold tokens_text; now rewrite flat_map_app).
  assert (H2 : tokens_text u ++ tokens_text v = tokens_text (u ++ v)) by (unfold tokens_text; now rewrite flat_map_app).
  rewrite H1, H2, !parse_given_tokens by (try apply Forall_app; auto). rewrite !trun_app.
  assert (HB : forall z, trun E (g :: v) z = trun E v z) by (intros [sk fl]; destruct g; try contradiction; reflexivity).
  destruct (trun E u ([[]; []], no_flags)) as [z|]; cbn [obind']; [|reflexivity]. now rewrite HB.
Qed.

End Run.

(** ** Flags *)

Section Flags.

Variable E : engine.
Notation R := (regex_meaning E).
Notation O := (own_regex_meaning E).

Lemma each_ext {A B} (f g : A -> meaning B) (ok : A -> Prop) :
  (forall a, ok a -> f a no_flags = g a no_flags /\ forall b fl, f a no_flags = Some (b, fl) -> fl = no_flags) ->
  forall l, Forall ok l -> each f l no_flags = each g l no_flags /\ forall bs fl, each f l no_flags = Some (bs, fl) -> fl = no_flags.
Proof.
  intros Hfg. induction 1 as [|a l Ha Hl IH]; cbn [each].
  - split; [reflexivity|]. intros bs fl H. now injection H.
  - destruct (Hfg a Ha) as [H1 H2]. destruct IH as [IH1 IH2]. unfold bind, ret. rewrite <- H1.
    destruct (f a no_flags) as [[b fl]|] eqn:Ef; [|split; [reflexivity|discriminate]]. rewrite (H2 _ _ eq_refl) in *.
    rewrite <- IH1. destruct (each f l no_flags) as [[bs fl']|] eqn:El; [|split; [reflexivity|discriminate]].
    split; [reflexivity|]. intros bs' fl'' H. injection H as <- <-. eapply IH2. reflexivity.
Qed.

Lemma own_plain r : rl_flags r = [] -> R r no_flags = O r no_flags /\ forall rx fl, R r no_flags = Some (rx, fl) -> fl = no_flags.
Proof.
  intros H. unfold own_regex_meaning, regex_meaning. rewrite H. cbn [fold_left]. cbv zeta. destruct (eng_compile E _).
  - split; [reflexivity|discriminate].
  - split; [reflexivity|]. intros rx fl Hx. now injection Hx as <- <-.
Qed.

Lemma trait_own t : trait_unflagged t -> trait_meaning R t no_flags = trait_meaning O t no_flags /\
  forall m fl, trait_meaning R t no_flags = Some (m, fl) -> fl = no_flags.
Proof.
  assert (HN : forall m ds z fl, number_meaning m ds no_flags = Some (z, fl) -> fl = no_flags).
  { intros m ds z fl. unfold number_meaning, ret, none. destruct (fits_int _); [|discriminate]. intros H. now injection H. }
  destruct t as [|ds|ds|f ot n|f ot|ot|r]; cbn [trait_unflagged trait_meaning]; unfold bind, ret; intros Ht.
  - split; [reflexivity|]. intros m fl H. now injection H.
  - split; [reflexivity|]. intros m fl. destruct (number_meaning false ds no_flags) as [[z fl']|] eqn:En; [|discriminate]. intros H. injection H as <- <-. eauto.
  - split; [reflexivity|]. intros m fl. destruct (number_meaning false ds no_flags) as [[z fl']|] eqn:En; [|discriminate]. intros H. injection H as <- <-. eauto.
  - split; [reflexivity|]. intros m fl. destruct (nth_meaning n no_flags) as [[z fl']|] eqn:En; [|discriminate]. intros H. injection H as <- <-.
    unfold nth_meaning, bind, ret in En. destruct n as [| |m ds|m ds|m ds m' ds'].
    + now injection En.
    + now injection En.
    + destruct (number_meaning m ds no_flags) as [[z1 fl1]|] eqn:E1; [|discriminate]. injection En as <- <-. eauto.
    + destruct (number_meaning m ds no_flags) as [[z1 fl1]|] eqn:E1; [|discriminate]. injection En as <- <-. eauto.
    + destruct (number_meaning m ds no_flags) as [[z1 fl1]|] eqn:E1; [|discriminate]. rewrite (HN _ _ _ _ E1) in *.
      destruct (number_meaning m' ds' no_flags) as [[z2 fl2]|] eqn:E2; [|discriminate]. injection En as <- <-. eauto.
  - split; [reflexivity|]. intros m fl H. now injection H.
  - split; [reflexivity|]. intros m fl H. now injection H.
  - destruct (own_plain r Ht) as [H1 H2]. rewrite <- H1. split; [reflexivity|]. intros m fl. destruct (R r no_flags) as [[rx fl']|]; [|discriminate].
    intros H. injection H as <- <-. eapply H2. reflexivity.
Qed.

Lemma condition_own c : condition_unflagged c -> condition_meaning R c no_flags = condition_meaning O c no_flags /\
  forall m fl, condition_meaning R c no_flags = Some (m, fl) -> fl = no_flags.
Proof.
  destruct c as [t|t ts]; cbn [condition_unflagged condition_meaning]; intros H; [now apply trait_own|].
  destruct (each_ext _ _ _ trait_own (t :: ts) H) as [H1 H2]. unfold bind, ret. rewrite <- H1. split; [reflexivity|].
  intros m fl. destruct (each _ (t :: ts) no_flags) as [[ms fl']|]; [|discriminate]. intros Hx. injection Hx as <- <-. eapply H2. reflexivity.
Qed.

Lemma own_value r fl fl' : option_map fst (O r fl) = option_map fst (O r fl').
Proof. unfold own_regex_meaning. destruct (R r no_flags) as [[rx fl1]|]; reflexivity. Qed.

Lemma pipe_no_regex (Q Q' : regex_lit -> meaning regex) p fl fl' : pipe_regex p = None ->
  option_map fst (pipe_meaning Q p fl) = option_map fst (pipe_meaning Q' p fl').
Proof. destruct p; try discriminate; reflexivity. Qed.

Lemma pipes_no_regex (Q Q' : regex_lit -> meaning regex) l : Forall (fun p => pipe_regex p = None) l -> forall fl fl',
  option_map fst (each (pipe_meaning Q) l fl) = option_map fst (each (pipe_meaning Q') l fl').
Proof.
  induction 1 as [|p l Hp Hl IH]; intros fl fl'; [reflexivity|]. cbn [each]. unfold bind, ret.
  pose proof (pipe_no_regex Q Q' p fl fl' Hp) as H. destruct (pipe_meaning Q p fl) as [[t fl1]|], (pipe_meaning Q' p fl') as [[t' fl1']|]; try discriminate; [|reflexivity].
  injection H as <-. specialize (IH fl1 fl1'). destruct (each (pipe_meaning Q) l fl1) as [[ts fl2]|], (each (pipe_meaning Q') l fl1') as [[ts' fl2']|]; try discriminate; [|reflexivity].
  injection IH as <-. reflexivity.
Qed.

Lemma regex_first r : option_map fst (R r no_flags) = option_map fst (O r no_flags).
Proof. unfold own_regex_meaning. destruct (R r no_flags) as [[rx fl1]|]; reflexivity. Qed.

Lemma pipe_first p : option_map fst (pipe_meaning R p no_flags) = option_map fst (pipe_meaning O p no_flags).
Proof.
  destruct p as [|q| | | |q|q|r|r sp sp' q]; try reflexivity; cbn [pipe_meaning]; unfold bind, ret; pose proof (regex_first r) as H;
    destruct (R r no_flags) as [[rx fl1]|], (O r no_flags) as [[rx' fl1']|]; try discriminate; try reflexivity; injection H as <-; reflexivity.
Qed.

Lemma own_flags r fl rx fl' : O r fl = Some (rx, fl') -> fl' = fl.
Proof. unfold own_regex_meaning. destruct (R r no_flags) as [[rx' fl1]|]; [|discriminate]. intros H. now injection H. Qed.

Lemma pipe_own_flags p fl t fl' : pipe_meaning O p fl = Some (t, fl') -> fl' = fl.
Proof.
  destruct p as [|q| | | |q|q|r|r sp sp' q]; cbn [pipe_meaning]; unfold bind, ret; intros H; try (now injection H);
    destruct (O r fl) as [[rx fl1]|] eqn:Eo; try discriminate; injection H as <- <-; eapply own_flags; eauto.
Qed.

Lemma pipe_plain_flags p t fl : (forall r, pipe_regex p = Some r -> rl_flags r = []) -> pipe_meaning R p no_flags = Some (t, fl) -> fl = no_flags.
Proof.
  destruct p as [|q| | | |q|q|r|r sp sp' q]; cbn [pipe_meaning pipe_regex]; unfold bind, ret; intros Hr H; try (now injection H);
    destruct (own_plain r (Hr r eq_refl)) as [_ H2]; destruct (R r no_flags) as [[rx fl1]|]; try discriminate; injection H as <- <-; eapply H2; reflexivity.
Qed.

Lemma pipes_own l : pipes_unflagged l -> option_map fst (each (pipe_meaning R) l no_flags) = option_map fst (each (pipe_meaning O) l no_flags).
Proof.
  induction l as [|p l IH]; intros H; [reflexivity|]. cbn [each]. unfold bind, ret. cbn [pipes_unflagged] in H. destruct H as [H Hl].
  pose proof (pipe_first p) as HF. destruct (pipe_meaning R p no_flags) as [[t fl1]|] eqn:E1, (pipe_meaning O p no_flags) as [[t' fl1']|] eqn:E2; try discriminate; [|reflexivity].
  injection HF as <-. apply pipe_own_flags in E2 as ->.
  assert (HR : option_map fst (each (pipe_meaning R) l fl1) = option_map fst (each (pipe_meaning O) l no_flags)).
  { destruct H as [H|H]; [apply pipe_plain_flags in E1 as ->; [now apply IH|exact H]|]. now apply pipes_no_regex. }
  destruct (each (pipe_meaning R) l fl1) as [[ts fl2]|], (each (pipe_meaning O) l no_flags) as [[ts' fl2']|]; try discriminate; [|reflexivity].
  injection HR as <-. reflexivity.
Qed.

Lemma value_own v : option_map fst (value_test_meaning R v no_flags) = option_map fst (value_test_meaning O v no_flags).
Proof.
  destruct v as [r|[] q]; try reflexivity. cbn [value_test_meaning]. unfold bind, ret. pose proof (regex_first r) as H.
  destruct (R r no_flags) as [[rx fl1]|], (O r no_flags) as [[rx' fl1']|]; try discriminate; try reflexivity; injection H as <-; reflexivity.
Qed.

Lemma pattern_own p : pattern_unflagged p -> pattern_meaning R p no_flags = pattern_meaning O p no_flags /\
  forall mc fl, pattern_meaning R p no_flags = Some (mc, fl) -> fl = no_flags.
Proof.
  intros Hp. split.
  2:{ unfold pattern_meaning, bind. intros mc fl H. match type of H with (match ?m with _ => _ end = _) => destruct m as [[a b]|] end; [|discriminate]. now injection H. }
  unfold pattern_meaning, bind, ret. destruct p as [b ps n|b v ng|a ps n o|a v ng|a ng]; cbn [pattern_unflagged] in Hp; [| | | |reflexivity].
  - pose proof (pipes_own ps Hp) as H. destruct (each (pipe_meaning R) ps no_flags) as [[ts fl2]|], (each (pipe_meaning O) ps no_flags) as [[ts' fl2']|]; try discriminate; [|reflexivity].
    injection H as <-. reflexivity.
  - pose proof (value_own v) as H. destruct (value_test_meaning R v no_flags) as [[t fl2]|], (value_test_meaning O v no_flags) as [[t' fl2']|]; try discriminate; [|reflexivity].
    injection H as <-. reflexivity.
  - pose proof (pipes_own ps Hp) as H. destruct (each (pipe_meaning R) ps no_flags) as [[ts fl2]|], (each (pipe_meaning O) ps no_flags) as [[ts' fl2']|]; try discriminate; [|reflexivity].
    injection H as <-. reflexivity.
  - pose proof (value_own v) as H. destruct (value_test_meaning R v no_flags) as [[t fl2]|], (value_test_meaning O v no_flags) as [[t' fl2']|]; try discriminate; [|reflexivity].
    injection H as <-. reflexivity.
Qed.

Lemma head_own h : head_unflagged h -> head_meaning R h no_flags = head_meaning O h no_flags /\
  forall f fl, head_meaning R h no_flags = Some (f, fl) -> fl = no_flags.
Proof.
  intros [Hc Hp]. destruct (each_ext _ _ _ condition_own (h_conditions h) Hc) as [H1 H2].
  destruct (each_ext (fun sp => pattern_meaning R (snd sp)) (fun sp => pattern_meaning O (snd sp)) (fun sp => pattern_unflagged (snd sp))
    (fun sp => pattern_own (snd sp)) (h_patterns h) Hp) as [H3 H4].
  unfold head_meaning, bind, ret. rewrite <- H1. destruct (each (condition_meaning R) (h_conditions h) no_flags) as [[ms fl1]|]; [|split; [reflexivity|discriminate]].
  rewrite (H2 _ _ eq_refl) in *.
  rewrite <- H3.
  destruct (each (fun sp => pattern_meaning R (snd sp)) (h_patterns h) no_flags) as [[mcs fl2]|]; [|split; [reflexivity|discriminate]].
  rewrite (H4 _ _ eq_refl) in *. split; [reflexivity|]. intros f fl H. now injection H.
Qed.

Lemma piece_own p : piece_unflagged p -> piece_meaning R p no_flags = piece_meaning O p no_flags /\
  forall l fl, piece_meaning R p no_flags = Some (l, fl) -> fl = no_flags.
Proof.
  induction p as [c|x|h|h body name Hb|body Hb] using piece_ind'; cbn [piece_unflagged piece_meaning].
  - intros _. split; [reflexivity|]. intros l fl H. now injection H.
  - intros _. split; [reflexivity|]. intros l fl H. now injection H.
  - intros Hh. destruct (head_own h Hh) as [H1 H2]. unfold bind, ret. rewrite <- H1. destruct (head_meaning R h no_flags) as [[f fl1]|]; [|split; [reflexivity|discriminate]].
    split; [reflexivity|]. intros l fl H. injection H as <- <-. eapply H2. reflexivity.
  - rewrite all_Forall. intros [Hh Hbody]. destruct (head_own h Hh) as [H1 H2]. unfold bind, ret. rewrite <- H1.
    destruct (head_meaning R h no_flags) as [[f fl1]|]; [|split; [reflexivity|discriminate]]. rewrite (H2 _ _ eq_refl) in *.
    assert (HB : Forall (fun p => piece_meaning R p no_flags = piece_meaning O p no_flags /\ forall l fl, piece_meaning R p no_flags = Some (l, fl) -> fl = no_flags) body).
    { rewrite Forall_forall in *. auto. }
    destruct (each_ext (piece_meaning R) (piece_meaning O) _ (fun _ H => H) body HB) as [H3 H4]. rewrite <- H3.
    destruct (each (piece_meaning R) body no_flags) as [[l fl2]|]; [|split; [reflexivity|discriminate]]. split; [reflexivity|].
    intros l' fl H. injection H as <- <-. eapply H4. reflexivity.
  - rewrite all_Forall. intros Hbody. unfold bind, ret.
    assert (HB : Forall (fun p => piece_meaning R p no_flags = piece_meaning O p no_flags /\ forall l fl, piece_meaning R p no_flags = Some (l, fl) -> fl = no_flags) body).
    { rewrite Forall_forall in *. auto. }
    destruct (each_ext (piece_meaning R) (piece_meaning O) _ (fun _ H => H) body HB) as [H3 H4]. rewrite <- H3.
    destruct (each (piece_meaning R) body no_flags) as [[l fl2]|]; [|split; [reflexivity|discriminate]]. split; [reflexivity|].
    intros l' fl. destruct (row_of_rules _); [|discriminate]. intros H. injection H as <- <-. eapply H4. reflexivity.
Qed.

Theorem flags_own ps x r : Forall piece_unflagged ps -> spells ps x -> ParseHext E x = Ok r <-> text_meaning O ps = Some r.
Proof.
  intros Hf Hs. rewrite (parse_given_pieces E ps x r Hs). unfold text_meaning.
  destruct (each_ext (piece_meaning R) (piece_meaning O) _ piece_own ps Hf) as [-> _]. reflexivity.
Qed.

End Flags.

(** ** For the examples *)

Lemma all_in_forallb f x : forallb f x = true -> all_in f x.
Proof. intros H c Hc. rewrite forallb_forall in H. auto. Qed.

Lemma name_by c x : is_alpha c && forallb is_name_char x = true -> is_name (c :: x).
Proof. intros H. apply andb_true_iff in H as [H1 H2]. exists c, x. split; [reflexivity|]. split; [exact H1|]. now apply all_in_forallb. Qed.

Lemma enclosed_by d x : existsb (fun c => Ascii.eqb c d || Ascii.eqb c backslash) x = false -> enclosed d x.
Proof.
  intros H. assert (HN : forall c, In c x -> c <> d /\ c <> backslash).
  { intros c Hc. assert (Hx : (Ascii.eqb c d || Ascii.eqb c backslash) = false).
    { destruct (Ascii.eqb c d || Ascii.eqb c backslash) eqn:Ex; [|reflexivity]. rewrite <- H. symmetry. apply existsb_exists. eauto. }
    apply orb_false_iff in Hx as [H1 H2]. apply Ascii.eqb_neq in H1, H2. auto. }
  split.
  - intros u v ->. exfalso. destruct (HN d ltac:(apply in_or_app; right; now left)) as [H1 _]. congruence.
  - intros u ->. destruct (HN backslash ltac:(apply in_or_app; right; now left)) as [_ H1]. congruence.
Qed.
