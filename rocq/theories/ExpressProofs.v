(** Texts for all expressible rules, and only for these. *)

From Coq Require Import Ascii String NArith ZArith Bool List Lia.
From Verif Require Import Base StringUtil Tags Dom NodeUtil Values Match Rule Parser
  ParserSpec SafetyProofs SyntaxSpec SyntaxMeaning SyntaxTree ExpressSpec.
Import ListNotations.

(** ** Flags *)

Lemma add_flags_mono l : forall fl,
  (f_icase fl = true -> f_icase (fold_left add_flag l fl) = true) /\ (f_collate fl = true -> f_collate (fold_left add_flag l fl) = true).
Proof.
  induction l as [|f l IH]; intros fl; cbn [fold_left]; [auto|]. destruct (IH (add_flag fl f)) as [H1 H2].
  split; intros H; [apply H1|apply H2]; destruct f; cbn; auto.
Qed.

Lemma flags_eta fl : mk_flags (f_icase fl) (f_collate fl) = fl.
Proof. now destruct fl. Qed.

(** The flags to write to get from [fl] to [fl']. *)
Definition flags_for (fl' : flags) : list flag :=
  (if f_icase fl' then [FlagI] else []) ++ (if f_collate fl' then [FlagC] else []).
Lemma flags_for_spec fl fl' : (f_icase fl = true -> f_icase fl' = true) -> (f_collate fl = true -> f_collate fl' = true) ->
  fold_left add_flag (flags_for fl') fl = fl'.
Proof.
  destruct fl as [[] []], fl' as [[] []]; cbn; intros H1 H2; try (now rewrite ?H1, ?H2); try (now discriminate H1); try (now discriminate H2);
    try (specialize (H1 eq_refl)); try (specialize (H2 eq_refl)); congruence.
Qed.

Section Express.

Variable E : engine.
Notation R := (regex_meaning E).

(** ** Numbers *)

Lemma number_snoc u c : number_value (u ++ [c]) = (10 * number_value u + digit_value c)%Z.
Proof. unfold number_value. now rewrite fold_left_app. Qed.

Lemma digit_char d : (0 <= d < 10)%Z -> exists c, is_number c = true /\ digit_value c = d.
Proof.
  intros H. assert (HN : (N_of_ascii (ascii_of_N (Z.to_N (48 + d))) = Z.to_N (48 + d))%N) by (apply N_ascii_embedding; lia).
  exists (ascii_of_N (Z.to_N (48 + d))). unfold is_number, code_in, digit_value. rewrite HN. split; [|lia].
  apply andb_true_iff. split; apply N.leb_le; lia.
Qed.

Lemma number_exists_nat n : forall z, (0 <= z < Z.of_nat n)%Z -> exists ds, is_digits ds /\ number_value ds = z.
Proof.
  induction n as [|n IH]; intros z Hz; [lia|]. destruct (Z_lt_le_dec z 10) as [H|H].
  - destruct (digit_char z) as [c [Hc Hd]]; [lia|]. exists [c]. split.
    + split; [discriminate|]. intros d [<-|[]]. exact Hc.
    + unfold number_value. cbn [fold_left]. lia.
  - destruct (IH (z / 10)%Z) as [ds [[H1 H2] H3]]; [split; [apply Z.div_pos; lia|]|].
    + assert (z / 10 < z)%Z by (apply Z.div_lt; lia). lia.
    + destruct (digit_char (z mod 10)) as [c [Hc Hd]]; [apply Z.mod_pos_bound; lia|]. exists (ds ++ [c]). split.
      * split; [now destruct ds|]. intros d Hin. apply in_app_or in Hin as [Hin|[<-|[]]]; auto.
      * rewrite number_snoc, H3, Hd. symmetry. apply Z.div_mod. lia.
Qed.

Lemma number_exists z : (0 <= z)%Z -> exists ds, is_digits ds /\ number_value ds = z.
Proof. intros H. apply (number_exists_nat (Z.to_nat z + 1)). lia. Qed.

Lemma signed_exists z : exists (m : bool) ds, is_digits ds /\ (if m then - number_value ds else number_value ds)%Z = z.
Proof.
  destruct (Z_lt_le_dec z 0) as [H|H].
  - destruct (number_exists (- z)%Z) as [ds [H1 H2]]; [lia|]. exists true, ds. split; [exact H1|lia].
  - destruct (number_exists z H) as [ds [H1 H2]]. exists false, ds. auto.
Qed.

(** ** From texts to rules *)

Lemma each_seq {A B} (f : A -> meaning B) (P : flags -> B -> flags -> Prop) (ok : A -> Prop) :
  (forall a fl b fl', ok a -> f a fl = Some (b, fl') -> P fl b fl') ->
  forall l fl bs fl', Forall ok l -> each f l fl = Some (bs, fl') -> seq_at P fl bs fl'.
Proof.
  intros Hf. induction l as [|a l IH]; intros fl bs fl' Hl H; cbn [each] in H.
  - injection H as <- <-. constructor.
  - inversion Hl as [|? ? Ha Hl']; subst. unfold bind, ret in H. destruct (f a fl) as [[b fl1]|] eqn:E1; [|discriminate].
    destruct (each f l fl1) as [[bs' fl2]|] eqn:E2; [|discriminate]. injection H as <- <-. econstructor; eauto.
Qed.

Lemma quoted_literal q : quoted_ok q -> literal (q_body q).
Proof. intros [[H|[H|[]]] H2]; [left|right]; now rewrite H. Qed.

Lemma regex_to r fl rx fl' : regex_ok r -> R r fl = Some (rx, fl') -> regex_at E fl rx fl'.
Proof.
  intros [Hm He] H. unfold regex_meaning in H. cbv zeta in H. destruct (eng_compile E _) eqn:Ec; [discriminate|]. injection H as <- <-.
  destruct (add_flags_mono (rl_flags r) fl) as [H1 H2]. unfold regex_at. cbn [rx_source rx_icase rx_collate]. rewrite flags_eta.
  split; [|auto]. unfold regex_source, literal. destruct Hm as [H|[H|[H|[]]]]; rewrite H; auto.
Qed.

Lemma number_to m ds fl z fl' : number_meaning m ds fl = Some (z, fl') ->
  fl' = fl /\ fits_int z = true /\ z = (if m then - number_value ds else number_value ds)%Z.
Proof. unfold number_meaning. destruct (fits_int _) eqn:Ef; [|discriminate]. intros H. injection H as <- <-. auto. Qed.

Lemma nth_to n fl z fl' : nth_meaning n fl = Some (z, fl') -> fl' = fl /\ fits_int (fst z) = true /\ fits_int (snd z) = true.
Proof.
  unfold nth_meaning, bind, ret. destruct n as [| |m ds|m ds|m ds m' ds']; intros H.
  - injection H as <- <-. auto.
  - injection H as <- <-. auto.
  - destruct (number_meaning m ds fl) as [[z1 fl1]|] eqn:E1; [|discriminate]. injection H as <- <-. apply number_to in E1. cbn [fst snd]. tauto.
  - destruct (number_meaning m ds fl) as [[z1 fl1]|] eqn:E1; [|discriminate]. injection H as <- <-. apply number_to in E1. cbn [fst snd]. tauto.
  - destruct (number_meaning m ds fl) as [[z1 fl1]|] eqn:E1; [|discriminate]. destruct (number_meaning m' ds' fl1) as [[z2 fl2]|] eqn:E2; [|discriminate].
    injection H as <- <-. apply number_to in E1, E2. cbn [fst snd]. destruct E1 as [-> [H1 _]], E2 as [-> [H2 _]]. auto.
Qed.

Lemma digits_nonneg ds : is_digits ds -> (0 <= number_value ds)%Z.
Proof. intros [_ H]. now apply number_value_nonneg, digits_forall. Qed.

Lemma trait_to t fl m fl' : trait_ok t -> trait_meaning R t fl = Some (m, fl') -> trait_at E fl m fl'.
Proof.
  unfold trait_meaning, bind, ret. destruct t as [|ds|ds|f ot n|f ot|ot|r]; cbn [trait_ok]; intros Hok H.
  - injection H as <- <-. constructor; [lia|reflexivity].
  - destruct (number_meaning false ds fl) as [[z fl1]|] eqn:E1; [|discriminate]. injection H as <- <-. apply number_to in E1 as [-> [H1 ->]].
    constructor; [now apply digits_nonneg|exact H1].
  - destruct (number_meaning false ds fl) as [[z fl1]|] eqn:E1; [|discriminate]. injection H as <- <-. apply number_to in E1 as [-> [H1 ->]].
    constructor; [now apply digits_nonneg|exact H1].
  - destruct (nth_meaning n fl) as [[z fl1]|] eqn:E1; [|discriminate]. injection H as <- <-. apply nth_to in E1 as [-> [H1 H2]].
    now constructor.
  - injection H as <- <-. now constructor.
  - injection H as <- <-. constructor.
  - destruct (R r fl) as [[rx fl1]|] eqn:E1; [|discriminate]. injection H as <- <-. constructor. eapply regex_to; eauto.
Qed.

Lemma condition_to c fl m fl' : condition_ok c -> condition_meaning R c fl = Some (m, fl') -> condition_at E fl m fl'.
Proof.
  unfold condition_meaning, bind, ret. destruct c as [t|t ts]; cbn [condition_ok]; intros Hok H.
  - constructor. eapply trait_to; eauto.
  - destruct (each (trait_meaning R) (t :: ts) fl) as [[ms fl1]|] eqn:E1; [|discriminate]. injection H as <- <-. apply condition_not.
    + cbn [each] in E1. unfold bind, ret in E1. destruct (trait_meaning R t fl) as [[m1 fl2]|]; [|discriminate].
      destruct (each _ ts fl2) as [[ms2 fl3]|]; [|discriminate]. injection E1 as <- <-. discriminate.
    + apply (each_seq _ _ _ trait_to _ _ _ _ (Forall_cons _ (proj1 Hok) (proj2 Hok)) E1).
Qed.

Lemma pipe_to p fl t fl' : pipe_ok p -> pipe_meaning R p fl = Some (t, fl') -> transform_at E fl t fl'.
Proof.
  unfold pipe_meaning, bind, ret. destruct p as [|q| | | |q|q|r|r sp sp' q]; cbn [pipe_ok]; intros Hok H;
    try (injection H as <- <-; constructor; now apply quoted_literal).
  - injection H as <- <-. constructor. left. split.
    + intros u v Hx. destruct u as [|a [|b u]]; discriminate.
    + intros u Hx. destruct u as [|a [|b u]]; discriminate.
  - destruct (R r fl) as [[rx fl1]|] eqn:E1; [|discriminate]. injection H as <- <-. constructor. eapply regex_to; eauto.
  - destruct (R r fl) as [[rx fl1]|] eqn:E1; [|discriminate]. injection H as <- <-. constructor; [eapply regex_to; [apply Hok|eauto]|apply quoted_literal, Hok].
Qed.

Lemma name_literal n : cap_name_ok n -> literal (cap_name_meaning n).
Proof.
  destruct n as [q|x]; cbn [cap_name_ok cap_name_meaning]; [apply quoted_literal|]. intros [_ H]. left. split.
  - intros u v ->. specialize (H quote ltac:(apply in_or_app; right; now left)). discriminate.
  - intros u ->. specialize (H backslash ltac:(apply in_or_app; right; now left)). discriminate.
Qed.

Lemma value_to v fl t fl' : value_test_ok v -> value_test_meaning R v fl = Some (t, fl') -> test_at E fl t.
Proof.
  unfold value_test_meaning, bind, ret. destruct v as [r|[] q]; cbn [value_test_ok]; intros Hok H;
    try (injection H as <- <-; constructor; now apply quoted_literal).
  destruct (R r fl) as [[rx fl1]|] eqn:E1; [|discriminate]. injection H as <- <-. econstructor. eapply regex_to; eauto.
Qed.

Lemma builtin_to b : is_builtin (builtin_meaning b).
Proof. destruct b; exact I. Qed.

(** The flags in force can be fewer. *)
Definition fewer (fl fl' : flags) : Prop := (f_icase fl = true -> f_icase fl' = true) /\ (f_collate fl = true -> f_collate fl' = true).
Lemma fewer_none fl : fewer no_flags fl.
Proof. split; discriminate. Qed.
Lemma regex_fewer fl0 fl rx fl' : fewer fl0 fl -> regex_at E fl rx fl' -> regex_at E fl0 rx fl'.
Proof. intros [H1 H2] [H3 [H4 [H5 [H6 H7]]]]. unfold regex_at. auto 10. Qed.
Lemma transform_fewer fl0 fl t fl' : fewer fl0 fl -> transform_at E fl t fl' -> exists fl0', transform_at E fl0 t fl0' /\ fewer fl0' fl'.
Proof.
  intros HF H. inversion H; subst; try (eexists; split; [constructor; eauto using regex_fewer|]; try exact HF; split; auto).
Qed.
Lemma transforms_fewer fl ts fl' : seq_at (transform_at E) fl ts fl' -> forall fl0, fewer fl0 fl ->
  exists fl0', seq_at (transform_at E) fl0 ts fl0'.
Proof.
  induction 1 as [fl|fl t fl1 l fl2 H1 H2 IH]; intros fl0 HF; [eexists; constructor|].
  destruct (transform_fewer _ _ _ _ HF H1) as [fl0' [H3 H4]]. destruct (IH _ H4) as [fl0'' H5]. eexists. econstructor; eauto.
Qed.
Lemma capture_fewer fl0 fl c : fewer fl0 fl -> capture_at E fl c -> capture_at E fl0 c.
Proof. intros HF H. inversion H as [a n ts fl' H1 H2 H3|f n ts fl' H1 H2 H3]; subst; destruct (transforms_fewer _ _ _ H3 _ HF); econstructor; eauto. Qed.
Lemma test_fewer fl0 fl t : fewer fl0 fl -> test_at E fl t -> test_at E fl0 t.
Proof. intros HF H. inversion H; subst; econstructor; eauto using regex_fewer. Qed.
Lemma match_fewer fl0 fl m : fewer fl0 fl -> match_at E fl m -> match_at E fl0 m.
Proof. intros HF H. inversion H; subst; constructor; eauto using test_fewer. Qed.

Lemma pattern_to p fl ms cs fl' : pattern_ok p -> pattern_meaning R p fl = Some ((ms, cs), fl') ->
  fl' = no_flags /\ Forall (match_at E fl) ms /\ Forall (capture_at E fl) cs /\ (ms <> [] \/ cs <> []).
Proof.
  unfold pattern_meaning, bind, ret. destruct p as [b ps n|b v ng|a ps n o|a v ng|a ng]; cbn [pattern_ok]; intros Hok H.
  - destruct (each _ ps fl) as [[ts fl1]|] eqn:E1; [|discriminate]. injection H as <- <- <-. split; [reflexivity|]. split; [constructor|].
    split; [|right; discriminate]. constructor; [|constructor].
    eapply capture_builtin; [apply builtin_to|now apply name_literal|eapply each_seq; [apply pipe_to|apply Hok|exact E1]].
  - destruct (value_test_meaning R v fl) as [[t fl1]|] eqn:E1; [|discriminate]. injection H as <- <- <-. split; [reflexivity|].
    split; [|split; [constructor|left; discriminate]]. constructor; [|constructor]. apply match_builtin; [apply builtin_to|eapply value_to; eauto].
  - destruct (each _ ps fl) as [[ts fl1]|] eqn:E1; [|discriminate]. injection H as <- <- <-. split; [reflexivity|]. split; [|split; [|right; discriminate]].
    + destruct o; constructor; [|constructor]. apply (match_has E fl a false). apply Hok.
    + constructor; [|constructor]. eapply capture_attribute; [apply Hok|apply name_literal, Hok|eapply each_seq; [apply pipe_to|apply Hok|exact E1]].
  - destruct (value_test_meaning R v fl) as [[t fl1]|] eqn:E1; [|discriminate]. injection H as <- <- <-. split; [reflexivity|].
    split; [|split; [constructor|left; discriminate]]. constructor; [|constructor]. apply match_attribute; [apply Hok|eapply value_to; [apply Hok|eauto]].
  - injection H as <- <- <-. split; [reflexivity|]. split; [|split; [constructor|left; discriminate]].
    constructor; [|constructor]. now apply match_has.
Qed.

Lemma patterns_rest l : forall mcs fl', Forall (fun sp => fst sp <> [] /\ spaces_only (fst sp) /\ pattern_ok (snd sp)) l ->
  each (fun sp => pattern_meaning R (snd sp)) l no_flags = Some (mcs, fl') ->
  fl' = no_flags /\ Forall (match_at E no_flags) (flat_map fst mcs) /\ Forall (capture_at E no_flags) (flat_map snd mcs).
Proof.
  induction l as [|[sp p] l IH]; intros mcs fl' Hl H; cbn [each snd] in H.
  - injection H as <- <-. cbn. auto.
  - inversion Hl as [|? ? Ha Hl']; subst. destruct Ha as [_ [_ Ha]]. cbn [snd] in Ha. unfold bind, ret in H.
    destruct (pattern_meaning R p no_flags) as [[[ms cs] fl1]|] eqn:E1; [|discriminate]. apply (pattern_to _ _ _ _ _ Ha) in E1 as [-> [H1 [H2 _]]].
    destruct (each _ l no_flags) as [[mcs' fl2]|] eqn:E2; [|discriminate]. injection H as <- <-. destruct (IH _ _ Hl' eq_refl) as [-> [H3 H4]].
    cbn [flat_map fst snd]. split; [reflexivity|]. split; apply Forall_app; auto.
Qed.

Lemma patterns_to l fl mcs fl' : Forall (fun sp => fst sp <> [] /\ spaces_only (fst sp) /\ pattern_ok (snd sp)) l ->
  each (fun sp => pattern_meaning R (snd sp)) l fl = Some (mcs, fl') ->
  patterns_at E fl (flat_map fst mcs) (flat_map snd mcs) fl'.
Proof.
  intros Hl H. destruct l as [|[sp p] l]; cbn [each snd] in H.
  - injection H as <- <-. constructor.
  - inversion Hl as [|? ? Ha Hl']; subst. destruct Ha as [_ [_ Ha]]. cbn [snd] in Ha. unfold bind, ret in H.
    destruct (pattern_meaning R p fl) as [[[ms cs] fl1]|] eqn:E1; [|discriminate]. apply (pattern_to _ _ _ _ _ Ha) in E1 as [-> [H1 [H2 H5]]].
    destruct (each _ l no_flags) as [[mcs' fl2]|] eqn:E2; [|discriminate]. injection H as <- <-. destruct (patterns_rest _ _ _ Hl' E2) as [-> [H3 H4]].
    cbn [flat_map fst snd]. apply patterns_some.
    + apply Forall_app. split; [|exact H3]. eapply Forall_impl; [|exact H1]. intros m. apply match_fewer, fewer_none.
    + apply Forall_app. split; [|exact H4]. eapply Forall_impl; [|exact H2]. intros m. apply capture_fewer, fewer_none.
    + destruct ms as [|m ms].
      * destruct cs as [|c cs]; [destruct H5; contradiction|]. right. inversion H2; subst. cbn [app]. eauto.
      * left. inversion H1; subst. cbn [app]. eauto.
Qed.

Lemma parts_app fl u fl1 v fl2 : parts_at E fl u fl1 -> parts_at E fl1 v fl2 -> parts_at E fl (u ++ v) fl2.
Proof.
  revert fl. induction u as [|p u IH]; intros fl H1 H2; inversion H1; subst; cbn [app]; [exact H2| |]; econstructor; eauto.
Qed.

Lemma parts_elements fl l fl' : nested_rules l = [] -> parts_at E fl l fl' -> elements_at E fl (elements l) fl'.
Proof.
  revert fl. induction l as [|p l IH]; intros fl Hn H; inversion H; subst; cbn; try discriminate; econstructor; eauto.
Qed.

Lemma head_to h fl f fl' : head_ok h -> head_meaning R h fl = Some (f, fl') -> forall parts fl3, parts_at E fl' parts fl3 ->
  element_at E fl (f (row_of_rules (elements parts)) (nested_rules parts)) fl3.
Proof.
  intros [H1 [H2 [H3 _]]] H. unfold head_meaning, bind, ret in H. destruct (each (condition_meaning R) _ fl) as [[ms fl1]|] eqn:E1; [|discriminate].
  destruct (each _ (h_patterns h) fl1) as [[mcs fl2]|] eqn:E2; [|discriminate]. injection H as <- <-. intros parts fl3 Hp. unfold head_rule.
  econstructor; [eapply each_seq; [apply condition_to|exact H2|exact E1]|eapply patterns_to; eauto|exact Hp|exact H1].
Qed.

Lemma piece_to p : forall i fl l fl', piece_ok i p -> piece_meaning R p fl = Some (l, fl') ->
  parts_at E fl l fl' /\ (i = false -> nested_rules l = []).
Proof.
  assert (Hall : forall body, Forall (fun p => forall i fl l fl', piece_ok i p -> piece_meaning R p fl = Some (l, fl') ->
      parts_at E fl l fl' /\ (i = false -> nested_rules l = [])) body ->
    forall i fl l fl', Forall (piece_ok i) body -> each (piece_meaning R) body fl = Some (l, fl') ->
      parts_at E fl (concat l) fl' /\ (i = false -> nested_rules (concat l) = [])).
  { induction 1 as [|q body Hq Hb IH]; intros i fl l fl' Hok H; cbn [each] in H.
    - injection H as <- <-. split; [constructor|reflexivity].
    - inversion Hok as [|? ? H1 H2]; subst. unfold bind, ret in H. destruct (piece_meaning R q fl) as [[l1 fl1]|] eqn:E1; [|discriminate].
      destruct (each _ body fl1) as [[l2 fl2]|] eqn:E2; [|discriminate]. injection H as <- <-. cbn [concat].
      destruct (Hq _ _ _ _ H1 E1) as [H3 H4], (IH _ _ _ _ H2 E2) as [H5 H6]. split; [eapply parts_app; eauto|].
      intros Hi. rewrite nested_app. now rewrite H4, H6. }
  induction p as [c|x|h|h body name Hb|body Hb] using piece_ind'; intros i fl l fl' Hok H; cbn [piece_meaning] in H.
  - injection H as <- <-. split; [constructor|reflexivity].
  - injection H as <- <-. split; [constructor|reflexivity].
  - unfold bind, ret in H. destruct (head_meaning R h fl) as [[f fl1]|] eqn:E1; [|discriminate]. injection H as <- <-. split; [|reflexivity].
    econstructor; [|constructor]. apply (head_to h fl f fl1 Hok E1 [] fl1). constructor.
  - apply opened_ok in Hok as [H1 [_ [_ H2]]]. unfold bind, ret in H. destruct (head_meaning R h fl) as [[f fl1]|] eqn:E1; [|discriminate].
    destruct (each _ body fl1) as [[l2 fl2]|] eqn:E2; [|discriminate]. injection H as <- <-. split; [|reflexivity].
    econstructor; [|constructor]. apply (head_to h fl f fl1 H1 E1). eapply Hall; eauto.
  - apply nested_ok in Hok as [-> [_ H2]]. unfold bind, ret, none in H. destruct (each _ body fl) as [[l2 fl2]|] eqn:E2; [|discriminate].
    destruct (row_of_rules (elements (concat l2))) as [r|] eqn:Er; [|discriminate]. injection H as <- <-. split; [|discriminate].
    destruct (Hall body Hb _ _ _ _ H2 E2) as [H3 H4]. econstructor; [eapply parts_elements; [now apply H4|exact H3]|exact Er|constructor].
Qed.

Lemma default_expressible : expressible E (mk_rule None None [] [] [] TAG_ANY false false None).
Proof.
  exists [mk_rule None None [] [] [] TAG_ANY false false None], no_flags. split; [|reflexivity].
  econstructor; [|constructor].
  apply (element_intro E no_flags [] no_flags [] [] no_flags [] no_flags (s "*") false false); [constructor|constructor|constructor|now left].
Qed.

Lemma parsed_expressible x r : ParseHext E x = Ok r -> expressible E r.
Proof.
  intros H. apply parse_denotes in H as [ps [[Hok _] Hm]]. unfold text_meaning in Hm.
  destruct (each (piece_meaning R) ps no_flags) as [[l fl]|] eqn:E1; [|discriminate]. injection Hm as <-.
  assert (HA : parts_at E no_flags (concat l) fl /\ nested_rules (concat l) = []).
  { clear -Hok E1. revert l fl E1. generalize no_flags. induction ps as [|p ps IH]; intros fl0 l fl H; cbn [each] in H.
    - injection H as <- <-. split; [constructor|reflexivity].
    - inversion Hok as [|? ? H1 H2]; subst. unfold bind, ret in H. destruct (piece_meaning R p fl0) as [[l1 fl1]|] eqn:E1; [|discriminate].
      destruct (each _ ps fl1) as [[l2 fl2]|] eqn:E2; [|discriminate]. injection H as <- <-. cbn [concat].
      destruct (piece_to _ _ _ _ _ H1 E1) as [H3 H4], (IH H2 _ _ _ E2) as [H5 H6]. split; [eapply parts_app; eauto|].
      rewrite nested_app. now rewrite H4, H6. }
  destruct HA as [HA HN]. destruct (row_of_rules (elements (concat l))) as [r|] eqn:Er; [|apply default_expressible].
  exists (elements (concat l)), fl. split; [now apply parts_elements|exact Er].
Qed.

(** ** From rules to texts *)

Lemma seq_each {A B} (f : A -> meaning B) (P : flags -> B -> flags -> Prop) (ok : A -> Prop) :
  (forall fl b fl', P fl b fl' -> exists a, ok a /\ f a fl = Some (b, fl')) ->
  forall fl bs fl', seq_at P fl bs fl' -> exists l, Forall ok l /\ each f l fl = Some (bs, fl').
Proof.
  intros Hf fl bs fl'. induction 1 as [fl|fl b fl1 bs fl2 H1 H2 [l [Hl He]]].
  - exists []. split; [constructor|reflexivity].
  - destruct (Hf _ _ _ H1) as [a [Ha Hfa]]. exists (a :: l). split; [now constructor|]. cbn [each]. unfold bind, ret. now rewrite Hfa, He.
Qed.

Lemma literal_quoted x : literal x -> exists q, quoted_ok q /\ q_body q = x.
Proof.
  intros [H|H]; [exists (mk_quoted quote x)|exists (mk_quoted apostrophe x)]; (split; [|reflexivity]); split; auto; [now left|right; now left].
Qed.

Lemma regex_from fl rx fl' : regex_at E fl rx fl' -> exists r, regex_ok r /\ R r fl = Some (rx, fl').
Proof.
  intros [H1 [H2 [H3 [H4 ->]]]].
  assert (HM : exists m, In m ["/"%char; apostrophe; quote] /\ enclosed m (rx_source rx)).
  { destruct H1 as [H1|[H1|H1]]; [exists "/"%char|exists quote|exists apostrophe]; (split; [|exact H1]); cbn; auto. }
  destruct HM as [m [Hm He]]. set (fl' := mk_flags (rx_icase rx) (rx_collate rx)). exists (mk_rl m (rx_source rx) (flags_for fl')).
  split; [split; assumption|]. unfold regex_meaning. cbn [rl_flags rl_body]. rewrite flags_for_spec by assumption. cbv zeta. cbn [fl' f_icase f_collate].
  destruct rx as [src ic co]. cbn [rx_source rx_icase rx_collate] in *. now rewrite H2.
Qed.

Lemma number_from z fl : fits_int z = true -> exists m ds, is_digits ds /\ number_meaning m ds fl = Some (z, fl).
Proof.
  intros H. destruct (signed_exists z) as [m [ds [H1 H2]]]. exists m, ds. split; [exact H1|]. unfold number_meaning. cbv zeta. rewrite H2, H. reflexivity.
Qed.
Lemma count_from z fl : (0 <= z)%Z -> fits_int z = true -> exists ds, is_digits ds /\ number_meaning false ds fl = Some (z, fl).
Proof.
  intros Hz H. destruct (number_exists z Hz) as [ds [H1 H2]]. exists ds. split; [exact H1|]. unfold number_meaning. cbv zeta. rewrite H2, H. reflexivity.
Qed.

Lemma trait_from fl m fl' : trait_at E fl m fl' -> exists t, trait_ok t /\ trait_meaning R t fl = Some (m, fl').
Proof.
  intros H. destruct H as [z H1 H2|z H1 H2|step shift first of_type H1 H2|of_type|rx fl' H].
  - destruct (count_from z fl H1 H2) as [ds [H3 H4]]. exists (TrChildCount ds). split; [exact H3|]. cbn [trait_meaning]. unfold bind. now rewrite H4.
  - destruct (count_from z fl H1 H2) as [ds [H3 H4]]. exists (TrAttributeCount ds). split; [exact H3|]. cbn [trait_meaning]. unfold bind. now rewrite H4.
  - destruct (number_from step fl H1) as [m [ds [H3 H4]]], (number_from shift fl H2) as [m' [ds' [H5 H6]]].
    exists (TrNth first of_type (NthStepShift m ds m' ds')). split; [split; assumption|]. cbn [trait_meaning nth_meaning]. unfold bind. now rewrite H4, H6.
  - exists (TrOnly of_type). split; [exact I|reflexivity].
  - destruct (regex_from _ _ _ H) as [r [H1 H2]]. exists (TrTypeMatches r). split; [exact H1|]. cbn [trait_meaning]. unfold bind. now rewrite H2.
Qed.

Lemma condition_from fl m fl' : condition_at E fl m fl' -> exists c, condition_ok c /\ condition_meaning R c fl = Some (m, fl').
Proof.
  intros H. destruct H as [m fl' H|ms fl' Hn H].
  - destruct (trait_from _ _ _ H) as [t [H1 H2]]. exists (Is t). auto.
  - destruct (seq_each _ _ _ trait_from _ _ _ H) as [l [H1 H2]]. destruct l as [|t ts].
    + injection H2 as <- <-. contradiction.
    + exists (IsNot t ts). inversion H1; subst. split; [split; assumption|]. cbn [condition_meaning]. unfold bind. now rewrite H2.
Qed.

Lemma pipe_from fl t fl' : transform_at E fl t fl' -> exists p, pipe_ok p /\ pipe_meaning R p fl = Some (t, fl').
Proof.
  intros H. destruct H as [x H| |b|x H|x H|rx fl' H|rx x fl' H H'].
  - destruct (literal_quoted x H) as [q [H1 <-]]. exists (PlTrimAny q). auto.
  - exists PlCollapse. split; [exact I|reflexivity].
  - destruct b; [exists PlLower|exists PlUpper]; (split; [exact I|reflexivity]).
  - destruct (literal_quoted x H) as [q [H1 <-]]. exists (PlPrepend q). auto.
  - destruct (literal_quoted x H) as [q [H1 <-]]. exists (PlAppend q). auto.
  - destruct (regex_from _ _ _ H) as [r [H1 H2]]. exists (PlFilter r). split; [exact H1|]. cbn [pipe_meaning]. unfold bind. now rewrite H2.
  - destruct (regex_from _ _ _ H) as [r [H1 H2]]. destruct (literal_quoted x H') as [q [H3 <-]]. exists (PlReplace r [] [] q).
    split; [repeat split; try assumption; try apply H1; try apply H3; intros c []|]. cbn [pipe_meaning]. unfold bind. now rewrite H2.
Qed.

Lemma test_from fl t : test_at E fl t -> exists v fl', value_test_ok v /\ value_test_meaning R v fl = Some (t, fl').
Proof.
  intros H. destruct H as [rx fl' H|x H|x H|x H|x H|x H];
    [|destruct (literal_quoted x H) as [q [H1 <-]]..].
  - destruct (regex_from _ _ _ H) as [r [H1 H2]]. exists (VRegex r), fl'. split; [exact H1|]. cbn [value_test_meaning]. unfold bind. now rewrite H2.
  - exists (VLiteral Words q), fl. auto.
  - exists (VLiteral Equals q), fl. auto.
  - exists (VLiteral Begins q), fl. auto.
  - exists (VLiteral Contains q), fl. auto.
  - exists (VLiteral Ends q), fl. auto.
Qed.

Lemma builtin_from f : is_builtin f -> exists b, builtin_meaning b = f.
Proof. destruct f; intros H; [exists BText|exists BInnerHtml|exists BStripTags|destruct H]; reflexivity. Qed.

Lemma match_from fl m : match_at E fl m -> exists p, pattern_ok p /\ pattern_meaning R p fl = Some (([m], []), no_flags).
Proof.
  intros H. destruct H as [a ng H|a t ng H H'|f t ng H H'].
  - exists (PAttr a ng). auto.
  - destruct (test_from _ _ H') as [v [fl' [H1 H2]]]. exists (PAttrMatch a v ng). split; [split; assumption|]. cbn [pattern_meaning]. unfold pattern_meaning, bind. now rewrite H2.
  - destruct (test_from _ _ H') as [v [fl' [H1 H2]]]. destruct (builtin_from f H) as [b <-]. exists (PBuiltinMatch b v ng). split; [assumption|].
    unfold pattern_meaning, bind. now rewrite H2.
Qed.

Lemma capture_from fl c : capture_at E fl c -> exists p, pattern_ok p /\ pattern_meaning R p fl = Some (([], [c]), no_flags).
Proof.
  intros H. destruct H as [a n ts fl' H1 H2 H3|f n ts fl' H1 H2 H3]; destruct (seq_each _ _ _ pipe_from _ _ _ H3) as [ps [H4 H5]];
    destruct (literal_quoted n H2) as [q [H6 <-]].
  - exists (PAttrCapture a ps (CQuoted q) true). split; [repeat split; try assumption; apply H6|]. unfold pattern_meaning, bind. now rewrite H5.
  - destruct (builtin_from f H1) as [b <-]. exists (PBuiltinCapture b ps (CQuoted q)). split; [repeat split; try assumption; apply H6|].
    unfold pattern_meaning, bind. now rewrite H5.
Qed.

Definition spaced (p : pattern) : str * pattern := ([" "%char], p).
Lemma spaced_fine p : pattern_ok p -> fst (spaced p) <> [] /\ spaces_only (fst (spaced p)) /\ pattern_ok (snd (spaced p)).
Proof. intros H. split; [discriminate|]. split; [|exact H]. intros c [<-|[]]. reflexivity. Qed.

Lemma matches_from ms : Forall (match_at E no_flags) ms -> exists l mcs, Forall (fun sp => fst sp <> [] /\ spaces_only (fst sp) /\ pattern_ok (snd sp)) l /\
  each (fun sp => pattern_meaning R (snd sp)) l no_flags = Some (mcs, no_flags) /\ flat_map fst mcs = ms /\ flat_map snd mcs = [].
Proof.
  induction 1 as [|m ms Hm _ [l [mcs [H1 [H2 [H3 H4]]]]]]; [exists [], []; split; [constructor|auto]|].
  destruct (match_from _ _ Hm) as [p [Hp Hpm]]. exists (spaced p :: l), (([m], []) :: mcs). split; [constructor; [now apply spaced_fine|exact H1]|].
  cbn [each snd spaced]. unfold bind, ret. rewrite Hpm, H2. cbn [flat_map fst snd app]. rewrite H3, H4. auto.
Qed.
Lemma captures_from cs : Forall (capture_at E no_flags) cs -> exists l mcs, Forall (fun sp => fst sp <> [] /\ spaces_only (fst sp) /\ pattern_ok (snd sp)) l /\
  each (fun sp => pattern_meaning R (snd sp)) l no_flags = Some (mcs, no_flags) /\ flat_map fst mcs = [] /\ flat_map snd mcs = cs.
Proof.
  induction 1 as [|m ms Hm _ [l [mcs [H1 [H2 [H3 H4]]]]]]; [exists [], []; split; [constructor|auto]|].
  destruct (capture_from _ _ Hm) as [p [Hp Hpm]]. exists (spaced p :: l), (([], [m]) :: mcs). split; [constructor; [now apply spaced_fine|exact H1]|].
  cbn [each snd spaced]. unfold bind, ret. rewrite Hpm, H2. cbn [flat_map fst snd app]. rewrite H3, H4. auto.
Qed.

Lemma each_app {A B} (f : A -> meaning B) u v fl : each f (u ++ v) fl =
  match each f u fl with
  | Some (bs, fl1) => match each f v fl1 with Some (bs', fl2) => Some (bs ++ bs', fl2) | None => None end
  | None => None
  end.
Proof.
  revert fl. induction u as [|a u IH]; intros fl; cbn [app each]; unfold bind, ret.
  - destruct (each f v fl) as [[bs fl2]|]; reflexivity.
  - destruct (f a fl) as [[b fl1]|]; [|reflexivity]. rewrite IH. destruct (each f u fl1) as [[bs fl2]|]; [|reflexivity].
    destruct (each f v fl2) as [[bs' fl3]|]; reflexivity.
Qed.

Lemma patterns_from fl ms cs fl' : patterns_at E fl ms cs fl' -> exists l mcs,
  Forall (fun sp => fst sp <> [] /\ spaces_only (fst sp) /\ pattern_ok (snd sp)) l /\
  each (fun sp => pattern_meaning R (snd sp)) l fl = Some (mcs, fl') /\ flat_map fst mcs = ms /\ flat_map snd mcs = cs.
Proof.
  intros H. destruct H as [|ms cs Hms Hcs [[m [l [-> Hm]]]|[c [l [-> Hc]]]]].
  - exists [], []. split; [constructor|auto].
  - inversion Hms as [|? ? _ Hl]; subst. destruct (match_from _ _ Hm) as [p [Hp Hpm]].
    destruct (matches_from l Hl) as [l1 [mcs1 [H1 [H2 [H3 H4]]]]], (captures_from cs Hcs) as [l2 [mcs2 [H5 [H6 [H7 H8]]]]].
    exists (spaced p :: l1 ++ l2), (([m], []) :: mcs1 ++ mcs2). split; [constructor; [now apply spaced_fine|now apply Forall_app]|].
    cbn [each snd spaced]. unfold bind, ret. rewrite Hpm, each_app, H2, H6. split; [reflexivity|].
    cbn [flat_map fst snd app]. rewrite !flat_map_app, H3, H4, H7, H8, app_nil_r. auto.
  - inversion Hcs as [|? ? _ Hl]; subst. destruct (capture_from _ _ Hc) as [p [Hp Hpm]].
    destruct (captures_from l Hl) as [l1 [mcs1 [H1 [H2 [H3 H4]]]]], (matches_from ms Hms) as [l2 [mcs2 [H5 [H6 [H7 H8]]]]].
    exists (spaced p :: l1 ++ l2), (([], [c]) :: mcs1 ++ mcs2). split; [constructor; [now apply spaced_fine|now apply Forall_app]|].
    cbn [each snd spaced]. unfold bind, ret. rewrite Hpm, each_app, H2, H6. split; [reflexivity|].
    cbn [flat_map fst snd app]. rewrite !flat_map_app, H3, H4, H7, H8, app_nil_r. auto.
Qed.

Scheme element_at_mut := Minimality for element_at Sort Prop
with parts_at_mut := Minimality for parts_at Sort Prop
with elements_at_mut := Minimality for elements_at Sort Prop.
Combined Scheme at_mut from element_at_mut, parts_at_mut, elements_at_mut.

Definition marks_for (optional greedy : bool) : list option_mark :=
  (if optional then [OptOptional] else []) ++ (if greedy then [OptGreedy] else []).

Lemma spell_at :
  (forall fl r fl', element_at E fl r fl' -> exists p, (forall i, piece_ok i p) /\ is_element p = true /\ piece_meaning R p fl = Some ([Element r], fl')) /\
  (forall fl l fl', parts_at E fl l fl' -> exists ps ls, Forall (piece_ok true) ps /\ each (piece_meaning R) ps fl = Some (ls, fl') /\ concat ls = l) /\
  (forall fl rs fl', elements_at E fl rs fl' -> exists ps ls, Forall (piece_ok false) ps /\ each (piece_meaning R) ps fl = Some (ls, fl') /\
    elements (concat ls) = rs /\ (rs <> [] -> exists q, In q ps /\ is_element q = true)).
Proof.
  apply (at_mut E
    (fun fl r fl' => exists p, (forall i, piece_ok i p) /\ is_element p = true /\ piece_meaning R p fl = Some ([Element r], fl'))
    (fun fl l fl' => exists ps ls, Forall (piece_ok true) ps /\ each (piece_meaning R) ps fl = Some (ls, fl') /\ concat ls = l)
    (fun fl rs fl' => exists ps ls, Forall (piece_ok false) ps /\ each (piece_meaning R) ps fl = Some (ls, fl') /\
      elements (concat ls) = rs /\ (rs <> [] -> exists q, In q ps /\ is_element q = true))).
  - intros fl conds fl1 ms cs fl2 parts fl3 name o g Hc Hp _ [ps [ls [H1 [H2 H3]]]] Hn.
    destruct (seq_each _ _ _ condition_from _ _ _ Hc) as [cl [Hcl Hce]]. destruct (patterns_from _ _ _ _ Hp) as [pl [mcs [Hpl [Hpe [Hp1 Hp2]]]]].
    exists (Opened (mk_head (marks_for o g) name cl pl []) ps name). split; [|split; [reflexivity|]].
    + intros i. apply opened_ok. cbn [h_name]. split; [|split; [exact Hn|split; [now left|exact H1]]].
      split; [exact Hn|]. split; [exact Hcl|]. split; [exact Hpl|intros c []].
    + cbn [piece_meaning]. unfold head_meaning, bind, ret. cbn [h_conditions h_patterns]. rewrite Hce. cbv beta iota. match goal with |- context [each ?f pl fl1] => replace (each f pl fl1) with (Some (mcs, fl2)) by (symmetry; exact Hpe) end. cbv beta iota. rewrite H2. cbv beta iota. rewrite H3.
      unfold head_rule. cbn [h_name h_options]. rewrite Hp1, Hp2. f_equal. f_equal. f_equal. f_equal.
      assert (HO : has_option OptOptional (marks_for o g) = o) by (destruct o, g; reflexivity).
      assert (HG : has_option OptGreedy (marks_for o g) = g) by (destruct o, g; reflexivity). now rewrite HO, HG.
  - intros fl. exists [], []. split; [constructor|auto].
  - intros fl r fl1 l fl2 _ [p [Hp [_ Hpm]]] _ [ps [ls [H1 [H2 H3]]]]. exists (p :: ps), ([Element r] :: ls). split; [constructor; auto|].
    cbn [each]. unfold bind, ret. rewrite Hpm, H2. split; [reflexivity|]. cbn [concat app]. now rewrite H3.
  - intros fl rs r fl1 l fl2 _ [ps [ls [H1 [H2 [H3 H4]]]]] Hr _ [ps' [ls' [H5 [H6 H7]]]]. exists (Nested ps :: ps'), ([NestedRule r] :: ls').
    split; [constructor; [|exact H5]|].
    + apply nested_ok. split; [reflexivity|]. split; [|exact H1]. apply H4. intros ->. discriminate.
    + cbn [each piece_meaning]. unfold bind, ret. rewrite H2, H3, Hr, H6. split; [reflexivity|]. cbn [concat app]. now rewrite H7.
  - intros fl. exists [], []. split; [constructor|]. split; [reflexivity|]. split; [reflexivity|congruence].
  - intros fl r fl1 l fl2 _ [p [Hp [He Hpm]]] _ [ps [ls [H1 [H2 [H3 H4]]]]]. exists (p :: ps), ([Element r] :: ls). split; [constructor; auto|].
    cbn [each]. unfold bind, ret. rewrite Hpm, H2. split; [reflexivity|]. cbn [concat app elements flat_map]. fold (elements (concat ls)). rewrite H3. split; [reflexivity|].
    intros _. exists p. split; [now left|exact He].
Qed.

Lemma expressible_parsed r : expressible E r -> exists x, ParseHext E x = Ok r.
Proof.
  intros [rs [fl [H Hr]]]. destruct (proj2 (proj2 spell_at) _ _ _ H) as [ps [ls [H1 [H2 [H3 _]]]]].
  exists (flat_map piece_text ps). apply parse_denotes. exists ps. split; [split; [exact H1|reflexivity]|].
  unfold text_meaning. now rewrite H2, H3, Hr.
Qed.

Theorem parse_image r : (exists x, ParseHext E x = Ok r) <-> expressible E r.
Proof. split; [intros [x H]; eapply parsed_expressible; eauto|apply expressible_parsed]. Qed.

End Express.
