(** Documents that are alike: conditions and captures give the same. *)

From Coq Require Import Ascii String Arith NArith ZArith Bool List Lia Permutation.
From Verif Require Import Base StringUtil Tags Dom NodeUtil Values Match Rule RuleMatching RuleProofs StringProofs
  MatchSpec ExtractSpec TextSpec TextProofs AlikeSpec.
Import ListNotations.

Scheme alike_mut := Minimality for alike Sort Prop with alikes_mut := Minimality for alikes Sort Prop.

(** ** Counting the elements among siblings *)

Definition tag_list (n : node) : list tag := match n with NElement t _ _ _ => [t] | _ => [] end.
Definition tags_of (l : list node) : list tag := flat_map tag_list l.

Lemma tags_app a b : tags_of (a ++ b) = tags_of a ++ tags_of b.
Proof. apply flat_map_app. Qed.
Lemma tags_cons n l : tags_of (n :: l) = tag_list n ++ tags_of l.
Proof. reflexivity. Qed.
Lemma tags_rev l : tags_of (rev l) = rev (tags_of l).
Proof.
  induction l as [|n l IH]; [reflexivity|]. cbn [rev]. rewrite tags_app, IH, (tags_cons n l), (tags_cons n []), rev_app_distr.
  destruct n; reflexivity.
Qed.
Lemma tags_gap l : Forall (fun n => is_element n = false) l -> tags_of l = [].
Proof. induction 1 as [|n l Hn H IH]; [reflexivity|]. rewrite tags_cons, IH. destruct n; try reflexivity. discriminate. Qed.

Fixpoint count_tags (ct : option tag) (ts : list tag) (c : Z) : outcome Z :=
  match ts with
  | [] => Ok c
  | t :: ts' =>
      obind (if match ct with None => true | Some t' => (t =? t')%N end then int_op (c + 1) else Ok c) (count_tags ct ts')
  end.

Lemma count_tags_one ct n l c : obind (if counts ct n then int_op (c + 1) else Ok c) (count_tags ct l) = count_tags ct (tag_list n ++ l) c.
Proof. destruct n; reflexivity. Qed.
Lemma count_tags_last ct n c : (if counts ct n then int_op (c + 1) else Ok c) = count_tags ct (tag_list n) c.
Proof.
  rewrite <- (app_nil_r (tag_list n)), <- count_tags_one. cbn [count_tags].
  destruct (if counts ct n then int_op (c + 1) else Ok c); reflexivity.
Qed.

Lemma count_up_tags ct before n after : forall i c,
  count_up ct (before ++ n :: after) i (i + length before) c = count_tags ct (tags_of (before ++ [n])) c.
Proof.
  induction before as [|x before IH]; intros i c; cbn [app count_up length].
  - rewrite Nat.add_0_r, Nat.eqb_refl. unfold tags_of. cbn [flat_map]. rewrite app_nil_r, <- count_tags_last.
    destruct (if counts ct n then int_op (c + 1) else Ok c); reflexivity.
  - rewrite tags_cons, <- count_tags_one.
    assert (X : Nat.eqb i (i + S (length before)) = false) by (apply Nat.eqb_neq; lia). rewrite X.
    destruct (if counts ct x then int_op (c + 1) else Ok c) as [c'|e|u|]; try reflexivity. cbn [obind].
    rewrite <- (IH (S i) c'). f_equal. lia.
Qed.

Lemma count_down_tags ct n y : forall x c,
  count_down ct (x ++ n :: y) (length y) c = count_tags ct (tags_of (x ++ [n])) c.
Proof.
  induction x as [|a x IH]; intros c; cbn [app count_down].
  - rewrite Nat.ltb_irrefl, Nat.eqb_refl. unfold tags_of. cbn [flat_map]. rewrite app_nil_r, <- count_tags_last.
    destruct (if counts ct n then int_op (c + 1) else Ok c); reflexivity.
  - rewrite tags_cons, <- count_tags_one.
    assert (L : length (x ++ n :: y) = length x + S (length y)) by (rewrite app_length; reflexivity).
    rewrite L. assert (X : Nat.ltb (length x + S (length y)) (length y) = false) by (apply Nat.ltb_ge; lia). rewrite X.
    assert (Y : Nat.eqb (length x + S (length y)) (length y) = false) by (apply Nat.eqb_neq; lia). rewrite Y.
    destruct (if counts ct a then int_op (c + 1) else Ok c) as [c'|e|u|]; try reflexivity. apply IH.
Qed.

Definition other_kind (of_type : bool) (ct : tag) (t : tag) : bool := negb (negb of_type || (t =? ct)%N).

Lemma only_after of_type ct l : forall i index, index < i ->
  only_child_loop of_type ct l i index = forallb (other_kind of_type ct) (tags_of l).
Proof.
  induction l as [|n l IH]; intros i index Hi; [reflexivity|]. cbn [only_child_loop]. rewrite tags_cons, forallb_app.
  assert (X : Nat.eqb i index = false) by (apply Nat.eqb_neq; lia).
  rewrite (IH (S i) index) by lia. destruct n; cbn [tag_list forallb]; try reflexivity.
  rewrite X. cbn [negb andb]. unfold other_kind. destruct (negb of_type || (t =? ct)%N); reflexivity.
Qed.
Lemma only_tags of_type ct before n after : forall i,
  only_child_loop of_type ct (before ++ n :: after) i (i + length before) =
  forallb (other_kind of_type ct) (tags_of before ++ tags_of after).
Proof.
  induction before as [|x before IH]; intros i; cbn [app only_child_loop length].
  - rewrite Nat.add_0_r, Nat.eqb_refl. cbn [negb andb].
    rewrite (only_after of_type ct after (S i) i) by lia. now destruct n.
  - rewrite tags_cons, <- app_assoc, forallb_app.
    assert (X : Nat.eqb i (i + S (length before)) = false) by (apply Nat.eqb_neq; lia). rewrite X.
    replace (i + S (length before)) with (S i + length before) by lia. rewrite (IH (S i)).
    destruct x; cbn [tag_list forallb]; try reflexivity.
    cbn [negb andb]. unfold other_kind at 2. destruct (negb of_type || (t =? ct)%N); reflexivity.
Qed.

Lemma count_child_tags l : count_child_elements l = fold_left (fun c _ => ((c + 1) mod UINT_MOD)%Z) (tags_of l) 0%Z.
Proof.
  unfold count_child_elements. generalize 0%Z. induction l as [|n l IH]; intros c; [reflexivity|].
  cbn [fold_left]. rewrite IH, tags_cons, fold_left_app. destruct n; reflexivity.
Qed.

(** ** Attributes *)

Lemma get_swap a b l name : str_lower (a_name a) <> str_lower (a_name b) ->
  gumbo_get_attribute (a :: b :: l) name = gumbo_get_attribute (b :: a :: l) name.
Proof.
  intros H. cbn [gumbo_get_attribute]. unfold str_eqb_nocase.
  destruct (str_eqb (str_lower (a_name a)) (str_lower name)) eqn:Ea, (str_eqb (str_lower (a_name b)) (str_lower name)) eqn:Eb; try reflexivity.
  apply str_eqb_eq in Ea, Eb. congruence.
Qed.

Lemma get_permutation l l' name : Permutation l l' -> NoDup (map (fun a => str_lower (a_name a)) l) ->
  gumbo_get_attribute l name = gumbo_get_attribute l' name.
Proof.
  induction 1 as [|a l l' H IH|a b l|l l' l'' H IH H' IH']; intros N; cbn [map] in N.
  - reflexivity.
  - cbn [gumbo_get_attribute]. inversion N; subst. now rewrite IH.
  - apply get_swap. inversion N as [|? ? N1 N2]; subst. intros E. apply N1. left. now symmetry.
  - rewrite (IH N). apply IH'. eapply Permutation_NoDup; [|exact N]. now apply Permutation_map.
Qed.

Lemma get_alike l l' name : attributes_alike l l' -> gumbo_get_attribute l name = gumbo_get_attribute l' name.
Proof. intros [->|[H N]]; [reflexivity|now apply get_permutation]. Qed.
Lemma length_alike l l' : attributes_alike l l' -> length l = length l'.
Proof. intros [->|[H N]]; [reflexivity|now apply Permutation_length]. Qed.

Section Words.
Variable words : bool.
Notation alike := (alike words).
Notation alikes := (alikes words).
Notation gaps_alike := (gaps_alike words).

Lemma gaps_app a a' b b' : gaps_alike a a' -> gaps_alike b b' -> gaps_alike (a ++ b) (a' ++ b').
Proof.
  intros [H1 [H2 H3]] [H4 [H5 H6]]. split; [|split]; [apply Forall_app; now split|apply Forall_app; now split|].
  intros W. rewrite !map_app, !concat_app, (H3 W), (H6 W). reflexivity.
Qed.

Lemma alikes_app a a' b b' : alikes a a' -> alikes b b' -> alikes (a ++ b) (a' ++ b').
Proof.
  induction 1 as [gap gap' H|gap gap' n n' l l' H Hn Hl IH]; intros Hb.
  - destruct Hb as [g g' Hg|g g' n n' l l' Hg Hn Hl].
    + apply alikes_end. now apply gaps_app.
    + rewrite !app_assoc. apply alikes_next; [now apply gaps_app|exact Hn|exact Hl].
  - rewrite <- !app_assoc. cbn [app]. apply alikes_next; [exact H|exact Hn|now apply IH].
Qed.
Lemma alikes_one n n' : alike n n' -> alikes [n] [n'].
Proof.
  assert (G : gaps_alike [] []) by (repeat split; constructor).
  intros H. exact (alikes_next words [] [] n n' [] [] G H (alikes_end words [] [] G)).
Qed.

Lemma alike_tags n n' : alike n n' -> tag_list n = tag_list n'.
Proof. destruct 1; reflexivity. Qed.
Lemma alike_is n n' : alike n n' -> is_element n = is_element n'.
Proof. destruct 1; reflexivity. Qed.
Lemma alike_children n n' : alike n n' -> alikes (children_of n) (children_of n').
Proof. now destruct 1. Qed.
Lemma alikes_tags l l' : alikes l l' -> tags_of l = tags_of l'.
Proof.
  induction 1 as [gap gap' [H1 [H2 _]]|gap gap' n n' l l' [H1 [H2 _]] Hn Hl IH].
  - now rewrite (tags_gap gap H1), (tags_gap gap' H2).
  - rewrite !tags_app, !tags_cons, (tags_gap gap H1), (tags_gap gap' H2), (alike_tags n n' Hn), IH. reflexivity.
Qed.

(** Being alike goes both ways. *)
Lemma gaps_sym a a' : gaps_alike a a' -> gaps_alike a' a.
Proof. intros [H1 [H2 H3]]. split; [exact H2|]. split; [exact H1|]. intros W. now rewrite (H3 W). Qed.
Lemma attributes_sym l l' : attributes_alike l l' -> attributes_alike l' l.
Proof.
  intros [->|[H N]]; [now left|]. right. split; [now apply Permutation_sym|].
  eapply Permutation_NoDup; [|exact N]. now apply Permutation_map.
Qed.
Lemma tags_sym t orig orig' : tags_alike t orig orig' -> tags_alike t orig' orig.
Proof.
  intros [H|[->|[x [x' [-> [-> [H1 [H2 H3]]]]]]]]; [now left|right; now left|].
  right. right. exists x', x. now repeat split.
Qed.
Lemma alike_sym_both : (forall n n', alike n n' -> alike n' n) /\ (forall l l', alikes l l' -> alikes l' l).
Proof.
  split; [apply (alike_mut words (fun n n' => alike n' n) (fun l l' => alikes l' l))
         |apply (alikes_mut words (fun n n' => alike n' n) (fun l l' => alikes l' l))];
    intros; constructor; try assumption; now (apply tags_sym || apply attributes_sym || apply gaps_sym).
Qed.
Lemma place_sym D D' p p' : same_place words D D' p p' -> same_place words D' D p' p.
Proof.
  induction 1 as [H|pp pp' par par' before before' n n' after after' H IH Hp Hp' Hc Hc' Hb Hn Ha].
  - constructor. now apply alike_sym_both.
  - eapply place_below; try eassumption; now apply alike_sym_both.
Qed.

(** ** Texts *)

Lemma piece_gap w n : is_element n = false -> piece w n = full_text n.
Proof. destruct n; try discriminate; intros _; unfold full_text; destruct w; cbn; now rewrite ?app_nil_r. Qed.
Lemma pieces_gap w l : Forall (fun n => is_element n = false) l -> map (piece w) l = map full_text l.
Proof. induction 1 as [|n l Hn H IH]; [reflexivity|]. cbn [map]. now rewrite IH, piece_gap. Qed.

Lemma alike_text : words = true -> forall w,
  (forall n n', alike n n' -> StripTags w n = StripTags w n') /\
  (forall l l', alikes l l' -> concat (map (piece w) l) = concat (map (piece w) l')).
Proof.
  intros W w.
  assert (G : forall gap gap', gaps_alike gap gap' -> concat (map (piece w) gap) = concat (map (piece w) gap')).
  { intros gap gap' [H1 [H2 H3]]. rewrite (pieces_gap w gap H1), (pieces_gap w gap' H2). exact (H3 W). }
  assert (X : forall n n', alike n n' -> StripTags w n = StripTags w n' -> piece w n = piece w n').
  { intros n n' H HS. unfold piece. destruct H; rewrite HS; destruct w; reflexivity. }
  split.
  - apply (alike_mut words (fun n n' => StripTags w n = StripTags w n')
      (fun l l' => concat (map (piece w) l) = concat (map (piece w) l'))).
    + intros t orig orig' attrs attrs' cs cs' _ _ _ IH. now rewrite !StripTags_element.
    + reflexivity.
    + exact G.
    + intros gap gap' n n' l l' Hg Hn IHn Hl IHl. rewrite !map_app, !concat_app, (G _ _ Hg). cbn [map concat].
      now rewrite IHl, (X n n' Hn IHn).
  - apply (alikes_mut words (fun n n' => StripTags w n = StripTags w n')
      (fun l l' => concat (map (piece w) l) = concat (map (piece w) l'))).
    + intros t orig orig' attrs attrs' cs cs' _ _ _ IH. now rewrite !StripTags_element.
    + reflexivity.
    + exact G.
    + intros gap gap' n n' l l' Hg Hn IHn Hl IHl. rewrite !map_app, !concat_app, (G _ _ Hg). cbn [map concat].
      now rewrite IHl, (X n n' Hn IHn).
Qed.

(** ** Places *)

Section Places.
Variables D D' : node.
Notation same_place := (same_place words D D').

Lemma place_nodes p p' : same_place p p' -> exists n n', nget D p = Some n /\ nget D' p' = Some n' /\ alike n n'.
Proof.
  destruct 1 as [H|pp pp' par par' before before' n n' after after' H Hp Hp' Hc Hc' Hb Hn Ha]; [now exists D, D'|].
  exists n, n'. cbn [nget]. rewrite Hp, Hp', Hc, Hc', !nth_error_app2, !Nat.sub_diag by lia. now repeat split.
Qed.

Lemma place_parent pp pp' par par' : same_place pp pp' -> nget D pp = Some par -> nget D' pp' = Some par' -> alike par par'.
Proof. intros H Hp Hp'. destruct (place_nodes pp pp' H) as [n [n' [H1 [H2 H3]]]]. congruence. Qed.

Lemma count_preceding_alike p p' ct : same_place p p' ->
  count_preceding_siblings D p ct = count_preceding_siblings D' p' ct.
Proof.
  destruct 1 as [H|pp pp' par par' before before' n n' after after' H Hp Hp' Hc Hc' Hb Hn Ha]; [reflexivity|].
  cbn [count_preceding_siblings]. unfold deref. rewrite Hp, Hp'. cbn [obind].
  rewrite <- (alike_is par par' (place_parent _ _ _ _ H Hp Hp')). destruct (is_element par); [|reflexivity].
  rewrite Hc, Hc'.
  pose proof (count_up_tags ct before n after 0 0%Z) as X. pose proof (count_up_tags ct before' n' after' 0 0%Z) as Y.
  cbn [Nat.add] in X, Y. rewrite X, Y.
  now rewrite (alikes_tags (before ++ [n]) (before' ++ [n']) (alikes_app _ _ _ _ Hb (alikes_one n n' Hn))).
Qed.

Lemma count_following_alike p p' ct : same_place p p' ->
  count_following_siblings D p ct = count_following_siblings D' p' ct.
Proof.
  destruct 1 as [H|pp pp' par par' before before' n n' after after' H Hp Hp' Hc Hc' Hb Hn Ha]; [reflexivity|].
  cbn [count_following_siblings]. unfold deref. rewrite Hp, Hp'. cbn [obind].
  rewrite <- (alike_is par par' (place_parent _ _ _ _ H Hp Hp')). destruct (is_element par); [|reflexivity].
  rewrite Hc, Hc'.
  assert (X : forall b m a, count_down ct (rev (b ++ m :: a)) (length b) 0%Z = count_tags ct (rev (tags_of (m :: a))) 0%Z).
  { intros b m a. rewrite rev_app_distr. cbn [rev]. rewrite <- app_assoc. cbn [app].
    rewrite <- (rev_length b), (count_down_tags ct m (rev b) (rev a) 0%Z). now rewrite <- tags_rev. }
  rewrite !X, !tags_cons, (alike_tags n n' Hn), (alikes_tags after after' Ha). reflexivity.
Qed.

Lemma only_child_alike p p' n n' of_type : same_place p p' -> alike n n' ->
  OnlyChildMatch_matches D p n of_type = OnlyChildMatch_matches D' p' n' of_type.
Proof.
  intros H Hn. destruct Hn as [t orig orig' attrs attrs' cs cs' _ _ _|]; [|reflexivity]. cbn [OnlyChildMatch_matches].
  destruct H as [H|pp pp' par par' before before' m m' after after' H Hp Hp' Hc Hc' Hb Hm Ha]; [reflexivity|].
  unfold deref. rewrite Hp, Hp'. cbn [obind].
  rewrite <- (alike_is par par' (place_parent _ _ _ _ H Hp Hp')). destruct (is_element par); [|reflexivity].
  pose proof (only_tags of_type t before m after 0) as X. pose proof (only_tags of_type t before' m' after' 0) as Y.
  cbn [Nat.add] in X, Y.
  now rewrite Hc, Hc', X, Y, (alikes_tags before before' Hb), (alikes_tags after after' Ha).
Qed.

Lemma nth_child_alike p p' n n' step shift o : same_place p p' -> alike n n' ->
  NthChildMatch_matches D p n step shift o = NthChildMatch_matches D' p' n' step shift o.
Proof.
  intros H Hn. destruct Hn as [t orig orig' attrs attrs' cs cs' _ _ _|]; [|reflexivity]. cbn [NthChildMatch_matches].
  now rewrite (count_preceding_alike p p' _ H), (count_following_alike p p' _ H).
Qed.

Lemma call_alike f p p' : function_blind words f -> same_place p p' ->
  call_capture_function f D p = call_capture_function f D' p'.
Proof.
  intros Hf H. destruct (place_nodes p p' H) as [n [n' [H1 [H2 H3]]]].
  destruct f; cbn [call_capture_function function_blind] in *; try contradiction; unfold deref; rewrite H1, H2; cbn [obind].
  - unfold NodeText. now rewrite (proj1 (alike_text Hf true) n n' H3).
  - now rewrite (proj1 (alike_text Hf false) n n' H3).
Qed.

Lemma same_source t orig orig' : tags_alike t orig orig' -> t = TAG_UNKNOWN ->
  gumbo_tag_from_original_text orig = gumbo_tag_from_original_text orig' /\
  match orig, orig' with
  | None, None | Some [], Some [] | Some (_ :: _), Some (_ :: _) => True
  | _, _ => False
  end.
Proof.
  intros [H|[->|[x [x' [-> [-> [H1 [H2 H3]]]]]]]] Ht; [contradiction|split; [reflexivity|destruct orig' as [[|]|]; exact I]|].
  split; [exact H3|]. destruct x, x'; try congruence. exact I.
Qed.

Section Engine.
Variable E : engine.

Lemma condition_alike m : forall p p', condition_blind words m -> same_place p p' ->
  mtch_matches E D m p = mtch_matches E D' m p'.
Proof.
  induction m as [ms IH|m Hm] using mtch_ind2; intros p p' Hb H; destruct (place_nodes p p' H) as [n [n' [H1 [H2 H3]]]].
  - cbn [mtch_matches]. unfold deref. rewrite H1, H2. cbn [obind]. cbn [condition_blind] in Hb.
    induction ms as [|om ms IHms]; [reflexivity|]. inversion IH as [|? ? IHm IHr]; subst.
    destruct om as [m'|]; [|now apply IHms]. destruct Hb as [Hb1 Hb2]. 
    rewrite (IHm m' eq_refl p p' Hb1 H). destruct (mtch_matches E D' m' p') as [b|e|u|]; try reflexivity. cbn [obind].
    destruct b; [reflexivity|now apply IHms].
  - destruct m as [count|name test|count|f|f test|ms|step shift o|of_type|rx]; cbn [mtch_matches]; unfold deref; rewrite H1, H2; cbn [obind].
    + destruct H3 as [t orig orig' attrs attrs' cs cs' _ Ha _|]; [|reflexivity]. cbn [AttributeCountMatch_matches].
      now rewrite (length_alike attrs attrs' Ha).
    + destruct H3 as [t orig orig' attrs attrs' cs cs' _ Ha _|]; [|reflexivity]. cbn [AttributeMatch_matches].
      now rewrite (get_alike attrs attrs' _ Ha).
    + destruct H3 as [t orig orig' attrs attrs' cs cs' _ _ Hc|]; [|reflexivity]. cbn [ChildCountMatch_matches].
      now rewrite !count_child_tags, (alikes_tags cs cs' Hc).
    + cbn [condition_blind] in Hb. now rewrite Hb.
    + destruct f as [f|], test as [t|]; try reflexivity. cbn [condition_blind] in Hb. now rewrite (call_alike f p p' Hb H).
    + now destruct (Hm ms).
    + now apply nth_child_alike.
    + now apply only_child_alike.
    + destruct H3 as [t orig orig' attrs attrs' cs cs' Ht _ _|]; [|reflexivity]. unfold TypeRegexMatch_matches.
      destruct (N.eqb_spec t TAG_UNKNOWN) as [Et|]; [|reflexivity]. now rewrite (proj1 (same_source t orig orig' Ht Et)).
Qed.

Lemma tag_matches_alike r n n' : alike n n' -> tag_matches r n = tag_matches r n'.
Proof.
  intros H. unfold tag_matches. destruct (r_tag r =? TAG_ANY)%N; [reflexivity|].
  destruct H as [t orig orig' attrs attrs' cs cs' Ht _ _|]; [|reflexivity].
  destruct (N.eqb_spec t (r_tag r)) as [Et|]; cbn [negb]; [|reflexivity].
  destruct (N.eqb_spec (r_tag r) TAG_UNKNOWN) as [Eu|]; [|reflexivity].
  destruct (same_source t orig orig' Ht ltac:(congruence)) as [X Y].
  destruct (r_tagname r) as [name|]; [|destruct orig as [[|]|]; destruct orig' as [[|]|]; reflexivity].
  destruct orig as [[|]|], orig' as [[|]|]; try contradiction; try reflexivity. now rewrite X.
Qed.

Lemma rule_alike r p p' : (forall m, In (Some m) (r_matches r) -> condition_blind words m) -> same_place p p' ->
  Rule_matches E D r p = Rule_matches E D' r p'.
Proof.
  intros Hb H. destruct (place_nodes p p' H) as [n [n' [H1 [H2 H3]]]]. unfold Rule_matches, deref. rewrite H1, H2. cbn [obind].
  rewrite (tag_matches_alike r n n' H3). destruct (tag_matches r n'); [|reflexivity].
  revert Hb. induction (r_matches r) as [|om l IH]; intros Hb; [reflexivity|]. cbn [all_match].
  destruct om as [m|]; [|apply IH; intros m Hm; apply Hb; now right].
  rewrite (condition_alike m p p' (Hb m (or_introl eq_refl)) H).
  destruct (mtch_matches E D' m p') as [b|e|u|]; try reflexivity. cbn [obind].
  destruct b; [|reflexivity]. apply IH. intros m' Hm. apply Hb. now right.
Qed.

Lemma capture_alike c p p' : capture_blind words c -> same_place p p' -> capture_capture E D c p = capture_capture E D' c p'.
Proof.
  intros Hb H. destruct (place_nodes p p' H) as [n [n' [H1 [H2 H3]]]]. unfold capture_capture, deref. rewrite H1, H2. cbn [obind].
  destruct c as [name res pp|f res pp].
  - destruct H3 as [t orig orig' attrs attrs' cs cs' _ Ha _|]; [|reflexivity]. now rewrite (get_alike attrs attrs' _ Ha).
  - destruct f as [f|]; [|reflexivity]. cbn [capture_blind] in Hb. now rewrite (call_alike f p p' Hb H).
Qed.

Lemma captures_alike l p p' : (forall c, In (Some c) l -> capture_blind words c) -> same_place p p' ->
  capture_all E D l p = capture_all E D' l p'.
Proof.
  intros Hb H. induction l as [|oc l IH]; [reflexivity|]. cbn [capture_all].
  destruct oc as [c|]; [|apply IH; intros c Hc; apply Hb; now right].
  rewrite (capture_alike c p p' (Hb c (or_introl eq_refl)) H), IH by (intros c' Hc; apply Hb; now right). reflexivity.
Qed.

End Engine.
End Places.

(** Nodes that are not elements match no rule for elements. *)
Lemma hidden_condition E D r p n : nget D p = Some n -> is_element n = false -> for_elements r -> Rule_matches E D r p <> Ok true.
Proof.
  intros Hp Hn Hf. unfold Rule_matches, deref. rewrite Hp. cbn [obind].
  destruct Hf as [Ht|[m [Hin Hm]]].
  - unfold tag_matches. destruct (N.eqb_spec (r_tag r) TAG_ANY) as [X|_]; [contradiction|].
    destruct n; try discriminate.
  - destruct (tag_matches r n); [|discriminate].
    assert (X : mtch_matches E D m p = Ok false).
    { destruct m; try contradiction; cbn [mtch_matches]; unfold deref; rewrite Hp; cbn [obind]; destruct n; try discriminate; reflexivity. }
    induction (r_matches r) as [|om l IH]; [destruct Hin|]. cbn [all_match].
    destruct Hin as [->|Hin]; [rewrite X; discriminate|].
    destruct om as [m'|]; [|now apply IH]. destruct (mtch_matches E D m' p) as [[]| | |]; try discriminate. cbn [obind]. now apply IH.
Qed.


End Words.
