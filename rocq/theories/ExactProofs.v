(** Proofs of PropExact.v. *)

From Coq Require Import Ascii String NArith ZArith Bool List Lia.
From Verif Require Import Base StringUtil Tags Dom NodeUtil Values Match StringSpec ValueSpec NodeSpec StringProofs ValueProofs
  NodeProofs ExactSpec.
Import ListNotations.

(** ** Words *)

(** The places visited by a search that begins at [k]. *)
Inductive from (w x : str) (k : nat) : nat -> Prop :=
| from_first p : occurs_at w x p -> k <= p -> (forall q, occurs_at w x q -> k <= q -> p <= q) -> from w x k p
| from_next p p' : from w x k p ->
    occurs_at w x p' -> p + length w <= p' ->
    (forall q, occurs_at w x q -> p + length w <= q -> p' <= q) ->
    from w x k p'.

Lemma from_visited w x p : from w x 0 p <-> visited w x p.
Proof.
  split; induction 1.
  - apply visited_first; [exact H|]. intros q Hq. apply H1; [exact Hq|lia].
  - eapply visited_next; eauto.
  - apply from_first; [exact H|lia|auto].
  - eapply from_next; eauto.
Qed.

Lemma from_split w x k p : occurs_at w x p -> k <= p -> (forall q, occurs_at w x q -> k <= q -> p <= q) ->
  forall q, from w x k q <-> q = p \/ from w x (p + length w) q.
Proof.
  intros Ho Hk Hm q. split.
  - induction 1 as [q Hq Hkq Hmq|q q' Hf IH Hq' Hle Hmq'].
    + left. specialize (Hm q Hq Hkq). specialize (Hmq p Ho Hk). lia.
    + destruct IH as [->|IH]; right; [apply from_first; auto|eapply from_next; eauto].
  - intros [->|H]; [now apply from_first|].
    induction H as [q Hq Hkq Hmq|q q' Hf IH Hq' Hle Hmq'].
    + eapply from_next; [apply from_first; [exact Ho|exact Hk|exact Hm]| | |]; auto.
    + eapply from_next; eauto.
Qed.

Lemma from_nothing w x k q : (forall p, occurs_at w x p -> k <= p -> False) -> from w x k q -> False.
Proof. intros H Hf. induction Hf; [eauto|exact IHHf]. Qed.

Lemma word_at_here w x a c : x = a ++ w ++ c -> word_at w x (length a) ->
  (a = [] \/ exists b, a = b ++ [" "%char]) /\ (c = [] \/ exists r, c = " "%char :: r).
Proof.
  intros Hx [a' [c' [Hx' [Hl H]]]]. rewrite Hx in Hx'. symmetry in Hx'. apply app_split in Hx' as [m [Ha Hm]]; [|lia].
  assert (m = []). { apply (f_equal (@length ascii)) in Ha. rewrite app_length in Ha. destruct m; [reflexivity|simpl in Ha; lia]. }
  subst m. rewrite app_nil_r in Ha. simpl in Hm. apply app_inv_head in Hm. now subst.
Qed.

Lemma loop_exact w : w <> [] -> forall fuel x k,
  length x < fuel + k -> k <= length x ->
  exists b, contains_word_loop fuel x w k = Some b /\ (b = true <-> exists p, from w x k p /\ word_at w x p).
Proof.
  intros Hne. induction fuel as [|f IH]; intros x k Hf Hk; [lia|].
  cbn [contains_word_loop]. unfold str_find. destruct (Nat.ltb_spec (length x) k); [lia|].
  destruct (find_from w (skipn k x) k) as [p|] eqn:E.
  - apply find_from_some in E as [a [c [Hx [-> Hmin]]]].
    assert (HX : x = (firstn k x ++ a) ++ w ++ c) by (rewrite <- app_assoc, <- Hx; symmetry; apply firstn_skipn).
    assert (Hla : length (firstn k x ++ a) = k + length a) by (rewrite app_length, firstn_length; lia).
    assert (Hleast : forall q, occurs_at w x q -> k <= q -> k + length a <= q).
    { intros q [b1 [r1 [X1 L1]]] Hkq.
      assert (Hb1 : exists b1', b1 = firstn k x ++ b1' /\ skipn k x = b1' ++ w ++ r1).
      { rewrite <- (firstn_skipn k x) in X1 at 1. apply app_split in X1; [|rewrite firstn_length; lia]. exact X1. }
      destruct Hb1 as [b1' [-> Hsk]]. apply Hmin in Hsk. rewrite app_length, firstn_length in L1. lia. }
    remember (firstn k x ++ a) as a0. rewrite <- Hla in *.
    assert (Hocc : occurs_at w x (length a0)) by (exists a0, c; auto).
    pose proof (from_split w x k (length a0) Hocc ltac:(lia) Hleast) as HF.
    pose proof (bound_start a0 w c) as HS. pose proof (bound_end a0 w c) as HEd. rewrite <- HX in HS, HEd.
    assert (HN : ((length a0 =? 0) || match nth_error x (length a0 - 1) with Some z => Ascii.eqb z " "%char | None => false end) &&
      ((length a0 + length w =? length x) || match nth_error x (length a0 + length w) with Some z => Ascii.eqb z " "%char | None => false end) = true
      <-> word_at w x (length a0)).
    { rewrite andb_true_iff, HS, HEd. split.
      - intros [H1 H2]. exists a0, c. auto.
      - intros H1. now apply word_at_here with (c := c) in H1. }
    destruct (_ && _).
    + exists true. split; [reflexivity|]. split; [|reflexivity]. intros _. exists (length a0). split; [apply HF; auto|now apply HN].
    + destruct (IH x (length a0 + length w)) as [b [Hb Hs]].
      { destruct w; [congruence|]. simpl. lia. }
      { rewrite HX. rewrite !app_length. lia. }
      exists b. split; [exact Hb|]. rewrite Hs. split; intros [p [H1 H2]]; exists p.
      * split; [apply HF; now right|exact H2].
      * split; [|exact H2]. apply HF in H1 as [->|H1]; [apply HN in H2; discriminate|exact H1].
  - exists false. split; [reflexivity|]. split; [discriminate|]. intros [p [Hp _]]. exfalso.
    eapply from_nothing; [|exact Hp]. intros q [b1 [r1 [X1 L1]]] Hkq.
    apply find_from_none in E. apply E.
    rewrite <- (firstn_skipn k x) in X1 at 1. apply app_split in X1; [|rewrite firstn_length; lia].
    destruct X1 as [m [_ ->]]. now exists m, r1.
Qed.

Lemma ContainsWord_exact x w :
  ContainsWord x w = true <-> w <> [] /\ exists p, visited w x p /\ word_at w x p.
Proof.
  unfold ContainsWord. destruct w as [|c w].
  { cbn [length Nat.eqb]. rewrite orb_true_r. cbn [orb]. split; [discriminate|intros [H _]; congruence]. }
  assert (HL : forall p, word_at (c :: w) x p -> length (c :: w) <= length x).
  { intros p [b [r [-> _]]]. rewrite !app_length. lia. }
  destruct (Nat.eqb_spec (length x) 0).
  { cbn [orb]. split; [discriminate|]. intros [_ [p [_ H]]]. apply HL in H. simpl in H. lia. }
  replace (length (c :: w) =? 0) with false by reflexivity. cbn [orb].
  destruct (Nat.ltb_spec (length x) (length (c :: w))).
  { split; [discriminate|]. intros [_ [p [_ H']]]. apply HL in H'. lia. }
  destruct (loop_exact (c :: w) ltac:(discriminate) (S (length x)) x 0) as [b [-> Hb]]; [lia|lia|].
  rewrite Hb. split.
  - intros [p [H1 H2]]. split; [discriminate|]. exists p. split; [now apply from_visited|exact H2].
  - intros [_ [p [H1 H2]]]. exists p. split; [now apply from_visited|exact H2].
Qed.

Lemma words_exact E words subject :
  vtest_test E (ContainsWordsTest words) subject = Ok true <->
  words <> [] /\ exists x, subject = Some x /\
    Forall (fun w => w <> [] /\ exists p, visited w x p /\ word_at w x p) words.
Proof.
  cbn [vtest_test]. destruct subject as [x|]; [|split; [congruence|intros [_ [x [H _]]]; congruence]].
  destruct words as [|w0 ws0]; [split; [discriminate|intros [H _]; congruence]|].
  assert (Hf : forallb (ContainsWord x) (w0 :: ws0) = true <->
    Forall (fun w => w <> [] /\ exists p, visited w x p /\ word_at w x p) (w0 :: ws0)).
  { rewrite forallb_forall, Forall_forall. split; intros H w Hin; now apply ContainsWord_exact, H. }
  split.
  - intros H. injection H as H. split; [discriminate|]. exists x. split; [reflexivity|now apply Hf].
  - intros [_ [y [H1 H2]]]. injection H1 as <-. f_equal. now apply Hf.
Qed.

Lemma words_answer E words subject : exists b, vtest_test E (ContainsWordsTest words) subject = Ok b.
Proof. cbn [vtest_test]. eauto. Qed.

(** Nothing is left of a text without words. *)
Lemma trim_all_blank text : Forall (eq " "%char) text -> trim_left_if (is_any_of (s " ")) text = [].
Proof. induction 1 as [|c text <- _ IH]; [reflexivity|exact IH]. Qed.

Lemma no_words_test E text subject : runs_of " "%char text [] ->
  vtest_test E (make_ContainsWordsTest text) subject = Ok false.
Proof.
  intros H. assert (Hb : Forall (eq " "%char) text) by (inversion H; assumption).
  unfold make_ContainsWordsTest, trim_if. rewrite (trim_all_blank text Hb).
  cbn. destruct subject as [x|]; [|reflexivity].
  unfold ContainsWord. cbn [length Nat.eqb]. now rewrite orb_true_r.
Qed.

(** ** Types *)

Lemma named_known t : (t < TAG_UNKNOWN)%N -> In (gumbo_normalized_tagname t) tag_names.
Proof.
  intros H. unfold gumbo_normalized_tagname. apply nth_In. rewrite tag_names_length. lia.
Qed.

Lemma kind_exact t orig attrs cs t' orig' attrs' cs' a b :
  tag_resolved (NElement t orig attrs cs) -> tag_resolved (NElement t' orig' attrs' cs') ->
  element_name (NElement t orig attrs cs) a -> element_name (NElement t' orig' attrs' cs') b ->
  (kind true t (NElement t' orig' attrs' cs') = true <-> same_type a b).
Proof.
  intros R R' Ha Hb. specialize (R _ _ _ _ eq_refl). specialize (R' _ _ _ _ eq_refl).
  destruct R as [R|[-> R]], R' as [R'|[-> R']].
  - rewrite (known_tags_kind t orig attrs cs t' orig' attrs' cs' a b R R' Ha Hb). unfold same_type.
    split; [auto|]. intros [H|[H _]]; [exact H|]. destruct H.
    destruct Ha as [t0 [o0 [a0 [c0 [E1 ->]]]]]. injection E1 as <- <- <- <-.
    destruct (N.eqb_spec t TAG_UNKNOWN); [lia|]. now apply named_known.
  - destruct Ha as [t0 [o0 [a0 [c0 [E1 ->]]]]]. injection E1 as <- <- <- <-.
    destruct Hb as [t0 [o0 [a0 [c0 [E1 ->]]]]]. injection E1 as <- <- <- <-.
    rewrite N.eqb_refl. destruct (N.eqb_spec t TAG_UNKNOWN); [lia|]. cbn [kind negb orb]. rewrite N.eqb_eq.
    pose proof (named_known t R) as Hk. split; [lia|]. intros [H|[H _]]; [|tauto]. rewrite H in Hk. tauto.
  - destruct Ha as [t0 [o0 [a0 [c0 [E1 ->]]]]]. injection E1 as <- <- <- <-.
    destruct Hb as [t0 [o0 [a0 [c0 [E1 ->]]]]]. injection E1 as <- <- <- <-.
    rewrite N.eqb_refl. destruct (N.eqb_spec t' TAG_UNKNOWN); [lia|]. cbn [kind negb orb]. rewrite N.eqb_eq.
    pose proof (named_known t' R') as Hk. split; [lia|]. intros [H|[_ H]]; [|tauto]. rewrite <- H in Hk. tauto.
  - destruct Ha as [t0 [o0 [a0 [c0 [E1 ->]]]]]. injection E1 as <- <- <- <-.
    destruct Hb as [t0 [o0 [a0 [c0 [E1 ->]]]]]. injection E1 as <- <- <- <-.
    rewrite N.eqb_refl. cbn [kind negb orb]. rewrite N.eqb_eq. unfold same_type. tauto.
Qed.

Lemma named n : is_element n = true -> exists a, element_name n a.
Proof. destruct n; try discriminate. intros _. eexists. do 4 eexists. split; reflexivity. Qed.

Lemma only_of_type_exact E D p n a i pp par :
  nget D p = Some n -> p = i :: pp -> nget D pp = Some par -> is_element par = true ->
  tag_resolved n -> Forall tag_resolved (children_of par) -> element_name n a ->
  (mtch_matches E D (OnlyChildMatch true) p = Ok true <->
   forall j c b, nth_error (children_of par) j = Some c -> j <> i -> element_name c b -> ~ same_type a b).
Proof.
  intros Hn -> Hpar He Hr Hcs Ha. rewrite (only_child_spec E D (i :: pp) n true Hn). rewrite Forall_forall in Hcs.
  split.
  - intros [t [orig [attrs [cs [i' [pp' [par' [-> [Hp [Hpar' [_ H]]]]]]]]]]] j c b Hj Hne Hb Hs.
    injection Hp as <- <-. rewrite Hpar in Hpar'. injection Hpar' as <-.
    specialize (H j c Hj Hne). destruct Hb as [t' [o' [a' [c' [-> Hb]]]]].
    assert (Hk : kind true t (NElement t' o' a' c') = true).
    { eapply kind_exact; [exact Hr| |exact Ha| |exact Hs]; [eapply Hcs, nth_error_In, Hj|]. do 4 eexists. split; [reflexivity|exact Hb]. }
    congruence.
  - intros H. pose proof Ha as [t [orig [attrs [cs [-> _]]]]].
    exists t, orig, attrs, cs, i, pp, par. repeat split; auto. intros j c Hj Hne.
    destruct c as [ |t' o' a' c'| | | | | ] eqn:Ec; try reflexivity.
    destruct (kind true t (NElement t' o' a' c')) eqn:Hk; [exfalso|reflexivity].
    destruct (named (NElement t' o' a' c') eq_refl) as [b Hb].
    apply (H j _ b Hj Hne Hb). eapply kind_exact; [exact Hr| |exact Ha|exact Hb|exact Hk]. eapply Hcs, nth_error_In, Hj.
Qed.

(** ** nth-of-type *)

Lemma counted t orig attrs cs a l : tag_resolved (NElement t orig attrs cs) -> Forall tag_resolved l -> element_name (NElement t orig attrs cs) a ->
  how_many (fun c => exists b, element_name c b /\ same_type a b) l (length (filter (kind true t) l)).
Proof.
  intros Hr Hl Ha. induction Hl as [|c l Hc Hl IH]; [constructor|]. cbn [filter].
  assert (HX : kind true t c = true <-> exists b, element_name c b /\ same_type a b).
  { destruct c as [ |t' o' a' c'| | | | | ]; try (split; [discriminate|intros [b [[tx [ox [ax [cx [HX0 _]]]]] _]]; discriminate]).
    destruct (named (NElement t' o' a' c') eq_refl) as [b Hb].
    pose proof (kind_exact t orig attrs cs t' o' a' c' a b Hr Hc Ha Hb) as HK. rewrite HK. split; [intros Hs; exists b; auto|].
    intros [b' [Hb' Hs]]. rewrite <- HK. now apply (kind_exact t orig attrs cs t' o' a' c' a b' Hr Hc Ha Hb'). }
  destruct (kind true t c) eqn:Ek; cbn [length]; constructor; try exact IH; [now apply HX|]. intros H. apply HX in H. discriminate.
Qed.

Lemma Forall_firstn {A} (P : A -> Prop) k : forall l, Forall P l -> Forall P (firstn k l).
Proof. induction k as [|k IH]; intros l H; [constructor|]. destruct H; constructor; auto. Qed.
Lemma Forall_skipn {A} (P : A -> Prop) k : forall l, Forall P l -> Forall P (skipn k l).
Proof. induction k as [|k IH]; intros l H; [exact H|]. destruct H; [constructor|]. now apply IH. Qed.

Lemma nth_of_type_exact E D n a i pp par x y first r :
  nget D (i :: pp) = Some n -> nget D pp = Some par -> is_element par = true ->
  tag_resolved n -> Forall tag_resolved (children_of par) -> element_name n a ->
  mtch_matches E D (NthChildMatch x y (mk_nth_option first true)) (i :: pp) = Ok r ->
  exists k, how_many (fun c => exists b, element_name c b /\ same_type a b)
      (if first then firstn (S i) (children_of par) else skipn i (children_of par)) k /\
    (r = true <-> of_form x y (Z.of_nat k)).
Proof.
  intros Hn Hp He Hr Hcs Ha H. pose proof Ha as [t [orig [attrs [cs [-> _]]]]].
  pose proof (nth_child_spec E D i pp par t orig attrs cs x y _ r Hn Hp He H) as HS. unfold position in HS. cbn [opt_of_type opt_first] in HS.
  eexists. split; [|exact HS]. apply (counted t orig attrs cs a); auto. destruct first; [now apply Forall_firstn|now apply Forall_skipn].
Qed.
