(** What the value tests and the pipes compute. *)

From Coq Require Import Ascii String Arith NArith ZArith Bool List Lia.
From Verif Require Import Base StringUtil Values StringSpec StringProofs ValueSpec.
Import ListNotations.

(** ** C29 *)

Lemma equals_test E lit subject :
  vtest_test E (EqualsTest lit) subject = Ok true <-> subject = Some lit.
Proof.
  simpl. destruct subject as [x|]; [|split; congruence].
  split; [intros H; injection H as H; apply str_eqb_eq in H; congruence|].
  intros H. injection H as ->. f_equal. now apply str_eqb_eq.
Qed.

Lemma begins_test E lit subject :
  vtest_test E (BeginsWithTest lit) subject = Ok true <-> exists x, subject = Some x /\ starts_with lit x.
Proof.
  simpl. destruct subject as [x|]; [|split; [congruence|intros [x [H _]]; congruence]]. split.
  - intros H. injection H as H. exists x. split; [reflexivity|now apply is_prefix_spec].
  - intros [y [H1 H2]]. injection H1 as <-. f_equal. now apply is_prefix_spec.
Qed.

Lemma ends_test E lit subject :
  vtest_test E (EndsWithTest lit) subject = Ok true <-> exists x, subject = Some x /\ ends_with lit x.
Proof.
  simpl. destruct subject as [x|]; [|split; [congruence|intros [x [H _]]; congruence]]. split.
  - intros H. injection H as H. exists x. split; [reflexivity|now apply ends_with_spec].
  - intros [y [H1 H2]]. injection H1 as <-. f_equal. now apply ends_with_spec.
Qed.

Lemma contains_test E lit subject :
  vtest_test E (ContainsTest lit) subject = Ok true <-> exists x, subject = Some x /\ occurs_in lit x.
Proof.
  simpl. destruct subject as [x|]; [|split; [congruence|intros [x [H _]]; congruence]]. split.
  - intros H. injection H as H. exists x. split; [reflexivity|now apply contains_spec].
  - intros [y [H1 H2]]. injection H1 as <-. f_equal. now apply contains_spec.
Qed.

(** A test without regex always answers. *)
Lemma test_answers E t subject : engine_searches E -> exists b, vtest_test E t subject = Ok b.
Proof.
  intros HE. assert (HR : forall rx, exists b, vtest_test E (RegexTest rx) subject = Ok b).
  { intros rx. cbn [vtest_test]. destruct subject as [x|]; eauto. unfold regex_search. specialize (HE rx x).
    destruct (eng_search E rx x); [|congruence]. cbn [obind]. eauto. }
  revert t. fix IH 1. intros [l|l|l|l|l|rx|[t|]]; [| | | | |exact (HR rx)| |]; cbn [vtest_test]; eauto.
  - destruct (IH t) as [b ->]. cbn [obind]. eauto.
Qed.

(** ** C26, tests *)

Lemma negate_test E t subject b :
  vtest_test E (NegateTest (Some t)) subject = Ok b <-> vtest_test E t subject = Ok (negb b).
Proof.
  cbn [vtest_test]. destruct (vtest_test E t subject) as [c|e|u|]; cbn [obind]; try (split; congruence).
  split; intros H; injection H as H; f_equal; subst; now rewrite ?negb_involutive.
Qed.

Lemma literal_tests_reject_null E t :
  match t with NegateTest _ => True | _ => vtest_test E t None = Ok false end.
Proof. destruct t; try exact I; reflexivity. Qed.

(** ** C30 *)

Lemma words_test E words subject :
  words <> [] -> Forall (fun w => w <> [] /\ ~ In " "%char w) words ->
  (vtest_test E (ContainsWordsTest words) subject = Ok true <->
   exists x, subject = Some x /\ Forall (fun w => word_in w x) words).
Proof.
  intros Hne Hw. cbn [vtest_test]. destruct subject as [x|]; [|split; [congruence|intros [x [H _]]; congruence]].
  destruct words as [|w0 ws0]; [congruence|].
  assert (Hf : forallb (ContainsWord x) (w0 :: ws0) = true <-> Forall (fun w => word_in w x) (w0 :: ws0)).
  { rewrite forallb_forall, Forall_forall. rewrite Forall_forall in Hw.
    split; intros H w Hin; specialize (H w Hin); destruct (Hw w Hin) as [H1 H2]; now apply (ContainsWord_spec x w H1 H2). }
  split.
  - intros H. injection H as H. exists x. split; [reflexivity|now apply Hf].
  - intros [y [H1 H2]]. injection H1 as <-. f_equal. now apply Hf.
Qed.

Lemma is_any_of_in chars c : is_any_of chars c = true <-> In c chars.
Proof.
  unfold is_any_of. rewrite existsb_exists. split.
  - intros [d [H1 H2]]. apply Ascii.eqb_eq in H2. now subst.
  - intros H. exists c. split; [exact H|apply Ascii.eqb_refl].
Qed.

Lemma trim_left_spec p x : exists a, x = a ++ trim_left_if p x /\ Forall (fun c => p c = true) a /\
  (trim_left_if p x = [] \/ exists c y, trim_left_if p x = c :: y /\ p c = false).
Proof.
  induction x as [|c x [a [H1 [H2 H3]]]]; simpl; [exists []; auto|].
  destruct (p c) eqn:E.
  - exists (c :: a). split; [simpl; congruence|]. split; [now constructor|exact H3].
  - exists []. split; [reflexivity|]. split; [constructor|right; eauto].
Qed.

Lemma Forall_rev' {A} (P : A -> Prop) l : Forall P l -> Forall P (rev l).
Proof. rewrite !Forall_forall. intros H x Hx. apply H. now apply in_rev. Qed.

Theorem trim_if_trimmed chars x : trimmed chars x (trim_if (is_any_of chars) x).
Proof.
  unfold trim_if, trimmed. set (p := is_any_of chars).
  destruct (trim_left_spec p x) as [a [Ha [Fa La]]]. set (x1 := trim_left_if p x) in *.
  destruct (trim_left_spec p (rev x1)) as [b [Hb [Fb Lb]]]. set (y := trim_left_if p (rev x1)) in *.
  assert (Hx1 : x1 = rev y ++ rev b) by (rewrite <- rev_app_distr, <- Hb; symmetry; apply rev_involutive).
  assert (HP : forall l, Forall (fun c => p c = true) l -> Forall (fun c => In c chars) l).
  { intros l. apply Forall_impl. intros c. apply is_any_of_in. }
  assert (HN : forall c, p c = false -> ~ In c chars).
  { intros c H H'. apply is_any_of_in in H'. unfold p in H. congruence. }
  exists a, (rev b). split; [now rewrite <- Hx1|]. split; [now apply HP|]. split; [apply HP, Forall_rev', Fb|].
  destruct La as [La|[c [y0 [La Lc]]]].
  - left. rewrite La in Hx1. symmetry in Hx1. apply app_eq_nil in Hx1. exact Hx1.
  - destruct Lb as [Lb|[d [y1 [Lb Ld]]]].
    + exfalso. rewrite Lb in Hx1. simpl in Hx1. rewrite La in Hx1.
      assert (Hin : In c (rev b)) by (rewrite <- Hx1; now left). apply in_rev in Hin.
      rewrite Forall_forall in Fb. specialize (Fb c Hin). simpl in Fb. congruence.
    + right. split.
      * rewrite Lb in *. simpl in Hx1. rewrite La in Hx1. simpl. destruct (rev y1 ++ [d]) as [|z l] eqn:Ez; [now destruct (rev y1)|].
        simpl in Hx1. injection Hx1 as <- Hx1. exists c, l. split; [reflexivity|now apply HN].
      * exists (rev y1), d. rewrite Lb. split; [reflexivity|now apply HN].
Qed.

(** What is trimmed is determined. *)
Lemma span_unique (P : ascii -> Prop) a : forall b a' b',
  Forall P a -> Forall P a' ->
  (b = [] \/ exists c r, b = c :: r /\ ~ P c) -> (b' = [] \/ exists c r, b' = c :: r /\ ~ P c) ->
  a ++ b = a' ++ b' -> a = a' /\ b = b'.
Proof.
  induction a as [|x a IH]; intros b a' b' Fa Fa' Hb Hb' H.
  - simpl in H. destruct a' as [|y a']; [auto|]. subst b. inversion Fa'; subst.
    destruct Hb as [Hb|[c [r [Hb Hc]]]]; [discriminate|]. simpl in Hb. injection Hb as -> _. contradiction.
  - inversion Fa; subst. destruct a' as [|y a'].
    + simpl in H. subst b'. destruct Hb' as [Hb'|[c [r [Hb' Hc]]]]; [discriminate|]. injection Hb' as -> _. contradiction.
    + injection H as -> H. inversion Fa'; subst. destruct (IH b a' b') as [-> ->]; auto.
Qed.

Lemma runs_sep sep x ws : runs_of sep x ws -> runs_of sep (sep :: x) ws.
Proof.
  intros H. destruct H as [g Hg|g w rest ws Hg Hne Hw Hr H].
  - constructor. now constructor.
  - change (sep :: g ++ w ++ rest) with ((sep :: g) ++ w ++ rest). constructor; auto.
Qed.

Lemma runs_prefix sep a x ws : Forall (eq sep) a -> runs_of sep x ws -> runs_of sep (a ++ x) ws.
Proof. intros Ha H. induction Ha as [|c a <- Ha IH]; [exact H|]. simpl. now apply runs_sep. Qed.

Lemma runs_suffix sep b x ws : Forall (eq sep) b -> runs_of sep x ws -> runs_of sep (x ++ b) ws.
Proof.
  intros Hb H. induction H as [g Hg|g w rest ws Hg Hne Hw Hr H IH].
  - constructor. apply Forall_app. auto.
  - rewrite <- !app_assoc. constructor; auto. destruct Hr as [->|[r ->]].
    + destruct b as [|c b]; [now left|]. inversion Hb; subst. right. simpl. eauto.
    + right. simpl. eauto.
Qed.

Lemma runs_words sep x ws : runs_of sep x ws -> Forall (fun w => w <> [] /\ ~ In sep w) ws.
Proof. induction 1; constructor; auto. Qed.

Lemma runs_unique sep x ws ws' : runs_of sep x ws -> runs_of sep x ws' -> ws = ws'.
Proof.
  intros H. revert ws'. induction H as [g Hg|g w rest ws Hg Hne Hw Hr H IH]; intros ws' H'.
  - inversion H' as [g' Hg'|g' w' rest' ws'' Hg' Hne' Hw' Hr' H'']; subst; [reflexivity|].
    exfalso. destruct w' as [|c w']; [congruence|].
    rewrite Forall_forall in Hg. apply Hw'. left. symmetry. apply Hg. apply in_or_app. right. now left.
  - assert (HW : forall (w rest : str), w <> [] -> ~ In sep w -> w ++ rest = [] \/ exists c r, w ++ rest = c :: r /\ ~ sep = c).
    { intros [|c w0] r0 Hn Hi; [congruence|]. right. exists c, (w0 ++ r0). split; [reflexivity|]. intros <-. apply Hi. now left. }
    assert (HR : forall rest : str, rest = [] \/ (exists r, rest = sep :: r) -> rest = [] \/ exists c r, rest = c :: r /\ ~ (c <> sep)).
    { intros r0 [->|[r ->]]; [now left|]. right. exists sep, r. split; [reflexivity|]. intros Hc. now apply Hc. }
    assert (HF : forall w : str, ~ In sep w -> Forall (fun c => c <> sep) w).
    { intros w0 Hi. rewrite Forall_forall. intros c Hc ->. contradiction. }
    inversion H' as [g' Hg' E1|g' w' rest' ws'' Hg' Hne' Hw' Hr' H'' E1]; subst.
    + exfalso. destruct w as [|c w]; [congruence|].
      rewrite Forall_forall in Hg'. apply Hw. left. symmetry. apply Hg'. apply in_or_app. right. now left.
    + destruct (span_unique (eq sep) g' (w' ++ rest') g (w ++ rest)) as [-> E2]; auto.
      destruct (span_unique (fun c => c <> sep) w' rest' w rest) as [-> ->]; auto.
      f_equal. auto.
Qed.

Lemma split_runs p sep : (forall c, p c = true <-> sep = c) -> forall x,
  (x = [] \/ exists y c, x = y ++ [c] /\ c <> sep) ->
  (forall cur, cur <> [] -> ~ In sep cur -> runs_of sep (rev cur ++ x) (split_compress p cur false x)) /\
  (x <> [] -> runs_of sep x (split_compress p [] true x)).
Proof.
  intros Hp. induction x as [|c x IH]; intros Hx.
  - split; [|congruence]. intros cur Hne Hi. simpl. rewrite <- (app_nil_l (rev cur ++ [])).
    apply runs_cons; [constructor| | |now left|constructor; constructor].
    + intros H. apply Hne. rewrite <- (rev_involutive cur), H. reflexivity.
    + intros H. now apply Hi, in_rev.
  - destruct Hx as [Hx|[y [d [Hx Hd]]]]; [discriminate|].
    assert (Hx' : x = [] \/ exists y c, x = y ++ [c] /\ c <> sep).
    { destruct y as [|z y]; simpl in Hx; injection Hx as _ ->; [now left|right; eauto]. }
    assert (Hc : p c = true -> x <> []).
    { intros H ->. apply Hp in H. destruct y as [|z [|z' y]]; simpl in Hx; [|discriminate|discriminate]. injection Hx as ->. congruence. }
    destruct (IH Hx') as [I1 I2]. cbn [split_compress]. destruct (p c) eqn:Ec.
    + specialize (Hc eq_refl). assert (Es : sep = c) by now apply Hp.
      split.
      * intros cur Hne Hi. rewrite <- (app_nil_l (rev cur ++ c :: x)). rewrite <- Es.
        apply runs_cons; [constructor| | |right; eauto|apply runs_sep, I2, Hc].
        -- intros H. apply Hne. rewrite <- (rev_involutive cur), H. reflexivity.
        -- intros H. now apply Hi, in_rev.
      * intros _. rewrite <- Es. apply runs_sep, I2, Hc.
    + assert (Es : c <> sep) by (intros ->; assert (p sep = true) by (now apply Hp); congruence).
      split.
      * intros cur Hne Hi. specialize (I1 (c :: cur)). simpl in I1. rewrite <- app_assoc in I1. apply I1; [discriminate|].
        intros [H|H]; [congruence|contradiction].
      * intros _. apply (I1 [c]); [discriminate|]. intros [H|[]]. congruence.
Qed.

(** The constructor splits its argument into words. *)
Theorem make_words text ws :
  runs_of " "%char text ws ->
  make_ContainsWordsTest text = ContainsWordsTest (match ws with [] => [[]] | _ => ws end).
Proof.
  intros HR. unfold make_ContainsWordsTest. f_equal.
  destruct (trim_if_trimmed (s " ") text) as [a [b [Ht [Fa [Fb HL]]]]].
  set (y := trim_if (is_any_of (s " ")) text) in *. clearbody y.
  assert (HS : forall l, Forall (fun c => In c (s " ")) l -> Forall (eq " "%char) l).
  { intros l. apply Forall_impl. intros c [<-|[]]. reflexivity. }
  assert (Hp : forall c, is_any_of (s " ") c = true <-> " "%char = c).
  { intros c. rewrite is_any_of_in. simpl. tauto. }
  destruct HL as [[Hy Hb]|[[c [y' [Hy Hc]]] [y1 [d [Hy1 Hd]]]]].
  - subst y b. assert (Hws : runs_of " "%char text []).
    { rewrite Ht. simpl. rewrite app_nil_r. constructor. now apply HS. }
    rewrite (runs_unique _ _ _ _ HR Hws). reflexivity.
  - assert (Hrun : runs_of " "%char y (split_compress (is_any_of (s " ")) [] false y)).
    { rewrite Hy. cbn [split_compress]. destruct (is_any_of (s " ") c) eqn:Ec; [exfalso; apply Hc; now apply is_any_of_in|].
      destruct (split_runs _ " "%char Hp y') as [I1 _].
      - destruct y1 as [|z y1]; rewrite Hy1 in Hy; simpl in Hy; injection Hy as _ <-; [now left|].
        right. exists y1, d. split; [reflexivity|]. intros ->. apply Hd. now left.
      - apply (I1 [c]); [discriminate|]. intros [H|[]]. apply Hc. left. auto. }
    assert (Hws : runs_of " "%char text (split_compress (is_any_of (s " ")) [] false y)).
    { rewrite Ht. apply runs_prefix; [now apply HS|]. apply runs_suffix; [now apply HS|exact Hrun]. }
    rewrite (runs_unique _ _ _ _ HR Hws).
    destruct (split_compress (is_any_of (s " ")) [] false y) as [|w ws'] eqn:Es; [|reflexivity].
    exfalso. apply Hc. inversion Hrun as [g Hg E1 E2|]. rewrite Hy in Hg. inversion Hg; subst. now left.
Qed.

Lemma runs_exist sep x : exists ws, runs_of sep x ws.
Proof.
  induction x as [|c x [ws IH]]; [exists []; constructor; constructor|].
  destruct (Ascii.eqb_spec sep c) as [<-|Hc]; [exists ws; now apply runs_sep|].
  inversion IH as [g Hg E1|g w rest ws' Hg Hne Hw Hr H E1]; subst.
  - exists [[c]]. change (c :: x) with ([] ++ [c] ++ x). constructor; [constructor|discriminate| | |constructor; exact Hg].
    + intros [H|[]]. congruence.
    + destruct x as [|d x]; [now left|]. inversion Hg; subst. right. eauto.
  - destruct g as [|d g].
    + exists ((c :: w) :: ws'). change (c :: [] ++ w ++ rest) with ([] ++ (c :: w) ++ rest).
      constructor; [constructor|discriminate| |exact Hr|exact H]. intros [E|E]; [congruence|contradiction].
    + exists ([c] :: w :: ws'). change (c :: (d :: g) ++ w ++ rest) with ([] ++ [c] ++ ((d :: g) ++ w ++ rest)).
      constructor; [constructor|discriminate| | |constructor; auto].
      * intros [E|[]]. congruence.
      * inversion Hg; subst. right. simpl. eauto.
Qed.

(** An attribute condition [~=text] looks for the words of the text. *)
Theorem make_words_test E text ws subject :
  runs_of " "%char text ws -> ws <> [] ->
  (vtest_test E (make_ContainsWordsTest text) subject = Ok true <->
   exists x, subject = Some x /\ Forall (fun w => word_in w x) ws).
Proof.
  intros HR Hne. rewrite (make_words text ws HR). destruct ws as [|w ws]; [congruence|].
  apply words_test; [discriminate|]. eapply runs_words; eauto.
Qed.

(** ** C36 *)

Lemma pipe_chain E p x y : pipe_pipe E p x = Ok y <-> piped E (pipes_of p) x y.
Proof.
  revert x y. revert p. fix IH 1. intros [t next] x y. cbn [pipe_pipe pipes_of]. split.
  - destruct (transform_str E t x) as [z|e|u|] eqn:Et; cbn [obind]; try discriminate. intros H.
    apply (piped_cons E t _ x z y Et). destruct next as [q|]; [now apply IH|]. injection H as ->. constructor.
  - intros H. inversion H as [|t' ts x' z y' Et HP]; subst. rewrite Et. cbn [obind].
    destruct next as [q|]; [now apply IH|]. inversion HP; subst. reflexivity.
Qed.

Lemma pipe_append_pipes p q : pipes_of (pipe_append p (Some q)) = pipes_of p ++ pipes_of q.
Proof.
  revert p. fix IH 1. intros [t [p|]]; cbn [pipe_append pipes_of]; [|reflexivity]. now rewrite IH.
Qed.

Lemma trim_pipe E chars x : exists y, transform_str E (TrimPipe chars) x = Ok y /\ trimmed chars x y.
Proof. eexists. split; [reflexivity|apply trim_if_trimmed]. Qed.

(** There is only one way to trim. *)
Lemma trimmed_unique chars x y y' : trimmed chars x y -> trimmed chars x y' -> y = y'.
Proof.
  intros [a [b [H1 [Fa [Fb HL]]]]] [a' [b' [H1' [Fa' [Fb' HL']]]]]. subst x.
  assert (Hhead : forall y b, (y = [] /\ b = [] \/ (exists c y', y = c :: y' /\ ~ In c chars) /\ (exists y' c, y = y' ++ [c] /\ ~ In c chars)) ->
      y ++ b = [] \/ exists c r, y ++ b = c :: r /\ ~ In c chars).
  { intros y0 b0 [[-> ->]|[[c [z [-> Hc]]] _]]; [now left|right]. exists c, (z ++ b0). auto. }
  destruct (span_unique (fun c => In c chars) a (y ++ b) a' (y' ++ b')) as [-> E2]; auto.
  assert (Hlast : forall y b : str, (y = [] /\ b = [] \/ (exists c y', y = c :: y' /\ ~ In c chars) /\ (exists y' c, y = y' ++ [c] /\ ~ In c chars)) ->
      rev y = [] \/ exists c r, rev y = c :: r /\ ~ In c chars).
  { intros y0 b0 [[-> ->]|[_ [z [c [-> Hc]]]]]; [now left|right]. exists c, (rev z). rewrite rev_app_distr. auto. }
  apply (f_equal (@rev ascii)) in E2. rewrite !rev_app_distr in E2.
  destruct (span_unique (fun c => In c chars) (rev b) (rev y) (rev b') (rev y')) as [_ E3]; auto using Forall_rev'.
  - eapply Hlast; eauto.
  - eapply Hlast; eauto.
  - rewrite <- (rev_involutive y), E3. apply rev_involutive.
Qed.

Fixpoint index_of (c : ascii) (l : str) : option nat :=
  match l with [] => None | d :: l' => if Ascii.eqb c d then Some 0 else option_map S (index_of c l') end.

Lemma index_some c l : forall k, index_of c l = Some k -> nth_error l k = Some c.
Proof.
  induction l as [|d l IH]; intros k H; simpl in H; [discriminate|]. destruct (Ascii.eqb_spec c d) as [->|].
  - now injection H as <-.
  - destruct (index_of c l) as [k'|]; [|discriminate]. injection H as <-. simpl. auto.
Qed.

Lemma index_none c l : index_of c l = None -> ~ In c l.
Proof.
  induction l as [|d l IH]; intros H; simpl in H; [auto|]. destruct (Ascii.eqb_spec c d) as [->|]; [discriminate|].
  destruct (index_of c l); [discriminate|]. intros [E|E]; [congruence|]. now apply IH.
Qed.

Definition mapped_ok (from to : str) (f : ascii -> ascii) (c : ascii) : bool :=
  match index_of c from with
  | Some k => match nth_error to k with Some d => Ascii.eqb d (f c) | None => false end
  | None => Ascii.eqb (f c) c
  end.

Lemma mapped_ok_spec from to f c : mapped_ok from to f c = true -> letter_mapped from to c (f c).
Proof.
  unfold mapped_ok. destruct (index_of c from) as [k|] eqn:E; intros H.
  - left. exists k. split; [now apply index_some|]. destruct (nth_error to k); [|discriminate]. apply Ascii.eqb_eq in H. congruence.
  - right. split; [now apply index_none|]. now apply Ascii.eqb_eq.
Qed.

Lemma to_lower_mapped c : letter_mapped upper_letters lower_letters c (to_lower c).
Proof. apply mapped_ok_spec. destruct c as [[] [] [] [] [] [] [] []]; reflexivity. Qed.
Lemma to_upper_mapped c : letter_mapped lower_letters upper_letters c (to_upper c).
Proof. apply mapped_ok_spec. destruct c as [[] [] [] [] [] [] [] []]; reflexivity. Qed.

Lemma case_pipe E (lower : bool) x : exists y, transform_str E (CasePipe lower) x = Ok y /\
  Forall2 (if lower then letter_mapped upper_letters lower_letters else letter_mapped lower_letters upper_letters) x y.
Proof.
  destruct lower; eexists; (split; [reflexivity|]); unfold str_lower, str_upper; induction x; simpl; constructor; auto using to_lower_mapped, to_upper_mapped.
Qed.

Lemma regex_pipe E rx x y : transform_str E (RegexPipe rx) x = Ok y <-> filtered E rx x y.
Proof.
  cbn [transform_str]. unfold regex_search, filtered. destruct (eng_search E rx (c_str x)) as [[[w gs]|]|]; cbn [obind].
  - destruct gs as [|g gs]; (split; [intros H; injection H as <-|]).
    + right. left. exists w. auto.
    + intros [[H ?]|[[w' [H ->]]|[w' [g [gs [H ->]]]]]]; congruence.
    + right. right. exists w, g, gs. auto.
    + intros [[H ?]|[[w' [H ->]]|[w' [g' [gs' [H ->]]]]]]; congruence.
  - split; [intros H; injection H as <-; left; auto|]. intros [[H ->]|[[w' [H ->]]|[w' [g [gs [H ->]]]]]]; congruence.
  - split; [discriminate|]. intros [[H ->]|[[w' [H ->]]|[w' [g [gs [H ->]]]]]]; congruence.
Qed.

(** ** Case-insensitive comparison *)

Lemma to_lower_same c d : to_lower c = to_lower d <-> same_letter c d.
Proof.
  split.
  - intros H. destruct (to_lower_mapped c) as [[k [K1 K2]]|[K1 K2]], (to_lower_mapped d) as [[l [L1 L2]]|[L1 L2]].
    + left. rewrite <- H in L2.
      assert (k = l).
      { apply (proj1 (NoDup_nth_error lower_letters)); [|apply nth_error_Some; congruence|congruence].
        repeat constructor; simpl; intuition discriminate. }
      subst l. congruence.
    + right. right. exists k. split; congruence.
    + right. left. exists l. split; congruence.
    + left. congruence.
  - intros [->|[[k [H1 H2]]|[k [H1 H2]]]]; [reflexivity| |].
    + assert (Hk : k < 26) by (apply nth_error_Some in H1 || (assert (nth_error lower_letters k <> None) as Hn by congruence; apply nth_error_Some in Hn; exact Hn)).
      do 26 (destruct k as [|k]; [simpl in H1, H2; injection H1 as <-; injection H2 as <-; reflexivity|]). lia.
    + assert (Hk : k < 26) by (assert (nth_error upper_letters k <> None) as Hn by congruence; apply nth_error_Some in Hn; exact Hn).
      do 26 (destruct k as [|k]; [simpl in H1, H2; injection H1 as <-; injection H2 as <-; reflexivity|]). lia.
Qed.

Lemma str_eqb_nocase_spec a b : str_eqb_nocase a b = true <-> equal_ignoring_case a b.
Proof.
  unfold str_eqb_nocase, equal_ignoring_case. rewrite str_eqb_eq. unfold str_lower. revert b.
  induction a as [|c a IH]; intros [|d b]; simpl.
  - split; [constructor|reflexivity].
  - split; [discriminate|intros H; inversion H].
  - split; [discriminate|intros H; inversion H].
  - split.
    + intros H. injection H as H1 H2. constructor; [now apply to_lower_same|now apply IH].
    + intros H. inversion H; subst. f_equal; [now apply to_lower_same|now apply IH].
Qed.

Lemma runs_exist_unique text : exists ws, runs_of " "%char text ws /\ forall ws', runs_of " "%char text ws' -> ws = ws'.
Proof.
  destruct (runs_exist " "%char text) as [ws H]. exists ws. split; [exact H|]. intros ws'. now apply runs_unique.
Qed.

Lemma trim_pipe_unique E chars x : exists y,
  transform_str E (TrimPipe chars) x = Ok y /\ trimmed chars x y /\ forall y', trimmed chars x y' -> y' = y.
Proof.
  destruct (trim_pipe E chars x) as [y [H1 H2]]. exists y. split; [exact H1|]. split; [exact H2|].
  intros y' H'. eapply trimmed_unique; eauto.
Qed.

Lemma append_prepend E a b x y : piped E [AppendPipe a; PrependPipe b] x y <-> y = b ++ x ++ a.
Proof.
  split.
  - intros H. inversion H as [|t ts x1 z1 y1 E1 H1]; subst. injection E1 as <-.
    inversion H1 as [|t ts x2 z2 y2 E2 H2]; subst. injection E2 as <-. inversion H2. reflexivity.
  - intros ->. econstructor; [reflexivity|]. econstructor; [reflexivity|]. constructor.
Qed.
