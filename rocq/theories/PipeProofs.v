(** Chains of pipes that do the same. *)

From Coq Require Import Ascii String NArith ZArith Bool List Lia.
From Verif Require Import Base StringUtil Tags Dom NodeUtil Values Match Rule RuleMatching MatchRefine StringSpec StringProofs ValueSpec ValueProofs TextSpec TextProofs
  MatchSim ExtractSpec ExtractProofs ResultProofs SelectSpec SelectProofs PipeSpec.
Import ListNotations.

(** ** Trimming *)

Lemma trim_is chars x y : trimmed chars x y -> trim_if (is_any_of chars) x = y.
Proof. intros H. exact (trimmed_unique chars x _ y (trim_if_trimmed chars x) H). Qed.

Lemma all_in_trimmed chars x : Forall (fun c => In c chars) x -> trimmed chars x [].
Proof. intros H. exists x, []. cbn [app]. rewrite app_nil_r. split; [reflexivity|]. split; [exact H|]. split; [constructor|left; now split]. Qed.

Lemma trimmed_bare chars y : y = [] \/ (exists c y', y = c :: y' /\ ~ In c chars) /\ (exists y' c, y = y' ++ [c] /\ ~ In c chars) -> trimmed chars y y.
Proof. intros H. exists [], []. cbn [app]. rewrite app_nil_r. split; [reflexivity|]. split; [constructor|]. split; [constructor|]. destruct H as [->|H]; [left; now split|now right]. Qed.

Lemma trimmed_ends chars x y : trimmed chars x y -> y = [] \/ (exists c y', y = c :: y' /\ ~ In c chars) /\ (exists y' c, y = y' ++ [c] /\ ~ In c chars).
Proof. intros [a [b [_ [_ [_ [[H _]|H]]]]]]; auto. Qed.

Lemma Forall_incl (a b : str) l : incl a b -> Forall (fun c : ascii => In c a) l -> Forall (fun c => In c b) l.
Proof. intros H. apply Forall_impl. intros c. apply H. Qed.

Lemma trimmed_around chars x y a b : trimmed chars x y -> Forall (fun c => In c chars) a -> Forall (fun c => In c chars) b ->
  trimmed chars (a ++ x ++ b) y.
Proof.
  intros [a' [b' [-> [Ha' [Hb' H]]]]] Ha Hb. destruct H as [[-> ->]|H].
  - apply all_in_trimmed. rewrite app_nil_r. repeat (apply Forall_app; split); auto.
  - exists (a ++ a'), (b' ++ b). split; [now rewrite <- !app_assoc|]. split; [now apply Forall_app|]. split; [now apply Forall_app|now right].
Qed.

Lemma trim_twice_more x y t : incl y x -> trim_if (is_any_of x) (trim_if (is_any_of y) t) = trim_if (is_any_of x) t.
Proof.
  intros H. symmetry. apply trim_is. pose proof (trim_if_trimmed y t) as [a [b [Ht [Ha [Hb _]]]]]. rewrite Ht at 1.
  apply trimmed_around; [apply trim_if_trimmed|now apply (Forall_incl y)|now apply (Forall_incl y)].
Qed.

Lemma trim_twice_less x y t : incl y x -> trim_if (is_any_of y) (trim_if (is_any_of x) t) = trim_if (is_any_of x) t.
Proof.
  intros H. apply trim_is, trimmed_bare. destruct (trimmed_ends _ _ _ (trim_if_trimmed x t)) as [->|[[c [y' [-> Hc]]] [y'' [c' [E' Hc']]]]]; [now left|].
  right. split; [exists c, y'; split; [reflexivity|auto]|]. exists y'', c'. split; [exact E'|auto].
Qed.

Lemma trim_none t : trim_if (is_any_of []) t = t.
Proof.
  apply trim_is. exists [], []. cbn [app]. rewrite app_nil_r. split; [reflexivity|]. split; [constructor|]. split; [constructor|].
  destruct t as [|c t]; [left; now split|right]. split; [exists c, t; split; [reflexivity|intros []]|].
  destruct (exists_last (l := c :: t)) as [l [z E]]; [discriminate|]. exists l, z. split; [exact E|intros []].
Qed.

Lemma trim_map f chars t : (forall c, In (f c) chars <-> In c chars) -> trim_if (is_any_of chars) (map f t) = map f (trim_if (is_any_of chars) t).
Proof.
  intros Hf. apply trim_is. destruct (trim_if_trimmed chars t) as [a [b [Ht [Ha [Hb H]]]]]. set (y := trim_if (is_any_of chars) t) in *.
  assert (HF : forall l, Forall (fun c => In c chars) l -> Forall (fun c => In c chars) (map f l)).
  { intros l Hl. apply Forall_forall. intros c Hc. apply in_map_iff in Hc as [d [<- Hd]]. apply Hf. rewrite Forall_forall in Hl. now apply Hl. }
  exists (map f a), (map f b). split; [rewrite Ht at 1; now rewrite !map_app|]. split; [now apply HF|]. split; [now apply HF|].
  destruct H as [[Hy Hb0]|[[c [y' [E Hc]]] [y'' [c' [E' Hc']]]]]; [left; rewrite Hy, Hb0; now split|right]. split.
  - exists (f c), (map f y'). rewrite E. split; [reflexivity|]. now rewrite Hf.
  - exists (map f y''), (f c'). rewrite E'. rewrite map_app. split; [reflexivity|]. now rewrite Hf.
Qed.

(** ** White space *)

Lemma collapse_words x ws : words_of x ws -> TrimAndCollapseWs x = join_words ws.
Proof. intros H. pose proof (TrimAndCollapseWs_words x ws H) as HW. rewrite TrimAndCollapseWs_run_ok in HW. now injection HW. Qed.

Lemma words_before a x ws : all_blank a -> words_of x ws -> words_of (a ++ x) ws.
Proof. induction 1 as [|c a Hc Ha IH]; intros H; [exact H|]. cbn [app]. apply words_blank; auto. Qed.

Lemma words_behind b x ws : all_blank b -> words_of x ws -> words_of (x ++ b) ws.
Proof.
  intros Hb H. induction H as [g Hg|g w rest ws Hg Hne Hw Hr H IH].
  - constructor. now apply Forall_app.
  - rewrite <- !app_assoc. constructor; auto. destruct Hr as [->|[c [r [-> Hc]]]].
    + destruct b as [|c b]; [now left|right]. inversion Hb; subst. exists c, b. now split.
    + right. exists c, (r ++ b). now split.
Qed.

Lemma collapse_around a b x : all_blank a -> all_blank b -> TrimAndCollapseWs (a ++ x ++ b) = TrimAndCollapseWs x.
Proof.
  intros Ha Hb. destruct (words_exist x) as [ws H]. rewrite (collapse_words x ws H). apply collapse_words. now apply words_before, words_behind.
Qed.

Lemma join_cons w ws : join_words (w :: ws) = w ++ match ws with [] => [] | _ => " "%char :: join_words ws end.
Proof. destruct ws; cbn [join_words]; [now rewrite app_nil_r|reflexivity]. Qed.

Lemma join_ends ws : Forall (fun w => w <> [] /\ Forall (fun c => ~ blank c) w) ws ->
  join_words ws = [] \/ (exists c y, join_words ws = c :: y /\ ~ blank c) /\ (exists y c, join_words ws = y ++ [c] /\ ~ blank c).
Proof.
  induction 1 as [|w ws [Hw Hn] HF IH]; [now left|]. right. rewrite join_cons. split.
  - destruct w as [|c w]; [congruence|]. inversion Hn; subst. exists c. eexists. split; [reflexivity|assumption].
  - destruct IH as [E|[_ [y [c [E Hc]]]]].
    + assert (ws = []) as ->.
      { destruct ws as [|w' ws]; [reflexivity|]. inversion HF as [|? ? [Hne _] _]; subst. destruct w' as [|c w']; [congruence|]. destruct ws; discriminate. }
      rewrite app_nil_r. destruct (exists_last Hw) as [l [z ->]]. exists l, z. split; [reflexivity|]. apply Forall_app in Hn as [_ Hn]. now inversion Hn.
    + destruct ws as [|w' ws]; [destruct y; discriminate|]. rewrite E. exists (w ++ " "%char :: y), c. split; [now rewrite <- app_assoc|exact Hc].
Qed.

Lemma collapse_trim x t : all_blank x -> trim_if (is_any_of x) (TrimAndCollapseWs t) = TrimAndCollapseWs t.
Proof.
  intros Hx. destruct (words_exist t) as [ws H]. rewrite (collapse_words t ws H). apply trim_is, trimmed_bare.
  unfold all_blank in Hx. rewrite Forall_forall in Hx.
  destruct (join_ends ws (words_nonempty t ws H)) as [->|[[c [y [E Hc]]] [y' [c' [E' Hc']]]]]; [now left|right].
  split; [exists c, y|exists y', c']; split; auto.
Qed.

Lemma trim_collapse x t : all_blank x -> TrimAndCollapseWs (trim_if (is_any_of x) t) = TrimAndCollapseWs t.
Proof.
  intros Hx. destruct (trim_if_trimmed x t) as [a [b [Ht [Ha [Hb _]]]]]. rewrite Ht at 2. symmetry. unfold all_blank in Hx. rewrite Forall_forall in Hx.
  apply collapse_around; (eapply Forall_impl; [|eassumption]); cbn; intros c; apply Hx.
Qed.

Lemma collapsed_value x : TrimAndCollapseWs x = collapsed false false x.
Proof. unfold TrimAndCollapseWs. now rewrite run_collapsed. Qed.

Lemma collapsed_skip st need c x : IsSpace c = true -> collapsed st need (c :: x) = collapsed st (if st then true else need) x.
Proof. cbn [collapsed]. now intros ->. Qed.

Lemma collapsed_cons st need c x : IsSpace c = false -> collapsed st need (c :: x) = (if need then [" "%char] else []) ++ c :: collapsed true false x.
Proof. cbn [collapsed]. intros ->. now destruct need. Qed.

Lemma collapsed_members x : forall st need c, In c (collapsed st need x) -> c = " "%char \/ In c x.
Proof.
  induction x as [|d x IH]; intros st need c H; [destruct H|]. destruct (IsSpace d) eqn:Ed.
  - rewrite (collapsed_skip _ _ _ _ Ed) in H. apply IH in H as [->|H]; auto. right. now right.
  - rewrite (collapsed_cons _ _ _ _ Ed) in H. apply in_app_or in H as [H|H].
    + destruct need; [destruct H as [<-|[]]; now left|destruct H].
    + destruct H as [<-|H]; [right; now left|]. apply IH in H as [->|H]; auto. right. now right.
Qed.

(** What comes before a word and after one. *)
Lemma collapsed_front (P : ascii -> Prop) a : P " "%char -> Forall P a -> forall st need c y, ~ blank c ->
  exists a', Forall P a' /\ collapsed st need (a ++ c :: y) = a' ++ c :: collapsed true false y.
Proof.
  intros HP. induction 1 as [|d a Hd Ha IH]; intros st need c y Hc; cbn [app].
  - apply IsSpace_false in Hc. rewrite (collapsed_cons _ _ _ _ Hc). exists (if need then [" "%char] else []). split; [destruct need; repeat constructor; exact HP|reflexivity].
  - destruct (IsSpace d) eqn:Ed; [rewrite (collapsed_skip _ _ _ _ Ed); now apply IH|]. rewrite (collapsed_cons _ _ _ _ Ed). destruct (IH true false c y Hc) as [a' [H1 H2]]. rewrite H2.
    exists ((if need then [" "%char] else []) ++ d :: a'). split; [|now rewrite <- app_assoc].
    apply Forall_app. split; [destruct need; repeat constructor; exact HP|now constructor].
Qed.

Lemma collapsed_back z e b : ~ blank e -> forall st need, collapsed st need ((z ++ [e]) ++ b) = collapsed st need (z ++ [e]) ++ collapsed true false b.
Proof.
  intros He. apply IsSpace_false in He. induction z as [|c z IH]; intros st need; cbn [app].
  - rewrite !(collapsed_cons _ _ _ _ He). cbn [collapsed]. now rewrite <- app_assoc.
  - cbn [app] in IH. destruct (IsSpace c) eqn:Ec; [rewrite !(collapsed_skip _ _ _ _ Ec); apply IH|]. rewrite !(collapsed_cons _ _ _ _ Ec). rewrite IH. now rewrite <- app_assoc.
Qed.

Lemma collapsed_last e w : ~ blank e -> forall st need, exists z, collapsed st need (w ++ [e]) = z ++ [e].
Proof.
  intros He. apply IsSpace_false in He. induction w as [|d w IH]; intros st need; cbn [app].
  - rewrite (collapsed_cons _ _ _ _ He). eexists. reflexivity.
  - destruct (IsSpace d) eqn:Ed; [rewrite (collapsed_skip _ _ _ _ Ed); apply IH|]. rewrite (collapsed_cons _ _ _ _ Ed). destruct (IH true false) as [z ->].
    exists ((if need then [" "%char] else []) ++ d :: z). now rewrite <- app_assoc.
Qed.

Lemma collapse_commutes x t : (forall c, blank c -> In c x) ->
  trim_if (is_any_of x) (TrimAndCollapseWs t) = TrimAndCollapseWs (trim_if (is_any_of x) t).
Proof.
  intros Hx. apply trim_is. destruct (trim_if_trimmed x t) as [a [b [Ht [Ha [Hb H]]]]]. set (y := trim_if (is_any_of x) t) in *. rewrite Ht at 1. rewrite !collapsed_value.
  assert (Hsp : In " "%char x) by (apply Hx; now left).
  destruct H as [[-> ->]|[[c [y' [E Hc]]] [y'' [e [E' He]]]]].
  - cbn [app collapsed]. apply all_in_trimmed. apply Forall_forall. intros c Hc. rewrite app_nil_r in Hc. apply collapsed_members in Hc as [->|Hc]; [exact Hsp|].
    rewrite Forall_forall in Ha. now apply Ha.
  - assert (Hbc : ~ blank c) by auto. assert (Hbe : ~ blank e) by auto.
    assert (Hb2 : Forall (fun c => In c x) (collapsed true false b)).
    { apply Forall_forall. intros d Hd. apply collapsed_members in Hd as [->|Hd]; [exact Hsp|]. rewrite Forall_forall in Hb. now apply Hb. }
    destruct (collapsed_front (fun c => In c x) a Hsp Ha false false c (y' ++ b) Hbc) as [a' [Ha' Hf]].
    assert (Hy : collapsed false false y = c :: collapsed true false y').
    { rewrite E. cbn [collapsed]. apply IsSpace_false in Hbc. now rewrite Hbc. }
    assert (Hcat : c :: collapsed true false (y' ++ b) = collapsed false false y ++ collapsed true false b).
    { assert (H0 : collapsed false false (y ++ b) = collapsed false false y ++ collapsed true false b) by (rewrite E'; now apply collapsed_back).
      rewrite <- H0, E. cbn [app collapsed]. apply IsSpace_false in Hbc. now rewrite Hbc. }
    exists a', (collapsed true false b). split.
    + rewrite E. cbn [app]. rewrite Hf. rewrite Hcat. rewrite <- E. reflexivity.
    + split; [exact Ha'|]. split; [exact Hb2|]. right. split.
      * exists c, (collapsed true false y'). split; [exact Hy|exact Hc].
      * destruct (collapsed_last e y'' Hbe false false) as [z Hz]. exists z, e. rewrite E'. split; [exact Hz|exact He].
Qed.

(** ** Letters *)

Definition case_of (l : bool) : ascii -> ascii := if l then to_lower else to_upper.

Lemma case_pipe_of E l x : transform_str E (CasePipe l) x = Ok (map (case_of l) x).
Proof. now destruct l. Qed.

Lemma case_twice l l' c : case_of l' (case_of l c) = case_of l' c.
Proof. destruct l, l', c as [[] [] [] [] [] [] [] []]; reflexivity. Qed.

Lemma case_space l c : IsSpace (case_of l c) = IsSpace c.
Proof. destruct l, c as [[] [] [] [] [] [] [] []]; reflexivity. Qed.

Lemma collapsed_case l x : forall st need, collapsed st need (map (case_of l) x) = map (case_of l) (collapsed st need x).
Proof.
  induction x as [|c x IH]; intros st need; [reflexivity|]. cbn [map]. destruct (IsSpace c) eqn:Ec.
  - rewrite (collapsed_skip _ _ _ _ Ec), collapsed_skip by now rewrite case_space. apply IH.
  - rewrite (collapsed_cons _ _ _ _ Ec), collapsed_cons by now rewrite case_space. rewrite IH, map_app. cbn [map]. f_equal. destruct need, l; reflexivity.
Qed.

Definition is_letter (c : ascii) : bool := existsb (Ascii.eqb c) lower_letters || existsb (Ascii.eqb c) upper_letters.

Lemma is_letter_spec c : is_letter c = true <-> In c lower_letters \/ In c upper_letters.
Proof.
  unfold is_letter. rewrite orb_true_iff. assert (H : forall l, existsb (Ascii.eqb c) l = true <-> In c l).
  { intros l. rewrite existsb_exists. split; [intros [d [Hd E]]; apply Ascii.eqb_eq in E; now subst|intros Hc; exists c; split; [exact Hc|apply Ascii.eqb_refl]]. }
  now rewrite !H.
Qed.

Lemma case_letter l c : is_letter (case_of l c) = is_letter c.
Proof. destruct l, c as [[] [] [] [] [] [] [] []]; reflexivity. Qed.

Lemma case_other l c : is_letter c = false -> case_of l c = c.
Proof. destruct l, c as [[] [] [] [] [] [] [] []]; intros H; try reflexivity; discriminate H. Qed.

Lemma case_trim l x c : no_letters x -> In (case_of l c) x <-> In c x.
Proof.
  intros Hx. unfold no_letters in Hx. rewrite Forall_forall in Hx. destruct (is_letter c) eqn:Ec; [|now rewrite (case_other l c Ec)].
  split; intros H; exfalso; destruct (Hx _ H) as [H1 H2].
  - rewrite <- (case_letter l) in Ec. apply is_letter_spec in Ec as [Ec|Ec]; auto.
  - apply is_letter_spec in Ec as [Ec|Ec]; auto.
Qed.

Lemma letters_nodup : NoDup lower_letters /\ NoDup upper_letters.
Proof. split; repeat (constructor; [cbn; intuition discriminate|]); constructor. Qed.

Lemma mapped_unique from to c d d' : NoDup from -> letter_mapped from to c d -> letter_mapped from to c d' -> d = d'.
Proof.
  intros HN [[k [H1 H2]]|[H1 ->]] [[k' [H1' H2']]|[H1' ->]]; try reflexivity.
  - assert (k = k') as <-; [|congruence]. apply (proj1 (NoDup_nth_error from) HN); [apply nth_error_Some; congruence|congruence].
  - exfalso. apply H1'. now apply (nth_error_In _ k).
  - exfalso. apply H1. now apply (nth_error_In _ k').
Qed.

Lemma in_case_is l a b : in_case l a b -> b = map (case_of l) a.
Proof.
  intros H. induction H as [|c d a b H HF IH]; [reflexivity|]. cbn [map]. f_equal; [|exact IH]. destruct l; cbn [case_of].
  - apply (mapped_unique upper_letters lower_letters c); [apply letters_nodup|exact H|apply to_lower_mapped].
  - apply (mapped_unique lower_letters upper_letters c); [apply letters_nodup|exact H|apply to_upper_mapped].
Qed.

(** ** The chains *)

Lemma run_app E ts ts' x : run_pipes E (ts ++ ts') x = obind (run_pipes E ts x) (run_pipes E ts').
Proof.
  revert x. induction ts as [|t ts IH]; intros x; [reflexivity|]. cbn [app run_pipes]. destruct (transform_str E t x); cbn [obind]; auto.
Qed.

Lemma trim_if_set x y t : incl x y -> incl y x -> trim_if (is_any_of x) t = trim_if (is_any_of y) t.
Proof.
  intros H1 H2. rewrite <- (trim_twice_less x y t H2). rewrite <- (trim_twice_more y x t H1). reflexivity.
Qed.

Theorem equal_pipes E ts ts' : pipes_equal ts ts' -> forall x, run_pipes E ts x = run_pipes E ts' x.
Proof.
  assert (RC : forall t ts x, run_pipes E (t :: ts) x = obind (transform_str E t x) (run_pipes E ts)) by reflexivity.
  assert (RN : forall x, run_pipes E [] x = Ok x) by reflexivity.
  assert (RO : forall x f, obind (Ok x : outcome str) f = f x :> outcome str) by reflexivity.
  assert (R1 : forall a x, transform_str E (AppendPipe a) x = Ok (x ++ a)) by reflexivity.
  assert (R2 : forall a x, transform_str E (PrependPipe a) x = Ok (a ++ x)) by reflexivity.
  assert (R3 : forall a x, transform_str E (TrimPipe a) x = Ok (trim_if (is_any_of a) x)) by reflexivity.
  assert (R4 : forall x, transform_str E CollapseWsPipe x = Ok (TrimAndCollapseWs x)) by (intros; apply TrimAndCollapseWs_run_ok).
  induction 1; intros t; repeat first [rewrite RC|rewrite RN|rewrite case_pipe_of|rewrite R1|rewrite R2|rewrite R3|rewrite R4|rewrite RO].
  all: try (rewrite <- ?app_assoc; reflexivity).
  - now rewrite app_nil_r.
  - f_equal. now apply trim_if_set.
  - now rewrite trim_none.
  - f_equal. now apply trim_twice_less.
  - f_equal. now apply trim_twice_more.
  - f_equal. apply trim_is. apply (trimmed_around x t _ [] a); [apply trim_if_trimmed|constructor|now apply Forall_forall].
  - f_equal. apply trim_is. rewrite <- (app_nil_r (a ++ t)), <- app_assoc. apply (trimmed_around x t _ a []); [apply trim_if_trimmed|now apply Forall_forall|constructor].
  - pose proof (collapse_idempotent t _ (TrimAndCollapseWs_run_ok t)) as HI. rewrite TrimAndCollapseWs_run_ok in HI. now rewrite HI.
  - f_equal. now apply trim_collapse.
  - f_equal. now apply collapse_trim.
  - f_equal. symmetry. now apply collapse_commutes.
  - f_equal. now apply (collapse_around [] a t); [constructor|].
  - f_equal. rewrite <- (app_nil_r (a ++ t)), <- app_assoc. now apply (collapse_around a [] t); [|constructor].
  - f_equal. rewrite map_map. apply map_ext. intros c. apply case_twice.
  - f_equal. rewrite !collapsed_value. apply collapsed_case.
  - f_equal. apply trim_map. intros c. now apply case_trim.
  - f_equal. rewrite map_app. now rewrite (in_case_is l a b H).
  - f_equal. rewrite map_app. now rewrite (in_case_is l a b H).
  - rewrite !run_app. destruct (run_pipes E before t) as [y| | |]; try reflexivity. cbn [obind]. rewrite !run_app. now rewrite IHpipes_equal.
  - now rewrite IHpipes_equal.
  - now rewrite IHpipes_equal1.
Qed.

(** ** Chains of one meaning *)

Definition chain (k : option bool) (a b : str) : list transform :=
  match k with None => [] | Some l => [CasePipe l] end ++ [PrependPipe a; AppendPipe b].

Lemma equal_before before ts ts' : pipes_equal ts ts' -> pipes_equal (before ++ ts) (before ++ ts').
Proof. intros H. pose proof (equal_within before [] _ _ H) as H'. now rewrite !app_nil_r in H'. Qed.
Lemma equal_behind after ts ts' : pipes_equal ts ts' -> pipes_equal (ts ++ after) (ts' ++ after).
Proof. intros H. exact (equal_within [] after _ _ H). Qed.

Lemma in_case_of l a : in_case l a (map (case_of l) a).
Proof. induction a as [|c a IH]; [constructor|]. cbn [map]. constructor; [|exact IH]. destruct l; [apply to_lower_mapped|apply to_upper_mapped]. Qed.

Lemma chain_case l k a b : pipes_equal (chain k a b ++ [CasePipe l]) (chain (Some l) (map (case_of l) a) (map (case_of l) b)).
Proof.
  unfold chain. rewrite <- app_assoc. cbn [app].
  assert (H1 : pipes_equal [PrependPipe a; AppendPipe b; CasePipe l] [CasePipe l; PrependPipe (map (case_of l) a); AppendPipe (map (case_of l) b)]).
  { eapply equal_trans; [apply (equal_before [PrependPipe a]), (equal_append_case l b _ (in_case_of l b))|].
    cbn [app]. exact (equal_behind [AppendPipe (map (case_of l) b)] _ _ (equal_prepend_case l a _ (in_case_of l a))). }
  eapply equal_trans; [apply equal_before, H1|]. destruct k as [l'|]; cbn [app]; [|apply equal_same].
  exact (equal_behind [PrependPipe (map (case_of l) a); AppendPipe (map (case_of l) b)] _ _ (equal_case l' l)).
Qed.

Lemma chain_exists ts : Forall adds_or_cases ts -> exists k a b, pipes_equal ts (chain k a b).
Proof.
  induction ts as [|t ts IH] using rev_ind; intros H.
  - exists None, [], []. unfold chain. cbn [app]. apply equal_sym.
    eapply equal_trans; [exact (equal_behind [AppendPipe []] _ _ equal_prepend_nothing)|]. exact equal_append_nothing.
  - apply Forall_app in H as [H1 H2]. destruct (IH H1) as [k [a [b HE]]]. inversion H2 as [|? ? Ht _]; subst.
    assert (HB : pipes_equal (ts ++ [t]) (chain k a b ++ [t])) by now apply equal_behind.
    destruct t as [c|c|c|l| | |]; try contradiction Ht.
    + exists k, a, (b ++ c). eapply equal_trans; [exact HB|]. unfold chain. rewrite <- app_assoc. apply equal_before. cbn [app].
      exact (equal_before [PrependPipe a] _ _ (equal_append_append b c)).
    + exists k, (c ++ a), b. eapply equal_trans; [exact HB|]. unfold chain. rewrite <- app_assoc. apply equal_before. cbn [app].
      eapply equal_trans; [exact (equal_before [PrependPipe a] _ _ (equal_append_prepend b c))|].
      exact (equal_behind [AppendPipe b] _ _ (equal_prepend_prepend a c)).
    + exists (Some l), (map (case_of l) a), (map (case_of l) b). eapply equal_trans; [exact HB|]. apply chain_case.
Qed.

Definition cased (k : option bool) (x : str) : str := match k with None => x | Some l => map (case_of l) x end.

Lemma run_chain E k a b x : run_pipes E (chain k a b) x = Ok (a ++ cased k x ++ b).
Proof. destruct k as [[]|]; cbn [chain app run_pipes transform_str obind cased]; now rewrite <- ?app_assoc. Qed.

Lemma chain_lengths k k' a b a' b' : (forall x, a ++ cased k x ++ b = a' ++ cased k' x ++ b') -> length a <= length a'.
Proof.
  intros H. destruct (le_lt_dec (length a) (length a')) as [Hl|Hl]; [exact Hl|exfalso].
  assert (HC : forall k c, is_letter c = false -> cased k [c] = [c]) by (intros [l|] c Hc; cbn [cased map]; [now rewrite case_other|reflexivity]).
  assert (HN : forall c, is_letter c = false -> nth_error a (length a') = Some c).
  { intros c Hc. specialize (H [c]). rewrite !HC in H by exact Hc. apply (f_equal (fun l => nth_error l (length a'))) in H.
    rewrite nth_error_app1 in H by lia. rewrite H, nth_error_app2 by lia. now rewrite Nat.sub_diag. }
  pose proof (HN "0"%char eq_refl) as H0. rewrite (HN "1"%char eq_refl) in H0. discriminate.
Qed.

Lemma same_heads {A} (a b a' b' : list A) : length a = length a' -> a ++ b = a' ++ b' -> a = a' /\ b = b'.
Proof.
  revert a'. induction a as [|x a IH]; intros [|y a'] Hl H; try discriminate; [now split|].
  injection H as <- H. injection Hl as Hl. destruct (IH a' Hl H) as [-> ->]. now split.
Qed.

Lemma chain_unique k k' a b a' b' : (forall x, a ++ cased k x ++ b = a' ++ cased k' x ++ b') -> k = k' /\ a = a' /\ b = b'.
Proof.
  intros H. assert (Hl : length a = length a').
  { apply Nat.le_antisymm; [now apply (chain_lengths k k' a b a' b')|]. apply (chain_lengths k' k a' b' a b). intros x. now rewrite H. }
  assert (HS : forall x, a = a' /\ cased k x ++ b = cased k' x ++ b') by (intros x; exact (same_heads _ _ _ _ Hl (H x))).
  assert (Hb : b = b') by (destruct (HS []) as [_ HS0]; destruct k, k'; exact HS0). subst b'.
  assert (HK : forall x, cased k x = cased k' x) by (intros x; destruct (HS x) as [_ HSx]; exact (app_inv_tail _ _ _ HSx)).
  split; [|split; [exact (proj1 (HS []))|reflexivity]].
  pose proof (HK (s "aA")) as HA. destruct k as [[]|], k' as [[]|]; try reflexivity; discriminate HA.
Qed.

Theorem equal_complete E ts ts' : Forall adds_or_cases ts -> Forall adds_or_cases ts' ->
  (forall x, run_pipes E ts x = run_pipes E ts' x) -> pipes_equal ts ts'.
Proof.
  intros H H' HE. destruct (chain_exists ts H) as [k [a [b HC]]]. destruct (chain_exists ts' H') as [k' [a' [b' HC']]].
  assert (HU : forall x, a ++ cased k x ++ b = a' ++ cased k' x ++ b').
  { intros x. specialize (HE x). rewrite (equal_pipes E _ _ HC), (equal_pipes E _ _ HC'), !run_chain in HE. now injection HE. }
  apply chain_unique in HU as [-> [-> ->]]. eapply equal_trans; [exact HC|]. now apply equal_sym.
Qed.

(** ** Captures and rules *)

Lemma run_apply E p x : apply_pipe E p x = run_pipes E (capture_chain p) x.
Proof.
  destruct p as [p|]; [|reflexivity]. cbn [apply_pipe capture_chain]. revert p x. fix IH 1. intros [t [p|]] x; cbn [pipe_pipe pipes_of run_pipes].
  - destruct (transform_str E t x) as [y| | |]; cbn [obind]; try reflexivity. apply IH.
  - now destruct (transform_str E t x) as [y| | |].
Qed.

Theorem alike_values E D c c' p : captures_alike c c' -> capture_capture E D c p = capture_capture E D c' p.
Proof.
  intros H. unfold capture_capture. destruct (deref D p) as [n| | |] eqn:Hd; cbn [obind]; try reflexivity. destruct H as [a x q q' H|f x q q' H|x q q' H].
  - destruct n as [|t orig attrs cs| | | | |]; try reflexivity. destruct (gumbo_get_attribute attrs (c_str a)) as [y|]; [|reflexivity].
    destruct (a_value y) as [v|]; [|reflexivity]. now rewrite !run_apply, (equal_pipes E _ _ H).
  - destruct f as [f|]; [|reflexivity]. destruct (call_capture_function f D p) as [y| | |]; cbn [obind]; try reflexivity. now rewrite !run_apply, (equal_pipes E _ _ H).
  - cbn [call_capture_function]. rewrite Hd. cbn [obind]. unfold NodeText.
    pose proof (equal_pipes E _ _ H (StripTags true n)) as HE. cbn [run_pipes transform_str] in HE. rewrite TrimAndCollapseWs_run_ok in HE. cbn [obind] in HE.
    now rewrite !run_apply, HE.
Qed.

Lemma capture_all_present E D cs p : capture_all E D cs p = capture_all E D (map Some (present cs)) p.
Proof. induction cs as [|[c|] cs IH]; [reflexivity| |]; rewrite present_cons; cbn [capture_all map]; rewrite IH; reflexivity. Qed.

Lemma alike_all E D p cs cs' : Forall2 captures_alike cs cs' -> capture_all E D (map Some cs) p = capture_all E D (map Some cs') p.
Proof. induction 1 as [|c c' cs cs' H HF IH]; [reflexivity|]. cbn [map capture_all]. now rewrite (alike_values E D c c' p H), IH. Qed.

Lemma bare_shape R R' rp : bare R = bare R' -> (rget R rp = None <-> rget R' rp = None).
Proof.
  intros H. pose proof (with_captures_get (fun _ => []) R rp) as H1. pose proof (with_captures_get (fun _ => []) R' rp) as H2.
  unfold bare in H. rewrite H in H1. rewrite H1 in H2. destruct (rget R rp), (rget R' rp); cbn [option_map] in H2; try discriminate; split; congruence.
Qed.

Lemma alike_group E D R R' : rules_alike R R' -> forall g m, capture_group E R D g m = capture_group E R' D g m.
Proof.
  intros [HB HC]. induction g as [|[rp np] g IH]; intros m; [reflexivity|]. cbn [capture_group]. unfold rderef.
  pose proof (bare_shape R R' rp HB) as HN. destruct (rget R rp) as [r|] eqn:Er.
  2: { now rewrite (proj1 HN eq_refl). }
  destruct (rget R' rp) as [r'|] eqn:Er'; [|now discriminate (proj2 HN eq_refl)].
  cbn [obind]. specialize (HC rp r r' Er Er').
  assert (HV : Rule_capture E D r np = Rule_capture E D r' np).
  { unfold Rule_capture. rewrite capture_all_present, (capture_all_present E D (r_captures r')). now apply alike_all. }
  assert (HZ : forall r0, length (r_captures r0) = 0 -> Rule_capture E D r0 np = Ok []) by (intros r0 H0; unfold Rule_capture; destruct (r_captures r0); [reflexivity|discriminate]).
  destruct (Nat.eqb_spec (length (r_captures r)) 0) as [H0|H0], (Nat.eqb_spec (length (r_captures r')) 0) as [H0'|H0'].
  - apply IH.
  - rewrite <- HV, (HZ r H0). cbn [obind length Nat.eqb]. apply IH.
  - rewrite HV, (HZ r' H0'). cbn [obind length Nat.eqb]. apply IH.
  - rewrite HV. destruct (Rule_capture E D r' np) as [vs| | |]; cbn [obind]; try reflexivity. apply IH.
Qed.

Theorem alike_extract E R R' D p n o : rules_alike R R' -> extract_yields E R D p n o -> extract_yields E R' D p n o.
Proof.
  intros H [f0 HE]. exists f0. intros f Hf. rewrite <- (HE f Hf). unfold extract.
  assert (HS : SaveMatchingNodesRecursive R' D (Rule_matches E D) f (Some []) p n = SaveMatchingNodesRecursive R D (Rule_matches E D) f (Some []) p n).
  { rewrite <- (with_captures_save E D (fun _ => []) R), <- (with_captures_save E D (fun _ => []) R').
    change (with_captures (fun _ => []) R) with (bare R). now rewrite (proj1 H). }
  rewrite HS. clear HS. destruct (SaveMatchingNodesRecursive R D (Rule_matches E D) f (Some []) p n) as [[gs c]| | |]; cbn [obind]; try reflexivity.
  induction gs as [|g gs IH]; [reflexivity|]. cbn [capture_groups]. rewrite (alike_group E D R R' H g []).
  destruct (capture_group E R' D g []) as [m| | |]; cbn [obind]; try reflexivity. now rewrite IH.
Qed.

(** ** Running text *)

Lemma running_child t orig attrs cs i c : running_text (NElement t orig attrs cs) -> nth_error cs i = Some c -> ~ block c /\ running_text c.
Proof.
  intros H Hc. assert (Hb : below (NElement t orig attrs cs) [i] c) by (eapply below_child; [constructor|exact Hc]). split.
  - now apply (H [i] c).
  - intros p m Hm Hp. apply (H (p ++ [i]) m); [now apply (below_app _ [i] c)|]. now destruct p.
Qed.

Lemma running_strip n : running_text n -> StripTags true n = StripTags false n.
Proof.
  induction n as [h d q y cs IH|t orig attrs cs IH|t orig attrs cs IH|x|x|x|x] using node_children_ind; intros H; try reflexivity.
  rewrite !StripTags_element. f_equal. apply map_ext_in. intros c Hc. apply In_nth_error in Hc as [i Hi].
  destruct (running_child _ _ _ _ _ _ H Hi) as [H1 H2]. destruct (piece_wrap c) as [[Hb _]|[_ Hp]]; [contradiction|].
  rewrite Hp. unfold piece. rewrite Forall_forall in IH. apply IH; [|exact H2]. eapply nth_error_In; exact Hi.
Qed.

Theorem running_collapsed n ws : running_text n -> words_of (full_text n) ws -> NodeText n = join_words ws.
Proof. intros H Hw. unfold NodeText. rewrite (running_strip n H), StripTags_text. now apply collapse_words. Qed.

Theorem running_capture E D p n x q : deref D p = Ok n -> running_text n ->
  capture_capture E D (FunctionCapture (Some TextBuiltin) x q) p =
  capture_capture E D (FunctionCapture (Some StripTagsBuiltin) x (Some (Pipe CollapseWsPipe q))) p.
Proof.
  intros Hd H. unfold capture_capture. rewrite Hd. cbn [obind call_capture_function]. rewrite Hd. cbn [obind apply_pipe pipe_pipe transform_str].
  rewrite TrimAndCollapseWs_run_ok. cbn [obind]. unfold NodeText. rewrite (running_strip n H). now destruct q.
Qed.

(** ** As captures use them *)

Theorem equal_applied E p q : pipes_equal (capture_chain p) (capture_chain q) -> forall x, apply_pipe E p x = apply_pipe E q x.
Proof. intros H x. now rewrite !run_apply, (equal_pipes E _ _ H). Qed.

Theorem applied_equal E p q : Forall adds_or_cases (capture_chain p) -> Forall adds_or_cases (capture_chain q) ->
  (forall x, apply_pipe E p x = apply_pipe E q x) -> pipes_equal (capture_chain p) (capture_chain q).
Proof. intros H1 H2 H. apply (equal_complete E); try assumption. intros x. rewrite <- !run_apply. apply H. Qed.
