(** The words of the grammar [G_exact] are those of the parts in SyntaxSpec. *)

From Coq Require Import Ascii String NArith ZArith Bool List Lia.
From Verif Require Import Base StringUtil Tags Values Match Rule Regular RegularProofs MachineRows
  Grammar GrammarSpec GrammarTexts ParserSpec SyntaxSpec.
Import ListNotations.

(** ** Words of regular expressions *)

Definition chs (x : str) : list item := map IChr x.

Lemma chars_chs x : chars (chs x) = x.
Proof. induction x as [|c x IH]; [reflexivity|]. cbn. now f_equal. Qed.

Lemma chs_app x y : chs (x ++ y) = chs x ++ chs y.
Proof. apply map_app. Qed.

Lemma L_eps_inv w : L Eps w -> w = [].
Proof. intros H. now inversion H. Qed.
Lemma L_act_inv a w : L (Act a) w -> w = [IAct a].
Proof. intros H. now inversion H. Qed.
Lemma L_sym_inv m w : L (Sym m) w -> exists c, w = [IChr c] /\ has m c = true.
Proof. intros H. inversion H; subst. eauto. Qed.
Lemma L_chr_inv c w : L (chr c) w -> w = [IChr c].
Proof. intros H. apply L_sym_inv in H as [d [-> H]]. rewrite has_cls in H. apply Ascii.eqb_eq in H. now subst. Qed.
Lemma L_chr c : L (chr c) [IChr c].
Proof. constructor. rewrite has_cls. apply Ascii.eqb_refl. Qed.
Lemma L_cat_inv r r' w : L (Cat r r') w -> exists u v, w = u ++ v /\ L r u /\ L r' v.
Proof. intros H. inversion H; subst. eauto. Qed.
Lemma L_alt_inv r r' w : L (Alt r r') w -> L r w \/ L r' w.
Proof. intros H. inversion H; subst; auto. Qed.
Lemma L_plus_inv r w : L (Plus r) w -> exists u v, w = u ++ v /\ L r u /\ L (Star r) v.
Proof. intros H. inversion H; subst. eauto. Qed.

Lemma L_star_ind r (P : list item -> Prop) : P [] ->
  (forall u v, L r u -> L (Star r) v -> P v -> P (u ++ v)) -> forall w, L (Star r) w -> P w.
Proof.
  intros H0 HS w H. remember (Star r) as sr eqn:E. induction H; try discriminate; [exact H0|].
  injection E as ->. apply HS; auto.
Qed.

Lemma L_lit_inv x w : L (lit x) w -> w = chs x.
Proof.
  revert w. induction x as [|c [|d x] IH]; intros w H.
  - now apply L_eps_inv in H.
  - now apply L_chr_inv in H.
  - change (lit (c :: d :: x)) with (Cat (chr c) (lit (d :: x))) in H. apply L_cat_inv in H as [u [v [-> [H1 H2]]]].
    apply L_chr_inv in H1 as ->. rewrite (IH _ H2). reflexivity.
Qed.
Lemma L_lit x : L (lit x) (chs x).
Proof.
  induction x as [|c [|d x] IH]; [constructor|apply L_chr|].
  change (lit (c :: d :: x)) with (Cat (chr c) (lit (d :: x))). change (chs (c :: d :: x)) with ([IChr c] ++ chs (d :: x)).
  constructor; [apply L_chr|exact IH].
Qed.

(** A star of something that is itself the word of a part. *)
Lemma L_star_list {A} r (f : A -> list item) (P : A -> Prop) :
  (forall w, L r w <-> exists a, P a /\ w = f a) ->
  forall w, L (Star r) w <-> exists l, Forall P l /\ w = flat_map f l.
Proof.
  intros H w. split.
  - revert w. apply L_star_ind; [now exists []|]. intros u v Hu _ [l [HP ->]]. apply H in Hu as [a [Ha ->]].
    exists (a :: l). split; [now constructor|reflexivity].
  - intros [l [HP ->]]. induction HP as [|a l Ha HP IH]; [constructor|]. constructor; [|exact IH]. apply H. eauto.
Qed.

Lemma L_star_sym m f : (forall c, has m c = f c) -> forall w, L (Star (Sym m)) w <-> exists x, all_in f x /\ w = chs x.
Proof.
  intros Hf w.
  assert (H : forall w, L (Sym m) w <-> exists c, f c = true /\ w = [IChr c]).
  { intros v. split; [intros H; apply L_sym_inv in H as [c [-> H]]; exists c; now rewrite <- Hf|].
    intros [c [H ->]]. constructor. now rewrite Hf. }
  rewrite (L_star_list _ _ _ H). split; intros [x [HP ->]]; exists x; split.
  - intros c Hc. rewrite Forall_forall in HP. auto.
  - clear. induction x as [|c x IH]; [reflexivity|]. cbn. now rewrite IH.
  - rewrite Forall_forall. auto.
  - clear. induction x as [|c x IH]; [reflexivity|]. cbn. now rewrite <- IH.
Qed.

Lemma L_plus_sym m f : (forall c, has m c = f c) -> forall w, L (Plus (Sym m)) w <-> exists x, x <> [] /\ all_in f x /\ w = chs x.
Proof.
  intros Hf w. split.
  - intros H. apply L_plus_inv in H as [u [v [-> [H1 H2]]]]. apply L_sym_inv in H1 as [c [-> H1]].
    apply (L_star_sym m f Hf) in H2 as [x [HP ->]]. exists (c :: x). split; [discriminate|]. split; [|reflexivity].
    intros d [<-|Hd]; [now rewrite <- Hf|auto].
  - intros [x [Hx [HP ->]]]. destruct x as [|c x]; [contradiction|]. apply (L_plus _ [IChr c] (chs x)).
    + constructor. rewrite Hf. apply HP. now left.
    + apply (L_star_sym m f Hf). exists x. split; [|reflexivity]. intros d Hd. apply HP. now right.
Qed.

(** ** Classes of characters *)

Lemma is_digit_mask c : has m_digit c = is_number c.
Proof. unfold m_digit, is_number, code_in. now rewrite has_range. Qed.
Lemma is_alpha_mask c : has m_alpha c = is_alpha c.
Proof. unfold m_alpha, is_alpha, code_in. now rewrite has_lor, !has_range. Qed.
Lemma eqb_sym' c d : Ascii.eqb c d = Ascii.eqb d c.
Proof. destruct (Ascii.eqb_spec c d), (Ascii.eqb_spec d c); congruence. Qed.
Lemma is_space_mask c : has m_space c = is_space c.
Proof. unfold m_space, is_space, code_in. rewrite has_lor, has_range, has_cls. now rewrite (eqb_sym' " "). Qed.
Lemma is_name_mask c : has m_name c = is_name_char c.
Proof.
  unfold m_name, m_alnum, is_name_char. rewrite !has_lor, is_alpha_mask, is_digit_mask, !has_cls.
  rewrite (eqb_sym' "-"), (eqb_sym' "_"). now rewrite !orb_assoc.
Qed.
Lemma is_var_mask c : has m_var c = is_var_char c.
Proof. unfold m_var, is_var_char. now rewrite has_lor, is_name_mask, has_cls, (eqb_sym' "."). Qed.

Lemma L_spaces w : L spaces w <-> exists x, spaces_only x /\ w = chs x.
Proof. apply L_star_sym, is_space_mask. Qed.
Lemma L_digits w : L digits w <-> exists x, is_digits x /\ w = chs x.
Proof.
  unfold digits, is_digits. rewrite (L_plus_sym _ _ is_digit_mask). split; intros [x H]; exists x; tauto.
Qed.
Lemma L_name w : L g_name w <-> exists x, is_name x /\ w = chs x.
Proof.
  unfold g_name. split.
  - intros H. apply L_cat_inv in H as [u [v [-> [H1 H2]]]]. apply L_sym_inv in H1 as [c [-> H1]].
    apply (L_star_sym _ _ is_name_mask) in H2 as [x [HP ->]]. exists (c :: x). split; [|reflexivity].
    exists c, x. rewrite <- is_alpha_mask. auto.
  - intros [x [[c [x' [-> [H1 H2]]]] ->]]. apply (L_cat _ _ [IChr c] (chs x')).
    + constructor. now rewrite is_alpha_mask.
    + apply (L_star_sym _ _ is_name_mask). eauto.
Qed.
Lemma L_tag_name w : L g_tag_name w <-> exists x, is_tag_name x /\ w = chs x.
Proof.
  unfold g_tag_name. split.
  - intros H. apply L_alt_inv in H as [H|H].
    + apply L_chr_inv in H as ->. exists ["*"%char]. split; [now left|reflexivity].
    + apply L_name in H as [x [H ->]]. exists x. split; [now right|reflexivity].
  - intros [x [[->|H] ->]]; [apply L_left, L_chr|apply L_right, L_name; eauto].
Qed.

(** ** Tactics *)

Ltac L_inv_step :=
  match goal with
  | H : L Eps _ |- _ => apply L_eps_inv in H; subst
  | H : L (Act _) _ |- _ => apply L_act_inv in H; subst
  | H : L (chr _) _ |- _ => apply L_chr_inv in H; subst
  | H : L (lit _) _ |- _ => apply L_lit_inv in H; subst
  | H : L (Cat _ _) _ |- _ =>
      let u := fresh "u" in let v := fresh "v" in let H1 := fresh "H" in let H2 := fresh "H" in
      apply L_cat_inv in H as [u [v [-> [H1 H2]]]]
  | H : L (Alt _ _) _ |- _ => apply L_alt_inv in H as [H|H]
  | H : L (opt _) _ |- _ => unfold opt in H
  | H : L (cats _) _ |- _ => cbn [cats] in H
  | H : L (alts _) _ |- _ => cbn [alts] in H
  end.
Ltac L_inv := repeat L_inv_step.

Lemma L_cat_chr c r w : L r w -> L (Cat (chr c) r) (IChr c :: w).
Proof. intros H. apply (L_cat _ _ [IChr c] w); [apply L_chr|exact H]. Qed.
Lemma L_cat_act a r w : L r w -> L (Cat (Act a) r) (IAct a :: w).
Proof. intros H. apply (L_cat _ _ [IAct a] w); [constructor|exact H]. Qed.
Lemma L_cat_lit x r w : L r w -> L (Cat (lit x) r) (chs x ++ w).
Proof. intros H. constructor; [apply L_lit|exact H]. Qed.
Lemma L_cat_skip r r' w : L r [] -> L r' w -> L (Cat r r') w.
Proof. intros H H'. now apply (L_cat _ _ [] w). Qed.

(** ** Literals *)

(** The bodies of quoted strings. *)
Lemma body_chars q w : L (body q) w -> w = chs (chars w).
Proof.
  unfold body. revert w. apply L_star_ind; [reflexivity|]. intros u v Hu _ IH. rewrite chars_app, chs_app, <- IH. f_equal.
  apply L_alt_inv in Hu as [Hu|Hu]; [apply L_sym_inv in Hu as [c [-> _]]; reflexivity|].
  apply L_cat_inv in Hu as [a [b [-> [Ha Hb]]]]. apply L_sym_inv in Hb as [c [-> _]].
  apply L_plus_inv in Ha as [a1 [a2 [-> [Ha Hb]]]]. apply L_chr_inv in Ha as ->.
  rewrite !chars_app, !chs_app. f_equal. f_equal. revert a2 Hb. apply L_star_ind; [reflexivity|].
  intros u' v' Hu _ IH'. apply L_chr_inv in Hu as ->. rewrite chars_app, chs_app, <- IH'. reflexivity.
Qed.

Lemma L_body q w : q <> Grammar.backslash -> L (body q) w <-> exists x, enclosed q x /\ w = chs x.
Proof.
  intros Hq. split.
  - intros H. exists (chars w). split; [|now apply (body_chars q)]. apply (body_quotable q Hq). exists w. auto.
  - intros [x [H ->]]. apply (body_quotable q Hq) in H as [w [H E]]. pose proof (body_chars q w H) as Hw.
    rewrite E in Hw. now rewrite <- Hw.
Qed.

Definition w_delimited (q : ascii) (a b : N) (x : str) : list item :=
  IChr q :: IAct a :: chs x ++ [IAct b; IChr q].

Lemma L_delimited q a b w : q <> Grammar.backslash ->
  L (delimited q a b) w <-> exists x, enclosed q x /\ w = w_delimited q a b x.
Proof.
  intros Hq. unfold delimited. split.
  - intros H. cbn [cats] in H. apply L_cat_inv in H as [u [v [-> [H1 H]]]]. apply L_cat_inv in H as [u2 [v2 [-> [H2 H]]]].
    apply L_cat_inv in H as [u3 [v3 [-> [H3 H]]]]. L_inv. apply (L_body q _ Hq) in H3 as [x [Hx ->]]. exists x. split; [exact Hx|reflexivity].
  - intros [x [Hx ->]]. cbn [cats]. apply L_cat_chr, L_cat_act. apply L_cat; [apply (L_body q _ Hq); eauto|].
    apply L_cat_act, L_chr.
Qed.

Lemma quote_ok : quote <> Grammar.backslash. Proof. discriminate. Qed.
Lemma apostrophe_ok : apostrophe <> Grammar.backslash. Proof. discriminate. Qed.
Lemma slash_ok : "/"%char <> Grammar.backslash. Proof. discriminate. Qed.

(** Quoted strings, with the numbers of their four actions. *)
Definition w_quoted (a : N) (q : quoted) : list item :=
  if Ascii.eqb (q_mark q) quote then w_delimited quote a (a + 1) (q_body q)
  else w_delimited apostrophe (a + 2) (a + 3) (q_body q).

Lemma L_quoted_gen a w : L (Alt (delimited quote a (a + 1)) (delimited apostrophe (a + 2) (a + 3))) w <->
  exists q, quoted_ok q /\ w = w_quoted a q.
Proof.
  split.
  - intros H. apply L_alt_inv in H as [H|H].
    + apply (L_delimited _ _ _ _ quote_ok) in H as [x [Hx ->]]. exists (mk_quoted quote x). split; [|reflexivity].
      split; [now left|exact Hx].
    + apply (L_delimited _ _ _ _ apostrophe_ok) in H as [x [Hx ->]]. exists (mk_quoted apostrophe x). split; [|reflexivity].
      split; [now right; left|exact Hx].
  - intros [[m x] [[Hm Hx] ->]]. unfold w_quoted. cbn [q_mark q_body] in *. destruct Hm as [<-|[<-|[]]].
    + rewrite Ascii.eqb_refl. apply L_left. apply (L_delimited _ _ _ _ quote_ok). eauto.
    + change (Ascii.eqb apostrophe quote) with false. apply L_right. apply (L_delimited _ _ _ _ apostrophe_ok). eauto.
Qed.
Lemma L_quoted w : L g_quoted w <-> exists q, quoted_ok q /\ w = w_quoted 8 q.
Proof. exact (L_quoted_gen 8 w). Qed.
Lemma L_opt_quoted w : L g_opt_quoted w <-> exists q, quoted_ok q /\ w = w_quoted 4 q.
Proof. exact (L_quoted_gen 4 w). Qed.

(** Regular expressions *)
Definition w_regex_body (r : regex_lit) : list item :=
  if Ascii.eqb (rl_mark r) "/" then w_delimited "/" 19 20 (rl_body r)
  else if Ascii.eqb (rl_mark r) apostrophe then w_delimited apostrophe 21 22 (rl_body r)
  else w_delimited quote 23 24 (rl_body r).
Definition w_flag (f : flag) : list item :=
  match f with FlagI => [IChr "i"%char; IAct 25] | FlagC => [IChr "c"%char; IAct 26] end.
Definition w_regex (r : regex_lit) : list item := w_regex_body r ++ flat_map w_flag (rl_flags r) ++ [IAct 27].

Lemma L_flags w : L (Star (Alt (Cat (chr "i") (Act 25)) (Cat (chr "c") (Act 26)))) w <-> exists l, w = flat_map w_flag l.
Proof.
  assert (H : forall w, L (Alt (Cat (chr "i") (Act 25)) (Cat (chr "c") (Act 26))) w <-> exists f, True /\ w = w_flag f).
  { intros v. split.
    - intros H. L_inv; [exists FlagI|exists FlagC]; auto.
    - intros [f [_ ->]]. destruct f; [apply L_left|apply L_right]; apply L_cat_chr; constructor. }
  rewrite (L_star_list _ _ _ H). split; [intros [l [_ ->]]|intros [l ->]]; exists l; auto. split; [|reflexivity].
  apply Forall_forall. auto.
Qed.

Lemma L_regex w : L g_regex w <-> exists r, regex_ok r /\ w = w_regex r.
Proof.
  unfold g_regex. split.
  - intros H. cbn [cats] in H. apply L_cat_inv in H as [u [v [-> [H1 H]]]]. apply L_cat_inv in H as [u2 [v2 [-> [H2 H]]]].
    apply L_act_inv in H as ->. apply L_flags in H2 as [l ->]. cbn [alts] in H1.
    apply L_alt_inv in H1 as [H1|H1]; [|apply L_alt_inv in H1 as [H1|H1]].
    + apply (L_delimited _ _ _ _ slash_ok) in H1 as [x [Hx ->]]. exists (mk_rl "/" x l). split; [|reflexivity].
      split; [now left|exact Hx].
    + apply (L_delimited _ _ _ _ apostrophe_ok) in H1 as [x [Hx ->]]. exists (mk_rl apostrophe x l). split; [|reflexivity].
      split; [now right; left|exact Hx].
    + apply (L_delimited _ _ _ _ quote_ok) in H1 as [x [Hx ->]]. exists (mk_rl quote x l). split; [|reflexivity].
      split; [now right; right; left|exact Hx].
  - intros [[m x l] [[Hm Hx] ->]]. unfold w_regex, w_regex_body. cbn [rl_mark rl_body rl_flags] in *. cbn [cats alts].
    apply L_cat; [|apply L_cat; [apply L_flags; eauto|constructor]].
    destruct Hm as [<-|[<-|[<-|[]]]].
    + rewrite Ascii.eqb_refl. apply L_left. apply (L_delimited _ _ _ _ slash_ok). eauto.
    + change (Ascii.eqb apostrophe "/") with false. rewrite Ascii.eqb_refl. apply L_right, L_left.
      apply (L_delimited _ _ _ _ apostrophe_ok). eauto.
    + change (Ascii.eqb quote "/") with false. change (Ascii.eqb quote apostrophe) with false. apply L_right, L_right.
      apply (L_delimited _ _ _ _ quote_ok). eauto.
Qed.

Definition w_nth (n : nth_lit) : list item :=
  match n with
  | NthEven => chs (s "even") ++ [IAct 12]
  | NthOdd => chs (s "odd") ++ [IAct 13]
  | NthNumber m ds => IAct 14 :: chs (minus_text m) ++ chs ds ++ [IAct 15]
  | NthStep m ds => IAct 14 :: chs (minus_text m) ++ chs ds ++ [IAct 15; IChr "n"%char; IAct 16]
  | NthStepShift m ds m' ds' =>
      IAct 14 :: chs (minus_text m) ++ chs ds ++ IAct 15 :: IChr "n"%char :: IAct 16 :: IAct 17 ::
      chs (sign_text m') ++ chs ds' ++ [IAct 18]
  end.

Lemma L_minus w : L (opt (chr "-")) w <-> exists m, w = chs (minus_text m).
Proof.
  split; [intros H; L_inv; [now exists true|now exists false]|]. intros [[|] ->]; [apply L_left, L_chr|apply L_right; constructor].
Qed.
Lemma L_sign w : L (Alt (chr "+") (chr "-")) w <-> exists m, w = chs (sign_text m).
Proof.
  split; [intros H; L_inv; [now exists false|now exists true]|]. intros [[|] ->]; [apply L_right, L_chr|apply L_left, L_chr].
Qed.

Lemma L_nth w : L g_nth w <-> exists n, nth_ok n /\ w = w_nth n.
Proof.
  unfold g_nth. split.
  - intros H. cbn [alts] in H. apply L_alt_inv in H as [H|H]; [|apply L_alt_inv in H as [H|H]].
    + L_inv. exists NthEven. split; [exact I|reflexivity].
    + L_inv. exists NthOdd. split; [exact I|reflexivity].
    + cbn [cats] in H. apply L_cat_inv in H as [u [v [-> [H1 H]]]]. apply L_act_inv in H1 as ->.
      apply L_cat_inv in H as [u2 [v2 [-> [H2 H]]]]. apply L_minus in H2 as [m ->].
      apply L_cat_inv in H as [u3 [v3 [-> [H3 H]]]]. apply L_digits in H3 as [ds [Hds ->]].
      apply L_cat_inv in H as [u4 [v4 [-> [H4 H]]]]. apply L_act_inv in H4 as ->.
      unfold opt in H at 1. apply L_alt_inv in H as [H|H]; [|L_inv; exists (NthNumber m ds); split; [exact Hds|reflexivity]].
      apply L_cat_inv in H as [u5 [v5 [-> [H5 H]]]]. apply L_chr_inv in H5 as ->.
      apply L_cat_inv in H as [u6 [v6 [-> [H6 H]]]]. apply L_act_inv in H6 as ->.
      unfold opt in H at 1. apply L_alt_inv in H as [H|H]; [|L_inv; exists (NthStep m ds); split; [exact Hds|reflexivity]].
      apply L_cat_inv in H as [u7 [v7 [-> [H7 H]]]]. apply L_act_inv in H7 as ->.
      apply L_cat_inv in H as [u8 [v8 [-> [H8 H]]]]. apply L_sign in H8 as [m' ->].
      apply L_cat_inv in H as [u9 [v9 [-> [H9 H]]]]. apply L_digits in H9 as [ds' [Hds' ->]]. apply L_act_inv in H as ->.
      exists (NthStepShift m ds m' ds'). split; [split; assumption|reflexivity].
  - intros [n [Hn ->]]. cbn [alts cats]. destruct n as [| |m ds|m ds|m ds m' ds']; cbn [w_nth nth_ok] in *.
    + apply L_left, L_cat_lit. constructor.
    + apply L_right, L_left, L_cat_lit. constructor.
    + apply L_right, L_right, L_cat_act, L_cat; [apply L_minus; eauto|]. apply L_cat; [apply L_digits; eauto|].
      apply L_cat_act. apply L_right. constructor.
    + apply L_right, L_right, L_cat_act, L_cat; [apply L_minus; eauto|]. apply L_cat; [apply L_digits; eauto|].
      apply L_cat_act. apply L_left, L_cat_chr, L_cat_act, L_right. constructor.
    + destruct Hn as [Hn Hn']. apply L_right, L_right, L_cat_act, L_cat; [apply L_minus; eauto|]. apply L_cat; [apply L_digits; eauto|].
      apply L_cat_act. apply L_left, L_cat_chr, L_cat_act, L_left, L_cat_act. apply L_cat; [apply L_sign; eauto|].
      apply L_cat; [apply L_digits; eauto|]. constructor.
Qed.

(** ** Traits *)

Definition w_trait (t : trait) : list item :=
  IChr ":"%char ::
  match t with
  | TrEmpty => chs (s "empty") ++ [IAct 29]
  | TrChildCount ds => chs (s "child-count(") ++ IAct 30 :: chs ds ++ [IAct 31; IChr ")"%char]
  | TrAttributeCount ds => chs (s "attribute-count(") ++ IAct 32 :: chs ds ++ [IAct 33; IChr ")"%char]
  | TrNth true false n => chs (s "nth-child(") ++ w_nth n ++ [IChr ")"%char; IAct 34]
  | TrNth false false n => chs (s "nth-last-child(") ++ w_nth n ++ [IChr ")"%char; IAct 35]
  | TrNth true true n => chs (s "nth-of-type(") ++ w_nth n ++ [IChr ")"%char; IAct 36]
  | TrNth false true n => chs (s "nth-last-of-type(") ++ w_nth n ++ [IChr ")"%char; IAct 41]
  | TrEnd true false => chs (s "first-child") ++ [IAct 37]
  | TrEnd true true => chs (s "first-of-type") ++ [IAct 38]
  | TrEnd false false => chs (s "last-child") ++ [IAct 39]
  | TrEnd false true => chs (s "last-of-type") ++ [IAct 40]
  | TrOnly false => chs (s "only-child") ++ [IAct 42]
  | TrOnly true => chs (s "only-of-type") ++ [IAct 43]
  | TrTypeMatches r => chs (s "type-matches(") ++ w_regex r ++ [IChr ")"%char; IAct 44]
  end.

Lemma L_plain name a w : L (g_plain name a) w <-> w = chs name ++ [IAct a].
Proof. unfold g_plain. split; [intros H; L_inv; reflexivity|intros ->; apply L_cat_lit; constructor]. Qed.
Lemma L_count name a b w : L (g_count name a b) w <->
  exists ds, is_digits ds /\ w = chs name ++ IAct a :: chs ds ++ [IAct b; IChr ")"%char].
Proof.
  unfold g_count. cbn [cats]. split.
  - intros H. apply L_cat_inv in H as [u [v [-> [H1 H]]]]. apply L_lit_inv in H1 as ->.
    apply L_cat_inv in H as [u2 [v2 [-> [H2 H]]]]. apply L_act_inv in H2 as ->.
    apply L_cat_inv in H as [u3 [v3 [-> [H3 H]]]]. apply L_digits in H3 as [ds [Hds ->]]. L_inv. eauto.
  - intros [ds [Hds ->]]. apply L_cat_lit, L_cat_act, L_cat; [apply L_digits; eauto|]. apply L_cat_act, L_chr.
Qed.
Lemma L_nth_trait name a w : L (g_nth_trait name a) w <->
  exists n, nth_ok n /\ w = chs name ++ w_nth n ++ [IChr ")"%char; IAct a].
Proof.
  unfold g_nth_trait. cbn [cats]. split.
  - intros H. apply L_cat_inv in H as [u [v [-> [H1 H]]]]. apply L_lit_inv in H1 as ->.
    apply L_cat_inv in H as [u2 [v2 [-> [H2 H]]]]. apply L_nth in H2 as [n [Hn ->]]. L_inv. eauto.
  - intros [n [Hn ->]]. apply L_cat_lit, L_cat; [apply L_nth; eauto|]. apply L_cat_chr. constructor.
Qed.

Ltac one_of H := first [apply L_alt_inv in H as [H|H]; [|one_of H]|idtac].

Lemma L_trait w : L g_trait w <-> exists t, trait_ok t /\ w = w_trait t.
Proof.
  unfold g_trait. split.
  - intros H. apply L_cat_inv in H as [u [v [-> [H1 H]]]]. apply L_chr_inv in H1 as ->. cbn [alts] in H.
    apply L_alt_inv in H as [H|H]; [apply L_plain in H as ->; exists TrEmpty; split; [exact I|reflexivity]|].
    apply L_alt_inv in H as [H|H]; [apply L_count in H as [ds [Hd ->]]; exists (TrChildCount ds); split; [exact Hd|reflexivity]|].
    apply L_alt_inv in H as [H|H]; [apply L_count in H as [ds [Hd ->]]; exists (TrAttributeCount ds); split; [exact Hd|reflexivity]|].
    apply L_alt_inv in H as [H|H]; [apply L_nth_trait in H as [n [Hn ->]]; exists (TrNth true false n); split; [exact Hn|reflexivity]|].
    apply L_alt_inv in H as [H|H]; [apply L_nth_trait in H as [n [Hn ->]]; exists (TrNth false false n); split; [exact Hn|reflexivity]|].
    apply L_alt_inv in H as [H|H]; [apply L_nth_trait in H as [n [Hn ->]]; exists (TrNth true true n); split; [exact Hn|reflexivity]|].
    apply L_alt_inv in H as [H|H]; [apply L_plain in H as ->; exists (TrEnd true false); split; [exact I|reflexivity]|].
    apply L_alt_inv in H as [H|H]; [apply L_plain in H as ->; exists (TrEnd true true); split; [exact I|reflexivity]|].
    apply L_alt_inv in H as [H|H]; [apply L_plain in H as ->; exists (TrEnd false false); split; [exact I|reflexivity]|].
    apply L_alt_inv in H as [H|H]; [apply L_plain in H as ->; exists (TrEnd false true); split; [exact I|reflexivity]|].
    apply L_alt_inv in H as [H|H]; [apply L_nth_trait in H as [n [Hn ->]]; exists (TrNth false true n); split; [exact Hn|reflexivity]|].
    apply L_alt_inv in H as [H|H]; [apply L_plain in H as ->; exists (TrOnly false); split; [exact I|reflexivity]|].
    apply L_alt_inv in H as [H|H]; [apply L_plain in H as ->; exists (TrOnly true); split; [exact I|reflexivity]|].
    cbn [cats] in H. apply L_cat_inv in H as [u1 [v1 [-> [H1 H]]]]. apply L_lit_inv in H1 as ->.
    apply L_cat_inv in H as [u2 [v2 [-> [H2 H]]]]. apply L_regex in H2 as [r [Hr ->]]. L_inv.
    exists (TrTypeMatches r). split; [exact Hr|reflexivity].
  - intros [t [Ht ->]]. unfold w_trait. apply L_cat_chr. cbn [alts].
    destruct t as [|ds|ds|f o n|f o|o|r]; cbn [trait_ok] in Ht.
    + apply L_left. now apply L_plain.
    + apply L_right, L_left. apply L_count. eauto.
    + do 2 apply L_right. apply L_left. apply L_count. eauto.
    + destruct f, o; [do 5 apply L_right|do 3 apply L_right|do 10 apply L_right|do 4 apply L_right]; apply L_left; apply L_nth_trait; eauto.
    + destruct f, o; [do 7 apply L_right|do 6 apply L_right|do 9 apply L_right|do 8 apply L_right]; apply L_left; now apply L_plain.
    + destruct o; [do 12 apply L_right|do 11 apply L_right]; apply L_left; now apply L_plain.
    + do 13 apply L_right. cbn [cats]. apply L_cat_lit, L_cat; [apply L_regex; eauto|]. apply L_cat_chr. constructor.
Qed.

Definition w_not_part (t : trait) : list item := w_trait t ++ [IAct 46].
Definition w_condition (c : condition) : list item :=
  match c with
  | Is t => w_trait t ++ [IAct 82]
  | IsNot t ts => chs (s ":not(") ++ IAct 45 :: w_not_part t ++ flat_map w_not_part ts ++ [IChr ")"%char; IAct 81]
  end.

Lemma L_not_part w : L (Cat g_trait (Act 46)) w <-> exists t, trait_ok t /\ w = w_not_part t.
Proof.
  split.
  - intros H. apply L_cat_inv in H as [u [v [-> [H1 H]]]]. apply L_trait in H1 as [t [Ht ->]]. L_inv. exists t. auto.
  - intros [t [Ht ->]]. apply L_cat; [apply L_trait; eauto|constructor].
Qed.

Lemma L_condition w : L (Alt (Cat g_not_trait (Act 81)) (Cat g_trait (Act 82))) w <-> exists c, condition_ok c /\ w = w_condition c.
Proof.
  split.
  - intros H. apply L_alt_inv in H as [H|H].
    + apply L_cat_inv in H as [u [v [-> [H1 H]]]]. apply L_act_inv in H as ->. unfold g_not_trait in H1. cbn [cats] in H1.
      apply L_cat_inv in H1 as [u2 [v2 [-> [H2 H]]]]. apply L_lit_inv in H2 as ->.
      apply L_cat_inv in H as [u3 [v3 [-> [H3 H]]]]. apply L_act_inv in H3 as ->.
      apply L_cat_inv in H as [u4 [v4 [-> [H4 H]]]]. apply L_chr_inv in H as ->.
      apply L_plus_inv in H4 as [u5 [v5 [-> [H5 H6]]]]. apply L_not_part in H5 as [t [Ht ->]].
      apply (L_star_list _ _ _ L_not_part) in H6 as [ts [Hts ->]]. exists (IsNot t ts). split; [split; assumption|].
      cbn [w_condition]. rewrite <- !app_assoc. reflexivity.
    + apply L_cat_inv in H as [u [v [-> [H1 H]]]]. apply L_trait in H1 as [t [Ht ->]]. L_inv. exists (Is t). auto.
  - intros [c [Hc ->]]. destruct c as [t|t ts]; cbn [condition_ok w_condition] in *.
    + apply L_right, L_cat; [apply L_trait; eauto|constructor].
    + apply L_left. destruct Hc as [Ht Hts].
      replace (chs (s ":not(") ++ IAct 45 :: w_not_part t ++ flat_map w_not_part ts ++ [IChr ")"%char; IAct 81])
        with ((chs (s ":not(") ++ IAct 45 :: (w_not_part t ++ flat_map w_not_part ts) ++ [IChr ")"%char]) ++ [IAct 81]).
      2:{ rewrite <- !app_assoc. cbn [app]. now rewrite <- !app_assoc. }
      apply L_cat; [|constructor]. unfold g_not_trait. cbn [cats]. apply L_cat_lit, L_cat_act, L_cat; [|apply L_chr].
      constructor; [apply L_not_part; eauto|]. apply (L_star_list _ _ _ L_not_part). eauto.
Qed.

(** ** Patterns *)

Definition w_builtin (b : builtin) : list item :=
  chs (builtin_text b) ++ [IAct (match b with BText => 47 | BInnerHtml => 48 | BStripTags => 49 end)].

Lemma L_builtin w : L g_builtin w <-> exists b, w = w_builtin b.
Proof.
  unfold g_builtin. split.
  - intros H. apply L_cat_inv in H as [u [v [-> [H1 H]]]]. apply L_chr_inv in H1 as ->. cbn [alts] in H.
    apply L_alt_inv in H as [H|H]; [|apply L_alt_inv in H as [H|H]]; apply L_plain in H as ->.
    + now exists BText. + now exists BInnerHtml. + now exists BStripTags.
  - intros [b ->]. cbn [alts]. destruct b; unfold w_builtin; cbn [builtin_text]; apply L_cat_chr.
    + apply L_left. now apply L_plain. + apply L_right, L_left. now apply L_plain. + apply L_right, L_right. now apply L_plain.
Qed.

Definition w_pipe (p : pipe_lit) : list item :=
  IChr ":"%char :: IAct 60 ::
  match p with
  | PlTrim => chs (s "trim") ++ [IAct 50]
  | PlTrimAny q => chs (s "trim(") ++ w_quoted 8 q ++ [IChr ")"%char; IAct 51]
  | PlCollapse => chs (s "collapsews") ++ [IAct 52]
  | PlLower => chs (s "tolower") ++ [IAct 53]
  | PlUpper => chs (s "toupper") ++ [IAct 54]
  | PlPrepend q => chs (s "prepend(") ++ w_quoted 8 q ++ [IChr ")"%char; IAct 55]
  | PlAppend q => chs (s "append(") ++ w_quoted 8 q ++ [IChr ")"%char; IAct 56]
  | PlFilter r => chs (s "filter(") ++ w_regex r ++ [IChr ")"%char; IAct 57]
  | PlReplace r sp sp' q =>
      chs (s "replace(") ++ w_regex r ++ chs sp ++ IChr ","%char :: chs sp' ++ w_quoted 4 q ++ [IChr ")"%char; IAct 58]
  end.

Lemma L_pipe_arg name a w : L (g_pipe_arg name a) w <->
  exists q, quoted_ok q /\ w = chs name ++ w_quoted 8 q ++ [IChr ")"%char; IAct a].
Proof.
  unfold g_pipe_arg. cbn [cats]. split.
  - intros H. apply L_cat_inv in H as [u [v [-> [H1 H]]]]. apply L_lit_inv in H1 as ->.
    apply L_cat_inv in H as [u2 [v2 [-> [H2 H]]]]. apply L_quoted in H2 as [q [Hq ->]]. L_inv. eauto.
  - intros [q [Hq ->]]. apply L_cat_lit, L_cat; [apply L_quoted; eauto|]. apply L_cat_chr. constructor.
Qed.

Lemma L_pipe w : L (g_pipe (Act 60)) w <-> exists p, pipe_ok p /\ w = w_pipe p.
Proof.
  unfold g_pipe. cbn [cats]. split.
  - intros H. apply L_cat_inv in H as [u [v [-> [H1 H]]]]. apply L_chr_inv in H1 as ->.
    apply L_cat_inv in H as [u0 [v0 [-> [H1 H]]]]. apply L_act_inv in H1 as ->. cbn [alts] in H.
    apply L_alt_inv in H as [H|H]; [apply L_plain in H as ->; exists PlTrim; split; [exact I|reflexivity]|].
    apply L_alt_inv in H as [H|H]; [apply L_pipe_arg in H as [q [Hq ->]]; exists (PlTrimAny q); split; [exact Hq|reflexivity]|].
    apply L_alt_inv in H as [H|H]; [apply L_plain in H as ->; exists PlCollapse; split; [exact I|reflexivity]|].
    apply L_alt_inv in H as [H|H]; [apply L_plain in H as ->; exists PlLower; split; [exact I|reflexivity]|].
    apply L_alt_inv in H as [H|H]; [apply L_plain in H as ->; exists PlUpper; split; [exact I|reflexivity]|].
    apply L_alt_inv in H as [H|H]; [apply L_pipe_arg in H as [q [Hq ->]]; exists (PlPrepend q); split; [exact Hq|reflexivity]|].
    apply L_alt_inv in H as [H|H]; [apply L_pipe_arg in H as [q [Hq ->]]; exists (PlAppend q); split; [exact Hq|reflexivity]|].
    apply L_alt_inv in H as [H|H].
    + apply L_cat_inv in H as [u1 [v1 [-> [H1 H]]]]. apply L_lit_inv in H1 as ->.
      apply L_cat_inv in H as [u2 [v2 [-> [H2 H]]]]. apply L_regex in H2 as [r [Hr ->]]. L_inv.
      exists (PlFilter r). split; [exact Hr|reflexivity].
    + apply L_cat_inv in H as [u1 [v1 [-> [H1 H]]]]. apply L_lit_inv in H1 as ->.
      apply L_cat_inv in H as [u2 [v2 [-> [H2 H]]]]. apply L_regex in H2 as [r [Hr ->]].
      apply L_cat_inv in H as [u3 [v3 [-> [H3 H]]]]. apply L_spaces in H3 as [sp [Hsp ->]].
      apply L_cat_inv in H as [u4 [v4 [-> [H4 H]]]]. apply L_chr_inv in H4 as ->.
      apply L_cat_inv in H as [u5 [v5 [-> [H5 H]]]]. apply L_spaces in H5 as [sp' [Hsp' ->]].
      apply L_cat_inv in H as [u6 [v6 [-> [H6 H]]]]. apply L_opt_quoted in H6 as [q [Hq ->]]. L_inv.
      exists (PlReplace r sp sp' q). split; [repeat split; auto; apply Hr || apply Hq|reflexivity].
  - intros [p [Hp ->]]. unfold w_pipe. apply L_cat_chr, L_cat_act. cbn [alts].
    destruct p as [|q| | | |q|q|r|r sp sp' q]; cbn [pipe_ok] in Hp.
    + apply L_left. now apply L_plain.
    + do 1 apply L_right. apply L_left. apply L_pipe_arg. eauto.
    + do 2 apply L_right. apply L_left. now apply L_plain.
    + do 3 apply L_right. apply L_left. now apply L_plain.
    + do 4 apply L_right. apply L_left. now apply L_plain.
    + do 5 apply L_right. apply L_left. apply L_pipe_arg. eauto.
    + do 6 apply L_right. apply L_left. apply L_pipe_arg. eauto.
    + do 7 apply L_right. apply L_left. apply L_cat_lit, L_cat; [apply L_regex; eauto|]. apply L_cat_chr. constructor.
    + destruct Hp as [Hr [Hs [Hs' Hq]]]. do 8 apply L_right. apply L_cat_lit, L_cat; [apply L_regex; eauto|].
      apply L_cat; [apply L_spaces; eauto|]. apply L_cat_chr, L_cat; [apply L_spaces; eauto|].
      apply L_cat; [apply L_opt_quoted; eauto|]. apply L_cat_chr. constructor.
Qed.

Definition w_cap_name (n : cap_name) : list item :=
  match n with CQuoted q => w_quoted 8 q ++ [IAct 59] | CPlain x => IAct 60 :: chs x ++ [IAct 61] end.
Definition w_capture (ps : list pipe_lit) (n : cap_name) : list item :=
  flat_map w_pipe ps ++ IChr ":"%char :: w_cap_name n.

Lemma L_capture w : L (g_capture (Act 60)) w <->
  exists ps n, Forall pipe_ok ps /\ cap_name_ok n /\ w = w_capture ps n.
Proof.
  unfold g_capture. cbn [cats]. split.
  - intros H. apply L_cat_inv in H as [u [v [-> [H1 H]]]]. apply (L_star_list _ _ _ L_pipe) in H1 as [ps [Hps ->]].
    apply L_cat_inv in H as [u0 [v0 [-> [H1 H]]]]. apply L_chr_inv in H1 as ->. apply L_alt_inv in H as [H|H].
    + apply L_cat_inv in H as [u1 [v1 [-> [H1 H]]]]. apply L_quoted in H1 as [q [Hq ->]]. L_inv.
      exists ps, (CQuoted q). repeat split; auto; apply Hq.
    + apply L_cat_inv in H as [u1 [v1 [-> [H1 H]]]]. apply L_act_inv in H1 as ->.
      apply L_cat_inv in H as [u2 [v2 [-> [H2 H]]]]. apply (L_plus_sym _ _ is_var_mask) in H2 as [x [Hx [Hx' ->]]]. L_inv.
      exists ps, (CPlain x). repeat split; auto.
  - intros [ps [n [Hps [Hn ->]]]]. unfold w_capture. apply L_cat; [apply (L_star_list _ _ _ L_pipe); eauto|]. apply L_cat_chr.
    destruct n as [q|x]; cbn [w_cap_name cap_name_ok] in *.
    + apply L_left, L_cat; [apply L_quoted; eauto|constructor].
    + apply L_right, L_cat_act, L_cat; [|constructor]. apply (L_plus_sym _ _ is_var_mask). exists x. tauto.
Qed.

(** The operator == has other actions for its literal. *)
Definition w_literal_test (o : operator) (q : quoted) : list item :=
  chs (operator_text o) ++
  match o with
  | Words => w_quoted 8 q ++ [IAct 62]
  | Equals => w_quoted 4 q ++ [IAct 63]
  | Begins => w_quoted 8 q ++ [IAct 64]
  | Contains => w_quoted 8 q ++ [IAct 65]
  | Ends => w_quoted 8 q ++ [IAct 66]
  end.

Lemma L_match_arg w : L g_match_arg w <-> exists o q, quoted_ok q /\ w = w_literal_test o q.
Proof.
  unfold g_match_arg. cbn [alts cats]. split.
  - intros H.
    apply L_alt_inv in H as [H|H]; [|apply L_alt_inv in H as [H|H]; [|apply L_alt_inv in H as [H|H];
      [|apply L_alt_inv in H as [H|H]]]];
    apply L_cat_inv in H as [u1 [v1 [-> [H1 H]]]];
    apply L_cat_inv in H as [u2 [v2 [-> [H2 H]]]]; apply L_act_inv in H as ->;
    first [apply L_quoted in H2 as [q [Hq ->]]|apply L_opt_quoted in H2 as [q [Hq ->]]];
    first [apply L_chr_inv in H1 as ->|apply L_lit_inv in H1 as ->].
    + now exists Words, q.
    + now exists Equals, q.
    + now exists Begins, q.
    + now exists Contains, q.
    + now exists Ends, q.
  - intros [o [q [Hq ->]]]. unfold w_literal_test. destruct o; cbn [operator_text].
    + apply L_left, L_cat_chr, L_cat; [apply L_quoted; eauto|constructor].
    + do 1 apply L_right. apply L_left, L_cat_lit, L_cat; [apply L_opt_quoted; eauto|constructor].
    + do 2 apply L_right. apply L_left, L_cat_lit, L_cat; [apply L_quoted; eauto|constructor].
    + do 3 apply L_right. apply L_left, L_cat_lit, L_cat; [apply L_quoted; eauto|constructor].
    + do 4 apply L_right. apply L_cat_lit, L_cat; [apply L_quoted; eauto|constructor].
Qed.

Definition w_regex_test (r : regex_lit) : list item := chs (s "=~") ++ w_regex r ++ [IAct 28].
Definition w_negate (ng : bool) : list item := if ng then [IChr "!"%char; IAct 1] else [].
Definition w_optional (o : bool) : list item := if o then [IChr "?"%char; IAct 0] else [].
Definition w_attr_name (a : str) : list item := IAct 2 :: chs a ++ [IAct 3].

Lemma L_negate w : L (opt g_negate) w <-> exists ng, w = w_negate ng.
Proof.
  unfold g_negate. split; [intros H; L_inv; [now exists true|now exists false]|].
  intros [[|] ->]; [apply L_left, L_cat_chr; constructor|apply L_right; constructor].
Qed.
Lemma L_optional w : L (opt g_optional) w <-> exists o, w = w_optional o.
Proof.
  unfold g_optional. split; [intros H; L_inv; [now exists true|now exists false]|].
  intros [[|] ->]; [apply L_left, L_cat_chr; constructor|apply L_right; constructor].
Qed.
Lemma L_attr_name w : L g_attr_name w <-> exists a, is_name a /\ w = w_attr_name a.
Proof.
  unfold g_attr_name. cbn [cats]. split.
  - intros H. apply L_cat_inv in H as [u [v [-> [H1 H]]]]. apply L_act_inv in H1 as ->.
    apply L_cat_inv in H as [u1 [v1 [-> [H1 H]]]]. apply L_name in H1 as [a [Ha ->]]. L_inv. now exists a.
  - intros [a [Ha ->]]. apply L_cat_act, L_cat; [apply L_name; eauto|constructor].
Qed.

Definition w_test (v : value_test) : list item :=
  match v with VRegex r => w_regex_test r | VLiteral o q => w_literal_test o q end.
Definition w_pattern (p : pattern) : list item :=
  match p with
  | PBuiltinCapture b ps n => w_builtin b ++ w_capture ps n ++ [IAct 67; IAct 75]
  | PBuiltinMatch b v ng =>
      w_builtin b ++ w_test v ++ w_negate ng ++ [IAct (match v with VRegex _ => 68 | _ => 69 end); IAct 75]
  | PAttrCapture a ps n o => w_attr_name a ++ w_capture ps n ++ w_optional o ++ [IAct 70; IAct 75]
  | PAttrMatch a v ng =>
      w_attr_name a ++ w_test v ++ w_negate ng ++ [IAct (match v with VRegex _ => 71 | _ => 72 end); IAct 75]
  | PAttr a ng => w_attr_name a ++ IAct 73 :: w_negate ng ++ [IAct 74; IAct 75]
  end.

Lemma regex_test_split r w : L (Cat (lit (s "=~")) (Cat g_regex_test r)) w <->
  exists rl v, regex_ok rl /\ w = w_regex_test rl ++ v /\ L r v.
Proof.
  unfold g_regex_test, w_regex_test. split.
  - intros H. apply L_cat_inv in H as [u [v [-> [H1 H]]]]. apply L_lit_inv in H1 as ->.
    apply L_cat_inv in H as [u1 [v1 [-> [H1 H]]]]. apply L_cat_inv in H1 as [u2 [v2 [-> [H1 H2]]]]. apply L_act_inv in H2 as ->.
    apply L_regex in H1 as [rl [Hr ->]]. exists rl, v1. split; [exact Hr|]. split; [|exact H]. now rewrite <- !app_assoc.
  - intros [rl [v [Hr [-> H]]]]. rewrite <- app_assoc. apply L_cat_lit. apply L_cat; [|exact H].
    apply L_cat; [apply L_regex; eauto|constructor].
Qed.

Lemma L_pattern_body w : L (g_pattern_body (Act 60)) w <-> exists p, pattern_ok p /\ w = w_pattern p.
Proof.
  unfold g_pattern_body. split.
  - intros H. apply L_cat_inv in H as [u [v [-> [H H0]]]]. apply L_act_inv in H0 as ->. cbn [alts cats] in H.
    apply L_alt_inv in H as [H|H]; [|apply L_alt_inv in H as [H|H]; [|apply L_alt_inv in H as [H|H];
      [|apply L_alt_inv in H as [H|H]; [|apply L_alt_inv in H as [H|H]; [|apply L_alt_inv in H as [H|H]]]]]];
    apply L_cat_inv in H as [u1 [v1 [-> [H1 H]]]];
    first [apply L_builtin in H1 as [b ->]|apply L_attr_name in H1 as [a [Ha ->]]].
    + apply L_cat_inv in H as [u2 [v2 [-> [H2 H]]]]. apply L_capture in H2 as [ps [n [Hps [Hn ->]]]]. L_inv.
      exists (PBuiltinCapture b ps n). split; [split; assumption|]. cbn [w_pattern]. now rewrite <- !app_assoc.
    + apply regex_test_split in H as [r [v [Hr [-> H]]]]. apply L_cat_inv in H as [u3 [v3 [-> [H3 H]]]]. apply L_negate in H3 as [ng ->]. L_inv.
      exists (PBuiltinMatch b (VRegex r) ng). split; [exact Hr|]. cbn [w_pattern w_test]. now rewrite <- !app_assoc.
    + apply L_cat_inv in H as [u2 [v2 [-> [H2 H]]]]. apply L_match_arg in H2 as [o [q [Hq ->]]].
      apply L_cat_inv in H as [u3 [v3 [-> [H3 H]]]]. apply L_negate in H3 as [ng ->]. L_inv.
      exists (PBuiltinMatch b (VLiteral o q) ng). split; [exact Hq|]. cbn [w_pattern w_test]. now rewrite <- !app_assoc.
    + apply L_cat_inv in H as [u2 [v2 [-> [H2 H]]]]. apply L_capture in H2 as [ps [n [Hps [Hn ->]]]].
      apply L_cat_inv in H as [u3 [v3 [-> [H3 H]]]]. apply L_optional in H3 as [o ->]. L_inv.
      exists (PAttrCapture a ps n o). split; [repeat split; assumption|]. cbn [w_pattern]. now rewrite <- !app_assoc.
    + apply regex_test_split in H as [r [v [Hr [-> H]]]]. apply L_cat_inv in H as [u3 [v3 [-> [H3 H]]]]. apply L_negate in H3 as [ng ->]. L_inv.
      exists (PAttrMatch a (VRegex r) ng). split; [split; assumption|]. cbn [w_pattern w_test]. now rewrite <- !app_assoc.
    + apply L_cat_inv in H as [u2 [v2 [-> [H2 H]]]]. apply L_match_arg in H2 as [o [q [Hq ->]]].
      apply L_cat_inv in H as [u3 [v3 [-> [H3 H]]]]. apply L_negate in H3 as [ng ->]. L_inv.
      exists (PAttrMatch a (VLiteral o q) ng). split; [split; assumption|]. cbn [w_pattern w_test]. now rewrite <- !app_assoc.
    + apply L_cat_inv in H as [u2 [v2 [-> [H2 H]]]]. apply L_act_inv in H2 as ->.
      apply L_cat_inv in H as [u3 [v3 [-> [H3 H]]]]. apply L_negate in H3 as [ng ->]. L_inv.
      exists (PAttr a ng). split; [assumption|]. cbn [w_pattern]. rewrite <- !app_assoc. reflexivity.
  - intros [p [Hp ->]]. cbn [alts cats].
    assert (HA : forall r w a, L r (w ++ [IAct a]) -> L (Cat r (Act 75)) (w ++ [IAct a; IAct 75])).
    { intros r w a H. replace (w ++ [IAct a; IAct 75]) with ((w ++ [IAct a]) ++ [IAct 75]) by now rewrite <- app_assoc.
      apply L_cat; [exact H|constructor]. }
    destruct p as [b ps n|b v ng|a ps n o|a v ng|a ng]; cbn [w_pattern pattern_ok] in *.
    + rewrite app_assoc. apply HA. rewrite <- app_assoc. apply L_left. apply L_cat; [apply L_builtin; eauto|].
      apply L_cat; [apply L_capture; exists ps, n; tauto|constructor].
    + rewrite !app_assoc. apply HA. rewrite <- !app_assoc. destruct v as [r|o q]; cbn [w_test value_test_ok] in *.
      * apply L_right, L_left. apply L_cat; [apply L_builtin; eauto|]. apply regex_test_split.
        exists r, (w_negate ng ++ [IAct 68]). split; [exact Hp|]. split; [reflexivity|]. apply L_cat; [apply L_negate; eauto|constructor].
      * apply L_right, L_right, L_left. apply L_cat; [apply L_builtin; eauto|]. apply L_cat; [apply L_match_arg; eauto|].
        apply L_cat; [apply L_negate; eauto|constructor].
    + rewrite !app_assoc. apply HA. rewrite <- !app_assoc. do 3 apply L_right. apply L_left. apply L_cat; [apply L_attr_name; exists a; tauto|].
      apply L_cat; [apply L_capture; exists ps, n; tauto|]. apply L_cat; [apply L_optional; eauto|constructor].
    + rewrite !app_assoc. apply HA. rewrite <- !app_assoc. destruct Hp as [Ha Hp]. destruct v as [r|o q]; cbn [w_test value_test_ok] in *.
      * do 4 apply L_right. apply L_left. apply L_cat; [apply L_attr_name; eauto|]. apply regex_test_split.
        exists r, (w_negate ng ++ [IAct 71]). split; [exact Hp|]. split; [reflexivity|]. apply L_cat; [apply L_negate; eauto|constructor].
      * do 5 apply L_right. apply L_left. apply L_cat; [apply L_attr_name; eauto|]. apply L_cat; [apply L_match_arg; eauto|].
        apply L_cat; [apply L_negate; eauto|constructor].
    + replace (w_attr_name a ++ IAct 73 :: w_negate ng ++ [IAct 74; IAct 75])
        with ((w_attr_name a ++ IAct 73 :: w_negate ng) ++ [IAct 74; IAct 75]) by now rewrite <- app_assoc.
      apply HA. rewrite <- app_assoc. do 6 apply L_right. apply L_cat; [apply L_attr_name; eauto|].
      cbn [app]. apply L_cat_act, L_cat; [apply L_negate; eauto|constructor].
Qed.

Definition spaced_ok (sp : str * pattern) : Prop := fst sp <> [] /\ spaces_only (fst sp) /\ pattern_ok (snd sp).
Definition w_spaced (sp : str * pattern) : list item := chs (fst sp) ++ w_pattern (snd sp).

Lemma L_pattern w : L (g_pattern (Act 60)) w <-> exists sp, spaced_ok sp /\ w = w_spaced sp.
Proof.
  unfold g_pattern. split.
  - intros H. apply L_cat_inv in H as [u [v [-> [H H0]]]]. apply (L_plus_sym _ _ is_space_mask) in H as [x [Hx [Hx' ->]]].
    apply L_pattern_body in H0 as [p [Hp ->]]. exists (x, p). repeat split; auto.
  - intros [[x p] [[Hx [Hx' Hp]] ->]]. apply L_cat; [|apply L_pattern_body; eauto]. apply (L_plus_sym _ _ is_space_mask). eauto.
Qed.

(** ** Tokens *)

Definition w_option (o : option_mark) : list item :=
  match o with OptOptional => [IChr "?"%char; IAct 77] | OptGreedy => [IChr "+"%char; IAct 78] end.
Definition w_open (h : head) (closed : bool) : list item :=
  IChr "<"%char :: IAct 76 :: flat_map w_option (h_options h) ++ IAct 79 :: chs (h_name h) ++ IAct 80 ::
  flat_map w_condition (h_conditions h) ++ flat_map w_spaced (h_patterns h) ++ chs (h_space h) ++
  (if closed then chs (s "/>") ++ [IAct 83] else [IChr ">"%char]).
Definition w_close (name : str) : list item := chs (s "</") ++ IAct 84 :: chs name ++ [IAct 85; IChr ">"%char].

Lemma L_options w : L (Star (Alt (Cat (chr "?") (Act 77)) (Cat (chr "+") (Act 78)))) w <-> exists l, w = flat_map w_option l.
Proof.
  assert (H : forall w, L (Alt (Cat (chr "?") (Act 77)) (Cat (chr "+") (Act 78))) w <-> exists f, True /\ w = w_option f).
  { intros v. split.
    - intros H. L_inv; [exists OptOptional|exists OptGreedy]; auto.
    - intros [f [_ ->]]. destruct f; [apply L_left|apply L_right]; apply L_cat_chr; constructor. }
  rewrite (L_star_list _ _ _ H). split; [intros [l [_ ->]]|intros [l ->]]; exists l; auto. split; [|reflexivity].
  apply Forall_forall. auto.
Qed.

Lemma L_open w : L (g_open (Act 60)) w <-> exists h closed, head_ok h /\ w = w_open h closed.
Proof.
  unfold g_open. cbn [cats]. split.
  - intros H. apply L_cat_inv in H as [u [v [-> [H1 H]]]]. apply L_chr_inv in H1 as ->.
    apply L_cat_inv in H as [u1 [v1 [-> [H1 H]]]]. apply L_act_inv in H1 as ->.
    apply L_cat_inv in H as [u2 [v2 [-> [H1 H]]]]. apply L_options in H1 as [os ->].
    apply L_cat_inv in H as [u3 [v3 [-> [H1 H]]]]. apply L_act_inv in H1 as ->.
    apply L_cat_inv in H as [u4 [v4 [-> [H1 H]]]]. apply L_tag_name in H1 as [name [Hname ->]].
    apply L_cat_inv in H as [u5 [v5 [-> [H1 H]]]]. apply L_act_inv in H1 as ->.
    apply L_cat_inv in H as [u6 [v6 [-> [H1 H]]]]. apply (L_star_list _ _ _ L_condition) in H1 as [cs [Hcs ->]].
    apply L_cat_inv in H as [u7 [v7 [-> [H1 H]]]]. apply (L_star_list _ _ _ L_pattern) in H1 as [ps [Hps ->]].
    apply L_cat_inv in H as [u8 [v8 [-> [H1 H]]]]. apply L_spaces in H1 as [sp [Hsp ->]].
    assert (Hok : head_ok (mk_head os name cs ps sp)) by (repeat split; assumption).
    apply L_alt_inv in H as [H|H]; L_inv; exists (mk_head os name cs ps sp); [exists true|exists false]; (split; [exact Hok|reflexivity]).
  - intros [[os name cs ps sp] [closed [[Hname [Hcs [Hps Hsp]]] ->]]]. cbn [h_options h_name h_conditions h_patterns h_space] in *.
    unfold w_open. cbn [h_options h_name h_conditions h_patterns h_space]. apply L_cat_chr, L_cat_act.
    apply L_cat; [apply L_options; eauto|]. apply L_cat_act, L_cat; [apply L_tag_name; eauto|]. apply L_cat_act.
    apply L_cat; [apply (L_star_list _ _ _ L_condition); eauto|].
    apply L_cat; [apply (L_star_list _ _ _ L_pattern); eauto|]. apply L_cat; [apply L_spaces; eauto|].
    destruct closed; [apply L_left, L_cat_lit; constructor|apply L_right, L_chr].
Qed.

Lemma L_close w : L g_close w <-> exists name, is_tag_name name /\ w = w_close name.
Proof.
  unfold g_close. cbn [cats]. split.
  - intros H. apply L_cat_inv in H as [u [v [-> [H1 H]]]]. apply L_lit_inv in H1 as ->.
    apply L_cat_inv in H as [u1 [v1 [-> [H1 H]]]]. apply L_act_inv in H1 as ->.
    apply L_cat_inv in H as [u4 [v4 [-> [H1 H]]]]. apply L_tag_name in H1 as [name [Hname ->]]. L_inv. exists name. auto.
  - intros [name [Hname ->]]. apply L_cat_lit, L_cat_act, L_cat; [apply L_tag_name; eauto|]. apply L_cat_act, L_chr.
Qed.

Definition w_token (t : token) : list item :=
  match t with
  | TSpace c => [IChr c]
  | TComment x => IChr "#"%char :: chs x ++ [IChr newline]
  | TBegin => [IChr "{"%char; IAct 86]
  | TEnd => [IChr "}"%char; IAct 87]
  | TOpen h closed => w_open h closed
  | TClose name => w_close name
  end.

Lemma L_comment w : L g_comment w <-> exists x, ~ In newline x /\ w = IChr "#"%char :: chs x ++ [IChr newline].
Proof.
  unfold g_comment. cbn [cats].
  assert (HM : forall c, has (any_but Grammar.newline) c = negb (Ascii.eqb newline c)) by (intros c; apply has_any_but).
  split.
  - intros H. apply L_cat_inv in H as [u [v [-> [H1 H]]]]. apply L_chr_inv in H1 as ->.
    apply L_cat_inv in H as [u1 [v1 [-> [H1 H]]]]. apply L_chr_inv in H as ->.
    apply (L_star_sym _ _ HM) in H1 as [x [Hx ->]]. exists x. split; [|reflexivity]. intros Hin. apply Hx in Hin.
    rewrite Ascii.eqb_refl in Hin. discriminate.
  - intros [x [Hx ->]]. apply L_cat_chr, L_cat; [|apply L_chr]. apply (L_star_sym _ _ HM). exists x. split; [|reflexivity].
    intros c Hc. destruct (Ascii.eqb_spec newline c); [subst; contradiction|reflexivity].
Qed.

Lemma L_token w : L (alts [Sym m_space; g_comment; Cat (chr "{") (Act 86); Cat (chr "}") (Act 87); Alt (g_open (Act 60)) g_close]) w <->
  exists t, token_ok t /\ w = w_token t.
Proof.
  cbn [alts]. split.
  - intros H. apply L_alt_inv in H as [H|H].
    { apply L_sym_inv in H as [c [-> H]]. exists (TSpace c). split; [cbn [token_ok]; now rewrite <- is_space_mask|reflexivity]. }
    apply L_alt_inv in H as [H|H]; [apply L_comment in H as [x [Hx ->]]; now exists (TComment x)|].
    apply L_alt_inv in H as [H|H]; [L_inv; now exists TBegin|].
    apply L_alt_inv in H as [H|H]; [L_inv; now exists TEnd|].
    apply L_alt_inv in H as [H|H].
    + apply L_open in H as [h [closed [Hh ->]]]. now exists (TOpen h closed).
    + apply L_close in H as [name [Hn ->]]. now exists (TClose name).
  - intros [t [Ht ->]]. destruct t as [c|x| | |h closed|name]; cbn [token_ok w_token] in *.
    + apply L_left. constructor. now rewrite is_space_mask.
    + apply L_right, L_left, L_comment. eauto.
    + do 2 apply L_right. apply L_left, L_cat_chr. constructor.
    + do 3 apply L_right. apply L_left, L_cat_chr. constructor.
    + do 4 apply L_right. apply L_left, L_open. eauto.
    + do 5 apply L_right. apply L_close. eauto.
Qed.

Theorem L_tokens w : L G_exact w <-> exists ts, Forall token_ok ts /\ w = flat_map w_token ts.
Proof. exact (L_star_list _ _ _ L_token w). Qed.

(** ** The texts of the words *)

Lemma chars_cons_chr c w : chars (IChr c :: w) = c :: chars w. Proof. reflexivity. Qed.
Lemma chars_cons_act a w : chars (IAct a :: w) = chars w. Proof. reflexivity. Qed.
Lemma chars_nil : chars [] = []. Proof. reflexivity. Qed.

#[local] Hint Rewrite chars_app chars_chs chars_cons_chr chars_cons_act chars_nil app_nil_r : chars.

Lemma chars_flat {A} (f : A -> list item) (g : A -> str) l : (forall a, In a l -> chars (f a) = g a) -> chars (flat_map f l) = flat_map g l.
Proof.
  induction l as [|a l IH]; intros H; [reflexivity|]. cbn [flat_map]. rewrite chars_app, (H a) by now left. f_equal. apply IH.
  intros b Hb. apply H. now right.
Qed.

Lemma chars_delimited q a b x : chars (w_delimited q a b x) = q :: x ++ [q].
Proof. unfold w_delimited. now autorewrite with chars. Qed.

Lemma chars_quoted a q : quoted_ok q -> chars (w_quoted a q) = quoted_text q.
Proof.
  destruct q as [m x]. intros [Hm _]. unfold w_quoted, quoted_text. cbn [q_mark q_body] in *.
  destruct Hm as [<-|[<-|[]]]; [rewrite Ascii.eqb_refl|change (Ascii.eqb apostrophe quote) with false]; apply chars_delimited.
Qed.

Lemma chars_regex r : regex_ok r -> chars (w_regex r) = regex_text r.
Proof.
  destruct r as [m x l]. intros [Hm _]. unfold w_regex, regex_text, w_regex_body. cbn [rl_mark rl_body rl_flags] in *.
  rewrite chars_app. rewrite (chars_app (flat_map _ _)). rewrite (chars_flat w_flag (fun f => [flag_text f])) by (intros [|] _; reflexivity).
  autorewrite with chars.
  replace (flat_map (fun f => [flag_text f]) l) with (map flag_text l) by (induction l as [|f l IH]; [reflexivity|cbn; now f_equal]).
  destruct Hm as [<-|[<-|[<-|[]]]].
  - rewrite Ascii.eqb_refl, chars_delimited. cbn [app]. now rewrite <- app_assoc.
  - change (Ascii.eqb apostrophe "/") with false. rewrite Ascii.eqb_refl, chars_delimited. cbn [app]. now rewrite <- app_assoc.
  - change (Ascii.eqb quote "/") with false. change (Ascii.eqb quote apostrophe) with false. cbv iota. rewrite chars_delimited. cbn [app]. now rewrite <- app_assoc.
Qed.

Lemma chars_nth n : chars (w_nth n) = nth_text n.
Proof. destruct n; unfold w_nth, nth_text; autorewrite with chars; reflexivity. Qed.

Lemma chars_trait t : trait_ok t -> chars (w_trait t) = trait_text t.
Proof.
  intros Ht. unfold w_trait, trait_text. rewrite chars_cons_chr. change (s ":") with [":"%char]. cbn [app]. f_equal.
  destruct t as [|ds|ds|[|] [|] n|[|] [|]|[|]|r]; cbn [trait_ok] in Ht; autorewrite with chars; rewrite ?chars_nth, ?chars_regex by exact Ht; reflexivity.
Qed.

Lemma chars_condition c : condition_ok c -> chars (w_condition c) = condition_text c.
Proof.
  destruct c as [t|t ts]; cbn [condition_ok w_condition condition_text].
  - intros Ht. autorewrite with chars. now apply chars_trait.
  - intros [Ht Hts]. autorewrite with chars. unfold w_not_part at 1. autorewrite with chars. rewrite chars_trait by exact Ht.
    rewrite (chars_flat w_not_part trait_text); [reflexivity|]. intros a Ha. unfold w_not_part. autorewrite with chars.
    apply chars_trait. rewrite Forall_forall in Hts. auto.
Qed.

Lemma chars_pipe p : pipe_ok p -> chars (w_pipe p) = pipe_text p.
Proof.
  intros Hp. unfold w_pipe, pipe_text. rewrite chars_cons_chr, chars_cons_act. change (s ":") with [":"%char]. cbn [app]. f_equal.
  destruct p as [|q| | | |q|q|r|r sp sp' q]; cbn [pipe_ok] in Hp; autorewrite with chars;
    rewrite ?chars_quoted, ?chars_regex by exact Hp; try reflexivity.
  destruct Hp as [Hr [_ [_ Hq]]]. rewrite chars_quoted, chars_regex by assumption. reflexivity.
Qed.

Lemma chars_builtin b : chars (w_builtin b) = builtin_text b.
Proof. unfold w_builtin. now autorewrite with chars. Qed.

Lemma chars_capture ps n : Forall pipe_ok ps -> cap_name_ok n ->
  chars (w_capture ps n) = flat_map pipe_text ps ++ s ":" ++ cap_name_text n.
Proof.
  intros Hps Hn. unfold w_capture. autorewrite with chars. rewrite (chars_flat w_pipe pipe_text).
  2:{ intros a Ha. apply chars_pipe. rewrite Forall_forall in Hps. auto. }
  change (s ":") with [":"%char]. cbn [app]. f_equal. f_equal. destruct n as [q|x]; cbn [w_cap_name cap_name_text cap_name_ok] in *.
  - autorewrite with chars. now apply chars_quoted.
  - now autorewrite with chars.
Qed.

Lemma chars_test v : value_test_ok v -> chars (w_test v) = value_test_text v.
Proof.
  destruct v as [r|o q]; cbn [value_test_ok w_test value_test_text]; intros H.
  - unfold w_regex_test. autorewrite with chars. now rewrite chars_regex.
  - unfold w_literal_test. destruct o; autorewrite with chars; now rewrite chars_quoted.
Qed.

Lemma chars_negate ng : chars (w_negate ng) = negation_text ng.
Proof. now destruct ng. Qed.
Lemma chars_optional o : chars (w_optional o) = optional_text o.
Proof. now destruct o. Qed.
Lemma chars_attr_name a : chars (w_attr_name a) = a.
Proof. unfold w_attr_name. now autorewrite with chars. Qed.

Lemma chars_pattern p : pattern_ok p -> chars (w_pattern p) = pattern_text p.
Proof.
  destruct p as [b ps n|b v ng|a ps n o|a v ng|a ng]; cbn [pattern_ok w_pattern pattern_text]; intros H;
    autorewrite with chars; rewrite ?chars_builtin, ?chars_negate, ?chars_optional, ?chars_attr_name.
  - destruct H. now rewrite chars_capture.
  - now rewrite chars_test.
  - destruct H as [Ha [Hps Hn]]. rewrite chars_capture by assumption. now rewrite <- !app_assoc.
  - destruct H. now rewrite chars_test.
  - reflexivity.
Qed.

Lemma chars_open h closed : head_ok h -> chars (w_open h closed) = s "<" ++ head_text h ++ (if closed then s "/>" else s ">").
Proof.
  intros [_ [Hc [Hp _]]]. unfold w_open, head_text. rewrite chars_cons_chr, chars_cons_act. change (s "<") with ["<"%char]. cbn [app]. f_equal.
  autorewrite with chars. rewrite (chars_flat w_option (fun f => [option_text f])) by (intros [|] _; reflexivity).
  rewrite (chars_flat w_condition condition_text) by (intros a Ha; apply chars_condition; rewrite Forall_forall in Hc; auto).
  rewrite (chars_flat w_spaced (fun sp => fst sp ++ pattern_text (snd sp))).
  2:{ intros a Ha. unfold w_spaced. autorewrite with chars. f_equal. apply chars_pattern. rewrite Forall_forall in Hp. now apply Hp. }
  replace (flat_map (fun f => [option_text f]) (h_options h)) with (map option_text (h_options h))
    by (induction (h_options h) as [|f l IH]; [reflexivity|cbn; now f_equal]).
  rewrite <- !app_assoc. repeat f_equal. now destruct closed.
Qed.

Lemma chars_token t : token_ok t -> chars (w_token t) = token_text t.
Proof.
  destruct t as [c|x| | |h closed|name]; cbn [token_ok w_token token_text]; intros H; autorewrite with chars; try reflexivity.
  - now apply chars_open.
  - unfold w_close. now autorewrite with chars.
Qed.

Lemma chars_tokens ts : Forall token_ok ts -> chars (flat_map w_token ts) = flat_map token_text ts.
Proof. intros H. apply chars_flat. intros t Ht. apply chars_token. rewrite Forall_forall in H. auto. Qed.
