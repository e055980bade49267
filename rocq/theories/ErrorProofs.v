(** The errors of ParseHext. *)

From Coq Require Import Ascii String NArith ZArith Bool List Lia.
From Verif Require Import Base StringUtil StringSpec StringProofs Tags Dom NodeUtil Values ValueProofs Match Rule Regular RegularProofs ParserTables Parser MachineRows Grammar GrammarSpec GrammarCheck
  GrammarProofs GrammarTexts TextSpec LocationProofs SafetyCheck ParserSpec SafetyProofs ParserSafety
  SyntaxSpec SyntaxWords SyntaxRun SyntaxMeaning SyntaxTree SyntaxProofs ErrorSpec ErrorRun.
Import ListNotations.

(** ** Names in messages *)

Definition name_of (r : rule) : str := match r_tagname r with Some n => n | None => tag_display (r_tag r) end.

Lemma displayed_name x r : same_name x r -> displayed x (name_of r).
Proof.
  intros [H1 H2]. cbn [h_name] in *. unfold name_of. rewrite H2, H1. unfold displayed. unfold tag_of_name. destruct (str_eqb x (s "*")) eqn:Ex.
  - apply str_eqb_eq in Ex as ->. change (TAG_ANY =? TAG_UNKNOWN)%N with false. split; [intros H; now apply star_not_standard in H|]. reflexivity.
  - destruct (tag_enum_spec x) as [HU [_ HA]]. destruct (N.eqb_spec (gumbo_tag_enum x) TAG_UNKNOWN) as [Hu|Hu].
    + split; [intros H; now apply HU in H|]. reflexivity.
    + split; [|intros H; now apply HU in Hu]. intros _. unfold tag_display. destruct (N.eqb_spec (gumbo_tag_enum x) TAG_ANY); [contradiction|].
      unfold gumbo_tag_enum, gumbo_normalized_tagname in *. destruct (index_nocase_spec x tag_names 0) as [[H _]|[u [n' [v [Ht [-> [H3 _]]]]]]].
      * exfalso. apply Hu. rewrite H. vm_compute. reflexivity.
      * rewrite N.add_0_l, Nat2N.id, Ht, app_nth2, Nat.sub_diag by lia. cbn [nth]. split; [apply in_or_app; right; now left|exact H3].
Qed.

Lemma names_lower n : In n tag_names -> str_lower n = n.
Proof.
  assert (H : forallb (fun n => str_eqb (str_lower n) n) tag_names = true) by (vm_compute; reflexivity).
  intros Hn. rewrite forallb_forall in H. apply str_eqb_eq. now apply H.
Qed.

Lemma displayed_unique x y y' : displayed x y -> displayed x y' -> y = y'.
Proof.
  intros [H1 H2] [H1' H2']. destruct (tag_enum_spec x) as [HU _]. destruct (N.eq_dec (gumbo_tag_enum x) TAG_UNKNOWN) as [Hu|Hu].
  - assert (Hn : ~ standard_tag x) by (intros H; now apply HU in H). now rewrite (H2 Hn), (H2' Hn).
  - apply HU in Hu. destruct (H1 Hu) as [Hy1 Hy2]. destruct (H1' Hu) as [Hy1' Hy2'].
    apply str_eqb_nocase_spec in Hy2, Hy2'. unfold str_eqb_nocase in *. apply str_eqb_eq in Hy2, Hy2'.
    rewrite <- (names_lower y Hy1), <- (names_lower y' Hy1'). congruence.
Qed.

(** ** Positions *)

Lemma points_here x u c v mark : x = (u ++ [c]) ++ v -> c <> newline ->
  points_at x (u ++ [c]) mark (print_error_location x (length u) mark).
Proof.
  intros Hx Hc. assert (Hn : nth_error x (length u) = Some c) by (rewrite Hx, <- app_assoc, nth_error_app2, Nat.sub_diag by lia; reflexivity).
  pose proof (points_at_last x (length u) c mark Hn Hc) as H.
  replace (firstn (S (length u)) x) with (u ++ [c]) in H; [exact H|].
  rewrite Hx. replace (S (length u)) with (length (u ++ [c])) by (rewrite app_length; cbn; lia).
  rewrite firstn_app, Nat.sub_diag, firstn_O, app_nil_r, firstn_all. reflexivity.
Qed.

(** ** A token at fault *)

Section Faults.

Variable E : engine.

Lemma reaches_word us l sk fl : Forall token_ok us -> reaches E us l sk fl ->
  exists k, crun E (flat_map w_token us) k_initial = Some k /\ Idle k sk fl.
Proof.
  intros Hok [Hr _]. assert (HI : Idle k_initial [[]; []] no_flags) by (eexists (mk_junk _ _ _ _ _), _, _, _; reflexivity).
  assert (HN : [[]; []] <> @nil (list rule)) by discriminate.
  pose proof (run_tokens E us k_initial _ _ Hok HN HI) as H. rewrite Hr in H. exact H.
Qed.

Lemma reaches_state us l sk fl input v : Forall token_ok us -> reaches E us l sk fl -> input = tokens_text us ++ v ->
  exists st k, wrun E input (flat_map w_token us) st_initial = Ok st /\ sim input (length (tokens_text us)) st k /\ Idle k sk fl.
Proof.
  intros Hok HR Hi. destruct (reaches_word _ _ _ _ Hok HR) as [k [Hk HI]].
  pose proof (agree_wrun E input (flat_map w_token us) [] v st_initial k_initial) as H. cbn [app length] in H.
  rewrite chars_tokens in H by exact Hok. specialize (H Hi (sim_initial input)). rewrite Hk in H. cbn [agree] in H.
  destruct H as [st [H1 H2]]. exists st, k. auto.
Qed.

Lemma idle_stacks k sk fl : Idle k sk fl -> k_stacks k = sk.
Proof. intros [j [b [a [cv ->]]]]. reflexivity. Qed.

Lemma chr_state input p st k c v sk fl : sim input p st k -> Idle k sk fl -> skipn p input = c :: v ->
  exists k', sim input (S p) (with_p st (S (ps_p st))) k' /\ Idle k' sk fl.
Proof.
  intros HS HI Hc. exists (k_chr c k). split.
  - apply agree_chr; [exact HS|]. rewrite <- (Nat.add_0_r p), <- nth_error_skipn, Hc. reflexivity.
  - destruct HI as [j [b [a [cv ->]]]]. exists (j_chs [c] j), b, a, cv. reflexivity.
Qed.

Definition stops (input : str) (us : list token) (t : token) (msg : str) (mark : nat) : Prop :=
  exists loc, points_at input (tokens_text us ++ faulty_text t) mark loc /\
    wrun E input (flat_map w_token us ++ w_token t) st_initial = Throw (SyntaxError (msg ++ s " " ++ loc)).

Lemma skipn_length_app {A} (u v : list A) : skipn (length u) (u ++ v) = v.
Proof. rewrite skipn_app, skipn_all, Nat.sub_diag. reflexivity. Qed.

(** A brace. *)
Lemma brace_stops input us l sk fl t c a v msg : Forall token_ok us -> reaches E us l sk fl ->
  token_text t = [c] -> faulty_text t = [c] -> c <> newline -> w_token t = [IChr c; IAct a] ->
  input = (tokens_text us ++ [c]) ++ v ->
  (forall st, ps_stacks st = sk -> run_action E input a st = throw_error_message input st msg) ->
  stops input us t msg 1.
Proof.
  intros Hok HR Ht Hf Hc Hw Hi Ha. rewrite <- app_assoc in Hi. destruct (reaches_state us l sk fl input _ Hok HR Hi) as [st [k [H1 [H2 H3]]]].
  destruct (chr_state input _ st k c v sk fl H2 H3) as [k' [H4 H5]]; [rewrite Hi; now rewrite skipn_length_app|].
  exists (print_error_location input (length (tokens_text us)) 1). rewrite Hf. split; [eapply points_here; [|exact Hc]; rewrite Hi, <- app_assoc; reflexivity|].
  rewrite wrun_app, H1. cbn [obind]. rewrite Hw. cbn [wrun]. rewrite Ha; [|rewrite (proj1 H4); exact (idle_stacks _ _ _ H5)].
  assert (Hp : ps_p (with_p st (S (ps_p st))) = S (length (tokens_text us))) by apply H4.
  unfold throw_error_message, p_minus_1. rewrite Hp. reflexivity.
Qed.

Lemma begin_stops input us l sk fl v : Forall token_ok us -> reaches E us l sk fl -> (forall x l', l <> InElement x :: l') ->
  input = (tokens_text us ++ s "{") ++ v -> stops input us TBegin (s "Nested rules must have a parent") 1.
Proof.
  intros Hok HR Hl Hi. refine (brace_stops input us l sk fl TBegin "{"%char 86 v _ Hok HR eq_refl eq_refl _ eq_refl Hi _); [discriminate|].
  intros st Hs. change (run_action E input 86 st) with (push_nested input st). unfold push_nested, top_stack. rewrite Hs.
  destruct HR as [_ [_ [b [HO _]]]]. destruct l as [|[x|f] l]; cbn [Open] in HO.
  - destruct HO as [lv [-> _]]. reflexivity.
  - exfalso. exact (Hl x l eq_refl).
  - destruct HO as [lv [sk' [-> _]]]. reflexivity.
Qed.

Lemma end_stops input us l sk fl v msg mark : Forall token_ok us -> reaches E us l sk fl -> fault us l TEnd msg mark ->
  input = (tokens_text us ++ s "}") ++ v -> stops input us TEnd msg mark.
Proof.
  intros Hok HR Hf Hi.
  assert (Hm : mark = 1) by (inversion Hf; reflexivity). subst mark.
  refine (brace_stops input us l sk fl TEnd "}"%char 87 v _ Hok HR eq_refl eq_refl _ eq_refl Hi _); [discriminate|].
  intros st Hs. change (run_action E input 87 st) with (pop_nested input st). unfold pop_nested. rewrite Hs.
  destruct HR as [_ [_ [b [HO [H3 [H4 H5]]]]]]. inversion Hf as [| |x l' Hl|Hl Hh|Hl Hh|l' Hl]; subst l; cbn [Open] in HO.
  - destruct HO as [r [t [rest [-> _]]]]. reflexivity.
  - destruct HO as [lv [-> HV]]. rewrite (H5 eq_refl Hh) in HV. destruct lv as [|n [|]]; cbn in HV; [discriminate|reflexivity|contradiction].
  - destruct HO as [lv [-> HV]]. destruct b; [now apply H3 in Hh|]. destruct lv as [|n [|]]; cbn in HV; [reflexivity|discriminate|contradiction].
  - destruct HO as [lv [sk' [-> [HV _]]]]. destruct lv as [|n [|]]; cbn in HV; [reflexivity|discriminate|contradiction].
Qed.

(** A closing tag. *)
Lemma tag_name_last name : is_tag_name name -> exists u c, name = u ++ [c] /\ c <> newline.
Proof.
  intros H. assert (Hne : name <> []) by (intros ->; destruct H as [H|[c [x [H _]]]]; discriminate).
  destruct (exists_last Hne) as [u [c ->]]. exists u, c. split; [reflexivity|]. intros ->. destruct H as [H|[d [x [H [Hd Hx]]]]].
  - destruct u as [|a [|]]; discriminate.
  - assert (Hin : In newline (d :: x)) by (rewrite <- H; apply in_or_app; right; now left). destruct Hin as [->|Hin]; [discriminate Hd|].
    apply Hx in Hin. discriminate Hin.
Qed.

Lemma close_state input us l sk fl name v : Forall token_ok us -> reaches E us l sk fl ->
  input = (tokens_text us ++ s "</" ++ name) ++ v ->
  exists st, wrun E input (flat_map w_token us ++ chs (s "</") ++ IAct 84 :: chs name) st_initial = Ok st /\
    exists st1, tk_stop input st = Ok st1 /\ ps_tok st1 = name /\ ps_stacks st1 = sk /\ ps_p st1 = length (tokens_text us ++ s "</" ++ name).
Proof.
  intros Hok HR Hi. destruct (reaches_word us l sk fl Hok HR) as [k [Hk HI]].
  assert (Hc : chars (flat_map w_token us ++ chs (s "</") ++ IAct 84 :: chs name) = tokens_text us ++ s "</" ++ name).
  { rewrite !chars_app, chars_tokens by exact Hok. rewrite chars_chs, chars_cons_act, chars_chs. reflexivity. }
  pose proof (agree_wrun E input (flat_map w_token us ++ chs (s "</") ++ IAct 84 :: chs name) [] v st_initial k_initial) as H.
  rewrite Hc in H. specialize (H Hi (sim_initial input)). cbn [app] in H.
  rewrite crun_app, Hk in H. cbn [obind'] in H. destruct (idle_chs E (s "</") (IAct 84 :: chs name) k sk fl HI) as [k1 [E1 HI1]].
  rewrite E1 in H. destruct HI1 as [j [b [a [cv ->]]]].
  change (crun E (IAct 84 :: ?v) (K j sk b a cv None None None None fl false)) with (crun E v (K (j_start j) sk b a cv None None None None fl false)) in H.
  replace (chs name) with (chs name ++ []) in H at 2 by apply app_nil_r. rewrite crun_chs in H. cbn [crun agree] in H. destruct H as [st [H1 H2]].
  exists st. split; [exact H1|]. pose proof (agree_stop input _ _ _ H2) as HS. cbn [k_stop K k_cur j_chs j_start j_cur option_map app agree] in HS.
  destruct HS as [st1 [HS1 [S1 [S2 [S3 [S4 _]]]]]]. exists st1. split; [exact HS1|]. split; [exact S3|]. split; [exact S1|exact S4].
Qed.

Lemma close_stops input us l sk fl name v msg mark : Forall token_ok us -> is_tag_name name -> reaches E us l sk fl ->
  fault us l (TClose name) msg mark -> input = (tokens_text us ++ s "</" ++ name) ++ v -> stops input us (TClose name) msg mark.
Proof.
  intros Hok Hn HR Hf Hi. destruct (close_state input us l sk fl name v Hok HR Hi) as [st [H1 [st1 [H2 [H3 [H4 H5]]]]]].
  revert H1 H2 H3 H4 H5. inversion Hf as [? e Hno He Hname| | | | |]; subst. clear Hf. intros H1 H2 H3 H4 H5. cbn [faulty_text].
  exists (print_error_location ((tokens_text us ++ s "</" ++ name) ++ v) (length (tokens_text us ++ s "</" ++ name) - 1) (length (s "</" ++ name))).
  set (input := (tokens_text us ++ s "</" ++ name) ++ v) in *. split.
  - destruct (tag_name_last name Hn) as [u [c [Eu Hc]]]. pose proof (points_here input (tokens_text us ++ s "</" ++ u) c v (length (s "</" ++ name))) as HP.
    assert (HE : (tokens_text us ++ s "</" ++ u) ++ [c] = tokens_text us ++ s "</" ++ name) by (rewrite Eu, <- !app_assoc; reflexivity).
    rewrite HE in HP. replace (length (tokens_text us ++ s "</" ++ name) - 1) with (length (tokens_text us ++ s "</" ++ u)); [now apply HP|].
    rewrite <- HE, app_length with (l' := [c]). cbn [length]. lia.
  - change (w_token (TClose name)) with (chs (s "</") ++ IAct 84 :: chs name ++ [IAct 85; IChr ">"%char]).
    replace (flat_map w_token us ++ chs (s "</") ++ IAct 84 :: chs name ++ [IAct 85; IChr ">"%char]) with
      ((flat_map w_token us ++ chs (s "</") ++ IAct 84 :: chs name) ++ [IAct 85; IChr ">"%char]) by (rewrite <- !app_assoc; cbn [app]; reflexivity).
    rewrite wrun_app, H1. cbn [obind wrun].
    change (run_action E input 85 st) with (let! st2 := tk_stop input st in let! st3 := validate_close_tag_or_throw input st2 (ps_tok st2) in pop_rule input st3).
    rewrite H2. cbn [obind]. rewrite H3.
    assert (HT : forall e1 e2, throw_unexpected_tag (A := pstate) input st1 name e1 e2 =
      Throw (SyntaxError ((s "Unexpected closing tag '</" ++ name ++ s ">'" ++
        match e2, e1 with Some n, _ => s ", expected '</" ++ n ++ s ">'" | None, Some t => s ", expected '</" ++ tag_display t ++ s ">'" | None, None => [] end)
         ++ s " " ++ print_error_location input (length (tokens_text us ++ s "</" ++ name) - 1) (length (s "</" ++ name))))).
    { intros e1 e2. unfold throw_unexpected_tag, p_minus_1. rewrite H5.
      assert (HL : length (tokens_text us ++ s "</" ++ name) = S (length (tokens_text us) + 1 + length name)) by (rewrite !app_length; cbn [length s]; cbn; lia).
      rewrite HL. cbn [obind]. replace (length name + 2) with (length (s "</" ++ name)) by (rewrite app_length; cbn; lia).
      replace (S (length (tokens_text us) + 1 + length name) - 1) with (length (tokens_text us) + 1 + length name) by lia.
      rewrite <- !app_assoc. reflexivity. }
    unfold validate_close_tag_or_throw, top_stack. rewrite H4. destruct HR as [_ [_ [b [HO _]]]]. destruct l as [|[x|f] l]; cbn [Open] in HO.
    + destruct HO as [lv [-> _]]. cbn [obind]. rewrite (HT (None) (None)). inversion He; subst; reflexivity.
    + destruct HO as [r [t [rest [-> [HS _]]]]]. cbn [obind]. assert (Hx : closes' r name = false).
      { destruct (closes' r name) eqn:Ec; [|reflexivity]. apply (closes_same _ _ _ HS Hn) in Ec. exfalso. exact (Hno x l eq_refl Ec). }
      assert (He' : e = s ", expected '</" ++ name_of r ++ s ">'").
      { inversion He as [x' y l' Hd|l' Hd]; subst; [now rewrite (displayed_unique _ _ _ Hd (displayed_name _ _ HS))|]. exfalso. exact (Hd x l eq_refl). }
      rewrite He'. pose proof HS as [HS1 HS2]. cbn [h_name] in *. unfold name_of. unfold closes' in Hx. rewrite HS1, HS2 in *.
      destruct (N.eqb_spec (tag_of_name x) TAG_UNKNOWN) as [Eu|Eu].
      * rewrite Hx. rewrite (HT (Some TAG_UNKNOWN) (Some x)). reflexivity.
      * cbv zeta in Hx. destruct (is_star name).
        -- rewrite Hx. rewrite (HT (Some (tag_of_name x)) (None)). reflexivity.
        -- apply negb_false_iff in Hx. rewrite Hx. rewrite (HT (Some (tag_of_name x)) (None)). reflexivity.
    + destruct HO as [lv [sk' [-> _]]]. cbn [obind]. rewrite (HT (None) (None)). inversion He; subst; reflexivity.
Qed.

Theorem fault_stops input us l sk fl t v msg mark : Forall token_ok us -> token_ok t -> reaches E us l sk fl -> fault us l t msg mark ->
  input = (tokens_text us ++ faulty_text t) ++ v -> stops input us t msg mark.
Proof.
  intros Hok Ht HR Hf Hi. destruct t as [c|x| | |h closed|name]; try (exfalso; inversion Hf; fail).
  - assert (Hl : forall x l', l <> InElement x :: l') by (inversion Hf; assumption).
    pose proof (begin_stops input us l sk fl v Hok HR Hl Hi) as H. now inversion Hf; subst.
  - eapply end_stops; eauto.
  - eapply close_stops; eauto.
Qed.

End Faults.
