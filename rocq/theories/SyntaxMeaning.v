(** The actions on the words of each part compute its meaning. *)

From Coq Require Import Ascii String NArith ZArith Bool List Lia.
From Verif Require Import Base StringUtil Tags Dom NodeUtil Values Match Rule Parser
  Regular ParserSpec SafetyProofs SyntaxSpec SyntaxWords SyntaxRun.
Import ListNotations.

(** The values that the next part does not read. *)
Record junk := mk_junk { j_nth : Z * Z; j_lit : str; j_rx : option regex; j_cur : option str; j_tok : str }.
Definition K (j : junk) sk b a c p t tr n (fl : flags) o : kst :=
  mk_k sk (mk_pv (j_nth j) b a (j_lit j) c p (j_rx j) t tr n (f_icase fl) (f_collate fl) o) (j_cur j) (j_tok j).

Definition j_chs (x : str) (j : junk) : junk :=
  mk_junk (j_nth j) (j_lit j) (j_rx j) (option_map (fun y => y ++ x) (j_cur j)) (j_tok j).

Section Run.

Variable E : engine.

Lemma K_eta j : mk_junk (j_nth j) (j_lit j) (j_rx j) (j_cur j) (j_tok j) = j.
Proof. now destruct j. Qed.

Lemma j_chs_nil j : j_chs [] j = j.
Proof. destruct j as [n l r [x|] t]; unfold j_chs; cbn; [now rewrite app_nil_r|reflexivity]. Qed.

Lemma j_chs_chs x y j : j_chs y (j_chs x j) = j_chs (x ++ y) j.
Proof. destruct j as [n l r [z|] t]; unfold j_chs; cbn; [now rewrite app_assoc|reflexivity]. Qed.

Lemma crun_chr c w j sk b a cv p t tr n fl o :
  crun E (IChr c :: w) (K j sk b a cv p t tr n fl o) = crun E w (K (j_chs [c] j) sk b a cv p t tr n fl o).
Proof. reflexivity. Qed.

Lemma crun_chs x : forall w j sk b a cv p t tr n fl o,
  crun E (chs x ++ w) (K j sk b a cv p t tr n fl o) = crun E w (K (j_chs x j) sk b a cv p t tr n fl o).
Proof.
  induction x as [|c x IH]; intros; cbn [chs map app].
  - now rewrite j_chs_nil.
  - rewrite crun_chr. fold (chs x). rewrite IH, j_chs_chs. reflexivity.
Qed.

Ltac act := cbn [app]; cbn [crun kaction obind' k_pvs]; unfold k_with_pv, j_chs; cbn [crun kaction obind' k_pvs k_with_pv k_pv K set_nth set_builtin set_attr_name set_literal_value set_cap_var
  set_pipe set_regex set_test set_trait set_negate set_icase set_collate set_pv_optional pv_reset
  pv_nth pv_builtin pv_attr_name pv_literal_value pv_cap_var pv_pipe pv_regex pv_test pv_trait pv_negate pv_icase pv_collate pv_optional
  k_stacks k_cur k_tok k_start k_token k_stop k_number k_need k_rule k_update k_with_stacks nth_of fst snd option_map j_nth j_lit j_rx j_cur j_tok].

(** ** Literals *)

Lemma run_quoted a0 q w j sk b a cv p t tr n fl o : a0 = 8%N \/ a0 = 4%N ->
  exists j', j_lit j' = q_body q /\ j_rx j' = j_rx j /\
    crun E (w_quoted a0 q ++ w) (K j sk b a cv p t tr n fl o) = crun E w (K j' sk b a cv p t tr n fl o).
Proof.
  intros Ha.
  exists (mk_junk (j_nth j) (q_body q) (j_rx j) (Some (q_body q ++ [if Ascii.eqb (q_mark q) quote then quote else apostrophe])) (q_body q)).
  split; [reflexivity|]. split; [reflexivity|]. unfold w_quoted, w_delimited.
  destruct (Ascii.eqb (q_mark q) quote), Ha as [-> | ->]; cbn [app]; rewrite <- app_assoc; rewrite crun_chr;
    cbn [N.add Pos.add Pos.succ]; cbn [crun kaction obind'];
    match goal with |- crun E (chs ?x ++ ?w) (k_start (K ?j ?sk ?b ?a ?cv ?p ?t ?tr ?n ?fl ?o)) = _ =>
      change (crun E (chs x ++ w) (k_start (K j sk b a cv p t tr n fl o)))
        with (crun E (chs x ++ w) (K (mk_junk (j_nth j) (j_lit j) (j_rx j) (Some []) (j_tok j)) sk b a cv p t tr n fl o)) end;
    rewrite crun_chs; reflexivity.
Qed.

Lemma run_flags l : forall w j sk b a cv p t tr n fl o,
  exists j', j_tok j' = j_tok j /\ crun E (flat_map w_flag l ++ w) (K j sk b a cv p t tr n fl o) =
    crun E w (K j' sk b a cv p t tr n (fold_left add_flag l fl) o).
Proof.
  induction l as [|f l IH]; intros; cbn [flat_map fold_left].
  - exists j. auto.
  - rewrite <- app_assoc. destruct (IH w (j_chs [flag_text f] j) sk b a cv p t tr n (add_flag fl f) o) as [j' [H1 H2]].
    exists j'. split; [exact H1|]. rewrite <- H2. destruct f; reflexivity.
Qed.

Lemma run_regex_body r w j sk b a cv p t tr n fl o :
  exists j', j_tok j' = rl_body r /\ j_lit j' = j_lit j /\
    crun E (w_regex_body r ++ w) (K j sk b a cv p t tr n fl o) = crun E w (K j' sk b a cv p t tr n fl o).
Proof.
  set (m := if Ascii.eqb (rl_mark r) "/" then "/"%char else if Ascii.eqb (rl_mark r) apostrophe then apostrophe else quote).
  exists (mk_junk (j_nth j) (j_lit j) (j_rx j) (Some (rl_body r ++ [m])) (rl_body r)).
  split; [reflexivity|]. split; [reflexivity|]. unfold w_regex_body, w_delimited, m.
  destruct (Ascii.eqb (rl_mark r) "/"); [|destruct (Ascii.eqb (rl_mark r) apostrophe)]; cbn [app]; rewrite <- app_assoc; rewrite crun_chr;
    cbn [crun kaction obind'];
    match goal with |- crun E (chs ?x ++ ?w) (k_start (K ?j ?sk ?b ?a ?cv ?p ?t ?tr ?n ?fl ?o)) = _ =>
      change (crun E (chs x ++ w) (k_start (K j sk b a cv p t tr n fl o)))
        with (crun E (chs x ++ w) (K (mk_junk (j_nth j) (j_lit j) (j_rx j) (Some []) (j_tok j)) sk b a cv p t tr n fl o)) end;
    rewrite crun_chs; reflexivity.
Qed.

Lemma run_regex r w j sk b a cv p t tr n fl o :
  match regex_meaning E r fl with
  | Some (rx, fl') => exists j', j_rx j' = Some rx /\
      crun E (w_regex r ++ w) (K j sk b a cv p t tr n fl o) = crun E w (K j' sk b a cv p t tr n fl' o)
  | None => crun E (w_regex r ++ w) (K j sk b a cv p t tr n fl o) = None
  end.
Proof.
  unfold regex_meaning, w_regex. cbv zeta. rewrite <- !app_assoc.
  destruct (run_regex_body r (flat_map w_flag (rl_flags r) ++ [IAct 27] ++ w) j sk b a cv p t tr n fl o) as [j1 [Hj1 [_ ->]]].
  destruct (run_flags (rl_flags r) ([IAct 27] ++ w) j1 sk b a cv p t tr n fl o) as [j2 [Hj2 ->]].
  set (fl' := fold_left add_flag (rl_flags r) fl). cbn [app crun kaction]. cbn [K k_tok k_pv pv_icase pv_collate]. rewrite Hj2, Hj1.
  destruct (eng_compile E _); [reflexivity|].
  exists (mk_junk (j_nth j2) (j_lit j2) (Some (mk_regex (rl_body r) (f_icase fl') (f_collate fl'))) (j_cur j2) (j_tok j2)).
  split; [reflexivity|]. reflexivity.
Qed.

(** ** Numbers *)

Lemma digits_forall ds : all_in is_number ds -> Forall is_digit ds.
Proof.
  intros H. apply Forall_forall. intros c Hc. apply H in Hc. unfold is_number, code_in in Hc. apply andb_true_iff in Hc as [H1 H2].
  apply N.leb_le in H1, H2. split; assumption.
Qed.

Lemma stoi_number sg (m : bool) ds : is_digits ds -> is_sign sg -> str_eqb sg (s "-") = m ->
  k_stoi (sg ++ ds) = let z := (if m then - number_value ds else number_value ds)%Z in if fits_int z then Some z else None.
Proof.
  intros [H1 H2] Hs Hm. unfold k_stoi. rewrite (stoi_sign sg ds Hs H1 (digits_forall ds H2)). cbv zeta. rewrite Hm.
  now destruct (fits_int _).
Qed.

Lemma minus_sign m : is_sign (minus_text m) /\ str_eqb (minus_text m) (s "-") = m.
Proof. destruct m; unfold is_sign; auto. Qed.
Lemma sign_sign m : is_sign (sign_text m) /\ str_eqb (sign_text m) (s "-") = m.
Proof. destruct m; unfold is_sign; auto. Qed.

Definition j_start (j : junk) : junk := mk_junk (j_nth j) (j_lit j) (j_rx j) (Some []) (j_tok j).

Lemma run_number a0 sg m ds (f : pvals -> Z -> pvals) w j sk b a cv p t tr n fl o :
  (forall k, kaction E a0 k = k_number k f) -> is_digits ds -> is_sign sg -> str_eqb sg (s "-") = m ->
  crun E (chs sg ++ chs ds ++ IAct a0 :: w) (K (j_start j) sk b a cv p t tr n fl o) =
  match number_meaning m ds fl with
  | Some (z, _) =>
      crun E w (mk_k sk (f (k_pv (K j sk b a cv p t tr n fl o)) z) (Some (sg ++ ds)) (sg ++ ds))
  | None => None
  end.
Proof.
  intros Ha Hd Hs Hm. rewrite crun_chs, crun_chs. cbn [crun]. rewrite Ha. unfold k_number, number_meaning. cbn [k_stop k_cur K j_start j_chs j_cur option_map obind' app k_tok].
  rewrite (stoi_number sg m ds Hd Hs Hm). cbv zeta. destruct (fits_int _); reflexivity.
Qed.

Lemma run_nth x w j sk b a cv p t tr n fl o : nth_ok x ->
  match nth_meaning x fl with
  | Some (z, fl') => exists j', j_nth j' = z /\
      crun E (w_nth x ++ w) (K j sk b a cv p t tr n fl o) = crun E w (K j' sk b a cv p t tr n fl' o)
  | None => crun E (w_nth x ++ w) (K j sk b a cv p t tr n fl o) = None
  end.
Proof.
  destruct x as [| |m ds|m ds|m ds m' ds']; cbn [nth_ok nth_meaning w_nth]; intros H.
  - cbn [ret]. rewrite <- app_assoc, crun_chs. eexists (mk_junk _ _ _ _ _). split; [|act; reflexivity]. reflexivity.
  - cbn [ret]. rewrite <- app_assoc, crun_chs. eexists (mk_junk _ _ _ _ _). split; [|act; reflexivity]. reflexivity.
  - cbn [app]. rewrite <- !app_assoc. cbn [app]. change (crun E (IAct 14 :: ?v) (K j sk b a cv p t tr n fl o)) with (crun E v (K (j_start j) sk b a cv p t tr n fl o)).
    rewrite (run_number 15 (minus_text m) m ds (fun v z => set_nth v (0, z)%Z)) by (try apply minus_sign; auto).
    unfold bind. destruct (number_meaning m ds fl) as [[z fl']|] eqn:En; [|reflexivity].
    assert (fl' = fl) as -> by (unfold number_meaning, ret, none in En; destruct (fits_int _); congruence).
    cbn [ret]. eexists (mk_junk _ _ _ _ _). split; [|act; reflexivity]. reflexivity.
  - cbn [app]. rewrite <- !app_assoc. cbn [app]. change (crun E (IAct 14 :: ?v) (K j sk b a cv p t tr n fl o)) with (crun E v (K (j_start j) sk b a cv p t tr n fl o)).
    rewrite (run_number 15 (minus_text m) m ds (fun v z => set_nth v (0, z)%Z)) by (try apply minus_sign; auto).
    unfold bind. destruct (number_meaning m ds fl) as [[z fl']|] eqn:En; [|reflexivity].
    assert (fl' = fl) as -> by (unfold number_meaning, ret, none in En; destruct (fits_int _); congruence).
    cbn [ret]. eexists (mk_junk _ _ _ _ _). split; [|act; reflexivity]. reflexivity.
  - destruct H as [H H']. cbn [app]. rewrite <- !app_assoc. cbn [app]. change (crun E (IAct 14 :: ?v) (K j sk b a cv p t tr n fl o)) with (crun E v (K (j_start j) sk b a cv p t tr n fl o)).
    rewrite (run_number 15 (minus_text m) m ds (fun v z => set_nth v (0, z)%Z)) by (try apply minus_sign; auto).
    unfold bind. destruct (number_meaning m ds fl) as [[z fl']|] eqn:En; [|reflexivity].
    assert (fl' = fl) as -> by (unfold number_meaning, ret, none in En; destruct (fits_int _); congruence).
    rewrite <- !app_assoc.
    match goal with |- context [crun E (IChr "n" :: IAct 16 :: IAct 17 :: ?v) ?k] =>
      change (crun E (IChr "n"%char :: IAct 16 :: IAct 17 :: v) k)
        with (crun E v (K (j_start (mk_junk (z, 0)%Z (j_lit j) (j_rx j) None (minus_text m ++ ds))) sk b a cv p t tr n fl o)) end.
    cbn [app]. rewrite (run_number 18 (sign_text m') m' ds' (fun v z => set_nth v (fst (pv_nth v), z)%Z)) by (try apply sign_sign; auto).
    destruct (number_meaning m' ds' fl) as [[z' fl']|] eqn:En'; [|reflexivity].
    assert (fl' = fl) as -> by (unfold number_meaning, ret, none in En'; destruct (fits_int _); congruence).
    cbn [ret]. eexists (mk_junk _ _ _ _ _). split; [|act; reflexivity]. reflexivity.
Qed.

(** ** Traits *)

Lemma count_mod z : (0 <= z)%Z -> fits_int z = true -> (z mod UINT_MOD = z)%Z.
Proof. intros H1 H2. apply Z.mod_small. unfold fits_int, INT_MAX in H2. apply andb_true_iff in H2 as [_ H2]. apply Z.leb_le in H2. unfold UINT_MOD. lia. Qed.

Lemma run_count a0 ds (f : Z -> mtch) w j sk b a cv p t tr n fl o :
  (forall k, kaction E a0 k = k_number k (fun v z => set_trait v (Some (f (z mod UINT_MOD)%Z)))) -> is_digits ds ->
  match bind (number_meaning false ds) (fun z => ret (f z)) fl with
  | Some (m, fl') => exists j',
      crun E (chs ds ++ IAct a0 :: w) (K (j_start j) sk b a cv p t tr n fl o) = crun E w (K j' sk b a cv p t (Some m) n fl' o)
  | None => crun E (chs ds ++ IAct a0 :: w) (K (j_start j) sk b a cv p t tr n fl o) = None
  end.
Proof.
  intros Ha Hd.
  pose proof (run_number a0 [] false ds (fun v z => set_trait v (Some (f (z mod UINT_MOD)%Z))) w j sk b a cv p t tr n fl o Ha Hd) as H.
  cbn [chs map app] in H. rewrite H by (unfold is_sign; auto). unfold bind, number_meaning. destruct (fits_int (number_value ds)) eqn:Ef; [|reflexivity].
  cbn [ret]. rewrite count_mod; [|destruct Hd as [_ Hd]; now apply number_value_nonneg, digits_forall|exact Ef].
  eexists (mk_junk _ _ _ _ _). act. reflexivity.
Qed.

Lemma run_nth_trait first of_type a0 x w j sk b a cv p t tr n fl o :
  (forall k, kaction E a0 k = k_pvs k (fun v => nth_of v (pv_nth v) first of_type)) -> nth_ok x ->
  match bind (nth_meaning x) (fun z => ret (NthChildMatch (fst z) (snd z) (mk_nth_option first of_type))) fl with
  | Some (m, fl') => exists j',
      crun E (w_nth x ++ IChr ")"%char :: IAct a0 :: w) (K j sk b a cv p t tr n fl o) = crun E w (K j' sk b a cv p t (Some m) n fl' o)
  | None => crun E (w_nth x ++ IChr ")"%char :: IAct a0 :: w) (K j sk b a cv p t tr n fl o) = None
  end.
Proof.
  intros Ha Hx. pose proof (run_nth x (IChr ")"%char :: IAct a0 :: w) j sk b a cv p t tr n fl o Hx) as H. unfold bind.
  destruct (nth_meaning x fl) as [[z fl']|]; [|exact H]. destruct H as [j' [Hz ->]]. cbn [ret]. rewrite crun_chr. cbn [crun]. rewrite Ha.
  eexists (mk_junk _ _ _ _ _). cbn [obind' k_pvs]. subst z. reflexivity.
Qed.

Lemma run_trait x w j sk b a cv p t tr n fl o : trait_ok x ->
  match trait_meaning (regex_meaning E) x fl with
  | Some (m, fl') => exists j', crun E (w_trait x ++ w) (K j sk b a cv p t tr n fl o) = crun E w (K j' sk b a cv p t (Some m) n fl' o)
  | None => crun E (w_trait x ++ w) (K j sk b a cv p t tr n fl o) = None
  end.
Proof.
  intros Hx. unfold w_trait. cbn [app]. rewrite crun_chr. set (j0 := j_chs _ j); clearbody j0.
  destruct x as [|ds|ds|f ot x|f ot|ot|r]; cbn [trait_meaning trait_ok] in *.
  - cbn [ret]. rewrite <- app_assoc, crun_chs. eexists (mk_junk _ _ _ _ _). act. reflexivity.
  - rewrite <- app_assoc, crun_chs. cbn [app]. rewrite <- app_assoc. cbn [app]. set (j1 := j_chs _ _); clearbody j1.
    pose proof (run_count 31 ds ChildCountMatch (IChr ")"%char :: w) j1 sk b a cv p t tr n fl o (fun _ => eq_refl) Hx) as H.
    destruct (bind _ _ fl) as [[m fl']|]; [|exact H]. destruct H as [j' H]. exists (j_chs [")"%char] j'). exact H.
  - rewrite <- app_assoc, crun_chs. cbn [app]. rewrite <- app_assoc. cbn [app]. set (j1 := j_chs _ _); clearbody j1.
    pose proof (run_count 33 ds AttributeCountMatch (IChr ")"%char :: w) j1 sk b a cv p t tr n fl o (fun _ => eq_refl) Hx) as H.
    destruct (bind _ _ fl) as [[m fl']|]; [|exact H]. destruct H as [j' H]. exists (j_chs [")"%char] j'). exact H.
  - destruct f, ot; rewrite <- !app_assoc, crun_chs; cbn [app]; now apply run_nth_trait.
  - cbn [ret]. destruct f, ot; rewrite <- app_assoc, crun_chs; eexists (mk_junk _ _ _ _ _); act; reflexivity.
  - cbn [ret]. destruct ot; rewrite <- app_assoc, crun_chs; eexists (mk_junk _ _ _ _ _); act; reflexivity.
  - rewrite <- !app_assoc, crun_chs. set (j1 := j_chs _ _); clearbody j1. cbn [app].
    pose proof (run_regex r (IChr ")"%char :: IAct 44 :: w) j1 sk b a cv p t tr n fl o) as H. unfold bind.
    destruct (regex_meaning E r fl) as [[rx fl']|]; [|exact H]. destruct H as [j' [Hr ->]]. cbn [ret].
    rewrite crun_chr. exists (j_chs [")"%char] j'). cbn [crun kaction]. unfold k_need. cbn [K k_pv pv_regex j_chs j_rx]. rewrite Hr.
    cbn [obind' k_pvs]. unfold k_with_pv. cbn [k_pv set_trait k_stacks k_cur k_tok]. reflexivity.
Qed.

(** Rules with more matches and captures. *)
Definition add_mc (mc : list mtch * list capture) (r : rule) : rule :=
  match r with
  | mk_rule c n l ms cs t o g name => mk_rule c n l (ms ++ map Some (fst mc)) (cs ++ map Some (snd mc)) t o g name
  end.
Fixpoint add_mcs (l : list (list mtch * list capture)) (r : rule) : rule :=
  match l with [] => r | mc :: l' => add_mcs l' (add_mc mc r) end.

Lemma append_match_mc r m : append_match r (Some m) = add_mc ([m], []) r.
Proof. destruct r. cbn. now rewrite app_nil_r. Qed.
Lemma append_capture_mc r c : append_capture r (Some c) = add_mc ([], [c]) r.
Proof. destruct r. cbn. now rewrite app_nil_r. Qed.
Lemma add_mc_app m c m' c' r : add_mc (m', c') (add_mc (m, c) r) = add_mc (m ++ m', c ++ c') r.
Proof. destruct r. cbn. now rewrite !map_app, !app_assoc. Qed.
Lemma add_mc_nil r : add_mc ([], []) r = r.
Proof. destruct r. cbn. now rewrite !app_nil_r. Qed.
Lemma add_mcs_flat l r : add_mcs l r = add_mc (flat_map fst l, flat_map snd l) r.
Proof.
  revert r. induction l as [|[m c] l IH]; intros r; cbn [add_mcs flat_map].
  - now rewrite add_mc_nil.
  - now rewrite IH, add_mc_app.
Qed.

Lemma run_not_parts l : forall w ms j sk b a cv p t fl o, Forall trait_ok l ->
  match each (trait_meaning (regex_meaning E)) l fl with
  | Some (ms', fl') => exists j',
      crun E (flat_map w_not_part l ++ w) (K j sk b a cv p t None (Some (map Some ms)) fl o) =
      crun E w (K j' sk b a cv p t None (Some (map Some (ms ++ ms'))) fl' o)
  | None => crun E (flat_map w_not_part l ++ w) (K j sk b a cv p t None (Some (map Some ms)) fl o) = None
  end.
Proof.
  induction l as [|x l IH]; intros w ms j sk b a cv p t fl o Hl; cbn [each flat_map app].
  - unfold ret. rewrite app_nil_r. eauto.
  - inversion Hl as [|? ? Hx Hl']; subst. unfold w_not_part at 1 3. rewrite <- !app_assoc. cbn [app].
    pose proof (run_trait x (IAct 46 :: flat_map w_not_part l ++ w) j sk b a cv p t None (Some (map Some ms)) fl o Hx) as H.
    unfold bind. destruct (trait_meaning (regex_meaning E) x fl) as [[m fl1]|]; [|exact H]. destruct H as [j1 ->].
    change (crun E (IAct 46 :: ?v) (K j1 sk b a cv p t (Some m) (Some (map Some ms)) fl1 o))
      with (crun E v (K j1 sk b a cv p t None (Some (map Some ms ++ [Some m])) fl1 o)).
    replace (map Some ms ++ [Some m]) with (map Some (ms ++ [m])) by (now rewrite map_app).
    specialize (IH w (ms ++ [m]) j1 sk b a cv p t fl1 o Hl'). destruct (each (trait_meaning (regex_meaning E)) l fl1) as [[ms' fl2]|]; [|exact IH].
    destruct IH as [j2 ->]. unfold ret. exists j2. now rewrite <- app_assoc.
Qed.

Lemma run_condition x w j r u rest b a cv p t fl o : condition_ok x ->
  match condition_meaning (regex_meaning E) x fl with
  | Some (m, fl') => exists j',
      crun E (w_condition x ++ w) (K j ((r :: u) :: rest) b a cv p t None None fl o) =
      crun E w (K j' ((add_mc ([m], []) r :: u) :: rest) b a cv p t None None fl' o)
  | None => crun E (w_condition x ++ w) (K j ((r :: u) :: rest) b a cv p t None None fl o) = None
  end.
Proof.
  destruct x as [x|x l]; cbn [condition_ok condition_meaning w_condition]; intros Hx.
  - rewrite <- app_assoc. cbn [app]. pose proof (run_trait x (IAct 82 :: w) j ((r :: u) :: rest) b a cv p t None None fl o Hx) as H.
    destruct (trait_meaning (regex_meaning E) x fl) as [[m fl']|]; [|exact H]. destruct H as [j' ->]. exists j'. rewrite <- append_match_mc. reflexivity.
  - assert (HF : Forall trait_ok (x :: l)) by (constructor; apply Hx).
    replace (chs (s ":not(") ++ IAct 45 :: w_not_part x ++ flat_map w_not_part l ++ [IChr ")"%char; IAct 81])
      with (chs (s ":not(") ++ IAct 45 :: flat_map w_not_part (x :: l) ++ [IChr ")"%char; IAct 81])
      by (cbn [flat_map]; now rewrite <- !app_assoc).
    rewrite <- app_assoc, crun_chs. cbn [app]. rewrite <- app_assoc. set (j0 := j_chs _ _); clearbody j0.
    change (crun E (IAct 45 :: ?v) (K j0 ((r :: u) :: rest) b a cv p t None None fl o))
      with (crun E v (K j0 ((r :: u) :: rest) b a cv p t None (Some (map Some [])) fl o)).
    pose proof (run_not_parts (x :: l) ([IChr ")"%char; IAct 81] ++ w) [] j0 ((r :: u) :: rest) b a cv p t fl o HF) as H.
    unfold bind. destruct (each (trait_meaning (regex_meaning E)) (x :: l) fl) as [[ms fl']|]; [|exact H]. destruct H as [j1 ->].
    unfold ret. exists (j_chs [")"%char] j1). rewrite <- append_match_mc. reflexivity.
Qed.

Lemma run_conditions l : forall w j r u rest b a cv p t fl o, Forall condition_ok l ->
  match each (condition_meaning (regex_meaning E)) l fl with
  | Some (ms, fl') => exists j',
      crun E (flat_map w_condition l ++ w) (K j ((r :: u) :: rest) b a cv p t None None fl o) =
      crun E w (K j' ((add_mc (ms, []) r :: u) :: rest) b a cv p t None None fl' o)
  | None => crun E (flat_map w_condition l ++ w) (K j ((r :: u) :: rest) b a cv p t None None fl o) = None
  end.
Proof.
  induction l as [|x l IH]; intros w j r u rest b a cv p t fl o Hl; cbn [each flat_map app].
  - unfold ret. rewrite add_mc_nil. eauto.
  - inversion Hl as [|? ? Hx Hl']; subst. rewrite <- app_assoc.
    pose proof (run_condition x (flat_map w_condition l ++ w) j r u rest b a cv p t fl o Hx) as H.
    unfold bind. destruct (condition_meaning (regex_meaning E) x fl) as [[m fl1]|]; [|exact H]. destruct H as [j1 ->].
    specialize (IH w j1 (add_mc ([m], []) r) u rest b a cv p t fl1 o Hl').
    destruct (each (condition_meaning (regex_meaning E)) l fl1) as [[ms fl2]|]; [|exact IH]. destruct IH as [j2 ->]. unfold ret. exists j2.
    now rewrite add_mc_app.
Qed.

(** ** Patterns *)

Lemma pipe_chain_add l t :
  match pipe_chain l with Some p => pipe_append p (Some (Pipe t None)) | None => Pipe t None end =
  match pipe_chain (l ++ [t]) with Some p => p | None => Pipe t None end.
Proof.
  induction l as [|x l IH]; [reflexivity|]. cbn [app pipe_chain pipe_append].
  destruct l as [|y l]; [reflexivity|]. cbn [pipe_chain app] in *. now rewrite IH.
Qed.

Lemma add_pipe_chain l t j b a cv te tr n fl o :
  add_pipe (mk_pv (j_nth j) b a (j_lit j) cv (pipe_chain l) (j_rx j) te tr n (f_icase fl) (f_collate fl) o) t =
  mk_pv (j_nth j) b a (j_lit j) cv (pipe_chain (l ++ [t])) (j_rx j) te tr n (f_icase fl) (f_collate fl) o.
Proof.
  unfold add_pipe. cbn [pv_pipe set_pipe]. rewrite pipe_chain_add. f_equal.
  destruct l as [|x l]; reflexivity.
Qed.

Lemma act_pipe a0 (g : pvals -> transform) l w j sk b a cv t tr n fl o :
  (forall k, kaction E a0 k = k_pvs k (fun v => add_pipe v (g v))) ->
  crun E (IAct a0 :: w) (K j sk b a cv (pipe_chain l) t tr n fl o) =
  crun E w (K j sk b a cv (pipe_chain (l ++ [g (k_pv (K j sk b a cv (pipe_chain l) t tr n fl o))])) t tr n fl o).
Proof.
  intros Ha. cbn [crun]. rewrite Ha. unfold k_pvs, k_with_pv. cbn [obind' K k_pv k_stacks k_cur k_tok]. now rewrite add_pipe_chain.
Qed.

Lemma act_pipe_rx a0 (g : pvals -> regex -> transform) rx l w j sk b a cv t tr n fl o :
  (forall k, kaction E a0 k = k_need k (fun v rx => add_pipe v (g v rx))) -> j_rx j = Some rx ->
  crun E (IAct a0 :: w) (K j sk b a cv (pipe_chain l) t tr n fl o) =
  crun E w (K j sk b a cv (pipe_chain (l ++ [g (k_pv (K j sk b a cv (pipe_chain l) t tr n fl o)) rx])) t tr n fl o).
Proof.
  intros Ha Hj. cbn [crun]. rewrite Ha. unfold k_need, k_pvs, k_with_pv. cbn [K k_pv pv_regex]. rewrite Hj.
  cbn [obind' K k_pv k_stacks k_cur k_tok]. rewrite <- Hj. now rewrite add_pipe_chain.
Qed.

Lemma run_pipe x w l j sk b a cv t tr n fl o : pipe_ok x ->
  match pipe_meaning (regex_meaning E) x fl with
  | Some (m, fl') => exists j',
      crun E (w_pipe x ++ w) (K j sk b a cv (pipe_chain l) t tr n fl o) =
      crun E w (K j' sk b a cv (pipe_chain (l ++ [m])) t tr n fl' o)
  | None => crun E (w_pipe x ++ w) (K j sk b a cv (pipe_chain l) t tr n fl o) = None
  end.
Proof.
  intros Hx. unfold w_pipe. cbn [app]. rewrite crun_chr. set (j0 := j_chs _ j); clearbody j0.
  change (crun E (IAct 60 :: ?v) (K j0 sk b a cv (pipe_chain l) t tr n fl o))
    with (crun E v (K (j_start j0) sk b a cv (pipe_chain l) t tr n fl o)).
  destruct x as [|q| | | |q|q|r|r sp sp' q]; cbn [pipe_meaning pipe_ok] in *.
  - unfold ret. rewrite <- app_assoc, crun_chs. cbn [app]. eexists.
    rewrite (act_pipe 50 (fun _ => TrimPipe default_trim)) by reflexivity. reflexivity.
  - unfold ret. rewrite <- !app_assoc, crun_chs.
    destruct (run_quoted 8 q ([IChr ")"%char; IAct 51] ++ w) (j_chs (s "trim(") (j_start j0)) sk b a cv (pipe_chain l) t tr n fl o) as [j' [Hl [_ ->]]]; [now left|].
    cbn [app]. rewrite crun_chr. eexists. rewrite (act_pipe 51 (fun v => TrimPipe (pv_literal_value v))) by reflexivity.
    cbn [K k_pv pv_literal_value j_chs j_lit]. rewrite Hl. reflexivity.
  - unfold ret. rewrite <- app_assoc, crun_chs. cbn [app]. eexists.
    rewrite (act_pipe 52 (fun _ => CollapseWsPipe)) by reflexivity. reflexivity.
  - unfold ret. rewrite <- app_assoc, crun_chs. cbn [app]. eexists.
    rewrite (act_pipe 53 (fun _ => CasePipe true)) by reflexivity. reflexivity.
  - unfold ret. rewrite <- app_assoc, crun_chs. cbn [app]. eexists.
    rewrite (act_pipe 54 (fun _ => CasePipe false)) by reflexivity. reflexivity.
  - unfold ret. rewrite <- !app_assoc, crun_chs.
    destruct (run_quoted 8 q ([IChr ")"%char; IAct 55] ++ w) (j_chs (s "prepend(") (j_start j0)) sk b a cv (pipe_chain l) t tr n fl o) as [j' [Hl [_ ->]]]; [now left|].
    cbn [app]. rewrite crun_chr. eexists. rewrite (act_pipe 55 (fun v => PrependPipe (pv_literal_value v))) by reflexivity.
    cbn [K k_pv pv_literal_value j_chs j_lit]. rewrite Hl. reflexivity.
  - unfold ret. rewrite <- !app_assoc, crun_chs.
    destruct (run_quoted 8 q ([IChr ")"%char; IAct 56] ++ w) (j_chs (s "append(") (j_start j0)) sk b a cv (pipe_chain l) t tr n fl o) as [j' [Hl [_ ->]]]; [now left|].
    cbn [app]. rewrite crun_chr. eexists. rewrite (act_pipe 56 (fun v => AppendPipe (pv_literal_value v))) by reflexivity.
    cbn [K k_pv pv_literal_value j_chs j_lit]. rewrite Hl. reflexivity.
  - unfold bind. rewrite <- !app_assoc, crun_chs. cbn [app].
    pose proof (run_regex r (IChr ")"%char :: IAct 57 :: w) (j_chs (s "filter(") (j_start j0)) sk b a cv (pipe_chain l) t tr n fl o) as H.
    destruct (regex_meaning E r fl) as [[rx fl']|]; [|exact H]. destruct H as [j' [Hr ->]]. unfold ret. rewrite crun_chr. eexists.
    rewrite (act_pipe_rx 57 (fun _ rx => RegexPipe rx) rx) by (reflexivity || exact Hr). reflexivity.
  - unfold bind. rewrite <- !app_assoc, crun_chs. cbn [app]. rewrite <- !app_assoc. cbn [app].
    pose proof (run_regex r (chs sp ++ IChr ","%char :: chs sp' ++ w_quoted 4 q ++ IChr ")"%char :: IAct 58 :: w) (j_chs (s "replace(") (j_start j0)) sk b a cv (pipe_chain l) t tr n fl o) as H.
    destruct (regex_meaning E r fl) as [[rx fl']|]; [|exact H]. destruct H as [j1 [Hr ->]]. unfold ret. rewrite crun_chs, crun_chr, crun_chs.
    set (j2 := j_chs sp' _). assert (Hr2 : j_rx j2 = Some rx) by exact Hr.
    destruct (run_quoted 4 q (IChr ")"%char :: IAct 58 :: w) j2 sk b a cv (pipe_chain l) t tr n fl' o) as [j3 [Hl [Hr3 ->]]]; [now right|].
    rewrite crun_chr. eexists. rewrite (act_pipe_rx 58 (fun v rx => RegexReplacePipe rx (pv_literal_value v)) rx) by (reflexivity || (cbn [j_chs j_rx]; congruence)).
    cbn [K k_pv pv_literal_value j_chs j_lit]. rewrite Hl. reflexivity.
Qed.

Lemma run_pipes ps : forall w l j sk b a cv t tr n fl o, Forall pipe_ok ps ->
  match each (pipe_meaning (regex_meaning E)) ps fl with
  | Some (ms, fl') => exists j',
      crun E (flat_map w_pipe ps ++ w) (K j sk b a cv (pipe_chain l) t tr n fl o) =
      crun E w (K j' sk b a cv (pipe_chain (l ++ ms)) t tr n fl' o)
  | None => crun E (flat_map w_pipe ps ++ w) (K j sk b a cv (pipe_chain l) t tr n fl o) = None
  end.
Proof.
  induction ps as [|x ps IH]; intros w l j sk b a cv t tr n fl o Hl; cbn [each flat_map app].
  - unfold ret. rewrite app_nil_r. eauto.
  - inversion Hl as [|? ? Hx Hl']; subst. rewrite <- app_assoc.
    pose proof (run_pipe x (flat_map w_pipe ps ++ w) l j sk b a cv t tr n fl o Hx) as H.
    unfold bind. destruct (pipe_meaning (regex_meaning E) x fl) as [[m fl1]|]; [|exact H]. destruct H as [j1 ->].
    specialize (IH w (l ++ [m]) j1 sk b a cv t tr n fl1 o Hl'). destruct (each (pipe_meaning (regex_meaning E)) ps fl1) as [[ms fl2]|]; [|exact IH].
    destruct IH as [j2 ->]. unfold ret. exists j2. now rewrite <- app_assoc.
Qed.

Lemma run_capture ps nm w j sk b a cv t tr n fl o : Forall pipe_ok ps ->
  match each (pipe_meaning (regex_meaning E)) ps fl with
  | Some (ms, fl') => exists j',
      crun E (w_capture ps nm ++ w) (K j sk b a cv None t tr n fl o) =
      crun E w (K j' sk b a (cap_name_meaning nm) (pipe_chain ms) t tr n fl' o)
  | None => crun E (w_capture ps nm ++ w) (K j sk b a cv None t tr n fl o) = None
  end.
Proof.
  intros Hps. unfold w_capture. rewrite <- app_assoc. cbn [app].
  pose proof (run_pipes ps (IChr ":"%char :: w_cap_name nm ++ w) [] j sk b a cv t tr n fl o Hps) as H. cbn [pipe_chain app] in H.
  destruct (each (pipe_meaning (regex_meaning E)) ps fl) as [[ms fl']|]; [|exact H]. destruct H as [j1 ->]. rewrite crun_chr. set (j2 := j_chs _ j1); clearbody j2.
  destruct nm as [q|x]; cbn [w_cap_name cap_name_meaning].
  - rewrite <- app_assoc.
    destruct (run_quoted 8 q ([IAct 59] ++ w) j2 sk b a cv (pipe_chain ms) t tr n fl' o) as [j3 [Hl [_ ->]]]; [now left|].
    exists j3. rewrite <- Hl. reflexivity.
  - cbn [app]. rewrite <- app_assoc.
    change (crun E (IAct 60 :: ?v) (K j2 sk b a cv (pipe_chain ms) t tr n fl' o))
      with (crun E v (K (j_start j2) sk b a cv (pipe_chain ms) t tr n fl' o)).
    rewrite crun_chs. exists (mk_junk (j_nth j2) (j_lit j2) (j_rx j2) (Some x) x). reflexivity.
Qed.

Lemma run_test v w j sk b a cv p t tr n fl o :
  match value_test_meaning (regex_meaning E) v fl with
  | Some (m, fl') => exists j',
      crun E (w_test v ++ w) (K j sk b a cv p t tr n fl o) = crun E w (K j' sk b a cv p (Some m) tr n fl' o)
  | None => crun E (w_test v ++ w) (K j sk b a cv p t tr n fl o) = None
  end.
Proof.
  destruct v as [r|op q]; cbn [value_test_meaning w_test].
  - unfold w_regex_test. rewrite <- !app_assoc, crun_chs. cbn [app].
    pose proof (run_regex r (IAct 28 :: w) (j_chs (s "=~") j) sk b a cv p t tr n fl o) as H. unfold bind.
    destruct (regex_meaning E r fl) as [[rx fl']|]; [|exact H]. destruct H as [j' [Hr ->]]. unfold ret.
    exists j'. cbn [crun kaction]. unfold k_need. cbn [K k_pv pv_regex]. rewrite Hr. cbn [obind' k_pvs]. unfold k_with_pv.
    cbn [k_pv set_test k_stacks k_cur k_tok]. reflexivity.
  - unfold w_literal_test. destruct op; unfold ret; rewrite <- !app_assoc, crun_chs;
    match goal with |- context [crun E (w_quoted ?a0 q ++ ?v) (K ?j0 _ _ _ _ _ _ _ _ _ _)] =>
      destruct (run_quoted a0 q v j0 sk b a cv p t tr n fl o) as [j' [Hl [_ ->]]]; [auto|] end;
    exists j'; rewrite <- Hl; reflexivity.
Qed.

Lemma run_attr_name x w j sk b a cv p t tr n fl o : exists j',
  crun E (w_attr_name x ++ w) (K j sk b a cv p t tr n fl o) = crun E w (K j' sk b x cv p t tr n fl o).
Proof.
  unfold w_attr_name. cbn [app]. rewrite <- app_assoc.
  change (crun E (IAct 2 :: ?v) (K j sk b a cv p t tr n fl o)) with (crun E v (K (j_start j) sk b a cv p t tr n fl o)).
  rewrite crun_chs. exists (mk_junk (j_nth j) (j_lit j) (j_rx j) (Some x) x). reflexivity.
Qed.

Lemma run_builtin x w j sk b a cv p t tr n fl o : exists j',
  crun E (w_builtin x ++ w) (K j sk b a cv p t tr n fl o) = crun E w (K j' sk (Some (builtin_meaning x)) a cv p t tr n fl o).
Proof.
  unfold w_builtin. rewrite <- app_assoc. rewrite crun_chs. exists (j_chs (builtin_text x) j). destruct x; reflexivity.
Qed.

Lemma run_negate ng w j sk b a cv p t tr n fl o : exists j',
  crun E (w_negate ng ++ w) (K j sk b a cv p t tr n fl o) = crun E w (K j' sk b a cv p (negated_test ng t) tr n fl o).
Proof. destruct ng; [exists (j_chs ["!"%char] j)|exists j]; reflexivity. Qed.

Lemma run_optional op w j sk b a cv p t tr n fl : exists j',
  crun E (w_optional op ++ w) (K j sk b a cv p t tr n fl false) = crun E w (K j' sk b a cv p t tr n fl op).
Proof. destruct op; [exists (j_chs ["?"%char] j)|exists j]; reflexivity. Qed.

(** Between two patterns. *)
Definition Idle (k : kst) sk fl : Prop := exists j b a cv, k = K j sk b a cv None None None None fl false.

Lemma idle_reset k : exists j, k_with_pv k (pv_reset (k_pv k)) = K j (k_stacks k) None [] [] None None None None no_flags false.
Proof. eexists (mk_junk _ _ _ _ _). act. reflexivity. Qed.

Lemma run_pattern x w k r u rest fl : pattern_ok x -> Idle k ((r :: u) :: rest) fl ->
  match pattern_meaning (regex_meaning E) x fl with
  | Some (mc, fl') => exists k', crun E (w_pattern x ++ w) k = crun E w k' /\ Idle k' ((add_mc mc r :: u) :: rest) fl'
  | None => crun E (w_pattern x ++ w) k = None
  end.
Proof.
  intros Hx [j [b [a [cv ->]]]]. unfold pattern_meaning.
  destruct x as [bi ps nm|bi v ng|an ps nm op|an v ng|an ng]; cbn [pattern_ok w_pattern] in *.
  - rewrite <- !app_assoc. destruct (run_builtin bi (w_capture ps nm ++ [IAct 67; IAct 75] ++ w) j ((r :: u) :: rest) b a cv None None None None fl false) as [j1 ->].
    pose proof (run_capture ps nm ([IAct 67; IAct 75] ++ w) j1 ((r :: u) :: rest) (Some (builtin_meaning bi)) a cv None None None fl false (proj1 Hx)) as H.
    unfold bind. destruct (each (pipe_meaning (regex_meaning E)) ps fl) as [[ms fl']|]; [|exact H]. destruct H as [j2 ->]. unfold ret.
    eexists. split; [reflexivity|]. rewrite <- append_capture_mc. eexists (mk_junk _ _ _ _ _), _, _, _. act. reflexivity.
  - rewrite <- !app_assoc. match goal with |- context [crun E (w_builtin bi ++ ?v') _] => destruct (run_builtin bi v' j ((r :: u) :: rest) b a cv None None None None fl false) as [j1 ->] end.
    match goal with |- context [crun E (w_test v ++ ?v') _] => pose proof (run_test v v' j1 ((r :: u) :: rest) (Some (builtin_meaning bi)) a cv None None None None fl false) as H end.
    unfold bind. destruct (value_test_meaning (regex_meaning E) v fl) as [[m fl']|]; [|exact H]. destruct H as [j2 ->]. unfold ret.
    match goal with |- context [crun E (w_negate ng ++ ?v') _] => destruct (run_negate ng v' j2 ((r :: u) :: rest) (Some (builtin_meaning bi)) a cv None (Some m) None None fl' false) as [j3 ->] end.
    eexists. split; [destruct v; reflexivity|]. rewrite <- append_match_mc. eexists (mk_junk _ _ _ _ _), _, _, _. act. reflexivity.
  - rewrite <- !app_assoc. match goal with |- context [crun E (w_attr_name an ++ ?v') _] => destruct (run_attr_name an v' j ((r :: u) :: rest) b a cv None None None None fl false) as [j1 ->] end.
    match goal with |- context [crun E (w_capture ps nm ++ ?v') _] =>
      pose proof (run_capture ps nm v' j1 ((r :: u) :: rest) b an cv None None None fl false (proj1 (proj2 Hx))) as H end.
    unfold bind. destruct (each (pipe_meaning (regex_meaning E)) ps fl) as [[ms fl']|]; [|exact H]. destruct H as [j2 ->]. unfold ret.
    match goal with |- context [crun E (w_optional op ++ ?v') _] => destruct (run_optional op v' j2 ((r :: u) :: rest) b an (cap_name_meaning nm) (pipe_chain ms) None None None fl') as [j3 ->] end.
    eexists. split; [reflexivity|].
    replace (add_mc (if op then [] else [AttributeMatch an None], [AttributeCapture an (cap_name_meaning nm) (pipe_chain ms)]) r)
      with (let r1 := append_capture r (Some (AttributeCapture an (cap_name_meaning nm) (pipe_chain ms))) in
            if op then r1 else append_match r1 (Some (AttributeMatch an None))).
    2:{ cbv zeta. destruct op; [now rewrite append_capture_mc|]. now rewrite append_capture_mc, append_match_mc, add_mc_app. }
    destruct op; eexists (mk_junk _ _ _ _ _), _, _, _; act; reflexivity.
  - rewrite <- !app_assoc. match goal with |- context [crun E (w_attr_name an ++ ?v') _] => destruct (run_attr_name an v' j ((r :: u) :: rest) b a cv None None None None fl false) as [j1 ->] end.
    match goal with |- context [crun E (w_test v ++ ?v') _] => pose proof (run_test v v' j1 ((r :: u) :: rest) b an cv None None None None fl false) as H end.
    unfold bind. destruct (value_test_meaning (regex_meaning E) v fl) as [[m fl']|]; [|exact H]. destruct H as [j2 ->]. unfold ret.
    match goal with |- context [crun E (w_negate ng ++ ?v') _] => destruct (run_negate ng v' j2 ((r :: u) :: rest) b an cv None (Some m) None None fl' false) as [j3 ->] end.
    eexists. split; [destruct v; reflexivity|]. rewrite <- append_match_mc. eexists (mk_junk _ _ _ _ _), _, _, _. act. reflexivity.
  - unfold bind, ret. rewrite <- app_assoc. cbn [app]. rewrite <- app_assoc.
    match goal with |- context [crun E (w_attr_name an ++ ?v') _] => destruct (run_attr_name an v' j ((r :: u) :: rest) b a cv None None None None fl false) as [j1 ->] end.
    change (crun E (IAct 73 :: ?v) (K j1 ((r :: u) :: rest) b an cv None None None None fl false)) with (crun E v (K j1 ((r :: u) :: rest) b an cv None None None None fl false)).
    match goal with |- context [crun E (w_negate ng ++ ?v') _] => destruct (run_negate ng v' j1 ((r :: u) :: rest) b an cv None None None None fl false) as [j3 ->] end.
    eexists. split; [reflexivity|]. rewrite <- append_match_mc. eexists (mk_junk _ _ _ _ _), _, _, _. act. reflexivity.
Qed.

Lemma idle_chs x w k sk fl : Idle k sk fl -> exists k', crun E (chs x ++ w) k = crun E w k' /\ Idle k' sk fl.
Proof. intros [j [b [a [cv ->]]]]. rewrite crun_chs. eexists. split; [reflexivity|]. eexists _, _, _, _. reflexivity. Qed.

Lemma run_patterns l : forall w k r u rest fl, Forall spaced_ok l -> Idle k ((r :: u) :: rest) fl ->
  match each (fun sp => pattern_meaning (regex_meaning E) (snd sp)) l fl with
  | Some (mcs, fl') => exists k', crun E (flat_map w_spaced l ++ w) k = crun E w k' /\ Idle k' ((add_mcs mcs r :: u) :: rest) fl'
  | None => crun E (flat_map w_spaced l ++ w) k = None
  end.
Proof.
  induction l as [|[sp x] l IH]; intros w k r u rest fl Hl Hk; cbn [each flat_map app snd].
  - unfold ret. eauto.
  - inversion Hl as [|? ? Hx Hl']; subst. destruct Hx as [_ [_ Hx]]. cbn [snd] in Hx. unfold w_spaced at 1 3. cbn [fst snd]. rewrite <- !app_assoc.
    destruct (idle_chs sp (w_pattern x ++ flat_map w_spaced l ++ w) k _ _ Hk) as [k1 [-> Hk1]].
    pose proof (run_pattern x (flat_map w_spaced l ++ w) k1 r u rest fl Hx Hk1) as H.
    unfold bind. destruct (pattern_meaning (regex_meaning E) x fl) as [[mc fl1]|]; [|exact H]. destruct H as [k2 [-> Hk2]].
    specialize (IH w k2 (add_mc mc r) u rest fl1 Hl' Hk2). destruct (each (fun sp0 => pattern_meaning (regex_meaning E) (snd sp0)) l fl1) as [[mcs fl2]|]; [|exact IH].
    unfold ret. exact IH.
Qed.

(** ** Opening tags *)

Lemma name_no_nul x : is_tag_name x -> c_str x = x.
Proof.
  assert (H : forall x, all_in is_name_char x -> c_str x = x).
  { clear x. intros x. induction x as [|c x IH]; intros H; [reflexivity|]. cbn [c_str]. destruct (Ascii.eqb_spec c NUL) as [->|_].
    - specialize (H NUL (or_introl eq_refl)). discriminate.
    - f_equal. apply IH. intros d Hd. apply H. now right. }
  intros [->|[c [x' [-> [H1 H2]]]]]; [reflexivity|]. apply H. intros d [<-|Hd]; [|auto]. unfold is_name_char. now rewrite H1.
Qed.

Lemma set_open_head x r : is_tag_name x ->
  set_open' x (mk_rule None None [] [] [] TAG_ANY (r_optional r) (r_greedy r) None) =
  mk_rule None None [] [] [] (tag_of_name x) (r_optional r) (r_greedy r)
    (if (tag_of_name x =? TAG_UNKNOWN)%N then Some x else None).
Proof.
  intros Hx. unfold set_open', tag_of_name, is_star. destruct (str_eqb x (s "*")) eqn:Ex; [reflexivity|].
  rewrite name_no_nul by exact Hx. cbv zeta. destruct (gumbo_tag_enum x =? TAG_UNKNOWN)%N; reflexivity.
Qed.

Lemma run_options l : forall w j o0 g0 u rest b a cv p t tr n fl o,
  exists j', crun E (flat_map w_option l ++ w) (K j ((mk_rule None None [] [] [] TAG_ANY o0 g0 None :: u) :: rest) b a cv p t tr n fl o) =
    crun E w (K j' ((mk_rule None None [] [] [] TAG_ANY (o0 || has_option OptOptional l) (g0 || has_option OptGreedy l) None :: u) :: rest) b a cv p t tr n fl o).
Proof.
  induction l as [|x l IH]; intros; cbn [flat_map].
  - exists j. cbn [has_option existsb app]. now rewrite !orb_false_r.
  - rewrite <- app_assoc. destruct x; cbn [w_option app].
    + destruct (IH w (j_chs ["?"%char] j) true g0 u rest b a cv p t tr n fl o) as [j' H]. exists j'.
      change (crun E (IChr "?"%char :: IAct 77 :: ?v) (K j ((mk_rule None None [] [] [] TAG_ANY o0 g0 None :: u) :: rest) b a cv p t tr n fl o))
        with (crun E v (K (j_chs ["?"%char] j) ((mk_rule None None [] [] [] TAG_ANY true g0 None :: u) :: rest) b a cv p t tr n fl o)).
      rewrite H. unfold has_option. cbn [existsb orb]. now rewrite orb_true_r.
    + destruct (IH w (j_chs ["+"%char] j) o0 true u rest b a cv p t tr n fl o) as [j' H]. exists j'.
      change (crun E (IChr "+"%char :: IAct 78 :: ?v) (K j ((mk_rule None None [] [] [] TAG_ANY o0 g0 None :: u) :: rest) b a cv p t tr n fl o))
        with (crun E v (K (j_chs ["+"%char] j) ((mk_rule None None [] [] [] TAG_ANY o0 true None :: u) :: rest) b a cv p t tr n fl o)).
      rewrite H. unfold has_option. cbn [existsb orb]. now rewrite orb_true_r.
Qed.

Lemma head_rule_add h ms mcs :
  add_mcs mcs (add_mc (ms, []) (mk_rule None None [] [] [] (tag_of_name (h_name h)) (has_option OptOptional (h_options h))
    (has_option OptGreedy (h_options h)) (if (tag_of_name (h_name h) =? TAG_UNKNOWN)%N then Some (h_name h) else None))) =
  head_rule h None [] ms mcs.
Proof. rewrite add_mcs_flat, add_mc_app. unfold head_rule, add_mc. cbn [fst snd app map]. reflexivity. Qed.

Lemma run_open h w k u rest fl : head_ok h -> Idle k (u :: rest) fl ->
  match head_meaning (regex_meaning E) h fl with
  | Some (f, fl') => exists k',
      crun E (IChr "<"%char :: IAct 76 :: flat_map w_option (h_options h) ++ IAct 79 :: chs (h_name h) ++ IAct 80 ::
              flat_map w_condition (h_conditions h) ++ flat_map w_spaced (h_patterns h) ++ chs (h_space h) ++ w) k = crun E w k' /\
      Idle k' ((f None [] :: u) :: rest) fl'
  | None => crun E (IChr "<"%char :: IAct 76 :: flat_map w_option (h_options h) ++ IAct 79 :: chs (h_name h) ++ IAct 80 ::
              flat_map w_condition (h_conditions h) ++ flat_map w_spaced (h_patterns h) ++ chs (h_space h) ++ w) k = None
  end.
Proof.
  intros [Hn [Hc [Hp Hs]]] [j [b [a [cv ->]]]].
  set (W := flat_map w_condition (h_conditions h) ++ flat_map w_spaced (h_patterns h) ++ chs (h_space h) ++ w).
  assert (HH : exists j0, crun E (IChr "<"%char :: IAct 76 :: flat_map w_option (h_options h) ++ IAct 79 :: chs (h_name h) ++ IAct 80 :: W)
      (K j (u :: rest) b a cv None None None None fl false) =
    crun E W (K j0 ((mk_rule None None [] [] [] (tag_of_name (h_name h)) (has_option OptOptional (h_options h))
      (has_option OptGreedy (h_options h)) (if (tag_of_name (h_name h) =? TAG_UNKNOWN)%N then Some (h_name h) else None) :: u) :: rest) b a cv None None None None fl false)).
  { change (crun E (IChr "<"%char :: IAct 76 :: ?v) (K j (u :: rest) b a cv None None None None fl false))
      with (crun E v (K (j_chs ["<"%char] j) ((mk_rule None None [] [] [] TAG_ANY false false None :: u) :: rest) b a cv None None None None fl false)).
    destruct (run_options (h_options h) (IAct 79 :: chs (h_name h) ++ IAct 80 :: W) (j_chs ["<"%char] j) false false u rest b a cv None None None None fl false) as [j1 ->].
    cbn [orb]. set (o' := has_option OptOptional (h_options h)). set (g' := has_option OptGreedy (h_options h)).
    change (crun E (IAct 79 :: ?v) (K j1 ?sk b a cv None None None None fl false)) with (crun E v (K (j_start j1) sk b a cv None None None None fl false)).
    rewrite crun_chs. pose proof (set_open_head (h_name h) (mk_rule None None [] [] [] TAG_ANY o' g' None) Hn) as HO. cbn [r_optional r_greedy] in HO.
    rewrite <- HO. exists (mk_junk (j_nth j1) (j_lit j1) (j_rx j1) (Some (h_name h)) (h_name h)). reflexivity. }
  destruct HH as [j0 ->]. unfold W, head_meaning, bind.
  match goal with |- context [K j0 ((?r0 :: u) :: rest)] => set (r := r0) end.
  pose proof (run_conditions (h_conditions h) (flat_map w_spaced (h_patterns h) ++ chs (h_space h) ++ w) j0 r u rest b a cv None None fl false Hc) as H1.
  destruct (each (condition_meaning (regex_meaning E)) (h_conditions h) fl) as [[ms fl1]|]; [|exact H1]. destruct H1 as [j1 ->].
  assert (HI : Idle (K j1 ((add_mc (ms, []) r :: u) :: rest) b a cv None None None None fl1 false) ((add_mc (ms, []) r :: u) :: rest) fl1) by (eexists _, _, _, _; reflexivity).
  pose proof (run_patterns (h_patterns h) (chs (h_space h) ++ w) _ _ _ _ _ Hp HI) as H2.
  destruct (each (fun sp => pattern_meaning (regex_meaning E) (snd sp)) (h_patterns h) fl1) as [[mcs fl2]|]; [|exact H2]. destruct H2 as [k2 [-> Hk2]].
  unfold ret. destruct (idle_chs (h_space h) w k2 _ _ Hk2) as [k3 [-> Hk3]]. exists k3. split; [reflexivity|].
  unfold r in Hk3. now rewrite head_rule_add in Hk3.
Qed.

(** ** Tokens *)

Definition tstep (t : token) (z : list (list rule) * flags) : option (list (list rule) * flags) :=
  let (sk, fl) := z in
  match t with
  | TSpace _ | TComment _ => Some (sk, fl)
  | TBegin => option_map (fun sk' => (sk', fl)) (push_nested' sk)
  | TEnd => option_map (fun sk' => (sk', fl)) (pop_nested' sk)
  | TOpen h closed =>
      match head_meaning (regex_meaning E) h fl with
      | Some (f, fl') =>
          option_map (fun sk' => (sk', fl')) (obind' (push_rule' (f None []) sk) (fun sk' => if closed then pop_rule' sk' else Some sk'))
      | None => None
      end
  | TClose name => option_map (fun sk' => (sk', fl)) (obind' (check_close' name sk) pop_rule')
  end.
Fixpoint trun (ts : list token) (z : list (list rule) * flags) : option (list (list rule) * flags) :=
  match ts with [] => Some z | t :: ts' => obind' (tstep t z) (trun ts') end.

Lemma idle_stacked f k sk fl : Idle k sk fl ->
  match f sk with Some sk' => exists k', k_stacked f k = Some k' /\ Idle k' sk' fl | None => k_stacked f k = None end.
Proof.
  intros [j [b [a [cv ->]]]]. unfold k_stacked. cbn [K k_stacks]. destruct (f sk) as [sk'|]; [|reflexivity].
  eexists. split; [reflexivity|]. eexists _, _, _, _. reflexivity.
Qed.

Lemma run_token t k sk fl : token_ok t -> sk <> [] -> Idle k sk fl ->
  match tstep t (sk, fl) with
  | Some (sk', fl') => exists k', crun E (w_token t) k = Some k' /\ Idle k' sk' fl'
  | None => crun E (w_token t) k = None
  end.
Proof.
  intros Ht Hsk Hk. destruct t as [c|x| | |h closed|name]; cbn [token_ok tstep w_token] in *.
  - destruct (idle_chs [c] [] k sk fl Hk) as [k' [H1 H2]]. exists k'. split; [exact H1|exact H2].
  - destruct (idle_chs ("#"%char :: x ++ [newline]) [] k sk fl Hk) as [k' [H1 H2]]. exists k'. split; [|exact H2].
    rewrite app_nil_r in H1. cbn [chs map] in H1. fold (chs (x ++ [newline])) in H1. rewrite chs_app in H1. exact H1.
  - destruct (idle_chs ["{"%char] [IAct 86] k sk fl Hk) as [k1 [H1 Hk1]]. cbn [chs map app] in H1. rewrite H1.
    cbn [crun kaction]. pose proof (idle_stacked push_nested' k1 sk fl Hk1) as H. destruct (push_nested' sk) as [sk'|]; cbn [option_map].
    + destruct H as [k2 [-> Hk2]]. exists k2. auto.
    + now rewrite H.
  - destruct (idle_chs ["}"%char] [IAct 87] k sk fl Hk) as [k1 [H1 Hk1]]. cbn [chs map app] in H1. rewrite H1.
    cbn [crun kaction]. pose proof (idle_stacked pop_nested' k1 sk fl Hk1) as H. destruct (pop_nested' sk) as [sk'|]; cbn [option_map].
    + destruct H as [k2 [-> Hk2]]. exists k2. auto.
    + now rewrite H.
  - destruct sk as [|u rest]; [contradiction|]. unfold w_open.
    pose proof (run_open h (if closed then chs (s "/>") ++ [IAct 83] else [IChr ">"%char]) k u rest fl Ht Hk) as H.
    destruct (head_meaning (regex_meaning E) h fl) as [[f fl']|]; [|exact H]. destruct H as [k1 [-> Hk1]]. cbn [push_rule' obind'].
    destruct closed.
    + destruct (idle_chs (s "/>") [IAct 83] k1 _ _ Hk1) as [k2 [-> Hk2]].
      cbn [crun kaction]. pose proof (idle_stacked pop_rule' k2 _ fl' Hk2) as H. destruct (pop_rule' _) as [sk'|]; cbn [option_map].
      * destruct H as [k3 [-> Hk3]]. exists k3. auto.
      * now rewrite H.
    + cbn [option_map]. destruct (idle_chs [">"%char] [] k1 _ _ Hk1) as [k2 [H2 Hk2]]. exists k2. auto.
  - unfold w_close. destruct (idle_chs (s "</") (IAct 84 :: chs name ++ [IAct 85; IChr ">"%char]) k sk fl Hk) as [k1 [-> Hk1]].
    destruct Hk1 as [j [b [a [cv ->]]]].
    change (crun E (IAct 84 :: ?v) (K j sk b a cv None None None None fl false)) with (crun E v (K (j_start j) sk b a cv None None None None fl false)).
    rewrite crun_chs. set (j1 := j_chs name (j_start j)). cbn [crun kaction].
    assert (HS : k_stop (K j1 sk b a cv None None None None fl false) =
      Some (K (mk_junk (j_nth j) (j_lit j) (j_rx j) (Some name) name) sk b a cv None None None None fl false)) by reflexivity.
    rewrite HS. cbn [obind']. set (j2 := mk_junk _ _ _ _ _).
    assert (HI : Idle (K j2 sk b a cv None None None None fl false) sk fl) by (eexists _, _, _, _; reflexivity).
    change (k_tok (K j2 sk b a cv None None None None fl false)) with name.
    pose proof (idle_stacked (check_close' name) _ _ _ HI) as H. destruct (check_close' name sk) as [sk1|]; cbn [obind' option_map]; [|now rewrite H].
    destruct H as [k2 [-> Hk2]]. cbn [obind']. pose proof (idle_stacked pop_rule' _ _ _ Hk2) as H. destruct (pop_rule' sk1) as [sk2|]; cbn [option_map]; [|now rewrite H].
    destruct H as [k3 [-> Hk3]]. cbn [obind']. destruct (idle_chs [">"%char] [] k3 _ _ Hk3) as [k4 [H4 Hk4]]. exists k4. auto.
Qed.

Lemma tstep_nonempty t sk fl sk' fl' : tstep t (sk, fl) = Some (sk', fl') -> sk <> [] -> sk' <> [].
Proof.
  intros H Hsk. destruct t as [c|x| | |h closed|name]; cbn [tstep] in H.
  - congruence.
  - congruence.
  - destruct sk as [|[|r t] rest]; cbn in H; try discriminate. injection H as <- <-. discriminate.
  - destruct sk as [|[|r t] [|[|n [|n' t']] [|[|r' t''] rest]]]; cbn in H; try discriminate. injection H as <- <-. discriminate.
  - destruct (head_meaning (regex_meaning E) h fl) as [[f fl1]|]; [|discriminate]. destruct sk as [|u rest]; [contradiction|]. cbn [push_rule' obind'] in H.
    destruct closed; [|injection H as <- <-; discriminate].
    destruct u as [|r u]; cbn [pop_rule'] in H; [destruct rest as [|[|]]; try discriminate|]; injection H as <- <-; discriminate.
  - destruct sk as [|[|r u] rest]; cbn [check_close' obind'] in H; try discriminate. destruct (closes' r name); [|discriminate]. cbn [obind'] in H.
    destruct u as [|r' u]; cbn [pop_rule'] in H; [destruct rest as [|[|]]; try discriminate|]; injection H as <- <-; discriminate.
Qed.

Lemma run_tokens ts : forall k sk fl, Forall token_ok ts -> sk <> [] -> Idle k sk fl ->
  match trun ts (sk, fl) with
  | Some (sk', fl') => exists k', crun E (flat_map w_token ts) k = Some k' /\ Idle k' sk' fl'
  | None => crun E (flat_map w_token ts) k = None
  end.
Proof.
  induction ts as [|t ts IH]; intros k sk fl Ht Hsk Hk; cbn [trun flat_map].
  - exists k. auto.
  - inversion Ht as [|? ? H1 H2]; subst. rewrite crun_app. pose proof (run_token t k sk fl H1 Hsk Hk) as H.
    destruct (tstep t (sk, fl)) as [[sk1 fl1]|] eqn:Et; cbn [obind']; [|now rewrite H]. destruct H as [k1 [-> Hk1]]. cbn [obind'].
    apply IH; auto. eapply tstep_nonempty; eauto.
Qed.

Theorem parse_tokens x r : ParseHext E x = Ok r <->
  exists ts sk fl, Forall token_ok ts /\ flat_map token_text ts = x /\ trun ts ([[]; []], no_flags) = Some (sk, fl) /\ finish' sk = Some r.
Proof.
  assert (HI : Idle k_initial [[]; []] no_flags) by (eexists (mk_junk _ _ _ _ _), _, _, _; reflexivity).
  assert (HN : [[]; []] <> @nil (list rule)) by discriminate.
  rewrite parse_word. split.
  - intros [w [k [HL [Hc [Hr Hf]]]]]. apply L_tokens in HL as [ts [Hts ->]]. rewrite chars_tokens in Hc by exact Hts.
    pose proof (run_tokens ts k_initial _ _ Hts HN HI) as H. destruct (trun ts ([[]; []], no_flags)) as [[sk fl]|] eqn:Et; [|congruence].
    destruct H as [k' [H Hk']]. rewrite Hr in H. injection H as <-. destruct Hk' as [j [b [a [cv ->]]]]. exists ts, sk, fl. auto.
  - intros [ts [sk [fl [Hts [Hx [Hr Hf]]]]]]. pose proof (run_tokens ts k_initial _ _ Hts HN HI) as H. rewrite Hr in H.
    destruct H as [k [H Hk]]. exists (flat_map w_token ts), k. split; [apply L_tokens; eauto|]. rewrite chars_tokens by exact Hts.
    split; [exact Hx|]. split; [exact H|]. destruct Hk as [j [b [a [cv ->]]]]. exact Hf.
Qed.

End Run.
