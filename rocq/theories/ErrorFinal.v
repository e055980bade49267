(** Errors of longer texts. *)

From Coq Require Import Ascii String NArith ZArith Bool List Lia.
From Verif Require Import Base StringUtil StringSpec StringProofs Tags Dom NodeUtil Values ValueProofs Match Rule Regular RegularProofs ParserTables Parser MachineRows Grammar GrammarSpec GrammarCheck
  GrammarProofs GrammarTexts TextSpec LocationProofs SafetyCheck ParserSpec SafetyProofs ParserSafety
  SyntaxSpec SyntaxWords SyntaxRun SyntaxMeaning SyntaxTree SyntaxProofs ErrorSpec ErrorRun ErrorParts ErrorPlaces ErrorProofs ErrorTexts ErrorExact FinalSpec.
Import ListNotations.

Section Final.

Variable E : engine.

(** ** Places *)

(** Text that does not change whether there are markers. *)
Definition same_marks (x y : str) : Prop := (forall c, In c y -> is_ascii c) \/ exists c, In c x /\ ~ is_ascii c.

Lemma negative_char c : (char_to_int c <? 0)%Z = true <-> ~ is_ascii c.
Proof.
  unfold char_to_int, is_ascii. pose proof (byte_bound c). destruct (Z.ltb_spec (Z.of_N (N_of_ascii c)) 128); rewrite Z.ltb_lt; lia.
Qed.

Lemma place_grows x y k mark : k < length x -> same_marks x y -> print_error_location (x ++ y) k mark = print_error_location x k mark.
Proof.
  intros Hk HS. unfold print_error_location. rewrite app_length.
  destruct (Nat.ltb_spec (length x + length y) k); [lia|]. destruct (Nat.ltb_spec (length x) k); [lia|].
  destruct (Nat.eqb_spec k (length x + length y)); [lia|]. destruct (Nat.eqb_spec k (length x)); [lia|].
  rewrite !firstn_app, nth_error_app1 by exact Hk. replace (k - length x) with 0 by lia. replace (k + 1 - length x) with 0 by lia. cbn [firstn]. rewrite !app_nil_r.
  replace (existsb (fun c => (char_to_int c <? 0)%Z) (x ++ y)) with (existsb (fun c => (char_to_int c <? 0)%Z) x); [reflexivity|].
  rewrite existsb_app. destruct (existsb _ x) eqn:E1; [reflexivity|]. cbn [orb]. symmetry. destruct HS as [HS|[c [Hc HN]]].
  - apply not_true_iff_false. intros H'. apply existsb_exists in H' as [c [Hc HN]]. apply negative_char in HN. now apply HN, HS.
  - exfalso. apply not_true_iff_false in E1. apply E1, existsb_exists. exists c. split; [exact Hc|]. now apply negative_char.
Qed.

Lemma points_grow x y u mark loc : points_at x u mark loc -> exists loc', points_at (x ++ y) u mark loc' /\ (same_marks x y -> loc' = loc).
Proof.
  intros HP. pose proof (points_unique _ _ _ _ HP) as HU. destruct HP as [before [line [c [Hu [Hc [_ [v [Hx _]]]]]]]]. rewrite app_assoc in Hu.
  exists (print_error_location (x ++ y) (length (before ++ line)) mark). split.
  - rewrite Hu. apply (points_here (x ++ y) (before ++ line) c (v ++ y) mark); [|exact Hc]. rewrite Hx, Hu, <- !app_assoc. reflexivity.
  - intros HS. assert (HL : length u = S (length (before ++ line))) by (rewrite Hu, (app_length (before ++ line)); cbn; lia).
    rewrite HU, HL. replace (S (length (before ++ line)) - 1) with (length (before ++ line)) by lia. apply place_grows; [|exact HS].
    rewrite Hx, (app_length u). lia.
Qed.

(** ** Texts that go on *)

Definition continued : bool := forallb (fun q =>
  (q =? hext_error)%N ||
  match machine_eof q with
  | Ok l => forallb (fun e => (e_to e =? hext_error)%N || thread_eqb l [88%N] || thread_eqb l (firstn (length l) (e_acts e))) (row q)
  | _ => false
  end) (MachineRows.below state_count).
Lemma continued_ok : continued = true.
Proof. vm_compute. reflexivity. Qed.

Lemma goes_on q c q' acts l : state q -> machine_step q c = Ok (q', acts) -> q' <> hext_error -> machine_eof q = Ok l -> l <> [88%N] ->
  exists acts', acts = l ++ acts'.
Proof.
  intros [Hq Hq0] Hs Hq' He Hl. pose proof (proj1 (forallb_forall _ _) continued_ok q (below_spec _ _ Hq)) as H. cbn beta in H.
  destruct (N.eqb_spec q hext_error); [contradiction|]. cbn [orb] in H. rewrite He in H.
  destruct (row_step q c Hq) as [e [Hin [_ [_ Hse]]]]. rewrite Hs in Hse. injection Hse as -> ->.
  pose proof (proj1 (forallb_forall _ _) H e Hin) as HE. cbn beta in HE.
  destruct (N.eqb_spec (e_to e) hext_error); [contradiction|]. cbn [orb] in HE. apply orb_true_iff in HE as [HE|HE]; apply thread_eqb_eq in HE; [contradiction|].
  exists (skipn (length l) (e_acts e)). rewrite HE at 1. symmetry. apply firstn_skipn.
Qed.

(** The words of a text and of one that goes on. *)
Lemma word_goes_on w x c : L G_exact w -> chars w = x -> prefix_of G (x ++ [c]) ->
  exists w', L G_exact (w ++ w') /\ firstn 1 (chars w') = [c].
Proof.
  intros HL Hc HP. destruct (X_run w HL) as [tr [q [l [Hw [Hl Ew]]]]]. rewrite Hc in Hw, Ew. pose proof (walk_length _ _ _ _ Hw) as HT.
  destruct HP as [z Hz]. rewrite <- app_assoc in Hz. cbn [app] in Hz. destruct (text_word _ Hz) as [tr' [q' [l' [Hw' [Hl' HX']]]]].
  apply walk_app in Hw' as [tr1 [q1 [tr2 [H1 [H2 ->]]]]]. rewrite Hw in H1. injection H1 as <- <-.
  rewrite (weave_app _ _ _ _ HT) in HX'. cbn [walk] in H2. destruct (machine_step q c) as [[qc acts]| | |] eqn:Es; try discriminate.
  destruct (qc =? hext_error)%N eqn:Eq; [discriminate|]. destruct (walk qc z) as [[trz qz]|] eqn:Ez; [|discriminate]. injection H2 as <- <-.
  assert (Hq : state q) by exact (walk_state lG cG acts_union check_G x _ _ _ start_state Hw).
  apply N.eqb_neq in Eq. destruct (goes_on q c qc acts l Hq Es Eq Hl) as [acts' ->].
  { intros ->. apply (no_error_mark w HL). rewrite Ew. apply in_or_app. right. now left. }
  exists (map IAct acts' ++ IChr c :: weave trz z ++ map IAct l'). split.
  - rewrite Ew. cbn [weave] in HX'. rewrite map_app in HX'. rewrite <- !app_assoc in *. exact HX'.
  - rewrite chars_app, chars_acts, chars_cons_chr. reflexivity.
Qed.

Lemma text_begins ts u y : Forall token_ok ts -> tokens_text ts = u ++ y -> prefix_of G u.
Proof.
  intros Hok Ht. assert (HL : L G_exact (words ts)) by (apply L_tokens; eauto). destruct (X_run _ HL) as [tr [q [l [Hw _]]]].
  unfold words in Hw. rewrite (chars_tokens ts Hok) in Hw. assert (HP : prefix_of G (tokens_text ts)) by (apply G_consumed; eauto).
  rewrite Ht in HP. destruct HP as [z Hz]. exists (y ++ z). now rewrite app_assoc.
Qed.

(** ** Complaints stay *)

(** A brace at the end that must not be there. *)
Lemma brace_stays us l t msg mark d z : Forall token_ok us -> acceptable E us -> leaves_open us l -> fault us l t msg mark -> t = TBegin \/ t = TEnd ->
  let u := tokens_text us ++ token_text t in
  prefix_of G (u ++ [d]) -> exists loc, points_at (u ++ d :: z) u mark loc /\ ParseHext E (u ++ d :: z) = Throw (SyntaxError (msg ++ s " " ++ loc)).
Proof.
  intros Hus Ha HO HF Hb u HP. assert (Ht : token_ok t) by (destruct Hb as [-> | ->]; exact I).
  assert (Hfu : tokens_text us ++ faulty_text t = u) by (destruct Hb as [-> | ->]; reflexivity).
  destruct (open_reaches E us l HO Hus (proj2 (meant_acceptable E us) Ha)) as [sk [fl HR]].
  destruct (fault_stops E (u ++ d :: z) us l sk fl t (d :: z) msg mark Hus Ht HR HF) as [loc [HPt Hrun]]; [now rewrite Hfu|].
  rewrite Hfu in HPt. exists loc. split; [exact HPt|].
  destruct (fault_word us l t msg mark HF) as [w [b [wc [Hw [Hc _]]]]].
  assert (wc = []) as -> by (destruct Hb as [-> | ->]; cbn in Hw; destruct w as [|i [|j w]]; try discriminate; injection Hw as <- Hw;
    try (destruct wc; [reflexivity|discriminate]); try (injection Hw as <- Hw; destruct w; discriminate); destruct w; discriminate).
  cbn [chs map] in Hw. assert (Hall : Forall token_ok (us ++ [t])) by (apply Forall_app; auto).
  assert (HL : L G_exact (words (us ++ [t]))) by (apply L_tokens; eauto).
  assert (Hcu : chars (words (us ++ [t])) = u).
  { unfold words. rewrite (chars_tokens _ Hall). unfold tokens_text. rewrite flat_map_app. cbn [flat_map]. now rewrite app_nil_r. }
  destruct (word_goes_on _ _ _ HL Hcu HP) as [w' [HL' Hw']]. rewrite words_app in HL'. unfold words at 2 in HL'. cbn [flat_map] in HL'. rewrite app_nil_r, Hw in HL'.
  replace ((words us ++ w ++ [IAct b]) ++ w') with ((words us ++ w) ++ IAct b :: w') in HL' by (rewrite <- !app_assoc; reflexivity).
  assert (Hx : u ++ d :: z = chars (words us ++ w) ++ d :: z).
  { f_equal. unfold words. rewrite chars_app, (chars_tokens us Hus), Hc. symmetry. exact Hfu. }
  pose proof (cut_parse E (u ++ d :: z) _ b w' (d :: z) HL' Hx) as HC. rewrite Hw' in HC. specialize (HC eq_refl).
  fold (words us) in Hrun. rewrite Hw in Hrun. rewrite <- app_assoc in HC. rewrite Hrun in HC. exact HC.
Qed.

Lemma reads_grow x y us t u : reads x us t u -> x <> u -> reads (x ++ y) us t u.
Proof.
  intros [ts [v [y0 [H1 [H2 [H3 H4]]]]]] Hne. exists ts, (v ++ y), y0. split; [exact H1|]. split; [exact H2|]. split; [rewrite H3; apply app_assoc_reverse|].
  destruct v as [|c v]; [rewrite app_nil_r in H3; contradiction|]. exact H4.
Qed.

(** There is text after a regex or a number. *)
Lemma part_inside x us t ps p ps' : reads x us t (parts_text (all_parts us ++ ps) ++ part_text p) -> token_parts t = ps ++ p :: ps' ->
  (forall z, p <> PText z) -> x <> parts_text (all_parts us ++ ps) ++ part_text p.
Proof.
  intros [ts [v [y0 [H1 [H2 [H3 H4]]]]]] Hp Htext Hx. rewrite Hx in H3. assert (v = []) as ->.
  { apply (f_equal (@length _)) in H3. rewrite (app_length _ v) in H3. destruct v; [reflexivity|cbn in H3; lia]. }
  destruct y0 as [|c y0]; [|discriminate]. rewrite app_nil_r in H2. rewrite <- (parts_tokens _ H1) in H2. unfold all_parts, parts_text in H2.
  rewrite flat_map_app in H2. cbn [flat_map] in H2. rewrite Hp, !flat_map_app in H2. cbn [flat_map] in H2. rewrite <- !app_assoc in H2.
  apply app_inv_head in H2. apply app_inv_head in H2. rewrite <- (app_nil_r (part_text p)) in H2 at 2. apply app_inv_head in H2.
  destruct t as [c|z| | |h closed|name]; cbn [token_parts] in Hp; try (apply single_split in Hp as [_ [Hp _]]; now apply (Htext _ (eq_sym Hp))).
  apply app_split in Hp as [[e [_ ->]]|[e [_ Hp]]]; [|apply single_split in Hp as [_ [Hp _]]; now apply (Htext _ (eq_sym Hp))].
  rewrite flat_map_app in H2. cbn [flat_map part_text] in H2. apply (f_equal (@length _)) in H2. rewrite !app_length in H2. destruct closed; cbn in H2; lia.
Qed.

Lemma complaint_stays x y e : complains E x e ->
  (exists e', ParseHext E (x ++ y) = Throw e' /\ (same_marks x y -> e' = e)) \/
  (ends_in_brace x /\ exists d z, y = d :: z /\ lexical_error (x ++ y) x d z).
Proof.
  intros H. destruct y as [|d z]; [left; exists e; rewrite app_nil_r; split; [now apply complains_parse|reflexivity]|].
  destruct H as [us l t msg mark loc Ha HO HF u HR HP|us l t ps r ps' error loc Ha HO Hp before Hf He u HR HP|us l t ps sg ds ps' Ha HO Hp before Hf He HR].
  - destruct (points_grow x (d :: z) u mark loc HP) as [loc' [HP' HS]].
    assert (HB : x <> u \/ x = u /\ (t = TBegin \/ t = TEnd)).
    { destruct HR as [ts [v [y0 [H1 [H2 [H3 H4]]]]]]. destruct v as [|c v].
      - right. rewrite app_nil_r in H3. split; [exact H3|]. destruct y0 as [|c y0]; [|discriminate].
        assert (HT : t = TBegin \/ t = TEnd \/ exists name, t = TClose name) by (inversion HF; eauto). destruct HT as [->|[->|[name ->]]]; auto.
        exfalso. unfold tokens_text, u in H2. rewrite flat_map_app in H2. cbn [flat_map token_text faulty_text] in H2. rewrite app_nil_r in H2. unfold tokens_text in H2.
        apply app_inv_head in H2. apply (f_equal (@length _)) in H2. rewrite !app_length in H2. cbn in H2. lia.
      - left. intros Hx. rewrite Hx in H3. apply (f_equal (@length _)) in H3. rewrite app_length in H3. cbn in H3. lia. }
    destruct HB as [HB|[HB Ht]].
    + left. eexists. split; [apply complains_parse; apply (complains_token E _ us l t msg mark loc' Ha HO HF); [now apply reads_grow|exact HP']|].
      intros HM. now rewrite (HS HM).
    + assert (Hu : u = tokens_text us ++ token_text t) by (destruct Ht as [-> | ->]; reflexivity).
      destruct (text_cases (u ++ [d])) as [HX|[[HX _]|[a [c [v HX]]]]].
      1,2: left; assert (HPr : prefix_of G (u ++ [d])) by (try exact HX; exists []; now rewrite app_nil_r);
        destruct HR as [ts [_ [_ [H1 _]]]]; apply Forall_app in H1 as [Hus _]; rewrite Hu in HPr;
        destruct (brace_stays us l t msg mark d z Hus Ha HO HF Ht HPr) as [loc2 [HP2 HX2]]; rewrite <- Hu in HP2, HX2; rewrite HB in *;
        exists (SyntaxError (msg ++ s " " ++ loc2)); split; [exact HX2|]; intros HM; rewrite <- (HS HM), (points_unique _ _ _ _ HP2), (points_unique _ _ _ _ HP'); reflexivity.
      right. split; [rewrite HB, Hu; exists (tokens_text us); destruct Ht as [-> | ->]; auto|]. exists d, z. split; [reflexivity|].
      assert (HPu : prefix_of G u).
      { destruct HR as [ts [v0 [y0 [H1 [H2 _]]]]]. now apply (text_begins _ _ _ H1 H2). }
      destruct HX as [HX [HX1 HX2]]. rewrite HB. split; [reflexivity|]. split; [exact HPu|]. intros HN. apply HX2.
      destruct HN as [w Hw]. rewrite HX in Hw. exists (v ++ w). rewrite <- !app_assoc in *. exact Hw.
  - left. pose proof (part_inside x us t ps (PRegex r) ps' HR Hp ltac:(discriminate)) as Hne. destruct (points_grow x (d :: z) u _ loc HP) as [loc' [HP' HS]].
    eexists. split; [apply complains_parse; eapply (complains_regex E _ us l t ps r ps' error loc' Ha HO Hp Hf He); [now apply reads_grow|exact HP']|].
    intros HM. now rewrite (HS HM).
  - left. pose proof (part_inside x us t ps (PNumber sg ds) ps' HR Hp ltac:(discriminate)) as Hne.
    eexists. split; [apply complains_parse; eapply (complains_number E _ us l t ps sg ds ps' Ha HO Hp Hf He); now apply reads_grow|]. reflexivity.
Qed.

(** ** Unexpected characters stay *)

Lemma prefix_shorter u v : prefix_of G (u ++ v) -> prefix_of G u.
Proof. intros [w H]. exists (v ++ w). now rewrite app_assoc. Qed.

Lemma lexical_grows x y u c v : lexical_error x u c v -> lexical_error (x ++ y) u c (v ++ y).
Proof. intros [-> [H1 H2]]. split; [now rewrite <- app_assoc|]. auto. Qed.

Lemma reads_shorter x y u c v us t u' : lexical_error x u c v -> reads (x ++ y) us t u' -> reads x us t u' /\ exists v', x = u' ++ v'.
Proof.
  intros [Hx [HP HN]] [ts [v' [y0 [H1 [H2 [H3 H4]]]]]]. pose proof (text_begins _ _ _ H1 H2) as HP'.
  rewrite Hx in H3. rewrite <- app_assoc in H3. cbn [app] in H3. symmetry in H3. apply app_split in H3 as [[e [Hu Hv]]|[e [Hu Hv]]].
  - exfalso. apply HN. rewrite Hu in HP'. apply (prefix_shorter _ e). rewrite <- app_assoc. exact HP'.
  - assert (X : x = u' ++ e ++ c :: v) by (rewrite Hx, Hu, <- app_assoc; reflexivity).
    split; [|eauto]. exists ts, (e ++ c :: v), y0. repeat (split; [assumption|]). rewrite <- H4, Hv. destruct e; reflexivity.
Qed.

Lemma complaint_earlier x y u c v e : lexical_error x u c v -> complains E (x ++ y) e -> exists e', complains E x e'.
Proof.
  intros HX H. destruct H as [us l t msg mark loc Ha HO HF u' HR HP|us l t ps r ps' error loc Ha HO Hp before Hf He u' HR HP|us l t ps sg ds ps' Ha HO Hp before Hf He HR].
  - destruct (reads_shorter _ _ _ _ _ _ _ _ HX HR) as [HR' [v' Hv]]. destruct HP as [b [li [c' [Hu [Hc' _]]]]]. rewrite app_assoc in Hu.
    rewrite Hu in Hv. pose proof (points_here x (b ++ li) c' v' mark Hv Hc') as HP'. rewrite <- Hu in HP'.
    eexists. exact (complains_token E x us l t msg mark _ Ha HO HF HR' HP').
  - destruct (reads_shorter _ _ _ _ _ _ _ _ HX HR) as [HR' [v' Hv]]. destruct HP as [b [li [c' [Hu [Hc' _]]]]]. rewrite app_assoc in Hu.
    rewrite Hu in Hv. pose proof (points_here x (b ++ li) c' v' (length (regex_text r)) Hv Hc') as HP'. rewrite <- Hu in HP'.
    eexists. exact (complains_regex E x us l t ps r ps' error _ Ha HO Hp Hf He HR' HP').
  - destruct (reads_shorter _ _ _ _ _ _ _ _ HX HR) as [HR' _]. eexists. exact (complains_number E x us l t ps sg ds ps' Ha HO Hp Hf He HR').
Qed.

Lemma character_stays x y u c v : lexical_error x u c v -> (forall e, ~ complains E x e) ->
  ParseHext E (x ++ y) = (let! name := CharName c in Throw (SyntaxError (s "Unexpected character '" ++ name ++ s "' " ++ print_error_location (x ++ y) (length u) 1))).
Proof.
  intros HX Hno. destruct (lexical_outcome E (x ++ y) u c (v ++ y) (lexical_grows _ _ _ _ _ HX)) as [[e [_ H]]|H]; [|exact H].
  exfalso. destruct (complaint_earlier _ _ _ _ _ _ HX H) as [e' H']. now apply (Hno e').
Qed.

(** ** Errors are final *)

Theorem error_final x y e : ParseHext E x = Throw e -> ~ wants_more e -> (forall c, In c y -> is_ascii c) ->
  ParseHext E (x ++ y) = Throw e \/ (ends_in_brace x /\ exists d z, y = d :: z /\ lexical_error (x ++ y) x d z).
Proof.
  intros H HN HA. assert (HM : same_marks x y) by now left. pose proof (proj1 (errors_exact E x e) H) as HR.
  destruct HR as [e He|ts l m Hok Ha HO Hx Hm|u c v name before line loc Hno HT Hn HL HL'|before line loc Hno HT HL HL'].
  - destruct (complaint_stays x y e He) as [[e' [H1 H2]]|HB]; [left; rewrite H1, (H2 HM); reflexivity|now right].
  - exfalso. apply HN. inversion Hm; constructor.
  - left. pose proof (character_stays x [] u c v HT Hno) as H0. rewrite app_nil_r, H in H0. rewrite (character_stays x y u c v HT Hno), H0.
    rewrite (name_known _ _ Hn). cbn [obind]. rewrite place_grows; [reflexivity| |exact HM]. destruct HT as [-> _]. rewrite app_length. cbn. lia.
  - exfalso. apply HN. constructor.
Qed.

Theorem undefined_final x y b : ParseHext E x = UB b -> ParseHext E (x ++ y) = UB b.
Proof.
  intros H. pose proof (proj1 (undefined_exact E x b) H) as [-> [Hno [u [c [v [HT Hc]]]]]]. apply undefined_exact. split; [reflexivity|]. split.
  - intros e He. destruct (complaint_earlier _ _ _ _ _ _ HT He) as [e' He']. now apply (Hno e').
  - exists u, c, (v ++ y). split; [now apply lexical_grows|exact Hc].
Qed.

Lemma lexical_rejected x u c v r : lexical_error x u c v -> ParseHext E x <> Ok r.
Proof.
  intros HT H. destruct (lexical_outcome E x u c v HT) as [[e [H1 _]]|H1]; [congruence|]. rewrite H in H1. destruct (CharName c); discriminate.
Qed.

(** What the beginnings of a good text are told. *)
Theorem typing x y r : ParseHext E (x ++ y) = Ok r -> (exists r', ParseHext E x = Ok r') \/ (exists e, ParseHext E x = Throw e /\ wants_more e).
Proof.
  intros H. destruct (outcomes E x) as [HO|[[e He]|[Hno HU]]]; [now left| |].
  - right. exists e. split; [now apply errors_exact|]. destruct He as [e He|ts l m Hok Ha HO Hx Hm|u c v name before line loc Hno HT Hn HL HL'|before line loc Hno HT HL HL'].
    + exfalso. destruct (complaint_stays x y e He) as [[e' [H1 _]]|[_ [d [z [_ HX]]]]]; [congruence|]. now apply (lexical_rejected _ _ _ _ r HX).
    + inversion Hm; constructor.
    + exfalso. now apply (lexical_rejected _ _ _ _ r (lexical_grows _ y _ _ _ HT)).
    + constructor.
  - exfalso. assert (HB : ParseHext E x = UB BadCtypeArgument) by (apply undefined_exact; auto). apply (undefined_final x y) in HB. congruence.
Qed.

(** ** Texts that can be completed *)

Definition small : token := TOpen (mk_head [] (s "a") [] [] []) true.

Lemma small_ok : token_ok small.
Proof. split; [right; now apply name_by|]. split; [constructor|]. split; [constructor|intros c []]. Qed.

Lemma acceptable_app us ts : acceptable E us -> (forall fl, fits E fl (all_parts ts)) -> acceptable E (us ++ ts).
Proof. intros H H'. unfold acceptable, all_parts. rewrite flat_map_app. apply fits_app. split; [exact H|apply H']. Qed.

Lemma names_open ts l : Forall token_ok ts -> leaves_open ts l -> forall x, In (InElement x) l -> is_tag_name x.
Proof.
  intros Hok HO. revert Hok. assert (HF : forall l' x, In (InElement x) (filled l') -> In (InElement x) l') by (intros [|[n|b] l'] x H; cbn in *; auto; destruct H as [H|H]; [discriminate|auto]).
  induction HO as [|us l t HO IH Hb|us l h HO IH|us l h HO IH|us l x0 name HO IH Hc|us l x0 HO IH|us l HO IH]; intros Hok x Hin;
    try (apply Forall_app in Hok as [Hus Ht]; specialize (IH Hus)).
  - destruct Hin.
  - auto.
  - auto.
  - destruct Hin as [Hin|Hin]; [|auto]. injection Hin as <-. inversion Ht as [|? ? Hh _]. apply Hh.
  - apply IH. right. auto.
  - destruct Hin as [Hin|Hin]; [discriminate|]. auto.
  - apply IH. now right.
Qed.

Lemma completable n : forall ts l, length l <= n -> Forall token_ok ts -> acceptable E ts -> leaves_open ts l ->
  exists ts', Forall token_ok (ts ++ ts') /\ acceptable E (ts ++ ts') /\ leaves_open (ts ++ ts') [].
Proof.
  induction n as [|n IH]; intros ts l Hn Hok Ha HO.
  - destruct l; [|cbn in Hn; lia]. exists []. rewrite app_nil_r. auto.
  - assert (Hstep : forall us l', length l' <= n -> Forall token_ok us -> (forall fl, fits E fl (all_parts us)) -> leaves_open (ts ++ us) l' ->
      exists ts', Forall token_ok (ts ++ ts') /\ acceptable E (ts ++ ts') /\ leaves_open (ts ++ ts') []).
    { intros us l' Hl' Hus Hfit HO'. destruct (IH (ts ++ us) l' Hl') as [ts' [H1 [H2 H3]]]; [apply Forall_app; auto|now apply acceptable_app|exact HO'|].
      exists (us ++ ts'). rewrite !app_assoc. auto. }
    assert (HL : forall k, length (filled k) = length k) by (intros [|[x|b] k]; reflexivity).
    destruct l as [|[x|[]] l]; cbn [length] in Hn.
    + exists []. rewrite app_nil_r. auto.
    + apply (Hstep [TClose x] (filled l)); [rewrite HL; lia| |intros fl; split; exact I|apply (open_close ts l x x HO); now left].
      constructor; [|constructor]. apply (names_open ts _ Hok HO x). now left.
    + apply (Hstep [TEnd] l); [lia|constructor; [exact I|constructor]|intros fl; split; exact I|now apply open_end].
    + apply (Hstep [small; TEnd] l); [lia|constructor; [apply small_ok|constructor; [exact I|constructor]]|intros fl; repeat split|].
      change [small; TEnd] with ([small] ++ [TEnd]). rewrite app_assoc. apply open_end. exact (open_closed ts _ _ HO).
Qed.

Theorem unfinished_completable x m : ParseHext E x = Throw (SyntaxError m) -> wants_more (SyntaxError m) -> (forall loc, m <> s "Premature termination " ++ loc) ->
  exists y r, ParseHext E (x ++ y) = Ok r.
Proof.
  intros H HW HN. pose proof (proj1 (errors_exact E x _) H) as HR. inversion HR as [e He|ts l m' Hok Ha HO Hx Hm|u c v name before line loc Hno HT Hn HL HL'|before line loc Hno HT HL HL']; subst.
  - exfalso. destruct (complaint_begins _ _ _ He) as [?|[m0 [Hm Hin]]]; [discriminate|]. injection Hm as <-.
    inversion HW; subst; repeat (destruct Hin as [Hin|Hin]; [discriminate|]); destruct Hin.
  - destruct (completable (length l) ts l (le_n _) Hok Ha HO) as [ts' [H1 [H2 H3]]].
    destruct (open_reaches E _ _ H3 H1 (proj2 (meant_acceptable E _) H2)) as [sk [fl HRe]].
    destruct (finish_spec E (ts ++ ts') [] sk fl (tokens_text (ts ++ ts')) H1 HRe eq_refl) as [[_ [r Hr]]|[m' [Hm' _]]].
    + exists (tokens_text ts'), r. unfold tokens_text in *. now rewrite flat_map_app in Hr.
    + inversion Hm'; subst. contradiction.
  - exfalso. inversion HW.
  - exfalso. now apply (HN loc).
Qed.

End Final.
