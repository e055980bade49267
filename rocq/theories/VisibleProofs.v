(** Proofs about what a reader sees of an error message. *)

From Coq Require Import Ascii String NArith ZArith Bool List Lia.
From Verif Require Import Samples Convert Bindings Base StringUtil StringSpec Tags Dom NodeUtil Values Match Rule Parser Grammar GrammarSpec TextSpec ParserSpec
  SyntaxSpec ErrorSpec ErrorExact NodeProofs VisibleSpec.
Import ListNotations.

Definition clean (x : str) : Prop := forall c, In c x -> c <> NUL /\ c <> newline.

Lemma clean_app x y : clean x -> clean y -> clean (x ++ y).
Proof. intros Hx Hy c H. apply in_app_or in H. destruct H; auto. Qed.
Lemma clean_by x : forallb (fun c => negb (Ascii.eqb c NUL) && negb (Ascii.eqb c newline)) x = true -> clean x.
Proof.
  rewrite forallb_forall. intros H c Hc. apply H in Hc. apply andb_true_iff in Hc. destruct Hc as [H1 H2].
  destruct (Ascii.eqb_spec c NUL); [discriminate|]. destruct (Ascii.eqb_spec c newline); [discriminate|]. now split.
Qed.
Ltac clean_text := apply clean_by; vm_compute; reflexivity.

Lemma digit_clean d : (d < 10)%N -> clean [digit_of d].
Proof.
  intros H c [<-|[]]. unfold digit_of. split; intros He; apply (f_equal N_of_ascii) in He; rewrite N_ascii_embedding in He by lia;
    vm_compute N_of_ascii in He; lia.
Qed.
Lemma decimal_clean n x : decimal_of n x -> clean x.
Proof. induction 1; [now apply digit_clean|]. apply clean_app; [assumption|now apply digit_clean]. Qed.

Lemma name_char_clean c : is_name_char c = true -> c <> NUL /\ c <> newline.
Proof. intros H. split; intros ->; discriminate. Qed.
Lemma name_clean x : is_tag_name x -> clean x.
Proof.
  intros [->|[c [x' [-> [Hc Hx]]]]] d Hd.
  - destruct Hd as [<-|[]]. split; discriminate.
  - destruct Hd as [<-|Hd]; [|now apply name_char_clean, Hx]. split; intros ->; discriminate.
Qed.

Lemma tag_names_clean y : In y tag_names -> clean y.
Proof.
  assert (H : Forall clean tag_names).
  { apply Forall_forall. intros z Hz. apply clean_by. revert z Hz. rewrite <- forallb_forall. vm_compute. reflexivity. }
  rewrite Forall_forall in H. apply H.
Qed.

Lemma displayed_clean x y : is_tag_name x -> displayed x y -> clean y.
Proof.
  intros Hx [H1 H2]. destruct (in_dec (list_eq_dec ascii_dec) y tag_names) as [H|H]; [now apply tag_names_clean|].
  assert (HN : ~ standard_tag x) by (intros HS; now apply H, H1). rewrite (H2 HN). now apply name_clean.
Qed.

Definition opening_ok (o : opening) : Prop := match o with InElement x => is_tag_name x | _ => True end.
Lemma filled_ok l : Forall opening_ok l -> Forall opening_ok (ErrorSpec.filled l).
Proof. intros H. destruct l as [|[] l]; cbn [ErrorSpec.filled]; try assumption. inversion H; subst. constructor; [exact I|assumption]. Qed.
Lemma open_ok ts l : leaves_open ts l -> Forall token_ok ts -> Forall opening_ok l.
Proof.
  induction 1 as [|us l t H IH Hb|us l h H IH|us l h H IH|us l x name H IH Hc|us l x H IH|us l H IH]; intros HT; [constructor|..];
    apply Forall_app in HT; destruct HT as [HT Ht]; specialize (IH HT); try (now apply filled_ok); try assumption.
  - constructor; [|exact IH]. inversion Ht as [|? ? Hh ?]; subst. apply Hh.
  - inversion IH; subst. now apply filled_ok.
  - constructor; [exact I|exact IH].
  - now inversion IH.
Qed.

(** ** Locations *)

Lemma c_str_app x y : ~ In NUL x -> c_str (x ++ y) = x ++ c_str y.
Proof.
  induction x as [|c x IH]; intros H; [reflexivity|]. cbn [app c_str]. destruct (Ascii.eqb_spec c NUL) as [->|_]; [exfalso; apply H; now left|].
  rewrite IH; [reflexivity|]. intros Hx. apply H. now right.
Qed.
Lemma c_str_cut x y : In NUL x -> c_str (x ++ y) = c_str x.
Proof.
  induction x as [|c x IH]; intros H; [destruct H|]. cbn [app c_str]. destruct (Ascii.eqb_spec c NUL) as [->|Hc]; [reflexivity|].
  f_equal. apply IH. destruct H; [congruence|assumption].
Qed.

Lemma location_head before line rest mark loc : location_message before line rest mark loc ->
  exists place body, position place /\ clean place /\ loc = place ++ s ":" ++ [newline] ++ body.
Proof.
  intros [head [earlier [number [marker [-> [Hh [Hn _]]]]]]]. destruct Hh as [[_ ->]|[_ [column [Hc ->]]]].
  - exists (s "at end of input"). eexists. split; [constructor|]. split; [clean_text|]. rewrite <- !app_assoc. reflexivity.
  - exists (s "at line " ++ number ++ s ", char " ++ column). eexists. split; [|split].
    + apply (position_char (newlines before) (length line)); [now replace (N.of_nat (newlines before) + 1)%N with (N.of_nat (newlines before + 1)) by lia|].
      now replace (N.of_nat (length line) + 1)%N with (N.of_nat (length line + 1)) by lia.
    + apply clean_app; [clean_text|]. apply clean_app; [now apply decimal_clean in Hn|]. apply clean_app; [clean_text|now apply decimal_clean in Hc].
    + rewrite <- !app_assoc. cbn [app]. reflexivity.
Qed.

(** What is visible: what, place, and more. *)
Definition shows (m : str) : Prop := exists what place more,
  what <> [] /\ clean what /\ position place /\ clean place /\ m = what ++ s " " ++ place ++ s ":" ++ [newline] ++ more.

Lemma shows_loc what before line rest mark loc more : what <> [] -> clean what -> location_message before line rest mark loc ->
  shows (what ++ s " " ++ loc ++ more).
Proof.
  intros Hw Hc HL. destruct (location_head _ _ _ _ _ HL) as [place [body [HP [HC ->]]]].
  exists what, place, (body ++ more). repeat (split; [assumption|]). rewrite <- !app_assoc. reflexivity.
Qed.
Lemma shows_point what x u mark loc more : what <> [] -> clean what -> points_at x u mark loc -> shows (what ++ s " " ++ loc ++ more).
Proof. intros Hw Hc [before [line [c [_ [_ [_ [v [_ HL]]]]]]]]. eapply shows_loc; eassumption. Qed.

Lemma fault_clean us l t msg mark : Forall opening_ok l -> token_ok t -> fault us l t msg mark -> clean msg /\ msg <> [].
Proof.
  intros HO Ht HF. revert HO Ht. destruct HF as [name e Hn He| | | | |]; intros HO Ht; try (split; [clean_text|discriminate]). split; [|discriminate].
  apply clean_app; [clean_text|]. apply clean_app; [now apply name_clean|]. apply clean_app; [clean_text|].
  destruct He as [x y l' Hd|]; [|intros c []]. inversion HO as [|? ? Hx ?]; subst.
  apply clean_app; [clean_text|]. apply clean_app; [now apply (displayed_clean x)|clean_text].
Qed.

Lemma character_clean c name : character_name c name -> clean name.
Proof.
  intros [| | | | |d H|d x H Hn Hd|]; try clean_text.
  - intros c' [<-|[]]. split; intros ->; vm_compute in H; destruct H; discriminate.
  - apply clean_app; [clean_text|]. apply clean_app; [now apply decimal_clean in Hd|clean_text].
Qed.

Lemma syntax_inj a b : SyntaxError a = SyntaxError b -> a = b.
Proof. congruence. Qed.

Lemma reads_ok x us t u : reads x us t u -> Forall token_ok us /\ token_ok t.
Proof.
  intros [ts [v [y [H _]]]]. apply Forall_app in H. destruct H as [H1 H2]. split; [exact H1|]. now inversion H2.
Qed.

Lemma rejected_shows E x m : rejected E x (SyntaxError m) -> shows m.
Proof.
  intros H. remember (SyntaxError m) as e eqn:He.
  destruct H as [e HC|ts l m' HT HA' HL Hx HU|u c v name before line loc HN HE Hc HL HM|before line loc HN HI HL HM].
  - destruct HC as [us l t msg mark loc HA' HL HF u HR HP|us l t ps r ps' reason loc HA' HL HT before HF Hr u HR HP|]; [| |discriminate];
      apply syntax_inj in He; subst m; destruct (reads_ok _ _ _ _ HR) as [Hus Ht].
    + destruct (fault_clean us l t msg mark (open_ok us l HL Hus) Ht HF) as [H1 H2].
      rewrite <- (app_nil_r loc). eapply shows_point; eassumption.
    + exact (shows_point (s "In regular expression") x u _ loc ([newline] ++ s "Error: " ++ reason) ltac:(discriminate) ltac:(clean_text) HP).
  - apply syntax_inj in He; subst m'. destruct HU as [l b loc Hb [u [c [before [line [_ [_ HM]]]]]]|name l y loc Hb HD [before [line [_ HM]]]].
    + rewrite <- (app_nil_r loc). exact (shows_loc (s "Unclosed nested rule") _ _ _ _ loc [] ltac:(discriminate) ltac:(clean_text) HM).
    + pose proof (open_ok _ _ HL HT) as HO. inversion HO as [|? ? Hn ?]; subst.
      assert (HW : clean (s "Missing closing tag '</" ++ y ++ s ">'"))
        by (apply clean_app; [clean_text|]; apply clean_app; [now apply (displayed_clean name)|clean_text]).
      pose proof (shows_loc (s "Missing closing tag '</" ++ y ++ s ">'") _ _ _ _ loc [] ltac:(discriminate) HW HM) as HS.
      rewrite app_nil_r, <- !app_assoc in HS. exact HS.
  - apply syntax_inj in He; subst m.
    assert (HW : clean (s "Unexpected character '" ++ name ++ s "'"))
      by (apply clean_app; [clean_text|]; apply clean_app; [now apply (character_clean c)|clean_text]).
    pose proof (shows_loc (s "Unexpected character '" ++ name ++ s "'") _ _ _ _ loc [] ltac:(discriminate) HW HM) as HS.
    rewrite app_nil_r, <- !app_assoc in HS. exact HS.
  - apply syntax_inj in He; subst m. rewrite <- (app_nil_r loc). exact (shows_loc (s "Premature termination") _ _ _ _ loc [] ltac:(discriminate) ltac:(clean_text) HM).
Qed.

Theorem headline_visible E x m : ParseHext E x = Throw (SyntaxError m) ->
  exists line rest shown, headline line /\ m = line ++ [newline] ++ rest /\ c_str m = line ++ [newline] ++ shown.
Proof.
  intros H. apply errors_exact, rejected_shows in H. destruct H as [what [place [more [Hw [Hc [HP [HC ->]]]]]]].
  assert (HL : clean (what ++ s " " ++ place ++ s ":")) by (repeat apply clean_app; try assumption; clean_text).
  exists (what ++ s " " ++ place ++ s ":"), more, (c_str more). split; [|split].
  - split; [intros Hi; now destruct (HL _ Hi)|]. exists what, place. repeat (split; [assumption|]). reflexivity.
  - rewrite <- !app_assoc. reflexivity.
  - replace (what ++ s " " ++ place ++ s ":" ++ [newline] ++ more) with ((what ++ s " " ++ place ++ s ":") ++ [newline] ++ more)
      by (rewrite <- !app_assoc; reflexivity).
    rewrite c_str_app by (intros Hi; now destruct (HL _ Hi)). reflexivity.
Qed.

(** ** Messages without NUL *)

Definition nonul (x : str) : Prop := ~ In NUL x.
Lemma nonul_app x y : nonul x -> nonul y -> nonul (x ++ y).
Proof. unfold nonul. rewrite in_app_iff. tauto. Qed.
Lemma clean_nonul x : clean x -> nonul x.
Proof. intros H Hi. now destruct (H _ Hi). Qed.
Lemma nonul_by x : forallb (fun c => negb (Ascii.eqb c NUL)) x = true -> nonul x.
Proof. rewrite forallb_forall. intros H Hc. apply H in Hc. discriminate. Qed.
Ltac nonul_text := apply nonul_by; vm_compute; reflexivity.
Lemma nonul_l x y : nonul (x ++ y) -> nonul x.
Proof. unfold nonul. rewrite in_app_iff. tauto. Qed.
Lemma nonul_r x y : nonul (x ++ y) -> nonul y.
Proof. unfold nonul. rewrite in_app_iff. tauto. Qed.
Lemma nonul_repeat c n : c <> NUL -> nonul (repeat c n).
Proof. intros Hc H. apply repeat_spec in H. congruence. Qed.

Lemma listing_nonul w k text out : listing w k text out -> nonul text -> nonul out.
Proof.
  induction 1 as [|k line text pad number out Hl Hn Hp Hw H IH]; intros HN; [exact HN|].
  apply nonul_app; [intros Hi; rewrite Forall_forall in Hp; apply Hp in Hi; discriminate|].
  apply nonul_app; [now apply decimal_clean, clean_nonul in Hn|]. apply nonul_app; [nonul_text|].
  apply nonul_app; [now apply nonul_l in HN|]. apply nonul_app; [nonul_text|]. apply IH. now apply nonul_r, nonul_r in HN.
Qed.

Lemma all_ascii_dec (x : str) : (forall c, In c x -> (N_of_ascii c < 128)%N) \/ exists c, In c x /\ (128 <= N_of_ascii c)%N.
Proof.
  induction x as [|c x [H|[d [Hd H]]]]; [left; intros ? []| |right; exists d; split; [now right|exact H]].
  destruct (N.lt_ge_cases (N_of_ascii c) 128) as [Hc|Hc]; [|right; exists c; split; [now left|exact Hc]].
  left. intros d [<-|Hd]; auto.
Qed.

Lemma location_nonul before line rest mark loc : location_message before line rest mark loc -> nonul (before ++ line ++ rest) -> nonul loc.
Proof.
  intros [head [earlier [number [marker [-> [Hh [Hn [HL [HM1 HM2]]]]]]]]] HN.
  apply nonul_app.
  { destruct Hh as [[_ ->]|[_ [column [Hc ->]]]]; [nonul_text|].
    repeat apply nonul_app; try nonul_text; [now apply decimal_clean, clean_nonul in Hn|now apply decimal_clean, clean_nonul in Hc]. }
  apply nonul_app; [apply (listing_nonul _ _ _ _ HL); now apply nonul_l in HN|].
  apply nonul_app; [now apply decimal_clean, clean_nonul in Hn|]. apply nonul_app; [nonul_text|].
  apply nonul_r in HN. apply nonul_app; [now apply nonul_l in HN|]. apply nonul_r in HN.
  apply nonul_app.
  { destruct rest as [|c rest]; [exact HN|]. cbn [shown_of]. destruct (ascii_dec c TextSpec.newline); [exact (fun H => H)|]. intros Hi; destruct Hi as [->|Hi]; [|destruct Hi]. apply HN. now left. }
  apply nonul_app; [nonul_text|].
  destruct (Nat.eq_dec mark 0) as [H0|H0]; [rewrite HM1 by (now left); exact (fun H => H)|].
  destruct (all_ascii_dec (before ++ line ++ rest)) as [HA|HA]; [|rewrite HM1 by (now right); exact (fun H => H)].
  destruct (HM2 H0 HA) as [indent [carets [-> _]]]. apply nonul_app; [now apply nonul_repeat|]. apply nonul_app; [now apply nonul_repeat|nonul_text].
Qed.

Lemma point_nonul x u mark loc : points_at x u mark loc -> nonul x -> nonul loc.
Proof.
  intros [before [line [c [-> [_ [_ [v [-> HL]]]]]]]] HN. apply (location_nonul _ _ _ _ _ HL). rewrite <- !app_assoc in HN. exact HN.
Qed.

Lemma rejected_nonul E x m : plain_reasons E -> nonul x -> rejected E x (SyntaxError m) -> nonul m.
Proof.
  intros HE Hx H. remember (SyntaxError m) as e eqn:He.
  destruct H as [e HC|ts l m' HT HA' HL Hxt HU|u c v name before line loc HN HX Hc HL HM|before line loc HN HI HL HM].
  - destruct HC as [us l t msg mark loc HA' HL HF u HR HP|us l t ps r ps' reason loc HA' HL HT before HF Hr u HR HP|]; [| |discriminate];
      apply syntax_inj in He; subst m; destruct (reads_ok _ _ _ _ HR) as [Hus Ht]; pose proof (point_nonul _ _ _ _ HP Hx) as HN.
    + destruct (fault_clean us l t msg mark (open_ok us l HL Hus) Ht HF) as [H1 _].
      apply nonul_app; [now apply clean_nonul|]. apply nonul_app; [nonul_text|exact HN].
    + apply nonul_app; [nonul_text|]. apply nonul_app; [exact HN|]. apply nonul_app; [nonul_text|]. apply nonul_app; [nonul_text|].
      exact (HE _ _ Hr).
  - apply syntax_inj in He; subst m'. destruct HU as [l b loc Hb [u [c [before [line [Hu [HLL HM]]]]]]|name l y loc Hb HD [before [line [HLL HM]]]].
    + apply nonul_app; [nonul_text|]. apply (location_nonul _ _ _ _ _ HM). destruct HLL as [-> _]. rewrite Hu in Hx. now rewrite <- app_assoc in Hx.
    + pose proof (open_ok _ _ HL HT) as HO. inversion HO as [|? ? Hn ?]; subst.
      apply nonul_app; [nonul_text|]. apply nonul_app; [now apply clean_nonul, (displayed_clean name)|]. apply nonul_app; [nonul_text|].
      apply (location_nonul _ _ _ _ _ HM). destruct HLL as [HLL _]. rewrite app_nil_r, <- HLL. exact Hx.
  - apply syntax_inj in He; subst m. apply nonul_app; [nonul_text|]. apply nonul_app; [now apply clean_nonul, (character_clean c)|]. apply nonul_app; [nonul_text|].
    apply (location_nonul _ _ _ _ _ HM). destruct HX as [Hxx _]. destruct HL as [HL _]. rewrite HL in Hxx. rewrite Hxx in Hx. now rewrite <- app_assoc in Hx.
  - apply syntax_inj in He; subst m. apply nonul_app; [nonul_text|]. apply (location_nonul _ _ _ _ _ HM). destruct HL as [HL _]. rewrite app_nil_r, <- HL. exact Hx.
Qed.

Theorem visible_without_nul E x m : plain_reasons E -> ~ In NUL x -> ParseHext E x = Throw (SyntaxError m) -> c_str m = m.
Proof. intros HE Hx H. apply c_str_id. apply errors_exact in H. exact (rejected_nonul E x m HE Hx H). Qed.

Theorem node_message_complete E x rest k shown : plain_reasons E ->
  node_new_rule E (JsString x :: rest) = Ok (Raises k shown) ->
  exists m, ParseHext E (c_str x) = Throw (SyntaxError m) /\ shown = s "Hext syntax error: " ++ m.
Proof.
  intros HE. unfold node_new_rule. destruct (ParseHext E (c_str x)) as [r|[]|u|] eqn:H; intros Hn; try discriminate.
  injection Hn as _ <-. eexists. split; [reflexivity|]. now rewrite (visible_without_nul E (c_str x) _ HE (c_str_no_nul x) H).
Qed.

(** ** Messages with NUL *)

Lemma listing_nul w k text out : listing w k text out -> In NUL text -> In NUL out.
Proof.
  induction 1 as [|k line text pad number out Hl Hn Hp Hw H IH]; intros HN; [exact HN|].
  apply in_app_or in HN. destruct HN as [HN|[HN|HN]]; [|discriminate|]; rewrite !in_app_iff; tauto.
Qed.
Lemma location_nul before line c v mark loc : location_message before line (c :: v) mark loc -> In NUL (before ++ line ++ [c]) -> In NUL loc.
Proof.
  intros [head [earlier [number [marker [-> [Hh [Hn [HL _]]]]]]]] HN. rewrite !in_app_iff in HN.
  destruct HN as [HN|[HN|[->|[]]]]; rewrite !in_app_iff; [|tauto|].
  - apply (listing_nul _ _ _ _ HL) in HN. tauto.
  - cbn [shown_of]. destruct (ascii_dec NUL newline) as [H|_]; [discriminate|]. assert (In NUL [NUL]) by now left. tauto.
Qed.

Theorem reason_hidden E x us l t ps r ps' reason loc :
  acceptable E us -> leaves_open us l -> token_parts t = ps ++ PRegex r :: ps' ->
  let before := all_parts us ++ ps in
  fits E no_flags before -> eng_compile E (regex_of (fold_left flags_then before no_flags) r) = Some reason ->
  let u := parts_text before ++ regex_text r in
  reads x us t u -> points_at x u (length (regex_text r)) loc ->
  In NUL u ->
  exists m, ParseHext E x = Throw (SyntaxError m) /\ c_str m = c_str (s "In regular expression " ++ loc).
Proof.
  intros HA HL HT before HF Hr u HR HP HN.
  exists (s "In regular expression " ++ loc ++ [newline] ++ s "Error: " ++ reason). split.
  - apply errors_exact, rejected_complaint. eapply complains_regex; eassumption.
  - rewrite app_assoc. apply c_str_cut. rewrite in_app_iff. right.
    destruct HP as [b [line [c [Hu [_ [_ [v [_ HM]]]]]]]]. apply (location_nul _ _ _ _ _ _ HM). now rewrite <- Hu.
Qed.
