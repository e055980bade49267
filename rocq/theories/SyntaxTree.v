(** Token by token building of rules is the meaning of the tree of pieces. *)

From Coq Require Import Ascii String NArith ZArith Bool List Lia.
From Verif Require Import Base StringUtil Tags Dom NodeUtil Values Match Rule Parser StringSpec StringProofs ValueProofs
  Regular ParserSpec SyntaxSpec SyntaxWords SyntaxRun SyntaxMeaning.
Import ListNotations.

Fixpoint tokens_of (p : piece) : list token :=
  match p with
  | Space c => [TSpace c]
  | Comment x => [TComment x]
  | Closed h => [TOpen h true]
  | Opened h body name => TOpen h false :: flat_map tokens_of body ++ [TClose name]
  | Nested body => TBegin :: flat_map tokens_of body ++ [TEnd]
  end.

Section PieceInd.
  Variable P : piece -> Prop.
  Hypothesis H_space : forall c, P (Space c).
  Hypothesis H_comment : forall x, P (Comment x).
  Hypothesis H_closed : forall h, P (Closed h).
  Hypothesis H_opened : forall h body name, Forall P body -> P (Opened h body name).
  Hypothesis H_nested : forall body, Forall P body -> P (Nested body).
  Fixpoint piece_ind' (p : piece) : P p :=
    let fix all l : Forall P l := match l with [] => Forall_nil P | q :: l' => Forall_cons q (piece_ind' q) (all l') end in
    match p with
    | Space c => H_space c
    | Comment x => H_comment x
    | Closed h => H_closed h
    | Opened h body name => H_opened h body name (all body)
    | Nested body => H_nested body (all body)
    end.
End PieceInd.

Lemma all_Forall (P : piece -> Prop) l :
  (fix all l := match l with [] => True | q :: l' => P q /\ all l' end) l <-> Forall P l.
Proof.
  induction l as [|q l IH]; [split; constructor|]. split.
  - intros [H1 H2]. constructor; [exact H1|]. now apply IH.
  - intros H. inversion H as [|? ? H1 H2]; subst. split; [exact H1|]. now apply IH.
Qed.

Lemma opened_ok i h body name : piece_ok i (Opened h body name) <->
  head_ok h /\ is_tag_name name /\ closes (h_name h) name /\ Forall (piece_ok true) body.
Proof. cbn [piece_ok]. now rewrite all_Forall. Qed.
Lemma nested_ok i body : piece_ok i (Nested body) <->
  i = true /\ (exists q, In q body /\ is_element q = true) /\ Forall (piece_ok false) body.
Proof. cbn [piece_ok]. now rewrite all_Forall. Qed.

Lemma flat_map_Forall {A B} (f g : A -> list B) l : Forall (fun x => f x = g x) l -> flat_map f l = flat_map g l.
Proof. induction 1 as [|x l Hx H IH]; [reflexivity|]. cbn [flat_map]. now rewrite Hx, IH. Qed.

Lemma flat_map_flat_map {A B C} (f : A -> list B) (g : B -> list C) l :
  flat_map g (flat_map f l) = flat_map (fun x => flat_map g (f x)) l.
Proof. induction l as [|x l IH]; [reflexivity|]. cbn [flat_map]. now rewrite flat_map_app, IH. Qed.

Lemma tokens_piece_text p : flat_map token_text (tokens_of p) = piece_text p.
Proof.
  induction p as [c|x|h|h body name Hb|body Hb] using piece_ind'; cbn [tokens_of piece_text flat_map token_text].
  - now rewrite app_nil_r.
  - now rewrite app_nil_r.
  - now rewrite app_nil_r.
  - rewrite flat_map_app, flat_map_flat_map. cbn [flat_map token_text]. rewrite app_nil_r, <- !app_assoc.
    now rewrite (flat_map_Forall _ piece_text body Hb).
  - rewrite flat_map_app, flat_map_flat_map. cbn [flat_map token_text]. rewrite app_nil_r.
    now rewrite (flat_map_Forall _ piece_text body Hb).
Qed.

Lemma text_tokens ps : flat_map token_text (flat_map tokens_of ps) = flat_map piece_text ps.
Proof. rewrite flat_map_flat_map. apply flat_map_Forall. apply Forall_forall. intros p _. apply tokens_piece_text. Qed.

Lemma Forall_flat_map' {A B} (P : B -> Prop) (f : A -> list B) l : Forall (fun x => Forall P (f x)) l -> Forall P (flat_map f l).
Proof. induction 1 as [|x l H _ IH]; [constructor|]. cbn [flat_map]. apply Forall_app. auto. Qed.

Lemma tokens_ok p : forall i, piece_ok i p -> Forall token_ok (tokens_of p).
Proof.
  induction p as [c|x|h|h body name Hb|body Hb] using piece_ind'; intros i H; cbn [tokens_of].
  - constructor; [exact H|constructor].
  - constructor; [exact H|constructor].
  - constructor; [exact H|constructor].
  - apply opened_ok in H as [H1 [H2 [_ H3]]]. constructor; [exact H1|]. apply Forall_app. split; [|constructor; [exact H2|constructor]].
    apply Forall_flat_map'. rewrite Forall_forall in *. intros q Hq. exact (Hb q Hq true (H3 q Hq)).
  - apply nested_ok in H as [_ [_ H3]]. constructor; [exact I|]. apply Forall_app. split; [|constructor; [exact I|constructor]].
    apply Forall_flat_map'. rewrite Forall_forall in *. intros q Hq. exact (Hb q Hq false (H3 q Hq)).
Qed.

(** ** Rows of rules *)

Lemma row_snoc l r : with_next r None = r ->
  row_of_rules (l ++ [r]) = Some (match row_of_rules l with Some R => append_next R r | None => r end).
Proof.
  intros Hr. induction l as [|x l IH]; cbn [app row_of_rules]; [now rewrite Hr|]. rewrite IH. f_equal.
  destruct x as [c n l0 ms cs t o g name]. cbn [with_next]. destruct (row_of_rules l); reflexivity.
Qed.

Definition lvl (l : list rule) : list rule := match row_of_rules l with Some r => [r] | None => [] end.

Lemma head_rule_next h cs ns ms mcs : with_next (head_rule h cs ns ms mcs) None = head_rule h cs ns ms mcs.
Proof. reflexivity. Qed.

Lemma head_append_child h cs ns ms mcs r : with_next r None = r ->
  append_child (head_rule h (row_of_rules cs) ns ms mcs) r = head_rule h (row_of_rules (cs ++ [r])) ns ms mcs.
Proof. intros Hr. rewrite (row_snoc cs r Hr). unfold head_rule. destruct (row_of_rules cs); reflexivity. Qed.

Lemma head_append_nested h cs ns ms mcs r :
  append_nested (head_rule h cs ns ms mcs) r = head_rule h cs (ns ++ [r]) ms mcs.
Proof. reflexivity. Qed.

Lemma pop_into_level r ls rest : with_next r None = r ->
  pop_rule' ([r] :: lvl ls :: rest) = Some ([] :: lvl (ls ++ [r]) :: rest).
Proof. intros Hr. unfold lvl. rewrite (row_snoc ls r Hr). destruct (row_of_rules ls); reflexivity. Qed.

(** ** Closing tags *)

Definition same_tag (h : head) (r : rule) : Prop :=
  r_tag r = tag_of_name (h_name h) /\
  r_tagname r = if (tag_of_name (h_name h) =? TAG_UNKNOWN)%N then Some (h_name h) else None.

Lemma head_same_tag h cs ns ms mcs : same_tag h (head_rule h cs ns ms mcs).
Proof. split; reflexivity. Qed.

Lemma nocase_trans a b c : equal_ignoring_case a b -> equal_ignoring_case a c -> equal_ignoring_case b c.
Proof. rewrite <- !str_eqb_nocase_spec. unfold str_eqb_nocase. rewrite !str_eqb_eq. congruence. Qed.
Lemma nocase_sym a b : equal_ignoring_case a b -> equal_ignoring_case b a.
Proof. rewrite <- !str_eqb_nocase_spec. unfold str_eqb_nocase. rewrite !str_eqb_eq. congruence. Qed.

Lemma index_nocase_spec x l : forall i, (index_nocase x l i = i + N.of_nat (length l) /\ forall n, In n l -> ~ equal_ignoring_case n x)%N \/
  (exists u n v, l = u ++ n :: v /\ index_nocase x l i = i + N.of_nat (length u) /\ equal_ignoring_case n x /\ forall n', In n' u -> ~ equal_ignoring_case n' x)%N.
Proof.
  induction l as [|n l IH]; intros i; cbn [index_nocase].
  - left. split; [cbn; lia|intros n []].
  - destruct (str_eqb_nocase n x) eqn:En.
    + right. exists [], n, l. apply str_eqb_nocase_spec in En. split; [reflexivity|]. split; [cbn; lia|]. split; [exact En|intros n' []].
    + assert (Hn : ~ equal_ignoring_case n x) by (rewrite <- str_eqb_nocase_spec; congruence).
      destruct (IH (i + 1)%N) as [[H1 H2]|[u [n1 [v [-> [H1 [H2 H3]]]]]]].
      * left. split; [rewrite H1; cbn [length]; lia|]. intros n' [<-|H']; auto.
      * right. exists (n :: u), n1, v. split; [reflexivity|]. split; [rewrite H1; cbn [length]; lia|]. split; [exact H2|]. intros n' [<-|H']; auto.
Qed.

Lemma tag_enum_spec x : (gumbo_tag_enum x <> TAG_UNKNOWN <-> standard_tag x) /\
  (gumbo_tag_enum x <> TAG_UNKNOWN -> forall y, gumbo_tag_enum x = gumbo_tag_enum y <-> equal_ignoring_case x y) /\
  gumbo_tag_enum x <> TAG_ANY.
Proof.
  assert (Hlen : N.of_nat (length tag_names) = TAG_UNKNOWN) by (vm_compute; reflexivity).
  assert (Hbig : (TAG_UNKNOWN < TAG_ANY)%N) by reflexivity.
  assert (Hlt : forall u n v, tag_names = u ++ n :: v -> (N.of_nat (length u) < TAG_UNKNOWN)%N).
  { intros u n v H. rewrite <- Hlen, H, app_length. cbn [length]. lia. }
  unfold gumbo_tag_enum. destruct (index_nocase_spec x tag_names 0) as [[-> H]|[u [n [v [Ht [-> [H1 H2]]]]]]].
  - rewrite Hlen, N.add_0_l. split; [|split].
    + split; [congruence|]. intros [n [Hn1 Hn2]]. now apply H in Hn1.
    + congruence.
    + lia.
  - pose proof (Hlt u n v Ht) as Hu. rewrite N.add_0_l. split; [|split].
    + split; [|lia]. intros _. exists n. split; [rewrite Ht; apply in_or_app; right; now left|exact H1].
    + intros _ y. destruct (index_nocase_spec y tag_names 0) as [[-> H]|[u' [n' [v' [Ht' [-> [H1' H2']]]]]]].
      * rewrite Hlen, N.add_0_l. split; [lia|]. intros Hxy. exfalso. apply (H n); [rewrite Ht; apply in_or_app; right; now left|].
        apply (nocase_trans x); [now apply nocase_sym|exact Hxy].
      * rewrite N.add_0_l. split.
        -- intros Hl. assert (length u = length u') as Hl' by lia. rewrite Ht in Ht'. clear -Ht' Hl' H1 H1'.
           revert u' Ht' Hl'. induction u as [|a u IH]; intros [|b u'] Ht' Hl'; try discriminate.
           ++ injection Ht' as -> _. now apply (nocase_trans n').
           ++ injection Ht' as _ Ht'. apply (IH u' Ht'). now injection Hl'.
        -- intros Hxy. rewrite Ht in Ht'. clear -Ht' H1 H1' H2 H2' Hxy.
           assert (HX : forall m, equal_ignoring_case m x <-> equal_ignoring_case m y).
           { intros m. clear -Hxy. rewrite <- !str_eqb_nocase_spec in *. unfold str_eqb_nocase in *. rewrite !str_eqb_eq in *. split; congruence. }
           f_equal. f_equal. revert u' Ht' H2'. induction u as [|a u IH]; intros [|b u'] Ht' H2'; [reflexivity| | |].
           ++ injection Ht' as -> _. exfalso. apply (H2' b); [now left|]. now apply HX.
           ++ injection Ht' as -> _. exfalso. apply (H2 n'); [now left|]. now apply HX.
           ++ injection Ht' as <- Ht'. f_equal. apply IH; auto; intros z Hz; [apply H2|apply H2']; now right.
    + lia.
Qed.

Lemma star_not_standard : ~ standard_tag (s "*").
Proof. apply (fun H => proj1 (not_iff_compat (proj1 (tag_enum_spec (s "*")))) H). vm_compute. intros H. now apply H. Qed.

Lemma closes_tags x y : closes x y <-> x = y \/ (tag_of_name x = tag_of_name y /\ tag_of_name x <> TAG_UNKNOWN).
Proof.
  unfold closes, tag_of_name. destruct (tag_enum_spec x) as [HU [HE HA]].
  assert (HL : forall z, equal_ignoring_case (s "*") z -> z = s "*").
  { intros z H. apply str_eqb_nocase_spec in H. unfold str_eqb_nocase in H. apply str_eqb_eq in H.
    destruct z as [|c [|d z]]; try discriminate. destruct c as [[] [] [] [] [] [] [] []]; try discriminate; reflexivity. }
  destruct (str_eqb x (s "*")) eqn:Ex.
  - apply str_eqb_eq in Ex. subst x. split.
    + intros [H|[H _]]; [now left|]. now apply star_not_standard in H.
    + intros [H|[H _]]; [now left|]. left. destruct (str_eqb y (s "*")) eqn:Ey; [symmetry; now apply str_eqb_eq|].
      exfalso. symmetry in H. now apply (proj2 (proj2 (tag_enum_spec y))) in H.
  - split.
    + intros [H|[H1 H2]]; [now left|]. apply HU in H1. right. split; [|exact H1]. destruct (str_eqb y (s "*")) eqn:Ey.
      * apply str_eqb_eq in Ey. subst y. apply nocase_sym, HL in H2. subst x. discriminate.
      * now apply HE.
    + intros [H|[H1 H2]]; [now left|]. right. split; [now apply HU|]. apply HE; [exact H2|].
      destruct (str_eqb y (s "*")); [contradiction|exact H1].
Qed.

Lemma closes_same h r name : same_tag h r -> is_tag_name name -> closes' r name = true <-> closes (h_name h) name.
Proof.
  intros [H1 H2] Hn. unfold closes'. rewrite H1, H2. cbv zeta. rewrite closes_tags.
  destruct (N.eqb_spec (tag_of_name (h_name h)) TAG_UNKNOWN) as [Hu|Hu].
  - split.
    + intros H. apply str_eqb_eq in H. now left.
    + intros [H|[_ H]]; [now apply str_eqb_eq|contradiction].
  - rewrite name_no_nul by exact Hn. unfold is_star.
    assert (Ht : tag_of_name name = if str_eqb name (s "*") then TAG_ANY else gumbo_tag_enum name) by reflexivity.
    destruct (str_eqb name (s "*")).
    + rewrite <- Ht, N.eqb_eq. split.
      * intros H. right. auto.
      * intros [H|[H _]]; [now rewrite H|exact H].
    + rewrite <- Ht. rewrite negb_true_iff, orb_false_iff, negb_false_iff, N.eqb_eq, N.eqb_neq. split.
      * intros [Ha Hb]. right. auto.
      * intros [H|[H Ha]]; [rewrite <- H|]; split; congruence.
Qed.

(** ** Running the tokens of pieces *)

Section Run.

Variable E : engine.

Lemma trun_app u v z : trun E (u ++ v) z = obind' (trun E u z) (trun E v).
Proof. revert z. induction u as [|t u IH]; intros z; [reflexivity|]. cbn [app trun]. destruct (tstep E t z); cbn [obind']; auto. Qed.

Definition runs_inside (p : piece) : Prop := forall h ms mcs cs ns t rest fl, piece_ok true p ->
  trun E (tokens_of p) ((head_rule h (row_of_rules cs) ns ms mcs :: t) :: rest, fl) =
  match piece_meaning (regex_meaning E) p fl with
  | Some (l, fl') => Some ((head_rule h (row_of_rules (cs ++ elements l)) (ns ++ nested_rules l) ms mcs :: t) :: rest, fl')
  | None => None
  end.
Definition runs_outside (p : piece) : Prop := forall ls rest fl, piece_ok false p ->
  trun E (tokens_of p) ([] :: lvl ls :: rest, fl) =
  match piece_meaning (regex_meaning E) p fl with
  | Some (l, fl') => Some ([] :: lvl (ls ++ elements l) :: rest, fl')
  | None => None
  end.

Lemma elements_app u v : elements (u ++ v) = elements u ++ elements v.
Proof. apply flat_map_app. Qed.
Lemma nested_app u v : nested_rules (u ++ v) = nested_rules u ++ nested_rules v.
Proof. apply flat_map_app. Qed.

Lemma all_inside body : Forall runs_inside body -> forall h ms mcs cs ns t rest fl, Forall (piece_ok true) body ->
  trun E (flat_map tokens_of body) ((head_rule h (row_of_rules cs) ns ms mcs :: t) :: rest, fl) =
  match each (piece_meaning (regex_meaning E)) body fl with
  | Some (l, fl') => Some ((head_rule h (row_of_rules (cs ++ elements (concat l))) (ns ++ nested_rules (concat l)) ms mcs :: t) :: rest, fl')
  | None => None
  end.
Proof.
  induction 1 as [|p body Hp Hb IH]; intros h ms mcs cs ns t rest fl Hok; cbn [flat_map each].
  - unfold ret. cbn [concat elements nested_rules flat_map trun]. now rewrite !app_nil_r.
  - inversion Hok as [|? ? H1 H2]; subst. rewrite trun_app. rewrite (Hp h ms mcs cs ns t rest fl H1). unfold bind.
    destruct (piece_meaning (regex_meaning E) p fl) as [[l fl1]|]; cbn [obind']; [|reflexivity]. rewrite (IH _ _ _ _ _ _ _ _ H2).
    destruct (each (piece_meaning (regex_meaning E)) body fl1) as [[l2 fl2]|]; [|reflexivity]. unfold ret. cbn [concat].
    now rewrite elements_app, nested_app, !app_assoc.
Qed.

Lemma all_outside body : Forall runs_outside body -> forall ls rest fl, Forall (piece_ok false) body ->
  trun E (flat_map tokens_of body) ([] :: lvl ls :: rest, fl) =
  match each (piece_meaning (regex_meaning E)) body fl with
  | Some (l, fl') => Some ([] :: lvl (ls ++ elements (concat l)) :: rest, fl')
  | None => None
  end.
Proof.
  induction 1 as [|p body Hp Hb IH]; intros ls rest fl Hok; cbn [flat_map each].
  - unfold ret. cbn [concat elements flat_map trun]. now rewrite !app_nil_r.
  - inversion Hok as [|? ? H1 H2]; subst. rewrite trun_app. rewrite (Hp ls rest fl H1). unfold bind.
    destruct (piece_meaning (regex_meaning E) p fl) as [[l fl1]|]; cbn [obind']; [|reflexivity]. rewrite (IH _ _ _ H2).
    destruct (each (piece_meaning (regex_meaning E)) body fl1) as [[l2 fl2]|]; [|reflexivity]. unfold ret. cbn [concat].
    now rewrite elements_app, !app_assoc.
Qed.

Lemma head_meaning_form h fl f fl' : head_meaning (regex_meaning E) h fl = Some (f, fl') ->
  exists ms mcs, f = fun children nested => head_rule h children nested ms mcs.
Proof.
  unfold head_meaning, bind, ret. destruct (each _ (h_conditions h) fl) as [[ms fl1]|]; [|discriminate].
  destruct (each _ (h_patterns h) fl1) as [[mcs fl2]|]; [|discriminate]. intros H. injection H as <- <-. eauto.
Qed.

Lemma run_close h name r t rest fl : same_tag h r -> is_tag_name name -> closes (h_name h) name ->
  trun E [TClose name] ((r :: t) :: rest, fl) = option_map (fun sk => (sk, fl)) (pop_rule' ((r :: t) :: rest)).
Proof.
  intros Hs Hn Hc. cbn [trun tstep check_close']. apply (closes_same h r name Hs Hn) in Hc. rewrite Hc. cbn [obind'].
  destruct (pop_rule' ((r :: t) :: rest)); reflexivity.
Qed.

Theorem runs p : runs_inside p /\ runs_outside p.
Proof.
  induction p as [c|x|h|h body name Hb|body Hb] using piece_ind'.
  - split; intros until fl; intros _; cbn; now rewrite ?app_nil_r.
  - split; intros until fl; intros _; cbn; now rewrite ?app_nil_r.
  - split.
    + intros h0 ms mcs cs ns t rest fl _. cbn [tokens_of trun tstep piece_meaning]. unfold bind.
      destruct (head_meaning (regex_meaning E) h fl) as [[f fl1]|] eqn:Eh; [|reflexivity]. apply head_meaning_form in Eh as [ms1 [mcs1 ->]].
      cbn [push_rule' obind' pop_rule' option_map]. unfold ret. cbn [elements nested_rules flat_map app].
      now rewrite head_append_child, app_nil_r by reflexivity.
    + intros ls rest fl _. cbn [tokens_of trun tstep piece_meaning]. unfold bind.
      destruct (head_meaning (regex_meaning E) h fl) as [[f fl1]|] eqn:Eh; [|reflexivity]. apply head_meaning_form in Eh as [ms1 [mcs1 ->]].
      cbn [push_rule' obind']. rewrite pop_into_level by reflexivity. reflexivity.
  - assert (Hin : Forall runs_inside body) by (eapply Forall_impl; [|exact Hb]; intros q [H1 H2]; assumption).
    split.
    + intros h0 ms mcs cs ns t rest fl Hok. apply opened_ok in Hok as [_ [Hn [Hc Hok]]]. cbn [tokens_of trun tstep piece_meaning]. unfold bind.
      destruct (head_meaning (regex_meaning E) h fl) as [[f fl1]|] eqn:Eh; [|reflexivity]. apply head_meaning_form in Eh as [ms1 [mcs1 ->]].
      cbn [push_rule' obind' option_map]. rewrite trun_app.
      change (@None rule) with (row_of_rules []) at 1. rewrite (all_inside body Hin _ _ _ _ _ _ _ _ Hok).
      destruct (each (piece_meaning (regex_meaning E)) body fl1) as [[l fl2]|]; [|reflexivity]. cbn [obind' app].
      rewrite (run_close h) by (auto using head_same_tag). cbn [pop_rule' option_map]. unfold ret. cbn [elements nested_rules flat_map app].
      now rewrite head_append_child, app_nil_r by reflexivity.
    + intros ls rest fl Hok. apply opened_ok in Hok as [_ [Hn [Hc Hok]]]. cbn [tokens_of trun tstep piece_meaning]. unfold bind.
      destruct (head_meaning (regex_meaning E) h fl) as [[f fl1]|] eqn:Eh; [|reflexivity]. apply head_meaning_form in Eh as [ms1 [mcs1 ->]].
      cbn [push_rule' obind' option_map]. rewrite trun_app.
      change (@None rule) with (row_of_rules []) at 1. rewrite (all_inside body Hin _ _ _ _ _ _ _ _ Hok).
      destruct (each (piece_meaning (regex_meaning E)) body fl1) as [[l fl2]|]; [|reflexivity]. cbn [obind' app].
      rewrite (run_close h) by (auto using head_same_tag). rewrite pop_into_level by reflexivity. reflexivity.
  - assert (Hout : Forall runs_outside body) by (eapply Forall_impl; [|exact Hb]; intros q [H1 H2]; assumption).
    split.
    + intros h0 ms mcs cs ns t rest fl Hok. apply nested_ok in Hok as [_ [_ Hok]]. cbn [tokens_of trun tstep piece_meaning].
      cbn [push_nested' option_map obind']. rewrite trun_app. change (@nil rule) with (lvl []) at 2.
      rewrite (all_outside body Hout _ _ _ Hok). unfold bind.
      destruct (each (piece_meaning (regex_meaning E)) body fl) as [[l fl2]|]; [|reflexivity]. cbn [obind' app trun tstep]. unfold lvl.
      destruct (row_of_rules (elements (concat l))) as [r|]; cbn [pop_nested' option_map obind']; [|reflexivity].
      unfold ret. cbn [elements nested_rules flat_map app]. now rewrite head_append_nested, app_nil_r.
    + intros ls rest fl Hok. apply nested_ok in Hok as [Hf _]. discriminate.
Qed.

Lemma finish_level ls : finish' [[]; lvl ls] =
  Some (match row_of_rules ls with Some r => r | None => mk_rule None None [] [] [] TAG_ANY false false None end).
Proof. unfold lvl. destruct (row_of_rules ls); reflexivity. Qed.

Lemma run_text ps : Forall (piece_ok false) ps ->
  obind' (trun E (flat_map tokens_of ps) ([[]; []], no_flags)) (fun z => finish' (fst z)) = text_meaning (regex_meaning E) ps.
Proof.
  intros H. change (trun E (flat_map tokens_of ps) ([[]; []], no_flags)) with (trun E (flat_map tokens_of ps) ([[]; lvl []], no_flags)).
  rewrite all_outside; [|apply Forall_forall; intros p _; apply runs|exact H]. unfold text_meaning.
  destruct (each (piece_meaning (regex_meaning E)) ps no_flags) as [[l fl]|]; [|reflexivity]. cbn [obind' fst app]. apply finish_level.
Qed.

(** ** Every accepted sequence of tokens is that of a text *)

Inductive opener := OElem (h : head) | OBrace.
Definition inside (fs : list (opener * list piece)) : bool := match fs with (OElem _, _) :: _ => true | _ => false end.

Fixpoint unparse (fs : list (opener * list piece)) (cur : list piece) : list token :=
  match fs with
  | [] => flat_map tokens_of cur
  | (o, before) :: fs' => unparse fs' before ++ (match o with OElem h => TOpen h false | OBrace => TBegin end) :: flat_map tokens_of cur
  end.

Definition has_element (l : list piece) : Prop := exists q, In q l /\ is_element q = true.

Fixpoint Shape (fs : list (opener * list piece)) (cur : list piece) (sk : list (list rule)) : Prop :=
  Forall (piece_ok (inside fs)) cur /\
  match fs with
  | [] => exists l, sk = [[]; l]
  | (OElem h, before) :: fs' => exists r t rest, sk = (r :: t) :: rest /\ head_ok h /\ same_tag h r /\ Shape fs' before (t :: rest)
  | (OBrace, before) :: fs' =>
      exists l sk', sk = [] :: l :: sk' /\ (l <> [] -> has_element cur) /\ inside fs' = true /\ Shape fs' before sk'
  end.

Lemma unparse_app fs cur p : unparse fs (cur ++ [p]) = unparse fs cur ++ tokens_of p.
Proof. destruct fs as [|[o b] fs]; cbn [unparse]; rewrite flat_map_app; cbn [flat_map]; rewrite app_nil_r, <- ?app_assoc; reflexivity. Qed.

Lemma has_element_app cur p : has_element cur -> has_element (cur ++ [p]).
Proof. intros [q [H1 H2]]. exists q. split; [apply in_or_app; now left|exact H2]. Qed.
Lemma has_element_last cur p : is_element p = true -> has_element (cur ++ [p]).
Proof. intros H. exists p. split; [apply in_or_app; right; now left|exact H]. Qed.

Lemma shape_skip fs cur sk p : Shape fs cur sk -> piece_ok (inside fs) p -> Shape fs (cur ++ [p]) sk.
Proof.
  intros H Hp. assert (HF : Forall (piece_ok (inside fs)) (cur ++ [p])).
  { apply Forall_app. split; [destruct fs; exact (proj1 H)|constructor; [exact Hp|constructor]]. }
  destruct fs as [|[[h|] before] fs]; destruct H as [_ H]; split; try exact HF.
  - exact H.
  - exact H.
  - destruct H as [l [sk' [-> [H1 H2]]]]. exists l, sk'. split; [reflexivity|]. split; [|exact H2]. intros Hl. apply has_element_app; auto.
Qed.

Lemma child_same_tag h r c : same_tag h r -> same_tag h (append_child r c).
Proof. destruct r as [[c'|] n l ms cs t o g name]; exact (fun H => H). Qed.
Lemma nested_same_tag h r c : same_tag h r -> same_tag h (append_nested r c).
Proof. destruct r as [c' n l ms cs t o g name]; exact (fun H => H). Qed.

(** An element ends: what was pushed is added to what is below. *)
Lemma shape_pop fs cur r t rest sk p : Shape fs cur (t :: rest) -> piece_ok (inside fs) p -> is_element p = true ->
  pop_rule' ((r :: t) :: rest) = Some sk -> Shape fs (cur ++ [p]) sk.
Proof.
  intros H Hp He Hpop. assert (HF : Forall (piece_ok (inside fs)) (cur ++ [p])).
  { apply Forall_app. split; [destruct fs; exact (proj1 H)|constructor; [exact Hp|constructor]]. }
  destruct fs as [|[[h|] before] fs]; destruct H as [_ H]; split; try exact HF.
  - destruct H as [l H]. injection H as -> ->. destruct l as [|top l]; cbn [pop_rule'] in Hpop; injection Hpop as <-; eauto.
  - destruct H as [r' [t' [rest' [H1 [H2 [H3 H4]]]]]]. injection H1 as -> ->. cbn [pop_rule'] in Hpop. injection Hpop as <-.
    exists (append_child r' r), t', rest'. auto using child_same_tag.
  - destruct H as [l [sk' [H1 [H2 H3]]]]. injection H1 as -> ->. destruct l as [|top l]; cbn [pop_rule'] in Hpop; injection Hpop as <-;
      eexists _, sk'; (split; [reflexivity|]); split; auto; intros _; now apply has_element_last.
Qed.

Lemma shape_length fs cur sk : Shape fs cur sk -> 2 <= length sk.
Proof.
  revert cur sk. induction fs as [|[[h|] before] fs IH]; intros cur sk [_ H].
  - destruct H as [l ->]. cbn. lia.
  - destruct H as [r [t [rest [-> [_ [_ H]]]]]]. apply IH in H. cbn [length] in *. lia.
  - destruct H as [l [sk' [-> _]]]. cbn [length]. lia.
Qed.

Lemma shape_step t fs cur sk fl sk' fl' : token_ok t -> Shape fs cur sk -> tstep E t (sk, fl) = Some (sk', fl') ->
  exists fs' cur', unparse fs' cur' = unparse fs cur ++ [t] /\ Shape fs' cur' sk'.
Proof.
  intros Ht HS Hs. destruct t as [c|x| | |h closed|name]; cbn [tstep token_ok] in *.
  - injection Hs as <- <-. exists fs, (cur ++ [Space c]). split; [apply unparse_app|]. now apply shape_skip.
  - injection Hs as <- <-. exists fs, (cur ++ [Comment x]). split; [apply unparse_app|]. now apply shape_skip.
  - destruct sk as [|[|r t] rest]; try discriminate. cbn in Hs. injection Hs as <- <-.
    exists ((OBrace, cur) :: fs), []. split; [reflexivity|]. split; [constructor|]. exists [], ((r :: t) :: rest).
    split; [reflexivity|]. split; [congruence|]. split; [|exact HS].
    destruct fs as [|[[h|] before] fs]; [|reflexivity|]; destruct HS as [_ H].
    + destruct H as [l H]. discriminate.
    + destruct H as [l [sk' [H _]]]. discriminate.
  - destruct sk as [|[|r0 t0] [|[|n [|n' t']] [|[|r t] rest]]]; try discriminate. cbn in Hs. injection Hs as <- <-.
    destruct fs as [|[[h|] before] fs]; destruct HS as [HF H].
    + destruct H as [l H]. discriminate.
    + destruct H as [r' [t' [rest' [H _]]]]. discriminate.
    + destruct H as [l [sk' [H [H1 [H2 H3]]]]]. injection H as <- <-.
      exists fs, (before ++ [Nested cur]). split.
      * rewrite unparse_app. cbn [unparse tokens_of]. now rewrite <- app_assoc.
      * assert (Hok : piece_ok (inside fs) (Nested cur)). { apply nested_ok. rewrite H2. split; [reflexivity|]. split; [apply H1; discriminate|exact HF]. }
        pose proof (shape_skip _ _ _ _ H3 Hok) as H4. destruct fs as [|[[h|] b] fs]; try discriminate.
        destruct H4 as [H4 [r' [t' [rest' [H5 [H6 [H7 H8]]]]]]]. injection H5 as <- <- <-. split; [exact H4|].
        exists (append_nested r n), t, rest. auto using nested_same_tag.
  - destruct (head_meaning (regex_meaning E) h fl) as [[f fl1]|] eqn:Eh; [|discriminate]. apply head_meaning_form in Eh as [ms [mcs ->]].
    destruct sk as [|t rest]; [discriminate|]. cbn [push_rule' obind'] in Hs. destruct closed.
    + destruct (pop_rule' _) as [sk1|] eqn:Ep; [|discriminate]. injection Hs as <- <-.
      exists fs, (cur ++ [Closed h]). split; [apply unparse_app|]. eapply shape_pop; eauto.
    + injection Hs as <- <-. exists ((OElem h, cur) :: fs), []. split; [reflexivity|]. split; [constructor|].
      eexists _, t, rest. split; [reflexivity|]. auto using head_same_tag.
  - destruct (check_close' name sk) as [sk1|] eqn:Ec; [|discriminate]. cbn [obind'] in Hs.
    destruct (pop_rule' sk1) as [sk2|] eqn:Ep; [|discriminate]. injection Hs as <- <-.
    destruct sk as [|[|r t] rest]; try discriminate. cbn [check_close'] in Ec. destruct (closes' r name) eqn:Ecl; [|discriminate]. injection Ec as <-.
    destruct fs as [|[[h|] before] fs]; destruct HS as [HF H].
    + destruct H as [l H]. discriminate.
    + destruct H as [r' [t' [rest' [H1 [H2 [H3 H4]]]]]]. injection H1 as <- <- <-.
      apply (closes_same h r name H3 Ht) in Ecl. exists fs, (before ++ [Opened h cur name]). split.
      * rewrite unparse_app. cbn [unparse tokens_of]. now rewrite <- app_assoc.
      * eapply shape_pop; [exact H4| |reflexivity|exact Ep]. apply opened_ok. auto.
    + destruct H as [l [sk' [H _]]]. discriminate.
Qed.

Lemma shape_run ts : forall fs cur sk fl sk' fl', Forall token_ok ts -> Shape fs cur sk -> trun E ts (sk, fl) = Some (sk', fl') ->
  exists fs' cur', unparse fs' cur' = unparse fs cur ++ ts /\ Shape fs' cur' sk'.
Proof.
  induction ts as [|t ts IH]; intros fs cur sk fl sk' fl' Ht HS Hr; cbn [trun] in Hr.
  - injection Hr as <- <-. exists fs, cur. rewrite app_nil_r. auto.
  - inversion Ht as [|? ? H1 H2]; subst. destruct (tstep E t (sk, fl)) as [[sk1 fl1]|] eqn:Es; [|discriminate]. cbn [obind'] in Hr.
    destruct (shape_step _ _ _ _ _ _ _ H1 HS Es) as [fs1 [cur1 [Hu HS1]]].
    destruct (IH _ _ _ _ _ _ H2 HS1 Hr) as [fs2 [cur2 [Hu2 HS2]]]. exists fs2, cur2. split; [|exact HS2].
    rewrite Hu2, Hu, <- app_assoc. reflexivity.
Qed.

Lemma shape_finish fs cur sk r : Shape fs cur sk -> finish' sk = Some r -> fs = [].
Proof.
  intros HS Hf. destruct fs as [|[[h|] before] fs]; [reflexivity| |]; exfalso; destruct HS as [_ H].
  - destruct H as [r' [t [rest [-> [_ [_ H]]]]]]. apply shape_length in H. cbn [length] in H. unfold finish' in Hf.
    destruct (Nat.ltb 2 (length ((r' :: t) :: rest))); [discriminate|]. cbn [pop_empty] in Hf.
    destruct rest as [|x rest]; [cbn in H; lia|]. destruct t; discriminate.
  - destruct H as [l [sk' [-> [_ [_ H]]]]]. apply shape_length in H. unfold finish' in Hf.
    destruct (Nat.ltb_spec 2 (length ([] :: l :: sk'))); [discriminate|]. cbn [length] in *. lia.
Qed.

Theorem parse_denotes x r : ParseHext E x = Ok r <-> denotes E x r.
Proof.
  rewrite parse_tokens. split.
  - intros [ts [sk [fl [Ht [Hx [Hr Hf]]]]]].
    assert (HS : Shape [] [] [[]; []]) by (split; [constructor|eauto]).
    destruct (shape_run ts _ _ _ _ _ _ Ht HS Hr) as [fs [cur [Hu HS']]]. pose proof (shape_finish _ _ _ _ HS' Hf) as ->.
    cbn [unparse flat_map app] in Hu. destruct HS' as [Hok _]. exists cur. split.
    + split; [exact Hok|]. rewrite <- text_tokens, Hu. exact Hx.
    + rewrite <- run_text by exact Hok. rewrite Hu, Hr. exact Hf.
  - intros [ps [[Hok Hx] Hm]]. rewrite <- run_text in Hm by exact Hok.
    destruct (trun E (flat_map tokens_of ps) ([[]; []], no_flags)) as [[sk fl]|] eqn:Er; [|discriminate]. cbn [obind' fst] in Hm.
    exists (flat_map tokens_of ps), sk, fl. split; [|split; [|split]]; auto.
    + apply Forall_flat_map'. eapply Forall_impl; [|exact Hok]. intros p. apply tokens_ok.
    + now rewrite text_tokens.
Qed.

End Run.
