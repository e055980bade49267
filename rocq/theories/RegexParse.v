(** The regexes of a parsed rule are those that the parser compiles. *)

From Coq Require Import Ascii String NArith ZArith Bool List Lia.
From Verif Require Import Base StringUtil Tags Dom NodeUtil Values Match Rule Parser ParserSpec SyntaxSpec SyntaxTree SyntaxProofs RegexSpec.
Import ListNotations.

Lemma accepts_app E l l' : accepts E (l ++ l') <-> accepts E l /\ accepts E l'.
Proof.
  split; [intros H; split; intros u Hu; apply H; apply in_or_app; tauto|]. intros [H1 H2] u Hu. apply in_app_or in Hu. destruct Hu; auto.
Qed.
Lemma accepts_nil E : accepts E [].
Proof. intros u []. Qed.
Lemma accepts_nil_iff E : accepts E [] <-> True.
Proof. split; [auto|intros _; apply accepts_nil]. Qed.

Section Two.
Variables E E' : engine.

(** After the regexes [pre] the meaning [m] needs [v], in both libraries. *)
Definition rel {A} (pre : list use) (v : A -> list use) (m m' : meaning A) : Prop :=
  accepts E pre -> forall fl a fl', m fl = Some (a, fl') ->
  accepts E (v a) /\ (accepts E' (v a) -> accepts E' pre /\ m' fl = Some (a, fl')).

Lemma rel_bind {A B} pre u v (m m' : meaning A) (k k' : A -> meaning B) :
  rel pre u m m' -> (forall a fl fl', m fl = Some (a, fl') -> rel (u a) v (k a) (k' a)) -> rel pre v (bind m k) (bind m' k').
Proof.
  intros Hm Hk HP fl b fl' H. unfold bind in *. destruct (m fl) as [[a fl1]|] eqn:Hma; [|discriminate].
  destruct (Hm HP fl a fl1 Hma) as [H1 H2]. destruct (Hk a fl fl1 Hma H1 fl1 b fl' H) as [H3 H4]. split; [exact H3|].
  intros Hv. destruct (H4 Hv) as [H5 H6]. destruct (H2 H5) as [H7 H8]. split; [exact H7|]. now rewrite H8.
Qed.
Lemma rel_ret {A} pre v (a : A) : (forall E0, accepts E0 pre <-> accepts E0 (v a)) -> rel pre v (ret a) (ret a).
Proof. intros H HP fl b fl' Hb. injection Hb as <- <-. split; [now apply H|]. intros Hv. split; [now apply H|reflexivity]. Qed.
Lemma rel_none {A} pre (v : A -> list use) : rel pre v none none.
Proof. intros _ fl a fl' H. discriminate. Qed.
Lemma rel_frame {A} pre u (m m' : meaning A) : rel [] u m m' -> rel pre (fun a => pre ++ u a) m m'.
Proof.
  intros Hm HP fl a fl' H. destruct (Hm (accepts_nil E) fl a fl' H) as [H1 H2]. rewrite !accepts_app. split; [tauto|]. intros [H3 H4]. split; [exact H3|now apply H2].
Qed.
Lemma rel_weaken {A} pre u v (m m' : meaning A) : (forall E0 a, accepts E0 (u a) <-> accepts E0 (v a)) -> rel pre u m m' -> rel pre v m m'.
Proof. intros H Hm HP fl a fl' Ha. destruct (Hm HP fl a fl' Ha) as [H1 H2]. rewrite <- H. split; [exact H1|]. rewrite <- H. exact H2. Qed.
(** Something that does not depend on the library. *)
Lemma rel_same {A} (m : meaning A) : rel [] (fun _ => []) m m.
Proof. intros _ fl a fl' H. split; [apply accepts_nil|]. intros _. split; [apply accepts_nil|exact H]. Qed.

Lemma rel_each {X A} (f f' : X -> meaning A) u l : Forall (fun x => rel [] u (f x) (f' x)) l ->
  rel [] (flat_map u) (each f l) (each f' l).
Proof.
  induction 1 as [|x l Hx Hl IH]; cbn [each]; [now apply rel_ret|].
  apply (rel_bind _ u); [exact Hx|]. intros a _ _ _. apply (rel_bind _ (fun bs => u a ++ flat_map u bs)); [now apply rel_frame|].
  intros bs _ _ _. apply rel_ret. intros E0. cbn [flat_map]. reflexivity.
Qed.

Lemma rel_regex r : rel [] (fun rx => [Searches rx]) (regex_meaning E r) (regex_meaning E' r).
Proof.
  intros _ fl a fl' H. unfold regex_meaning in *. destruct (eng_compile E _) eqn:HE; [discriminate|]. injection H as <- <-. split.
  - intros u [<-|[]]. exact HE.
  - intros HA. split; [apply accepts_nil|]. specialize (HA _ (or_introl eq_refl)). cbn [use_regex] in HA. now rewrite HA.
Qed.

Notation RE := (regex_meaning E).
Notation RE' := (regex_meaning E').

Lemma rel_trait t : rel [] condition_uses (trait_meaning RE t) (trait_meaning RE' t).
Proof.
  destruct t as [|ds|ds|first ot n|first ot|ot|r]; cbn [trait_meaning]; try (now apply rel_ret).
  1-3: apply (rel_bind _ (fun _ => [])); [apply rel_same|]; intros; now apply rel_ret.
  apply (rel_bind _ (fun rx => [Searches rx])); [apply rel_regex|]. intros. now apply rel_ret.
Qed.

Lemma negate_uses E0 ms : accepts E0 (condition_uses (NegateMatch (map Some ms))) <-> accepts E0 (flat_map condition_uses ms).
Proof. cbn [condition_uses]. induction ms as [|m ms IH]; [reflexivity|]. cbn [map flat_map]. now rewrite !accepts_app, IH. Qed.

Lemma rel_condition c : rel [] condition_uses (condition_meaning RE c) (condition_meaning RE' c).
Proof.
  destruct c as [t|t ts]; cbn [condition_meaning]; [apply rel_trait|].
  apply (rel_bind _ (flat_map condition_uses)); [apply rel_each; apply Forall_forall; intros; apply rel_trait|].
  intros ms _ _ _. apply rel_ret. intros E0. symmetry. apply negate_uses.
Qed.

Lemma rel_pipe p : rel [] transform_uses (pipe_meaning RE p) (pipe_meaning RE' p).
Proof.
  destruct p as [| | | | | | |r|r sp sp' q]; cbn [pipe_meaning]; try (now apply rel_ret);
    (apply (rel_bind _ (fun rx => [Searches rx])); [apply rel_regex|]); intros; apply rel_ret; [reflexivity|].
  intros E0. unfold accepts. split; intros HA w [<-|[]]; exact (HA _ (or_introl eq_refl)).
Qed.
Lemma chain_uses ts : of_option pipe_uses (pipe_chain ts) = flat_map transform_uses ts.
Proof. induction ts as [|t ts IH]; [reflexivity|]. cbn [pipe_chain of_option pipe_uses flat_map]. f_equal. rewrite <- IH. now destruct (pipe_chain ts). Qed.

Lemma rel_test v : rel [] test_uses (value_test_meaning RE v) (value_test_meaning RE' v).
Proof.
  destruct v as [r|[] q]; cbn [value_test_meaning]; try (now apply rel_ret).
  apply (rel_bind _ (fun rx => [Searches rx])); [apply rel_regex|]. intros. now apply rel_ret.
Qed.
Lemma negated_uses ng t : of_option test_uses (negated_test ng t) = of_option test_uses t.
Proof. destruct ng, t; reflexivity. Qed.

Definition pattern_uses (mc : list mtch * list capture) : list use := flat_map condition_uses (fst mc) ++ flat_map capture_uses (snd mc).
Lemma rel_pattern p : rel [] pattern_uses (pattern_meaning RE p) (pattern_meaning RE' p).
Proof.
  unfold pattern_meaning. apply (rel_bind _ pattern_uses).
  - destruct p as [b ps n|b v ng|a ps n o|a v ng|a ng].
    + apply (rel_bind _ (flat_map transform_uses)); [apply rel_each; apply Forall_forall; intros; apply rel_pipe|]. intros ts _ _ _. apply rel_ret. intros E0.
      unfold pattern_uses. cbn [fst snd flat_map capture_uses app]. now rewrite chain_uses, app_nil_r.
    + apply (rel_bind _ test_uses); [apply rel_test|]. intros t _ _ _. apply rel_ret. intros E0.
      unfold pattern_uses. cbn [fst snd flat_map condition_uses app]. now rewrite negated_uses, !app_nil_r.
    + apply (rel_bind _ (flat_map transform_uses)); [apply rel_each; apply Forall_forall; intros; apply rel_pipe|]. intros ts _ _ _. apply rel_ret. intros E0.
      unfold pattern_uses. destruct o; cbn [fst snd flat_map condition_uses of_option capture_uses app]; now rewrite chain_uses, app_nil_r.
    + apply (rel_bind _ test_uses); [apply rel_test|]. intros t _ _ _. apply rel_ret. intros E0.
      unfold pattern_uses. cbn [fst snd flat_map condition_uses app]. now rewrite negated_uses, !app_nil_r.
    + apply rel_ret. intros E0. unfold pattern_uses. cbn [fst snd flat_map condition_uses app]. now rewrite negated_uses.
  - intros mc _ _ _ HP fl a fl' H. injection H as <- <-. split; [exact HP|]. intros HA. now split.
Qed.

(** ** Rules *)

(** Without the next rule. *)
Definition part_uses (r : rule) : list use :=
  own_uses (r_matches r) (r_captures r) ++ of_option rule_uses (r_child r) ++ flat_map rule_uses (r_nested r).

Lemma row_uses l : of_option rule_uses (row_of_rules l) = flat_map part_uses l.
Proof.
  induction l as [|r l IH]; [reflexivity|]. cbn [row_of_rules of_option flat_map]. rewrite <- IH. destruct r as [c n nl ms cs t o g name].
  unfold part_uses. cbn [with_next rule_uses r_matches r_captures r_child r_nested]. rewrite <- !app_assoc.
  destruct c, (row_of_rules l); reflexivity.
Qed.

Lemma some_uses {A} (f : A -> list use) (l : list A) : flat_map (of_option f) (map Some l) = flat_map f l.
Proof. induction l as [|a l IH]; [reflexivity|]. cbn [map flat_map of_option]. now rewrite IH. Qed.

Lemma pair_uses E0 (mcs : list (list mtch * list capture)) : accepts E0 (flat_map pattern_uses mcs) <->
  accepts E0 (flat_map condition_uses (flat_map fst mcs)) /\ accepts E0 (flat_map capture_uses (flat_map snd mcs)).
Proof.
  induction mcs as [|[a b] mcs IH]; [cbn; rewrite accepts_nil_iff; tauto|]. cbn [flat_map fst snd]. rewrite !flat_map_app, !accepts_app, IH.
  unfold pattern_uses. cbn [fst snd]. rewrite accepts_app. tauto.
Qed.

Lemma head_uses E0 h c nl ms mcs : accepts E0 (part_uses (head_rule h c nl ms mcs)) <->
  accepts E0 (part_uses (head_rule h None [] ms mcs)) /\ accepts E0 (of_option rule_uses c) /\ accepts E0 (flat_map rule_uses nl).
Proof.
  unfold part_uses, head_rule. cbn [r_matches r_captures r_child r_nested of_option flat_map]. rewrite !accepts_app, accepts_nil_iff. tauto.
Qed.

Lemma rel_head h : rel [] (fun f => part_uses (f None [])) (head_meaning RE h) (head_meaning RE' h).
Proof.
  unfold head_meaning. apply (rel_bind _ (flat_map condition_uses)); [apply rel_each; apply Forall_forall; intros; apply rel_condition|].
  intros ms _ _ _. apply (rel_bind _ (fun mcs => flat_map condition_uses ms ++ flat_map pattern_uses mcs)).
  { apply rel_frame, rel_each. apply Forall_forall. intros. apply rel_pattern. }
  intros mcs _ _ _. apply rel_ret. intros E0. unfold part_uses, head_rule, own_uses. cbn [r_matches r_captures r_child r_nested of_option flat_map].
  rewrite !some_uses, flat_map_app, !accepts_app, pair_uses, accepts_nil_iff. tauto.
Qed.
Lemma head_shape R h fl f fl' : head_meaning R h fl = Some (f, fl') -> exists ms mcs, f = fun c nl => head_rule h c nl ms mcs.
Proof.
  unfold head_meaning, bind. destruct (each _ _ fl) as [[ms fl1]|]; [|discriminate]. destruct (each _ _ fl1) as [[mcs fl2]|]; [|discriminate].
  intros H. injection H as <- _. eauto.
Qed.

Definition piece_uses (p : part) : list use := match p with Element r => part_uses r | NestedRule r => rule_uses r end.
Lemma parts_uses E0 l : accepts E0 (flat_map piece_uses l) <->
  accepts E0 (of_option rule_uses (row_of_rules (elements l))) /\ accepts E0 (flat_map rule_uses (nested_rules l)).
Proof.
  rewrite row_uses. induction l as [|[r|r] l IH]; [cbn; rewrite accepts_nil_iff; tauto| |];
    cbn [flat_map piece_uses elements nested_rules app]; fold (elements l) (nested_rules l); rewrite !accepts_app, IH; tauto.
Qed.

Lemma rel_body body : Forall (fun p => rel [] (flat_map piece_uses) (piece_meaning RE p) (piece_meaning RE' p)) body ->
  rel [] (fun l => flat_map piece_uses (concat l)) (each (piece_meaning RE) body) (each (piece_meaning RE') body).
Proof.
  intros H. apply (rel_weaken _ (flat_map (flat_map piece_uses))); [|exact (rel_each _ _ _ _ H)].
  intros E0 l. induction l as [|a l IH]; [reflexivity|]. cbn [flat_map concat]. now rewrite flat_map_app, !accepts_app, IH.
Qed.

Lemma outer_piece R p fl l fl' : piece_ok false p -> piece_meaning R p fl = Some (l, fl') -> nested_rules l = [].
Proof.
  intros Hok. destruct p as [c|x|h|h body name|body]; cbn [piece_meaning].
  1-2: intros H; injection H as <- _; reflexivity.
  - unfold bind. destruct (head_meaning R h fl) as [[f fl1]|]; [|discriminate]. intros H. injection H as <- _. reflexivity.
  - unfold bind. destruct (head_meaning R h fl) as [[f fl1]|]; [|discriminate]. destruct (each _ _ fl1) as [[bs fl2]|]; [|discriminate].
    intros H. injection H as <- _. reflexivity.
  - apply nested_ok in Hok as [Hok _]. discriminate.
Qed.
Lemma outer_pieces R ps : Forall (piece_ok false) ps -> forall fl l fl', each (piece_meaning R) ps fl = Some (l, fl') -> nested_rules (concat l) = [].
Proof.
  induction 1 as [|p ps Hp Hps IH]; cbn [each]; intros fl l fl' H; [injection H as <- _; reflexivity|].
  unfold bind in H. destruct (piece_meaning R p fl) as [[l1 fl1]|] eqn:H1; [|discriminate].
  destruct (each (piece_meaning R) ps fl1) as [[l2 fl2]|] eqn:H2; [|discriminate]. injection H as <- _.
  cbn [concat]. unfold nested_rules. rewrite flat_map_app. fold (nested_rules l1) (nested_rules (concat l2)).
  now rewrite (outer_piece R p fl l1 fl1 Hp H1), (IH _ _ _ H2).
Qed.

Lemma rel_piece p : forall i, piece_ok i p -> rel [] (flat_map piece_uses) (piece_meaning RE p) (piece_meaning RE' p).
Proof.
  induction p as [c|x|h|h body name Hb|body Hb] using piece_ind'; intros i Hok; cbn [piece_meaning]; try (now apply rel_ret).
  - apply (rel_bind _ (fun f => part_uses (f None []))); [apply rel_head|]. intros f _ _ _. apply rel_ret. intros E0. cbn [flat_map piece_uses]. now rewrite app_nil_r.
  - apply opened_ok in Hok as [_ [_ [_ Hok]]].
    assert (Hr : rel [] (fun l => flat_map piece_uses (concat l)) (each (piece_meaning RE) body) (each (piece_meaning RE') body)).
    { apply rel_body. rewrite Forall_forall in *. intros q Hq. exact (Hb q Hq true (Hok q Hq)). }
    apply (rel_bind _ (fun f => part_uses (f None []))); [apply rel_head|]. intros f fl fl' Hf. apply head_shape in Hf as [ms [mcs ->]].
    apply (rel_bind _ (fun l => part_uses (head_rule h None [] ms mcs) ++ flat_map piece_uses (concat l))); [now apply rel_frame|].
    intros l _ _ _. apply rel_ret. intros E0. cbn [flat_map piece_uses]. rewrite app_nil_r, (head_uses E0 h (row_of_rules _)), accepts_app, parts_uses. reflexivity.
  - apply nested_ok in Hok as [_ [_ Hok]].
    apply (rel_bind _ (fun l => flat_map piece_uses (concat l))).
    { apply rel_body. rewrite Forall_forall in *. intros q Hq. exact (Hb q Hq false (Hok q Hq)). }
    intros l fl fl' Hl. apply (outer_pieces _ _ Hok) in Hl.
    destruct (row_of_rules (elements (concat l))) as [r|] eqn:Hr; [|apply rel_none].
    apply rel_ret. intros E0. rewrite parts_uses, Hr, Hl. cbn [of_option flat_map piece_uses]. rewrite app_nil_r, accepts_nil_iff. tauto.
Qed.

Lemma text_uses ps r : Forall (piece_ok false) ps -> text_meaning RE ps = Some r ->
  accepts E (rule_uses r) /\ (accepts E' (rule_uses r) -> text_meaning RE' ps = Some r).
Proof.
  intros Hok. unfold text_meaning. destruct (each (piece_meaning RE) ps no_flags) as [[l fl]|] eqn:Hl; [|discriminate]. intros H. injection H as Hr.
  assert (HR : rel [] (fun l => flat_map piece_uses (concat l)) (each (piece_meaning RE) ps) (each (piece_meaning RE') ps)).
  { apply rel_body. rewrite Forall_forall in *. intros q Hq. exact (rel_piece q false (Hok q Hq)). }
  destruct (HR (accepts_nil E) _ _ _ Hl) as [H1 H2]. apply (outer_pieces _ _ Hok) in Hl.
  assert (HU : forall E0, accepts E0 (flat_map piece_uses (concat l)) <-> accepts E0 (rule_uses r)).
  { intros E0. rewrite parts_uses, Hl. cbn [flat_map]. rewrite accepts_nil_iff. rewrite <- Hr.
    destruct (row_of_rules (elements (concat l))) as [r'|]; [tauto|]. cbn. tauto. }
  split; [now apply HU|]. intros HA. apply HU in HA. apply H2 in HA as [_ HA]. rewrite HA. now rewrite Hr.
Qed.
End Two.

Theorem parse_accepts E x r : ParseHext E x = Ok r -> accepts E (rule_uses r).
Proof.
  intros H. apply parse_denotes in H as [ps [Hs H]]. exact (proj1 (text_uses E E ps r (proj1 Hs) H)).
Qed.

Theorem parse_same E E' x r : ParseHext E x = Ok r -> ParseHext E' x = Ok r <-> accepts E' (rule_uses r).
Proof.
  intros H. split; [apply parse_accepts|]. intros HA. apply parse_denotes in H as [ps [Hs H]]. apply (parse_given_pieces E' ps x r Hs).
  exact (proj2 (text_uses E E' ps r (proj1 Hs) H) HA).
Qed.
