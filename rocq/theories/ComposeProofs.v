(** Texts made of texts (C80). *)

From Coq Require Import Ascii String NArith ZArith Bool List.
From Verif Require Import Base Values Match Rule Parser SyntaxSpec ComposeSpec SyntaxTree SyntaxProofs.
Import ListNotations.

Section Compose.
Variable E : engine.
Local Notation R := (regex_meaning E).

(** ** Flags *)

Definition still {A} (m : meaning A) : Prop := forall fl x fl', m fl = Some (x, fl') -> fl' = fl.
Definition ends_clear {A} (m : meaning A) : Prop := forall x fl', m no_flags = Some (x, fl') -> fl' = no_flags.

Lemma still_bind {A B} (m : meaning A) (f : A -> meaning B) : still m -> (forall x, still (f x)) -> still (bind m f).
Proof.
  intros Hm Hf fl y fl' H. unfold bind in H. destruct (m fl) as [[x fl1]|] eqn:H1; [|discriminate].
  apply Hm in H1. apply Hf in H. congruence.
Qed.
Lemma clear_bind {A B} (m : meaning A) (f : A -> meaning B) : ends_clear m -> (forall x, ends_clear (f x)) -> ends_clear (bind m f).
Proof.
  intros Hm Hf y fl' H. unfold bind in H. destruct (m no_flags) as [[x fl1]|] eqn:H1; [|discriminate].
  apply Hm in H1. rewrite H1 in H. apply Hf in H. exact H.
Qed.
Lemma still_ret {A} (x : A) : still (ret x).
Proof. intros fl y fl' H. now injection H. Qed.
Lemma still_none {A} : still (@none A).
Proof. intros fl y fl' H. discriminate. Qed.
Lemma still_clear {A} (m : meaning A) : still m -> ends_clear m.
Proof. intros H x fl' H1. now apply H in H1. Qed.
Lemma still_each {A B} (f : A -> meaning B) l : Forall (fun a => still (f a)) l -> still (each f l).
Proof.
  induction 1 as [|a l Ha Hl IH]; cbn [each]; [apply still_ret|].
  apply still_bind; [exact Ha|]. intros b. apply still_bind; [exact IH|]. intros bs. apply still_ret.
Qed.
Lemma clear_each {A B} (f : A -> meaning B) l : Forall (fun a => ends_clear (f a)) l -> ends_clear (each f l).
Proof.
  induction 1 as [|a l Ha Hl IH]; cbn [each]; [apply still_clear, still_ret|].
  apply clear_bind; [exact Ha|]. intros b. apply clear_bind; [exact IH|]. intros bs. apply still_clear, still_ret.
Qed.

Lemma number_still m ds : still (number_meaning m ds).
Proof. unfold number_meaning. destruct (fits_int _); [apply still_ret|apply still_none]. Qed.
Lemma nth_still n : still (nth_meaning n).
Proof.
  destruct n; cbn [nth_meaning]; try apply still_ret; (apply still_bind; [apply number_still|]); intros x; try apply still_ret.
  apply still_bind; [apply number_still|]. intros y. apply still_ret.
Qed.
Lemma trait_still t : trait_unflagged t -> still (trait_meaning R t).
Proof.
  destruct t; cbn [trait_unflagged trait_meaning]; intros H; try apply still_ret;
    try (apply still_bind; [apply number_still || apply nth_still|intros x; apply still_ret]).
  apply still_bind; [|intros x; apply still_ret].
  intros fl x fl' H1. unfold regex_meaning in H1. rewrite H in H1. cbn [fold_left] in H1.
  destruct (eng_compile E _); [discriminate|]. now injection H1.
Qed.
Lemma condition_still c : condition_unflagged c -> still (condition_meaning R c).
Proof.
  destruct c as [t|t ts]; cbn [condition_unflagged condition_meaning]; intros H; [now apply trait_still|].
  apply still_bind; [|intros x; apply still_ret]. apply still_each.
  eapply Forall_impl; [|exact H]. intros a. apply trait_still.
Qed.
Lemma reset_clear {A} (m : meaning A) : ends_clear (bind m (fun x _ => Some (x, no_flags))).
Proof. intros x fl' H. unfold bind in H. destruct (m no_flags) as [[y fl1]|]; [|discriminate]. now injection H. Qed.
Lemma pattern_clear p : ends_clear (pattern_meaning R p).
Proof. apply reset_clear. Qed.
Lemma head_clear h : traits_unflagged h -> ends_clear (head_meaning R h).
Proof.
  intros H. unfold head_meaning. apply clear_bind.
  - apply still_clear, still_each. eapply Forall_impl; [|exact H]. intros a. apply condition_still.
  - intros ms. apply clear_bind; [|intros x; apply still_clear, still_ret].
    apply clear_each. apply Forall_forall. intros a _. apply pattern_clear.
Qed.

Lemma all_Forall (P : piece -> Prop) l :
  (fix all l := match l with [] => True | q :: l' => P q /\ all l' end) l <-> Forall P l.
Proof.
  induction l as [|q l IH]; [split; constructor|]. split.
  - intros [H1 H2]. constructor; [exact H1|now apply IH].
  - intros H. inversion H; subst. split; [assumption|now apply IH].
Qed.

Lemma piece_clear : forall p, types_unflagged p -> ends_clear (piece_meaning R p).
Proof.
  fix IH 1. intros p.
  destruct p as [c|x|h|h body name|body]; cbn [types_unflagged piece_meaning]; intros H.
  - apply still_clear, still_ret.
  - apply still_clear, still_ret.
  - apply clear_bind; [now apply head_clear|]. intros f. apply still_clear, still_ret.
  - destruct H as [H1 H2]. apply clear_bind; [now apply head_clear|]. intros f.
    apply clear_bind; [|intros l; apply still_clear, still_ret].
    apply clear_each. clear H1. revert H2. induction body as [|q body IHb]; intros H2; constructor.
    + apply IH. exact (proj1 H2).
    + apply IHb. exact (proj2 H2).
  - apply clear_bind.
    + apply clear_each. revert H. induction body as [|q body IHb]; intros H2; constructor.
      * apply IH. exact (proj1 H2).
      * apply IHb. exact (proj2 H2).
    + intros l. destruct (row_of_rules _); apply still_clear; [apply still_ret|apply still_none].
Qed.

Lemma pieces_clear ps : Forall types_unflagged ps -> ends_clear (each (piece_meaning R) ps).
Proof. intros H. apply clear_each. eapply Forall_impl; [|exact H]. exact piece_clear. Qed.

(** ** Rows *)

Lemma row_app l l' q : row_of_rules l' = Some q ->
  row_of_rules (l ++ l') = Some (match row_of_rules l with Some r => followed_by r q | None => q end).
Proof.
  intros H. induction l as [|a l IH]; [exact H|]. cbn [app row_of_rules]. rewrite IH.
  destruct a. cbn [with_next followed_by]. reflexivity.
Qed.

Lemma row_none l : row_of_rules l = None -> l = [].
Proof. destruct l; [reflexivity|discriminate]. Qed.

Lemma each_app {A B} (f : A -> meaning B) l l' fl :
  each f (l ++ l') fl = bind (each f l) (fun bs => bind (each f l') (fun bs' => ret (bs ++ bs'))) fl.
Proof.
  revert fl. induction l as [|a l IH]; intros fl.
  - cbn [app each]. unfold bind, ret. destruct (each f l' fl) as [[y fl1]|]; reflexivity.
  - cbn [app each]. unfold bind in *. destruct (f a fl) as [[y fl1]|]; [|reflexivity]. rewrite IH.
    destruct (each f l fl1) as [[ys fl2]|]; [|reflexivity]. unfold ret.
    destruct (each f l' fl2) as [[ys' fl3]|]; reflexivity.
Qed.

Lemma elements_app l l' : elements (l ++ l') = elements l ++ elements l'.
Proof. apply flat_map_app. Qed.

Lemma element_part p fl l fl' : piece_meaning R p fl = Some (l, fl') -> is_element p = true -> elements l <> [].
Proof.
  destruct p as [c|x|h|h body name|body]; cbn [piece_meaning is_element]; try discriminate; intros H _; unfold bind in H.
  - destruct (head_meaning R h fl) as [[f fl1]|]; [|discriminate]. injection H as <- _. discriminate.
  - destruct (head_meaning R h fl) as [[f fl1]|]; [|discriminate].
    destruct (each (piece_meaning R) body fl1) as [[k fl2]|]; [|discriminate]. injection H as <- _. discriminate.
Qed.

Lemma element_row ps : (exists p, In p ps /\ is_element p = true) -> forall fl l fl',
  each (piece_meaning R) ps fl = Some (l, fl') -> exists r, row_of_rules (elements (concat l)) = Some r.
Proof.
  intros [p [Hp He]] fl l fl' H. destruct (row_of_rules (elements (concat l))) as [r|] eqn:Hr; [now exists r|].
  apply row_none in Hr. exfalso. revert fl l H Hr. induction ps as [|q ps IH]; intros fl l H Hr; [destruct Hp|].
  cbn [each] in H. unfold bind in H. destruct (piece_meaning R q fl) as [[a fl1]|] eqn:H1; [|discriminate].
  destruct (each (piece_meaning R) ps fl1) as [[b fl2]|] eqn:H2; [|discriminate]. injection H as <- <-.
  cbn [concat] in Hr. rewrite elements_app in Hr. apply app_eq_nil in Hr as [Hr1 Hr2]. destruct Hp as [->|Hp].
  - now apply (element_part _ _ _ _ H1 He).
  - apply (IH Hp _ _ H2 Hr2).
Qed.

Lemma blank_row ps : (forall p, In p ps -> is_element p = false) -> Forall (piece_ok false) ps -> forall fl,
  exists l, each (piece_meaning R) ps fl = Some (l, fl) /\ concat l = [].
Proof.
  intros Hb Hok fl. induction Hok as [|p ps Hp Hok IH]; [now exists []|].
  destruct IH as [l [H1 H2]]; [intros q Hq; apply Hb; now right|].
  exists ([] :: l). split; [|exact H2]. cbn [each]. unfold bind.
  assert (piece_meaning R p fl = Some ([], fl)) as ->.
  { specialize (Hb p (or_introl eq_refl)). destruct p as [c|x|h|h body name|body]; cbn [is_element] in Hb; try discriminate; try reflexivity.
    destruct Hp as [Hp _]. discriminate. }
  rewrite H1. reflexivity.
Qed.

Lemma spells_app ps x qs y : spells ps x -> spells qs y -> spells (ps ++ qs) (x ++ y).
Proof. intros [H1 H2] [H3 H4]. split; [now apply Forall_app|]. rewrite flat_map_app. congruence. Qed.

(** ** One text after another *)

Lemma meaning_app ps qs : Forall types_unflagged ps ->
  (exists p, In p ps /\ is_element p = true) -> (exists p, In p qs /\ is_element p = true) ->
  text_meaning R (ps ++ qs) =
  match text_meaning R ps, text_meaning R qs with Some r, Some q => Some (followed_by r q) | _, _ => None end.
Proof.
  intros Hf He1 He2. unfold text_meaning. rewrite each_app. unfold bind.
  destruct (each (piece_meaning R) ps no_flags) as [[l fl]|] eqn:H1; [|reflexivity].
  pose proof (pieces_clear ps Hf _ _ H1) as Hfl. rewrite Hfl in *.
  destruct (each (piece_meaning R) qs no_flags) as [[l' fl']|] eqn:H2; cbn [ret]; [|reflexivity].
  unfold ret. rewrite concat_app, elements_app.
  destruct (element_row ps He1 _ _ _ H1) as [r Hr]. destruct (element_row qs He2 _ _ _ H2) as [q Hq].
  rewrite (row_app _ _ _ Hq), Hr, Hq. reflexivity.
Qed.

Theorem sequence_parse x y z : part_of_text x -> with_element y ->
  ParseHext E (x ++ y) = Ok z <-> exists r q, ParseHext E x = Ok r /\ ParseHext E y = Ok q /\ z = followed_by r q.
Proof.
  intros [ps [Hx [Hf He1]]] [qs [Hy He2]].
  rewrite (parse_given_pieces E (ps ++ qs) _ _ (spells_app _ _ _ _ Hx Hy)), (meaning_app ps qs Hf He1 He2).
  split.
  - destruct (text_meaning R ps) as [r|] eqn:H1; [|discriminate]. destruct (text_meaning R qs) as [q|] eqn:H2; [|discriminate].
    intros H. injection H as <-. exists r, q. rewrite (parse_given_pieces E ps x r Hx), (parse_given_pieces E qs y q Hy). auto.
  - intros [r [q [H1 [H2 ->]]]]. apply (parse_given_pieces E ps x r Hx) in H1. apply (parse_given_pieces E qs y q Hy) in H2.
    rewrite H1, H2. reflexivity.
Qed.

Theorem blank_before x y z : blank_text x -> (exists qs, spells qs y) -> ParseHext E (x ++ y) = Ok z <-> ParseHext E y = Ok z.
Proof.
  intros [ps [Hx Hb]] [qs Hy]. rewrite (parse_given_pieces E (ps ++ qs) _ _ (spells_app _ _ _ _ Hx Hy)), (parse_given_pieces E qs y z Hy).
  unfold text_meaning. rewrite each_app. unfold bind. destruct (blank_row ps Hb (proj1 Hx) no_flags) as [l [-> Hl]].
  destruct (each (piece_meaning R) qs no_flags) as [[l' fl']|]; [|reflexivity]. unfold ret. rewrite concat_app, Hl. reflexivity.
Qed.
Theorem blank_after x y z : blank_text y -> (exists ps, spells ps x) -> ParseHext E (x ++ y) = Ok z <-> ParseHext E x = Ok z.
Proof.
  intros [qs [Hy Hb]] [ps Hx]. rewrite (parse_given_pieces E (ps ++ qs) _ _ (spells_app _ _ _ _ Hx Hy)), (parse_given_pieces E ps x z Hx).
  unfold text_meaning. rewrite each_app. unfold bind. 
  destruct (each (piece_meaning R) ps no_flags) as [[l' fl']|]; [|reflexivity].
  destruct (blank_row qs Hb (proj1 Hy) fl') as [l [-> Hl]]. unfold ret. rewrite concat_app, Hl, app_nil_r. reflexivity.
Qed.

(** ** One text inside of another *)

Lemma inside_ok p : piece_ok false p -> piece_ok true p.
Proof. destruct p as [c|x|h|h body name|body]; cbn [piece_ok]; auto. intros [H _]. discriminate. Qed.

Lemma child_meaning h ps name : traits_unflagged h -> (exists p, In p ps /\ is_element p = true) -> Forall (piece_ok false) ps ->
  text_meaning R [Opened h ps name] =
  match text_meaning R [Closed h], text_meaning R ps with Some q, Some r => Some (with_child q r) | _, _ => None end.
Proof.
  intros Hh He Hok. unfold text_meaning. cbn [each piece_meaning]. unfold bind.
  destruct (head_meaning R h no_flags) as [[f fl]|] eqn:H1; [|reflexivity].
  pose proof (head_clear h Hh _ _ H1) as Hfl. rewrite Hfl in *.
  destruct (each (piece_meaning R) ps no_flags) as [[l fl']|] eqn:H2; cbn [ret]; [|reflexivity].
  destruct (element_row ps He _ _ _ H2) as [r Hr]. rewrite Hr. unfold ret.
  cbn [concat app elements flat_map row_of_rules with_next].
  assert (Hn : nested_rules (concat l) = []).
  { clear Hr He H1. revert fl' l H2. generalize no_flags at 1. induction Hok as [|p ps Hp Hok IH]; intros fl0 fl' l H2.
    - injection H2 as <- _. reflexivity.
    - cbn [each] in H2. unfold bind in H2. destruct (piece_meaning R p fl0) as [[a fl1]|] eqn:H1; [|discriminate].
      destruct (each (piece_meaning R) ps fl1) as [[b fl2]|] eqn:H3; [|discriminate]. injection H2 as <- _.
      cbn [concat]. unfold nested_rules. rewrite flat_map_app. fold (nested_rules a). fold (nested_rules (concat b)). rewrite (IH _ _ _ H3), app_nil_r.
      clear - H1 Hp. destruct p as [c|x|h|h body name|body]; cbn [piece_meaning] in H1; unfold bind, ret in H1.
      + injection H1 as <- _. reflexivity.
      + injection H1 as <- _. reflexivity.
      + destruct (head_meaning R h fl0) as [[f fl2]|]; [|discriminate]. injection H1 as <- _. reflexivity.
      + destruct (head_meaning R h fl0) as [[f fl2]|]; [|discriminate].
        destruct (each (piece_meaning R) body fl2) as [[k fl3]|]; [|discriminate]. injection H1 as <- _. reflexivity.
      + destruct Hp as [Hp _]. discriminate. }
  rewrite Hn.
  unfold head_meaning, bind, ret in H1. destruct (each (condition_meaning R) _ _) as [[ms fl1]|]; [|discriminate].
  destruct (each _ _ fl1) as [[mcs fl2]|]; [|discriminate]. injection H1 as <- _. reflexivity.
Qed.

Lemma nested_meaning h ps name : traits_unflagged h -> (exists p, In p ps /\ is_element p = true) ->
  text_meaning R [Opened h [Nested ps] name] =
  match text_meaning R [Closed h], text_meaning R ps with Some q, Some r => Some (with_nested q r) | _, _ => None end.
Proof.
  intros Hh He. unfold text_meaning. cbn [each piece_meaning]. unfold bind.
  destruct (head_meaning R h no_flags) as [[f fl]|] eqn:H1; [|reflexivity].
  pose proof (head_clear h Hh _ _ H1) as Hfl. rewrite Hfl in *.
  destruct (each (piece_meaning R) ps no_flags) as [[l fl']|] eqn:H2; cbn [ret]; [|reflexivity].
  destruct (element_row ps He _ _ _ H2) as [r Hr]. rewrite Hr. unfold ret.
  cbn [concat app elements nested_rules flat_map row_of_rules with_next].
  unfold head_meaning, bind, ret in H1. destruct (each (condition_meaning R) _ _) as [[ms fl1]|]; [|discriminate].
  destruct (each _ _ fl1) as [[mcs fl2]|]; [|discriminate]. injection H1 as <- _. reflexivity.
Qed.

Lemma closed_spells h : head_ok h -> spells [Closed h] (closed_tag h).
Proof. intros H. split; [now constructor|]. cbn [flat_map piece_text]. now rewrite app_nil_r. Qed.
Lemma child_spells h ps x name : head_ok h -> is_tag_name name -> closes (h_name h) name -> spells ps x ->
  spells [Opened h ps name] (around h x name).
Proof.
  intros Hh Hn Hc [Hx <-]. split.
  - constructor; [|constructor]. cbn [piece_ok]. split; [exact Hh|]. split; [exact Hn|]. split; [exact Hc|].
    apply all_Forall. eapply Forall_impl; [|exact Hx]. exact inside_ok.
  - cbn [flat_map piece_text]. rewrite app_nil_r. reflexivity.
Qed.
Lemma nested_spells h ps x name : head_ok h -> is_tag_name name -> closes (h_name h) name -> spells ps x ->
  (exists p, In p ps /\ is_element p = true) -> spells [Opened h [Nested ps] name] (around h (s "{" ++ x ++ s "}") name).
Proof.
  intros Hh Hn Hc [Hx <-] He. split.
  - constructor; [|constructor]. cbn [piece_ok]. split; [exact Hh|]. split; [exact Hn|]. split; [exact Hc|].
    split; [|exact I]. split; [reflexivity|]. split; [exact He|]. now apply all_Forall.
  - cbn [flat_map piece_text]. rewrite !app_nil_r. unfold around. now rewrite <- !app_assoc.
Qed.

Theorem child_parse h name x z : head_ok h -> traits_unflagged h -> is_tag_name name -> closes (h_name h) name ->
  with_element x ->
  ParseHext E (around h x name) = Ok z <->
  exists q r, ParseHext E (closed_tag h) = Ok q /\ ParseHext E x = Ok r /\ z = with_child q r.
Proof.
  intros Hh Hu Hn Hc [ps [Hx He]].
  rewrite (parse_given_pieces E _ _ _ (child_spells h ps x name Hh Hn Hc Hx)), (child_meaning h ps name Hu He (proj1 Hx)). split.
  - destruct (text_meaning R [Closed h]) as [q|] eqn:H1; [|discriminate]. destruct (text_meaning R ps) as [r|] eqn:H2; [|discriminate].
    intros H. injection H as <-. exists q, r.
    rewrite (parse_given_pieces E _ _ q (closed_spells h Hh)), (parse_given_pieces E ps x r Hx). auto.
  - intros [q [r [H1 [H2 ->]]]]. apply (parse_given_pieces E _ _ q (closed_spells h Hh)) in H1.
    apply (parse_given_pieces E ps x r Hx) in H2. rewrite H1, H2. reflexivity.
Qed.

Theorem nested_parse h name x z : head_ok h -> traits_unflagged h -> is_tag_name name -> closes (h_name h) name ->
  with_element x ->
  ParseHext E (around h (s "{" ++ x ++ s "}") name) = Ok z <->
  exists q r, ParseHext E (closed_tag h) = Ok q /\ ParseHext E x = Ok r /\ z = with_nested q r.
Proof.
  intros Hh Hu Hn Hc [ps [Hx He]].
  rewrite (parse_given_pieces E _ _ _ (nested_spells h ps x name Hh Hn Hc Hx He)), (nested_meaning h ps name Hu He). split.
  - destruct (text_meaning R [Closed h]) as [q|] eqn:H1; [|discriminate]. destruct (text_meaning R ps) as [r|] eqn:H2; [|discriminate].
    intros H. injection H as <-. exists q, r.
    rewrite (parse_given_pieces E _ _ q (closed_spells h Hh)), (parse_given_pieces E ps x r Hx). auto.
  - intros [q [r [H1 [H2 ->]]]]. apply (parse_given_pieces E _ _ q (closed_spells h Hh)) in H1.
    apply (parse_given_pieces E ps x r Hx) in H2. rewrite H1, H2. reflexivity.
Qed.

End Compose.
