(** The texts of regular expressions, and of the bodies of quoted strings. *)

From Coq Require Import Ascii String NArith ZArith Bool List Lia.
From Verif Require Import Base Regular RegularProofs MachineRows Grammar GrammarSpec.
Import ListNotations.

(** ** Texts of regular expressions *)

Lemma text_eps x : text_of Eps x <-> x = [].
Proof. split; [intros [w [H <-]]; now inversion H|intros ->]. exists []. split; [constructor|reflexivity]. Qed.

Lemma text_sym m x : text_of (Sym m) x <-> exists c, x = [c] /\ has m c = true.
Proof.
  split; [intros [w [H <-]]; inversion H; subst; cbn; eauto|]. intros [c [-> H]]. exists [IChr c]. split; [now constructor|reflexivity].
Qed.

Lemma text_cat r r' x : text_of (Cat r r') x <-> exists u v, x = u ++ v /\ text_of r u /\ text_of r' v.
Proof.
  split.
  - intros [w [H <-]]. inversion H; subst. rewrite chars_app. exists (chars u), (chars v). unfold text_of. eauto 8.
  - intros [u [v [-> [[w [H <-]] [w' [H' <-]]]]]]. exists (w ++ w'). split; [now constructor|apply chars_app].
Qed.

Lemma text_alt r r' x : text_of (Alt r r') x <-> text_of r x \/ text_of r' x.
Proof.
  split.
  - intros [w [H <-]]. inversion H; subst; [left|right]; exists w; auto.
  - intros [[w [H <-]]|[w [H <-]]]; exists w; split; auto; [now apply L_left|now apply L_right].
Qed.

Lemma text_star_nil r : text_of (Star r) [].
Proof. exists []. split; [constructor|reflexivity]. Qed.

Lemma text_star_more r u v : text_of r u -> text_of (Star r) v -> text_of (Star r) (u ++ v).
Proof. intros [w [H <-]] [w' [H' <-]]. exists (w ++ w'). split; [now constructor|apply chars_app]. Qed.

Lemma text_star_ind r (P : str -> Prop) : P [] ->
  (forall u v, text_of r u -> text_of (Star r) v -> P v -> P (u ++ v)) -> forall x, text_of (Star r) x -> P x.
Proof.
  intros H0 HS x [w [H <-]]. remember (Star r) as sr eqn:E. induction H; try discriminate.
  - exact H0.
  - injection E as ->. rewrite chars_app. apply HS; [exists u; auto|exists v; auto|auto].
Qed.

Lemma text_plus r x : text_of (Plus r) x <-> exists u v, x = u ++ v /\ text_of r u /\ text_of (Star r) v.
Proof.
  split.
  - intros [w [H <-]]. inversion H; subst. rewrite chars_app. exists (chars u), (chars v). unfold text_of. eauto 8.
  - intros [u [v [-> [[w [H <-]] [w' [H' <-]]]]]]. exists (w ++ w'). split; [now constructor|apply chars_app].
Qed.

(** ** Single bytes *)

Lemma has_cls c d : has (cls c) d = Ascii.eqb c d.
Proof.
  unfold cls. rewrite has_range by lia. destruct (Ascii.eqb_spec c d) as [->|H].
  - apply andb_true_intro. split; apply N.leb_refl.
  - destruct (N.leb_spec (N_of_ascii c) (N_of_ascii d)), (N.leb_spec (N_of_ascii d) (N_of_ascii c)); try reflexivity.
    exfalso. apply H. rewrite <- (ascii_N_embedding c), <- (ascii_N_embedding d). f_equal. lia.
Qed.

Lemma has_any_but c d : has (any_but c) d = negb (Ascii.eqb c d).
Proof. unfold any_but. now rewrite has_ldiff, has_all, has_cls. Qed.

Lemma text_chr c x : text_of (chr c) x <-> x = [c].
Proof.
  unfold chr. rewrite text_sym. split.
  - intros [d [-> H]]. rewrite has_cls in H. apply Ascii.eqb_eq in H. now subst.
  - intros ->. exists c. split; [reflexivity|]. rewrite has_cls. apply Ascii.eqb_refl.
Qed.

(** ** Quoted strings *)

Section Bodies.

Variable q : ascii.
Hypothesis Hq : q <> backslash.

(** Every [q] follows a backslash and the last character is not a backslash. *)
Definition quotable (x : str) : Prop :=
  (forall u v, x = u ++ q :: v -> exists u', u = u' ++ [backslash]) /\ (forall u, x <> u ++ [backslash]).

(** The same, with the information whether a backslash comes before [x]. *)
Fixpoint good (b : bool) (x : str) : bool :=
  match x with
  | [] => negb b
  | c :: x' => if Ascii.eqb c q then b && good false x' else good (Ascii.eqb c backslash) x'
  end.

Lemma snoc_cons {A} (a b : A) u x : a :: x = u ++ [b] -> (u = [] /\ x = [] /\ a = b) \/ exists u', u = a :: u' /\ x = u' ++ [b].
Proof. destruct u as [|c u]; cbn; intros H; injection H as -> H; [left|right]; [auto|]. subst. eauto. Qed.

Lemma good_spec x : forall b, good b x = true <->
  (forall u v, x = u ++ q :: v -> (u = [] /\ b = true) \/ exists u', u = u' ++ [backslash]) /\
  (b = true -> x <> []) /\ (forall u, x <> u ++ [backslash]).
Proof.
  induction x as [|c x IH]; intros b; cbn [good].
  - split.
    + intros H. destruct b; [discriminate|]. split; [|split].
      * intros u v E. now destruct u.
      * discriminate.
      * intros u E. now destruct u.
    + intros [_ [H _]]. destruct b; [exfalso; now apply H|reflexivity].
  - destruct (Ascii.eqb_spec c q) as [->|Hne].
    + rewrite andb_true_iff, IH. split.
      * intros [-> [H1 [_ H3]]]. split; [|split].
        -- intros u v E. destruct u as [|d u]; [auto|]. injection E as <- E.
           destruct (H1 u v E) as [[_ X]|[u' ->]]; [discriminate|]. right. exists (q :: u'). reflexivity.
        -- discriminate.
        -- intros u E. apply snoc_cons in E as [[-> [-> E]]|[u' [-> E]]]; [now apply Hq|now apply (H3 u')].
      * intros [H1 [_ H3]]. destruct (H1 [] x eq_refl) as [[_ Hb]|[u' E]]; [|now destruct u']. split; [exact Hb|].
        split; [|split; [discriminate|]].
        -- intros u v E. right. destruct (H1 (q :: u) v) as [[X _]|[u' E']]; [now rewrite E|discriminate|].
           apply snoc_cons in E' as [[-> [-> E']]|[u'' [-> ->]]]; [now exfalso|eauto].
        -- intros u E. apply (H3 (q :: u)). now rewrite E.
    + rewrite IH. split.
      * intros [H1 [H2 H3]]. split; [|split].
        -- intros u v E. destruct u as [|d u]; [injection E as E _; contradiction|]. injection E as <- E. right.
           destruct (H1 u v E) as [[-> X]|[u' ->]].
           ++ apply Ascii.eqb_eq in X as ->. exists []. reflexivity.
           ++ exists (c :: u'). reflexivity.
        -- discriminate.
        -- intros u E. apply snoc_cons in E as [[-> [-> ->]]|[u' [-> E]]]; [|now apply (H3 u')].
           apply H2; [apply Ascii.eqb_refl|reflexivity].
      * intros [H1 [_ H3]]. split; [|split].
        -- intros u v E. destruct (H1 (c :: u) v) as [[X _]|[u' E']]; [now rewrite E|discriminate|].
           apply snoc_cons in E' as [[-> [-> E']]|[u'' [-> ->]]]; [|eauto]. left. split; [reflexivity|]. subst. apply Ascii.eqb_refl.
        -- intros X ->. apply Ascii.eqb_eq in X as ->. now apply (H3 []).
        -- intros u E. apply (H3 (c :: u)). now rewrite E.
Qed.

Lemma good_quotable x : good false x = true <-> quotable x.
Proof.
  rewrite good_spec. unfold quotable. split.
  - intros [H1 [_ H3]]. split; [|exact H3]. intros u v E. destruct (H1 u v E) as [[_ X]|X]; [discriminate|exact X].
  - intros [H1 H3]. split; [|split; [discriminate|exact H3]]. intros u v E. right. eauto.
Qed.

Lemma piece_plain c x : c <> q -> c <> backslash -> text_of (body q) x -> text_of (body q) (c :: x).
Proof.
  intros H1 H2 H. apply (text_star_more _ [c] x); [|exact H]. apply text_alt. left. apply text_sym. exists c. split; [reflexivity|].
  rewrite has_ldiff, has_any_but, has_cls. destruct (Ascii.eqb_spec q c); [congruence|]. destruct (Ascii.eqb_spec backslash c); [congruence|reflexivity].
Qed.

Lemma text_backslashes n : text_of (Star (chr backslash)) (repeat backslash n).
Proof. induction n as [|n IH]; [apply text_star_nil|]. apply (text_star_more _ [backslash]); [now apply text_chr|exact IH]. Qed.

Lemma backslashes_text x : text_of (Star (chr backslash)) x -> exists n, x = repeat backslash n.
Proof.
  revert x. apply text_star_ind; [now exists 0|]. intros u v Hu _ [n ->]. apply text_chr in Hu as ->. now exists (S n).
Qed.

Lemma piece_escape n d x : d <> backslash -> text_of (body q) x -> text_of (body q) (repeat backslash (S n) ++ d :: x).
Proof.
  intros Hd H. replace (repeat backslash (S n) ++ d :: x) with ((repeat backslash (S n) ++ [d]) ++ x) by now rewrite <- app_assoc.
  apply text_star_more; [|exact H]. apply text_alt. right. apply text_cat. exists (repeat backslash (S n)), [d].
  split; [reflexivity|]. split.
  - apply text_plus. exists [backslash], (repeat backslash n). split; [reflexivity|]. split; [now apply text_chr|apply text_backslashes].
  - apply text_sym. exists d. split; [reflexivity|]. rewrite has_any_but. destruct (Ascii.eqb_spec backslash d); [congruence|reflexivity].
Qed.

Lemma bs_not_q : Ascii.eqb backslash q = false.
Proof. destruct (Ascii.eqb_spec backslash q); [congruence|reflexivity]. Qed.

Lemma good_escape n : forall d x b, d <> backslash -> good b (repeat backslash (S n) ++ d :: x) = good false x.
Proof.
  induction n as [|n IH]; intros d x b Hd.
  - cbn [repeat app good]. rewrite bs_not_q, Ascii.eqb_refl. cbn [good]. destruct (Ascii.eqb_spec d q); [reflexivity|].
    destruct (Ascii.eqb_spec d backslash); [contradiction|reflexivity].
  - change (repeat backslash (S (S n)) ++ d :: x) with (backslash :: (repeat backslash (S n) ++ d :: x)). cbn [good].
    rewrite bs_not_q, Ascii.eqb_refl. now apply IH.
Qed.

Lemma good_body x : forall b, good b x = true ->
  if b then exists n d y, x = repeat backslash n ++ d :: y /\ d <> backslash /\ text_of (body q) y else text_of (body q) x.
Proof.
  induction x as [|c x IH]; intros b H; cbn [good] in H.
  - destruct b; [discriminate|apply text_star_nil].
  - destruct (Ascii.eqb_spec c q) as [->|Hne].
    + destruct b; [|discriminate]. exists 0, q, x. repeat split; auto. now apply (IH false).
    + destruct (Ascii.eqb_spec c backslash) as [->|Hb].
      * apply IH in H as [n [d [y [-> [Hd Hy]]]]]. destruct b; [exists (S n), d, y; auto|]. now apply (piece_escape n).
      * apply IH in H. destruct b; [exists 0, c, x; auto|]. now apply piece_plain.
Qed.

Lemma body_good x : text_of (body q) x -> good false x = true.
Proof.
  revert x. apply text_star_ind; [reflexivity|]. intros u v Hu _ Hv. apply text_alt in Hu as [Hu|Hu].
  - apply text_sym in Hu as [c [-> Hc]]. rewrite has_ldiff, has_any_but, has_cls in Hc. cbn [app good].
    destruct (Ascii.eqb_spec c q) as [->|_]; [rewrite Ascii.eqb_refl in Hc; discriminate|].
    destruct (Ascii.eqb_spec c backslash) as [->|_]; [|exact Hv]. rewrite Ascii.eqb_refl, andb_false_r in Hc. discriminate.
  - apply text_cat in Hu as [u1 [u2 [-> [H1 H2]]]]. apply text_sym in H2 as [d [-> Hd]].
    apply text_plus in H1 as [b1 [b2 [-> [H1 H2]]]]. apply text_chr in H1 as ->. apply backslashes_text in H2 as [n ->].
    rewrite has_any_but in Hd. rewrite <- app_assoc. cbn [app]. change (backslash :: repeat backslash n) with (repeat backslash (S n)).
    replace (backslash :: repeat backslash n ++ d :: v) with (repeat backslash (S n) ++ d :: v) by reflexivity.
    rewrite good_escape; [exact Hv|]. intros ->. rewrite Ascii.eqb_refl in Hd. discriminate.
Qed.

Theorem body_quotable x : text_of (body q) x <-> quotable x.
Proof. rewrite <- good_quotable. split; [apply body_good|apply (good_body x false)]. Qed.

(** [( \[^q\] | '\\q' )*] *)
Definition loose : re := Star (Alt (Sym (any_but q)) (Cat (chr backslash) (chr q))).

Lemma loose_char c x : c <> q -> text_of loose x -> text_of loose (c :: x).
Proof.
  intros H1 H. apply (text_star_more _ [c] x); [|exact H]. apply text_alt. left. apply text_sym. exists c. split; [reflexivity|].
  rewrite has_any_but. destruct (Ascii.eqb_spec q c); [congruence|reflexivity].
Qed.

Lemma good_loose x : forall b, good b x = true -> text_of loose (if b then backslash :: x else x).
Proof.
  induction x as [|c x IH]; intros b H; cbn [good] in H.
  - destruct b; [discriminate|apply text_star_nil].
  - destruct (Ascii.eqb_spec c q) as [->|Hne].
    + destruct b; [|discriminate]. apply (text_star_more _ [backslash; q] x); [|now apply (IH false)].
      apply text_alt. right. apply text_cat. exists [backslash], [q]. split; [reflexivity|]. split; now apply text_chr.
    + assert (Hc : text_of loose (c :: x)).
      { destruct (Ascii.eqb_spec c backslash) as [->|Hb]; [exact (IH true H)|]. apply loose_char; [exact Hne|exact (IH false H)]. }
      destruct b; [|exact Hc]. apply loose_char; [congruence|exact Hc].
Qed.

Lemma loose_good x : text_of loose x -> forall b, (b = true -> x <> []) -> (forall u, x <> u ++ [backslash]) -> good b x = true.
Proof.
  revert x. apply (text_star_ind _ (fun x => forall b, (b = true -> x <> []) -> (forall u, x <> u ++ [backslash]) -> good b x = true)).
  - intros b H _. destruct b; [exfalso; now apply H|reflexivity].
  - intros u v Hu _ IH b _ Hend. apply text_alt in Hu as [Hu|Hu].
    + apply text_sym in Hu as [c [-> Hc]]. rewrite has_any_but in Hc. cbn [app good].
      destruct (Ascii.eqb_spec c q) as [->|_]; [rewrite Ascii.eqb_refl in Hc; discriminate|]. apply IH.
      * intros X ->. apply Ascii.eqb_eq in X as ->. now apply (Hend []).
      * intros u ->. now apply (Hend (c :: u)).
    + apply text_cat in Hu as [u1 [u2 [-> [H1 H2]]]]. apply text_chr in H1 as ->. apply text_chr in H2 as ->. cbn [app good].
      rewrite bs_not_q, !Ascii.eqb_refl. cbn [good andb]. apply IH; [discriminate|].
      intros u ->. now apply (Hend (backslash :: q :: u)).
Qed.

Theorem body_words x : text_of (body q) x <-> text_of loose x /\ forall u, x <> u ++ [backslash].
Proof.
  split.
  - intros H. apply body_good in H. split; [now apply (good_loose x false)|]. apply good_quotable in H. apply H.
  - intros [H1 H2]. apply (good_body x false). apply loose_good; auto. discriminate.
Qed.

End Bodies.
