(** A message tells one place in one way. *)

From Coq Require Import Ascii String NArith ZArith Bool List Lia.
From Verif Require Import Base StringUtil StringSpec Parser Grammar GrammarSpec TextSpec LocationProofs ParserSpec ParserSafety SafetyProofs.
Import ListNotations.

Lemma spaces_repeat pad : Forall (eq " "%char) pad -> pad = repeat " "%char (length pad).
Proof. induction 1 as [|c pad Hc H IH]; [reflexivity|]. cbn [length repeat]. subst c. now rewrite <- IH. Qed.

Lemma first_newline a : forall b u v, ~ In newline a -> ~ In newline b -> a ++ [newline] ++ u = b ++ [newline] ++ v -> a = b /\ u = v.
Proof.
  induction a as [|c a IH]; intros [|d b] u v Ha Hb H; cbn [app] in H.
  - injection H as ->. auto.
  - injection H as <- _. exfalso. apply Hb. now left.
  - injection H as -> _. exfalso. apply Ha. now left.
  - injection H as -> H. destruct (IH b u v) as [-> ->]; auto; intros X; [apply Ha|apply Hb]; now right.
Qed.

Lemma listing_unique w k x y : listing w k x y -> forall z, listing w k x z -> y = z.
Proof.
  induction 1 as [k|k line text pad number out Hl Hn Hp Hw H IH]; intros z Hz.
  - inversion Hz as [|? line' text' pad' number' out' Hl' Hn' Hp' Hw' H' Hk Ht]; subst; [reflexivity|]. destruct line'; discriminate.
  - inversion Hz as [? Hk Ht|? line' text' pad' number' out' Hl' Hn' Hp' Hw' H' Hk Ht]; subst; [destruct line; discriminate|].
    apply first_newline in Ht as [-> ->]; auto. assert (number' = number) as -> by (eapply decimal_unique; eauto). rewrite (IH _ H').
    assert (HL : length pad' = length pad) by lia. rewrite (spaces_repeat pad Hp), (spaces_repeat pad' Hp'), HL. reflexivity.
Qed.

Lemma high_or_low (x : str) : (exists c, In c x /\ (128 <= N_of_ascii c)%N) \/ (forall c, In c x -> (N_of_ascii c < 128)%N).
Proof.
  induction x as [|c x [[d [Hd H]]|H]]; [right; contradiction|left; exists d; split; [now right|exact H]|].
  destruct (N.lt_ge_cases (N_of_ascii c) 128) as [Hc|Hc]; [right; intros d [<-|Hd]; auto|left; exists c; split; [now left|exact Hc]].
Qed.

Theorem location_unique before line rest mark y z : location_message before line rest mark y -> location_message before line rest mark z -> y = z.
Proof.
  intros [h [e [n [m [-> [Hh [Hn [He [Hm1 Hm2]]]]]]]]] [h' [e' [n' [m' [-> [Hh' [Hn' [He' [Hm1' Hm2']]]]]]]]].
  assert (n' = n) as -> by (eapply decimal_unique; eauto). rewrite (listing_unique _ _ _ _ He _ He'). f_equal.
  - destruct Hh as [[Hr ->]|[Hr [col [Hc ->]]]], Hh' as [[Hr' ->]|[Hr' [col' [Hc' ->]]]]; try contradiction; [reflexivity|].
    now rewrite (decimal_unique _ _ _ Hc Hc').
  - do 6 f_equal. destruct (Nat.eq_dec mark 0) as [H0|H0]; [now rewrite Hm1, Hm1' by (now left)|].
    destruct (high_or_low (before ++ line ++ rest)) as [H|H]; [now rewrite Hm1, Hm1' by (now right)|].
    destruct (Hm2 H0 H) as [i [c [-> [-> Hi]]]]. destruct (Hm2' H0 H) as [i' [c' [-> [-> Hi']]]]. f_equal. f_equal. lia.
Qed.

Lemma place_unique x before line rest mark loc : x = before ++ line ++ rest -> last_line (before ++ line) before line ->
  before ++ line ++ shown_of rest <> [] -> location_message before line rest mark loc ->
  loc = print_error_location x (length (before ++ line)) mark.
Proof. intros -> HL Hne HM. eapply location_unique; [exact HM|]. now apply print_error_location_spec. Qed.

Lemma points_unique x u mark loc : points_at x u mark loc -> loc = print_error_location x (length u - 1) mark.
Proof.
  intros [before [line [c [-> [Hc [HL [v [Hx HM]]]]]]]].
  rewrite (place_unique x before line (c :: v) mark loc); auto.
  - f_equal. rewrite !app_length. cbn [length]. lia.
  - rewrite Hx, <- !app_assoc. reflexivity.
  - cbn [shown_of]. destruct (ascii_dec c newline); [contradiction|]. destruct before; [destruct line|]; discriminate.
Qed.

Lemma name_known c n : character_name c n -> CharName c = Ok n.
Proof.
  intros H. destruct H as [| | | | |c Hc|c d Hc Hn Hd|]; try reflexivity.
  - destruct c as [[] [] [] [] [] [] [] []]; cbv in Hc; try (destruct Hc; discriminate); reflexivity.
  - rewrite (decimal_unique _ _ _ Hd (decimal_spec _)). clear Hd. cbn [In] in Hn.
    destruct c as [[] [] [] [] [] [] [] []]; try (cbv in Hc; destruct Hc; discriminate); try reflexivity; exfalso; apply Hn; auto.
Qed.
