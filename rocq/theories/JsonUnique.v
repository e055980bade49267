(** A JSON text has at most one meaning. *)

From Coq Require Import Ascii String NArith ZArith Bool List Lia.
From Verif Require Import Base Match RuleMatching ExtractSpec Convert ConvertSpec JsonSpec.
Import ListNotations.

(** Runs of characters. *)
Definition stops (P : ascii -> Prop) (r : str) : Prop := match r with [] => True | c :: _ => ~ P c end.

Lemma run_split (P : ascii -> Prop) w : forall w' r r', Forall P w -> Forall P w' -> w ++ r = w' ++ r' -> stops P r -> stops P r' ->
  w = w' /\ r = r'.
Proof.
  induction w as [|c w IH]; intros [|c' w'] r r' Hw Hw' E Hr Hr'; cbn [app] in E.
  - now split.
  - subst r. inversion Hw'; subst. cbn in Hr. contradiction.
  - subst r'. inversion Hw; subst. cbn in Hr'. contradiction.
  - injection E as -> E. inversion Hw; inversion Hw'; subst. destruct (IH w' r r') as [-> ->]; auto.
Qed.

Lemma digit_fun c n n' : digit c n -> digit c n' -> n = n'.
Proof. unfold digit. cbv zeta. generalize (N_of_ascii c). intros k. lia. Qed.

Lemma four_fun t n n' : four_digits t n -> four_digits t n' -> n = n'.
Proof.
  intros (c1 & c2 & c3 & c4 & n1 & n2 & n3 & n4 & -> & H1 & H2 & H3 & H4 & ->) (d1 & d2 & d3 & d4 & m1 & m2 & m3 & m4 & E & H1' & H2' & H3' & H4' & ->).
  injection E as <- <- <- <-. now rewrite (digit_fun _ _ _ H1 H1'), (digit_fun _ _ _ H2 H2'), (digit_fun _ _ _ H3 H3'), (digit_fun _ _ _ H4 H4').
Qed.

Lemma four_split t n t' n' r r' : four_digits t n -> four_digits t' n' -> t ++ r = t' ++ r' -> t = t' /\ n = n' /\ r = r'.
Proof.
  intros H H' E. assert (HT : t = t' /\ r = r').
  { destruct H as (c1 & c2 & c3 & c4 & n1 & n2 & n3 & n4 & -> & _). destruct H' as (d1 & d2 & d3 & d4 & m1 & m2 & m3 & m4 & -> & _).
    cbn [app] in E. injection E as -> -> -> -> ->. split; reflexivity. }
  destruct HT as [-> ->]. split; [reflexivity|]. split; [now apply four_fun with t'|reflexivity].
Qed.

Lemma escape_fun e n n' : In (e, n) [("""", 34); ("\", 92); ("/", 47); ("b", 8); ("f", 12); ("n", 10); ("r", 13); ("t", 9)]%char%N ->
  In (e, n') [("""", 34); ("\", 92); ("/", 47); ("b", 8); ("f", 12); ("n", 10); ("r", 13); ("t", 9)]%char%N -> n = n' /\ e <> "u"%char.
Proof. cbn [In]. intuition congruence. Qed.

Lemma char_split t x t' x' r r' : char_means t x -> char_means t' x' -> t ++ r = t' ++ r' -> t = t' /\ x = x' /\ r = r'.
Proof.
  intros H H' E.
  destruct H as [c H1 H2 H3|e n He|t n Hf Hn|t1 n1 t2 n2 Hf1 Hn1 Hf2 Hn2], H' as [c' H1' H2' H3'|e' n' He'|t' n' Hf' Hn'|t1' n1' t2' n2' Hf1' Hn1' Hf2' Hn2'];
    try (change (s "\u") with ["\"; "u"]%char in E); repeat rewrite <- app_assoc in E; cbn [app] in E; injection E as E.
  - subst. repeat split; assumption.
  - congruence.
  - congruence.
  - congruence.
  - congruence.
  - subst e'. destruct (escape_fun e n n' He He') as [-> _]. repeat split; assumption.
  - destruct (escape_fun e n n He He) as [_ HX]. congruence.
  - destruct (escape_fun e n n He He) as [_ HX]. congruence.
  - congruence.
  - destruct (escape_fun e' n' n' He' He') as [_ HX]. congruence.
  - destruct (four_split _ _ _ _ _ _ Hf Hf' E) as [-> [-> ->]]. repeat split; reflexivity.
  - destruct (four_split _ _ _ _ _ _ Hf Hf1' E) as [-> [-> _]]. lia.
  - congruence.
  - destruct (escape_fun e' n' n' He' He') as [_ HX]. congruence.
  - destruct (four_split _ _ _ _ _ _ Hf1 Hf' E) as [-> [-> _]]. lia.
  - destruct (four_split _ _ _ _ _ _ Hf1 Hf1' E) as [-> [-> E2]]. change (s "\u") with ["\"; "u"]%char in E2. cbn [app] in E2. injection E2 as E2.
    destruct (four_split _ _ _ _ _ _ Hf2 Hf2' E2) as [-> [-> ->]]. repeat split; reflexivity.
Qed.

Lemma char_head t x : char_means t x -> exists c t', t = c :: t' /\ c <> """"%char.
Proof. intros [c H1 H2 H3|e n He|t0 n Hf Hn|t1 n1 t2 n2 Hf1 Hn1 Hf2 Hn2]; cbn [app]; eexists; eexists; (split; [reflexivity|]); try discriminate. exact H2. Qed.

Lemma chars_split t x : chars_mean t x -> forall t' x' r r', chars_mean t' x' -> t ++ """"%char :: r = t' ++ """"%char :: r' ->
  t = t' /\ x = x' /\ r = r'.
Proof.
  induction 1 as [|t x ts xs H HS IH]; intros t' x' r r' H' E; destruct H' as [|t' x' ts' xs' H' HS'].
  - injection E as <-. repeat split; reflexivity.
  - destruct (char_head _ _ H') as [c [t0 [-> Hc]]]. cbn [app] in E. injection E as E0 _. congruence.
  - destruct (char_head _ _ H) as [c [t0 [-> Hc]]]. cbn [app] in E. injection E as E0 _. congruence.
  - rewrite <- !app_assoc in E. destruct (char_split _ _ _ _ _ _ H H' E) as [-> [-> E2]]. destruct (IH _ _ _ _ HS' E2) as [-> [-> ->]].
    repeat split; reflexivity.
Qed.

Lemma string_split t x t' x' r r' : string_means t x -> string_means t' x' -> t ++ r = t' ++ r' -> t = t' /\ x = x' /\ r = r'.
Proof.
  intros [u y H] [u' y' H'] E. change (s """") with [""""%char] in *. rewrite <- !app_assoc in E. cbn [app] in E. injection E as E.
  destruct (chars_split _ _ H _ _ _ _ H' E) as [-> [-> ->]]. repeat split; reflexivity.
Qed.

(** The first character of a value. *)
Definition opens (c : ascii) : Prop := c = """"%char \/ c = "["%char \/ c = "{"%char \/ word_char c.

Lemma means_head t v : means t v -> exists c t', t = c :: t' /\ opens c.
Proof.
  intros [t0 x [u y H]|t0 H HF|t0 l H|t0 l H]; cbn [app].
  - eexists. eexists. split; [reflexivity|]. now left.
  - destruct t0 as [|c t0]; [contradiction|]. exists c, t0. split; [reflexivity|]. inversion HF; subst. right. right. now right.
  - eexists. eexists. split; [reflexivity|]. right. now left.
  - eexists. eexists. split; [reflexivity|]. right. right. now left.
Qed.

Lemma opens_not_blank c : opens c -> ~ blank c.
Proof.
  unfold opens, blank, word_char. intros [->|[->|[->|H]]]; try (cbn; intuition discriminate). cbn [In] in *. revert H. generalize (N_of_ascii c). intros n H HB.
  intuition (subst; lia).
Qed.

Lemma word_not_blank c : blank c -> ~ word_char c.
Proof. unfold blank, word_char. cbn [In]. generalize (N_of_ascii c). intros n HB H. intuition (subst; lia). Qed.


Lemma quote_stops : ~ word_char """"%char. Proof. unfold word_char. cbn. lia. Qed.
Lemma lbracket_stops : ~ word_char "["%char. Proof. unfold word_char. cbn. lia. Qed.
Lemma rbracket_stops : ~ word_char "]"%char. Proof. unfold word_char. cbn. lia. Qed.
Lemma lbrace_stops : ~ word_char "{"%char. Proof. unfold word_char. cbn. lia. Qed.
Lemma rbrace_stops : ~ word_char "}"%char. Proof. unfold word_char. cbn. lia. Qed.
Lemma comma_stops : ~ word_char ","%char. Proof. unfold word_char. cbn. lia. Qed.

Lemma close_opens c : opens c -> c <> "]"%char /\ c <> "}"%char /\ c <> ","%char.
Proof.
  pose proof rbracket_stops. pose proof rbrace_stops. pose proof comma_stops.
  intros [->|[->|[->|HW]]]; repeat split; try discriminate; intros ->; contradiction.
Qed.

(** What may follow a value. *)
Definition follows (r : str) : Prop := stops word_char r.
Lemma follows_blanks w r : blanks w -> follows r -> follows (w ++ r).
Proof. intros [|c w' H _] HR; [exact HR|]. cbn. now apply word_not_blank. Qed.

Lemma stops_opens t v r : means t v -> stops blank (t ++ r).
Proof. intros H. destruct (means_head _ _ H) as [c [t' [-> Hc]]]. cbn. now apply opens_not_blank. Qed.
Lemma stops_string t x r : string_means t x -> stops blank (t ++ r).
Proof. intros H. apply stops_opens with (JText x). now constructor. Qed.

Lemma solid c r : In c ["]"; "}"; ","; ":"]%char -> stops blank (c :: r).
Proof. unfold stops, blank. cbn [In]. intros H. intuition (subst; cbn in *; intuition discriminate). Qed.

Scheme means_ind2 := Minimality for means Sort Prop
with items_ind2 := Minimality for items Sort Prop
with members_ind2 := Minimality for members Sort Prop.
Combined Scheme json_ind2 from means_ind2, items_ind2, members_ind2.

Theorem means_split :
  (forall t v, means t v -> forall t' v' r r', means t' v' -> t ++ r = t' ++ r' -> follows r -> follows r' -> t = t' /\ v = v' /\ r = r') /\
  (forall t l, items t l -> forall t' l' r r', items t' l' -> t ++ "]"%char :: r = t' ++ "]"%char :: r' -> t = t' /\ l = l' /\ r = r') /\
  (forall t l, members t l -> forall t' l' r r', members t' l' -> t ++ "}"%char :: r = t' ++ "}"%char :: r' -> t = t' /\ l = l' /\ r = r').
Proof.
  assert (HSB : forall w c r, blanks w -> In c ["]"; "}"; ","]%char -> follows (w ++ c :: r)).
  { intros w c r Hw Hc. apply follows_blanks; [exact Hw|]. cbn. destruct Hc as [<-|[<-|[<-|[]]]]; [apply rbracket_stops|apply rbrace_stops|apply comma_stops]. }
  apply json_ind2.
  - (* strings *)
    intros t x H t' v' r r' H' E _ _. destruct H' as [t' x' H'|t' Hn HF|t' l Hl|t' l Hl].
    + destruct (string_split _ _ _ _ _ _ H H' E) as [-> [-> ->]]. repeat split; reflexivity.
    + destruct H as [u y H]. destruct t' as [|c t']; [contradiction|]. cbn [app s] in E. injection E as <- _. inversion HF; subst. now apply quote_stops in H2.
    + destruct H as [u y H]. discriminate.
    + destruct H as [u y H]. discriminate.
  - (* words *)
    intros t Hn HF t' v' r r' H' E Hr Hr'. destruct H' as [t' x' H'|t' Hn' HF'|t' l Hl|t' l Hl].
    + destruct H' as [u y H']. destruct t as [|c t]; [contradiction|]. cbn [app s] in E. injection E as -> _. inversion HF; subst. now apply quote_stops in H1.
    + destruct (run_split word_char t t' r r' HF HF' E Hr Hr') as [-> ->]. repeat split; reflexivity.
    + destruct t as [|c t]; [contradiction|]. cbn [app s] in E. injection E as -> _. inversion HF; subst. now apply lbracket_stops in H1.
    + destruct t as [|c t]; [contradiction|]. cbn [app s] in E. injection E as -> _. inversion HF; subst. now apply lbrace_stops in H1.
  - (* arrays *)
    intros t l Hl IH t' v' r r' H' E _ _. destruct H' as [t' x' H'|t' Hn' HF'|t' l' Hl'|t' l' Hl'].
    + destruct H' as [u y H']. discriminate.
    + destruct t' as [|c t']; [contradiction|]. cbn [app s] in E. injection E as <- _. inversion HF'; subst. now apply lbracket_stops in H1.
    + change (s "[") with ["["%char] in *. change (s "]") with ["]"%char] in *. cbn [app] in E. injection E as E. rewrite <- !app_assoc in E. cbn [app] in E.
      destruct (IH _ _ _ _ Hl' E) as [-> [-> ->]]. repeat split; reflexivity.
    + discriminate.
  - (* objects *)
    intros t l Hl IH t' v' r r' H' E _ _. destruct H' as [t' x' H'|t' Hn' HF'|t' l' Hl'|t' l' Hl'].
    + destruct H' as [u y H']. discriminate.
    + destruct t' as [|c t']; [contradiction|]. cbn [app s] in E. injection E as <- _. inversion HF'; subst. now apply lbrace_stops in H1.
    + discriminate.
    + change (s "{") with ["{"%char] in *. change (s "}") with ["}"%char] in *. cbn [app] in E. injection E as E. rewrite <- !app_assoc in E. cbn [app] in E.
      destruct (IH _ _ _ _ Hl' E) as [-> [-> ->]]. repeat split; reflexivity.
  - (* no items *)
    intros w Hw t' l' r r' H' E. destruct H' as [w' Hw'|w1 t w2 v H1 HM H2|w1 t w2 v ts l H1 HM H2 HI HN].
    + destruct (run_split blank w w' _ _ Hw Hw' E) as [-> E2]; [apply solid; cbn; tauto|apply solid; cbn; tauto|]. injection E2 as ->. repeat split; reflexivity.
    + exfalso. rewrite <- !app_assoc in E. destruct (run_split blank w w1 _ _ Hw H1 E) as [_ E2]; [apply solid; cbn; tauto|now apply stops_opens with v|].
      destruct (means_head _ _ HM) as [c [t0 [-> Hc]]]. cbn [app] in E2. injection E2 as E2 _. destruct (close_opens c Hc) as [HX _]. congruence.
    + exfalso. rewrite <- !app_assoc in E. destruct (run_split blank w w1 _ _ Hw H1 E) as [_ E2]; [apply solid; cbn; tauto|now apply stops_opens with v|].
      destruct (means_head _ _ HM) as [c [t0 [-> Hc]]]. cbn [app] in E2. injection E2 as E2 _. destruct (close_opens c Hc) as [HX _]. congruence.
  - (* one item *)
    intros w1 t w2 v H1 HM IH H2 t' l' r r' H' E. rewrite <- !app_assoc in E. destruct H' as [w' Hw'|w1' t' w2' v' H1' HM' H2'|w1' t' w2' v' ts l H1' HM' H2' HI HN].
    + exfalso. destruct (run_split blank w1 w' _ _ H1 Hw' E) as [_ E2]; [now apply stops_opens with v|apply solid; cbn; tauto|].
      destruct (means_head _ _ HM) as [c [t0 [-> Hc]]]. cbn [app] in E2. injection E2 as E2 _. destruct (close_opens c Hc) as [HX _]. congruence.
    + rewrite <- !app_assoc in E. destruct (run_split blank w1 w1' _ _ H1 H1' E) as [-> E2]; [now apply stops_opens with v|now apply stops_opens with v'|].
      destruct (IH _ _ _ _ HM' E2) as [-> [-> E3]]; [apply HSB; [assumption|cbn; tauto]|apply HSB; [assumption|cbn; tauto]|].
      destruct (run_split blank w2 w2' _ _ H2 H2' E3) as [-> E4]; [apply solid; cbn; tauto|apply solid; cbn; tauto|]. injection E4 as ->. repeat split; reflexivity.
    + exfalso. rewrite <- !app_assoc in E. destruct (run_split blank w1 w1' _ _ H1 H1' E) as [-> E2]; [now apply stops_opens with v|now apply stops_opens with v'|].
      destruct (IH _ _ _ _ HM' E2) as [-> [-> E3]]; [apply HSB; [assumption|cbn; tauto]|apply HSB; [assumption|cbn; tauto]|].
      destruct (run_split blank w2 w2' _ _ H2 H2' E3) as [-> E4]; [apply solid; cbn; tauto|apply solid; cbn; tauto|]. discriminate.
  - (* more items *)
    intros w1 t w2 v ts l H1 HM IH H2 HI IHI HN t' l' r r' H' E. rewrite <- !app_assoc in E.
    destruct H' as [w' Hw'|w1' t' w2' v' H1' HM' H2'|w1' t' w2' v' ts' l' H1' HM' H2' HI' HN'].
    + exfalso. destruct (run_split blank w1 w' _ _ H1 Hw' E) as [_ E2]; [now apply stops_opens with v|apply solid; cbn; tauto|].
      destruct (means_head _ _ HM) as [c [t0 [-> Hc]]]. cbn [app] in E2. injection E2 as E2 _. destruct (close_opens c Hc) as [HX _]. congruence.
    + exfalso. rewrite <- !app_assoc in E. destruct (run_split blank w1 w1' _ _ H1 H1' E) as [-> E2]; [now apply stops_opens with v|now apply stops_opens with v'|].
      destruct (IH _ _ _ _ HM' E2) as [-> [-> E3]]; [apply HSB; [assumption|cbn; tauto]|apply HSB; [assumption|cbn; tauto]|].
      destruct (run_split blank w2 w2' _ _ H2 H2' E3) as [-> E4]; [apply solid; cbn; tauto|apply solid; cbn; tauto|]. discriminate.
    + rewrite <- !app_assoc in E. destruct (run_split blank w1 w1' _ _ H1 H1' E) as [-> E2]; [now apply stops_opens with v|now apply stops_opens with v'|].
      destruct (IH _ _ _ _ HM' E2) as [-> [-> E3]]; [apply HSB; [assumption|cbn; tauto]|apply HSB; [assumption|cbn; tauto]|].
      destruct (run_split blank w2 w2' _ _ H2 H2' E3) as [-> E4]; [apply solid; cbn; tauto|apply solid; cbn; tauto|]. injection E4 as E4.
      destruct (IHI _ _ _ _ HI' E4) as [-> [-> ->]]. repeat split; reflexivity.
  - (* no members *)
    intros w Hw t' l' r r' H' E. destruct H' as [w' Hw'|w1 k w2 w3 t w4 key v H1 HK H2 H3 HM H4|w1 k w2 w3 t w4 key v ts l H1 HK H2 H3 HM H4 HI HN].
    + destruct (run_split blank w w' _ _ Hw Hw' E) as [-> E2]; [apply solid; cbn; tauto|apply solid; cbn; tauto|]. injection E2 as ->. repeat split; reflexivity.
    + exfalso. rewrite <- !app_assoc in E. destruct (run_split blank w w1 _ _ Hw H1 E) as [_ E2]; [apply solid; cbn; tauto|now apply stops_string with key|].
      destruct HK as [u y HK]. discriminate.
    + exfalso. rewrite <- !app_assoc in E. destruct (run_split blank w w1 _ _ Hw H1 E) as [_ E2]; [apply solid; cbn; tauto|now apply stops_string with key|].
      destruct HK as [u y HK]. discriminate.
  - (* one member *)
    intros w1 k w2 w3 t w4 key v H1 HK H2 H3 HM IH H4 t' l' r r' H' E. rewrite <- !app_assoc in E.
    destruct H' as [w' Hw'|w1' k' w2' w3' t' w4' key' v' H1' HK' H2' H3' HM' H4'|w1' k' w2' w3' t' w4' key' v' ts l H1' HK' H2' H3' HM' H4' HI HN].
    + exfalso. destruct (run_split blank w1 w' _ _ H1 Hw' E) as [_ E2]; [now apply stops_string with key|apply solid; cbn; tauto|].
      destruct HK as [u y HK]. discriminate.
    + rewrite <- !app_assoc in E. destruct (run_split blank w1 w1' _ _ H1 H1' E) as [-> E2]; [now apply stops_string with key|now apply stops_string with key'|].
      destruct (string_split _ _ _ _ _ _ HK HK' E2) as [-> [-> E3]].
      destruct (run_split blank w2 w2' _ _ H2 H2' E3) as [-> E4]; [apply solid; cbn; tauto|apply solid; cbn; tauto|]. cbn [app s] in E4. injection E4 as E4.
      destruct (run_split blank w3 w3' _ _ H3 H3' E4) as [-> E5]; [now apply stops_opens with v|now apply stops_opens with v'|].
      destruct (IH _ _ _ _ HM' E5) as [-> [-> E6]]; [apply HSB; [assumption|cbn; tauto]|apply HSB; [assumption|cbn; tauto]|].
      destruct (run_split blank w4 w4' _ _ H4 H4' E6) as [-> E7]; [apply solid; cbn; tauto|apply solid; cbn; tauto|]. injection E7 as ->. repeat split; reflexivity.
    + exfalso. rewrite <- !app_assoc in E. destruct (run_split blank w1 w1' _ _ H1 H1' E) as [-> E2]; [now apply stops_string with key|now apply stops_string with key'|].
      destruct (string_split _ _ _ _ _ _ HK HK' E2) as [-> [-> E3]].
      destruct (run_split blank w2 w2' _ _ H2 H2' E3) as [-> E4]; [apply solid; cbn; tauto|apply solid; cbn; tauto|]. cbn [app s] in E4. injection E4 as E4.
      destruct (run_split blank w3 w3' _ _ H3 H3' E4) as [-> E5]; [now apply stops_opens with v|now apply stops_opens with v'|].
      destruct (IH _ _ _ _ HM' E5) as [-> [-> E6]]; [apply HSB; [assumption|cbn; tauto]|apply HSB; [assumption|cbn; tauto]|].
      destruct (run_split blank w4 w4' _ _ H4 H4' E6) as [-> E7]; [apply solid; cbn; tauto|apply solid; cbn; tauto|]. discriminate.
  - (* more members *)
    intros w1 k w2 w3 t w4 key v ts l H1 HK H2 H3 HM IH H4 HI IHI HN t' l' r r' H' E. rewrite <- !app_assoc in E.
    destruct H' as [w' Hw'|w1' k' w2' w3' t' w4' key' v' H1' HK' H2' H3' HM' H4'|w1' k' w2' w3' t' w4' key' v' ts' l' H1' HK' H2' H3' HM' H4' HI' HN'].
    + exfalso. destruct (run_split blank w1 w' _ _ H1 Hw' E) as [_ E2]; [now apply stops_string with key|apply solid; cbn; tauto|].
      destruct HK as [u y HK]. discriminate.
    + exfalso. rewrite <- !app_assoc in E. destruct (run_split blank w1 w1' _ _ H1 H1' E) as [-> E2]; [now apply stops_string with key|now apply stops_string with key'|].
      destruct (string_split _ _ _ _ _ _ HK HK' E2) as [-> [-> E3]].
      destruct (run_split blank w2 w2' _ _ H2 H2' E3) as [-> E4]; [apply solid; cbn; tauto|apply solid; cbn; tauto|]. cbn [app s] in E4. injection E4 as E4.
      destruct (run_split blank w3 w3' _ _ H3 H3' E4) as [-> E5]; [now apply stops_opens with v|now apply stops_opens with v'|].
      destruct (IH _ _ _ _ HM' E5) as [-> [-> E6]]; [apply HSB; [assumption|cbn; tauto]|apply HSB; [assumption|cbn; tauto]|].
      destruct (run_split blank w4 w4' _ _ H4 H4' E6) as [-> E7]; [apply solid; cbn; tauto|apply solid; cbn; tauto|]. discriminate.
    + rewrite <- !app_assoc in E. destruct (run_split blank w1 w1' _ _ H1 H1' E) as [-> E2]; [now apply stops_string with key|now apply stops_string with key'|].
      destruct (string_split _ _ _ _ _ _ HK HK' E2) as [-> [-> E3]].
      destruct (run_split blank w2 w2' _ _ H2 H2' E3) as [-> E4]; [apply solid; cbn; tauto|apply solid; cbn; tauto|]. cbn [app s] in E4. injection E4 as E4.
      destruct (run_split blank w3 w3' _ _ H3 H3' E4) as [-> E5]; [now apply stops_opens with v|now apply stops_opens with v'|].
      destruct (IH _ _ _ _ HM' E5) as [-> [-> E6]]; [apply HSB; [assumption|cbn; tauto]|apply HSB; [assumption|cbn; tauto]|].
      destruct (run_split blank w4 w4' _ _ H4 H4' E6) as [-> E7]; [apply solid; cbn; tauto|apply solid; cbn; tauto|]. injection E7 as E7.
      destruct (IHI _ _ _ _ HI' E7) as [-> [-> ->]]. repeat split; reflexivity.
Qed.

Theorem means_unique t v v' : means t v -> means t v' -> v = v'.
Proof. intros H H'. destruct (proj1 means_split t v H t v' [] [] H' eq_refl I I) as [_ [E _]]. exact E. Qed.

(** Arrays and objects need nothing behind them. *)
Lemma closed_split t v t' v' r r' : means t v -> closed v -> means t' v' -> closed v' -> t ++ r = t' ++ r' -> t = t' /\ v = v' /\ r = r'.
Proof.
  intros H HC H' HC' E. destruct H as [t x H|t Hn HF|t l Hl|t l Hl]; try contradiction; destruct H' as [t' x' H'|t' Hn' HF'|t' l' Hl'|t' l' Hl']; try contradiction; try discriminate.
  - cbn [app s] in E. injection E as E. rewrite <- !app_assoc in E. destruct (proj1 (proj2 means_split) _ _ Hl _ _ _ _ Hl' E) as [-> [-> ->]]. repeat split; reflexivity.
  - cbn [app s] in E. injection E as E. rewrite <- !app_assoc in E. destruct (proj2 (proj2 means_split) _ _ Hl _ _ _ _ Hl' E) as [-> [-> ->]]. repeat split; reflexivity.
Qed.

Theorem stream_unique t l : stream t l -> forall l', stream t l' -> l = l'.
Proof.
  induction 1 as [w Hw|w t v ts l Hw HM HC HS IH]; intros l' H'.
  - inversion H' as [w' Hw' E|w' t v ts l Hw' HM HC HS E]; [reflexivity|]. exfalso. destruct (means_head _ _ HM) as [c [t0 [-> Hc]]].
    assert (HB : blank c). { unfold blanks in Hw. rewrite <- E, Forall_app in Hw. destruct Hw as [_ Hw]. cbn [app] in Hw. now inversion Hw. }
    now apply opens_not_blank in Hc.
  - inversion H' as [w' Hw' E|w' t' v' ts' l1 Hw' HM' HC' HS' E].
    + exfalso. destruct (means_head _ _ HM) as [c [t0 [-> Hc]]].
      assert (HB : blank c). { apply Forall_app in Hw'. destruct Hw' as [_ Hw']. cbn [app] in Hw'. now inversion Hw'. }
      now apply opens_not_blank in Hc.
    + destruct (run_split blank w' w _ _ Hw' Hw E) as [_ E2]; [now apply stops_opens with v'|now apply stops_opens with v|].
      destruct (closed_split _ _ _ _ _ _ HM' HC' HM HC E2) as [_ [-> ->]]. f_equal. now apply IH.
Qed.
