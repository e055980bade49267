(** The ends of lines in the files that the script for Python reads. *)

From Coq Require Import Ascii String NArith ZArith Bool List Lia.
From Verif Require Import Base Dom Match Rule RuleMatching ExtractSpec Convert ConvertSpec PyRefs JsonText JsonSpec JsonUnique JsonProofs Utf8Proofs
  Scripts ScriptRun ScriptRunSpec.
Import ListNotations.

Lemma byte_other n k : scalar n -> n <> k -> (k < 128)%N -> forallb (fun c => negb (byte k c)) (bytes_of n) = true.
Proof.
  intros H HN HK. unfold bytes_of, byte. unfold scalar in H. rewrite forallb_forall. intros c Hc. rewrite negb_true_iff, N.eqb_neq.
  destruct (N.ltb_spec n 128) as [H1|H1]; [|destruct (N.ltb_spec n 2048) as [H2|H2]; [|destruct (N.ltb_spec n 65536) as [H3|H3]]]; cbn [map In] in Hc;
    repeat match goal with H : _ \/ _ |- _ => destruct H as [<-|Hc]; [rewrite of_small; [rewrite ?N.mod_eq by discriminate; try lia|rewrite ?N.mod_eq by discriminate; lia]|] end;
    destruct Hc.
Qed.

Lemma skip_bytes t : forall b y, forallb (fun c => negb (byte 13 c)) t = true ->
  (b = true -> match t with c :: _ => byte 10 c = false | [] => False end) -> t <> [] ->
  universal_newlines b (t ++ y) = t ++ universal_newlines false y.
Proof.
  induction t as [|c t IH]; intros b y H HB HN; [congruence|]. cbn [forallb app universal_newlines] in *. apply andb_true_iff in H as [H1 H2].
  rewrite negb_true_iff in H1. rewrite H1. replace (byte 10 c && b) with false.
  - f_equal. destruct t as [|d t]; [reflexivity|]. apply IH; [exact H2|discriminate|discriminate].
  - destruct b; [rewrite HB by reflexivity; reflexivity|symmetry; apply andb_false_r].
Qed.

Lemma bytes_of_cons n : exists c t, bytes_of n = c :: t.
Proof. unfold bytes_of. destruct (n <? 128)%N; [|destruct (n <? 2048)%N; [|destruct (n <? 65536)%N]]; cbn [map]; eauto. Qed.

Lemma newlines_read x y : Forall scalar x -> same_lines x y ->
  universal_newlines false (flat_map bytes_of x) = flat_map bytes_of y /\
  (hd 0%N x <> 10%N -> universal_newlines true (flat_map bytes_of x) = flat_map bytes_of y).
Proof.
  intros HS H. induction H as [|x y H IH|x y HH H IH|n x y HN H IH].
  - split; reflexivity.
  - inversion HS as [|? ? _ HS']; subst. inversion HS' as [|? ? _ HS2]; subst. destruct (IH HS2) as [IH1 _].
    assert (E : forall b, universal_newlines b (flat_map bytes_of (13 :: 10 :: x)%N) = flat_map bytes_of (10 :: y)%N).
    { intros b. cbn [flat_map]. change (bytes_of 13) with ["013"%char]. change (bytes_of 10) with ["010"%char].
      cbn [app universal_newlines]. change (byte 13 "013") with true. change (byte 13 "010") with false. change (byte 10 "010") with true.
      cbn [andb]. rewrite IH1. reflexivity. }
    split; [|intros _]; apply E.
  - inversion HS as [|? ? _ HS2]; subst. destruct (IH HS2) as [_ IH2].
    assert (E : forall b, universal_newlines b (flat_map bytes_of (13 :: x)%N) = flat_map bytes_of (10 :: y)%N).
    { intros b. cbn [flat_map]. change (bytes_of 13) with ["013"%char]. change (bytes_of 10) with ["010"%char].
      cbn [app universal_newlines]. change (byte 13 "013") with true. cbv iota. rewrite IH2 by exact HH. reflexivity. }
    split; [|intros _]; apply E.
  - inversion HS as [|? ? Hn HS2]; subst. destruct (IH HS2) as [IH1 _]. cbn [flat_map hd]. destruct (bytes_of_cons n) as [c [t E]].
    assert (H13 : forallb (fun c => negb (byte 13 c)) (bytes_of n) = true) by (apply byte_other; [exact Hn|exact HN|lia]).
    split; [|intros H10]; rewrite skip_bytes; try (rewrite IH1; reflexivity); try exact H13; try (rewrite E; discriminate).
    intros _. rewrite E. assert (HX : forallb (fun c => negb (byte 10 c)) (bytes_of n) = true) by (apply byte_other; [exact Hn|exact H10|lia]).
    rewrite E in HX. cbn [forallb] in HX. apply andb_true_iff in HX as [HX _]. now rewrite negb_true_iff in HX.
Qed.

Lemma lines_scalar x y : same_lines x y -> Forall scalar x -> Forall scalar y /\ ~ In 13%N y.
Proof.
  intros H. induction H as [|x y H IH|x y HH H IH|n x y HN H IH]; intros HS.
  - split; [constructor|intros []].
  - inversion HS as [|? ? _ HS']; subst. inversion HS' as [|? ? H1 HS2]; subst. destruct (IH HS2). split; [now constructor|]. intros [HX|HX]; [discriminate|tauto].
  - inversion HS as [|? ? _ HS2]; subst. destruct (IH HS2). split; [constructor; [unfold scalar; lia|assumption]|]. intros [HX|HX]; [discriminate|tauto].
  - inversion HS as [|? ? H1 HS2]; subst. destruct (IH HS2). split; [now constructor|]. intros [HX|HX]; [congruence|tauto].
Qed.

Lemma lines_self y : ~ In 13%N y -> same_lines y y.
Proof. induction y as [|n y IH]; intros H; [constructor|]. apply line_char; [intros ->; apply H; now left|]. apply IH. intros HX. apply H. now right. Qed.

Lemma python_read_lines M M' file file' : same_text M M' file file' -> python_read M file = python_read M' file' /\ python_read M file <> None.
Proof.
  intros [x [y [HS [HL [E E']]]]]. unfold python_read. rewrite E, E'. destruct (lines_scalar x y HL HS) as [HY HC].
  assert (U : forall z, Forall scalar z -> utf8 (flat_map bytes_of z) = true) by (intros z Hz; apply utf8_iff; now exists z).
  rewrite (U x HS), (U y HY). rewrite (proj1 (newlines_read x y HS HL)), (proj1 (newlines_read y y HY (lines_self y HC))). split; [reflexivity|discriminate].
Qed.

Theorem python_lines M M' name f hext_file html_file html_file' more more' : same_libraries M M' ->
  same_text M M' hext_file hext_file -> same_text M M' html_file html_file' ->
  python_main M name f (hext_file :: html_file :: more) = python_main M' name f (hext_file :: html_file' :: more').
Proof.
  intros [L1 L2] H1 H2. unfold python_main, with_arguments. rewrite (proj1 (python_read_lines _ _ _ _ H1)), (proj1 (python_read_lines _ _ _ _ H2)).
  destruct (python_read M' hext_file); [|reflexivity]. destruct (python_read M' html_file'); [|reflexivity]. unfold swig_script. now rewrite L1, L2.
Qed.
