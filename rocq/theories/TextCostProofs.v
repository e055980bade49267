(** Proofs about TextCost.v. *)

From Coq Require Import Ascii String Arith NArith Bool List Lia.
From Verif Require Import Base Tags Dom StringUtil NodeUtil Samples DepthSpec CostSpec TextCost TextCostSpec MatchRefine.
Import ListNotations.

Definition piece (w : bool) (c : node) (inner : str) : str :=
  match w, c with
  | true, NElement t _ _ _ => if TagWrapsText t then ["010"%char] ++ inner ++ ["010"%char] else inner
  | _, _ => inner
  end.
Fixpoint pieces (w : bool) (l : list node) : str :=
  match l with [] => [] | c :: l' => piece w c (StripTags w c) ++ pieces w l' end.
Lemma strip_element w t o a cs : StripTags w (NElement t o a cs) = pieces w cs.
Proof.
  cbn [StripTags]. induction cs as [|c cs IH]; [reflexivity|]. cbn [pieces]. rewrite <- IH.
  destruct w, c; cbn [piece]; try reflexivity.
Qed.
Fixpoint pieces_c (w : bool) (l : list node) : str * nat :=
  match l with
  | [] => ([], 0)
  | c :: l' =>
      let (inner, k) := StripTags_c w c in
      let (rest, k') := pieces_c w l' in (piece w c inner ++ rest, k + length (piece w c inner) + k')
  end.
Lemma strip_element_c w t o a cs : StripTags_c w (NElement t o a cs) = pieces_c w cs.
Proof. cbn [StripTags_c]. induction cs as [|c cs IH]; [reflexivity|]. cbn [pieces_c]. now rewrite <- IH. Qed.

Definition lengths (w : bool) (l : list node) : nat := sum (map (fun d => length (StripTags w d)) l).
Lemma lengths_app w a b : lengths w (a ++ b) = lengths w a + lengths w b.
Proof. unfold lengths, sum. induction a; cbn in *; lia. Qed.

Lemma strip_copies w : forall n, StripTags_c w n = (StripTags w n, lengths w (and_below n)).
Proof.
  induction n as [n IH] using (well_founded_induction (Wf_nat.well_founded_ltof _ height)). unfold Wf_nat.ltof in IH.
  destruct n as [d1 d2 d3 d4 d5|t o a cs|t o a cs|x|x|x|x]; try (cbn; unfold lengths; cbn; rewrite ?Nat.add_0_r; reflexivity).
  rewrite strip_element_c, strip_element.
  assert (H : pieces_c w cs = (pieces w cs, lengths w (concat (map and_below cs)) + length (pieces w cs))).
  { assert (HC : forall c, In c cs -> StripTags_c w c = (StripTags w c, lengths w (and_below c))).
    { intros c Hc. apply IH. cbn [height]. clear -Hc. induction cs as [|d cs IHc]; [destruct Hc|].
      unfold largest. cbn [map fold_right]. fold (largest (map height cs)).
      destruct Hc as [-> |Hc]; [lia|]. specialize (IHc Hc). lia. }
    clear IH. induction cs as [|c cs IHl]; [reflexivity|]. cbn [pieces_c pieces].
    rewrite (HC c) by now left. rewrite IHl by (intros; apply HC; now right).
    f_equal. cbn [map concat]. rewrite lengths_app, app_length. lia. }
  rewrite H. f_equal. cbn [and_below]. unfold lengths. cbn [map]. unfold sum. cbn [fold_right]. rewrite strip_element. lia.
Qed.

Lemma strip_same w n : fst (StripTags_c w n) = StripTags w n.
Proof. now rewrite strip_copies. Qed.
Lemma strip_count w n : snd (StripTags_c w n) = sum (map (fun d => length (StripTags w d)) (and_below n)).
Proof. now rewrite strip_copies. Qed.

Lemma piece_length w c x : length x <= length (piece w c x).
Proof. destruct w, c; cbn [piece]; try lia. destruct (TagWrapsText t); [|lia]. rewrite !app_length. lia. Qed.

Lemma strip_bound w n : snd (StripTags_c w n) <= height n * length (StripTags w n).
Proof.
  rewrite strip_copies. cbn [snd].
  induction n as [n IH] using (well_founded_induction (Wf_nat.well_founded_ltof _ height)). unfold Wf_nat.ltof in IH.
  destruct n as [d1 d2 d3 d4 d5|t o a cs|t o a cs|x|x|x|x]; try (unfold lengths; cbn; lia).
  cbn [and_below]. change (NElement t o a cs :: concat (map and_below cs)) with ([NElement t o a cs] ++ concat (map and_below cs)).
  rewrite lengths_app. unfold lengths at 1. cbn [map]. unfold sum. cbn [fold_right]. rewrite strip_element.
  cbn [height].
  assert (H : forall h, (forall c, In c cs -> height c <= h) -> lengths w (concat (map and_below cs)) <= h * length (pieces w cs)).
  { intros h Hh. assert (HC : forall c, In c cs -> lengths w (and_below c) <= height c * length (StripTags w c)).
    { intros c Hc. apply IH. cbn [height]. clear -Hc. induction cs as [|d cs IHc]; [destruct Hc|].
      unfold largest. cbn [map fold_right]. fold (largest (map height cs)).
      destruct Hc as [-> |Hc]; [lia|]. specialize (IHc Hc). lia. }
    clear IH. induction cs as [|c cs IHl]; [unfold lengths; cbn; lia|]. cbn [map concat pieces]. rewrite lengths_app, app_length.
    specialize (IHl (fun c Hc => Hh c (or_intror Hc)) (fun c Hc => HC c (or_intror Hc))).
    specialize (HC c (or_introl eq_refl)). specialize (Hh c (or_introl eq_refl)). pose proof (piece_length w c (StripTags w c)). nia. }
  specialize (H (largest (map height cs))).
  assert (HL : forall c, In c cs -> height c <= largest (map height cs)).
  { clear. intros c Hc. induction cs as [|d cs IHc]; [destruct Hc|]. unfold largest. cbn [map fold_right]. fold (largest (map height cs)).
    destruct Hc as [-> |Hc]; [lia|]. specialize (IHc Hc). lia. }
  specialize (H HL). lia.
Qed.

(** ** A text inside of many elements *)

Fixpoint wrapped (n : nat) (c : node) : node := match n with O => c | S n' => el TAG_B [wrapped n' c] end.
Definition deep_text (n : nat) : node := wrapped n (NText (repeat "a"%char n)).

Lemma wrapped_strip w n c : StripTags w (wrapped n c) = StripTags w (wrapped 0 c) \/ exists t o a cs, c = NElement t o a cs.
Proof.
  destruct c as [d1 d2 d3 d4 d5|t o a cs|t o a cs|x|x|x|x]; try (left; induction n as [|n IH]; [reflexivity|];
    cbn [wrapped]; unfold el; rewrite strip_element; cbn [pieces]; rewrite IH, app_nil_r; destruct w, n; reflexivity).
  right. eauto.
Qed.
Lemma c_str_letters n : c_str (repeat "a"%char n) = repeat "a"%char n.
Proof. induction n as [|n IH]; [reflexivity|]. cbn [repeat c_str]. cbn. now rewrite IH. Qed.
Lemma deep_strip w n m : StripTags w (wrapped m (NText (repeat "a"%char n))) = repeat "a"%char n.
Proof.
  destruct (wrapped_strip w m (NText (repeat "a"%char n))) as [->|[t [o [a [cs H]]]]]; [|discriminate].
  cbn [wrapped StripTags]. apply c_str_letters.
Qed.
Lemma deep_copies w n m : snd (StripTags_c w (wrapped m (NText (repeat "a"%char n)))) = (m + 1) * n.
Proof.
  rewrite strip_copies. cbn [snd]. induction m as [|m IH].
  - unfold lengths. cbn. rewrite c_str_letters, repeat_length. lia.
  - set (d := wrapped m (NText (repeat "a"%char n))) in *.
    assert (H : lengths w (and_below (el TAG_B [d])) = length (StripTags w (el TAG_B [d])) + lengths w (and_below d)).
    { unfold el. cbn [and_below map concat]. rewrite app_nil_r. reflexivity. }
    change (wrapped (S m) (NText (repeat "a"%char n))) with (el TAG_B [d]). rewrite H.
    change (el TAG_B [d]) with (wrapped (S m) (NText (repeat "a"%char n))). rewrite deep_strip, repeat_length, IH. lia.
Qed.
Lemma deep_size n m : size_of (wrapped m (NText (repeat "a"%char n))) = S m + n.
Proof.
  unfold size_of. induction m as [|m IH]; cbn [wrapped and_below el map concat]; unfold sum in *; cbn [fold_right map] in *.
  - rewrite repeat_length. lia.
  - rewrite app_nil_r, IH. lia.
Qed.
Lemma text_not_linear k : exists n, forall w, k * size_of n < snd (StripTags_c w n).
Proof.
  exists (deep_text (2 * k + 1)). intros w. unfold deep_text. rewrite deep_copies, deep_size. nia.
Qed.

(** ** Sizes *)

Lemma c_str_length (x : str) : length (c_str x) <= length x.
Proof. induction x as [|c x IH]; [cbn; lia|]. cbn [c_str]. destruct (Ascii.eqb c NUL); cbn [length]; lia. Qed.
Lemma sum_app a b : sum (a ++ b) = sum a + sum b.
Proof. unfold sum. induction a as [|x a IH]; cbn in *; lia. Qed.
Definition sizes (l : list node) : nat := sum (map size_of l).
Lemma size_element t o a cs : size_of (NElement t o a cs) = S (sizes cs).
Proof.
  unfold size_of, sizes. cbn [and_below map]. unfold sum at 1. cbn [fold_right].
  cbn [plus]. f_equal. induction cs as [|c cs IH]; [reflexivity|]. cbn [map concat].
  rewrite map_app. fold (sum (map (fun d => S match d with NText x | NWhitespace x => length x | _ => 0 end) (and_below c ++ concat (map and_below cs)))) in IH |- *.
  rewrite <- map_app, map_app. change (fold_right Nat.add 0) with sum in *. rewrite sum_app, IH. reflexivity.
Qed.
Lemma kid_lower (c : node) cs : In c cs -> height c <= largest (map height cs).
Proof.
  intros Hc. induction cs as [|d cs IHc]; [destruct Hc|]. unfold largest. cbn [map fold_right]. fold (largest (map height cs)).
  destruct Hc as [-> |Hc]; [lia|]. specialize (IHc Hc). lia.
Qed.
Lemma size_enough n : height n <= size_of n /\ forall w, length (StripTags w n) + 2 <= 2 * size_of n.
Proof.
  induction n as [n IH] using (well_founded_induction (Wf_nat.well_founded_ltof _ height)). unfold Wf_nat.ltof in IH.
  destruct n as [d1 d2 d3 d4 d5|t o a cs|t o a cs|x|x|x|x]; try (split; [|intros w]; unfold size_of; cbn; try lia; pose proof (c_str_length x); lia).
  rewrite size_element. cbn [height].
  assert (HC : forall c, In c cs -> height c <= size_of c /\ forall w, length (StripTags w c) + 2 <= 2 * size_of c).
  { intros c Hc. apply IH. cbn [height]. pose proof (kid_lower c cs Hc). lia. }
  clear IH. split.
  - apply le_n_S. unfold sizes. induction cs as [|c cs IHc]; [cbn; lia|]. unfold largest, sum in *. cbn [map fold_right].
    destruct (HC c (or_introl eq_refl)) as [H _]. specialize (IHc (fun d Hd => HC d (or_intror Hd))). lia.
  - intros w. rewrite strip_element. enough (length (pieces w cs) <= 2 * sizes cs) by lia.
    induction cs as [|c cs IHc]; [cbn; lia|]. cbn [pieces]. rewrite app_length. unfold sizes, sum in *. cbn [map fold_right].
    destruct (HC c (or_introl eq_refl)) as [_ H]. specialize (H w). specialize (IHc (fun d Hd => HC d (or_intror Hd))).
    assert (length (piece w c (StripTags w c)) <= length (StripTags w c) + 2); [|lia].
    destruct w, c; cbn [piece]; try lia. destruct (TagWrapsText t0); rewrite ?app_length; cbn [length]; lia.
Qed.
Lemma text_quadratic w n : snd (StripTags_c w n) <= 2 * (size_of n * size_of n).
Proof. pose proof (strip_bound w n). destruct (size_enough n) as [Hh Hl]. specialize (Hl w). nia. Qed.
