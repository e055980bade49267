(** The transitions of the generated state machine as rows of byte sets, and
    the proof that the binary searches of Parser::parse compute them. *)

From Coq Require Import Ascii String NArith ZArith Bool List Lia.
From Verif Require Import Base StringUtil Arrays ParserTables Parser Regular.
Import ListNotations.
Open Scope outcome_scope.

(** ** Byte sets *)

Lemma byte_bound c : (N_of_ascii c < 256)%N.
Proof. apply N_ascii_bounded. Qed.

Lemma has_all c : has all_bytes c = true.
Proof. unfold has, all_bytes. apply N.ones_spec_low. apply byte_bound. Qed.

Lemma has_range a b c : has (byte_range a b) c = ((a <=? N_of_ascii c) && (N_of_ascii c <=? b))%N.
Proof.
  unfold has, byte_range. destruct (N.leb_spec a (N_of_ascii c)) as [H|H]; simpl.
  - rewrite N.shiftl_spec_high' by exact H. destruct (N.leb_spec (N_of_ascii c) b) as [H'|H'].
    + apply N.ones_spec_low. lia.
    + apply N.ones_spec_high. lia.
  - now apply N.shiftl_spec_low.
Qed.

Lemma has_land m m' c : has (N.land m m') c = has m c && has m' c.
Proof. apply N.land_spec. Qed.
Lemma has_lor m m' c : has (N.lor m m') c = has m c || has m' c.
Proof. apply N.lor_spec. Qed.
Lemma has_ldiff m m' c : has (N.ldiff m m') c = has m c && negb (has m' c).
Proof. apply N.ldiff_spec. Qed.
Lemma has_0 c : has 0 c = false.
Proof. apply N.bits_0. Qed.

(** ** The searches *)

Lemma search_single_spec (k : Z -> Z) c : forall fuel lo up,
  (forall i, lo <= i <= up -> key i = Ok (k i))%Z ->
  (forall i j, lo <= i -> i < j -> j <= up -> k i < k j)%Z ->
  (lo <= up + 1)%Z -> (up - lo + 1 < Z.of_nat fuel)%Z ->
  (exists m, search_single fuel c lo up = Ok (Some m) /\ lo <= m <= up /\ k m = c)%Z \/
  (search_single fuel c lo up = Ok None /\ forall i, lo <= i <= up -> k i <> c)%Z.
Proof.
  induction fuel as [|f IH]; intros lo up Hk Hs H0 Hf; [lia|].
  cbn [search_single]. destruct (Z.ltb_spec up lo) as [H|H].
  - right. split; [reflexivity|]. intros i Hi. lia.
  - set (mid := (lo + Z.shiftr (up - lo) 1)%Z).
    assert (Hmid : (lo <= mid <= up)%Z).
    { unfold mid. rewrite Z.shiftr_div_pow2 by lia. change (2 ^ 1)%Z with 2%Z.
      pose proof (Z.div_pos (up - lo) 2). pose proof (Z.div_le_upper_bound (up - lo) 2 (up - lo)). lia. }
    rewrite (Hk mid Hmid). cbn [obind].
    destruct (Z.ltb_spec c (k mid)) as [H1|H1].
    + destruct (IH lo (mid - 1)%Z) as [[m [E [Hm Em]]]|[E Hn]].
      * intros; apply Hk; lia.
      * intros; apply Hs; lia.
      * lia.
      * lia.
      * left. exists m. split; [exact E|]. split; [lia|exact Em].
      * right. split; [exact E|]. intros i Hi Ei. destruct (Z_lt_le_dec i mid) as [Hl|Hl].
        -- apply (Hn i); [lia|exact Ei].
        -- destruct (Z.eq_dec i mid) as [->|Hne]; [lia|]. specialize (Hs mid i). lia.
    + destruct (Z.ltb_spec (k mid) c) as [H2|H2].
      * destruct (IH (mid + 1)%Z up) as [[m [E [Hm Em]]]|[E Hn]].
        -- intros; apply Hk; lia.
        -- intros; apply Hs; lia.
        -- lia.
        -- lia.
        -- left. exists m. split; [exact E|]. split; [lia|exact Em].
        -- right. split; [exact E|]. intros i Hi Ei. destruct (Z_lt_le_dec mid i) as [Hl|Hl].
           ++ apply (Hn i); [lia|exact Ei].
           ++ destruct (Z.eq_dec i mid) as [->|Hne]; [lia|]. specialize (Hs i mid). lia.
      * left. exists mid. split; [reflexivity|]. split; [exact Hmid|lia].
Qed.

Lemma even_part x : (0 <= x)%Z -> Z.land x (Z.lnot 1) = (2 * (x / 2))%Z.
Proof.
  intros H. change 1%Z with (Z.ones 1). rewrite <- Z.ldiff_land.
  rewrite Z.ldiff_ones_r by lia. rewrite Z.shiftl_mul_pow2, Z.shiftr_div_pow2 by lia. change (2 ^ 1)%Z with 2%Z. lia.
Qed.

Lemma search_range_spec (lo_ hi_ : Z -> Z) base c : forall fuel a b,
  (forall i, a <= i <= b -> key (base + 2 * i) = Ok (lo_ i) /\ key (base + 2 * i + 1) = Ok (hi_ i))%Z ->
  (forall i j, a <= i -> i < j -> j <= b -> hi_ i < lo_ j)%Z ->
  (forall i, a <= i <= b -> lo_ i <= hi_ i)%Z ->
  (a <= b + 1)%Z -> (b - a + 1 < Z.of_nat fuel)%Z ->
  (exists m, search_range fuel c (base + 2 * a) (base + 2 * b) = Ok (Some (base + 2 * m)) /\
     a <= m <= b /\ lo_ m <= c <= hi_ m)%Z \/
  (search_range fuel c (base + 2 * a) (base + 2 * b) = Ok None /\ forall i, a <= i <= b -> ~ (lo_ i <= c <= hi_ i))%Z.
Proof.
  induction fuel as [|f IH]; intros a b Hk Hs Hle H0 Hf; [lia|].
  cbn [search_range]. destruct (Z.ltb_spec (base + 2 * b) (base + 2 * a)) as [H|H].
  - right. split; [reflexivity|]. intros i Hi. lia.
  - set (m := (a + (b - a) / 2)%Z).
    replace (base + 2 * a + Z.land (Z.shiftr (base + 2 * b - (base + 2 * a)) 1) (Z.lnot 1))%Z with (base + 2 * m)%Z.
    2: { unfold m. rewrite Z.shiftr_div_pow2 by lia. change (2 ^ 1)%Z with 2%Z.
         replace (base + 2 * b - (base + 2 * a))%Z with ((b - a) * 2)%Z by lia. rewrite Z.div_mul by lia.
         rewrite even_part by lia. lia. }
    assert (Hm : (a <= m <= b)%Z).
    { unfold m. pose proof (Z.div_pos (b - a) 2). pose proof (Z.div_le_upper_bound (b - a) 2 (b - a)). lia. }
    destruct (Hk m Hm) as [K0 K1]. rewrite K0. cbn [obind].
    destruct (Z.ltb_spec c (lo_ m)) as [H1|H1].
    + replace (base + 2 * m - 2)%Z with (base + 2 * (m - 1))%Z by lia.
      destruct (IH a (m - 1)%Z) as [[m' [E [Hm' Em]]]|[E Hn]].
      * intros; apply Hk; lia.
      * intros; apply Hs; lia.
      * intros; apply Hle; lia.
      * lia.
      * lia.
      * left. exists m'. split; [exact E|]. split; [lia|exact Em].
      * right. split; [exact E|]. intros i Hi Ei. destruct (Z_lt_le_dec i m) as [Hl|Hl].
        -- apply (Hn i); [lia|exact Ei].
        -- destruct (Z.eq_dec i m) as [->|Hne]; [lia|]. pose proof (Hs m i). pose proof (Hle m Hm). lia.
    + replace (base + 2 * m + 1)%Z with (base + 2 * m + 1)%Z by lia. rewrite K1. cbn [obind].
      destruct (Z.ltb_spec (hi_ m) c) as [H2|H2].
      * replace (base + 2 * m + 2)%Z with (base + 2 * (m + 1))%Z by lia.
        destruct (IH (m + 1)%Z b) as [[m' [E [Hm' Em]]]|[E Hn]].
        -- intros; apply Hk; lia.
        -- intros; apply Hs; lia.
        -- intros; apply Hle; lia.
        -- lia.
        -- lia.
        -- left. exists m'. split; [exact E|]. split; [lia|exact Em].
        -- right. split; [exact E|]. intros i Hi Ei. destruct (Z_lt_le_dec m i) as [Hl|Hl].
           ++ apply (Hn i); [lia|exact Ei].
           ++ destruct (Z.eq_dec i m) as [->|Hne]; [lia|]. pose proof (Hs i m). pose proof (Hle m Hm). lia.
      * left. exists m. split; [reflexivity|]. split; [exact Hm|lia].
Qed.

(** ** The rows as intervals *)

(** The entries of a row: intervals of keys with their index into
    _hext_indicies. *)
Fixpoint read_singles (n : nat) (k : Z) (trans : N) : outcome (list (Z * Z * N)) :=
  match n with
  | O => Ok []
  | S n' =>
      let! x := key k in
      let! rest := read_singles n' (k + 1) (trans + 1) in
      Ok ((x, x, trans) :: rest)
  end.
Fixpoint read_ranges (n : nat) (k : Z) (trans : N) : outcome (list (Z * Z * N)) :=
  match n with
  | O => Ok []
  | S n' =>
      let! x := key k in
      let! y := key (k + 1) in
      let! rest := read_ranges n' (k + 2) (trans + 1) in
      Ok ((x, y, trans) :: rest)
  end.

(** Ascending and not overlapping. *)
Fixpoint ascending (l : list (Z * Z * N)) : bool :=
  match l with
  | [] => true
  | (lo, hi, _) :: l' =>
      (lo <=? hi)%Z && (match l' with [] => true | (lo', _, _) :: _ => (hi <? lo')%Z end) && ascending l'
  end.

Fixpoint find_interval (c : Z) (l : list (Z * Z * N)) : option N :=
  match l with
  | [] => None
  | (lo, hi, t) :: l' => if ((lo <=? c) && (c <=? hi))%Z then Some t else find_interval c l'
  end.

Record intervals := mk_intervals { iv_singles : list (Z * Z * N); iv_ranges : list (Z * Z * N); iv_default : N }.

Definition intervals_of (cs : N) : outcome intervals :=
  let! keys := aget a_key_offsets cs in
  let! trans := aget a_index_offsets cs in
  let! slen := aget a_single_lengths cs in
  let! rlen := aget a_range_lengths cs in
  let! l := read_singles (N.to_nat slen) (Z.of_N keys) trans in
  let! l' := read_ranges (N.to_nat rlen) (Z.of_N (keys + slen)) (trans + slen) in
  Ok (mk_intervals l l' (trans + slen + rlen)).

Lemma obind_ok {A B} (m : outcome A) (f : A -> outcome B) y : obind m f = Ok y -> exists x, m = Ok x /\ f x = Ok y.
Proof. destruct m; simpl; try discriminate. eauto. Qed.

Lemma ok_inj {A} (x y : A) : Ok x = Ok y -> x = y.
Proof. intros H. now injection H. Qed.

Lemma read_singles_spec n : forall k trans l, read_singles n k trans = Ok l ->
  length l = n /\
  forall i, i < n -> exists x, key (k + Z.of_nat i) = Ok x /\ nth_error l i = Some (x, x, (trans + N.of_nat i)%N).
Proof.
  induction n as [|n IH]; intros k trans l H; cbn [read_singles] in H.
  - injection H as <-. split; [reflexivity|]. intros i Hi. lia.
  - apply obind_ok in H as [x [Hx H]]. apply obind_ok in H as [rest [Hr H]]. injection H as <-.
    destruct (IH _ _ _ Hr) as [Hl Hn]. split; [simpl; now rewrite Hl|]. intros [|i] Hi.
    + exists x. simpl. rewrite Z.add_0_r, N.add_0_r. auto.
    + destruct (Hn i) as [y [H1 H2]]; [lia|]. exists y. split.
      * replace (k + Z.of_nat (S i))%Z with (k + 1 + Z.of_nat i)%Z by lia. exact H1.
      * simpl. rewrite H2. do 2 f_equal. lia.
Qed.

Lemma read_ranges_spec n : forall k trans l, read_ranges n k trans = Ok l ->
  length l = n /\
  forall i, i < n -> exists x y, key (k + 2 * Z.of_nat i) = Ok x /\ key (k + 2 * Z.of_nat i + 1) = Ok y /\
    nth_error l i = Some (x, y, (trans + N.of_nat i)%N).
Proof.
  induction n as [|n IH]; intros k trans l H; cbn [read_ranges] in H.
  - injection H as <-. split; [reflexivity|]. intros i Hi. lia.
  - apply obind_ok in H as [x [Hx H]]. apply obind_ok in H as [y [Hy H]]. apply obind_ok in H as [rest [Hr H]]. injection H as <-.
    destruct (IH _ _ _ Hr) as [Hl Hn]. split; [simpl; now rewrite Hl|]. intros [|i] Hi.
    + exists x, y. simpl. rewrite Z.add_0_r, N.add_0_r. auto.
    + destruct (Hn i) as [x' [y' [H1 [H2 H3]]]]; [lia|]. exists x', y'. split; [|split].
      * replace (k + 2 * Z.of_nat (S i))%Z with (k + 2 + 2 * Z.of_nat i)%Z by lia. exact H1.
      * replace (k + 2 * Z.of_nat (S i) + 1)%Z with (k + 2 + 2 * Z.of_nat i + 1)%Z by lia. exact H2.
      * simpl. rewrite H3. do 2 f_equal. lia.
Qed.

Lemma ascending_spec l : ascending l = true ->
  (forall i lo hi t, nth_error l i = Some (lo, hi, t) -> (lo <= hi)%Z) /\
  (forall i j lo hi t lo' hi' t', i < j -> nth_error l i = Some (lo, hi, t) -> nth_error l j = Some (lo', hi', t') -> (hi < lo')%Z).
Proof.
  induction l as [|[[lo hi] t] l IH]; intros H.
  - split; intros i; destruct i; discriminate.
  - cbn [ascending] in H. apply andb_true_iff in H as [H Ha]. apply andb_true_iff in H as [Hle Hn]. apply Z.leb_le in Hle.
    destruct (IH Ha) as [I1 I2]. split.
    + intros [|i] a b u E; [injection E as <- <- <-; exact Hle|]. now apply (I1 i a b u).
    + assert (Hall : forall j lo' hi' t', nth_error l j = Some (lo', hi', t') -> (hi < lo')%Z).
      { intros j lo' hi' t' E. destruct l as [|[[lo0 hi0] t0] l]; [destruct j; discriminate|]. apply Z.ltb_lt in Hn.
        destruct j as [|j]; [injection E as <- <- <-; exact Hn|].
        pose proof (I2 0 (S j) lo0 hi0 t0 lo' hi' t' ltac:(lia) eq_refl E) as H1.
        pose proof (I1 0 lo0 hi0 t0 eq_refl) as H0. lia. }
      intros [|i] [|j] a b u a' b' u' Hij E E'; try lia.
      * injection E as <- <- <-. now apply (Hall j a' b' u').
      * apply (I2 i j a b u a' b' u'); auto. lia.
Qed.

Lemma find_interval_at l i lo hi t c : ascending l = true -> nth_error l i = Some (lo, hi, t) -> (lo <= c <= hi)%Z ->
  find_interval c l = Some t.
Proof.
  revert i. induction l as [|[[lo0 hi0] t0] l IH]; intros i Ha E Hc; [destruct i; discriminate|].
  cbn [find_interval]. destruct i as [|i].
  - injection E as -> -> ->. replace ((lo <=? c)%Z && (c <=? hi)%Z) with true; [reflexivity|].
    symmetry. apply andb_true_iff. split; apply Z.leb_le; lia.
  - destruct (ascending_spec _ Ha) as [_ A2]. pose proof (A2 0 (S i) lo0 hi0 t0 lo hi t ltac:(lia) eq_refl E) as H.
    replace ((lo0 <=? c)%Z && (c <=? hi0)%Z) with false.
    + apply (IH i); auto. cbn [ascending] in Ha. now apply andb_true_iff in Ha as [_ Ha].
    + symmetry. apply andb_false_iff. right. apply Z.leb_gt. lia.
Qed.

Lemma find_interval_none l c : (forall i lo hi t, nth_error l i = Some (lo, hi, t) -> ~ (lo <= c <= hi)%Z) ->
  find_interval c l = None.
Proof.
  induction l as [|[[lo hi] t] l IH]; intros H; [reflexivity|]. cbn [find_interval].
  pose proof (H 0 lo hi t eq_refl) as H0.
  replace ((lo <=? c)%Z && (c <=? hi)%Z) with false.
  - apply IH. intros i. apply (H (S i)).
  - symmetry. apply andb_false_iff. destruct (Z_le_gt_dec lo c); [right|left]; apply Z.leb_gt; lia.
Qed.

Lemma find_trans_intervals cs iv c : intervals_of cs = Ok iv ->
  ascending (iv_singles iv) = true -> ascending (iv_ranges iv) = true ->
  find_trans cs c = Ok (match find_interval c (iv_singles iv) with
                        | Some t => t
                        | None => match find_interval c (iv_ranges iv) with Some t => t | None => iv_default iv end
                        end).
Proof.
  unfold intervals_of, find_trans. intros H. apply obind_ok in H as [keys [Ek H]]. apply obind_ok in H as [trans [Et H]].
  apply obind_ok in H as [slen [Es H]]. apply obind_ok in H as [rlen [Er H]]. apply obind_ok in H as [l [El H]].
  apply obind_ok in H as [l' [El' H]]. injection H as <-. cbn [iv_singles iv_ranges iv_default]. intros Ha Ha'.
  rewrite Ek, Et, Es. cbn [obind].
  destruct (read_singles_spec _ _ _ _ El) as [Hl Hn]. destruct (read_ranges_spec _ _ _ _ El') as [Hl' Hn'].
  destruct (ascending_spec _ Ha) as [A1 A2]. destruct (ascending_spec _ Ha') as [A1' A2'].
  (* the search for a single key *)
  assert (HS : (exists m, (if (0 <? slen)%N
       then search_single (S (N.to_nat slen)) c (Z.of_N keys) (Z.of_N keys + Z.of_N slen - 1) else Ok None) = Ok (Some m) /\
       find_interval c l = Some (trans + Z.to_N (m - Z.of_N keys))%N) \/
     ((if (0 <? slen)%N
       then search_single (S (N.to_nat slen)) c (Z.of_N keys) (Z.of_N keys + Z.of_N slen - 1) else Ok None) = Ok None /\
       find_interval c l = None)).
  { destruct (N.ltb_spec 0 slen) as [Hp|Hp].
    2: { right. split; [reflexivity|]. assert (slen = 0%N) by lia. subst slen. destruct l; [reflexivity|discriminate]. }
    set (k := fun i : Z => match nth_error l (Z.to_nat (i - Z.of_N keys)) with Some (x, _, _) => x | None => 0%Z end).
    assert (Hk : forall i, (Z.of_N keys <= i <= Z.of_N keys + Z.of_N slen - 1)%Z ->
       key i = Ok (k i) /\ nth_error l (Z.to_nat (i - Z.of_N keys)) = Some (k i, k i, (trans + Z.to_N (i - Z.of_N keys))%N)).
    { intros i Hi. destruct (Hn (Z.to_nat (i - Z.of_N keys))) as [x [H1 H2]]; [lia|].
      rewrite Z2Nat.id in H1 by lia. replace (Z.of_N keys + (i - Z.of_N keys))%Z with i in H1 by lia.
      unfold k. rewrite H2. split; [exact H1|]. do 2 f_equal. lia. }
    destruct (search_single_spec k c (S (N.to_nat slen)) (Z.of_N keys) (Z.of_N keys + Z.of_N slen - 1)) as [[m [E [Hm Em]]]|[E Hno]].
    - intros i Hi. now apply Hk.
    - intros i j Hi Hij Hj. destruct (Hk i) as [_ E1]; [lia|]. destruct (Hk j) as [_ E2]; [lia|].
      apply (A2 (Z.to_nat (i - Z.of_N keys)) (Z.to_nat (j - Z.of_N keys)) _ _ _ _ _ _ ltac:(lia) E1 E2).
    - lia.
    - lia.
    - left. exists m. split; [exact E|]. destruct (Hk m Hm) as [_ E1].
      apply (find_interval_at l (Z.to_nat (m - Z.of_N keys)) (k m) (k m)); [exact Ha|exact E1|lia].
    - right. split; [exact E|]. apply find_interval_none. intros i lo hi t E1 Hc.
      assert (Hi : i < N.to_nat slen) by (rewrite <- Hl; apply nth_error_Some; congruence).
      destruct (Hk (Z.of_N keys + Z.of_nat i)%Z) as [_ E2]; [lia|].
      replace (Z.to_nat (Z.of_N keys + Z.of_nat i - Z.of_N keys)) with i in E2 by lia.
      rewrite E1 in E2. injection E2 as -> -> _. apply (Hno (Z.of_N keys + Z.of_nat i)%Z); lia. }
  destruct HS as [[m [-> ->]]|[-> ->]]; cbn [obind]; [reflexivity|].
  rewrite Er. cbn [obind].
  assert (HR : (exists m, (if (0 <? rlen)%N
       then search_range (S (N.to_nat rlen)) c (Z.of_N (keys + slen)) (Z.of_N (keys + slen) + 2 * Z.of_N rlen - 2) else Ok None) = Ok (Some m) /\
       find_interval c l' = Some (trans + slen + Z.to_N (Z.shiftr (m - Z.of_N (keys + slen)) 1))%N) \/
     ((if (0 <? rlen)%N
       then search_range (S (N.to_nat rlen)) c (Z.of_N (keys + slen)) (Z.of_N (keys + slen) + 2 * Z.of_N rlen - 2) else Ok None) = Ok None /\
       find_interval c l' = None)).
  { destruct (N.ltb_spec 0 rlen) as [Hp|Hp].
    2: { right. split; [reflexivity|]. assert (rlen = 0%N) by lia. subst rlen. destruct l'; [reflexivity|discriminate]. }
    set (base := Z.of_N (keys + slen)) in *.
    set (lo_ := fun i : Z => match nth_error l' (Z.to_nat i) with Some (x, _, _) => x | None => 0%Z end).
    set (hi_ := fun i : Z => match nth_error l' (Z.to_nat i) with Some (_, y, _) => y | None => 0%Z end).
    assert (Hk : forall i, (0 <= i <= Z.of_N rlen - 1)%Z ->
       (key (base + 2 * i) = Ok (lo_ i) /\ key (base + 2 * i + 1) = Ok (hi_ i)) /\
       nth_error l' (Z.to_nat i) = Some (lo_ i, hi_ i, (trans + slen + Z.to_N i)%N)).
    { intros i Hi. destruct (Hn' (Z.to_nat i)) as [x [y [H1 [H2 H3]]]]; [lia|].
      rewrite Z2Nat.id in H1, H2 by lia. unfold lo_, hi_. rewrite H3. split; [split; [exact H1|exact H2]|]. do 2 f_equal. lia. }
    replace (base + 2 * Z.of_N rlen - 2)%Z with (base + 2 * (Z.of_N rlen - 1))%Z by lia.
    pose proof (search_range_spec lo_ hi_ base c (S (N.to_nat rlen)) 0 (Z.of_N rlen - 1)) as HS.
    replace (base + 2 * 0)%Z with base in HS by lia.
    destruct HS as [[m [E [Hm Em]]]|[E Hno]].
    - intros i Hi. now apply Hk.
    - intros i j Hi Hij Hj. destruct (Hk i) as [_ E1]; [lia|]. destruct (Hk j) as [_ E2]; [lia|].
      apply (A2' (Z.to_nat i) (Z.to_nat j) _ _ _ _ _ _ ltac:(lia) E1 E2).
    - intros i Hi. destruct (Hk i Hi) as [_ E1]. apply (A1' _ _ _ _ E1).
    - lia.
    - lia.
    - left. exists (base + 2 * m)%Z. split; [exact E|]. destruct (Hk m Hm) as [_ E1].
      replace (base + 2 * m - base)%Z with (m * 2)%Z by lia. rewrite Z.shiftr_div_pow2 by lia. change (2 ^ 1)%Z with 2%Z.
      rewrite Z.div_mul by lia. apply (find_interval_at l' (Z.to_nat m) (lo_ m) (hi_ m)); [exact Ha'|exact E1|exact Em].
    - right. split; [exact E|]. apply find_interval_none. intros i lo hi t E1 Hc.
      assert (Hi : i < N.to_nat rlen) by (rewrite <- Hl'; apply nth_error_Some; congruence).
      destruct (Hk (Z.of_nat i)) as [_ E2]; [lia|]. rewrite Nat2Z.id in E2. rewrite E1 in E2. injection E2 as -> -> _.
      apply (Hno (Z.of_nat i)); [lia|exact Hc]. }
  destruct HR as [[m [-> ->]]|[-> ->]]; reflexivity.
Qed.

(** ** Rows of byte sets *)

(** What follows the search in [machine_step]. *)
Definition trans_entry (trans : N) : outcome (N * list N) :=
  let! t := aget a_indicies trans in
  let! cs' := aget a_trans_targs t in
  let! a := aget a_trans_actions t in
  if (a =? 0)%N then Ok (cs', [])
  else let! acts := action_list a in Ok (cs', acts).

Lemma machine_step_entry cs c :
  machine_step cs c = (let! trans := find_trans cs (char_to_int c) in trans_entry trans).
Proof. reflexivity. Qed.

Record entry := mk_entry { e_mask : N; e_to : N; e_acts : list N }.

(** The entries of disjoint byte sets, [seen] being the bytes of earlier ones. *)
Fixpoint carve (seen : N) (l : list (Z * Z * N)) (d : N) : outcome (list entry) :=
  match l with
  | [] =>
      let! x := trans_entry d in
      Ok [mk_entry (N.ldiff all_bytes seen) (fst x) (snd x)]
  | (lo, hi, t) :: l' =>
      let m := byte_range (Z.to_N lo) (Z.to_N hi) in
      let! x := trans_entry t in
      let! rest := carve (N.lor seen m) l' d in
      Ok (mk_entry (N.ldiff m seen) (fst x) (snd x) :: rest)
  end.

Definition small_keys (l : list (Z * Z * N)) : bool :=
  forallb (fun x => let '(lo, hi, _) := x in (0 <=? lo)%Z && (lo <=? hi)%Z && (hi <=? 127)%Z) l.

Definition row_of (cs : N) : outcome (list entry) :=
  let! iv := intervals_of cs in
  let l := iv_singles iv ++ iv_ranges iv in
  if ascending (iv_singles iv) && ascending (iv_ranges iv) && small_keys l
  then carve 0 l (iv_default iv)
  else UB OutOfBounds.

Definition row (cs : N) : list entry := match row_of cs with Ok r => r | _ => [] end.

Lemma char_to_int_code c : (0 <= char_to_int c)%Z -> char_to_int c = Z.of_N (N_of_ascii c).
Proof. unfold char_to_int. pose proof (byte_bound c). destruct (Z.ltb_spec (Z.of_N (N_of_ascii c)) 128); lia. Qed.
Lemma char_to_int_high c : (char_to_int c < 0)%Z -> (128 <= N_of_ascii c)%N.
Proof. unfold char_to_int. destruct (Z.ltb_spec (Z.of_N (N_of_ascii c)) 128); lia. Qed.

Lemma in_interval lo hi c : (0 <= lo)%Z -> (lo <= hi)%Z -> (hi <= 127)%Z ->
  has (byte_range (Z.to_N lo) (Z.to_N hi)) c = ((lo <=? char_to_int c) && (char_to_int c <=? hi))%Z.
Proof.
  intros Hlo Hle Hhi. rewrite has_range. destruct (Z_lt_le_dec (char_to_int c) 0) as [H|H].
  - pose proof (char_to_int_high c H). apply eq_true_iff_eq. rewrite !andb_true_iff, !N.leb_le, !Z.leb_le. lia.
  - pose proof (char_to_int_code c H) as E. pose proof (byte_bound c). apply eq_true_iff_eq.
    rewrite !andb_true_iff, !N.leb_le, !Z.leb_le, E. lia.
Qed.

Global Opaque all_bytes.

Lemma carve_find c : forall l seen d r, small_keys l = true -> has seen c = false -> carve seen l d = Ok r ->
  exists e, In e r /\ has (e_mask e) c = true /\
    trans_entry (match find_interval (char_to_int c) l with Some t => t | None => d end) = Ok (e_to e, e_acts e).
Proof.
  induction l as [|[[lo hi] t] l IH]; intros seen d r Hs Hn H; cbn [carve find_interval] in *.
  - apply obind_ok in H as [[x y] [E H]]. apply ok_inj in H. subst r. eexists. split; [now left|]. cbn.
    split; [|exact E]. now rewrite has_ldiff, has_all, Hn.
  - cbn in Hs. apply andb_true_iff in Hs as [Hb Hs]. apply andb_true_iff in Hb as [Hlo Hhi].
    apply andb_true_iff in Hlo as [Hlo Hle]. apply Z.leb_le in Hlo, Hle, Hhi. apply obind_ok in H as [[x y] [E H]]. apply obind_ok in H as [rest [Er H]]. apply ok_inj in H. subst r.
    rewrite <- (in_interval lo hi c Hlo Hle Hhi). destruct (has (byte_range _ _) c) eqn:Hc.
    + eexists. split; [now left|]. cbn. split; [|exact E]. now rewrite has_ldiff, Hc, Hn.
    + assert (Hn' : has (N.lor seen (byte_range (Z.to_N lo) (Z.to_N hi))) c = false) by now rewrite has_lor, Hn, Hc.
      destruct (IH _ _ _ Hs Hn' Er) as [e [He [H1 H2]]].
      exists e. split; [now right|auto].
Qed.

(** A byte is in one entry only. *)
Fixpoint disjoint_from (seen : N) (r : list entry) : Prop :=
  match r with
  | [] => True
  | e :: r' => (forall c, has (e_mask e) c = true -> has seen c = false) /\ disjoint_from (N.lor seen (e_mask e)) r'
  end.

Lemma disjoint_weaken r : forall seen seen', (forall c, has seen' c = true -> has seen c = true) -> disjoint_from seen r -> disjoint_from seen' r.
Proof.
  induction r as [|e r IH]; intros seen seen' H; [auto|]. intros [H1 H2]. split.
  - intros c Hc. destruct (has seen' c) eqn:E; [|reflexivity]. apply H in E. now rewrite H1 in E.
  - apply (IH (N.lor seen (e_mask e))); [|exact H2]. intros c. rewrite !has_lor, !orb_true_iff. intuition.
Qed.

Lemma carve_disjoint : forall l seen d r, carve seen l d = Ok r -> disjoint_from seen r.
Proof.
  induction l as [|[[lo hi] t] l IH]; intros seen d r H; cbn [carve] in H.
  - apply obind_ok in H as [x [E H]]. apply ok_inj in H. subst r. cbn. split; [|exact I]. intros c. rewrite has_ldiff.
    intros Hc. apply andb_true_iff in Hc as [_ Hc]. now apply negb_true_iff.
  - apply obind_ok in H as [x [E H]]. apply obind_ok in H as [rest [Er H]]. apply ok_inj in H. subst r. split.
    + intros c. cbn. rewrite has_ldiff. intros Hc. apply andb_true_iff in Hc as [_ Hc]. now apply negb_true_iff.
    + cbn [e_mask]. refine (disjoint_weaken _ _ _ _ (IH _ _ _ Er)). intros c. rewrite !has_lor, has_ldiff.
      rewrite !orb_true_iff, andb_true_iff. intuition.
Qed.

Lemma disjoint_in e c : forall r seen, disjoint_from seen r -> In e r -> has (e_mask e) c = true -> has seen c = false.
Proof.
  induction r as [|x r IH]; intros seen Hd Hin Hc; [destruct Hin|]. destruct Hd as [H1 H2]. destruct Hin as [->|Hin]; [now apply H1|].
  specialize (IH _ H2 Hin Hc). rewrite has_lor in IH. now apply orb_false_iff in IH.
Qed.

Lemma disjoint_unique c e e' : forall r seen, disjoint_from seen r -> In e r -> In e' r ->
  has (e_mask e) c = true -> has (e_mask e') c = true -> e = e'.
Proof.
  induction r as [|x r IH]; intros seen Hd Hi Hi' Hc Hc'; [destruct Hi|]. destruct Hd as [H1 H2].
  destruct Hi as [->|Hi], Hi' as [->|Hi'].
  - reflexivity.
  - pose proof (disjoint_in _ _ _ _ H2 Hi' Hc') as H. rewrite has_lor, Hc, orb_true_r in H. discriminate.
  - pose proof (disjoint_in _ _ _ _ H2 Hi Hc) as H. rewrite has_lor, Hc', orb_true_r in H. discriminate.
  - now apply (IH _ H2).
Qed.

Lemma find_interval_app c l l' : find_interval c (l ++ l') =
  match find_interval c l with Some t => Some t | None => find_interval c l' end.
Proof. induction l as [|[[lo hi] t] l IH]; [reflexivity|]. cbn. destruct (_ && _); [reflexivity|exact IH]. Qed.

Lemma row_of_step cs r c : row_of cs = Ok r ->
  exists e, In e r /\ has (e_mask e) c = true /\ machine_step cs c = Ok (e_to e, e_acts e).
Proof.
  unfold row_of. intros H. apply obind_ok in H as [iv [Ei H]]. destruct (_ && _) eqn:Hc in H; [|discriminate].
  apply andb_true_iff in Hc as [Hc Hs]. apply andb_true_iff in Hc as [Ha Ha'].
  destruct (carve_find c _ _ _ _ Hs (has_0 c) H) as [e [He [Hm Ht]]]. exists e. split; [exact He|]. split; [exact Hm|].
  rewrite machine_step_entry, (find_trans_intervals _ _ _ Ei Ha Ha'). cbn [obind].
  rewrite find_interval_app in Ht. rewrite <- Ht. now destruct (find_interval _ (iv_singles iv)).
Qed.

Lemma row_of_unique cs r c e e' : row_of cs = Ok r -> In e r -> In e' r ->
  has (e_mask e) c = true -> has (e_mask e') c = true -> e = e'.
Proof.
  unfold row_of. intros H. apply obind_ok in H as [iv [Ei H]]. destruct (_ && _) in H; [|discriminate].
  apply (disjoint_unique c e e' r 0), (carve_disjoint _ _ _ _ H).
Qed.

(** ** All states *)

Fixpoint below (n : nat) : list N :=
  match n with O => [] | S n' => N.of_nat n' :: below n' end.

Lemma below_spec n i : (i < N.of_nat n)%N -> In i (below n).
Proof.
  induction n as [|n IH]; intros H; [lia|]. cbn [below].
  destruct (N.eq_dec i (N.of_nat n)) as [->|Hne]; [now left|right]. apply IH. lia.
Qed.

Definition state_count : nat := 820.

Definition state_ok (cs : N) : bool :=
  match row_of cs, machine_eof cs with
  | Ok r, Ok _ => forallb (fun e => (e_to e <? N.of_nat state_count)%N) r
  | _, _ => false
  end.

Lemma states_ok : forallb state_ok (below state_count) = true.
Proof. vm_compute. reflexivity. Qed.

Lemma state_is_ok cs : (cs < N.of_nat state_count)%N -> state_ok cs = true.
Proof. intros H. apply (proj1 (forallb_forall _ _) states_ok). now apply below_spec. Qed.

Lemma row_is cs : (cs < N.of_nat state_count)%N -> row_of cs = Ok (row cs).
Proof. intros H. apply state_is_ok in H. unfold state_ok, row in *. now destruct (row_of cs). Qed.

Lemma row_step cs c : (cs < N.of_nat state_count)%N ->
  exists e, In e (row cs) /\ has (e_mask e) c = true /\ (e_to e < N.of_nat state_count)%N /\
    machine_step cs c = Ok (e_to e, e_acts e).
Proof.
  intros H. destruct (row_of_step cs (row cs) c (row_is cs H)) as [e [H1 [H2 H3]]]. exists e. repeat split; auto.
  pose proof (state_is_ok cs H) as Ho. unfold state_ok in Ho. rewrite (row_is cs H) in Ho.
  destruct (machine_eof cs); try discriminate. apply (proj1 (forallb_forall _ _) Ho) in H1. now apply N.ltb_lt in H1.
Qed.

Lemma row_unique cs c e e' : (cs < N.of_nat state_count)%N -> In e (row cs) -> In e' (row cs) ->
  has (e_mask e) c = true -> has (e_mask e') c = true -> e = e'.
Proof. intros H. apply (row_of_unique cs (row cs)), (row_is cs H). Qed.

Lemma eof_is_ok cs : (cs < N.of_nat state_count)%N -> exists l, machine_eof cs = Ok l.
Proof. intros H. apply state_is_ok in H. unfold state_ok in H. destruct (row_of cs), (machine_eof cs); try discriminate. eauto. Qed.
