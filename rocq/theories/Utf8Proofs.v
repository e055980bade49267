(** The decoder accepts exactly UTF-8. *)

From Coq Require Import Ascii String NArith ZArith Bool List Lia.
From Verif Require Import Base Match RuleMatching ExtractSpec Convert ConvertSpec PyRefs JsonText JsonSpec JsonUnique JsonProofs.
Import ListNotations.
Ltac Zify.zify_post_hook ::= Z.div_mod_to_equations.

Lemma between_iff a n b : between a n b = true <-> (a <= n <= b)%N.
Proof. unfold between. rewrite andb_true_iff, N.leb_le, N.leb_le. tauto. Qed.
Lemma between_in a n b : (a <= n <= b)%N -> between a n b = true.
Proof. apply between_iff. Qed.
Lemma between_out a n b : ~ (a <= n <= b)%N -> between a n b = false.
Proof. intros H. destruct (between a n b) eqn:E; [|reflexivity]. now apply between_iff in E. Qed.

Lemma of_small k : (k < 256)%N -> N_of_ascii (ascii_of_N k) = k.
Proof. apply N_ascii_embedding. Qed.

Lemma bytes_accepted n y : scalar n -> utf8 (bytes_of n ++ y) = utf8 y.
Proof.
  unfold scalar, bytes_of. intros H. destruct (N.ltb_spec n 128) as [H1|H1]; [|destruct (N.ltb_spec n 2048) as [H2|H2]; [|destruct (N.ltb_spec n 65536) as [H3|H3]]]; rewrite ?N.mod_eq by discriminate; cbn [map app].
  - apply utf8_low. unfold low. rewrite of_small; lia.
  - rewrite utf8_high by (unfold low; rewrite of_small; lia). rewrite of_small by lia. rewrite between_in by lia.
    unfold tail_byte. rewrite of_small by lia. rewrite between_in by lia. reflexivity.
  - rewrite utf8_high by (unfold low; rewrite of_small; lia). rewrite !of_small by lia. rewrite (between_out 194) by lia. rewrite (between_in 224) by lia.
    unfold tail_byte. rewrite !of_small by lia.
    destruct (N.eqb_spec (224 + n / 4096) 224); [|destruct (N.eqb_spec (224 + n / 4096) 237)]; rewrite !between_in by lia; reflexivity.
  - rewrite utf8_high by (unfold low; rewrite of_small; lia). rewrite !of_small by lia. rewrite (between_out 194) by lia. rewrite (between_out 224) by lia. rewrite (between_in 240) by lia.
    unfold tail_byte. rewrite !of_small by lia.
    destruct (N.eqb_spec (240 + n / 262144) 240); [|destruct (N.eqb_spec (240 + n / 262144) 244)]; rewrite !between_in by lia; reflexivity.
Qed.

Lemma point_low c : low c -> scalar (N_of_ascii c) /\ bytes_of (N_of_ascii c) = [c].
Proof.
  unfold low. intros H. split; [left; lia|]. unfold bytes_of. destruct (N.ltb_spec (N_of_ascii c) 128); [|lia]. cbn [map]. now rewrite ascii_N_embedding.
Qed.

Lemma ascii_is c k : k = N_of_ascii c -> ascii_of_N k = c.
Proof. intros ->. apply ascii_N_embedding. Qed.

Lemma point_two c c1 : between 194 (N_of_ascii c) 223 = true -> tail_byte c1 = true -> exists n, scalar n /\ bytes_of n = [c; c1].
Proof.
  unfold tail_byte. rewrite !between_iff. intros H H1. exists ((N_of_ascii c - 192) * 64 + (N_of_ascii c1 - 128))%N. split; [unfold scalar; lia|].
  unfold bytes_of. destruct (N.ltb_spec ((N_of_ascii c - 192) * 64 + (N_of_ascii c1 - 128)) 128); [lia|].
  destruct (N.ltb_spec ((N_of_ascii c - 192) * 64 + (N_of_ascii c1 - 128)) 2048); [|lia]. rewrite ?N.mod_eq by discriminate. cbn [map]. f_equal; [|f_equal]; apply ascii_is; lia.
Qed.

Lemma point_three c c1 c2 : between 224 (N_of_ascii c) 239 = true ->
  (if (N_of_ascii c =? 224)%N then between 160 (N_of_ascii c1) 191
   else if (N_of_ascii c =? 237)%N then between 128 (N_of_ascii c1) 159 else tail_byte c1) = true -> tail_byte c2 = true ->
  exists n, scalar n /\ bytes_of n = [c; c1; c2].
Proof.
  unfold tail_byte. rewrite !between_iff. intros H H1 H2.
  assert (H1' : (128 <= N_of_ascii c1 <= 191 /\ (N_of_ascii c = 224 -> 160 <= N_of_ascii c1) /\ (N_of_ascii c = 237 -> N_of_ascii c1 <= 159))%N).
  { destruct (N.eqb_spec (N_of_ascii c) 224); [|destruct (N.eqb_spec (N_of_ascii c) 237)]; apply between_iff in H1; lia. }
  clear H1. set (k := N_of_ascii c) in *. set (k1 := N_of_ascii c1) in *. set (k2 := N_of_ascii c2) in *.
  exists (((k - 224) * 64 + (k1 - 128)) * 64 + (k2 - 128))%N. set (n := (((k - 224) * 64 + (k1 - 128)) * 64 + (k2 - 128))%N).
  assert (HN : (n = k * 4096 + k1 * 64 + k2 - 925824)%N) by (unfold n; lia).
  split; [unfold scalar; lia|]. unfold bytes_of. destruct (N.ltb_spec n 128); [lia|]. destruct (N.ltb_spec n 2048); [lia|]. destruct (N.ltb_spec n 65536); [|lia].
  rewrite ?N.mod_eq by discriminate. cbn [map]. f_equal; [|f_equal; [|f_equal]]; apply ascii_is; unfold k, k1, k2 in *; clearbody n; lia.
Qed.

Lemma point_four c c1 c2 c3 : between 240 (N_of_ascii c) 244 = true ->
  (if (N_of_ascii c =? 240)%N then between 144 (N_of_ascii c1) 191
   else if (N_of_ascii c =? 244)%N then between 128 (N_of_ascii c1) 143 else tail_byte c1) = true -> tail_byte c2 = true -> tail_byte c3 = true ->
  exists n, scalar n /\ bytes_of n = [c; c1; c2; c3].
Proof.
  unfold tail_byte. rewrite !between_iff. intros H H1 H2 H3.
  assert (H1' : (128 <= N_of_ascii c1 <= 191 /\ (N_of_ascii c = 240 -> 144 <= N_of_ascii c1) /\ (N_of_ascii c = 244 -> N_of_ascii c1 <= 143))%N).
  { destruct (N.eqb_spec (N_of_ascii c) 240); [|destruct (N.eqb_spec (N_of_ascii c) 244)]; apply between_iff in H1; lia. }
  clear H1. set (k := N_of_ascii c) in *. set (k1 := N_of_ascii c1) in *. set (k2 := N_of_ascii c2) in *. set (k3 := N_of_ascii c3) in *.
  exists ((((k - 240) * 64 + (k1 - 128)) * 64 + (k2 - 128)) * 64 + (k3 - 128))%N. set (n := ((((k - 240) * 64 + (k1 - 128)) * 64 + (k2 - 128)) * 64 + (k3 - 128))%N).
  assert (HN : (n + 62914560 + 524288 + 8192 + 128 = k * 262144 + k1 * 4096 + k2 * 64 + k3)%N) by (unfold n; lia).
  split; [unfold scalar; lia|]. unfold bytes_of. destruct (N.ltb_spec n 128); [lia|]. destruct (N.ltb_spec n 2048); [lia|]. destruct (N.ltb_spec n 65536); [lia|].
  rewrite ?N.mod_eq by discriminate. cbn [map]. f_equal; [|f_equal; [|f_equal; [|f_equal]]]; apply ascii_is; fold k k1 k2 k3; clearbody n; lia.
Qed.

Theorem utf8_iff x : utf8 x = true <-> is_utf8 x.
Proof.
  split.
  - remember (length x) as len eqn:HL. assert (HLe : length x <= len) by lia. clear HL. revert x HLe.
    assert (HC : forall n t y, scalar n -> bytes_of n = t -> is_utf8 y -> is_utf8 (t ++ y)).
    { intros n t y Hn <- [ps [HP ->]]. exists (n :: ps). split; [now constructor|reflexivity]. }
    induction len as [|len IH]; intros x Hx HU; (destruct x as [|c x]; [exists []; split; [constructor|reflexivity]|]); cbn [length] in Hx; [lia|].
    destruct (low_dec c) as [Hc|Hc].
    { rewrite utf8_low in HU by exact Hc. destruct (point_low c Hc) as [H1 H2]. apply (HC (N_of_ascii c) [c] x H1 H2). apply IH; [lia|exact HU]. }
    rewrite utf8_high in HU by exact Hc. destruct x as [|c1 x]; [discriminate|]. cbn [length] in Hx.
    destruct (between 194 (N_of_ascii c) 223) eqn:E2.
    { apply andb_prop in HU as [H1 H2]. destruct (point_two c c1 E2 H1) as [n [Hn Eb]]. apply (HC n [c; c1] x Hn Eb). apply IH; [lia|exact H2]. }
    destruct x as [|c2 x]; [discriminate|]. cbn [length] in Hx. destruct (between 224 (N_of_ascii c) 239) eqn:E3.
    { apply andb_prop in HU as [HU H3]. apply andb_prop in HU as [H1 H2]. destruct (point_three c c1 c2 E3 H1 H2) as [n [Hn Eb]].
      apply (HC n [c; c1; c2] x Hn Eb). apply IH; [lia|exact H3]. }
    destruct x as [|c3 x]; [discriminate|]. cbn [length] in Hx.
    apply andb_prop in HU as [HU H4]. apply andb_prop in HU as [HU H3]. apply andb_prop in HU as [HU H2]. apply andb_prop in HU as [E4 H1].
    destruct (point_four c c1 c2 c3 E4 H1 H2 H3) as [n [Hn Eb]]. apply (HC n [c; c1; c2; c3] x Hn Eb). apply IH; [lia|exact H4].
  - intros [ps [HP ->]]. induction HP as [|n ps Hn HP IH]; [reflexivity|]. cbn [flat_map]. now rewrite bytes_accepted.
Qed.
