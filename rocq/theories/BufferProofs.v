(** Proofs of PropBuffers.v. *)

From Coq Require Import Ascii String NArith ZArith Bool List Lia Permutation.
From Verif Require Import Base PermTac Buffers BufferSpec.
Import ListNotations.
Open Scope outcome_scope.

(** ** Memory *)

Lemma nth_overwrite m i j b : nth_error (overwrite i b m) j =
  if Nat.eqb i j then match nth_error m i with Some _ => Some b | None => None end else nth_error m j.
Proof.
  revert i j. induction m as [|c m IH]; intros [|i] [|j]; cbn; try reflexivity.
  - now destruct (Nat.eqb i j).
  - apply IH.
Qed.

Lemma nth_other (m : memory) i j b : i <> j -> nth_error (overwrite i b m) j = nth_error m j.
Proof. intros H. rewrite nth_overwrite. now destruct (Nat.eqb_spec i j). Qed.

Lemma nth_same (m : memory) i b c : nth_error m i = Some c -> nth_error (overwrite i b m) i = Some b.
Proof. intros H. now rewrite nth_overwrite, Nat.eqb_refl, H. Qed.

Lemma nth_before (m : memory) b i c : nth_error m i = Some c -> nth_error (m ++ [b]) i = Some c.
Proof. intros H. rewrite nth_error_app1; [exact H|]. apply nth_error_Some. congruence. Qed.

Lemma nth_new {A} (m : list A) b : nth_error (m ++ [b]) (length m) = Some b.
Proof. rewrite nth_error_app2 by lia. now rewrite Nat.sub_diag. Qed.

(** The blocks that are not released are exactly those of [l]. *)
Definition owns (m : memory) (l : list nat) : Prop :=
  NoDup l /\ forall i, In i l <-> exists b, nth_error m i = Some b /\ b <> Freed.

Lemma owns_nil : owns [] [].
Proof. split; [constructor|]. intros i. split; [intros []|]. intros [b [H _]]. now destruct i. Qed.

Lemma owns_perm m l l' : Permutation l l' -> owns m l -> owns m l'.
Proof.
  intros HP [H1 H2]. split; [eapply Permutation_NoDup; eauto|]. intros i. rewrite <- H2.
  split; apply Permutation_in; [now symmetry|assumption].
Qed.

Lemma owns_alloc m l b : owns m l -> b <> Freed -> owns (m ++ [b]) (length m :: l).
Proof.
  intros [H1 H2] Hb. split.
  - constructor; [|exact H1]. intros H. apply H2 in H as [c [H _]].
    assert (length m < length m) by (apply nth_error_Some; congruence). lia.
  - intros i. split.
    + intros [<-|H]; [exists b; split; [apply nth_new|exact Hb]|].
      apply H2 in H as [c [H Hc]]. exists c. split; [now apply nth_before|exact Hc].
    + intros [c [H Hc]]. destruct (Nat.lt_trichotomy i (length m)) as [Hl|[->|Hl]]; [|now left|].
      * right. apply H2. exists c. rewrite nth_error_app1 in H by exact Hl. auto.
      * exfalso. assert (i < length (m ++ [b])) by (apply nth_error_Some; congruence). rewrite app_length in *. simpl in *. lia.
Qed.

Lemma owns_live m l i : owns m l -> In i l -> exists b, nth_error m i = Some b /\ b <> Freed.
Proof. intros [_ H] Hi. now apply H. Qed.

Lemma owns_over m l i b : owns m l -> In i l -> b <> Freed -> owns (overwrite i b m) l.
Proof.
  intros [H1 H2] Hi Hb. split; [exact H1|]. intros j. rewrite H2, nth_overwrite.
  apply H2 in Hi as [c [Hc1 Hc2]]. destruct (Nat.eqb_spec i j) as [<-|]; [|reflexivity]. rewrite Hc1. split; eauto.
Qed.

Lemma owns_release m l i : owns m (i :: l) -> release i m = Ok (overwrite i Freed m) /\ owns (overwrite i Freed m) l.
Proof.
  intros [H1 H2]. destruct (proj1 (H2 i) (or_introl eq_refl)) as [c [Hc1 Hc2]].
  split; [unfold release; rewrite Hc1; now destruct c|].
  apply NoDup_cons_iff in H1 as [Hn H1]. split; [exact H1|]. intros j. rewrite nth_overwrite.
  destruct (Nat.eqb_spec i j) as [<-|Hij].
  - rewrite Hc1. split; [tauto|]. intros [b [[= <-] H]]. congruence.
  - rewrite <- H2. split; [now right|]. intros [H|H]; [congruence|exact H].
Qed.

Definition opt_list (o : option nat) : list nat := match o with Some i => [i] | None => [] end.

(** What is released and what stays as it is. *)
Definition frame (m m' : memory) (l : list nat) : Prop := forall i, In i l -> nth_error m' i = nth_error m i.

Lemma frame_refl m l : frame m m l. Proof. now intros i. Qed.
Lemma frame_trans m1 m2 m3 l : frame m1 m2 l -> frame m2 m3 l -> frame m1 m3 l.
Proof. intros H1 H2 i Hi. rewrite H2, H1; auto. Qed.
Lemma frame_sub m m' l l' : frame m m' l -> incl l' l -> frame m m' l'.
Proof. intros H Hi i Hin. apply H. now apply Hi. Qed.
Lemma frame_alloc m b l : owns m l -> frame m (m ++ [b]) l.
Proof. intros Ho i Hi. destruct (owns_live _ _ _ Ho Hi) as [c [H _]]. rewrite H. now apply nth_before. Qed.
Lemma frame_over m i b l : ~ In i l -> frame m (overwrite i b m) l.
Proof. intros H j Hj. apply nth_other. intros ->. tauto. Qed.

Lemma release_all_ok l : forall m rest, owns m (l ++ rest) ->
  exists m', release_all l m = Ok m' /\ owns m' rest /\ frame m m' rest.
Proof.
  induction l as [|i l IH]; intros m rest H; cbn.
  - exists m. split; [reflexivity|]. split; [exact H|apply frame_refl].
  - cbn in H. assert (Hn : ~ In i rest).
    { destruct H as [H _]. apply NoDup_cons_iff in H as [H _]. intros Hi. apply H, in_or_app. now right. }
    destruct (owns_release m _ i H) as [-> Ho]. cbn [obind].
    destruct (IH _ _ Ho) as [m' [-> [Ho' Hf]]]. exists m'. split; [reflexivity|]. split; [exact Ho'|].
    eapply frame_trans; [apply frame_over, Hn|exact Hf].
Qed.

Lemma release_if_all o m : release_if o m = release_all (opt_list o) m.
Proof. destruct o as [i|]; cbn; [|reflexivity]. now destruct (release i m). Qed.

Definition long (r : string_rep) : list nat := match r with Short _ => [] | Long b => [b] end.

Lemma destroy_string_all r m : destroy_string r m = release_all (long r) m.
Proof. destruct r as [x|b]; cbn; [reflexivity|]. now destruct (release b m). Qed.

Lemma release_all_app l1 l2 m : release_all (l1 ++ l2) m = obind (release_all l1 m) (release_all l2).
Proof.
  revert m. induction l1 as [|i l1 IH]; intros m; cbn; [reflexivity|]. destruct (release i m); cbn; try reflexivity. apply IH.
Qed.

Lemma destroy_strings_all l m : destroy_strings l m = release_all (flat_map long l) m.
Proof.
  revert m. induction l as [|r l IH]; intros m; cbn [destroy_strings flat_map]; [reflexivity|].
  rewrite release_all_app, destroy_string_all. destruct (release_all (long r) m); cbn; try reflexivity. apply IH.
Qed.

Lemma all_released_ok m : owns m [] -> all_released m.
Proof.
  intros [_ H]. apply Forall_forall. intros b Hb. apply In_nth_error in Hb as [i Hi].
  destruct b; try reflexivity; exfalso; apply (H i); eexists; split; [exact Hi|discriminate|exact Hi|discriminate|exact Hi|discriminate|exact Hi|discriminate].
Qed.

(** ** Strings *)

(** The object holds the text. *)
Definition holds (r : string_rep) (x : str) (m : memory) : Prop :=
  match r with Short y => y = x | Long b => nth_error m b = Some (Chars x) end.

Lemma holds_frame r x m m' : holds r x m -> frame m m' (long r) -> holds r x m'.
Proof. destruct r as [y|b]; cbn; [auto|]. intros H Hf. rewrite (Hf b (or_introl eq_refl)). exact H. Qed.

Lemma make_string_ok x m l : owns m l ->
  exists r m', make_string x m = (r, m') /\ owns m' (long r ++ l) /\ frame m m' l /\ holds r x m'.
Proof.
  intros Ho. unfold make_string. destruct (Nat.leb (length x) 15).
  - exists (Short x), m. split; [reflexivity|]. split; [exact Ho|]. split; [apply frame_refl|reflexivity].
  - exists (Long (length m)), (m ++ [Chars x]). split; [reflexivity|]. split; [now apply owns_alloc|].
    split; [now apply frame_alloc|apply nth_new].
Qed.

Lemma load_c_str r x m b xs k : holds r x m -> nth_error m b = Some (Bytes xs) -> nth_error xs k = Some (inside r) ->
  load (c_str_at r b k) m = Ok x.
Proof.
  intros Hh Hb Hk. unfold load. destruct r as [y|b']; cbn in *.
  - subst y. now rewrite Hb, Hk.
  - now rewrite Hh.
Qed.

Lemma text_of_ok r x m : holds r x m -> text_of r m = Ok x.
Proof. destruct r as [y|b]; cbn; [now intros ->|]. intros H. unfold load. cbn. now rewrite H. Qed.

(** ** Vectors *)

Lemma emplace_rule x (v : vec (str * nat)) m rest :
  (storage v = None -> room v = 0) ->
  owns m (opt_list (storage v) ++ rest) ->
  exists v' m', emplace_back rule_element x v m = Ok (v', m') /\ items v' = items v ++ [x] /\
    storage v' <> None /\
    owns m' (opt_list (storage v') ++ rest) /\ frame m m' rest.
Proof.
  intros Hg Ho. unfold emplace_back. destruct (Nat.ltb_spec (length (items v)) (room v)) as [Hl|Hl].
  - destruct (storage v) as [b|] eqn:Es; [|rewrite Hg in Hl by reflexivity; lia].
    do 2 eexists. split; [reflexivity|]. split; [reflexivity|]. split; [discriminate|]. cbn in *.
    assert (Hn : ~ In b rest) by (destruct Ho as [Ho _]; now apply NoDup_cons_iff in Ho).
    split; [apply owns_over; [exact Ho|now left|discriminate]|now apply frame_over].
  - cbn [allocate].
    assert (HM : forall l m0, move_all rule_element l m0 = Ok m0).
    { induction l as [|y l IH]; intros m0; cbn; [reflexivity|apply IH]. }
    rewrite HM. cbn [obind]. rewrite release_if_all.
    destruct (release_all_ok (opt_list (storage v)) (m ++ [Other]) (length m :: rest)) as [m' [E [Ho' Hf]]].
    { eapply owns_perm; [apply Permutation_middle|]. now apply (owns_alloc m _ Other) in Ho. }
    cbn [rule_element image] in *. rewrite E. cbn [obind]. do 2 eexists. split; [reflexivity|]. cbn.
    split; [reflexivity|]. split; [discriminate|]. split; [exact Ho'|].
    eapply frame_trans; [eapply frame_sub; [apply frame_alloc, Ho|intros i Hi; apply in_or_app; now right]|].
    intros i Hi. apply Hf. now right.
Qed.

(** There is room: the element is put behind the others. *)
Lemma emplace_room {A} (K : element A) x v m b : storage v = Some b -> length (items v) < room v ->
  emplace_back K x v m = Ok (mk_vec (Some b) (room v) (items v ++ [x]), overwrite b (image K (items v ++ [x])) m).
Proof. intros H1 H2. unfold emplace_back. destruct (Nat.ltb_spec (length (items v)) (room v)); [|lia]. now rewrite H1. Qed.

Lemma reserve_empty {A} (K : element A) n m l : owns m l -> (image K [] <> Freed) ->
  exists v m', reserve K n empty_vec m = Ok (v, m') /\ items v = [] /\ n <= room v /\
    (storage v = None -> room v = 0) /\
    (forall b, storage v = Some b -> nth_error m' b = Some (image K [])) /\
    owns m' (opt_list (storage v) ++ l) /\ frame m m' l.
Proof.
  intros Ho Hi. unfold reserve. cbn [room empty_vec]. destruct (Nat.leb_spec n 0) as [Hn|Hn].
  - exists empty_vec, m. split; [reflexivity|]. split; [reflexivity|]. split; [cbn; lia|]. split; [reflexivity|].
    split; [discriminate|]. split; [exact Ho|apply frame_refl].
  - cbn. do 2 eexists. split; [reflexivity|]. cbn. split; [reflexivity|]. split; [lia|]. split; [discriminate|].
    split; [intros b [= <-]; apply nth_new|]. split; [now apply owns_alloc|now apply frame_alloc].
Qed.

(** ** The rules of htmlext *)

Section Main.
Variable parses : str -> bool.
Variable extracts : str -> str -> str -> bool.

Definition rules_owned (v : vec (str * nat)) : list nat := opt_list (storage v) ++ map snd (items v).

Lemma owns_frame_rest m (l1 l2 : list nat) i : owns m (l1 ++ l2) -> In i l1 -> ~ In i l2.
Proof.
  intros [H _] H1 H2. induction l1 as [|j l1 IH]; [destruct H1|]. cbn in H. apply NoDup_cons_iff in H as [Hn H].
  destruct H1 as [->|H1]; [apply Hn, in_or_app; now right|auto].
Qed.

Lemma read_rules_ok sources : forall v m, (storage v = None -> room v = 0) -> owns m (rules_owned v) ->
  exists ok v' m', read_rules parses sources v m = Ok (ok, v', m') /\ owns m' (rules_owned v') /\
    if ok then exists rules, sources_are parses sources rules /\ map fst (items v') = map fst (items v) ++ rules
    else forall rules, ~ sources_are parses sources rules.
Proof.
  assert (Hadd : forall y v m m1 v' m2, (storage v = None -> room v = 0) -> m1 = m ++ [Other] ->
    forall rest, owns m (rules_owned v ++ rest) ->
    emplace_back rule_element (y, length m) v m1 = Ok (v', m2) ->
    items v' = items v ++ [(y, length m)] /\ storage v' <> None /\ owns m2 (rules_owned v' ++ rest) /\ frame m m2 rest).
  { intros y v m m1 v' m2 Hg -> rest Ho E.
    assert (Ho1 : owns (m ++ [Other]) (opt_list (storage v) ++ (map snd (items v) ++ [length m]) ++ rest)).
    { eapply owns_perm; [|apply (owns_alloc m _ Other Ho); discriminate]. unfold rules_owned.
      rewrite <- !app_assoc. rewrite !app_assoc. cbn [app]. 
      etransitivity; [apply (Permutation_middle (opt_list (storage v) ++ map snd (items v)) rest)|].
      rewrite <- !app_assoc. reflexivity. }
    destruct (emplace_rule (y, length m) v _ _ Hg Ho1) as [v1 [m3 [E1 [Hi [Hs [Ho2 Hf]]]]]].
    rewrite E1 in E. injection E as <- <-. split; [exact Hi|]. split; [exact Hs|]. split.
    - unfold rules_owned. rewrite Hi, map_app, <- app_assoc. exact Ho2.
    - intros i Hin. rewrite (Hf i); [|apply in_or_app; now right].
      apply (frame_alloc m Other _ Ho). apply in_or_app. now right. }
  induction sources as [|src sources IH]; intros v m Hg Ho; cbn [read_rules].
  { exists true, v, m. split; [reflexivity|]. split; [exact Ho|]. exists []. split; [constructor|now rewrite app_nil_r]. }
  assert (Hnone : forall rules, (forall x, (src = HextFile (Some x) \/ src = HextInput x) -> parses x = true -> False) ->
    ~ sources_are parses (src :: sources) rules).
  { intros rules H HF. inversion HF as [|? x ? ? [H1 H2] _]; subst. eauto. }
  assert (Hcons : forall y v1 m1 v2, (src = HextFile (Some y) \/ src = HextInput y) -> parses y = true ->
    (storage v1 = None -> room v1 = 0) -> owns m1 (rules_owned v1) -> items v1 = items v ++ [(y, v2)] ->
    exists ok v' m', read_rules parses sources v1 m1 = Ok (ok, v', m') /\ owns m' (rules_owned v') /\
    if ok then exists rules, sources_are parses (src :: sources) rules /\ map fst (items v') = map fst (items v) ++ rules
    else forall rules, ~ sources_are parses (src :: sources) rules).
  { intros y v1 m1 n Hsrc Hp Hg1 Ho1 Hi. destruct (IH v1 m1 Hg1 Ho1) as [ok [v' [m' [-> [Ho' H]]]]].
    exists ok, v', m'. split; [reflexivity|]. split; [exact Ho'|]. destruct ok.
    - destruct H as [rules [HF E]]. exists (y :: rules). split; [constructor; auto|].
      rewrite E, Hi, map_app, <- app_assoc. reflexivity.
    - intros rules HF. inversion HF as [|? x ? rs _ HF']; subst. now apply (H rs). }
  destruct src as [[x|]|x].
  - destruct (make_string_ok x m _ Ho) as [t [m1 [-> [Ho1 [Hf1 Hh]]]]]. cbn [obind].
    rewrite (text_of_ok t x m1 Hh). cbn [obind]. destruct (parses x) eqn:Hp.
    + cbn [allocate].
      assert (Ho1' : owns m1 (rules_owned v ++ long t)) by (eapply owns_perm; [apply Permutation_app_comm|exact Ho1]).
      destruct (emplace_back rule_element (x, length m1) v (m1 ++ [Other])) as [[v' m2]|e|u|] eqn:E.
      * destruct (Hadd x v m1 _ v' m2 Hg eq_refl _ Ho1' E) as [Hi [Hs [Ho2 Hf2]]]. cbn [obind].
        rewrite destroy_string_all.
        destruct (release_all_ok (long t) m2 (rules_owned v')) as [m3 [-> [Ho3 _]]].
        { eapply owns_perm; [apply Permutation_app_comm|exact Ho2]. }
        cbn [obind]. eapply (Hcons x v' m3); eauto. intros H. congruence.
      * exfalso. destruct (emplace_rule (x, length m1) v (m1 ++ [Other]) (length m1 :: map snd (items v) ++ long t) Hg) as [? [? [E1 _]]]; [|congruence].
        eapply owns_perm; [apply Permutation_middle|]. apply owns_alloc; [|discriminate].
        unfold rules_owned in Ho1'. now rewrite <- app_assoc in Ho1'.
      * exfalso. destruct (emplace_rule (x, length m1) v (m1 ++ [Other]) (length m1 :: map snd (items v) ++ long t) Hg) as [? [? [E1 _]]]; [|congruence].
        eapply owns_perm; [apply Permutation_middle|]. apply owns_alloc; [|discriminate].
        unfold rules_owned in Ho1'. now rewrite <- app_assoc in Ho1'.
      * exfalso. destruct (emplace_rule (x, length m1) v (m1 ++ [Other]) (length m1 :: map snd (items v) ++ long t) Hg) as [? [? [E1 _]]]; [|congruence].
        eapply owns_perm; [apply Permutation_middle|]. apply owns_alloc; [|discriminate].
        unfold rules_owned in Ho1'. now rewrite <- app_assoc in Ho1'.
    + rewrite destroy_string_all. destruct (release_all_ok _ _ _ Ho1) as [m2 [-> [Ho2 _]]]. cbn [obind].
      exists false, v, m2. split; [reflexivity|]. split; [exact Ho2|]. intros rules. apply Hnone.
      intros y [[= <-]|H] H'; [congruence|discriminate].
  - exists false, v, m. split; [reflexivity|]. split; [exact Ho|]. intros rules. apply Hnone. intros y [H|H] _; discriminate.
  - destruct (parses x) eqn:Hp.
    + cbn [allocate].
      assert (Ho1' : owns m (rules_owned v ++ [])) by now rewrite app_nil_r.
      destruct (emplace_rule (x, length m) v (m ++ [Other]) (length m :: map snd (items v)) Hg) as [v' [m2 [E _]]].
      { eapply owns_perm; [apply Permutation_middle|]. apply owns_alloc; [exact Ho|discriminate]. }
      rewrite E. cbn [obind]. destruct (Hadd x v m _ v' m2 Hg eq_refl _ Ho1' E) as [Hi [Hs [Ho2 _]]].
      rewrite app_nil_r in Ho2. eapply (Hcons x v' m2); eauto. intros H. congruence.
    + exists false, v, m. split; [reflexivity|]. split; [exact Ho|]. intros rules. apply Hnone.
      intros y [H|[= <-]] H'; [discriminate|congruence].
Qed.

(** ** The documents of htmlext *)

Definition base_of (v : vec string_rep) : nat := match storage v with Some b => b | None => 0 end.

Record documents (docs : list str) (c : vec string_rep) (h : vec nat) (m : memory) (rest : list nat) : Prop := mk_documents {
  d_owns : owns m ((items h ++ opt_list (storage h)) ++ (flat_map long (items c) ++ opt_list (storage c)) ++ rest);
  d_c : storage c = None -> room c = 0;
  d_h : storage h = None -> room h = 0;
  d_bytes : forall b, storage c = Some b -> nth_error m b = Some (Bytes (map inside (items c)));
  d_room : length (items c) <= room c;
  d_len : length (items c) = length docs;
  d_len' : length (items h) = length docs;
  d_all : forall k x, nth_error docs k = Some x -> exists r o, nth_error (items c) k = Some r /\ nth_error (items h) k = Some o /\
    holds r x m /\ nth_error m o = Some (Output (c_str_at r (base_of c) k) x)
}.

Lemma in_long l k r i : nth_error l k = Some r -> In i (long r) -> In i (flat_map long l).
Proof. intros H Hi. apply in_flat_map. exists r. split; [now apply nth_error_In in H|exact Hi]. Qed.

Lemma look_ok docs c h m rest k x o : documents docs c h m rest -> nth_error docs k = Some x -> nth_error (items h) k = Some o ->
  look o m = Ok (x, x).
Proof.
  intros HD Hk Ho. destruct (d_all _ _ _ _ _ HD k x Hk) as [r [o' [Hr [Ho' [Hh HO]]]]].
  assert (o' = o) by congruence. subst o'. unfold look. rewrite HO.
  destruct (storage c) as [b|] eqn:Es.
  - assert (HB := d_bytes _ _ _ _ _ HD b Es). unfold base_of. rewrite Es.
    rewrite (load_c_str r x m b _ k Hh HB); [reflexivity|]. now rewrite nth_error_map, Hr.
  - exfalso. pose proof (d_c _ _ _ _ _ HD Es) as H0. pose proof (d_room _ _ _ _ _ HD) as H1. pose proof (d_len _ _ _ _ _ HD) as H2.
    assert (k < length docs) by (apply nth_error_Some; congruence). lia.
Qed.

Lemma read_htmls_ok files : forall docs c h m rest, documents docs c h m rest ->
  length (items c) + length files <= room c -> length (items h) + length files <= room h ->
  exists ok c' h' m', read_htmls files c h m = Ok (ok, c', h', m') /\
    exists docs', documents docs' c' h' m' rest /\
      if ok then exists new, files = map Some new /\ docs' = docs ++ new else In None files.
Proof.
  induction files as [|[x|] files IH]; intros docs c h m rest HD Hc Hh; cbn [read_htmls].
  - exists true, c, h, m. split; [reflexivity|]. exists docs. split; [exact HD|]. exists []. split; [reflexivity|now rewrite app_nil_r].
  - pose proof HD as [Ho Hc0 Hh0 Hb Hr Hl Hl' Hall]. cbn [length] in Hc, Hh.
    destruct (make_string_ok x m _ Ho) as [t [m1 [-> [Ho1 [Hf1 Hx]]]]]. cbn [obind].
    destruct (storage c) as [bc|] eqn:Ec; [|specialize (Hc0 eq_refl); lia].
    destruct (storage h) as [bh|] eqn:Eh; [|specialize (Hh0 eq_refl); lia].
    rewrite (emplace_room string_element t c m1 bc Ec ltac:(lia)). cbn [obind].
    set (c' := mk_vec (Some bc) (room c) (items c ++ [t])).
    set (m2 := overwrite bc (image string_element (items c ++ [t])) m1).
    cbn [opt_list] in *.
    assert (Ho2 : owns m2 (long t ++ (items h ++ [bh]) ++ (flat_map long (items c) ++ [bc]) ++ rest)).
    { apply owns_over; [exact Ho1| |discriminate]. rewrite !in_app_iff. cbn. tauto. }
    assert (Hfresh : forall i, In i (long t) \/ In i (items h ++ [bh]) \/ In i (flat_map long (items c)) \/ In i rest -> i <> bc).
    { intros i Hi ->. destruct Ho2 as [ND _].
      assert (HP : Permutation (long t ++ (items h ++ [bh]) ++ (flat_map long (items c) ++ [bc]) ++ rest)
                     (bc :: long t ++ (items h ++ [bh]) ++ flat_map long (items c) ++ rest)).
      { perm. }
      apply (Permutation_NoDup HP) in ND. apply NoDup_cons_iff in ND as [ND _]. apply ND. rewrite !in_app_iff in *. tauto. }
    assert (Hback : back_c_str c' = Ok (c_str_at t bc (length (items c)))).
    { unfold back_c_str, c'. cbn [storage items]. rewrite rev_app_distr. cbn [rev app]. now rewrite rev_length. }
    rewrite Hback. cbn [obind].
    assert (Hx2 : holds t x m2).
    { eapply holds_frame; [exact Hx|]. intros i Hi. apply nth_other. intros <-. apply (Hfresh bc); auto. }
    destruct (owns_live m1 _ bc Ho1) as [bb [Hbb _]]; [rewrite !in_app_iff; cbn; tauto|].
    assert (HB2 : nth_error m2 bc = Some (Bytes (map inside (items c ++ [t])))) by (eapply nth_same; exact Hbb).
    unfold parse_html. rewrite (load_c_str t x m2 bc _ (length (items c)) Hx2 HB2).
    2:{ rewrite map_app, nth_error_app2, map_length, Nat.sub_diag by (rewrite map_length; lia). reflexivity. }
    cbn [obind allocate].
    set (o := length m2). set (m3 := m2 ++ [Output (c_str_at t bc (length (items c))) x]).
    assert (Ho3 : owns m3 (o :: long t ++ (items h ++ [bh]) ++ (flat_map long (items c) ++ [bc]) ++ rest)).
    { apply owns_alloc; [exact Ho2|discriminate]. }
    rewrite (emplace_room html_element o h m3 bh Eh ltac:(lia)). cbn [obind].
    set (h' := mk_vec (Some bh) (room h) (items h ++ [o])).
    set (m4 := overwrite bh (image html_element (items h ++ [o])) m3).
    assert (Ho4 : owns m4 (o :: long t ++ (items h ++ [bh]) ++ (flat_map long (items c) ++ [bc]) ++ rest)).
    { apply owns_over; [exact Ho3| |discriminate]. cbn. rewrite !in_app_iff. cbn. tauto. }
    assert (HP : Permutation (o :: long t ++ (items h ++ [bh]) ++ (flat_map long (items c) ++ [bc]) ++ rest)
        ((items h' ++ opt_list (storage h')) ++ (flat_map long (items c') ++ opt_list (storage c')) ++ rest)).
    { unfold h', c'. cbn [items storage opt_list]. rewrite flat_map_app. cbn [flat_map]. rewrite app_nil_r. rewrite <- !app_assoc. cbn [app].
      perm. }
    assert (Ho5 := owns_perm _ _ _ HP Ho4).
    assert (Hfh : forall i, In i (o :: long t) \/ In i (items h) \/ In i (flat_map long (items c) ++ [bc]) -> i <> bh).
    { intros i Hi ->. destruct Ho4 as [ND _].
      assert (HP' : Permutation (o :: long t ++ (items h ++ [bh]) ++ (flat_map long (items c) ++ [bc]) ++ rest)
          (bh :: (o :: long t) ++ items h ++ (flat_map long (items c) ++ [bc]) ++ rest)).
      { perm. }
      apply (Permutation_NoDup HP') in ND. apply NoDup_cons_iff in ND as [ND _]. apply ND. rewrite !in_app_iff in *. tauto. }
    assert (Hkeep : forall i, In i (long t) \/ In i (items h) \/ In i (flat_map long (items c)) -> nth_error m4 i = nth_error m2 i).
    { intros i Hi. unfold m4. rewrite nth_other.
      2:{ intros <-. apply (Hfh bh); [|reflexivity]. rewrite in_app_iff. cbn. tauto. }
      apply (frame_alloc m2 _ _ Ho2). rewrite !in_app_iff. tauto. }
    assert (Hkeep1 : forall i, In i (items h) \/ In i (flat_map long (items c)) -> nth_error m4 i = nth_error m i).
    { intros i Hi. rewrite Hkeep by tauto. unfold m2. rewrite nth_other.
      2:{ intros <-. apply (Hfresh bc); [|reflexivity]. rewrite in_app_iff. tauto. }
      apply Hf1. rewrite !in_app_iff. tauto. }
    assert (HB4 : nth_error m4 bc = Some (Bytes (map inside (items c ++ [t])))).
    { unfold m4. rewrite nth_other. 2:{ intros <-. apply (Hfh bh); [|reflexivity]. rewrite in_app_iff. cbn. tauto. }
      unfold m3. now apply nth_before. }
    destruct (IH (docs ++ [x]) c' h' m4 rest) as [ok [c'' [h'' [m'' [E [docs' [HD' H]]]]]]].
    { constructor.
      - exact Ho5.
      - discriminate.
      - discriminate.
      - intros b [= <-]. exact HB4.
      - unfold c'. cbn [items room]. rewrite app_length. cbn. lia.
      - unfold c'. cbn [items]. rewrite !app_length. cbn. lia.
      - unfold h'. cbn [items]. rewrite !app_length. cbn. lia.
      - intros k y Hk. unfold c', h', base_of. cbn [items storage].
        destruct (Nat.lt_ge_cases k (length docs)) as [Hlt|Hge].
        + rewrite nth_error_app1 in Hk by exact Hlt. destruct (Hall k y Hk) as [r [o' [H1 [H2 [H3 H4]]]]].
          exists r, o'. split; [rewrite nth_error_app1 by lia; exact H1|]. split; [rewrite nth_error_app1 by lia; exact H2|].
          split.
          * eapply holds_frame; [exact H3|]. intros i Hi. apply Hkeep1. right. eapply in_long; eauto.
          * rewrite Hkeep1 by (left; eapply nth_error_In; exact H2). unfold base_of in H4. rewrite Ec in H4. exact H4.
        + rewrite nth_error_app2 in Hk by exact Hge.
          assert (k = length docs). { destruct (k - length docs) as [|[|?]] eqn:Ek; [lia|discriminate Hk|discriminate Hk]. }
          subst k. rewrite Nat.sub_diag in Hk. injection Hk as <-. exists t, o.
          split; [rewrite <- Hl; apply nth_new|]. split; [rewrite <- Hl'; apply nth_new|].
          split.
          * eapply holds_frame; [exact Hx2|]. intros i Hi. apply Hkeep. now left.
          * unfold m4. rewrite nth_other. 2:{ intros <-. apply (Hfh bh); [|reflexivity]. left. now left. }
            rewrite <- Hl. apply nth_new. }
    { unfold c'. cbn [items room]. rewrite app_length. cbn. lia. }
    { unfold h'. cbn [items room]. rewrite app_length. cbn. lia. }
    exists ok, c'', h'', m''. split; [exact E|]. exists docs'. split; [exact HD'|]. destruct ok.
    + destruct H as [new [-> ->]]. exists (x :: new). split; [reflexivity|]. now rewrite <- app_assoc.
    + now right.
  - exists false, c, h, m. split; [reflexivity|]. exists docs. split; [exact HD|]. now left.
Qed.

(** ** The searches of htmlext *)

Lemma search_htmls_ok rule docs os m : Forall2 (fun x o => look o m = Ok (x, x)) docs os ->
  exists done seen, search_htmls extracts rule os m = Ok (done, seen) /\
    visit extracts [rule] docs done seen.
Proof.
  assert (HV : forall ds : list str, list_prod [rule] ds = map (pair rule) ds) by (intros ds; cbn; now rewrite app_nil_r).
  induction 1 as [|x o docs os Hl HF IH]; cbn [search_htmls].
  - exists true, []. split; [reflexivity|]. cbn. split; [constructor|reflexivity].
  - rewrite Hl. cbn [obind]. destruct (extracts rule x x) eqn:E.
    + destruct IH as [done [seen [-> H]]]. cbn [obind]. exists done, ((rule, x, x) :: seen). split; [reflexivity|].
      unfold visit in *. rewrite HV in *. cbn [map]. destruct done.
      * destruct H as [H ->]. split; [constructor; [exact E|exact H]|reflexivity].
      * destruct H as [before [p [rest [-> [H1 [H2 ->]]]]]]. exists ((rule, x) :: before), p, rest.
        split; [reflexivity|]. split; [constructor; [exact E|exact H1]|]. split; [exact H2|reflexivity].
    + exists false, [(rule, x, x)]. split; [reflexivity|]. unfold visit. rewrite HV. cbn [map].
      exists [], (rule, x), (map (pair rule) docs). split; [reflexivity|]. split; [constructor|]. split; [|reflexivity].
      unfold works. cbn. congruence.
Qed.

Lemma visit_cons (r : str) rules (docs : list str) : list_prod (r :: rules) docs = list_prod [r] docs ++ list_prod rules docs.
Proof. cbn. now rewrite app_nil_r. Qed.

Lemma search_all_ok docs os m rules : Forall2 (fun x o => look o m = Ok (x, x)) docs os ->
  exists done seen, search_all extracts rules os m = Ok (done, seen) /\ visit extracts (map fst rules) docs done seen.
Proof.
  intros HF. induction rules as [|[r n] rules IH]; cbn [search_all map fst].
  - exists true, []. split; [reflexivity|]. split; [constructor|reflexivity].
  - destruct (search_htmls_ok r docs os m HF) as [done [seen [-> H]]]. cbn [obind]. destruct done.
    + destruct IH as [done' [seen' [-> H']]]. cbn [obind]. exists done', (seen ++ seen'). split; [reflexivity|].
      unfold visit in *. rewrite visit_cons. destruct H as [H ->]. destruct done'.
      * destruct H' as [H' ->]. split; [apply Forall_app; auto|now rewrite map_app].
      * destruct H' as [before [p [rest [-> [H1 [H2 ->]]]]]]. exists (list_prod [r] docs ++ before), p, rest.
        split; [now rewrite app_assoc|]. split; [apply Forall_app; auto|]. split; [exact H2|]. now rewrite !map_app, !app_assoc.
    + exists false, seen. split; [reflexivity|]. unfold visit in *. rewrite visit_cons.
      destruct H as [before [p [rest [-> [H1 [H2 ->]]]]]]. exists before, p, (rest ++ list_prod (map fst rules) docs).
      split; [now rewrite <- app_assoc|]. auto.
Qed.

(** ** The whole of htmlext *)

Lemma leave_ok rules c h m :
  owns m ((items h ++ opt_list (storage h)) ++ (flat_map long (items c) ++ opt_list (storage c)) ++
          map snd (items rules) ++ opt_list (storage rules)) ->
  exists m', leave rules c h m = Ok m' /\ all_released m'.
Proof.
  intros Ho. unfold leave. rewrite <- !app_assoc in Ho.
  destruct (release_all_ok _ _ _ Ho) as [m1 [-> [Ho1 _]]]. cbn [obind]. rewrite release_if_all.
  destruct (release_all_ok _ _ _ Ho1) as [m2 [-> [Ho2 _]]]. cbn [obind]. rewrite destroy_strings_all.
  destruct (release_all_ok _ _ _ Ho2) as [m3 [-> [Ho3 _]]]. cbn [obind]. rewrite release_if_all.
  destruct (release_all_ok _ _ _ Ho3) as [m4 [-> [Ho4 _]]]. cbn [obind].
  destruct (release_all_ok _ _ _ Ho4) as [m5 [-> [Ho5 _]]]. cbn [obind]. rewrite release_if_all.
  destruct (release_all_ok (opt_list (storage rules)) m5 []) as [m6 [-> [Ho6 _]]]; [now rewrite app_nil_r|].
  exists m6. split; [reflexivity|now apply all_released_ok].
Qed.

Theorem main_ok reserve_rules sources lint files :
  exists ok seen m, run_main parses extracts (reserve_rules, true, true) sources lint files = Ok (ok, seen, m) /\
    all_released m /\ main_does parses extracts sources lint files ok seen.
Proof.
  unfold run_main.
  destruct (reserve_empty rule_element (if reserve_rules then length sources else 0) [] [] owns_nil ltac:(discriminate))
    as [v [m1 [-> [Hv0 [_ [Hv1 [_ [Hv2 _]]]]]]]]. cbn [obind].
  destruct (read_rules_ok sources v m1 Hv1) as [ok [v' [m2 [-> [Ho2 H]]]]].
  { unfold rules_owned. rewrite Hv0. exact Hv2. }
  cbn [obind]. unfold rules_owned in Ho2.
  assert (Ho2' : owns m2 (map snd (items v') ++ opt_list (storage v'))) by (eapply owns_perm; [apply Permutation_app_comm|exact Ho2]).
  destruct ok; cbn [negb orb].
  2:{ destruct (leave_ok v' empty_vec empty_vec m2) as [m3 [-> Hm]]; [exact Ho2'|]. cbn [obind].
      exists false, [], m3. split; [reflexivity|]. split; [exact Hm|now constructor]. }
  destruct H as [rules [Hsrc Hmap]]. rewrite Hv0 in Hmap. cbn [map app] in Hmap.
  destruct lint.
  { destruct (leave_ok v' empty_vec empty_vec m2) as [m3 [-> Hm]]; [exact Ho2'|]. cbn [obind].
    exists true, [], m3. split; [reflexivity|]. split; [exact Hm|]. now apply does_lint with rules. }
  destruct (reserve_empty html_element (length files) m2 _ Ho2' ltac:(discriminate))
    as [h [m3 [-> [Hh0 [Hh1 [Hh2 [_ [Ho3 _]]]]]]]]. cbn [obind].
  destruct (reserve_empty string_element (length files) m3 _ Ho3 ltac:(discriminate))
    as [c [m4 [-> [Hc0 [Hc1 [Hc2 [Hc3 [Ho4 _]]]]]]]]. cbn [obind].
  destruct (read_htmls_ok files [] c h m4 (map snd (items v') ++ opt_list (storage v'))) as [ok [c' [h' [m5 [-> [docs [HD H]]]]]]].
  { constructor; rewrite ?Hh0, ?Hc0; auto; [|cbn; lia|intros [|k] x; discriminate].
    cbn [flat_map app]. eapply owns_perm; [|exact Ho4]. perm. }
  { rewrite Hc0. cbn. lia. }
  { rewrite Hh0. cbn. lia. }
  cbn [obind].
  destruct (leave_ok v' c' h' m5 (d_owns _ _ _ _ _ HD)) as [m6 [EL Hm]].
  destruct ok.
  - destruct H as [new [-> ->]]. cbn [app] in HD.
    assert (HF : Forall2 (fun x o => look o m5 = Ok (x, x)) new (items h')).
    { assert (Hlen := d_len' _ _ _ _ _ HD).
      assert (HA : forall k x o, nth_error new k = Some x -> nth_error (items h') k = Some o -> look o m5 = Ok (x, x)).
      { intros k x o H1 H2. eapply look_ok; eauto. }
      clear -Hlen HA. revert Hlen HA. generalize (items h') as os. intros os. revert os.
      induction new as [|x new IH]; intros [|o os] Hlen HA; try discriminate Hlen; [constructor|]. constructor.
      - now apply (HA 0).
      - apply IH; [now injection Hlen|]. intros k. apply (HA (S k)). }
    destruct (search_all_ok new (items h') m5 (items v') HF) as [done [seen [-> HV]]]. cbn [obind]. rewrite EL. cbn [obind].
    exists done, seen, m6. split; [reflexivity|]. split; [exact Hm|]. apply does_search with rules; [exact Hsrc|]. now rewrite <- Hmap.
  - rewrite EL. cbn [obind]. exists false, [], m6. split; [reflexivity|]. split; [exact Hm|]. now apply does_no_file with rules.
Qed.

End Main.

(** ** Objects of the bindings *)

Definition cells (o : option wrapper) : list nat :=
  match o with None => [] | Some w => opt_list (html w) ++ long (buffer w) ++ [body w] end.

(** An object that was made of a text. *)
Definition made_of (m : memory) (o : option wrapper) (t : option (option str)) : Prop :=
  match o, t with
  | None, None => True
  | Some w, Some None => html w = None
  | Some w, Some (Some x) =>
      nth_error m (body w) = Some (Bytes [inside (buffer w)]) /\ holds (buffer w) x m /\
      exists o, html w = Some o /\ nth_error m o = Some (Output (c_str_at (buffer w) (body w) 0) x)
  | _, _ => False
  end.

Lemma made_frame m m' o t : made_of m o t -> frame m m' (cells o) -> made_of m' o t.
Proof.
  destruct o as [w|], t as [[x|]|]; cbn; auto. intros [H1 [H2 [o [H3 H4]]]] Hf. rewrite H3 in Hf. cbn in Hf.
  split; [rewrite Hf; [exact H1|]; right; apply in_or_app; right; now left|].
  split; [eapply holds_frame; [exact H2|]; intros i Hi; apply Hf; right; apply in_or_app; now left|].
  exists o. split; [exact H3|]. rewrite Hf; [exact H4|now left].
Qed.

Definition state_ok (objs : list (option (option str))) (ws : list (option wrapper)) (m : memory) : Prop :=
  owns m (flat_map cells ws) /\ Forall2 (made_of m) ws objs.

Lemma forall2_nth {A B} (P : A -> B -> Prop) l l' i y : Forall2 P l l' -> nth_error l' i = Some y ->
  exists x, nth_error l i = Some x /\ P x y.
Proof.
  intros H. revert i. induction H as [|x y' l l' H _ IH]; intros [|i] E; try discriminate; cbn in *; [|auto].
  injection E as ->. eauto.
Qed.

Lemma forall2_frame m m' ws objs : Forall2 (made_of m) ws objs -> frame m m' (flat_map cells ws) -> Forall2 (made_of m') ws objs.
Proof.
  intros H Hf. induction H as [|w o ws objs H _ IH]; constructor.
  - eapply made_frame; [exact H|]. eapply frame_sub; [exact Hf|]. cbn. intros i Hi. apply in_or_app. now left.
  - apply IH. eapply frame_sub; [exact Hf|]. cbn. intros i Hi. apply in_or_app. now right.
Qed.

Lemma create_ok objs ws m x : state_ok objs ws m ->
  exists w m', create x m = Ok (w, m') /\ state_ok (objs ++ [Some x]) (ws ++ [Some w]) m'.
Proof.
  intros [Ho HF]. unfold create. destruct x as [x|].
  - destruct (make_string_ok x m _ Ho) as [r [m1 [-> [Ho1 [Hf1 Hh]]]]]. cbn [allocate].
    set (b := length m1). set (m2 := m1 ++ [Bytes [inside r]]).
    assert (Ho2 : owns m2 (b :: long r ++ flat_map cells ws)) by (apply owns_alloc; [exact Ho1|discriminate]).
    assert (Hh2 : holds r x m2).
    { eapply holds_frame; [exact Hh|]. eapply frame_sub; [apply frame_alloc, Ho1|]. intros i Hi. apply in_or_app. now left. }
    assert (HB : nth_error m2 b = Some (Bytes [inside r])) by apply nth_new.
    unfold parse_html. rewrite (load_c_str r x m2 b _ 0 Hh2 HB eq_refl). cbn [obind allocate].
    set (m3 := m2 ++ [Output (c_str_at r b 0) x]).
    assert (Ho3 : owns m3 (length m2 :: b :: long r ++ flat_map cells ws)) by (apply owns_alloc; [exact Ho2|discriminate]).
    do 2 eexists. split; [reflexivity|]. split.
    + eapply owns_perm; [|exact Ho3]. rewrite flat_map_app. cbn [flat_map cells html buffer body opt_list]. perm.
    + apply Forall2_app; [|constructor; [|constructor]].
      * eapply forall2_frame; [exact HF|]. eapply frame_trans; [exact Hf1|]. eapply frame_trans.
        -- eapply frame_sub; [apply frame_alloc, Ho1|]. intros i Hi. apply in_or_app. now right.
        -- eapply frame_sub; [apply frame_alloc, Ho2|]. intros i Hi. right. apply in_or_app. now right.
      * cbn [made_of body buffer html]. split; [now apply nth_before|]. split.
        -- eapply holds_frame; [exact Hh2|]. eapply frame_sub; [apply frame_alloc, Ho2|]. intros i Hi. right. apply in_or_app. now left.
        -- eexists. split; [reflexivity|apply nth_new].
  - cbn [allocate]. do 2 eexists. split; [reflexivity|]. split.
    + rewrite flat_map_app. cbn [flat_map cells html buffer body opt_list long app]. eapply owns_perm; [|apply owns_alloc; [exact Ho|discriminate]]. perm.
    + apply Forall2_app; [|repeat constructor]. eapply forall2_frame; [exact HF|now apply frame_alloc].
Qed.

Lemma destroy_ok w m rest : owns m (cells (Some w) ++ rest) ->
  exists m', destroy w m = Ok m' /\ owns m' rest /\ frame m m' rest.
Proof.
  intros Ho. cbn [cells] in Ho. rewrite <- !app_assoc in Ho. unfold destroy. rewrite release_if_all.
  destruct (release_all_ok _ _ _ Ho) as [m1 [-> [Ho1 Hf1]]]. cbn [obind]. rewrite destroy_string_all.
  destruct (release_all_ok _ _ _ Ho1) as [m2 [-> [Ho2 Hf2]]]. cbn [obind app] in *.
  assert (Hn : ~ In (body w) rest) by (destruct Ho2 as [H _]; now apply NoDup_cons_iff in H).
  destruct (owns_release _ _ _ Ho2) as [-> Ho3]. eexists. split; [reflexivity|]. split; [exact Ho3|].
  eapply frame_trans; [eapply frame_sub; [exact Hf1|]; intros i Hi; apply in_or_app; right; now right|].
  eapply frame_trans; [eapply frame_sub; [exact Hf2|]; intros i Hi; now right|]. now apply frame_over.
Qed.

Lemma forall2_length {A B} (P : A -> B -> Prop) l l' : Forall2 P l l' -> length l = length l'.
Proof. induction 1; cbn; congruence. Qed.

Lemma replace_middle {A} (l r : list A) x y : replace_at (length l) y (l ++ x :: r) = l ++ y :: r.
Proof. induction l as [|z l IH]; cbn; [reflexivity|now rewrite IH]. Qed.

Theorem history_ok objs es seen objs' : history objs es seen objs' ->
  forall ws m, state_ok objs ws m ->
  exists ws' m', do_steps es ws m = Ok (seen, ws', m') /\ state_ok objs' ws' m'.
Proof.
  induction 1 as [objs|objs x es seen objs' _ IH|objs i x es seen objs' Hi _ IH|objs i es seen objs' Hi _ IH|l x r es seen objs' _ IH];
    intros ws m Hs; cbn [do_steps do_step].
  - exists ws, m. auto.
  - destruct (create_ok objs ws m x Hs) as [w [m1 [-> Hs1]]]. cbn [obind]. destruct (IH _ _ Hs1) as [ws' [m' [-> Hs']]].
    cbn [obind app]. eauto.
  - destruct Hs as [Ho HF]. destruct (forall2_nth _ _ _ _ _ HF Hi) as [o [-> Hm]]. destruct o as [w|]; [|destruct Hm].
    cbn [made_of] in Hm. destruct Hm as [HB [Hh [o [-> HO]]]]. unfold look. rewrite HO.
    rewrite (load_c_str _ x m (body w) _ 0 Hh HB eq_refl). cbn [obind].
    destruct (IH ws m (conj Ho HF)) as [ws' [m' [-> Hs']]]. cbn [obind app]. eauto.
  - destruct Hs as [Ho HF]. destruct (forall2_nth _ _ _ _ _ HF Hi) as [o [-> Hm]]. destruct o as [w|]; [|destruct Hm].
    cbn [made_of] in Hm. rewrite Hm. cbn [obind].
    destruct (IH ws m (conj Ho HF)) as [ws' [m' [-> Hs']]]. cbn [obind app]. eauto.
  - destruct Hs as [Ho HF]. apply Forall2_app_inv_r in HF as [wl [wr [HFl [HFr ->]]]].
    inversion HFr as [|o ? wr' ? Hm HFr']; subst. destruct o as [w|]; [|destruct x; destruct Hm].
    assert (Hlen : length l = length wl) by (symmetry; eapply forall2_length; exact HFl). rewrite Hlen, nth_error_app2, Nat.sub_diag by lia.
    cbn [nth_error]. rewrite flat_map_app in Ho. cbn [flat_map] in Ho.
    destruct (destroy_ok w m (flat_map cells wl ++ flat_map cells wr')) as [m1 [-> [Ho1 Hf1]]].
    { eapply owns_perm; [|exact Ho]. generalize (cells (Some w)) as cw. intros cw. perm. }
    cbn [obind]. rewrite replace_middle.
    destruct (IH (wl ++ None :: wr') m1) as [ws' [m' [-> Hs']]].
    + split; [rewrite flat_map_app; exact Ho1|]. apply Forall2_app.
      * eapply forall2_frame; [exact HFl|]. eapply frame_sub; [exact Hf1|]. intros i Hi. apply in_or_app. now left.
      * constructor; [exact I|]. eapply forall2_frame; [exact HFr'|]. eapply frame_sub; [exact Hf1|]. intros i Hi. apply in_or_app. now right.
    + cbn [obind app]. eauto.
Qed.

Theorem objects_ok es seen objs : history [] es seen objs ->
  exists ws m, do_steps es [] [] = Ok (seen, ws, m) /\ (Forall (eq None) objs -> all_released m).
Proof.
  intros H. destruct (history_ok _ _ _ _ H [] []) as [ws [m [E [Ho HF]]]]; [split; [apply owns_nil|constructor]|].
  exists ws, m. split; [exact E|]. intros Hn. apply all_released_ok.
  assert (Hc : flat_map cells ws = []); [|now rewrite Hc in Ho].
  clear -HF Hn. induction HF as [|w o ws objs Hm _ IH]; [reflexivity|]. inversion Hn; subst.
  destruct w as [w|]; [destruct Hm|]. cbn. auto.
Qed.
