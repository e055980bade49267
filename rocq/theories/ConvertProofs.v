(** Proofs about converted results. *)

From Coq Require Import Ascii String NArith ZArith Bool List Sorted Permutation Lia.
From Verif Require Import Base Match RuleMatching ExtractSpec StringProofs NodeProofs ResultProofs Convert ConvertSpec.
Import ListNotations.

Definition key_lt (a b : str * member) : Prop := str_ltb (fst a) (fst b) = true.

Lemma str_eqb_refl x : str_eqb x x = true.
Proof. now apply str_eqb_eq. Qed.

Lemma str_eqb_neq x y : str_eqb x y = false <-> x <> y.
Proof.
  split.
  - intros H E. subst. rewrite str_eqb_refl in H. discriminate.
  - intros H. destruct (str_eqb x y) eqn:E; [|reflexivity]. apply str_eqb_eq in E. contradiction.
Qed.

Lemma values_of_nil name m : (forall v, ~ In (name, v) m) -> values_of name m = [].
Proof.
  intros H. destruct (values_of name m) eqn:E; [reflexivity|].
  destruct (values_of_in name m) as [[n v] [H1 H2]]; [congruence|]. simpl in H2. subst. now destruct (H v).
Qed.

Lemma values_of_nonempty name v m : In (name, v) m -> values_of name m <> [].
Proof.
  intros H E. unfold values_of in E. apply map_eq_nil in E.
  assert (Hi : In (name, v) (filter (fun x => str_eqb (fst x) name) m)).
  { apply filter_In. split; [exact H|]. apply str_eqb_refl. }
  rewrite E in Hi. destruct Hi.
Qed.

Lemma stands_for_nonempty v : ~ stands_for v [].
Proof.
  destruct v as [x|xs]; simpl; [discriminate|]. intros [<- H]. simpl in H. lia.
Qed.

Lemma converted_key m o name v : converted m o -> In (name, v) o -> exists value, In (name, value) m.
Proof.
  intros [_ [H _]] Hi. specialize (H name v Hi).
  destruct (values_of_in name m) as [[n w] [H1 H2]].
  - intros E. rewrite E in H. now apply stands_for_nonempty in H.
  - simpl in H2. subst. eauto.
Qed.

Lemma sorted_app_last {A} (R : A -> A -> Prop) l x :
  StronglySorted R l -> (forall y, In y l -> R y x) -> StronglySorted R (l ++ [x]).
Proof.
  induction l as [|y l IH]; intros H Hx; simpl.
  - constructor; constructor.
  - inversion H as [|? ? HS HF]; subst. constructor.
    + apply IH; [exact HS|]. intros; apply Hx; now right.
    + rewrite Forall_forall in *. intros z Hz. apply in_app_or in Hz as [Hz|[<-|[]]]; [now apply HF|].
      apply Hx. now left.
Qed.

Lemma sorted_app_inv {A} (R : A -> A -> Prop) l l' :
  StronglySorted R (l ++ l') ->
  StronglySorted R l /\ StronglySorted R l' /\ forall x y, In x l -> In y l' -> R x y.
Proof.
  induction l as [|a l IH]; simpl; intros H.
  - split; [constructor|]. split; [exact H|]. intros x y [].
  - inversion H as [|? ? HS HF]; subst. destruct (IH HS) as [H1 [H2 H3]]. rewrite Forall_forall in HF. split.
    + constructor; [exact H1|]. rewrite Forall_forall. intros z Hz. apply HF, in_or_app. now left.
    + split; [exact H2|]. intros x y [<-|Hx] Hy; [apply HF, in_or_app; now right|now apply H3].
Qed.

Lemma find_some o name v : FindMember o name = Some v -> In (name, v) o.
Proof.
  induction o as [|[k w] o IH]; simpl; [discriminate|]. destruct (str_eqb k name) eqn:E.
  - intros [= ->]. apply str_eqb_eq in E. subst. now left.
  - intros H. right. now apply IH.
Qed.

Lemma find_none o name : FindMember o name = None -> forall v, ~ In (name, v) o.
Proof.
  induction o as [|[k w] o IH]; simpl; [intros _ v []|]. destruct (str_eqb k name) eqn:E; [discriminate|].
  intros H v [Hv|Hv].
  - injection Hv as -> _. rewrite str_eqb_refl in E. discriminate.
  - now apply (IH H v).
Qed.

Lemma set_keys o name v : map fst (SetMember o name v) = map fst o.
Proof.
  induction o as [|[k w] o IH]; simpl; [reflexivity|]. destruct (str_eqb k name); simpl; [reflexivity|]. now rewrite IH.
Qed.

Lemma sorted_keys o o' : map fst o = map fst o' -> StronglySorted key_lt o -> StronglySorted key_lt o'.
Proof.
  revert o'. induction o as [|x o IH]; intros [|y o'] H HS; simpl in H; try discriminate; [constructor|].
  injection H as Hk Ho. inversion HS as [|? ? HS' HF]; subst. constructor; [now apply IH|].
  rewrite Forall_forall in *. intros z Hz. unfold key_lt in *. rewrite <- Hk.
  assert (Hi : In (fst z) (map fst o)) by (rewrite Ho; now apply in_map).
  apply in_map_iff in Hi as [w [<- Hw]]. now apply HF.
Qed.

Lemma set_in o name v n w : StronglySorted key_lt o -> In (n, w) (SetMember o name v) ->
  (n = name /\ w = v) \/ (n <> name /\ In (n, w) o).
Proof.
  induction o as [|[k u] o IH]; simpl; [intros _ []|]. intros HS. inversion HS as [|? ? HS' HF]; subst.
  destruct (str_eqb k name) eqn:E.
  - apply str_eqb_eq in E. subst k. intros [H|H].
    + injection H as <- <-. now left.
    + right. rewrite Forall_forall in HF. specialize (HF _ H). unfold key_lt in HF. simpl in HF. split; [|now right].
      intros ->. rewrite str_ltb_irrefl in HF. discriminate.
  - intros [H|H].
    + injection H as <- <-. right. split; [now apply str_eqb_neq|now left].
    + destruct (IH HS' H) as [H'|[H1 H2]]; [now left|]. right. split; [exact H1|now right].
Qed.

(** Adding a block of pairs of one new name. *)
Lemma converted_block m o name v blk :
  converted m o ->
  (forall x, In x m -> str_ltb (fst x) name = true) ->
  blk <> [] -> (forall x, In x blk -> fst x = name) ->
  stands_for v (map snd blk) ->
  converted (m ++ blk) (o ++ [(name, v)]).
Proof.
  intros HC Hlt Hne Hblk Hv. pose proof HC as [HS [H1 H2]].
  assert (Hn : values_of name m = []).
  { apply values_of_nil. intros w Hw. specialize (Hlt _ Hw). simpl in Hlt. now rewrite str_ltb_irrefl in Hlt. }
  assert (Hb : forall b, (forall x, In x b -> fst x = name) ->
     values_of name b = map snd b /\ forall n, n <> name -> values_of n b = []).
  { induction b as [|x b IHb]; intros Hb; [now split|].
    destruct (IHb (fun y Hy => Hb y (or_intror Hy))) as [I1 I2]. pose proof (Hb x (or_introl eq_refl)) as Hx. split.
    - rewrite values_of_cons, Hx, str_eqb_refl, I1. reflexivity.
    - intros n Hnn. rewrite values_of_cons, (I2 n Hnn). rewrite (proj2 (str_eqb_neq (fst x) n)); [reflexivity|]. congruence. }
  destruct (Hb blk Hblk) as [Hb1 Hb2].
  split; [|split].
  - apply sorted_app_last; [exact HS|]. intros [k w] Hy. simpl.
    destruct (converted_key m o k w HC Hy) as [value Hin]. exact (Hlt _ Hin).
  - intros n w Hin. rewrite values_of_app. apply in_app_or in Hin as [Hin|[Hin|[]]].
    + destruct (converted_key m o n w HC Hin) as [value Hm].
      assert (Hnn : n <> name). { intros ->. specialize (Hlt _ Hm). simpl in Hlt. now rewrite str_ltb_irrefl in Hlt. }
      rewrite (Hb2 n Hnn), app_nil_r. now apply H1.
    + injection Hin as <- <-. rewrite Hn, Hb1. exact Hv.
  - intros n value Hin. apply in_app_or in Hin as [Hin|Hin].
    + destruct (H2 n value Hin) as [w Hw]. exists w. apply in_or_app. now left.
    + specialize (Hblk _ Hin). simpl in Hblk. subst n. exists v. apply in_or_app. right. now left.
Qed.

(** ** JSON *)

Lemma c_str_monotone a : forall b, str_ltb b a = false -> str_ltb (c_str b) (c_str a) = false.
Proof.
  induction a as [|x a IH]; intros [|y b] H; cbn [c_str]; try reflexivity.
  - destruct (Ascii.eqb y NUL); reflexivity.
  - discriminate H.
  - cbn [str_ltb] in H.
    destruct (Ascii.eqb_spec y NUL) as [Ey|Ey]; destruct (Ascii.eqb_spec x NUL) as [Ex|Ex].
    + reflexivity.
    + exfalso. subst y. destruct (N.ltb_spec (N_of_ascii NUL) (N_of_ascii x)); [discriminate|].
      apply Ex. rewrite <- (ascii_N_embedding x), <- (ascii_N_embedding NUL). f_equal. change (N_of_ascii NUL) with 0%N in *. lia.
    + reflexivity.
    + cbn [str_ltb]. destruct (N_of_ascii y <? N_of_ascii x)%N; [discriminate|].
      destruct (N_of_ascii x <? N_of_ascii y)%N; [reflexivity|]. now apply IH.
Qed.

Lemma cut_sorted m : StronglySorted name_le m -> StronglySorted name_le (cut_map m).
Proof.
  induction m as [|x m IH]; intros H; [constructor|]. inversion H as [|? ? HS HF]; subst. simpl. constructor; [now apply IH|].
  rewrite Forall_forall in *. intros z Hz. apply in_map_iff in Hz as [w [<- Hw]]. unfold name_le. simpl.
  apply c_str_monotone. exact (HF w Hw).
Qed.

Lemma stands_for_more v values x : stands_for v values ->
  stands_for (match v with Many vs => Many (vs ++ [x]) | One w => Many [w; x] end) (values ++ [x]).
Proof.
  destruct v as [w|ws]; simpl.
  - intros ->. split; [reflexivity|simpl; lia].
  - intros [-> H]. split; [reflexivity|]. rewrite app_length. simpl. lia.
Qed.

Theorem json_object_converted m : StronglySorted name_le m -> converted (cut_map m) (json_object m).
Proof.
  intros HS0. apply cut_sorted in HS0. revert HS0. unfold json_object.
  induction m as [|[n x] m IH] using rev_ind; intros HS0.
  - split; [constructor|]. split; [intros ? ? []|intros ? ? []].
  - unfold cut_map in HS0 |- *. rewrite map_app in HS0 |- *. cbn [map fst snd] in HS0 |- *.
    destruct (sorted_app_inv _ _ _ HS0) as [HSm [_ Hle]]. specialize (IH HSm). fold (cut_map m) in IH, HS0, Hle |- *.
    rewrite fold_left_app. cbn [fold_left]. set (o := fold_left json_add m []) in *. clearbody o.
    unfold json_add. cbn [fst snd]. pose proof IH as HC. destruct HC as [HS [H1 H2]].
    destruct (FindMember o (c_str n)) as [v|] eqn:EF.
    + assert (G : converted (cut_map m ++ [(c_str n, c_str x)])
        (SetMember o (c_str n) (match v with Many vs => Many (vs ++ [c_str x]) | One w => Many [w; c_str x] end))).
      { pose proof (find_some _ _ _ EF) as Hin. split; [|split].
        - eapply sorted_keys; [|exact HS]. now rewrite set_keys.
        - intros k w Hk. rewrite values_of_app, (values_of_cons k), app_nil_r. cbn [fst snd].
          destruct (set_in _ _ _ _ _ HS Hk) as [[-> ->]|[Hn Hk']].
          + rewrite str_eqb_refl. apply stands_for_more. now apply H1.
          + rewrite (proj2 (str_eqb_neq (c_str n) k)) by congruence. rewrite app_nil_r. now apply H1.
        - intros k w Hk.
          assert (Hkey : In k (map fst o)).
          { apply in_app_or in Hk as [Hk|[Hk|[]]].
            - destruct (H2 _ _ Hk) as [u Hu]. change k with (fst (k, u)). now apply in_map.
            - injection Hk as <- <-. change (c_str n) with (fst (c_str n, v)). now apply in_map. }
          rewrite <- (set_keys o (c_str n) (match v with Many vs => Many (vs ++ [c_str x]) | One w0 => Many [w0; c_str x] end)) in Hkey.
          apply in_map_iff in Hkey as [[k' u] [E Hu]]. simpl in E. subst k'. eauto. }
      destruct v; exact G.
    + apply converted_block; [exact IH| | discriminate | |reflexivity].
      * intros [k w] Hk. simpl. specialize (Hle _ _ Hk (or_introl eq_refl)). unfold name_le in Hle. simpl in Hle.
        destruct (str_ltb k (c_str n)) eqn:E; [reflexivity|]. exfalso.
        pose proof (str_ltb_total _ _ E Hle) as ->. destruct (H2 _ _ Hk) as [v Hv]. now apply (find_none _ _ EF v).
      * intros y [<-|[]]. reflexivity.
Qed.

(** ** The bindings *)

Lemma split_block x it : StronglySorted name_le (x :: it) ->
  exists blk rest, it = blk ++ rest /\ (forall y, In y blk -> fst y = fst x) /\
    (forall y, In y rest -> str_ltb (fst x) (fst y) = true).
Proof.
  induction it as [|y it IH]; intros H.
  - exists [], []. split; [reflexivity|]. split; intros ? [].
  - inversion H as [|? ? HS HF]; subst. inversion HS as [|? ? HS' HF']; subst. rewrite Forall_forall in HF, HF'.
    destruct (str_ltb (fst x) (fst y)) eqn:E.
    + exists [], (y :: it). split; [reflexivity|]. split; [intros ? []|]. intros z [<-|Hz]; [exact E|].
      specialize (HF' z Hz). unfold name_le in HF'.
      destruct (str_ltb (fst x) (fst z)) eqn:Ez; [reflexivity|]. exfalso.
      pose proof (HF z (or_intror Hz)) as Hxz. unfold name_le in Hxz.
      pose proof (str_ltb_total _ _ Ez Hxz) as Exz. rewrite Exz in E. congruence.
    + destruct IH as [blk [rest [-> [H1 H2]]]].
      { constructor; [exact HS'|]. rewrite Forall_forall. intros z Hz. apply HF. now right. }
      exists (y :: blk), rest. split; [reflexivity|]. split; [|exact H2].
      intros z [<-|Hz]; [|now apply H1]. pose proof (HF y (or_introl eq_refl)) as Hxy. unfold name_le in Hxy.
      symmetry. now apply str_ltb_total.
Qed.

Lemma lower_bound_at pre it name :
  (forall y, In y pre -> str_ltb (fst y) name = true) ->
  (forall y, In y it -> str_ltb (fst y) name = false) ->
  lower_bound (pre ++ it) name = it.
Proof.
  intros H1 H2. induction pre as [|y pre IH]; simpl.
  - destruct it as [|z it]; [reflexivity|]. simpl. now rewrite (H2 z (or_introl eq_refl)).
  - rewrite (H1 y (or_introl eq_refl)). apply IH. intros; apply H1; now right.
Qed.

Lemma upper_bound_at pre it name :
  (forall y, In y pre -> str_ltb name (fst y) = false) ->
  (forall y, In y it -> str_ltb name (fst y) = true) ->
  upper_bound (pre ++ it) name = it.
Proof.
  intros H1 H2. induction pre as [|y pre IH]; simpl.
  - destruct it as [|z it]; [reflexivity|]. simpl. now rewrite (H2 z (or_introl eq_refl)).
  - rewrite (H1 y (or_introl eq_refl)). apply IH. intros; apply H1; now right.
Qed.

Lemma count_app m m' name : multimap_count (m ++ m') name = multimap_count m name + multimap_count m' name.
Proof. unfold multimap_count. now rewrite filter_app, app_length. Qed.

Lemma count_none m name : (forall y, In y m -> str_ltb (fst y) name = true \/ str_ltb name (fst y) = true) ->
  multimap_count m name = 0.
Proof.
  unfold multimap_count. induction m as [|y m IH]; intros H; [reflexivity|]. simpl.
  destruct (H y (or_introl eq_refl)) as [E|E]; rewrite E; simpl; rewrite ?andb_false_r; apply IH; intros; apply H; now right.
Qed.

Lemma count_all m name : (forall y, In y m -> fst y = name) -> multimap_count m name = length m.
Proof.
  unfold multimap_count. induction m as [|y m IH]; intros H; [reflexivity|]. simpl.
  rewrite (H y (or_introl eq_refl)), str_ltb_irrefl. simpl. f_equal. apply IH. intros; apply H; now right.
Qed.

Lemma find_absent o name : (forall v, ~ In (name, v) o) -> FindMember o name = None.
Proof.
  intros H. destruct (FindMember o name) as [v|] eqn:E; [|reflexivity]. apply find_some in E. now destruct (H v).
Qed.

Lemma range_app b rest : range_between (b ++ rest) rest = b.
Proof.
  unfold range_between. rewrite app_length. replace (length b + length rest - length rest) with (length b) by lia.
  rewrite firstn_app, Nat.sub_diag, firstn_all, firstn_O. apply app_nil_r.
Qed.

Lemma convert_loop_spec m : forall fuel pre it o,
  StronglySorted name_le m -> m = pre ++ it -> length it <= fuel ->
  (forall x y, In x pre -> In y it -> str_ltb (fst x) (fst y) = true) ->
  converted pre o ->
  exists o', convert_loop node_handover fuel m it o = Ok o' /\ converted m o'.
Proof.
  induction fuel as [|f IH]; intros pre it o HS Em Hf Hlt HC.
  - destruct it; [|simpl in Hf; lia]. exists o. split; [reflexivity|]. rewrite Em, app_nil_r. exact HC.
  - destruct it as [|[name value] it].
    { exists o. split; [reflexivity|]. rewrite Em, app_nil_r. exact HC. }
    pose proof HS as HS'. rewrite Em in HS'. apply sorted_app_inv in HS' as [_ [HSi _]].
    destruct (split_block _ _ HSi) as [blk [rest [E [Hblk Hrest]]]]. simpl in Hblk, Hrest.
    assert (Hpre : forall y, In y pre -> str_ltb (fst y) name = true).
    { intros y Hy. apply (Hlt y (name, value) Hy). now left. }
    set (b := (name, value) :: blk).
    assert (Em' : m = pre ++ (b ++ rest)) by (rewrite Em, E; reflexivity).
    assert (Hb : forall y, In y b -> fst y = name) by (intros y [<-|Hy]; [reflexivity|now apply Hblk]).
    assert (Hcount : multimap_count m name = length b).
    { rewrite Em', !count_app. rewrite (count_none pre) by (intros; left; now apply Hpre).
      rewrite (count_none rest) by (intros; right; now apply Hrest). rewrite count_all by exact Hb. lia. }
    assert (Habs : forall v, ~ In (name, v) o).
    { intros v Hv. destruct (converted_key _ _ _ _ HC Hv) as [w Hw]. specialize (Hpre _ Hw). simpl in Hpre.
      now rewrite str_ltb_irrefl in Hpre. }
    assert (Hnext : forall x y, In x (pre ++ b) -> In y rest -> str_ltb (fst x) (fst y) = true).
    { intros x y Hx Hy. apply in_app_or in Hx as [Hx|Hx].
      - apply (str_ltb_trans _ name); [now apply Hpre|now apply Hrest].
      - rewrite (Hb x Hx). now apply Hrest. }
    assert (Hlen : length rest <= f). { simpl in Hf. rewrite E, app_length in Hf. lia. }
    cbn [convert_loop]. rewrite Hcount. cbn [on_name on_single on_listed node_handover].
    unfold object_set. rewrite (find_absent _ _ Habs).
    destruct blk as [|b2 blk].
    + simpl length. simpl Nat.ltb. simpl in E. subst it. cbn [app] in *.
      apply (IH (pre ++ b)); auto.
      * rewrite Em', app_assoc. reflexivity.
      * apply converted_block; [exact HC|exact Hpre|discriminate|exact Hb|reflexivity].
    + replace (Nat.ltb (length b) 2) with false by (unfold b; simpl; destruct (length blk); reflexivity).
      assert (Hlow : lower_bound m name = b ++ rest).
      { rewrite Em'. apply lower_bound_at; [exact Hpre|]. intros y Hy. apply in_app_or in Hy as [Hy|Hy].
        - rewrite (Hb y Hy). apply str_ltb_irrefl.
        - apply str_ltb_asym. now apply Hrest. }
      assert (Hup : upper_bound m name = rest).
      { rewrite Em', app_assoc. apply upper_bound_at; [|exact Hrest]. intros y Hy. apply in_app_or in Hy as [Hy|Hy].
        - apply str_ltb_asym. now apply Hpre.
        - rewrite (Hb y Hy). apply str_ltb_irrefl. }
      rewrite Hlow, Hup.
      assert (Hr : range_between (b ++ rest) rest = b)
        by apply range_app.
      rewrite Hr. apply (IH (pre ++ b)); auto.
      * rewrite Em', app_assoc. reflexivity.
      * apply converted_block; [exact HC|exact Hpre|discriminate|exact Hb|]. simpl. split; [reflexivity|]. simpl. lia.
Qed.

Lemma map_eq_on {A B} (f g : A -> B) l : (forall x, In x l -> f x = g x) -> map f l = map g l.
Proof. apply map_ext_in. Qed.

Lemma range_in from to_ x : In x (range_between from to_) -> In x from.
Proof.
  unfold range_between. intros H. rewrite <- (firstn_skipn (length from - length to_) from). apply in_or_app. now left.
Qed.

Lemma lower_in m name x : In x (lower_bound m name) -> In x m.
Proof.
  induction m as [|y m IH]; simpl; [tauto|]. destruct (str_ltb (fst y) name); [|tauto]. intros H. right. now apply IH.
Qed.
Lemma upper_in m name x : In x (upper_bound m name) -> In x m.
Proof.
  induction m as [|y m IH]; simpl; [tauto|]. destruct (str_ltb name (fst y)); [tauto|]. intros H. right. now apply IH.
Qed.

Definition keeps (h : handover) (m : ResultMap) : Prop :=
  forall name value, In (name, value) m -> on_name h name = name /\ on_single h value = value /\ on_listed h value = value.

Lemma convert_loop_keeps h m : keeps h m -> forall fuel it o, (forall x, In x it -> In x m) ->
  convert_loop h fuel m it o = convert_loop node_handover fuel m it o.
Proof.
  intros Hk. induction fuel as [|f IH]; intros it o Hit; [destruct it as [|[? ?] ?]; reflexivity|].
  destruct it as [|[name value] it]; [reflexivity|].
  cbn [convert_loop]. pose proof (Hk name value (Hit _ (or_introl eq_refl))) as [K1 [K2 _]].
  cbn [on_name on_single on_listed node_handover]. rewrite K1, K2.
  destruct (Nat.ltb (multimap_count m name) 2).
  - apply IH. intros x Hx. apply Hit. now right.
  - rewrite (map_eq_on (fun x => on_listed h (snd x)) (fun x => snd x)).
    + apply IH. intros x Hx. now apply upper_in in Hx.
    + intros [n v] Hx. apply range_in, lower_in in Hx. simpl. now destruct (Hk n v Hx) as [_ [_ K3]].
Qed.

Theorem convert_map_spec h m : StronglySorted name_le m -> keeps h m ->
  exists o, convert_map h m = Ok o /\ converted m o.
Proof.
  intros HS Hk. unfold convert_map. rewrite (convert_loop_keeps h m Hk) by auto.
  apply (convert_loop_spec m (length m) [] m []).
  - exact HS.
  - reflexivity.
  - apply le_n.
  - intros x y H. destruct H.
  - split; [constructor|]. split; intros a b H; destruct H.
Qed.

Lemma no_nul_keeps h m : no_nul m ->
  (forall x, ~ In NUL x -> on_name h x = x /\ on_single h x = x /\ on_listed h x = x) -> keeps h m.
Proof.
  intros Hn Hh name value Hi. destruct (Hn _ _ Hi) as [H1 H2]. split; [now apply Hh|]. split; now apply Hh.
Qed.

Lemma no_nul_cut m : no_nul m -> cut_map m = m.
Proof.
  induction m as [|[n v] m IH]; intros H; [reflexivity|]. simpl. destruct (H n v (or_introl eq_refl)) as [H1 H2].
  rewrite (c_str_id _ H1), (c_str_id _ H2). rewrite IH; [reflexivity|]. intros a b Hi. apply H. now right.
Qed.

Theorem json_keeps m : StronglySorted name_le m -> no_nul m -> converted m (json_object m).
Proof. intros H1 H2. rewrite <- (no_nul_cut m H2) at 1. now apply json_object_converted. Qed.

Theorem bindings_keep h m : In h [node_handover; python_handover; ruby_handover; php_handover] ->
  StronglySorted name_le m -> no_nul m -> exists o, convert_map h m = Ok o /\ converted m o.
Proof.
  intros Hh HS Hn. apply convert_map_spec; [exact HS|]. apply no_nul_keeps; [exact Hn|]. intros x Hx.
  destruct Hh as [<-|[<-|[<-|[<-|[]]]]]; cbn; rewrite ?(c_str_id x Hx); auto.
Qed.

Theorem full_bindings_keep h m : In h [node_handover; ruby_handover] ->
  StronglySorted name_le m -> exists o, convert_map h m = Ok o /\ converted m o.
Proof.
  intros Hh HS. apply convert_map_spec; [exact HS|]. intros n v _.
  destruct Hh as [<-|[<-|[]]]; cbn; auto.
Qed.

(** ** What is converted is unique *)

Lemma stands_for_unique v v' values : stands_for v values -> stands_for v' values -> v = v'.
Proof.
  destruct v as [x|xs], v' as [y|ys]; simpl.
  - intros -> [= ->]. reflexivity.
  - intros -> [<- H]. simpl in H. lia.
  - intros [-> H] ->. simpl in H. lia.
  - intros [-> _] [-> _]. reflexivity.
Qed.

Lemma key_sorted_ext o : forall o', StronglySorted key_lt o -> StronglySorted key_lt o' ->
  (forall x, In x o <-> In x o') -> o = o'.
Proof.
  induction o as [|x o IH]; intros o' HS HS' H.
  - destruct o' as [|y o']; [reflexivity|]. destruct (proj2 (H y) (or_introl eq_refl)).
  - destruct o' as [|y o']; [destruct (proj1 (H x) (or_introl eq_refl))|].
    inversion HS as [|? ? HSo HFo]; subst. inversion HS' as [|? ? HSo' HFo']; subst. rewrite Forall_forall in HFo, HFo'.
    assert (x = y).
    { destruct (proj1 (H x) (or_introl eq_refl)) as [E|E]; [now symmetry|].
      destruct (proj2 (H y) (or_introl eq_refl)) as [E'|E']; [exact E'|].
      specialize (HFo y E'). specialize (HFo' x E). unfold key_lt in *.
      rewrite (str_ltb_asym _ _ HFo) in HFo'. discriminate. }
    subst y. f_equal. apply IH; auto. intros z. split; intros Hz.
    + destruct (proj1 (H z) (or_intror Hz)) as [<-|E]; [|exact E]. exfalso.
      specialize (HFo x Hz). unfold key_lt in HFo. now rewrite str_ltb_irrefl in HFo.
    + destruct (proj2 (H z) (or_intror Hz)) as [<-|E]; [|exact E]. exfalso.
      specialize (HFo' x Hz). unfold key_lt in HFo'. now rewrite str_ltb_irrefl in HFo'.
Qed.

Theorem converted_unique m o o' : converted m o -> converted m o' -> o = o'.
Proof.
  intros H H'.
  assert (G : forall a b, converted m a -> converted m b -> forall x, In x a -> In x b).
  { intros a b Ha Hb [n v] Hi. destruct (converted_key _ _ _ _ Ha Hi) as [w Hw].
    destruct Ha as [_ [Ha _]]. destruct Hb as [_ [Hb1 Hb2]]. destruct (Hb2 _ _ Hw) as [v' Hv'].
    rewrite (stands_for_unique v v' _ (Ha _ _ Hi) (Hb1 _ _ Hv')). exact Hv'. }
  apply key_sorted_ext; [apply H|apply H'|]. intros x. split; [now apply (G o o')|now apply (G o' o)].
Qed.

(** The map can be recovered from what it is converted to. *)
Theorem converted_inj m m' o : StronglySorted name_le m -> StronglySorted name_le m' ->
  converted m o -> converted m' o -> m = m'.
Proof.
  intros HS HS' H H'. apply sorted_same_values; auto. intros name.
  assert (G : forall a b, converted a o -> converted b o -> values_of name a <> [] -> values_of name a = values_of name b).
  { intros a b Ha Hb Hne. destruct (values_of_in _ _ Hne) as [[n v] [Hi En]]. simpl in En. subst n.
    destruct Ha as [_ [Ha1 Ha2]]. destruct Hb as [_ [Hb1 _]]. destruct (Ha2 _ _ Hi) as [w Hw].
    specialize (Ha1 _ _ Hw). specialize (Hb1 _ _ Hw). destruct w; simpl in *; [congruence|]. destruct Ha1 as [-> _], Hb1 as [-> _]. reflexivity. }
  destruct (values_of name m) eqn:E; destruct (values_of name m') eqn:E'; try reflexivity.
  - rewrite <- E, <- E'. symmetry. apply (G m' m H' H). congruence.
  - rewrite <- E, <- E'. apply (G m m' H H'). congruence.
  - rewrite <- E, <- E'. apply (G m m' H H'). congruence.
Qed.

(** ** NUL bytes in the bindings *)

Definition hand (h : handover) (v : member) : member :=
  match v with One x => One (on_single h x) | Many xs => Many (map (on_listed h) xs) end.
Definition write (h : handover) (o : object) (a : object) : object :=
  fold_left (fun a x => object_set a (on_name h (fst x)) (hand h (snd x))) o a.

Lemma write_last h o a name v : write h (o ++ [(name, v)]) a = object_set (write h o a) (on_name h name) (hand h v).
Proof. unfold write. now rewrite fold_left_app. Qed.

Lemma convert_loop_writes h m : forall fuel pre it o,
  StronglySorted name_le m -> m = pre ++ it -> length it <= fuel ->
  (forall x y, In x pre -> In y it -> str_ltb (fst x) (fst y) = true) ->
  converted pre o ->
  exists o', convert_loop h fuel m it (write h o []) = Ok (write h o' []) /\ converted m o'.
Proof.
  induction fuel as [|f IH]; intros pre it o HS Em Hf Hlt HC.
  - destruct it; [|simpl in Hf; lia]. exists o. split; [reflexivity|]. rewrite Em, app_nil_r. exact HC.
  - destruct it as [|[name value] it].
    { exists o. split; [reflexivity|]. rewrite Em, app_nil_r. exact HC. }
    pose proof HS as HS'. rewrite Em in HS'. apply sorted_app_inv in HS' as [_ [HSi _]].
    destruct (split_block _ _ HSi) as [blk [rest [E [Hblk Hrest]]]]. simpl in Hblk, Hrest.
    assert (Hpre : forall y, In y pre -> str_ltb (fst y) name = true).
    { intros y Hy. apply (Hlt y (name, value) Hy). now left. }
    set (b := (name, value) :: blk).
    assert (Em' : m = pre ++ (b ++ rest)) by (rewrite Em, E; reflexivity).
    assert (Hb : forall y, In y b -> fst y = name) by (intros y [<-|Hy]; [reflexivity|now apply Hblk]).
    assert (Hcount : multimap_count m name = length b).
    { rewrite Em', !count_app. rewrite (count_none pre) by (intros; left; now apply Hpre).
      rewrite (count_none rest) by (intros; right; now apply Hrest). rewrite count_all by exact Hb. lia. }
    assert (Hnext : forall x y, In x (pre ++ b) -> In y rest -> str_ltb (fst x) (fst y) = true).
    { intros x y Hx Hy. apply in_app_or in Hx as [Hx|Hx].
      - apply (str_ltb_trans _ name); [now apply Hpre|now apply Hrest].
      - rewrite (Hb x Hx). now apply Hrest. }
    assert (Hlen : length rest <= f). { simpl in Hf. rewrite E, app_length in Hf. lia. }
    cbn [convert_loop]. rewrite Hcount.
    destruct blk as [|b2 blk].
    + simpl length. simpl Nat.ltb. simpl in E. subst it. cbn [app] in *.
      change (One (on_single h value)) with (hand h (One value)). rewrite <- write_last.
      apply (IH (pre ++ b)); auto.
      * rewrite Em', app_assoc. reflexivity.
      * apply converted_block; [exact HC|exact Hpre|discriminate|exact Hb|reflexivity].
    + replace (Nat.ltb (length b) 2) with false by (unfold b; simpl; destruct (length blk); reflexivity).
      assert (Hlow : lower_bound m name = b ++ rest).
      { rewrite Em'. apply lower_bound_at; [exact Hpre|]. intros y Hy. apply in_app_or in Hy as [Hy|Hy].
        - rewrite (Hb y Hy). apply str_ltb_irrefl.
        - apply str_ltb_asym. now apply Hrest. }
      assert (Hup : upper_bound m name = rest).
      { rewrite Em', app_assoc. apply upper_bound_at; [|exact Hrest]. intros y Hy. apply in_app_or in Hy as [Hy|Hy].
        - apply str_ltb_asym. now apply Hpre.
        - rewrite (Hb y Hy). apply str_ltb_irrefl. }
      rewrite Hlow, Hup, range_app.
      replace (Many (map (fun x => on_listed h (snd x)) b)) with (hand h (Many (map snd b))) by (cbn [hand]; now rewrite map_map).
      rewrite <- write_last. apply (IH (pre ++ b)); auto.
      * rewrite Em', app_assoc. reflexivity.
      * apply converted_block; [exact HC|exact Hpre|discriminate|exact Hb|]. simpl. split; [reflexivity|]. simpl. lia.
Qed.

Lemma object_set_keys o name v : NoDup (map fst o) -> NoDup (map fst (object_set o name v)).
Proof.
  intros H. unfold object_set. destruct (FindMember o name) as [w|] eqn:E; [now rewrite set_keys|].
  rewrite map_app. cbn [map fst].
  apply (Permutation.Permutation_NoDup (Permutation.Permutation_cons_append (map fst o) name)). constructor; [|exact H]. intros Hi. apply in_map_iff in Hi as [[k w] [Ek Hi]]. cbn in Ek. subst k.
  exact (find_none _ _ E w Hi).
Qed.

Lemma set_in_nodup o name v : NoDup (map fst o) -> forall k w, In (k, w) (SetMember o name v) ->
  (k = name /\ w = v) \/ (k <> name /\ In (k, w) o).
Proof.
  induction o as [|[k' w'] o IH]; cbn [SetMember map fst]; intros Hn k w Hi; [destruct Hi|].
  inversion Hn as [|? ? Hk Hn']; subst. destruct (str_eqb k' name) eqn:E.
  - apply str_eqb_eq in E. subst k'. destruct Hi as [[= <- <-]|Hi]; [now left|]. right. split; [|now right].
    intros ->. apply Hk. change name with (fst (name, w)). now apply in_map.
  - destruct Hi as [[= <- <-]|Hi]; [right; split; [now apply str_eqb_neq|now left]|].
    destruct (IH Hn' k w Hi) as [H|[H1 H2]]; [now left|right; split; [exact H1|now right]].
Qed.
Lemma set_other o name v k w : k <> name -> In (k, w) o -> In (k, w) (SetMember o name v).
Proof.
  intros Hk. induction o as [|[k' w'] o IH]; [intros []|]. cbn [SetMember]. intros [[= -> ->]|Hi].
  - rewrite (proj2 (str_eqb_neq k name)) by exact Hk. now left.
  - destruct (str_eqb k' name); [now right|]. right. now apply IH.
Qed.
Lemma set_here o name v w : In (name, w) o -> In (name, v) (SetMember o name v).
Proof.
  induction o as [|[k' w'] o IH]; [intros []|]. cbn [SetMember]. destruct (str_eqb k' name) eqn:E.
  - apply str_eqb_eq in E. subst k'. intros _. now left.
  - intros [[= -> ->]|Hi]; [now rewrite str_eqb_refl in E|]. right. now apply IH.
Qed.

Lemma object_set_in o name v : NoDup (map fst o) -> forall k w,
  In (k, w) (object_set o name v) <-> (k = name /\ w = v) \/ (k <> name /\ In (k, w) o).
Proof.
  intros Hn k w. unfold object_set. destruct (FindMember o name) as [u|] eqn:E.
  - split; [now apply set_in_nodup|]. intros [[-> ->]|[H1 H2]]; [eapply set_here, find_some, E|now apply set_other].
  - rewrite in_app_iff. cbn [In]. split.
    + intros [H|[[= <- <-]|[]]]; [|now left]. right. split; [|exact H]. intros ->. exact (find_none _ _ E w H).
    + intros [[-> ->]|[H1 H2]]; auto.
Qed.

Lemma write_written h o : written (on_name h) (hand h) o (write h o []).
Proof.
  induction o as [|[name w] o [IH1 IH2]] using rev_ind.
  - split; [constructor|]. intros k v. split; [intros []|]. intros [b [n [w [a [E _]]]]]. destruct b; discriminate.
  - rewrite write_last. split; [now apply object_set_keys|]. intros k v. rewrite object_set_in by exact IH1. rewrite IH2. split.
    + intros [[-> ->]|[Hk [b [n [w' [a [-> [-> [-> H]]]]]]]]].
      * exists o, name, w, []. repeat split. intros n' w' [].
      * exists b, n, w', (a ++ [(name, w)]). rewrite <- app_assoc. repeat split. intros n' w'' Hi.
        apply in_app_or in Hi as [Hi|[[= <- <-]|[]]]; [now apply (H n' w'')|congruence].
    + intros [b [n [w' [a [E [-> [-> H]]]]]]]. destruct a as [|x a _] using rev_ind.
      * apply app_inj_tail in E as [-> [= -> ->]]. now left.
      * rewrite app_comm_cons, app_assoc in E. apply app_inj_tail in E as [-> E]. subst x. right. split.
        { intros E. apply (H name w); [apply in_or_app; right; now left|now rewrite E]. }
        exists b, n, w', a. repeat split. intros n' w'' Hi. apply (H n' w''). apply in_or_app. now left.
Qed.

Theorem convert_written h m : StronglySorted name_le m ->
  exists o o', converted m o /\ convert_map h m = Ok o' /\ written (on_name h) (hand h) o o'.
Proof.
  intros HS. destruct (convert_loop_writes h m (length m) [] m []) as [o [E HC]]; auto; try (intros x y []).
  { split; [constructor|]. split; intros a b []. }
  exists o, (write h o []). split; [exact HC|]. split; [exact E|]. apply write_written.
Qed.

Lemma written_value key f g o o' : (forall v, f v = g v) -> written key f o o' -> written key g o o'.
Proof.
  intros E [H1 H2]. split; [exact H1|]. intros k v. rewrite H2.
  split; intros [b [n [w [a [Eo [Ek [Ev H]]]]]]]; exists b, n, w, a; rewrite ?E in *; auto.
Qed.

Theorem python_cuts m : StronglySorted name_le m ->
  exists o o', converted m o /\ convert_map python_handover m = Ok o' /\
    written c_str (fun v => match v with One x => One (c_str x) | Many xs => Many (map c_str xs) end) o o'.
Proof. exact (convert_written python_handover m). Qed.

Theorem php_cuts m : StronglySorted name_le m ->
  exists o o', converted m o /\ convert_map php_handover m = Ok o' /\
    written c_str (fun v => match v with One x => One (c_str x) | Many xs => Many xs end) o o'.
Proof.
  intros H. destruct (convert_written php_handover m H) as [o [o' [H1 [H2 H3]]]]. exists o, o'. split; [exact H1|]. split; [exact H2|].
  eapply written_value; [|exact H3]. intros [x|xs]; [reflexivity|]. cbn. now rewrite map_id.
Qed.
