(** Proofs about the maps of script languages (C63). *)

From Coq Require Import Ascii String NArith ZArith Bool List Sorted Permutation Lia.
From Verif Require Import Base Match RuleMatching TextSpec ExtractSpec StringProofs NodeProofs ResultProofs Convert ConvertSpec ConvertProofs
  LocationProofs Scripts ScriptSpec.
Import ListNotations.
Open Scope outcome_scope.

(** ** The loop *)

Section Loop.
Context {M : Type} (set : M -> str -> member -> M).

Definition fill (o : object) (a : M) : M := fold_left (fun a x => set a (fst x) (snd x)) o a.

Lemma fill_last o a name v : fill (o ++ [(name, v)]) a = set (fill o a) name v.
Proof. unfold fill. now rewrite fold_left_app. Qed.

Lemma script_loop_spec m a : forall fuel pre it o,
  StronglySorted name_le m -> m = pre ++ it -> length it <= fuel ->
  (forall x y, In x pre -> In y it -> str_ltb (fst x) (fst y) = true) ->
  converted pre o ->
  exists o', script_loop set node_handover fuel m it (fill o a) = Ok (fill o' a) /\ converted m o'.
Proof.
  induction fuel as [|f IH]; intros pre it o HS Em Hf Hlt HC.
  - destruct it; [|simpl in Hf; lia]. exists o. split; [reflexivity|]. rewrite Em, app_nil_r. exact HC.
  - destruct it as [|[name value] it].
    { exists o. split; [reflexivity|]. rewrite Em, app_nil_r. exact HC. }
    pose proof HS as HS'. rewrite Em in HS'. apply sorted_app_inv in HS' as [_ [HSi _]].
    destruct (split_block _ _ HSi) as [blk [rest [E [Hblk Hrest]]]]. simpl in Hblk, Hrest.
    assert (Hpre : forall y, In y pre -> str_ltb (fst y) name = true).
    { intros y Hy. apply (Hlt y (name, value) Hy). now left. }
    set (b := (name, value) :: blk).
    assert (Em' : m = pre ++ (b ++ rest)) by (rewrite Em, E; reflexivity).
    assert (Hb : forall y, In y b -> fst y = name) by (intros y [<-|Hy]; [reflexivity|now apply Hblk]).
    assert (Hcount : multimap_count m name = length b).
    { rewrite Em', !count_app. rewrite (count_none pre) by (intros; left; now apply Hpre).
      rewrite (count_none rest) by (intros; right; now apply Hrest). rewrite count_all by exact Hb. lia. }
    assert (Hnext : forall x y, In x (pre ++ b) -> In y rest -> str_ltb (fst x) (fst y) = true).
    { intros x y Hx Hy. apply in_app_or in Hx as [Hx|Hx].
      - apply (str_ltb_trans _ name); [now apply Hpre|now apply Hrest].
      - rewrite (Hb x Hx). now apply Hrest. }
    assert (Hlen : length rest <= f). { simpl in Hf. rewrite E, app_length in Hf. lia. }
    cbn [script_loop]. rewrite Hcount. cbn [on_name on_single on_listed node_handover].
    destruct blk as [|b2 blk].
    + simpl length. simpl Nat.ltb. simpl in E. subst it. cbn [app] in *. rewrite <- fill_last.
      apply (IH (pre ++ b)); auto.
      * rewrite Em', app_assoc. reflexivity.
      * apply converted_block; [exact HC|exact Hpre|discriminate|exact Hb|reflexivity].
    + replace (Nat.ltb (length b) 2) with false by (unfold b; simpl; destruct (length blk); reflexivity).
      assert (Hlow : lower_bound m name = b ++ rest).
      { rewrite Em'. apply lower_bound_at; [exact Hpre|]. intros y Hy. apply in_app_or in Hy as [Hy|Hy].
        - rewrite (Hb y Hy). apply str_ltb_irrefl.
        - apply str_ltb_asym. now apply Hrest. }
      assert (Hup : upper_bound m name = rest).
      { rewrite Em', app_assoc. apply upper_bound_at; [|exact Hrest]. intros y Hy. apply in_app_or in Hy as [Hy|Hy].
        - apply str_ltb_asym. now apply Hpre.
        - rewrite (Hb y Hy). apply str_ltb_irrefl. }
      rewrite Hlow, Hup, range_app, <- fill_last. apply (IH (pre ++ b)); auto.
      * rewrite Em', app_assoc. reflexivity.
      * apply converted_block; [exact HC|exact Hpre|discriminate|exact Hb|]. simpl. split; [reflexivity|]. simpl. lia.
Qed.

Lemma script_loop_keeps h m : keeps h m -> forall fuel it a, (forall x, In x it -> In x m) ->
  script_loop set h fuel m it a = script_loop set node_handover fuel m it a.
Proof.
  intros Hk. induction fuel as [|f IH]; intros it o Hit; [destruct it as [|[? ?] ?]; reflexivity|].
  destruct it as [|[name value] it]; [reflexivity|].
  cbn [script_loop]. pose proof (Hk name value (Hit _ (or_introl eq_refl))) as [K1 [K2 _]].
  cbn [on_name on_single on_listed node_handover]. rewrite K1, K2.
  destruct (Nat.ltb (multimap_count m name) 2).
  - apply IH. intros x Hx. apply Hit. now right.
  - rewrite (map_eq_on (fun x => on_listed h (snd x)) (fun x => snd x)).
    + apply IH. intros x Hx. now apply upper_in in Hx.
    + intros [n v] Hx. apply range_in, lower_in in Hx. simpl. now destruct (Hk n v Hx) as [_ [_ K3]].
Qed.

Lemma script_map h m a : StronglySorted name_le m -> keeps h m ->
  exists o, script_loop set h (length m) m m a = Ok (fill o a) /\ converted m o.
Proof.
  intros HS Hk. rewrite (script_loop_keeps h m Hk) by auto.
  apply (script_loop_spec m a (length m) [] m []); auto.
  all: try (intros x y []).
  split; [constructor|]. split; intros a' b [].
Qed.
End Loop.

(** ** Numbers *)

Lemma digit_value_spec c d : digit_value c = Some d <-> (d < 10)%N /\ c = digit_of d.
Proof.
  unfold digit_value, digit_of. split.
  - destruct ((48 <=? N_of_ascii c) && (N_of_ascii c <=? 57))%N eqn:E; [|discriminate]. intros [= <-].
    apply andb_true_iff in E as [E1 E2]. apply N.leb_le in E1, E2. split; [lia|].
    replace (48 + (N_of_ascii c - 48))%N with (N_of_ascii c) by lia. now rewrite ascii_N_embedding.
  - intros [Hd ->]. rewrite N_ascii_embedding by lia.
    replace ((48 <=? 48 + d) && (48 + d <=? 57))%N with true
      by (symmetry; apply andb_true_iff; split; apply N.leb_le; lia). f_equal. lia.
Qed.

Lemma digits_value_app x y : forall acc, digits_value acc (x ++ y) =
  match digits_value acc x with Some a => digits_value a y | None => None end.
Proof. induction x as [|c x IH]; intros acc; [reflexivity|]. cbn [app digits_value]. now destruct (digit_value c). Qed.

Lemma canonical_last x d : x <> [] -> x <> ["0"%char] -> (d < 10)%N ->
  canonical (x ++ [digit_of d]) = match canonical x with Some n => Some (10 * n + d)%N | None => None end.
Proof.
  intros Hx Hz Hd. assert (Hv : digit_value (digit_of d) = Some d) by now apply digit_value_spec.
  assert (Hgen : forall acc, digits_value acc (x ++ [digit_of d]) =
      match digits_value acc x with Some n => Some (10 * n + d)%N | None => None end).
  { intros acc. rewrite digits_value_app. destruct (digits_value acc x) as [a|]; [|reflexivity]. cbn. now rewrite Hv. }
  destruct x as [|c x]; [contradiction|]. specialize (Hgen 0%N). unfold canonical.
  destruct (ascii_dec c "0"%char) as [->|Hc].
  - destruct x as [|c' x]; [contradiction|]. reflexivity.
  - cbn [app] in *.
    assert (E : forall y, match c :: y with [] => None | "0"%char :: _ :: _ => None | _ => digits_value 0 (c :: y) end = digits_value 0 (c :: y)).
    { intros y. destruct c as [[|] [|] [|] [|] [|] [|] [|] [|]]; try reflexivity. now destruct Hc. }
    rewrite (E (x ++ [digit_of d])), (E x). exact Hgen.
Qed.

Lemma canonical_iff x n : canonical x = Some n <-> decimal_of n x.
Proof.
  split.
  - revert n. induction x as [|c x IH] using rev_ind; intros n H; [discriminate H|].
    destruct x as [|c0 x0].
    { assert (H' : match digit_value c with Some d => Some d | None => None end = Some n).
      { cbn [app] in H. unfold canonical in H.
        assert (E : match [c] with [] => None | "0"%char :: _ :: _ => None | _ => digits_value 0 [c] end = digits_value 0 [c])
          by (destruct c as [[|] [|] [|] [|] [|] [|] [|] [|]]; reflexivity).
        rewrite E in H. cbn in H. destruct (digit_value c); [|discriminate]. exact H. }
      destruct (digit_value c) as [d|] eqn:E; [|discriminate]. injection H' as <-.
      apply digit_value_spec in E as [Hd ->]. now constructor. }
    set (x := c0 :: x0) in *.
    assert (Hc : exists d, digit_value c = Some d).
    { destruct (digit_value c) as [d|] eqn:E; [now exists d|]. exfalso.
      assert (Hn : forall acc, digits_value acc (x ++ [c]) = None).
      { intros acc. rewrite digits_value_app. destruct (digits_value acc x); [|reflexivity]. cbn. now rewrite E. }
      unfold x in *. cbn [app] in *. specialize (Hn 0%N).
      destruct c0 as [[|] [|] [|] [|] [|] [|] [|] [|]]; unfold canonical in H; destruct (x0 ++ [c]) eqn:E0;
        try (destruct x0; discriminate); congruence. }
    destruct Hc as [d Hc]. apply digit_value_spec in Hc as [Hd ->].
    destruct (list_eq_dec ascii_dec x ["0"%char]) as [Ez|Ez].
    { rewrite Ez in H. discriminate H. }
    rewrite canonical_last in H by (try discriminate; auto).
    destruct (canonical x) as [k|] eqn:E; [|discriminate]. injection H as <-.
    specialize (IH k eq_refl). apply decimal_more; auto.
    destruct (N.eq_dec k 0) as [->|]; [|lia]. exfalso. apply Ez. apply (decimal_unique 0); [exact IH|].
    apply (decimal_digit 0). lia.
  - induction 1 as [d Hd|n d x Hn Hd HD IH].
    + unfold canonical.
      assert (E : match [digit_of d] with [] => None | "0"%char :: _ :: _ => None | _ => digits_value 0 [digit_of d] end = digits_value 0 [digit_of d])
        by (destruct (digit_of d) as [[|] [|] [|] [|] [|] [|] [|] [|]]; reflexivity).
      rewrite E. cbn [digits_value]. rewrite (proj2 (digit_value_spec _ d)) by auto. reflexivity.
    + rewrite canonical_last; auto.
      * now rewrite IH.
      * now apply decimal_bounds in HD.
      * intros ->. injection IH as <-. lia.
Qed.

Lemma canonical_none x : canonical x = None <-> forall n, ~ decimal_of n x.
Proof.
  destruct (canonical x) as [n|] eqn:E; split; try discriminate; auto.
  - intros H. apply canonical_iff in E. now apply H in E.
  - intros _ n H. apply canonical_iff in H. congruence.
Qed.

(** ** JavaScript *)

Lemma array_index_iff x n : array_index x = Some n <-> is_index x n.
Proof.
  unfold array_index, is_index. rewrite <- canonical_iff. destruct (canonical x) as [k|]; [|split; [discriminate|intros [? _]; discriminate]].
  destruct (k <? 4294967295)%N eqn:E; [apply N.ltb_lt in E|apply N.ltb_ge in E]; split.
  - intros [= <-]. auto.
  - intros [[= <-] _]. reflexivity.
  - discriminate.
  - intros [[= <-] ?]. lia.
Qed.

Lemma array_index_none x : array_index x = None <-> forall n, ~ is_index x n.
Proof.
  destruct (array_index x) as [n|] eqn:E; split; try discriminate; auto.
  - intros H. apply array_index_iff in E. now apply H in E.
  - intros _ n H. apply array_index_iff in H. congruence.
Qed.

Lemma converted_without name m o : converted m o ->
  converted (without name m) (filter (fun x => negb (str_eqb (fst x) name)) o).
Proof.
  intros [HS [H1 H2]].
  assert (Hv : forall n, n <> name -> values_of n (without name m) = values_of n m).
  { intros n Hn. unfold values_of, without. clear -Hn. induction m as [|[k v] m IH]; [reflexivity|]. cbn.
    destruct (str_eqb k name) eqn:E; cbn; [|destruct (str_eqb k n); cbn; now rewrite IH].
    apply str_eqb_eq in E. subst k. now rewrite (proj2 (str_eqb_neq name n)) by auto. }
  split; [|split].
  - clear -HS. induction HS as [|x o HS IH HF]; [constructor|]. cbn [filter]. destruct (negb _); [|exact IH].
    constructor; [exact IH|]. rewrite Forall_forall in *. intros y Hy. apply filter_In in Hy as [Hy _]. now apply HF.
  - intros n v Hi. apply filter_In in Hi as [Hi Hne]. cbn in Hne. apply negb_true_iff, str_eqb_neq in Hne.
    rewrite Hv by auto. now apply H1.
  - intros n v Hi. apply filter_In in Hi as [Hi Hne]. destruct (H2 n v Hi) as [w Hw]. exists w. apply filter_In. auto.
Qed.

Lemma js_fill o : forall own pr, (forall x y, In x own -> In y o -> str_ltb (fst x) (fst y) = true) ->
  StronglySorted key_lt o ->
  fill js_set o (mk_js own pr) =
  mk_js (own ++ filter (fun x => negb (str_eqb (fst x) proto)) o)
        (match FindMember o proto with Some (Many vs) => Some vs | _ => pr end).
Proof.
  induction o as [|[k v] o IH]; intros own pr Hlt HS; [cbn; now rewrite app_nil_r|].
  inversion HS as [|? ? HS' HF]; subst. rewrite Forall_forall in HF.
  unfold fill in *. cbn [fold_left filter FindMember fst snd]. unfold js_set at 2. cbn [js_own js_proto]. fold proto.
  destruct (str_eqb k proto) eqn:E; cbn [negb].
  - apply str_eqb_eq in E. subst k.
    assert (Hno : FindMember o proto = None).
    { apply find_absent. intros w Hw. specialize (HF _ Hw). unfold key_lt in HF. cbn [fst] in HF. now rewrite str_ltb_irrefl in HF. }
    destruct v as [x|vs]; rewrite IH; auto; try (intros; apply Hlt; auto; now right); now rewrite Hno.
  - unfold object_set. rewrite find_absent.
    + rewrite IH; auto.
      * now rewrite <- app_assoc.
      * intros x y Hx Hy. apply in_app_or in Hx as [Hx|[<-|[]]]; [apply Hlt; auto; now right|]. now apply HF.
    + intros w Hw. specialize (Hlt _ (k, v) Hw (or_introl eq_refl)). cbn in Hlt. now rewrite str_ltb_irrefl in Hlt.
Qed.

Lemma insert_perm n x l : Permutation (map snd (insert_index n x l)) (x :: map snd l).
Proof.
  induction l as [|[k y] l IH]; [reflexivity|]. cbn [insert_index]. destruct (n <? k)%N; [reflexivity|].
  cbn [map snd]. rewrite IH. apply perm_swap.
Qed.

Definition indexed (l : list (N * (str * member))) : Prop :=
  (forall n x, In (n, x) l -> is_index (fst x) n) /\ StronglySorted (fun a b => (fst a < fst b)%N) l.

Lemma insert_in n x l e : In e (insert_index n x l) -> e = (n, x) \/ In e l.
Proof.
  induction l as [|[k y] l IH]; cbn [insert_index]; [intros [<-|[]]; auto|].
  destruct (n <? k)%N; intros [<-|H]; auto.
  - right. now left.
  - destruct (IH H); auto. right. now right.
Qed.

Lemma insert_indexed n x l : is_index (fst x) n -> (forall k y, In (k, y) l -> k <> n) -> indexed l -> indexed (insert_index n x l).
Proof.
  intros Hx. induction l as [|[k y] l IH]; intros Hne [H1 H2].
  - split; [|repeat constructor]. intros ? ? [[= <- <-]|[]]. exact Hx.
  - split. { intros a b Hi. apply insert_in in Hi as [[= -> ->]|Hi]; auto. }
    inversion H2 as [|? ? H2' HF]; subst. cbn [insert_index]. destruct (n <? k)%N eqn:E.
    + apply N.ltb_lt in E. constructor; [exact H2|]. constructor; [exact E|]. rewrite Forall_forall in *. intros z Hz. cbn.
      specialize (HF z Hz). cbn in HF. lia.
    + apply N.ltb_ge in E. assert (k <> n) by (apply (Hne k y); now left).
      destruct IH as [_ IH]. { intros a b Hi. apply (Hne a b). now right. } { split; [|exact H2']. intros a b Hi. apply H1. now right. }
      constructor; [exact IH|]. rewrite Forall_forall in *. intros z Hz. apply insert_in in Hz as [->|Hz]; [cbn; lia|now apply HF].
Qed.

Lemma js_indices_spec own : StronglySorted key_lt own ->
  indexed (js_indices own) /\ Permutation (map snd (js_indices own))
    (filter (fun x => match array_index (fst x) with Some _ => true | None => false end) own).
Proof.
  induction 1 as [|x own HS [IH1 IH2] HF]; [split; [split; [intros ? ? []|constructor]|reflexivity]|].
  cbn [js_indices filter]. destruct (array_index (fst x)) as [n|] eqn:E; [|auto]. apply array_index_iff in E.
  split.
  - apply insert_indexed; auto. intros k y Hi ->.
    pose proof (proj1 IH1 _ _ Hi) as [Hk _]. destruct E as [E _]. pose proof (decimal_unique _ _ _ E Hk) as Exy.
    assert (Hy : In y own).
    { apply (in_map snd) in Hi. rewrite IH2 in Hi. now apply filter_In in Hi. }
    rewrite Forall_forall in HF. specialize (HF y Hy). unfold key_lt in HF. rewrite Exy, str_ltb_irrefl in HF. discriminate.
  - rewrite insert_perm, IH2. reflexivity.
Qed.

Lemma sorted_app_intro {A} (R : A -> A -> Prop) l l' : StronglySorted R l -> StronglySorted R l' ->
  (forall x y, In x l -> In y l' -> R x y) -> StronglySorted R (l ++ l').
Proof.
  induction 1 as [|x l HS IH HF]; intros H' H; [exact H'|]. cbn. constructor.
  - apply IH; auto. intros; apply H; auto. now right.
  - apply Forall_app. split; [exact HF|]. apply Forall_forall. intros y Hy. apply H; auto. now left.
Qed.

Lemma own_properties_spec o : StronglySorted key_lt (js_own o) ->
  Permutation (own_properties o) (js_own o) /\ StronglySorted listed_before (own_properties o).
Proof.
  intros HS. destruct (js_indices_spec _ HS) as [[H1 H2] HP]. unfold own_properties. split.
  - rewrite HP. clear. induction (js_own o) as [|x l IH]; [reflexivity|]. cbn [filter].
    destruct (array_index (fst x)); cbn [app]; [now apply perm_skip|]. rewrite <- Permutation_middle. now apply perm_skip.
  - apply sorted_app_intro.
    + clear HP. revert H1. induction H2 as [|[n x] l H2 IH HF]; intros H1; [constructor|]. cbn [map snd]. constructor.
      * apply IH. intros; apply H1. now right.
      * apply Forall_forall. intros y Hy. apply in_map_iff in Hy as [[k y'] [<- Hy]]. left. exists n, k. cbn.
        split; [apply H1; now left|]. split; [apply H1; now right|]. rewrite Forall_forall in HF. apply (HF _ Hy).
    + clear -HS. induction HS as [|x l HS IH HF]; [constructor|]. cbn [filter]. destruct (array_index (fst x)) eqn:E; [exact IH|].
      constructor; [exact IH|]. apply Forall_forall. intros y Hy. apply filter_In in Hy as [Hy Hn]. right. right.
      rewrite Forall_forall in HF. specialize (HF y Hy). pose proof (proj1 (array_index_none _) E) as E'. split; [exact E'|]. split; [|exact HF].
      apply array_index_none. now destruct (array_index (fst y)).
    + intros x y Hx Hy. right. left. split.
      * apply in_map_iff in Hx as [[n x'] [<- Hx]]. exists n. now apply H1.
      * apply filter_In in Hy as [_ Hy]. apply array_index_none. now destruct (array_index (fst y)).
Qed.

Theorem js_map_spec m : StronglySorted name_le m ->
  exists o members, js_map m = Ok o /\ converted (without proto m) members /\
    Permutation (own_properties o) members /\ StronglySorted listed_before (own_properties o) /\
    js_proto o = (match values_of proto m with _ :: _ :: _ => Some (values_of proto m) | _ => None end).
Proof.
  intros HS. destruct (script_map js_set node_handover m (mk_js [] None) HS) as [o [E HC]]; [intros n v _; cbn; auto|].
  pose proof HC as [HSo [Hst Hall]].
  rewrite js_fill in E by (auto; intros x y []). cbn [app] in E.
  eexists. exists (filter (fun x => negb (str_eqb (fst x) proto)) o). split; [exact E|].
  pose proof (converted_without proto m o HC) as HW. split; [exact HW|].
  destruct (own_properties_spec (mk_js (filter (fun x => negb (str_eqb (fst x) proto)) o)
        (match FindMember o proto with Some (Many vs) => Some vs | _ => None end))) as [H1 H2]; [exact (proj1 HW)|].
  split; [exact H1|]. split; [exact H2|]. cbn [js_proto].
  destruct (FindMember o proto) as [w|] eqn:EF.
  - apply find_some in EF. specialize (Hst _ _ EF). destruct w as [x|xs]; cbn [stands_for] in Hst.
    + now rewrite Hst.
    + destruct Hst as [-> HL]. destruct xs as [|? [|? ?]]; cbn in HL; try lia. reflexivity.
  - rewrite values_of_nil; [reflexivity|]. intros v Hv. destruct (Hall _ _ Hv) as [w Hw]. now apply find_none in Hw.
Qed.

(** ** PHP *)

Lemma decimal_no_minus n x : ~ decimal_of n ("-"%char :: x).
Proof. intros H. apply canonical_iff in H. discriminate H. Qed.

Lemma to_key_spec name : key_of name (to_key name).
Proof.
  assert (HL : LONG_LIMIT = 9223372036854775808%Z) by reflexivity.
  unfold to_key. destruct name as [|c x].
  { split; [reflexivity|]. intros n H. inversion H as [? k H0|]; subst. now apply decimal_bounds in H0. }
  destruct (ascii_dec c "-"%char) as [->|Hc].
  - destruct (canonical x) as [n|] eqn:E.
    + apply canonical_iff in E. destruct ((1 <=? Z.of_N n) && (Z.of_N n <=? LONG_LIMIT))%Z eqn:EB.
      * apply andb_true_iff in EB as [E1 E2]. apply Z.leb_le in E1, E2. constructor; auto; lia.
      * split; [reflexivity|]. intros k H. inversion H as [? ? H0|y k' H0 H1 H2]; subst.
        -- now apply decimal_no_minus in H0.
        -- pose proof (decimal_inj _ _ _ E H0) as ->. apply andb_false_iff in EB as [EB|EB]; apply Z.leb_gt in EB; lia.
    + split; [reflexivity|]. intros k H. inversion H as [? ? H0|y k' H0 H1 H2]; subst.
      * now apply decimal_no_minus in H0.
      * apply canonical_iff in H0. congruence.
  - assert (E0 : (match c :: x with
        | "-"%char :: x => match canonical x with
            | Some n => if ((1 <=? Z.of_N n) && (Z.of_N n <=? LONG_LIMIT))%Z then PhpInt (- Z.of_N n) else PhpString (c :: x)
            | None => PhpString (c :: x) end
        | _ => match canonical (c :: x) with
            | Some n => if (Z.of_N n <? LONG_LIMIT)%Z then PhpInt (Z.of_N n) else PhpString (c :: x)
            | None => PhpString (c :: x) end end) =
      match canonical (c :: x) with
            | Some n => if (Z.of_N n <? LONG_LIMIT)%Z then PhpInt (Z.of_N n) else PhpString (c :: x)
            | None => PhpString (c :: x) end).
    { destruct c as [[|] [|] [|] [|] [|] [|] [|] [|]]; try reflexivity. now destruct Hc. }
    rewrite E0. destruct (canonical (c :: x)) as [n|] eqn:E.
    + apply canonical_iff in E. destruct (Z.of_N n <? LONG_LIMIT)%Z eqn:EB.
      * apply Z.ltb_lt in EB. constructor; auto. lia.
      * split; [reflexivity|]. apply Z.ltb_ge in EB. intros k H. inversion H as [? ? H0 H1|y k' H0 H1 H2]; subst; [|now destruct Hc].
        pose proof (decimal_inj _ _ _ E H0) as ->. lia.
    + split; [reflexivity|]. intros k H. inversion H as [? ? H0|y k' H0 H1 H2]; subst; [|now destruct Hc].
      apply canonical_iff in H0. congruence.
Qed.

Lemma php_integer_inj x y n : php_integer x n -> php_integer y n -> x = y.
Proof.
  intros H1 H2. inversion H1 as [? a Ha|x' a Ha Ha']; subst; inversion H2 as [? b Hb|y' b Hb Hb']; subst.
  - assert (a = b) by lia. subst. now apply (decimal_unique b).
  - assert (Z.of_N a = 0 /\ Z.of_N b = 0)%Z as [? ?] by lia. lia.
  - lia.
  - assert (a = b) by lia. subst. f_equal. now apply (decimal_unique b).
Qed.

Lemma key_of_inj x y k : key_of x k -> key_of y k -> x = y.
Proof. destruct k as [n|z]; cbn; [apply php_integer_inj|intros [-> _] [-> _]; reflexivity]. Qed.

Lemma php_integer_fun x n n' : php_integer x n -> php_integer x n' -> n = n'.
Proof.
  intros H1 H2. inversion H1 as [? a Ha|x' a Ha Ha']; subst; inversion H2 as [? b Hb|y' b Hb Hb']; subst.
  - now rewrite (decimal_inj _ _ _ Ha Hb).
  - now apply decimal_no_minus in Ha.
  - now apply decimal_no_minus in Hb.
  - now rewrite (decimal_inj _ _ _ Ha Hb).
Qed.

Lemma key_eqb_iff a b : key_eqb a b = true <-> a = b.
Proof.
  destruct a as [m|x], b as [n|y]; cbn; try (split; discriminate).
  - rewrite Z.eqb_eq. split; congruence.
  - rewrite str_eqb_eq. split; congruence.
Qed.

Lemma php_update_new a k v : (forall w, ~ In (k, w) a) -> php_update a k v = a ++ [(k, v)].
Proof.
  induction a as [|[k' w] a IH]; intros H; [reflexivity|]. cbn. destruct (key_eqb k' k) eqn:E.
  - apply key_eqb_iff in E. subst. destruct (H w). now left.
  - rewrite IH; [reflexivity|]. intros u Hu. apply (H u). now right.
Qed.

Definition keyed (o : object) : php_array := map (fun x => (to_key (fst x), snd x)) o.

Lemma php_fill o : forall pre, StronglySorted key_lt (pre ++ o) -> fill php_set o (keyed pre) = keyed (pre ++ o).
Proof.
  induction o as [|[k v] o IH]; intros pre HS; [cbn; now rewrite app_nil_r|].
  unfold fill in *. cbn [fold_left fst snd]. unfold php_set at 2. rewrite php_update_new.
  - replace (keyed pre ++ [(to_key k, v)]) with (keyed (pre ++ [(k, v)])) by (unfold keyed; now rewrite map_app).
    rewrite IH by now rewrite <- app_assoc. now rewrite <- app_assoc.
  - intros w Hw. unfold keyed in Hw. apply in_map_iff in Hw as [[k' w'] [[= E ->] Hi]]. cbn in E.
    assert (k' = k). { apply (key_of_inj _ _ (to_key k)); [rewrite <- E|]; apply to_key_spec. } subst k'.
    apply sorted_app_inv in HS as [_ [_ HS]]. specialize (HS _ _ Hi (or_introl eq_refl)). unfold key_lt in HS. cbn in HS.
    now rewrite str_ltb_irrefl in HS.
Qed.

Lemma php_map_fill m : StronglySorted name_le m -> no_nul m ->
  exists o, php_map m = Ok (keyed o) /\ converted m o.
Proof.
  intros HS Hn. destruct (script_map php_set php_handover m [] HS) as [o [E HC]].
  - apply no_nul_keeps; [exact Hn|]. intros x Hx. cbn. rewrite (c_str_id x Hx). auto.
  - exists o. split; [|exact HC]. change (@nil (php_key * member)) with (keyed []) in E. rewrite php_fill in E by exact (proj1 HC). exact E.
Qed.

Lemma php_get_keyed o name : php_get (keyed o) (to_key name) = FindMember o name.
Proof.
  induction o as [|[k v] o IH]; [reflexivity|]. cbn [keyed map php_get FindMember fst snd].
  destruct (str_eqb k name) eqn:E.
  - apply str_eqb_eq in E. subst. now rewrite (proj2 (key_eqb_iff _ _) eq_refl).
  - destruct (key_eqb (to_key k) (to_key name)) eqn:EK; [|exact IH].
    apply key_eqb_iff in EK. apply str_eqb_neq in E. destruct E. apply (key_of_inj _ _ (to_key k)); [apply to_key_spec|].
    rewrite EK. apply to_key_spec.
Qed.

(** Each name finds its values; the entries are those of the names, in the order
    of the names. *)
Theorem php_map_spec m : StronglySorted name_le m -> no_nul m ->
  exists a o, php_map m = Ok a /\ converted m o /\
    Forall2 (fun e x => key_of (fst x) (fst e) /\ snd e = snd x) a o /\
    forall name, match php_get a (to_key name) with
                 | Some v => stands_for v (values_of name m)
                 | None => values_of name m = []
                 end.
Proof.
  intros HS Hn. destruct (php_map_fill m HS Hn) as [o [E HC]]. exists (keyed o), o. split; [exact E|]. split; [exact HC|]. split.
  - clear. induction o as [|x o IH]; [constructor|]. constructor; [|exact IH]. split; [apply to_key_spec|reflexivity].
  - intros name. rewrite php_get_keyed. destruct HC as [_ [H1 H2]]. destruct (FindMember o name) as [v|] eqn:EF.
    + apply find_some in EF. now apply H1.
    + apply values_of_nil. intros v Hv. destruct (H2 _ _ Hv) as [w Hw]. now apply find_none in Hw.
Qed.

(** ** Lists of PHP *)

Definition digit_name (n : nat) : str := [ascii_of_nat (48 + n)].

Lemma list_from o : forall n, is_list_from (Z.of_nat n) (keyed o) = true <->
  forall i x, nth_error o i = Some x -> php_integer (fst x) (Z.of_nat (n + i)).
Proof.
  induction o as [|[k v] o IH]; intros n; [split; [intros _ [|i] x; discriminate|reflexivity]|].
  cbn [keyed map is_list_from fst snd]. pose proof (to_key_spec k) as HK. destruct (to_key k) as [z|x]; cbn in HK.
  - rewrite andb_true_iff, Z.eqb_eq. change (is_list_from (Z.of_nat n + 1) (map _ o)) with (is_list_from (Z.of_nat n + 1) (keyed o)).
    replace (Z.of_nat n + 1)%Z with (Z.of_nat (S n)) by lia. rewrite IH. split.
    + intros [-> H] [|i] x Hx; cbn in Hx; [injection Hx as <-; now rewrite Nat.add_0_r|].
      specialize (H i x Hx). now replace (n + S i) with (S n + i) by lia.
    + intros H. split.
      * specialize (H 0 _ eq_refl). cbn in H. rewrite Nat.add_0_r in H. now apply (php_integer_fun k).
      * intros i x Hx. specialize (H (S i) x Hx). now replace (S n + i) with (n + S i) by lia.
  - split; [discriminate|]. intros H. specialize (H 0 _ eq_refl). cbn in H. now apply (proj2 HK) in H.
Qed.

Lemma small_decimal n : n < 10 -> decimal_of (N.of_nat n) (digit_name n).
Proof.
  intros H. unfold digit_name. replace (ascii_of_nat (48 + n)) with (digit_of (N.of_nat n)); [constructor; lia|].
  unfold digit_of, ascii_of_nat. f_equal. lia.
Qed.

Lemma php_small n x : n < 10 -> php_integer x (Z.of_nat n) <-> x = digit_name n.
Proof.
  intros H. pose proof (small_decimal n H) as HD. split.
  - intros HI. apply (php_integer_inj _ _ (Z.of_nat n)); [exact HI|]. rewrite <- nat_N_Z. constructor; [exact HD|lia].
  - intros ->. rewrite <- nat_N_Z. constructor; [exact HD|lia].
Qed.

Lemma php_ten x : php_integer x 10 -> x = s "10".
Proof.
  intros HI. apply (php_integer_inj _ _ 10); [exact HI|]. apply (php_natural _ 10); [|lia].
  apply (decimal_more 1 0 (s "1")); try lia. apply (decimal_digit 1). lia.
Qed.

Lemma key_sorted_nodup (o : object) : StronglySorted key_lt o -> NoDup (map fst o).
Proof.
  induction 1 as [|x o HS IH HF]; [constructor|]. cbn. constructor; [|exact IH]. intros Hi.
  apply in_map_iff in Hi as [y [E Hy]]. rewrite Forall_forall in HF. specialize (HF y Hy). unfold key_lt in HF.
  rewrite E, str_ltb_irrefl in HF. discriminate.
Qed.

Definition str_lt (a b : str) : Prop := str_ltb a b = true.

Lemma strict_unique (l : list str) : forall l', StronglySorted str_lt l -> StronglySorted str_lt l' ->
  (forall x, In x l <-> In x l') -> l = l'.
Proof.
  induction l as [|a l IH]; intros [|b l'] H1 H2 HE.
  - reflexivity.
  - destruct (proj2 (HE b) (or_introl eq_refl)).
  - destruct (proj1 (HE a) (or_introl eq_refl)).
  - inversion H1 as [|? ? H1' F1]; subst. inversion H2 as [|? ? H2' F2]; subst. rewrite Forall_forall in F1, F2. unfold str_lt in *.
    assert (a = b).
    { destruct (proj1 (HE a) (or_introl eq_refl)) as [|Ha]; [auto|]. destruct (proj2 (HE b) (or_introl eq_refl)) as [|Hb]; [auto|].
      pose proof (str_ltb_asym _ _ (F1 b Hb)). specialize (F2 a Ha). congruence. }
    subst b. f_equal. apply IH; auto. intros x. split; intros Hx.
    + destruct (proj1 (HE x) (or_intror Hx)) as [<-|]; [|auto]. specialize (F1 _ Hx). now rewrite str_ltb_irrefl in F1.
    + destruct (proj2 (HE x) (or_intror Hx)) as [<-|]; [|auto]. specialize (F2 _ Hx). now rewrite str_ltb_irrefl in F2.
Qed.

Lemma digits_sorted k : StronglySorted str_lt (firstn k one_digit_names).
Proof.
  assert (H : StronglySorted str_lt one_digit_names).
  { repeat constructor. }
  rewrite <- (firstn_skipn k one_digit_names) in H. now apply sorted_app_inv in H.
Qed.

Lemma nth_digit i : i < 10 -> nth_error one_digit_names i = Some (digit_name i).
Proof. intros H. do 10 (destruct i as [|i]; [reflexivity|]). lia. Qed.

Lemma keys_sorted (o : object) : StronglySorted key_lt o -> StronglySorted str_lt (map fst o).
Proof.
  induction 1 as [|x o HS IH HF]; [constructor|]. cbn. constructor; [exact IH|]. apply Forall_forall. intros y Hy.
  apply in_map_iff in Hy as [z [<- Hz]]. rewrite Forall_forall in HF. now apply HF.
Qed.

Lemma list_ext {A} (l : list A) : forall l', (forall i, nth_error l i = nth_error l' i) -> l = l'.
Proof.
  induction l as [|x l IH]; intros [|y l'] H; [reflexivity|specialize (H 0); discriminate|specialize (H 0); discriminate|].
  pose proof (H 0) as [= ->]. f_equal. apply IH. intros i. apply (H (S i)).
Qed.

Lemma nth_firstn {A} (l : list A) : forall k i, i < k -> nth_error (firstn k l) i = nth_error l i.
Proof.
  induction l as [|x l IH]; intros [|k] [|i] H; try lia; try reflexivity. cbn. apply IH. lia.
Qed.

Lemma list_iff_digits o : StronglySorted key_lt o ->
  encoded_as_list (keyed o) = true <-> exists k, map fst o = firstn k one_digit_names.
Proof.
  intros HS. unfold encoded_as_list. change 0%Z with (Z.of_nat 0). rewrite list_from. split.
  - intros H. assert (HL : length o <= 10).
    { destruct (le_lt_dec (length o) 10) as [|HL]; [auto|]. exfalso.
      destruct (nth_error o 9) as [x|] eqn:E9; [|apply nth_error_None in E9; lia].
      destruct (nth_error o 10) as [y|] eqn:E10; [|apply nth_error_None in E10; lia].
      pose proof (H 9 x E9) as H9. pose proof (H 10 y E10) as H10. apply (php_small 9) in H9; [|lia]. apply php_ten in H10.
      destruct (nth_error_split _ _ E9) as [l1 [l2 [-> Hl1]]].
      rewrite nth_error_app2 in E10 by lia. replace (10 - length l1) with 1 in E10 by lia. cbn in E10.
      destruct l2 as [|y' l2]; [discriminate|]. injection E10 as ->. apply sorted_app_inv in HS as [_ [HS _]].
      inversion HS as [|? ? _ HF]; subst. inversion HF as [|? ? HF1 _]; subst. unfold key_lt in HF1. rewrite H9, H10 in HF1. discriminate HF1. }
    exists (length o). apply list_ext. intros i. destruct (nth_error o i) as [x|] eqn:E.
    + assert (Hi : i < length o) by (apply nth_error_Some; congruence).
      rewrite (map_nth_error fst _ _ E). specialize (H i x E). apply php_small in H; [|lia]. cbn in H. rewrite H, nth_firstn by exact Hi.
      symmetry. apply nth_digit. lia.
    + apply nth_error_None in E. transitivity (@None str); [apply nth_error_None; now rewrite map_length|].
      symmetry. apply nth_error_None. rewrite firstn_length. lia.
  - intros [k Ek] i x Ex. pose proof (map_nth_error fst _ _ Ex) as Hx. rewrite Ek in Hx. cbn.
    assert (Hi : i < length (firstn k one_digit_names)) by (apply nth_error_Some; congruence).
    rewrite firstn_length in Hi. change (length one_digit_names) with 10 in Hi. apply php_small; [lia|].
    rewrite nth_firstn, nth_digit in Hx by lia. now injection Hx.
Qed.

Theorem php_list m : StronglySorted name_le m -> no_nul m ->
  exists a, php_map m = Ok a /\
    (encoded_as_list a = true <-> exists k, names_of m (firstn k one_digit_names)).
Proof.
  intros HS Hn. destruct (php_map_fill m HS Hn) as [o [E HC]]. exists (keyed o). split; [exact E|].
  rewrite list_iff_digits by exact (proj1 HC).
  assert (HN : forall name, In name (map fst o) <-> exists value, In (name, value) m).
  { intros name. split.
    - intros Hi. apply in_map_iff in Hi as [[k v] [<- Hi]]. now apply (converted_key m o k v).
    - intros [v Hv]. destruct HC as [_ [_ HC]]. destruct (HC _ _ Hv) as [w Hw]. apply in_map_iff. now exists (name, w). }
  split; intros [k Hk]; exists k.
  - unfold names_of. intros name. rewrite <- Hk. apply HN.
  - apply strict_unique; [apply keys_sorted; exact (proj1 HC)|apply digits_sorted|]. intros x. rewrite HN. symmetry. apply Hk.
Qed.
