(** The serialisation of nodes is unambiguous for well behaved trees. *)

From Coq Require Import Ascii String Arith NArith ZArith Bool List Lia.
From Verif Require Import Base StringUtil Tags Dom NodeUtil StringSpec StringProofs TextSpec ValueProofs NodeProofs TextProofs.
Import ListNotations.

(** ** Views *)

Definition ser_attr (a : str * option str) : str :=
  s " " ++ fst a ++ match snd a with Some v => s "=" ++ std_quoted v | None => [] end.

Definition is_void (name : str) : bool := existsb (str_eqb name) void_names.

Lemma is_void_In name : is_void name = true <-> In name void_names.
Proof.
  unfold is_void. rewrite existsb_exists. split.
  - intros [x [Hx E]]. apply str_eqb_eq in E. now subst.
  - intros H. exists name. split; [exact H|now apply str_eqb_eq].
Qed.

Fixpoint ser (v : view) : str :=
  match v with
  | VText x => x
  | VComment x => s "<!--" ++ x ++ s "-->"
  | VElement name attrs cs =>
      s "<" ++ name ++ concat (map ser_attr attrs)
        ++ (if is_void name then s "/>" else s ">" ++ concat (map ser cs) ++ s "</" ++ name ++ s ">")
  end.

Definition element_view_name (t : tag) (orig : option str) : str :=
  if (t =? TAG_UNKNOWN)%N then gumbo_tag_from_original_text orig else gumbo_normalized_tagname t.

Lemma void_known : Forall (fun x => In x tag_names) void_names.
Proof.
  apply Forall_forall. intros x Hx.
  assert (H : forallb (fun x => existsb (str_eqb x) tag_names) void_names = true) by (vm_compute; reflexivity).
  rewrite forallb_forall in H. specialize (H x Hx). apply existsb_exists in H as [y [Hy E]]. apply str_eqb_eq in E. now subst.
Qed.

Lemma void_tag t orig :
  (t < TAG_UNKNOWN)%N \/ (t = TAG_UNKNOWN /\ ~ In (gumbo_tag_from_original_text orig) tag_names) ->
  TagIsSelfClosing t = is_void (element_view_name t orig).
Proof.
  intros H. apply eq_true_iff_eq. rewrite is_void_In. unfold element_view_name. destruct H as [H|[-> H]].
  - destruct (N.eqb_spec t TAG_UNKNOWN); [lia|]. apply self_closing_names.
  - change (TAG_UNKNOWN =? TAG_UNKNOWN)%N with true. cbv iota. split; [discriminate|]. intros Hv. exfalso. apply H.
    pose proof void_known as HV. rewrite Forall_forall in HV. now apply HV.
Qed.

Lemma ser_attr_ok a : attr_ok (attr_view a) -> SerializeAttribute a = ser_attr (attr_view a).
Proof.
  intros [_ [H1 H2]]. unfold SerializeAttribute, ser_attr, attr_view in *. cbn [fst snd] in *.
  rewrite (c_str_id (a_name a)) by (intros H; apply H1; apply in_or_app; now right).
  destruct (a_value a) as [v|]; [rewrite (c_str_id v (H2 v eq_refl))|]; destruct (a_ns a); reflexivity.
Qed.

Definition all_ok : list node -> Prop :=
  fix all (l : list node) : Prop := match l with [] => True | c :: l' => node_ok c /\ all l' end.

Lemma all_ok_Forall l : all_ok l <-> Forall node_ok l.
Proof.
  induction l as [|c l IH]; simpl; [split; constructor|]. rewrite IH. split.
  - intros [H1 H2]. now constructor.
  - intros H. inversion H; subst. auto.
Qed.

Lemma views_ok_all l : views_ok l -> Forall view_ok l.
Proof. induction l as [|v l IH]; intros H; inversion H; subst; constructor; auto. Qed.

Lemma ser_view n : node_ok n -> view_ok (view_of n) -> SerializeNode n = ser (view_of n).
Proof.
  assert (HE : forall t o a cs,
    Forall (fun n => node_ok n -> view_ok (view_of n) -> SerializeNode n = ser (view_of n)) cs ->
    ((t < TAG_UNKNOWN)%N \/ (t = TAG_UNKNOWN /\ ~ In (gumbo_tag_from_original_text o) tag_names)) /\ all_ok cs ->
    view_ok (VElement (element_view_name t o) (map attr_view a) (map view_of cs)) ->
    s "<" ++ SerializeElementTag t o ++ concat (map SerializeAttribute a)
      ++ (if TagIsSelfClosing t then s "/>"
          else s ">" ++ (fix loop (l : list node) : str := match l with [] => [] | c :: l' => SerializeNode c ++ loop l' end) cs
                 ++ s "</" ++ SerializeElementTag t o ++ s ">")
    = ser (VElement (element_view_name t o) (map attr_view a) (map view_of cs))).
  { intros t o a cs IH [Ht Hcs] HV. inversion HV as [| |name attrs cs' Hn Ha Hc Hv]; subst.
    cbn [ser]. change (SerializeElementTag t o) with (element_view_name t o). rewrite (void_tag t o Ht).
    f_equal. f_equal. f_equal.
    - rewrite map_map. clear - Ha. induction a as [|x a IH]; [reflexivity|]. cbn [map concat] in *. inversion Ha; subst.
      rewrite IH by assumption. now rewrite (ser_attr_ok x).
    - destruct (is_void _); [reflexivity|]. f_equal. f_equal. apply views_ok_all in Hc. apply all_ok_Forall in Hcs.
      clear - IH Hcs Hc. induction cs as [|c cs IHcs]; [reflexivity|]. cbn [map concat] in *.
      inversion IH; inversion Hcs; inversion Hc; subst. rewrite IHcs by assumption. f_equal. auto. }
  induction n as [h d p y cs IH|t o a cs IH|t o a cs IH|x|x|x|x] using node_children_ind; intros Hn Hv.
  - contradiction.
  - exact (HE t o a cs IH Hn Hv).
  - exact (HE t o a cs IH Hn Hv).
  - simpl in *. inversion Hv; subst. now apply c_str_id.
  - contradiction.
  - simpl in *. inversion Hv; subst. now rewrite c_str_id.
  - simpl in *. inversion Hv; subst. now apply c_str_id.
Qed.

(** ** Quoted values *)

Lemma quoted_inj x : forall y r r', quoted_body x ++ """"%char :: r = quoted_body y ++ """"%char :: r' -> x = y /\ r = r'.
Proof.
  induction x as [|c x IH]; intros [|d y] r r'; cbn [quoted_body app].
  - intros H. injection H as H. auto.
  - destruct (Ascii.eqb_spec d """"%char) as [->|Hd]; cbn [orb app]; [discriminate|].
    destruct (Ascii.eqb_spec d "\"%char) as [->|Hd']; cbn [app]; [discriminate|]. intros H. injection H as H1 H2. congruence.
  - destruct (Ascii.eqb_spec c """"%char) as [->|Hd]; cbn [orb app]; [discriminate|].
    destruct (Ascii.eqb_spec c "\"%char) as [->|Hd']; cbn [app]; [discriminate|]. intros H. injection H as H1 H2. congruence.
  - destruct (Ascii.eqb c """"%char || Ascii.eqb c "\"%char) eqn:Ec; destruct (Ascii.eqb d """"%char || Ascii.eqb d "\"%char) eqn:Ed;
      cbn [app]; intros H; injection H as H1 H2.
    + apply IH in H2 as [-> ->]. subst. auto.
    + subst d. rewrite Ascii.eqb_refl, orb_true_r in Ed. discriminate.
    + subst c. rewrite Ascii.eqb_refl, orb_true_r in Ec. discriminate.
    + apply IH in H2 as [-> ->]. subst. auto.
Qed.

Theorem std_quoted_inj x y : std_quoted x = std_quoted y -> x = y.
Proof. unfold std_quoted. simpl. intros H. injection H as H. now apply quoted_inj in H as [H _]. Qed.

(** ** Attributes *)

Definition closes (T : str) : Prop := exists c T', T = c :: T' /\ (c = ">"%char \/ c = "/"%char).

Lemma name_char x c : name_ok x -> In c x -> c <> " "%char /\ c <> "="%char /\ c <> "/"%char /\ c <> ">"%char /\ c <> """"%char /\ c <> "!"%char.
Proof.
  intros [_ H] Hi. rewrite Forall_forall in H. specialize (H c Hi). cbn [In] in H. repeat split; intros ->; apply H; auto 10.
Qed.

Definition delim (c : ascii) : Prop := c = " "%char \/ c = "="%char \/ c = "/"%char \/ c = ">"%char.
Lemma name_no_delim x : name_ok x -> Forall (fun c => ~ delim c) x.
Proof.
  intros H. apply Forall_forall. intros c Hc. pose proof (name_char x c H Hc). unfold delim. intuition congruence.
Qed.

Definition delimited (T : str) : Prop := exists c T', T = c :: T' /\ delim c.

Lemma name_split x y T T' : name_ok x -> name_ok y -> delimited T -> delimited T' -> x ++ T = y ++ T' -> x = y /\ T = T'.
Proof.
  intros Hx Hy [c [t [-> Hc]]] [d [t' [-> Hd]]] H. apply (span_unique (fun c => ~ delim c)); auto using name_no_delim.
  - right. exists c, t. split; [reflexivity|]. tauto.
  - right. exists d, t'. split; [reflexivity|]. tauto.
Qed.

Lemma closes_delimited T : closes T -> delimited T.
Proof. intros [c [t [-> H]]]. exists c, t. split; [reflexivity|]. unfold delim. tauto. Qed.

Lemma attrs_delimited attrs T : closes T -> delimited (concat (map ser_attr attrs) ++ T).
Proof.
  intros H. destruct attrs as [|a attrs]; [now apply closes_delimited|]. cbn [map concat]. unfold ser_attr at 1. simpl.
  eexists _, _. split; [reflexivity|]. unfold delim. auto.
Qed.

Lemma attrs_inj a1 : forall a2 T1 T2, Forall attr_ok a1 -> Forall attr_ok a2 -> closes T1 -> closes T2 ->
  concat (map ser_attr a1) ++ T1 = concat (map ser_attr a2) ++ T2 -> a1 = a2 /\ T1 = T2.
Proof.
  induction a1 as [|[n1 v1] a1 IH]; intros [|[n2 v2] a2] T1 T2 H1 H2 HT1 HT2 H.
  - auto.
  - exfalso. destruct HT1 as [c [t [-> Hc]]]. cbn in H. injection H as H _. destruct Hc; congruence.
  - exfalso. destruct HT2 as [c [t [-> Hc]]]. cbn in H. injection H as H _. destruct Hc; congruence.
  - inversion H1 as [|? ? [Hn1 _] H1']; inversion H2 as [|? ? [Hn2 _] H2']; subst. cbn [fst snd] in *.
    cbn [map concat] in H. unfold ser_attr at 1 3 in H. cbn [fst snd] in H. rewrite <- !app_assoc in H.
    apply app_inv_head in H.
    pose proof (attrs_delimited a1 T1 HT1) as D1. pose proof (attrs_delimited a2 T2 HT2) as D2.
    assert (DV : forall v (R : str), delimited R -> delimited (match v with Some v => s "=" ++ std_quoted v | None => [] end ++ R)).
    { intros [v|] R HR; [|exact HR]. simpl. eexists _, _. split; [reflexivity|]. unfold delim. auto. }
    apply name_split in H as [-> H]; auto.
    assert (Hne : forall a T, Forall attr_ok a -> closes T -> forall v (R : str), (s "=" ++ std_quoted v) ++ R <> concat (map ser_attr a) ++ T).
    { intros a T _ HT v R E. destruct a as [|x a]; cbn in E.
      - destruct HT as [c [t [-> Hc]]]. injection E as E _. destruct Hc; congruence.
      - discriminate. }
    destruct v1 as [v1|], v2 as [v2|].
    + rewrite <- !app_assoc in H. apply app_inv_head in H. unfold std_quoted in H. rewrite <- !app_assoc in H. apply app_inv_head in H.
      cbn [app] in H. apply quoted_inj in H as [-> H]. apply IH in H as [-> ->]; auto.
    + exfalso. cbn [app] in H. now apply (Hne a2 T2 H2' HT2 v1 (concat (map ser_attr a1) ++ T1)).
    + exfalso. cbn [app] in H. symmetry in H. now apply (Hne a1 T1 H1' HT1 v2 (concat (map ser_attr a2) ++ T2)).
    + cbn [app] in H. apply IH in H as [-> ->]; auto.
Qed.

(** ** Comments *)

Lemma comment_inj : forall x y r r', ~ occurs_in (s "-->") x -> ~ occurs_in (s "-->") y ->
  x ++ s "-->" ++ r = y ++ s "-->" ++ r' -> x = y /\ r = r'.
Proof.
  assert (HC : forall c x, ~ occurs_in (s "-->") (c :: x) -> ~ occurs_in (s "-->") x).
  { intros c x H [a [b ->]]. apply H. exists (c :: a), b. reflexivity. }
  assert (HS : forall d y (r r' : str), ~ occurs_in (s "-->") (d :: y) -> s "-->" ++ r <> d :: y ++ s "-->" ++ r').
  { intros d y r r' H E. simpl in E. injection E as <- E. destruct y as [|d2 y]; simpl in E.
    - discriminate.
    - injection E as <- E. destruct y as [|d3 y]; simpl in E; [discriminate|]. injection E as <- E. apply H. exists [], y. reflexivity. }
  induction x as [|c x IH]; intros [|d y] r r' Hx Hy H.
  - change (s "-->" ++ r = s "-->" ++ r') in H. apply app_inv_head in H. auto.
  - exfalso. now apply (HS d y r r' Hy).
  - exfalso. symmetry in H. now apply (HS c x r' r Hx).
  - cbn [app] in H. injection H as <- H. apply IH in H as [-> ->]; eauto.
Qed.

(** ** Trees *)

Definition stop (r : str) : Prop := r = [] \/ exists r', r = "<"%char :: "/"%char :: r'.

(** What the serialisation of a view starts with. *)
Lemma ser_start v : view_ok v ->
  match v with
  | VText _ => exists c x, ser v = c :: x /\ c <> "<"%char
  | VComment _ => exists x, ser v = "<"%char :: "!"%char :: x
  | VElement _ _ _ => exists c x, ser v = "<"%char :: c :: x /\ c <> "!"%char /\ c <> "/"%char
  end.
Proof.
  intros H. inversion H as [x Hx Hl _|x _ _|name attrs cs Hn Ha Hc Hv]; subst; cbn [ser].
  - destruct x as [|c x]; [congruence|]. exists c, x. split; [reflexivity|]. intros ->. apply Hl. now left.
  - simpl. eauto.
  - destruct name as [|c name]; [destruct Hn; congruence|]. pose proof (name_char _ c Hn (or_introl eq_refl)) as Hc'.
    simpl. eexists c, _. split; [reflexivity|]. tauto.
Qed.

Lemma ser_not_stop v l r r' : view_ok v -> stop r' -> (ser v ++ concat (map ser l)) ++ r <> r'.
Proof.
  intros Hv Hs E. pose proof (ser_start v Hv) as H. destruct v as [x|x|name attrs cs].
  - destruct H as [c [y [Hy Hc]]]. rewrite Hy in E. destruct Hs as [->|[r'' ->]]; [discriminate|]. simpl in E. injection E as E _. congruence.
  - destruct H as [y Hy]. rewrite Hy in E. destruct Hs as [->|[r'' ->]]; simpl in E; discriminate.
  - destruct H as [c [y [Hy Hc]]]. rewrite Hy in E. destruct Hs as [->|[r'' ->]]; simpl in E; [discriminate|]. injection E as E _. tauto.
Qed.

(** After a text the next thing starts with a bracket. *)
Lemma after_text v l r : views_ok (v :: l) -> is_text v -> stop r ->
  concat (map ser l) ++ r = [] \/ exists c y, concat (map ser l) ++ r = c :: y /\ c = "<"%char.
Proof.
  intros H Ht Hs. inversion H as [|? ? Hv Hl Hadj]; subst. specialize (Hadj Ht). destruct l as [|w l].
  - destruct Hs as [->|[r' ->]]; [now left|]. right. simpl. eauto.
  - right. inversion Hl as [|? ? Hw Hl' _]; subst. pose proof (ser_start w Hw) as HW. cbn [map concat].
    destruct w as [x|x|name attrs cs].
    + exfalso. apply Hadj. now exists x.
    + destruct HW as [y ->]. simpl. eauto.
    + destruct HW as [c [y [-> _]]]. simpl. eauto.
Qed.

Fixpoint vsize (v : view) : nat :=
  match v with
  | VElement _ _ cs => S (fold_right (fun c k => vsize c + k) 0 cs)
  | _ => 1
  end.
Definition lsize (l : list view) : nat := fold_right (fun c k => vsize c + k) 0 l.

Lemma vsize_pos v : 0 < vsize v.
Proof. destruct v; simpl; lia. Qed.

Lemma ser_inj k : forall l1 l2 r1 r2, lsize l1 < k -> views_ok l1 -> views_ok l2 -> stop r1 -> stop r2 ->
  concat (map ser l1) ++ r1 = concat (map ser l2) ++ r2 -> l1 = l2 /\ r1 = r2.
Proof.
  induction k as [|k IH]; intros l1 l2 r1 r2 Hk H1 H2 Hr1 Hr2 E; [lia|].
  destruct l1 as [|v1 l1], l2 as [|v2 l2].
  - auto.
  - exfalso. inversion H2; subst. symmetry in E. revert E. cbn [map concat]. now apply ser_not_stop.
  - exfalso. inversion H1; subst. revert E. cbn [map concat]. now apply ser_not_stop.
  - pose proof H1 as H1'. pose proof H2 as H2'.
    inversion H1 as [|? ? Hv1 Hl1 _]; inversion H2 as [|? ? Hv2 Hl2 _]; subst.
    cbn [map concat] in E. rewrite <- !app_assoc in E.
    pose proof (ser_start v1 Hv1) as S1. pose proof (ser_start v2 Hv2) as S2.
    assert (Hk' : lsize l1 < k) by (pose proof (vsize_pos v1); unfold lsize in *; simpl in Hk; lia).
    destruct v1 as [x1|x1|n1 a1 ch1], v2 as [x2|x2|n2 a2 ch2].
    + cbn [ser] in E. inversion Hv1 as [? _ Hx1 _| |]; inversion Hv2 as [? _ Hx2 _| |]; subst.
      assert (HF : forall x, ~ In "<"%char x -> Forall (fun c => c <> "<"%char) x).
      { intros x Hx. apply Forall_forall. intros c Hc ->. contradiction. }
      assert (HA : forall v l r, views_ok (v :: l) -> is_text v -> stop r ->
         concat (map ser l) ++ r = [] \/ exists c y, concat (map ser l) ++ r = c :: y /\ ~ c <> "<"%char).
      { intros v l r A B C. destruct (after_text v l r A B C) as [->|[c [y [-> ->]]]]; [now left|]. right. exists "<"%char, y. split; [reflexivity|]. tauto. }
      destruct (span_unique (fun c => c <> "<"%char) x1 (concat (map ser l1) ++ r1) x2 (concat (map ser l2) ++ r2)) as [-> E']; auto.
      * apply (HA (VText x1)); auto. now exists x1.
      * apply (HA (VText x2)); auto. now exists x2.
      * apply IH in E' as [-> ->]; auto.
    + exfalso. destruct S1 as [c [y [Hy Hc]]], S2 as [y2 Hy2]. rewrite Hy, Hy2 in E. injection E as E _. congruence.
    + exfalso. destruct S1 as [c [y [Hy Hc]]], S2 as [c2 [y2 [Hy2 _]]]. rewrite Hy, Hy2 in E. injection E as E _. congruence.
    + exfalso. destruct S2 as [c [y [Hy Hc]]], S1 as [y2 Hy2]. rewrite Hy, Hy2 in E. injection E as E _. congruence.
    + cbn [ser] in E. inversion Hv1 as [|? Hx1 _|]; inversion Hv2 as [|? Hx2 _|]; subst. rewrite <- !app_assoc in E. apply app_inv_head in E.
      apply comment_inj in E as [-> E]; auto. apply IH in E as [-> ->]; auto.
    + exfalso. destruct S1 as [y Hy], S2 as [c2 [y2 [Hy2 Hc2]]]. rewrite Hy, Hy2 in E. injection E as E _. destruct Hc2. congruence.
    + exfalso. destruct S2 as [c [y [Hy Hc]]], S1 as [c1' [y2 [Hy2 _]]]. rewrite Hy, Hy2 in E. injection E as E _. congruence.
    + exfalso. destruct S2 as [y Hy], S1 as [c2' [y2 [Hy2 Hc2]]]. rewrite Hy, Hy2 in E. injection E as E _. destruct Hc2. congruence.
    + clear S1 S2. inversion Hv1 as [| |? ? ? Hn1 Ha1 Hc1 Hvoid1]; inversion Hv2 as [| |? ? ? Hn2 Ha2 Hc2 Hvoid2]; subst.
      cbn [ser] in E. rewrite <- !app_assoc in E. apply app_inv_head in E.
      assert (HT : forall name cs (R : str), closes ((if is_void name then s "/>" else s ">" ++ concat (map ser cs) ++ s "</" ++ name ++ s ">") ++ R)).
      { intros name cs R. destruct (is_void name); simpl; eexists _, _; split; try reflexivity; auto. }
      apply name_split in E as [-> E]; auto using attrs_delimited.
      apply attrs_inj in E as [-> E]; auto.
      destruct (is_void n2) eqn:Ev.
      * apply app_inv_head in E. apply is_void_In in Ev. rewrite (Hvoid1 Ev), (Hvoid2 Ev). apply IH in E as [-> ->]; auto.
      * rewrite <- !app_assoc in E. apply app_inv_head in E.
        apply IH in E as [-> E]; auto.
        -- apply app_inv_head in E. apply app_inv_head in E. apply app_inv_head in E. apply IH in E as [-> ->]; auto.
        -- unfold lsize in *. simpl in Hk. lia.
        -- right. simpl. eauto.
        -- right. simpl. eauto.
Qed.

Theorem inner_html_inj t1 o1 a1 cs1 t2 o2 a2 cs2 :
  Forall node_ok cs1 -> Forall node_ok cs2 -> views_ok (map view_of cs1) -> views_ok (map view_of cs2) ->
  NodeInnerHtml (NElement t1 o1 a1 cs1) = NodeInnerHtml (NElement t2 o2 a2 cs2) ->
  map view_of cs1 = map view_of cs2.
Proof.
  assert (HS : forall cs, Forall node_ok cs -> views_ok (map view_of cs) -> concat (map SerializeNode cs) = concat (map ser (map view_of cs))).
  { induction cs as [|c cs IH]; intros Hn Hv; [reflexivity|]. inversion Hn; subst. cbn [map] in Hv. inversion Hv; subst.
    cbn [map concat]. rewrite IH by assumption. f_equal. now apply ser_view. }
  intros Hn1 Hn2 Hv1 Hv2 H. unfold NodeInnerHtml in H. rewrite (HS cs1 Hn1 Hv1), (HS cs2 Hn2 Hv2) in H.
  eapply (ser_inj (S (lsize (map view_of cs1)))) with (r1 := []) (r2 := []); auto.
  - now left.
  - now left.
  - rewrite !app_nil_r. exact H.
Qed.
