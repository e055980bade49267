(** Text of nodes. *)

From Coq Require Import Ascii String Arith NArith ZArith Bool List Lia.
From Verif Require Import Base StringUtil Tags Dom NodeUtil StringSpec StringProofs TextSpec ValueProofs NodeProofs.
Import ListNotations.

(** Induction over nodes with a hypothesis for the children. *)
Definition node_children_ind (P : node -> Prop)
  (HD : forall h d p y cs, Forall P cs -> P (NDocument h d p y cs))
  (HE : forall t o a cs, Forall P cs -> P (NElement t o a cs))
  (HT : forall t o a cs, Forall P cs -> P (NTemplate t o a cs))
  (Hx : forall x, P (NText x)) (Hc : forall x, P (NCdata x)) (Hm : forall x, P (NComment x)) (Hw : forall x, P (NWhitespace x))
  : forall n, P n :=
  fix go (n : node) : P n :=
    let go_list := fix go_list (l : list node) : Forall P l :=
      match l with [] => Forall_nil P | c :: l' => Forall_cons c (go c) (go_list l') end in
    match n with
    | NDocument h d p y cs => HD h d p y cs (go_list cs)
    | NElement t o a cs => HE t o a cs (go_list cs)
    | NTemplate t o a cs => HT t o a cs (go_list cs)
    | NText x => Hx x | NCdata x => Hc x | NComment x => Hm x | NWhitespace x => Hw x
    end.

Definition piece (w : bool) (c : node) : str :=
  match w, c with
  | true, NElement t _ _ _ => if TagWrapsText t then ["010"%char] ++ StripTags w c ++ ["010"%char] else StripTags w c
  | _, _ => StripTags w c
  end.

Lemma StripTags_element w t o a cs : StripTags w (NElement t o a cs) = concat (map (piece w) cs).
Proof.
  cbn [StripTags].
  induction cs as [|c cs IH]; [reflexivity|]. cbn [map concat]. rewrite <- IH. unfold piece. destruct w; reflexivity.
Qed.

(** ** C33 *)

Lemma reached_unfold n : reached n = n :: match n with NElement _ _ _ cs => flat_map reached cs | _ => [] end.
Proof. destruct n; reflexivity. Qed.

Lemma full_text_element t o a cs : full_text (NElement t o a cs) = concat (map full_text cs).
Proof.
  unfold full_text at 1. rewrite reached_unfold. cbn [map concat own_text app].
  induction cs as [|c cs IH]; [reflexivity|]. cbn [flat_map map concat]. now rewrite map_app, concat_app, IH.
Qed.

Theorem StripTags_text n : StripTags false n = full_text n.
Proof.
  induction n as [h d p y cs IH|t o a cs IH|t o a cs IH|x|x|x|x] using node_children_ind; try reflexivity;
    try (unfold full_text; simpl; now rewrite app_nil_r).
  rewrite StripTags_element, full_text_element.
  induction IH as [|c cs Hc Hcs IH']; [reflexivity|]. cbn [map concat]. rewrite IH'. f_equal. exact Hc.
Qed.

Lemma below_app n p m q k : below n p m -> below m q k -> below n (q ++ p) k.
Proof.
  intros Hn Hm. induction Hm as [|i q t o a cs k Hm IH Hi]; [exact Hn|]. apply (below_child _ i _ t o a cs k IH Hi).
Qed.

Theorem reached_below n m : In m (reached n) <-> exists p, below n p m.
Proof.
  split.
  - revert m. induction n as [h d p y cs IH|t o a cs IH|t o a cs IH|x|x|x|x] using node_children_ind; intros m;
      try (intros [<-|[]]; exists []; constructor).
    intros [<-|H]; [exists []; constructor|]. apply in_flat_map in H as [c [Hc Hm]].
    rewrite Forall_forall in IH. destruct (IH c Hc m Hm) as [p Hp]. apply In_nth_error in Hc as [i Hi].
    exists (p ++ [i]). eapply below_app; [|exact Hp]. eapply below_child; [apply below_self|exact Hi].
  - intros [p H].
    assert (HT : forall n m k, In m (reached n) -> In k (reached m) -> In k (reached n)).
    { clear. intros n. induction n as [h d p y cs IH|t o a cs IH|t o a cs IH|x|x|x|x] using node_children_ind; intros m k;
        try (intros [<-|[]] H; exact H).
      intros [<-|H] Hk; [exact Hk|]. right. apply in_flat_map in H as [c [Hc Hm]]. apply in_flat_map. exists c. split; [exact Hc|].
      rewrite Forall_forall in IH. now apply (IH c Hc m k). }
    induction H as [|i p t o a cs m H IH Hi].
    + rewrite reached_unfold. now left.
    + apply (HT _ _ _ IH). right. apply in_flat_map. exists m. split; [eapply nth_error_In; eauto|]. rewrite reached_unfold. now left.
Qed.

Lemma added_refl x : newlines_added x x.
Proof. induction x; constructor; assumption. Qed.

Lemma added_app a b c d : newlines_added a b -> newlines_added c d -> newlines_added (a ++ c) (b ++ d).
Proof. intros H H'. induction H; simpl; [exact H'| |]; constructor; assumption. Qed.

Lemma added_wrap x y : newlines_added x y -> newlines_added x ([newline] ++ y ++ [newline]).
Proof.
  intros H. simpl. constructor. rewrite <- (app_nil_r x). apply added_app; [exact H|]. constructor. constructor.
Qed.

Lemma added_piece c : newlines_added (StripTags false c) (StripTags true c) ->
  newlines_added (StripTags false c) (piece true c).
Proof.
  intros H. destruct c as [|t o a cs| | | | |]; try exact H. cbn [piece]. destruct (TagWrapsText t); [|exact H].
  apply added_wrap. exact H.
Qed.

Theorem StripTags_wrapped n : newlines_added (StripTags false n) (StripTags true n).
Proof.
  induction n as [h d p y cs IH|t o a cs IH|t o a cs IH|x|x|x|x] using node_children_ind; try apply added_refl.
  rewrite !StripTags_element. induction IH as [|c cs Hc Hcs IH']; [constructor|]. cbn [map concat].
  apply added_app; [|exact IH']. apply added_piece. exact Hc.
Qed.

(** ** C34 *)

Definition nonblank (x : str) : str := filter (fun c => negb (IsSpace c)) x.

Lemma without_nonblank x y : without_blanks x y <-> y = nonblank x.
Proof.
  split.
  - induction 1 as [|c x y Hb H IH|c x y Hb H IH]; simpl; [reflexivity| |].
    + apply IsSpace_blank in Hb. now rewrite Hb.
    + apply IsSpace_false in Hb. rewrite Hb. simpl. congruence.
  - intros ->. induction x as [|c x IH]; [constructor|]. simpl. destruct (IsSpace c) eqn:Ec; simpl.
    + constructor; [now apply IsSpace_blank|exact IH].
    + constructor; [now apply IsSpace_false|exact IH].
Qed.

Lemma nonblank_app a b : nonblank (a ++ b) = nonblank a ++ nonblank b.
Proof. apply filter_app. Qed.

Lemma nonblank_gap g : Forall blank g -> nonblank g = [].
Proof. induction 1 as [|c g Hc H IH]; [reflexivity|]. simpl. apply IsSpace_blank in Hc. now rewrite Hc. Qed.

Lemma nonblank_word w : Forall (fun c => ~ blank c) w -> nonblank w = w.
Proof. induction 1 as [|c w Hc H IH]; [reflexivity|]. simpl. apply IsSpace_false in Hc. rewrite Hc. simpl. congruence. Qed.

Lemma nonblank_words x ws : words_of x ws -> nonblank x = concat ws.
Proof.
  induction 1 as [g Hg|g w rest ws Hg Hw Hnb Hr H IH]; [now apply nonblank_gap|].
  rewrite !nonblank_app, (nonblank_gap g Hg), (nonblank_word w Hnb), IH. reflexivity.
Qed.

Lemma nonblank_added x y : newlines_added x y -> nonblank x = nonblank y.
Proof. induction 1 as [|c x y H IH|x y H IH]; simpl; [reflexivity| |exact IH]. destruct (negb (IsSpace c)); congruence. Qed.

Lemma collapse_of_words x ws : words_of x ws -> TrimAndCollapseWs x = join_words ws.
Proof. intros H. unfold TrimAndCollapseWs. now rewrite (TrimAndCollapseWs_words x ws H). Qed.

Theorem NodeText_words n : exists ws, NodeText n = join_words ws /\ words_of (NodeText n) ws /\
  without_blanks (full_text n) (concat ws).
Proof.
  destruct (words_exist (StripTags true n)) as [ws Hws]. exists ws. unfold NodeText. rewrite (collapse_of_words _ _ Hws).
  split; [reflexivity|]. split; [apply join_words_of; eapply words_nonempty; eauto|].
  apply without_nonblank. rewrite <- StripTags_text, (nonblank_added _ _ (StripTags_wrapped n)). symmetry. now apply nonblank_words.
Qed.

(** Words of texts that meet at a blank. *)
Lemma words_unique x ws ws' : words_of x ws -> words_of x ws' -> ws = ws'.
Proof.
  intros H. revert ws'. induction H as [g Hg|g w rest ws Hg Hw Hnb Hr H IH]; intros ws' H'.
  - inversion H' as [g' Hg' E|g' w' rest' ws'' Hg' Hw' Hnb' Hr' HR E]; [reflexivity|]. subst g.
    destruct w' as [|c w']; [congruence|]. exfalso. apply Forall_app in Hg as [_ Hg]. inversion Hg; subst. inversion Hnb'; subst. contradiction.
  - inversion H' as [g' Hg' E|g' w' rest' ws'' Hg' Hw' Hnb' Hr' HR E].
    + subst. destruct w as [|c w]; [congruence|]. exfalso. apply Forall_app in Hg' as [_ Hg']. inversion Hg'; subst. inversion Hnb; subst. contradiction.
    + subst ws'. assert (E1 : g' = g /\ w' ++ rest' = w ++ rest).
      { apply (span_unique blank); auto.
        - destruct w' as [|c w']; [congruence|]. right. exists c, (w' ++ rest'). split; [reflexivity|]. inversion Hnb'; assumption.
        - destruct w as [|c w]; [congruence|]. right. exists c, (w ++ rest). split; [reflexivity|]. inversion Hnb; assumption. }
      destruct E1 as [-> E1].
      assert (E2 : w' = w /\ rest' = rest).
      { apply (span_unique (fun c => ~ blank c)); auto.
        - destruct Hr' as [->|[c [r [-> Hc]]]]; [now left|]. right. exists c, r. auto.
        - destruct Hr as [->|[c [r [-> Hc]]]]; [now left|]. right. exists c, r. auto. }
      destruct E2 as [-> ->]. f_equal. now apply IH.
Qed.

Lemma words_blank_app g x ws : Forall blank g -> words_of x ws -> words_of (g ++ x) ws.
Proof. induction 1; simpl; auto using words_blank. Qed.

Lemma words_app x ws : words_of x ws -> forall c y ws', blank c -> words_of y ws' -> words_of (x ++ c :: y) (ws ++ ws').
Proof.
  induction 1 as [g Hg|g w rest ws Hg Hw Hnb Hr H IH]; intros c y ws' Hc Hy.
  - simpl. apply words_blank_app; [exact Hg|]. now apply words_blank.
  - rewrite <- !app_assoc. simpl. apply words_cons; auto.
    destruct Hr as [->|[d [r [-> Hd]]]]; right; simpl; eauto.
Qed.

Lemma tag_in_In t l : tag_in t l = true <-> In t l.
Proof.
  unfold tag_in. rewrite existsb_exists. split.
  - intros [x [Hx E]]. apply N.eqb_eq in E. now subst.
  - intros H. exists t. split; [exact H|apply N.eqb_refl].
Qed.

Lemma name_unknown t : (TAG_UNKNOWN <= t)%N -> gumbo_normalized_tagname t = [].
Proof. intros H. unfold gumbo_normalized_tagname. apply nth_overflow. rewrite tag_names_length. lia. Qed.

Lemma named_in t l : Forall (fun t' => (t' < TAG_UNKNOWN)%N /\ gumbo_normalized_tagname t' <> []) l ->
  (In (gumbo_normalized_tagname t) (map gumbo_normalized_tagname l) <-> In t l).
Proof.
  intros Hl. rewrite Forall_forall in Hl. split; [|apply in_map].
  intros H. apply in_map_iff in H as [t' [E Ht']]. destruct (Hl t' Ht') as [H1 H2].
  destruct (N.lt_ge_cases t TAG_UNKNOWN) as [Ht|Ht].
  - apply normalized_inj in E; auto. now subst.
  - rewrite (name_unknown t Ht) in E. congruence.
Qed.

Lemma wraps_names t : TagWrapsText t = true <-> ~ In (gumbo_normalized_tagname t) inline_names.
Proof.
  unfold TagWrapsText. rewrite negb_true_iff. 
  match goal with |- tag_in t ?l = false <-> _ => change inline_names with (map gumbo_normalized_tagname l);
    rewrite (named_in t l); [rewrite <- tag_in_In; destruct (tag_in t l); intuition congruence|] end.
  repeat constructor; discriminate.
Qed.

Lemma self_closing_names t : TagIsSelfClosing t = true <-> In (gumbo_normalized_tagname t) void_names.
Proof.
  unfold TagIsSelfClosing.
  match goal with |- tag_in t ?l = true <-> _ => change void_names with (map gumbo_normalized_tagname l);
    rewrite (named_in t l); [apply tag_in_In|] end.
  repeat constructor; discriminate.
Qed.

Lemma block_wraps c : block c -> piece true c = [newline] ++ StripTags true c ++ [newline].
Proof. intros [t [o [a [cs [-> H]]]]]. apply wraps_names in H. cbn [piece]. now rewrite H. Qed.

Lemma pieces_split w l i x : nth_error l i = Some x ->
  concat (map (piece w) l) = concat (map (piece w) (firstn i l)) ++ piece w x ++ concat (map (piece w) (skipn (S i) l)).
Proof.
  intros H. apply nth_error_split in H as [l1 [l2 [-> <-]]].
  rewrite firstn_app, Nat.sub_diag, firstn_all. cbn [firstn]. rewrite app_nil_r.
  replace (skipn (S (length l1)) (l1 ++ x :: l2)) with l2.
  - rewrite map_app, concat_app. reflexivity.
  - rewrite skipn_app, skipn_all2 by lia. replace (S (length l1) - length l1) with 1 by lia. reflexivity.
Qed.

(** The part of a text around a node below. *)
Lemma piece_wrap m : (block m /\ piece true m = [newline] ++ StripTags true m ++ [newline]) \/
                     (~ block m /\ piece true m = StripTags true m).
Proof.
  destruct m as [|t o a cs| | | | |]; try (right; split; [intros [t0 [o0 [a0 [c0 [H _]]]]]; discriminate|reflexivity]).
  cbn [piece]. destruct (TagWrapsText t) eqn:E.
  - left. split; [|reflexivity]. exists t, o, a, cs. split; [reflexivity|]. now apply wraps_names.
  - right. split; [|reflexivity]. intros [t0 [o0 [a0 [c0 [H Hn]]]]]. injection H as <- _ _ _. apply wraps_names in Hn. congruence.
Qed.

Lemma below_text n p m : below n p m -> exists a b a' b',
  StripTags true n = a ++ StripTags true m ++ b /\ StripTags false n = a' ++ StripTags false m ++ b' /\
  newlines_added a' a /\ newlines_added b' b /\
  (block m -> p <> [] -> exists a1 b1, a = a1 ++ [newline] /\ b = newline :: b1).
Proof.
  induction 1 as [|i p t o at_ cs m H IH Hi].
  - exists [], [], [], []. simpl. rewrite !app_nil_r. repeat split; try constructor. intros _ H. now destruct H.
  - destruct IH as [a [b [a' [b' [E1 [E2 [Ha [Hb _]]]]]]]].
    assert (HA : forall l, newlines_added (concat (map (piece false) l)) (concat (map (piece true) l))).
    { clear. induction l as [|c l IH]; [constructor|]. cbn [map concat]. apply added_app; [|exact IH].
      apply added_piece. apply StripTags_wrapped. }
    rewrite StripTags_element, (pieces_split true _ _ _ Hi) in E1. rewrite StripTags_element, (pieces_split false _ _ _ Hi) in E2.
    change (piece false m) with (StripTags false m) in E2.
    set (l := firstn i cs) in *. set (r := skipn (S i) cs) in *.
    destruct (piece_wrap m) as [[Hb' Ep]|[Hb' Ep]]; rewrite Ep in E1.
    + exists (a ++ concat (map (piece true) l) ++ [newline]), (newline :: concat (map (piece true) r) ++ b),
             (a' ++ concat (map (piece false) l)), (concat (map (piece false) r) ++ b').
      repeat split.
      * rewrite E1. now rewrite <- !app_assoc.
      * rewrite E2. now rewrite <- !app_assoc.
      * apply added_app; [exact Ha|]. rewrite <- (app_nil_r (concat _)). apply added_app; [apply HA|]. constructor. constructor.
      * constructor. apply added_app; [apply HA|exact Hb].
      * intros _ _. exists (a ++ concat (map (piece true) l)). eexists. split; [|reflexivity]. now rewrite <- app_assoc.
    + exists (a ++ concat (map (piece true) l)), (concat (map (piece true) r) ++ b),
             (a' ++ concat (map (piece false) l)), (concat (map (piece false) r) ++ b').
      repeat split.
      * rewrite E1. now rewrite <- !app_assoc.
      * rewrite E2. now rewrite <- !app_assoc.
      * apply added_app; [exact Ha|apply HA].
      * apply added_app; [apply HA|exact Hb].
      * intros HB. contradiction.
Qed.

Theorem NodeText_block n p m : below n p m -> block m -> p <> [] ->
  exists before after wa wm wb,
    full_text n = before ++ full_text m ++ after /\
    words_of (NodeText n) (wa ++ wm ++ wb) /\ words_of (NodeText m) wm /\
    without_blanks before (concat wa) /\ without_blanks after (concat wb).
Proof.
  intros H HB Hp. destruct (below_text n p m H) as [a [b [a' [b' [E1 [E2 [Ha [Hb HH]]]]]]]].
  destruct (HH HB Hp) as [a1 [b1 [-> ->]]]. clear HH.
  destruct (words_exist a1) as [wa Hwa]. destruct (words_exist (StripTags true m)) as [wm Hwm]. destruct (words_exist b1) as [wb Hwb].
  exists a', b', wa, wm, wb. rewrite <- !StripTags_text. split; [exact E2|].
  assert (HN : words_of (StripTags true n) (wa ++ wm ++ wb)).
  { rewrite E1, <- app_assoc. simpl. assert (blank newline) by (do 2 right; left; reflexivity). repeat (apply words_app; [assumption..|]). exact Hwb. }
  assert (Hj : forall x ws, words_of x ws -> words_of (TrimAndCollapseWs x) ws).
  { intros x ws Hx. rewrite (collapse_of_words x ws Hx). apply join_words_of. eapply words_nonempty; eauto. }
  split; [apply Hj, HN|]. split; [apply Hj, Hwm|].
  split; apply without_nonblank.
  - rewrite (nonblank_added _ _ Ha), nonblank_app, (nonblank_words _ _ Hwa). simpl. now rewrite app_nil_r.
  - rewrite (nonblank_added _ _ Hb). simpl. now rewrite (nonblank_words _ _ Hwb).
Qed.

Theorem StripTags_wrapped_text n : newlines_added (full_text n) (StripTags true n).
Proof. rewrite <- StripTags_text. apply StripTags_wrapped. Qed.
