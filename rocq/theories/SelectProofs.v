(** Rules that differ only in their captures. *)

From Coq Require Import Ascii String NArith ZArith Bool List Sorted Permutation Lia.
From Verif Require Import Base StringUtil StringProofs Dom Values Match Rule RuleMatching MatchSim MatchSpec ExtractSpec ExtractProofs ResultProofs ExtractMain SearchSpec
  RewriteSpec RewriteProofs SelectSpec.
Import ListNotations.

(** ** The search *)

Lemma with_captures_step f r st : rstep_get (with_captures f r) st = option_map (with_captures f) (rstep_get r st).
Proof.
  destruct r as [c n l ms cs t o g name]. destruct st as [| |k]; cbn [rstep_get with_captures r_child r_next r_nested]; try reflexivity.
  apply nth_error_map.
Qed.

Lemma with_captures_get f R rp : rget (with_captures f R) rp = option_map (with_captures f) (rget R rp).
Proof.
  induction rp as [|st rp IH]; [reflexivity|]. cbn [rget]. rewrite IH. destruct (rget R rp) as [r|]; [|reflexivity]. apply with_captures_step.
Qed.

Lemma with_captures_looks E D f R : forall rp,
  match rget R rp, rget (with_captures f R) rp with
  | Some r, Some r' => looks_same (Rule_matches E D) (Rule_matches E D) r r'
  | None, None => True
  | _, _ => False
  end.
Proof.
  intros rp. rewrite with_captures_get. destruct (rget R rp) as [r|]; [|exact I]. destruct r as [c n l ms cs t o g name].
  cbn [option_map with_captures]. repeat split; cbn [r_next r_child r_nested].
  - now destruct n.
  - now destruct c.
  - now rewrite map_length.
Qed.

Lemma with_captures_save E D f R fuel p n :
  SaveMatchingNodesRecursive (with_captures f R) D (Rule_matches E D) fuel (Some []) p n =
  SaveMatchingNodesRecursive R D (Rule_matches E D) fuel (Some []) p n.
Proof. symmetry. apply (proj1 (meq_all R (with_captures f R) D _ _ (with_captures_looks E D f R) fuel)). Qed.

Theorem search_bare E R R' D p n o : bare R = bare R' -> search_yields E R D p n o -> search_yields E R' D p n o.
Proof.
  intros HB [f0 H]. exists f0. intros f Hf. rewrite <- (H f Hf).
  rewrite <- (with_captures_save E D (fun _ => []) R), <- (with_captures_save E D (fun _ => []) R').
  change (with_captures (fun _ => []) R) with (bare R). now rewrite HB.
Qed.

(** ** The values *)

Section Values.
Variable E : engine.
Variable D : node.
Variable R : rule.
(** What happens to each capture and what to each value. *)
Variable F : list (option capture) -> list (option capture).
Variable P : result_pair -> Prop.
Variable h : list result_pair -> list result_pair.
Hypothesis h_app : forall x y, h (x ++ y) = h x ++ h y.
Hypothesis HF : forall cs p values, Forall P values ->
  (exists outs, Forall2 (fun c o => capture_capture E D c p = Ok o) (present cs) outs /\ values = present outs) ->
  (exists outs, Forall2 (fun c o => capture_capture E D c p = Ok o) (present (F cs)) outs /\ h values = present outs).

Lemma h_nil : h [] = [].
Proof. pose proof (h_app [] []) as H. cbn [app] in H. apply (f_equal (@length _)) in H. rewrite app_length in H. destruct (h []); [reflexivity|cbn in H; lia]. Qed.

Lemma captured_with g : forall vs, Forall P vs -> captured E R D g vs -> captured E (with_captures F R) D g (h vs).
Proof.
  intros vs HP H. induction H as [|rp p r g values rest Hr Hv Hg IH]; [rewrite h_nil; constructor|].
  apply Forall_app in HP as [HP1 HP2]. rewrite h_app. apply (captured_cons E (with_captures F R) D rp p (with_captures F r)); [now rewrite with_captures_get, Hr| |now apply IH].
  unfold rule_values in *. destruct r as [c n l ms cs t o gr name]. cbn [with_captures r_captures] in *. exact (HF cs p values HP1 Hv).
Qed.

Lemma groups_with gs : forall vss, Forall (Forall P) vss -> Forall2 (captured E R D) gs vss ->
  Forall2 (captured E (with_captures F R) D) gs (map h vss).
Proof.
  intros vss HP H. induction H as [|g vs gs vss Hg H IH]; [constructor|]. inversion HP; subst. constructor; [now apply captured_with|now apply IH].
Qed.

(** The maps of the groups, with a relation between old and new maps. *)
Variable rel : ResultMap -> list ResultMap -> Prop.
Hypothesis Hrel : forall vs m, vs <> [] -> Forall P vs -> map_of vs m -> exists ms, rel m ms /\ Forall2 map_of (filter nonempty_list [h vs]) ms.

Lemma maps_with vss : forall res, Forall (Forall P) vss -> Forall2 map_of (filter nonempty_list vss) res ->
  exists mss, Forall2 rel res mss /\ Forall2 map_of (filter nonempty_list (map h vss)) (concat mss).
Proof.
  induction vss as [|vs vss IH]; intros res HP H; [inversion H; subst; exists []; split; constructor|].
  inversion HP as [|? ? HP1 HP2]; subst. cbn [filter map] in *. destruct vs as [|v vs].
  - cbn [nonempty_list] in H. rewrite h_nil. cbn [nonempty_list]. now apply IH.
  - cbn [nonempty_list] in H. inversion H as [|? m ? res' Hm Hres]; subst. destruct (IH res' HP2 Hres) as [mss [H1 H2]].
    destruct (Hrel (v :: vs) m ltac:(discriminate) HP1 Hm) as [ms [H3 H4]]. exists (ms :: mss). split; [now constructor|].
    cbn [concat]. cbn [filter] in H4. destruct (nonempty_list (h (v :: vs))).
    + inversion H4 as [|? m' ? l Hm' Hl]; subst. inversion Hl; subst. cbn [app]. now constructor.
    + inversion H4; subst. exact H2.
Qed.

Lemma map_members vss : forall res, Forall2 map_of (filter nonempty_list vss) res ->
  (forall m x, In m res -> In x m -> P x) -> Forall (Forall P) vss.
Proof.
  induction vss as [|vs vss IH]; intros res H HP; [constructor|]. cbn [filter] in H. destruct vs as [|v vs]; cbn [nonempty_list] in H.
  - constructor; [constructor|now apply (IH res)].
  - inversion H as [|? m ? res' Hm Hres]; subst. constructor.
    + apply Forall_forall. intros x Hx. apply (HP m x); [now left|]. destruct Hm as [_ [Hp _]]. exact (Permutation_in _ (Permutation_sym Hp) Hx).
    + apply (IH res'); [exact Hres|]. intros m' x Hm' Hx. apply (HP m' x); [now right|exact Hx].
Qed.

Theorem extract_with p n res : (forall m x, In m res -> In x m -> P x) ->
  extract_yields E R D p n (Ok res) ->
  exists mss, Forall2 rel res mss /\ extract_yields E (with_captures F R) D p n (Ok (concat mss)).
Proof.
  intros HP [f0 H].
  assert (HX : exists gs, capture_groups E R D gs = Ok res /\
    forall f, f0 <= f -> exists c, SaveMatchingNodesRecursive R D (Rule_matches E D) f (Some []) p n = Ok (gs, c)).
  { pose proof (H f0 (le_n _)) as H0. unfold extract in H0.
    destruct (SaveMatchingNodesRecursive R D (Rule_matches E D) f0 (Some []) p n) as [[gs c]| | |] eqn:Hs; cbn [obind] in H0; try discriminate.
    exists gs. split; [exact H0|]. intros f Hf. exists c. rewrite (Save_mono R D (Rule_matches E D) f0 f _ _ _ Hf); [exact Hs|]. rewrite Hs. discriminate. }
  destruct HX as [gs [Hg HS]]. apply capture_groups_iff in Hg as [vss [HC HR]].
  pose proof (map_members vss res HR HP) as HPv. destruct (maps_with vss res HPv HR) as [mss [H1 H2]].
  exists mss. split; [exact H1|]. exists f0. intros f Hf. destruct (HS f Hf) as [c Hc]. unfold extract. rewrite with_captures_save, Hc. cbn [obind].
  apply capture_groups_iff. exists (map h vss). split; [now apply groups_with|exact H2].
Qed.
End Values.

(** ** Selecting captures *)

Lemma present_cons {A} (x : option A) l : present (x :: l) = match x with Some y => y :: present l | None => present l end.
Proof. destruct x; reflexivity. Qed.

Lemma filter_map_of k vs m : map_of vs m -> map_of (filter (fun x : result_pair => k (fst x)) vs) (filter (fun x => k (fst x)) m).
Proof.
  intros [H1 [H2 H3]]. split; [|split].
  - clear - H1. induction H1 as [|x m Hm IH Hx]; [constructor|]. cbn [filter]. destruct (k (fst x)); [|exact IH]. constructor; [exact IH|].
    apply Forall_forall. intros y Hy. apply filter_In in Hy as [Hy _]. rewrite Forall_forall in Hx. now apply Hx.
  - clear - H2. induction H2; cbn [filter]; [constructor| | |].
    + destruct (k (fst x)); [now constructor|assumption].
    + destruct (k (fst y)), (k (fst x)); try apply Permutation_refl. apply perm_swap.
    + eapply Permutation_trans; eassumption.
  - intros name. specialize (H3 name). unfold values_of in *.
    assert (HG : forall l : list result_pair, filter (fun x => str_eqb (fst x) name) (filter (fun x => k (fst x)) l) =
      if k name then filter (fun x => str_eqb (fst x) name) l else []).
    { induction l as [|x l IH]; [now destruct (k name)|]. cbn [filter].
      destruct (str_eqb (fst x) name) eqn:He.
      - apply str_eqb_eq in He. subst name. destruct (k (fst x)); cbn [filter]; rewrite ?IH; [|reflexivity].
        replace (str_eqb (fst x) (fst x)) with true by (symmetry; now apply str_eqb_eq). reflexivity.
      - destruct (k (fst x)); cbn [filter]; rewrite ?He; exact IH. }
    rewrite !HG. now destruct (k name).
Qed.

Theorem extract_select E R D keep p n res : extract_yields E R D p n (Ok res) ->
  extract_yields E (select keep R) D p n (Ok (filter nonempty_list (map (filter (fun x => keep (fst x))) res))).
Proof.
  intros H.
  destruct (extract_with E D R (filter (fun c => match c with Some c' => keep (stores_as c') | None => false end)) (fun _ => True)
    (filter (fun x => keep (fst x))) (fun x y => filter_app _ x y)) with
    (rel := fun m ms => ms = filter nonempty_list [filter (fun x : result_pair => keep (fst x)) m]) (p := p) (n := n) (res := res) as [mss [H1 H2]].
  - intros cs q values _ [outs [HO ->]]. revert outs HO. induction cs as [|c cs IH]; intros outs HO.
    { inversion HO; subst. exists []. split; [constructor|reflexivity]. }
    rewrite present_cons in HO. cbn [filter]. destruct c as [c|]; [|exact (IH outs HO)].
    inversion HO as [|? o ? outs' Ho HO']; subst. destruct (IH outs' HO') as [outs [H3 H4]].
    destruct o as [v|].
    + rewrite present_cons. cbn [filter]. rewrite (capture_stores E D c q v Ho). destruct (keep (stores_as c)).
      * exists (Some v :: outs). rewrite !present_cons. split; [now constructor|now rewrite H4].
      * exists outs. now split.
    + rewrite (present_cons None). destruct (keep (stores_as c)).
      * exists (None :: outs). rewrite !present_cons. split; [now constructor|exact H4].
      * exists outs. now split.
  - intros vs m _ _ Hm. eexists. split; [reflexivity|]. pose proof (filter_map_of keep vs m Hm) as HF. cbn [filter].
    unfold result_pair in *.
    destruct (filter (fun x => keep (fst x)) vs) as [|v l] eqn:Ev, (filter (fun x => keep (fst x)) m) as [|w l'] eqn:Em; cbn [nonempty_list].
    + constructor.
    + destruct HF as [_ [HP _]]. apply Permutation_sym, Permutation_nil in HP. discriminate.
    + destruct HF as [_ [HP _]]. apply Permutation_nil in HP. discriminate.
    + constructor; [exact HF|constructor].
  - trivial.
  - exact H.
  - replace (filter nonempty_list (map (filter (fun x => keep (fst x))) res)) with (concat mss); [exact H2|]. clear - H1.
    induction H1 as [|m ms res mss Hm _ IH]; [reflexivity|]. subst ms. cbn [concat map filter]. rewrite IH. unfold result_pair.
    destruct (nonempty_list (filter (fun x => keep (fst x)) m)); reflexivity.
Qed.

(** ** Renaming *)

Lemma rename_capture_capture E D f c p o : capture_capture E D c p = Ok o ->
  capture_capture E D (rename_capture f c) p = Ok (option_map (fun x => (f (fst x), snd x)) o).
Proof.
  unfold capture_capture. destruct (deref D p) as [n| | |]; cbn [obind]; try discriminate.
  destruct c as [a name q|[g|] name q]; cbn [rename_capture].
  - destruct n as [|t orig attrs cs| | | | |]; try (intros H; injection H as <-; reflexivity).
    destruct (gumbo_get_attribute attrs (c_str a)) as [x|]; [|intros H; injection H as <-; reflexivity].
    destruct (a_value x) as [v|]; [|intros H; injection H as <-; reflexivity].
    destruct (apply_pipe E q (c_str v)) as [y| | |]; cbn [obind]; try discriminate. intros H; injection H as <-; reflexivity.
  - destruct (call_capture_function g D p) as [x| | |]; cbn [obind]; try discriminate.
    destruct (apply_pipe E q x) as [y| | |]; cbn [obind]; try discriminate. intros H; injection H as <-; reflexivity.
  - intros H; injection H as <-; reflexivity.
Qed.

Lemma present_map {A B} (f : A -> B) l : present (map (option_map f) l) = map f (present l).
Proof. induction l as [|[x|] l IH]; [reflexivity| |]; cbn [map option_map]; rewrite !present_cons; cbn [map]; now rewrite ?IH. Qed.

Lemma outs_map E D p (f : capture -> capture) (h : result_pair -> result_pair) cs outs :
  Forall2 (fun c o => capture_capture E D c p = Ok o) (present cs) outs ->
  (forall c o, In c (present cs) -> In o outs -> capture_capture E D c p = Ok o -> capture_capture E D (f c) p = Ok (option_map h o)) ->
  Forall2 (fun c o => capture_capture E D c p = Ok o) (present (map (option_map f) cs)) (map (option_map h) outs).
Proof.
  rewrite present_map. intros H HC. induction H as [|c o l outs Ho _ IH]; [constructor|]. cbn [map]. constructor.
  - apply HC; [now left|now left|exact Ho].
  - apply IH. intros c' o' Hc' Ho'. apply HC; now right.
Qed.

Lemma values_renamed f name (l : list result_pair) : (forall a b, f a = f b -> a = b) ->
  values_of (f name) (map (fun x => (f (fst x), snd x)) l) = values_of name l.
Proof.
  intros Hf. unfold values_of. induction l as [|x l IH]; [reflexivity|]. cbn [map filter fst].
  assert (He : str_eqb (f (fst x)) (f name) = str_eqb (fst x) name).
  { destruct (str_eqb (fst x) name) eqn:He.
    - apply str_eqb_eq in He. subst name. now apply str_eqb_eq.
    - destruct (str_eqb (f (fst x)) (f name)) eqn:He'; [|reflexivity]. apply str_eqb_eq in He'. apply Hf in He'. apply str_eqb_eq in He'. congruence. }
  rewrite He. destruct (str_eqb (fst x) name); cbn [map]; now rewrite IH.
Qed.

Theorem extract_rename E R D f p n res : (forall a b, f a = f b -> a = b) -> extract_yields E R D p n (Ok res) ->
  exists res', extract_yields E (rename f R) D p n (Ok res') /\ Forall2 (renamed f) res res'.
Proof.
  intros Hf H.
  destruct (extract_with E D R (map (option_map (rename_capture f))) (fun _ => True)
    (map (fun x => (f (fst x), snd x))) (fun x y => map_app _ x y)) with
    (rel := fun m ms => exists m', ms = [m'] /\ renamed f m m') (p := p) (n := n) (res := res) as [mss [H1 H2]].
  - intros cs q values _ [outs [HO ->]]. exists (map (option_map (fun x : result_pair => (f (fst x), snd x))) outs). split.
    + apply outs_map; [exact HO|]. intros c o _ _. apply rename_capture_capture.
    + symmetry. apply present_map.
  - intros vs m Hvs _ [M1 [M2 M3]]. set (vs' := map (fun x : result_pair => (f (fst x), snd x)) vs).
    destruct (insert_all_spec vs' [] (SSorted_nil _)) as [S1 [S2 S3]]. cbn [app] in S2, S3.
    exists [multimap_insert_all [] vs']. split.
    + eexists. split; [reflexivity|]. split; [exact S1|]. split.
      * eapply Permutation_trans; [exact S2|]. apply Permutation_map. now apply Permutation_sym.
      * intros name. rewrite S3. unfold values_of at 1. cbn [filter map app]. fold (values_of (f name) vs'). unfold vs'. rewrite values_renamed by exact Hf. symmetry. apply M3.
    + cbn [filter]. destruct vs as [|v vs]; [congruence|]. cbn [vs' map nonempty_list]. constructor; [|constructor].
      split; [exact S1|]. split; [exact S2|exact S3].
  - trivial.
  - exact H.
  - exists (concat mss). split; [exact H2|]. clear - H1. induction H1 as [|m ms res mss [m' [-> Hm]] _ IH]; [constructor|]. cbn [concat app]. now constructor.
Qed.

(** ** Pipes *)

Lemma pipe_append_pipe E q : forall p x, pipe_pipe E (pipe_append p (Some q)) x = obind (pipe_pipe E p x) (pipe_pipe E q).
Proof.
  fix IH 1. intros [t [p|]] x; cbn [pipe_append pipe_pipe]; destruct (transform_str E t x) as [y| | |]; cbn [obind]; try reflexivity. apply IH.
Qed.

Lemma pipe_behind_pipe E p q x : apply_pipe E (pipe_behind p q) x = obind (apply_pipe E p x) (pipe_pipe E q).
Proof. destruct p as [p|]; cbn [pipe_behind apply_pipe]; [apply pipe_append_pipe|reflexivity]. Qed.

Lemma pipe_capture_capture E D names q g c p o :
  (forall v, o = Some v -> names (fst v) = true -> pipe_pipe E q (snd v) = Ok (g (snd v))) ->
  capture_capture E D c p = Ok o -> capture_capture E D (pipe_capture names q c) p = Ok (option_map (through names g) o).
Proof.
  intros Hg. unfold capture_capture. destruct (deref D p) as [n| | |]; cbn [obind]; try discriminate.
  destruct c as [a name r|[k|] name r]; cbn [pipe_capture]; destruct (names name) eqn:Hn.
  - destruct n as [|t orig attrs cs| | | | |]; try (intros H; injection H as <-; reflexivity).
    destruct (gumbo_get_attribute attrs (c_str a)) as [x|]; [|intros H; injection H as <-; reflexivity].
    destruct (a_value x) as [v|]; [|intros H; injection H as <-; reflexivity]. rewrite pipe_behind_pipe.
    destruct (apply_pipe E r (c_str v)) as [y| | |]; cbn [obind]; try discriminate. intros H. injection H as <-.
    pose proof (Hg (name, y) eq_refl Hn) as Hy. cbn [snd] in Hy. rewrite Hy. cbn [obind option_map through fst snd]. unfold through. cbn [fst snd]. now rewrite Hn.
  - destruct n as [|t orig attrs cs| | | | |]; try (intros H; injection H as <-; reflexivity).
    destruct (gumbo_get_attribute attrs (c_str a)) as [x|]; [|intros H; injection H as <-; reflexivity].
    destruct (a_value x) as [v|]; [|intros H; injection H as <-; reflexivity].
    destruct (apply_pipe E r (c_str v)) as [y| | |]; cbn [obind]; try discriminate. intros H. injection H as <-.
    cbn [option_map]. unfold through. cbn [fst]. now rewrite Hn.
  - destruct (call_capture_function k D p) as [x| | |]; cbn [obind]; try discriminate. rewrite pipe_behind_pipe.
    destruct (apply_pipe E r x) as [y| | |]; cbn [obind]; try discriminate. intros H. injection H as <-.
    pose proof (Hg (name, y) eq_refl Hn) as Hy. cbn [snd] in Hy. rewrite Hy. cbn [obind option_map]. unfold through. cbn [fst snd]. now rewrite Hn.
  - destruct (call_capture_function k D p) as [x| | |]; cbn [obind]; try discriminate.
    destruct (apply_pipe E r x) as [y| | |]; cbn [obind]; try discriminate. intros H. injection H as <-.
    cbn [option_map]. unfold through. cbn [fst]. now rewrite Hn.
  - intros H; injection H as <-; reflexivity.
  - intros H; injection H as <-; reflexivity.
Qed.

Lemma through_map_of names g vs m : map_of vs m -> map_of (map (through names g) vs) (map (through names g) m).
Proof.
  assert (HN : forall x, fst (through names g x) = fst x) by (intros x; unfold through; now destruct (names (fst x))).
  intros [H1 [H2 H3]]. split; [|split].
  - clear - H1 HN. induction H1 as [|x m Hm IH Hx]; [constructor|]. cbn [map]. constructor; [exact IH|].
    apply Forall_forall. intros y Hy. apply in_map_iff in Hy as [z [<- Hz]]. rewrite Forall_forall in Hx. unfold name_le. rewrite !HN. now apply Hx.
  - now apply Permutation_map.
  - intros name.
    assert (HG : forall l, values_of name (map (through names g) l) = map (if names name then g else fun v => v) (values_of name l)).
    { unfold values_of. induction l as [|x l IH]; [reflexivity|]. cbn [map filter]. rewrite HN. destruct (str_eqb (fst x) name) eqn:He; [|exact IH].
      cbn [map]. rewrite IH. f_equal. apply str_eqb_eq in He. subst name. unfold through. destruct (names (fst x)); reflexivity. }
    rewrite !HG. now rewrite H3.
Qed.

Theorem extract_piped E R D names q g p n res :
  (forall m x, In m res -> In x m -> names (fst x) = true -> pipe_pipe E q (snd x) = Ok (g (snd x))) ->
  extract_yields E R D p n (Ok res) ->
  extract_yields E (piped names q R) D p n (Ok (map (map (through names g)) res)).
Proof.
  intros Hg H.
  destruct (extract_with E D R (map (option_map (pipe_capture names q))) (fun x => names (fst x) = true -> pipe_pipe E q (snd x) = Ok (g (snd x)))
    (map (through names g)) (fun x y => map_app _ x y)) with
    (rel := fun m ms => ms = [map (through names g) m]) (p := p) (n := n) (res := res) as [mss [H1 H2]].
  - intros cs r values HP [outs [HO ->]]. exists (map (option_map (through names g)) outs). split.
    + apply outs_map; [exact HO|]. intros c o _ Ho Hc. apply pipe_capture_capture; [|exact Hc]. intros v -> Hn.
      rewrite Forall_forall in HP. apply HP; [|exact Hn]. apply in_flat_map. exists (Some v). split; [exact Ho|now left].
    + symmetry. apply present_map.
  - intros vs m Hvs _ Hm. eexists. split; [reflexivity|]. cbn [filter]. destruct vs as [|v vs]; [congruence|]. cbn [map nonempty_list].
    constructor; [|constructor]. exact (through_map_of names g (v :: vs) m Hm).
  - exact Hg.
  - exact H.
  - replace (map (map (through names g)) res) with (concat mss); [exact H2|]. clear - H1.
    induction H1 as [|m ms res mss -> _ IH]; [reflexivity|]. cbn [concat map app]. now rewrite IH.
Qed.
