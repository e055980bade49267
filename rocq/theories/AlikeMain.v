(** Documents that are alike: extract gives the same. *)

From Coq Require Import Ascii String Arith NArith ZArith Bool List Lia Permutation.
From Verif Require Import Base StringUtil Tags Dom Values Match Rule RuleMatching RuleProofs MatchSem MatchRefine
  GroupAlg GroupSpec MatchSpec MatchProofs ExtractSpec LocalProofs ExtractProofs SpecUnique ResultProofs ExtractMain
  TextSpec AlikeSpec AlikeSim AlikeProofs.
Import ListNotations.

Section Main.
Variable words : bool.
Variable E : engine.
Variable R : rule.
Hypothesis HR : blind words R.

Section Two.
Variables D D' : node.
Notation place := (same_place words D D').
Notation pairs_sim := (pairs_sim place).
Notation items_sim := (items_sim R place).
Notation item_sim := (item_sim R place).
Notation b := (bq E D).
Notation b' := (bq E D').

Lemma known_chain rp c : rget R rp = Some c -> Forall (fun cr => rget R (fst cr) = Some (snd cr)) (chain_of rp c).
Proof. apply (chain_of_rget R). Qed.

Lemma child_known rp r c : rget R rp = Some r -> r_child r = Some c -> rget R (RChild :: rp) = Some c.
Proof. intros Hr Hc. cbn [rget]. now rewrite Hr. Qed.
Lemma nested_known rp r k c : rget R rp = Some r -> nth_error (r_nested r) k = Some c -> rget R (RNested k :: rp) = Some c.
Proof. intros Hr Hc. cbn [rget]. now rewrite Hr. Qed.

Lemma child_part_sim kids kids' rp r : rget R rp = Some r -> items_sim kids kids' ->
  eval_sim place (child_part kids rp r) (child_part kids' rp r).
Proof.
  intros Hr Hk. unfold child_part. destruct (r_child r) as [c|] eqn:Ec; [|constructor].
  pose proof (groups_sim R place (RChild :: rp) c kids kids' (known_chain _ _ (child_known rp r c Hr Ec)) Hk) as G.
  rewrite (nonempty_sim _ _ _ G). destruct (has_mand _ && negb _); [exact I|]. cbn [eval_sim]. now apply concat_sim.
Qed.

Lemma nested_part_sim kids kids' rp r : rget R rp = Some r -> items_sim kids kids' ->
  forall l k, (forall j c, nth_error l j = Some c -> nth_error (r_nested r) (k + j) = Some c) ->
  eval_sim place (nested_part kids rp k l) (nested_part kids' rp k l).
Proof.
  intros Hr Hk. induction l as [|nr l IH]; intros k Hl; cbn [nested_part]; [constructor|].
  assert (Hn : rget R (RNested k :: rp) = Some nr).
  { apply (nested_known rp r k nr Hr). specialize (Hl 0 nr eq_refl). now rewrite Nat.add_0_r in Hl. }
  pose proof (save_sim R place (RNested k :: rp) nr kids kids' (known_chain _ _ Hn) Hn Hk) as G.
  rewrite (nonempty_sim _ _ _ G). destruct (negb _ && has_mand _); [exact I|].
  specialize (IH (S k)). assert (X : forall j c, nth_error l j = Some c -> nth_error (r_nested r) (S k + j) = Some c).
  { intros j c Hj. replace (S k + j) with (k + S j) by lia. now apply Hl. }
  specialize (IH X). destruct (nested_part kids rp (S k) l), (nested_part kids' rp (S k) l); cbn [eval_sim] in *; try contradiction; [|exact I].
  apply pairs_app; [now apply concat_sim|exact IH].
Qed.

(** Nothing below a rule that needs something matches hidden nodes. *)
Lemma hidden_parts kids rp r : rget R rp = Some r -> needs_something r -> (r_child r <> None \/ r_nested r <> []) ->
  Forall (item_hidden R) kids -> child_part kids rp r = None \/ nested_part kids rp 0 (r_nested r) = None.
Proof.
  intros Hr Hn Hc Hk. destruct (Hn Hc) as [c [[H|H] Hm]].
  - left. unfold child_part. rewrite H. pose proof (proj2 (has_mand_spec (RChild :: rp) c) Hm) as ->.
    rewrite (groups_hidden R place _ _ kids (known_chain _ _ (child_known rp r c Hr H)) Hk). reflexivity.
  - right. assert (G : forall l k, (forall j c, nth_error l j = Some c -> nth_error (r_nested r) (k + j) = Some c) ->
      In c l -> nested_part kids rp k l = None).
    { induction l as [|nr l IH]; intros k Hl Hin; [destruct Hin|]. cbn [nested_part].
      assert (Hx : rget R (RNested k :: rp) = Some nr).
      { apply (nested_known rp r k nr Hr). specialize (Hl 0 nr eq_refl). now rewrite Nat.add_0_r in Hl. }
      assert (X : save kids (RNested k :: rp) nr = []).
      { pose proof (save_sim R place (RNested k :: rp) nr kids [] (known_chain _ _ Hx) Hx (sim_hidden_left R place kids Hk)) as G.
        inversion G as [|? ? ? ? ? ? G1 G2]; reflexivity. }
      rewrite X. cbn [nonempty negb andb concat app]. destruct Hin as [->|Hin].
      - now rewrite (proj2 (has_mand_spec (RNested k :: rp) c) Hm).
      - destruct (has_mand _); [reflexivity|]. rewrite IH; [reflexivity| |exact Hin].
        intros j c' Hj. replace (S k + j) with (k + S j) by lia. now apply Hl. }
    apply G; [|exact H]. intros j c' Hj. exact Hj.
Qed.

Lemma eval_at_none bb p kids rp r : rget R rp = Some r -> needs_something r -> (r_child r <> None \/ r_nested r <> []) ->
  Forall (item_hidden R) kids -> eval_at bb p kids rp r = None.
Proof.
  intros Hr Hn Hc Hk. unfold eval_at. destruct (bb r p); [|reflexivity].
  destruct (hidden_parts kids rp r Hr Hn Hc Hk) as [H|H].
  - rewrite H. destruct (r_child r); [|destruct (r_nested r); [destruct Hc; contradiction|]]; destruct kids; reflexivity.
  - rewrite H. destruct (r_child r); [|destruct (r_nested r); [destruct Hc; contradiction|]]; destruct kids; try reflexivity;
      destruct (child_part _ rp r); reflexivity.
Qed.

Lemma eval_at_sim p p' kids kids' rp r : place p p' -> rget R rp = Some r -> items_sim kids kids' ->
  eval_sim place (eval_at b p kids rp r) (eval_at b' p' kids' rp r).
Proof.
  intros Hp Hr Hk. destruct (HR r (ex_intro _ rp Hr)) as [_ [Hn [Hm _]]].
  destruct kids as [|x kids].
  { pose proof (sim_nil_left R place _ Hk) as Hh.
    destruct (r_child r) eqn:Ec; [|destruct (r_nested r) eqn:En].
    - assert (Q : r_child r <> None \/ r_nested r <> []) by (left; congruence).
      rewrite !eval_at_none; try assumption; [exact I|constructor].
    - unfold eval_at. rewrite Ec, En. unfold bq. rewrite (rule_alike words D D' E r p p' Hm Hp).
      destruct (match Rule_matches E D' r p' with Ok true => true | _ => false end); [constructor|exact I].
    - assert (Q : r_child r <> None \/ r_nested r <> []) by (right; congruence).
      rewrite !eval_at_none; try assumption; [exact I|constructor]. }
  destruct kids' as [|x' kids'].
  { pose proof (sim_nil_right R place _ Hk) as Hh.
    destruct (r_child r) eqn:Ec; [|destruct (r_nested r) eqn:En].
    - assert (Q : r_child r <> None \/ r_nested r <> []) by (left; congruence).
      rewrite !eval_at_none; try assumption; [exact I|constructor].
    - unfold eval_at. rewrite Ec, En. unfold bq. rewrite (rule_alike words D D' E r p p' Hm Hp).
      destruct (match Rule_matches E D' r p' with Ok true => true | _ => false end); [constructor|exact I].
    - assert (Q : r_child r <> None \/ r_nested r <> []) by (right; congruence).
      rewrite !eval_at_none; try assumption; [exact I|constructor]. }
  unfold eval_at, bq at 1 2. rewrite (rule_alike words D D' E r p p' Hm Hp).
  destruct (match Rule_matches E D' r p' with Ok true => true | _ => false end); [|exact I].
  pose proof (child_part_sim _ _ rp r Hr Hk) as C.
  pose proof (nested_part_sim _ _ rp r Hr Hk (r_nested r) 0 (fun j c H => H)) as N.
  assert (Z : eval_sim place
    match child_part (x :: kids) rp r with
    | Some m1 => match nested_part (x :: kids) rp 0 (r_nested r) with Some m2 => Some (m1 ++ m2) | None => None end
    | None => None end
    match child_part (x' :: kids') rp r with
    | Some m1 => match nested_part (x' :: kids') rp 0 (r_nested r) with Some m2 => Some (m1 ++ m2) | None => None end
    | None => None end).
  { destruct (child_part (x :: kids) rp r), (child_part (x' :: kids') rp r); cbn [eval_sim] in C; try contradiction; [|exact I].
    destruct (nested_part (x :: kids) rp 0 (r_nested r)), (nested_part (x' :: kids') rp 0 (r_nested r)); cbn [eval_sim] in N; try contradiction; [|exact I].
    cbn [eval_sim]. now apply pairs_app. }
  destruct (r_child r); [exact Z|]. destruct (r_nested r); [constructor|exact Z].
Qed.

Lemma sem_hidden D0 n p : nget D0 p = Some n -> is_element n = false -> item_hidden R (sem (bq E D0) n p).
Proof.
  intros Hp Hn rp r Hr. rewrite sem_unfold. cbn [it_eval it_below].
  destruct (HR r (ex_intro _ rp Hr)) as [Hf _].
  pose proof (hidden_condition E D0 r p n Hp Hn Hf) as X.
  split; [|destruct n; try reflexivity; discriminate].
  unfold eval_at, bq. destruct (Rule_matches E D0 r p) as [[]| | |]; congruence.
Qed.

Lemma nget_child D0 p par before n after : nget D0 p = Some par -> children_of par = before ++ n :: after ->
  nget D0 (length before :: p) = Some n.
Proof. intros Hp Hc. cbn [nget]. rewrite Hp, Hc, nth_error_app2, Nat.sub_diag by lia. reflexivity. Qed.

Lemma gap_hidden D0 p par gap : forall before after, nget D0 p = Some par -> children_of par = before ++ gap ++ after ->
  Forall (fun n => is_element n = false) gap -> Forall (item_hidden R) (sem_list (bq E D0) gap (length before) p).
Proof.
  induction gap as [|n gap IH]; intros before after Hp Hc Hg; cbn [sem_list]; [constructor|].
  inversion Hg as [|? ? Hn Hg']; subst. constructor.
  - apply sem_hidden; [|exact Hn]. eapply nget_child; [exact Hp|exact Hc].
  - replace (S (length before)) with (length (before ++ [n])) by (rewrite app_length; cbn; lia).
    apply (IH (before ++ [n]) after Hp); [|exact Hg']. now rewrite <- app_assoc.
Qed.

Lemma sem_list_app bb l l2 : forall i p, sem_list bb (l ++ l2) i p = sem_list bb l i p ++ sem_list bb l2 (i + length l) p.
Proof.
  induction l as [|n l IH]; intros i p; cbn [app sem_list length]; [now rewrite Nat.add_0_r|].
  rewrite IH. now replace (S i + length l) with (i + S (length l)) by lia.
Qed.

Let Pn (n n' : node) : Prop := forall p p', place p p' -> nget D p = Some n -> nget D' p' = Some n' ->
  item_sim (sem b n p) (sem b' n' p').
Let Pl (l l' : list node) : Prop := forall p p' par par' before before',
  place p p' -> nget D p = Some par -> nget D' p' = Some par' ->
  children_of par = before ++ l -> children_of par' = before' ++ l' -> alikes words before before' ->
  items_sim (sem_list b l (length before) p) (sem_list b' l' (length before') p').

Lemma gaps_sim p p' par par' before before' gap gap' after after' :
  nget D p = Some par -> nget D' p' = Some par' ->
  children_of par = before ++ gap ++ after -> children_of par' = before' ++ gap' ++ after' ->
  gaps_alike words gap gap' ->
  items_sim (sem_list b gap (length before) p) (sem_list b' gap' (length before') p').
Proof.
  intros Hp Hp' Hc Hc' [H1 [H2 _]].
  rewrite <- (app_nil_r (sem_list b gap (length before) p)).
  change (sem_list b' gap' (length before') p') with ([] ++ sem_list b' gap' (length before') p').
  apply sim_app; [apply sim_hidden_left|apply sim_hidden_right]; eapply gap_hidden; eassumption.
Qed.

Lemma case_element t orig orig' attrs attrs' cs cs' :
  tags_alike t orig orig' -> attributes_alike attrs attrs' -> alikes words cs cs' -> Pl cs cs' ->
  Pn (NElement t orig attrs cs) (NElement t orig' attrs' cs').
Proof.
  intros Ht Ha Hcs IH p p' Hpl Hp Hp'. rewrite !sem_unfold. cbn [kids_of].
  assert (G : gaps_alike words [] []) by (repeat split; constructor).
  assert (K : items_sim (sem_list b cs 0 p) (sem_list b' cs' 0 p')).
  { exact (IH p p' _ _ [] [] Hpl Hp Hp' eq_refl eq_refl (alikes_end words [] [] G)). }
  split; cbn [it_path it_eval it_below]; [exact Hpl|]. intros rp r Hr. split; [now apply eval_at_sim|].
  apply (save_sim R place); [now apply known_chain|exact Hr|exact K].
Qed.

Lemma case_document bd bd' x x' y y' z z' cs cs' : alikes words cs cs' ->
  Pn (NDocument bd x y z cs) (NDocument bd' x' y' z' cs').
Proof.
  intros Hcs p p' Hpl Hp Hp'. pose proof (sem_hidden D _ p Hp eq_refl) as H. pose proof (sem_hidden D' _ p' Hp' eq_refl) as H'.
  split; [rewrite !sem_unfold; exact Hpl|].
  intros rp r Hr. destruct (H rp r Hr) as [-> ->]. destruct (H' rp r Hr) as [-> ->]. split; [exact I|constructor].
Qed.

Lemma case_end gap gap' : gaps_alike words gap gap' -> Pl gap gap'.
Proof.
  intros G p p' par par' before before' Hpl Hp Hp' Hc Hc' _.
  apply (gaps_sim p p' par par' before before' gap gap' [] []); try assumption; now rewrite app_nil_r.
Qed.

Lemma case_next gap gap' n n' l l' : gaps_alike words gap gap' -> alike words n n' -> Pn n n' -> alikes words l l' -> Pl l l' ->
  Pl (gap ++ n :: l) (gap' ++ n' :: l').
Proof.
  intros G Hn IHn Hl IHl p p' par par' before before' Hpl Hp Hp' Hc Hc' Hb.
  rewrite !sem_list_app. apply sim_app.
  - apply (gaps_sim p p' par par' before before' gap gap' (n :: l) (n' :: l')); assumption.
  - cbn [sem_list].
    assert (Hb2 : alikes words (before ++ gap) (before' ++ gap')) by (apply alikes_app; [exact Hb|now apply alikes_end]).
    rewrite <- !app_length.
    rewrite app_assoc in Hc, Hc'.
    assert (Hpl2 : place (length (before ++ gap) :: p) (length (before' ++ gap') :: p')) by (eapply place_below; eassumption).
    apply sim_both.
    + apply IHn; [exact Hpl2|eapply nget_child; eassumption|eapply nget_child; eassumption].
    + replace (S (length (before ++ gap))) with (length ((before ++ gap) ++ [n])) by (rewrite app_length; cbn; lia).
      replace (S (length (before' ++ gap'))) with (length ((before' ++ gap') ++ [n'])) by (rewrite app_length; cbn; lia).
      apply (IHl p p' par par'); try assumption.
      * rewrite Hc, <- !app_assoc. reflexivity.
      * rewrite Hc', <- !app_assoc. reflexivity.
      * apply alikes_app; [exact Hb2|now apply alikes_one].
Qed.

Lemma sem_sim n n' : alike words n n' -> Pn n n'.
Proof.
  apply (alike_mut words Pn Pl).
  - exact case_element.
  - intros. now apply case_document.
  - exact case_end.
  - exact case_next.
Qed.
Lemma sem_list_sim l l' : alikes words l l' -> Pl l l'.
Proof.
  apply (alikes_mut words Pn Pl).
  - exact case_element.
  - intros. now apply case_document.
  - exact case_end.
  - exact case_next.
Qed.

Lemma skipn_before {A} (x : list A) y : skipn (length x) (x ++ y) = y.
Proof. now rewrite skipn_app, skipn_all, Nat.sub_diag. Qed.

Lemma siblings_sim i pp i' pp' : place (i :: pp) (i' :: pp') ->
  items_sim (sibling_items b D (i :: pp)) (sibling_items b' D' (i' :: pp')).
Proof.
  intros H. pose proof H as H0.
  inversion H as [|qq qq' par par' before before' n n' after after' Hq Hp Hp' Hc Hc' Hb Hn Ha E1 E2]; subst.
  unfold sibling_items. rewrite Hp, Hp'.
  rewrite <- (alike_is words par par' (place_parent words D D' _ _ _ _ Hq Hp Hp')).
  pose proof (nget_child D pp par before n after Hp Hc) as N. pose proof (nget_child D' pp' par' before' n' after' Hp' Hc') as N'.
  destruct (is_element par).
  - rewrite Hc, Hc', !skipn_before. cbn [sem_list]. apply sim_both; [now apply (sem_sim n n' Hn)|].
    replace (S (length before)) with (length (before ++ [n])) by (rewrite app_length; cbn; lia).
    replace (S (length before')) with (length (before' ++ [n'])) by (rewrite app_length; cbn; lia).
    apply (sem_list_sim after after' Ha pp pp' par par'); try assumption.
    + now rewrite <- app_assoc.
    + now rewrite <- app_assoc.
    + apply alikes_app; [exact Hb|now apply alikes_one].
  - rewrite Hc, Hc', !nth_error_app2, !Nat.sub_diag by lia. cbn [nth_error].
    apply sim_both; [now apply (sem_sim n n' Hn)|constructor].
Qed.

Lemma captured_sim g g' values : pairs_sim g g' -> captured E R D g values -> captured E R D' g' values.
Proof.
  intros H. revert values. induction H as [|[rp p] [rp' p'] g g' [H1 H2] H IH]; intros values Hc; cbn [fst snd] in *.
  - inversion Hc; subst. constructor.
  - subst rp'. inversion Hc as [|? ? r ? vs rest Hr Hv Hrest]; subst. apply (captured_cons E R D' rp p' r); [exact Hr| |now apply IH].
    destruct (HR r (ex_intro _ rp Hr)) as [_ [_ [_ Hb]]].
    destruct Hv as [outs [HF ->]]. exists outs. split; [|reflexivity].
    assert (X : forall c, In c (present (r_captures r)) -> capture_blind words c).
    { intros c Hin. apply Hb. clear - Hin. unfold present in Hin. apply in_flat_map in Hin as [o [Ho Hin]].
      destruct o as [c'|]; [|destruct Hin]. destruct Hin as [->|[]]. exact Ho. }
    clear - HF X H2. induction HF as [|c o l l' Hco HF IH]; constructor.
    + rewrite <- (capture_alike words D D' E c p p' (X c (or_introl eq_refl)) H2). exact Hco.
    + apply IH. intros c' Hc'. apply X. now right.
Qed.

Lemma result_sim gs gs' res : Forall2 pairs_sim gs gs' -> extract_result E R D gs res -> extract_result E R D' gs' res.
Proof.
  intros H [vss [H1 H2]]. exists vss. split; [|exact H2]. clear H2. revert vss H1.
  induction H as [|g g' gs gs' Hg H IH]; intros vss H1; inversion H1; subst; constructor; [|now apply IH].
  eapply captured_sim; eassumption.
Qed.

Lemma extract_alike i pp i' pp' res :
  engine_total E -> rule_calls_return R ->
  (exists size, small_document size D' /\ rule_params_safe size R) ->
  place (i :: pp) (i' :: pp') ->
  extract_yields E R D (Some (i :: pp)) 0 (Ok res) -> extract_yields E R D' (Some (i' :: pp')) 0 (Ok res).
Proof.
  intros HE HC HS Hpl [f0 Hf]. specialize (Hf f0 (le_n _)).
  destruct (place_nodes words D D' _ _ Hpl) as [n [n' [Hn [Hn' _]]]].
  destruct (extract_describes E R D f0 i pp n 0%N res Hn Hf) as [gs [Hgs Hres]].
  pose proof (search_meets_spec D b (node_satisfies E D) (bq_spec E D) i pp n R Hn) as S1.
  pose proof (search_meets_spec D' b' (node_satisfies E D') (bq_spec E D') i' pp' n' R Hn') as S2.
  rewrite (search_result_unique _ _ _ _ _ _ _ Hgs S1) in Hres.
  eapply extract_computes; [exact Hn'|exact HE|exact HC|exact HS|exact S2|].
  eapply result_sim; [|exact Hres]. apply (save_sim R place); [now apply known_chain|reflexivity|now apply siblings_sim].
Qed.

End Two.

Lemma extract_alike_both D D' i pp i' pp' res :
  engine_total E -> rule_calls_return R ->
  (exists size, small_document size D /\ rule_params_safe size R) ->
  (exists size, small_document size D' /\ rule_params_safe size R) ->
  same_place words D D' (i :: pp) (i' :: pp') ->
  (extract_yields E R D (Some (i :: pp)) 0 (Ok res) <-> extract_yields E R D' (Some (i' :: pp')) 0 (Ok res)).
Proof.
  intros HE HC HS HS' Hpl. split.
  - now apply extract_alike.
  - apply extract_alike; try assumption. now apply place_sym.
Qed.

End Main.
