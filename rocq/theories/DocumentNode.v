(** Extracting from the document node (C02). *)

From Coq Require Import Ascii String NArith ZArith Bool List Lia.
From Verif Require Import Base Tags Dom Values Match Rule RuleMatching MatchSpec ExtractSpec MatchSem MatchRefine.
Import ListNotations.

(** ** Never a result *)

(** The document node and the first rule. *)
Notation here := (@Some npath (@nil nat)).
Notation first := (@Some rpath (@nil rstep)).

Lemma next_of_document D : NextNode D here = UB NullDeref.
Proof. reflexivity. Qed.

Lemma below_document R D matches f rp n x : save_below R D matches f rp [] n <> Ok x.
Proof.
  destruct f as [|f]; [discriminate|]. cbn [save_below]. unfold bind, lift. cbn [deref nget obind].
  match goal with |- obind ?m _ <> _ => destruct m as [[here n']| | |] end; cbn [obind]; try discriminate.
Qed.

Lemma save_document R D matches f rp n : SaveMatchingNodesRecursive R D matches (S f) (Some rp) here n =
  obind (tick n) (fun '(_, n1) => obind (save_groups R D matches f rp here n1) (fun '(gs, n2) =>
  obind (save_below R D matches f rp [] n2) (fun '(bs, n3) => Ok (gs ++ bs, n3)))).
Proof. reflexivity. Qed.

Lemma document_no_result E R D n res : ~ extract_yields E R D here n (Ok res).
Proof.
  intros [f0 H]. specialize (H (S f0) (Nat.le_succ_diag_r f0)). revert H. unfold extract. rewrite save_document.
  destruct (tick n) as [[? n1]| | |]; cbn [obind]; try discriminate.
  destruct (save_groups R D (Rule_matches E D) f0 [] here n1) as [[gs n2]| | |]; cbn [obind]; try discriminate.
  destruct (save_below R D (Rule_matches E D) f0 [] [] n2) as [[bs n3]| | |] eqn:E1; cbn [obind]; try discriminate.
  now apply below_document in E1.
Qed.

(** ** What happens instead *)

Lemma bind_run {A B} (m : M A) (f : A -> M B) n : bind m f n = obind (m n) (fun '(a, n') => f a n').
Proof. reflexivity. Qed.
Lemma lift_ok {A} (a : A) n : lift (Ok a) n = Ok (a, n).
Proof. reflexivity. Qed.
Lemma rderef_is R rp r : rget R rp = Some r -> rderef R rp = Ok r.
Proof. unfold rderef. now intros ->. Qed.

Ltac run := repeat first [rewrite bind_run | rewrite lift_ok | cbn [obind]].

Section Document.

Variable E : engine.
Variable R : rule.
Variable D : node.
Hypothesis HD : is_element D = false.
Hypothesis HR : forall r, In r (chain R) -> exists b, Rule_matches E D r [] = Ok b.

Notation once := (MatchRuleOnce R D (Rule_matches E D)).
Notation range := (range_loop R D (Rule_matches E D)).

Lemma document_match f rp r n : rget R rp = Some r -> In r (chain R) ->
  exists b, RuleMatchesNodeRecursive R D (Rule_matches E D) (S f) (Some rp) here n = Ok ((b, []), n).
Proof.
  intros Hr Hin. destruct (HR r Hin) as [b Hb]. cbn [RuleMatchesNodeRecursive]. rewrite (rderef_is _ _ _ Hr). run. change (deref D []) with (Ok D). run. rewrite Hb. run. rewrite HD. cbn [negb orb]. destruct b; cbn [negb]; [|now exists false].
  destruct (negb (is_some (r_child r)) && Nat.eqb (length (r_nested r)) 0); [now exists true|now exists false].
Qed.

Lemma document_once f rp r n : rget R rp = Some r -> In r (chain R) ->
  once (S (S f)) (Some rp) here None n = Ok ((here, []), n) \/ once (S (S f)) (Some rp) here None n = UB NullDeref.
Proof.
  intros Hr Hin. destruct (document_match f rp r n Hr Hin) as [b Hb]. rewrite once_unfold. change (nptr_eqb here None) with false. cbv iota.
  rewrite !bind_run, !Hb. cbn [obind]. destruct b; [now left|]. right. rewrite bind_run. now rewrite next_of_document.
Qed.

Lemma chain_eq r : chain r = r :: match r_next r with Some r' => chain r' | None => [] end.
Proof. now destruct r. Qed.

Lemma document_range : forall k rp r end_ m n f, rget R rp = Some r -> incl (chain r) (chain R) -> length (chain r) <= k -> 2 * k < f ->
  exists x, range f (Some rp) end_ here here m n = Ok ((x, []), n).
Proof.
  induction k as [|k IH]; intros rp r end_ m n f Hr Hin Hk Hf.
  { rewrite chain_eq in Hk. cbn in Hk. lia. }
  destruct f as [|[|f]]; [lia|lia|]. destruct (rptr_eqb_spec (Some rp) end_) as [<-|He].
  { exists m. destruct (rptr_eqb_spec (Some rp) (Some rp)) as [_|X]; [|now destruct X].
    change (range (S (S f)) (Some rp) (Some rp) here here m n) with
      ((if rptr_eqb (Some rp) (Some rp) then ret (m, []) else bind (lift (rderef R rp)) (fun r => range_body R D (Rule_matches E D) rp r (Some rp) (Some rp) here here (S f))) n).
    destruct (rptr_eqb_spec (Some rp) (Some rp)) as [_|X]; [reflexivity|now destruct X]. }
  rewrite (range_loop_unfold R D (Rule_matches E D) (S f) rp r end_ _ _ m Hr He). unfold range_body. rewrite bind_run.
  change (once (S f) (Some rp) here here n) with (Ok (A := nptr * MatchingNodes * N) ((here, []), n)).
  cbn [obind nptr_eqb]. change (npath_eqb [] []) with true. cbv iota.
  unfold rnext. rewrite chain_eq in Hk, Hin. destruct (r_next r) as [r'|] eqn:En.
  - destruct (IH (RNext :: rp) r' end_ here n (S f)) as [x Hx].
    + cbn [rget]. now rewrite Hr.
    + intros y Hy. apply Hin. now right.
    + cbn in Hk. lia.
    + lia.
    + rewrite bind_run. unfold rpath in *. rewrite Hx. now exists x.
  - now eexists.
Qed.

Lemma mandatory_in : forall k rp r q, length (chain r) <= k -> rget R rp = Some r -> find_mandatory r rp None = Some q ->
  exists r', rget R q = Some r' /\ In r' (chain r).
Proof.
  induction k as [|k IH]; intros rp r q Hk Hr; [rewrite chain_eq in Hk; cbn in Hk; lia|].
  rewrite find_mandatory_eq. cbn [rptr_eqb]. destruct (mandatory (rp, r)).
  - intros X. injection X as <-. exists r. split; [exact Hr|]. rewrite chain_eq. now left.
  - rewrite chain_eq in Hk. destruct (r_next r) as [r'|] eqn:En; [|discriminate]. intros Hq.
    destruct (IH (RNext :: rp) r' q) as [x [H1 H2]]; [cbn in Hk; lia|cbn [rget]; now rewrite Hr|exact Hq|].
    exists x. split; [exact H1|]. rewrite chain_eq, En. now right.
Qed.

(** The first group. *)
Lemma document_group f n : 2 * length (chain R) + 10 <= f -> MatchRuleGroup R D (Rule_matches E D) f first here n = UB NullDeref.
Proof.
  intros Hf. destruct f as [|[|[|[|f]]]]; try lia.
  assert (H0 : rget R [] = Some R) by reflexivity. assert (Hin : In R (chain R)) by (rewrite chain_eq; now left).
  change (MatchRuleGroup R D (Rule_matches E D) (S (S (S (S f)))) first here n) with
    (group_loop R D (Rule_matches E D) (S (S (S f))) first first here [] n).
  rewrite (group_loop_unfold R D (Rule_matches E D) _ _ _ R _ _ _ H0). unfold group_body, back_is. cbn [rev]. rewrite andb_false_r, orb_false_r.
  destruct (r_optional R) eqn:Eo.
  - assert (HM : FindMandatoryRule R (rnext R []) None = Ok (match r_next R with Some r' => find_mandatory r' [RNext] None | None => None end)).
    { unfold FindMandatoryRule, rnext. destruct (r_next R) as [r'|] eqn:En; [|reflexivity]. unfold rderef. cbn [rget rstep_get]. now rewrite En. }
    rewrite bind_run, HM, lift_ok. cbn [obind].
    destruct (match r_next R with Some r' => find_mandatory r' [RNext] None | None => None end) as [q|] eqn:Eq.
    + destruct (r_next R) as [r'|] eqn:En; [|discriminate].
      destruct (mandatory_in (length (chain r')) [RNext] r' q) as [x [H1 H2]]; [lia|cbn [rget rstep_get]; now rewrite En|exact Eq|].
      assert (Hx : In x (chain R)) by (rewrite chain_eq, En; now right).
      rewrite bind_run. destruct (document_once f q x n H1 Hx) as [HO|HO]; rewrite HO; [|reflexivity]. cbn [obind]. rewrite bind_run.
      change (MatchRange R D (Rule_matches E D) (S (S f)) first (Some q) here here n) with
        (range (S f) first (Some q) here here here n).
      destruct (document_range (length (chain R)) [] R (Some q) here n (S f) H0 (incl_refl _)) as [y Hy]; [lia|lia|].
      rewrite Hy. cbn [obind]. rewrite bind_run, (rderef_is _ _ _ H1), lift_ok. cbn [obind]. rewrite bind_run. now rewrite next_of_document.
    + rewrite bind_run. assert (HW : FindMandatoryRule R first first = Ok first).
      { unfold FindMandatoryRule, rderef. rewrite H0. cbn [obind]. rewrite find_mandatory_eq. reflexivity. }
      rewrite HW, lift_ok. cbn [obind]. change (rptr_eqb first first) with true. cbv zeta iota.
      rewrite bind_run. change (MatchRange R D (Rule_matches E D) (S (S f)) first None here None n) with
        (range (S f) first None here None None n).
      rewrite (range_loop_unfold R D (Rule_matches E D) f [] R None _ _ None H0) by discriminate. unfold range_body. rewrite bind_run.
      destruct f as [|[|f]]; [lia|lia|].
      destruct (document_once f [] R n H0 Hin) as [HO|HO]; rewrite HO; [|reflexivity]. cbn [obind nptr_eqb].
      rewrite bind_run. now rewrite next_of_document.
  - rewrite bind_run. destruct (document_once f [] R n H0 Hin) as [HO|HO]; rewrite HO; [|reflexivity].
    cbn [obind]. rewrite bind_run. now rewrite next_of_document.
Qed.

Lemma document_undefined n : extract_yields E R D here n (if (n =? 1)%N then Throw MaxSearchError else UB NullDeref).
Proof.
  exists (2 * length (chain R) + 12). intros f Hf. destruct f as [|[|f]]; [lia|lia|]. unfold extract. rewrite save_document.
  unfold tick. destruct (N.eqb_spec n 0) as [->|Hn].
  - cbn [obind]. change (save_groups R D (Rule_matches E D) (S f) [] here 0%N) with
      (bind (MatchRuleGroup R D (Rule_matches E D) f first here) (fun '(next, sub) =>
         bind (save_groups R D (Rule_matches E D) f [] next) (fun rest => ret (match sub with [] => rest | _ => sub :: rest end))) 0%N).
    rewrite bind_run, document_group by lia. reflexivity.
  - destruct (N.eqb_spec (n - 1) 0) as [Hz|Hz]; destruct (N.eqb_spec n 1) as [H1|H1]; try lia; [reflexivity|].
    cbn [obind]. change (save_groups R D (Rule_matches E D) (S f) [] here (n - 1)%N) with
      (bind (MatchRuleGroup R D (Rule_matches E D) f first here) (fun '(next, sub) =>
         bind (save_groups R D (Rule_matches E D) f [] next) (fun rest => ret (match sub with [] => rest | _ => sub :: rest end))) (n - 1)%N).
    rewrite bind_run, document_group by lia. reflexivity.
Qed.

End Document.
