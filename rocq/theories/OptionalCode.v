(** Optional child rules and RuleMatchesNodeRecursive. *)

From Coq Require Import Ascii String NArith ZArith Bool List.
From Verif Require Import Base Tags Dom Values Match Rule RuleMatching MatchSpec ExtractSpec SearchSpec RewriteSpec SkelSpec RuleProofs MatchProofs ExtractMain.
Import ListNotations.

Lemma Forall2_nth_error_l {A B} (P : A -> B -> Prop) l l' : Forall2 P l l' -> forall k x, nth_error l k = Some x -> exists y, nth_error l' k = Some y /\ P x y.
Proof.
  induction 1 as [|a b l l' Hab H IH]; intros [|k] x Hx; try discriminate; cbn in *; [injection Hx as <-; eauto|now apply IH].
Qed.
Lemma Forall2_nth_error_r {A B} (P : A -> B -> Prop) l l' : Forall2 P l l' -> forall k y, nth_error l' k = Some y -> exists x, nth_error l k = Some x /\ P x y.
Proof.
  induction 1 as [|a b l l' Hab H IH]; intros [|k] x Hx; try discriminate; cbn in *; [injection Hx as <-; eauto|now apply IH].
Qed.

Section Code.

Variable E : engine.
Variable D : node.

Lemma same_answer R R' f f' rp rp' r r' p t n n' m m' inner inner' k k' :
  rget R rp = Some r -> rget R' rp' = Some r' -> nget D p = Some t ->
  (rule_matches D (node_satisfies E D) r p <-> rule_matches D (node_satisfies E D) r' p) ->
  RuleMatchesNodeRecursive R D (Rule_matches E D) f (Some rp) (Some p) n = Ok (m, inner, k) ->
  RuleMatchesNodeRecursive R' D (Rule_matches E D) f' (Some rp') (Some p) n' = Ok (m', inner', k') -> m = m'.
Proof.
  intros HR HR' Hp HS H H'. pose proof (recursive_match E R D f rp r p t n m inner k HR Hp H) as [HM _].
  pose proof (recursive_match E R' D f' rp' r' p t n' m' inner' k' HR' Hp H') as [HM' _].
  destruct m, m'; try reflexivity.
  - symmetry. now apply HM', HS, HM.
  - now apply HM, HS, HM'.
Qed.

Lemma embedded_core (M : rule -> npath -> Prop) ms : forall ms' p, Forall2 same_core ms ms' ->
  (forall a a' q, In a ms -> same_core a a' -> (M a q <-> M a' q)) -> (embedded M ms p <-> embedded M ms' p).
Proof.
  intros ms' p HF HM. assert (X : forall ks, Forall2 (fun r k => M r (k :: p)) ms ks <-> Forall2 (fun r k => M r (k :: p)) ms' ks).
  { induction HF as [|a a' ms ms' Ha HF IH]; intros ks; [reflexivity|].
    assert (IH' : forall ks, Forall2 (fun r k => M r (k :: p)) ms ks <-> Forall2 (fun r k => M r (k :: p)) ms' ks) by (apply IH; intros b b' q Hb; apply HM; now right).
    split; intros H; inversion H as [|? k ? ks' H1 H2]; subst; (constructor; [apply (HM a a' (k :: p) (or_introl eq_refl) Ha); exact H1|now apply IH']). }
  split; intros [ks [H1 H2]]; exists ks; (split; [now apply X|exact H2]).
Qed.

Lemma core_satisfies a a' p : same_core a a' -> (node_satisfies E D a p <-> node_satisfies E D a' p).
Proof. intros [r r' H1 H2 H3 _ _ _ _ _]. destruct r, r'. cbn in *. subst. reflexivity. Qed.

Lemma core_matches : forall r a, In a (chain r) -> forall a', same_core a a' ->
  forall p, rule_matches D (node_satisfies E D) a p <-> rule_matches D (node_satisfies E D) a' p.
Proof.
  intros r. induction r as [c n l ms cs t o g name IHc IHn IHl] using rule_ind2. intros a Ha a' Hcore p. cbn [chain] in Ha. destruct Ha as [Ha|Ha].
  2:{ destruct n as [n|]; [|destruct Ha]. exact (IHn n eq_refl a Ha a' Hcore p). }
  assert (Hsat := core_satisfies a a' p Hcore). destruct Hcore as [r r' _ _ _ _ _ Hnone Hchild Hnest].
  assert (Hc : forall x, r_child r = Some x -> forall b, In b (chain x) -> forall b', same_core b b' -> forall q, rule_matches D (node_satisfies E D) b q <-> rule_matches D (node_satisfies E D) b' q).
  { intros x Hx. subst r. cbn in Hx. now apply IHc. }
  assert (Hl : forall x, In x (r_nested r) -> forall b, In b (chain x) -> forall b', same_core b b' -> forall q, rule_matches D (node_satisfies E D) b q <-> rule_matches D (node_satisfies E D) b' q).
  { intros x Hx. subst r. cbn in Hx. exact (proj1 (Forall_forall _ _) IHl x Hx). }
  clear IHc IHn IHl Ha.
  assert (HE : forall x x' q, r_child r = Some x \/ In x (r_nested r) -> Forall2 same_core (mandatory_of x) (mandatory_of x') ->
    (embedded (rule_matches D (node_satisfies E D)) (mandatory_of x) q <-> embedded (rule_matches D (node_satisfies E D)) (mandatory_of x') q)).
  { intros x x' q Hx HF. apply embedded_core; [exact HF|]. intros b b' q' Hb Hcore. unfold mandatory_of in Hb. apply filter_In in Hb as [Hb _].
    destruct Hx as [Hx|Hx]; [now apply (Hc x)|now apply (Hl x)]. }
  assert (HN : r_nested r <> [] <-> r_nested r' <> []) by (destruct Hnest; split; intros X; try contradiction; discriminate).
  assert (HNC : r_child r <> None <-> r_child r' <> None) by (split; intros H H'; apply H; now apply Hnone).
  split; intros H; inversion H as [r0 p0 n0 Hn Hs Hel Hch Hne]; subst r0 p0; apply (rule_matches_intro _ _ _ _ n0); auto.
  - now apply Hsat.
  - intros HX. apply Hel. tauto.
  - intros x' Hx'. destruct (r_child r) as [x|] eqn:Ex; [|rewrite (proj1 Hnone eq_refl) in Hx'; discriminate]. apply (HE x x'); [now left|now apply Hchild|]. now apply Hch.
  - clear -Hnest Hne HE. assert (Hne' : forall x, In x (r_nested r) -> In x (r_nested r) /\ (mandatory_of x <> [] -> exists q, In q (elements n0 p) /\ embedded (rule_matches D (node_satisfies E D)) (mandatory_of x) q)) by auto.
    clear Hne. intros x' Hx' Hm. apply In_nth_error in Hx' as [k Hk]. destruct (Forall2_nth_error_r _ _ _ Hnest k x' Hk) as [x [Hx HF]].
    apply nth_error_In in Hx. destruct (Hne' x Hx) as [_ [q [Hq He]]].
    + intros X. rewrite X in HF. inversion HF. congruence.
    + exists q. split; [exact Hq|]. apply (HE x x'); auto.
  - now apply Hsat.
  - intros HX. apply Hel. tauto.
  - intros x Hx. destruct (r_child r') as [x'|] eqn:Ex; [|rewrite (proj2 Hnone eq_refl) in Hx; discriminate]. apply (HE x x'); [now left|now apply Hchild|]. now apply Hch.
  - intros x Hx Hm. pose proof Hx as Hin. apply In_nth_error in Hx as [k Hk]. destruct (Forall2_nth_error_l _ _ _ Hnest k x Hk) as [x' [Hx' HF]].
    apply nth_error_In in Hx'. destruct (Hne x' Hx') as [q [Hq He]].
    + intros X. rewrite X in HF. inversion HF. congruence.
    + exists q. split; [exact Hq|]. apply (HE x x'); auto.
Qed.

Lemma children_code R R' f f' rp rp' r r' p t n n' m m' inner inner' k k' :
  same_core r r' -> rget R rp = Some r -> rget R' rp' = Some r' -> nget D p = Some t ->
  RuleMatchesNodeRecursive R D (Rule_matches E D) f (Some rp) (Some p) n = Ok (m, inner, k) ->
  RuleMatchesNodeRecursive R' D (Rule_matches E D) f' (Some rp') (Some p) n' = Ok (m', inner', k') -> m = m'.
Proof.
  intros Hcore HR HR' Hp. apply (same_answer R R' f f' rp rp' r r' p t); auto. apply (core_matches r); [destruct r; now left|exact Hcore].
Qed.

Lemma no_children_code R R' f f' rp rp' r c p t n n' m m' inner inner' k k' :
  r_child r = Some c -> mandatory_of c = [] -> rget R rp = Some r -> rget R' rp' = Some (with_child r None) ->
  nget D p = Some t -> is_element t = true -> children_of t <> [] ->
  RuleMatchesNodeRecursive R D (Rule_matches E D) f (Some rp) (Some p) n = Ok (m, inner, k) ->
  RuleMatchesNodeRecursive R' D (Rule_matches E D) f' (Some rp') (Some p) n' = Ok (m', inner', k') -> m = m'.
Proof.
  intros Hc Hm HR HR' Hp He Hk. apply (same_answer R R' f f' rp rp' r (with_child r None) p t); auto. now apply (optional_child_removed E D r c p t).
Qed.

End Code.
