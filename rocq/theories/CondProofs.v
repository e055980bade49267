(** Conditions with side effects. *)

From Coq Require Import Ascii String NArith ZArith Bool List Lia Sorted.
From Verif Require Import Base StringUtil Tags Dom NodeUtil Values Match Rule RuleMatching RuleProofs MatchSem MatchRefine
  MatchSpec MatchProofs ExtractSpec DepthSpec DepthProofs Cost CostSpec CostProofs CaptureState CondState CondSpec.
Import ListNotations.

(** ** Rule::matches *)

Lemma heard_app {W} (act : match_action W) a b : forall w w1 w2,
  heard act w a w1 -> heard act w1 b w2 -> heard act w (a ++ b) w2.
Proof.
  intros w w1 w2 H. revert w2. induction H as [w|rp k p w x w1 calls w2' E H IH]; intros w2 Hb; [exact Hb|].
  cbn [app]. econstructor; [exact E|]. now apply IH.
Qed.

Lemma calls_of_app a b : calls_of (a ++ b) = calls_of a ++ calls_of b.
Proof. apply flat_map_app. Qed.

Lemma calm_nil : calm [].
Proof. intros rp k p x []. Qed.

Lemma calm_app a b : calm a -> calm b -> calm (a ++ b).
Proof.
  intros Ha Hb rp k p x. rewrite calls_of_app, in_app_iff. intros [H|H]; [now apply (Ha rp k p)|now apply (Hb rp k p)].
Qed.

Lemma broken_app x a b : calm a -> broken_by x b -> broken_by x (a ++ b).
Proof.
  intros Ha (rest & rp & k & p & E & Hr). exists (calls_of a ++ rest), rp, k, p. split.
  - rewrite calls_of_app, E. apply app_assoc.
  - intros rp' k' p' y. rewrite in_app_iff. intros [H|H]; [now apply (Ha rp' k' p')|now apply (Hr rp' k' p')].
Qed.

Lemma ends_app {A} n n' (o : outcome A) a b : calm a -> (n = 0%N -> n' = 0%N) -> ends n' o b -> ends n o (a ++ b).
Proof.
  intros Ha Hn. destruct o as [x|e|u|]; cbn [ends].
  - intros Hb. now apply calm_app.
  - intros [(E & Hn' & Hb)|Hb]; [left|right; now apply broken_app]. repeat split; [exact E|tauto|now apply calm_app].
  - intros Hb. now apply broken_app.
  - auto.
Qed.

(** The numbers of the matches from number [k] on. *)
Fixpoint numbers (k : nat) (l : list (option mtch)) : list nat :=
  match l with
  | [] => []
  | None :: l' => numbers (S k) l'
  | Some _ :: l' => k :: numbers (S k) l'
  end.

Lemma numbers_in l : forall k j, In j (numbers k l) <-> k <= j /\ exists m, nth_error l (j - k) = Some (Some m).
Proof.
  induction l as [|x l IH]; intros k j; cbn [numbers].
  - split; [intros []|]. intros [_ [m E]]. now destruct (j - k).
  - destruct (Nat.eq_dec j k) as [->|Hn].
    + rewrite Nat.sub_diag. cbn [nth_error]. destruct x as [m|].
      * split; [|now left]. intros _. split; [lia|]. now exists m.
      * rewrite IH. split; [lia|]. intros [_ [m E]]. discriminate.
    + assert (Hs : k <= j -> j - k = S (j - S k)) by lia.
      assert (Hiff : In j (numbers (S k) l) <-> k <= j /\ exists m, nth_error (x :: l) (j - k) = Some (Some m)).
      { rewrite IH. split; intros [H1 H2]; (split; [lia|]); rewrite Hs in * by lia; exact H2. }
      destruct x as [m|]; [|exact Hiff]. rewrite <- Hiff. cbn [In]. split; [|tauto]. intros [H|H]; [congruence|exact H].
Qed.

Lemma numbers_sorted l : forall k, StronglySorted lt (numbers k l).
Proof.
  induction l as [|x l IH]; intros k; cbn [numbers]; [constructor|]. destruct x as [m|]; [|apply IH].
  constructor; [apply IH|]. apply Forall_forall. intros j Hj. apply numbers_in in Hj. lia.
Qed.

Lemma numbers_ok r : match_numbers r (numbers 0 (r_matches r)).
Proof.
  split; [apply numbers_sorted|]. intros k. rewrite numbers_in, Nat.sub_0_r. split; [tauto|]. intros H. split; [lia|exact H].
Qed.

Section Rule_test.

Variable W : Type.
Variable act : match_action W.

Definition yes (ks : list nat) : list (nat * reply) := map (fun k => (k, Says true)) ks.
Definition tagged (rp : rpath) (p : npath) (calls : list (nat * reply)) : list one_call :=
  map (fun '(k, x) => (rp, k, p, x)) calls.

Lemma all_match_run rp p l : forall k w,
  let '(o, (w', calls)) := all_match_c W act rp k l p w in
  heard act w (tagged rp p calls) w' /\
  ((o = Ok true /\ calls = yes (numbers k l)) \/
   exists before j later x, numbers k l = before ++ j :: later /\ x <> Says true /\
     calls = yes before ++ [(j, x)] /\ o = said x).
Proof.
  induction l as [|[m|] l IH]; intros k w; cbn [all_match_c numbers].
  - split; [constructor|]. now left.
  - destruct (act rp k p w) as [w1 x] eqn:Ea.
    assert (Hstop : x <> Says true ->
      heard act w (tagged rp p [(k, x)]) w1 /\
      ((said x = Ok true /\ [(k, x)] = yes (k :: numbers (S k) l)) \/
       exists before j later y, k :: numbers (S k) l = before ++ j :: later /\ y <> Says true /\
         [(k, x)] = yes before ++ [(j, y)] /\ said x = said y)).
    { intros Hx. split; [econstructor; [exact Ea|constructor]|]. right. now exists [], k, (numbers (S k) l), x. }
    destruct x as [[|]|e|u]; try (apply Hstop; discriminate).
    specialize (IH (S k) w1). destruct (all_match_c W act rp (S k) l p w1) as [o [w2 calls]].
    destruct IH as [IH1 IH2]. split; [econstructor; [exact Ea|exact IH1]|].
    destruct IH2 as [[-> ->]|(before & j & later & x & E & Hx & -> & ->)]; [now left|right].
    exists (k :: before), j, later, x. now rewrite E.
  - apply IH.
Qed.

End Rule_test.

Section Search.

Variable W : Type.
Variable act : match_action W.
Variable R : rule.
Variable D : node.
Variable i0 : nat.
Variable pp0 : npath.

Notation scope := (in_scope i0 pp0).
Notation passed := (passed R D).
Notation entry_ok := (entry_ok R D i0 pp0).

(** ** Triples *)

Definition runs {A} (n : N) (w : W) (Q : A -> list entry -> Prop) (x : outcome (A * N) * (W * list entry)) : Prop :=
  let '(o, (w', log)) := x in
  heard act w (calls_of log) w' /\ Forall entry_ok log /\ ends n o log /\
  forall a n', o = Ok (a, n') -> (n = 0%N -> n' = 0%N) /\ Q a log.

Lemma runs_weaken {A} n w (Q Q' : A -> list entry -> Prop) x :
  runs n w Q x -> (forall a log, Q a log -> Q' a log) -> runs n w Q' x.
Proof.
  destruct x as [o [w' log]]. intros (H1 & H2 & H3 & H4) HQ. repeat split; auto.
  - now apply (H4 a n').
  - apply HQ. now apply (H4 a n').
Qed.

Lemma runs_quiet {A} (Q : A -> list entry -> Prop) a n w : Q a [] -> runs n w Q (quiet W a n w).
Proof.
  intros H. split; [constructor|]. split; [constructor|]. split; [apply calm_nil|].
  intros a' n' E. injection E as <- <-. now split.
Qed.

Lemma runs_bind {A B} n w (P : A -> list entry -> Prop) (Q : B -> list entry -> Prop) (m : C W A) (f : A -> C W B) :
  runs n w P (m n w) ->
  (forall a n' w' log, P a log -> runs n' w' (fun b log' => Q b (log ++ log')) (f a n' w')) ->
  runs n w Q (bind_c W m f n w).
Proof.
  intros Hm Hf. unfold bind_c. destruct (m n w) as [[[a n']|e|u|] [w' log]]; destruct Hm as (H1 & H2 & H3 & H4).
  - destruct (H4 a n' eq_refl) as [Hn HP]. specialize (Hf a n' w' log HP).
    destruct (f a n' w') as [o [w'' log']]. destruct Hf as (F1 & F2 & F3 & F4).
    split; [rewrite calls_of_app; now apply (heard_app act _ _ w w')|].
    split; [apply Forall_app; now split|]. split; [now apply (ends_app n n')|].
    intros b n'' E. destruct (F4 b n'' E) as [G1 G2]. split; [tauto|exact G2].
  - repeat split; auto; discriminate.
  - repeat split; auto; discriminate.
  - destruct H3.
Qed.

Lemma runs_call {A} (Q : A -> list entry -> Prop) a o n w : o = Ok a -> Q a [] -> runs n w Q (call_c W o n w).
Proof. intros -> H. now apply runs_quiet. Qed.

Lemma runs_bind0 {A B} n w (Q : B -> list entry -> Prop) o a (f : A -> C W B) :
  o = Ok a -> runs n w Q (f a n w) -> runs n w Q (bind_c W (call_c W o) f n w).
Proof.
  intros -> H. unfold bind_c, call_c, RuleMatching.lift. cbn [obind]. destruct (f a n w) as [x [w' log]]. exact H.
Qed.

Lemma runs_tick n w : runs n w (fun _ _ => True) (tick_c W n w).
Proof.
  unfold tick_c, tick. split; [constructor|]. split; [constructor|]. destruct (N.eqb_spec n 0) as [->|Hn].
  - split; [apply calm_nil|]. intros a n' E. injection E as <- <-. now split.
  - destruct (N.eqb_spec (n - 1) 0) as [_|Hn1].
    + split; [left; repeat split; [exact Hn|apply calm_nil]|discriminate].
    + split; [apply calm_nil|]. intros a n' E. injection E as <- <-. split; [tauto|exact I].
Qed.

Lemma passed_incl a b rp p : passed a rp p -> incl a b -> passed b rp p.
Proof. intros (r & t & calls & H1 & H2 & H3 & H4 & H5) Hi. exists r, t, calls. repeat split; auto. Qed.

Lemma yes_in ks k : In k ks -> In (k, Says true) (yes ks).
Proof. intros H. unfold yes. apply in_map_iff. now exists k. Qed.

Lemma test_run rp r p t n w : rget R rp = Some r -> nget D p = Some t -> scope p ->
  runs n w (fun m log => m = true -> passed log rp p) (Rule_matches_c W act D rp r p n w).
Proof.
  intros Hr Ht Hs. unfold Rule_matches_c, deref. rewrite Ht.
  pose proof (numbers_ok r) as Hks.
  destruct (tag_matches r t) eqn:Etag.
  - pose proof (all_match_run W act rp p (r_matches r) 0 w) as H.
    destruct (all_match_c W act rp 0 (r_matches r) p w) as [o [w' calls]]. destruct H as [Hh Hcase].
    assert (Hcalls : calls_of [(rp, p, calls)] = tagged rp p calls) by (cbn; apply app_nil_r).
    assert (Hyes : forall ks rp' k p' x, In (rp', k, p', x) (tagged rp p (yes ks)) -> answers x).
    { intros ks rp' k p' x Hin. unfold tagged, yes in Hin. rewrite map_map in Hin. apply in_map_iff in Hin as (j & Ej & _).
      injection Ej as _ _ _ <-. now exists true. }
    split; [now rewrite Hcalls|]. split.
    { constructor; [|constructor]. split; [exact Hs|]. exists r, t. repeat split; auto.
      exists (numbers 0 (r_matches r)). split; [exact Hks|]. rewrite Etag.
      destruct Hcase as [[_ ->]|(before & j & later & x & E & Hx & -> & _)]; [now left|right]. now exists before, j, later, x. }
    destruct Hcase as [[-> ->]|(before & j & later & x & E & Hx & -> & ->)].
    + split.
      * intros rp' k p' x. rewrite Hcalls. apply Hyes.
      * intros a n' E. injection E as <- <-. split; [auto|]. intros _. exists r, t, (yes (numbers 0 (r_matches r))).
        repeat split; auto; [now left|]. intros k m Hm. apply yes_in. apply Hks. now exists m.
    + assert (Hb : tagged rp p (yes before ++ [(j, x)]) = tagged rp p (yes before) ++ [(rp, j, p, x)])
        by (unfold tagged; now rewrite map_app).
      assert (Hbr : broken_by x [(rp, p, yes before ++ [(j, x)])]).
      { exists (tagged rp p (yes before)), rp, j, p. rewrite Hcalls. split; [exact Hb|]. intros rp' k p' y. apply Hyes. }
      destruct x as [b|e|u]; cbn [said RuleMatching.lift obind ends].
      * split.
        -- intros rp' k p' x. rewrite Hcalls, Hb, in_app_iff. intros [H|[H|[]]]; [now apply Hyes in H|].
           injection H as _ _ _ <-. now exists b.
        -- intros a n' E'. injection E' as <- <-. split; [auto|]. intros ->. now destruct Hx.
      * split; [now right|discriminate].
      * split; [exact Hbr|discriminate].
  - split; [constructor|]. split.
    { constructor; [|constructor]. split; [exact Hs|]. exists r, t. repeat split; auto.
      exists (numbers 0 (r_matches r)). split; [exact Hks|]. now rewrite Etag. }
    split; [intros rp' k p' x []|]. intros a n' E. injection E as <- <-. split; [auto|discriminate].
Qed.

Definition all_passed (log : list entry) (l : MatchingNodes) : Prop := forall rp p, In (rp, p) l -> passed log rp p.

(** Proves that a pair has passed, in a longer log. *)
Ltac grow :=
  let rp := fresh "rp" in let p := fresh "p" in let H := fresh "H" in
  try (intros rp p H; cbn [snd fst] in H; rewrite ?in_app_iff in H; cbn [In] in H);
  repeat match goal with
         | H : _ \/ _ |- _ => destruct H
         | H : False |- _ => destruct H
         | H : (_, _) = (_, _) |- _ => injection H; clear H; intros; subst
         end;
  cbn [snd fst];
  match goal with
  | |- passed ?big ?rp ?p =>
      eapply (passed_incl _ big rp p);
      [first [eassumption | match goal with H : all_passed _ _ |- _ => apply H; eassumption end]
      |let z := fresh "z" in let Hz := fresh "Hz" in intros z Hz; rewrite ?in_app_iff; tauto]
  end.

(** ** One list of siblings *)

Section Lists.

Variable N0 : nat.
Variable inn : npath -> Prop.

Definition node_post (rp : rpath) (p : npath) (x : bool * MatchingNodes) (log : list entry) : Prop :=
  all_passed log (snd x) /\ (fst x = true -> passed log rp p).

Hypothesis node_ok : forall f rp r p t n w, N0 <= f -> rget R rp = Some r -> nget D p = Some t -> inn p ->
  runs n w (node_post rp p) (matches_node_c W act R D f (Some rp) (Some p) n w).

Notation Once := (once_c W act R D).
Notation Range := (range_c W act R D).
Notation Range_loop := (range_loop_c W act R D).
Notation Group := (rule_group_c W act R D).
Notation Group_loop := (group_loop_c W act R D).
Notation walk_ok := (walk_ok D).

Definition once_post (rp : rpath) (seg endl : list npath) (x : nptr * MatchingNodes) (log : list entry) : Prop :=
  all_passed log (snd x) /\
  (fst x = ptrn endl \/ exists pre y post, seg = pre ++ y :: post /\ fst x = Some y /\ passed log rp y).

Lemma once_run f : forall seg endl rp r n w, length seg + N0 + 1 <= f ->
  rget R rp = Some r -> walk_ok (seg ++ endl) -> Forall inn seg ->
  runs n w (once_post rp seg endl) (Once f (Some rp) (ptrn (seg ++ endl)) (ptrn endl) n w).
Proof.
  induction f as [|f IH]; intros seg endl rp r n w Hf Hr Hw Hin; [lia|].
  cbn [once_c]. destruct seg as [|p seg].
  { cbn [app]. assert (Hq : once_post rp [] endl (ptrn endl, []) []) by (split; [intros ? ? []|now left]).
    destruct endl as [|e endl]; cbn [ptrn].
    - now apply runs_quiet.
    - destruct (nptr_eqb_spec (Some e) (Some e)) as [_|Hn]; [|now destruct Hn]. now apply runs_quiet. }
  cbn [app ptrn]. cbn [app CostProofs.walk_ok] in Hw. destruct Hw as ([t Ht] & Hnin & Hnext & Hw).
  inversion Hin as [|? ? Hp Hin']; subst. cbn [length] in Hf.
  destruct (nptr_eqb_spec (Some p) (ptrn endl)) as [E|_].
  { exfalso. destruct endl as [|e endl]; [discriminate|]. injection E as ->. apply Hnin, in_or_app. right. now left. }
  eapply runs_bind; [apply (node_ok f rp r p t n w); [lia|assumption..]|].
  intros [m inner] n1 w1 log [Hi Hm]. cbn [fst snd] in *. destruct m.
  - apply runs_quiet. rewrite app_nil_r. split; [exact Hi|]. right. exists [], p, seg. repeat split. now apply Hm.
  - eapply runs_bind0; [exact Hnext|].
    eapply runs_weaken; [apply (IH seg endl rp r n1 w1); [lia|assumption..]|].
    intros [x inn2] log' [Hi' Hpost]. cbn [fst snd] in *. split.
    + grow.
    + destruct Hpost as [->|(pre & y & post & -> & -> & Hy)]; [now left|right]. exists (p :: pre), y, post. repeat split. grow.
Qed.

Definition range_post (seg endl : list npath) (mn : nptr) (x : nptr * MatchingNodes) (log : list entry) : Prop :=
  all_passed log (snd x) /\ (fst x = mn \/ fst x = ptrn endl \/ in_seg seg (fst x)).

Lemma range_loop_run f : forall rs e seg endl mn n w, length rs + 2 * length seg + N0 + 2 <= f ->
  linked R rs e -> walk_ok (seg ++ endl) -> Forall inn seg ->
  runs n w (range_post seg endl mn) (Range_loop f (rptr_of rs e) e (ptrn (seg ++ endl)) (ptrn endl) mn n w).
Proof.
  induction f as [|f IH]; intros rs e seg endl mn n w Hf Hl Hw Hin; [lia|].
  cbn [range_loop_c]. destruct rs as [|[rp r] rs].
  { assert (Hq : range_post seg endl mn (mn, []) []) by (split; [intros ? ? []|now left]).
    cbn [rptr_of]. destruct e as [ep|]; [|now apply runs_quiet].
    destruct (rptr_eqb_spec (Some ep) (Some ep)) as [_|Hn]; [|now destruct Hn]. now apply runs_quiet. }
  cbn [rptr_of]. cbn [length] in Hf. pose proof Hl as Hl0. destruct Hl as (Hr & Hne & Hnx & Hl).
  destruct (rptr_eqb_spec (Some rp) e) as [E|_]; [now destruct Hne|].
  eapply runs_bind0; [exact (rderef_ok _ _ _ Hr)|].
  eapply runs_bind; [apply (once_run f seg endl rp r n w); [lia|assumption..]|].
  intros [x inner] n1 w1 log [Hi Hpost]. cbn [fst snd] in *.
  change (rnext r rp = rptr_of rs e) in Hnx. rewrite Hnx.
  assert (Hrest : forall mn', mn' = ptrn endl ->
    runs n1 w1 (fun y log' => range_post seg endl mn y (log ++ log'))
      (bind_c W (Range_loop f (rptr_of rs e) e (ptrn (seg ++ endl)) (ptrn endl) mn')
         (fun '(last, rest) => quiet W (last, inner ++ rest)) n1 w1)).
  { intros mn' Hmn'. eapply runs_bind; [apply IH; [lia|assumption..]|].
    intros [last rest] n2 w2 log2 [Hi2 Hp2]. cbn [fst snd] in *. apply runs_quiet. split; [grow|]. cbn [fst]. subst mn'. tauto. }
  destruct Hpost as [->|(pre & y & post & Hs & -> & Hy)].
  - destruct (ptrn endl) as [q|] eqn:Eq.
    + destruct (nptr_eqb_spec (Some q) (Some q)) as [_|Hn]; [|now destruct Hn]. now apply Hrest.
    + now apply Hrest.
  - destruct (nptr_eqb_spec (Some y) (ptrn endl)) as [E|_].
    { exfalso. now apply (in_seg_not_end D seg endl y pre post Hw Hs). }
    destruct (seg_next D seg endl y pre post Hw Hs) as [Hny Hwp].
    assert (Hlen : length post < length seg) by (rewrite Hs, app_length; cbn [length]; lia).
    assert (Hinp : Forall inn post) by (rewrite Hs in Hin; apply Forall_app in Hin as [_ Hin]; now inversion Hin).
    eapply runs_bind0; [exact Hny|].
    assert (Hgo : runs n1 w1 (range_post post endl (Some y))
              (Range_loop f (if r_greedy r then Some rp else rptr_of rs e) e (ptrn (post ++ endl)) (ptrn endl) (Some y) n1 w1)).
    { destruct (r_greedy r).
      - apply (IH ((rp, r) :: rs)); [cbn [length]; lia|assumption..].
      - apply IH; [lia|assumption..]. }
    eapply runs_bind; [exact Hgo|]. intros [last rest] n2 w2 log2 [Hi2 Hp2]. cbn [fst snd] in *.
    apply runs_quiet. split; [grow|]. cbn [fst]. destruct Hp2 as [->|[->|Hp2]]; [|tauto|].
    + right. right. now exists pre, y, post.
    + right. right. now apply (in_seg_later seg pre y post).
Qed.

(** ** MatchRuleGroup *)

Variable cp : rpath.
Variable c : rule.
Hypothesis Hc : rget R cp = Some c.
Notation rs0 := (chain_of cp c).

Definition group_post (start : bool) (sub : MatchingNodes) (ns : list npath) (x : nptr * MatchingNodes) (log : list entry) : Prop :=
  (forall rp p, In (rp, p) (snd x) -> In (rp, p) sub \/ passed log rp p) /\
  exists seg ns', ns = seg ++ ns' /\ fst x = ptrn ns' /\ (start = true -> ns <> [] -> seg <> []).

Lemma group_post_none start sub ns inner log :
  (forall rp p, In (rp, p) inner -> In (rp, p) sub \/ passed log rp p) -> group_post start sub ns (None, inner) log.
Proof. intros H. split; [exact H|]. exists ns, []. rewrite app_nil_r. auto. Qed.

Lemma group_tail_run rule node sub :
  (forall rp, rule = Some rp -> exists r, rget R rp = Some r) ->
  exists x, group_tail R rule node sub = Ok x /\ ((fst x = node /\ snd x = sub) \/ x = (None, [])).
Proof.
  intros Hr. unfold group_tail.
  assert (Hfin : forall rule1, (forall rp, rule1 = Some rp -> exists r, rget R rp = Some r) ->
    exists x, obind (match rule1 with None => Ok None | Some rp => obind (rderef R rp) (fun r => Ok (skip_optional r rp)) end)
      (fun rule2 => match rule2 with None => Ok (node, sub) | Some _ => Ok (None, []) end) = Ok x /\
      ((fst x = node /\ snd x = sub) \/ x = (@None npath, @nil (rpath * npath)))).
  { intros [rp|] H; [|eexists; split; [reflexivity|auto]]. destruct (H rp eq_refl) as [r Er].
    rewrite (rderef_ok _ _ _ Er). cbn [obind]. destruct (skip_optional r rp); eexists; (split; [reflexivity|auto]). }
  destruct rule as [rp|].
  - destruct (Hr rp eq_refl) as [r Er]. rewrite (rderef_ok _ _ _ Er). cbn [obind].
    destruct (r_greedy r && back_is sub rp); cbn [obind]; [apply (Hfin (rnext r rp))|apply (Hfin (Some rp))].
    + intros rp' E. unfold rnext in E. destruct (r_next r) as [r'|] eqn:En; [|discriminate]. injection E as <-.
      exists r'. cbn [rget rstep_get]. rewrite Er. exact En.
    + exact Hr.
  - cbn [obind]. apply (Hfin None). exact Hr.
Qed.

Lemma once_end f rp r ns n w : length ns + N0 + 1 <= f -> rget R rp = Some r -> walk_ok ns -> Forall inn ns ->
  runs n w (once_post rp ns []) (Once f (Some rp) (ptrn ns) None n w).
Proof.
  intros Hf Hr Hw Hin. pose proof (once_run f ns [] rp r n w Hf Hr) as H. rewrite app_nil_r in H. now apply H.
Qed.

Lemma range_run f rs e seg endl n w p : length rs + 2 * length seg + N0 + 3 <= f ->
  linked R rs e -> walk_ok (seg ++ endl) -> Forall inn seg -> ptrn (seg ++ endl) = Some p ->
  runs n w (range_post seg endl (ptrn endl)) (Range f (rptr_of rs e) e (Some p) (ptrn endl) n w).
Proof.
  intros Hf Hl Hw Hin Hp. destruct f as [|f]; [lia|]. cbn [range_c]. rewrite <- Hp. apply range_loop_run; [lia|assumption..].
Qed.

Lemma group_loop_run f : forall pre rules ns sub n w, length rs0 + 3 * length ns + N0 + 4 <= f ->
  rs0 = pre ++ rules -> (pre = [] \/ first_mand pre <> None) -> walk_ok ns -> Forall inn ns ->
  runs n w (group_post (is_start pre) sub ns) (Group_loop f (Some cp) (rptr_of rules None) (ptrn ns) sub n w).
Proof.
  induction f as [|f IH]; intros pre rules ns sub n w Hf Hrs Hinv Hw Hin; [lia|].
  pose proof (chain_of_rget R cp c Hc) as HF. rewrite Hrs in HF. apply Forall_app in HF as [HFpre HF].
  assert (Htail : rules = [] \/ ns = [] ->
    runs n w (group_post (is_start pre) sub ns) (call_c W (group_tail R (rptr_of rules None) (ptrn ns) sub) n w)).
  { intros Hor. destruct (group_tail_run (rptr_of rules None) (ptrn ns) sub) as (x & Hx & Hcase).
    { intros rp E. destruct rules as [|[rp' r] rs]; [discriminate|]. injection E as ->. exists r. now inversion HF. }
    eapply runs_call; [exact Hx|]. destruct Hcase as [[Hx1 Hx2]| ->].
    - split; [rewrite Hx2; auto|]. exists [], ns. repeat split; [exact Hx1|].
      intros Hs Hn. destruct Hor as [->| ->]; [|now destruct Hn].
      destruct pre; [|discriminate]. rewrite chain_of_eq in Hrs. discriminate.
    - apply group_post_none. intros rp p []. }
  destruct rules as [|[rp r] rs]; [destruct ns as [|p ns]; cbn [group_loop_c rptr_of ptrn]; apply Htail; now left|].
  destruct ns as [|p ns]; [cbn [group_loop_c rptr_of ptrn]; apply Htail; now right|]. clear Htail.
  cbn [group_loop_c rptr_of ptrn]. change (Some p) with (ptrn (p :: ns)).
  remember (p :: ns) as nodes eqn:Enodes.
  assert (Hpn : ptrn nodes = Some p) by now rewrite Enodes.
  inversion HF as [|? ? Hr HFrs]; subst x l. cbn [fst snd] in Hr.
  pose proof (chain_suffix _ _ _ _ _ _ Hrs) as Hsuf.
  assert (Hl : linked R ((rp, r) :: rs) None) by (rewrite Hsuf; now apply chain_linked).
  assert (Hlr : length ((rp, r) :: rs) <= length rs0) by (rewrite Hrs, app_length; unfold crule in *; lia).
  eapply runs_bind0; [exact (rderef_ok _ _ _ Hr)|].
  assert (Hcut : forall a y b, nodes = a ++ y :: b -> nodes = (a ++ [y]) ++ b) by (intros a y b ->; now rewrite <- app_assoc).
  assert (Hne : forall (a : list npath) y, a ++ [y] <> []) by (intros a y; now destruct a).
  assert (Hstep : forall a y b, nodes = a ++ y :: b ->
    NextNode D (Some y) = Ok (ptrn b) /\ walk_ok b /\ Forall inn b /\ Forall inn a /\ length a + length b < length nodes).
  { intros a y b H. assert (Hw' : walk_ok (nodes ++ [])) by now rewrite app_nil_r.
    pose proof (seg_next D nodes [] y a b Hw' H) as Hs. rewrite app_nil_r in Hs. destruct Hs as [H1 H2].
    rewrite H in Hin. apply Forall_app in Hin as [Ha Hb]. inversion Hb. repeat split; auto.
    rewrite H, app_length. cbn [length]. lia. }
  (* the rest of the group, after a node has been used *)
  assert (Hlater : forall st a y b log sub' x log', nodes = a ++ y :: b ->
            (forall rp p, In (rp, p) sub' -> In (rp, p) sub \/ passed log rp p) ->
            group_post st sub' b x log' -> group_post (is_start pre) sub nodes x (log ++ log')).
  { intros st a y b log sub' x log' Hs Hsub (H1 & seg & ns' & Hb & Hx & _). split.
    - intros rp' p' H. destruct (H1 rp' p' H) as [H'|H']; [|right; grow].
      destruct (Hsub rp' p' H') as [H''|H'']; [now left|right; grow].
    - exists ((a ++ [y]) ++ seg), ns'. repeat split; [rewrite <- app_assoc, <- Hb; now apply Hcut|exact Hx|].
      intros _ _. now destruct a. }
  destruct (r_optional r || (r_greedy r && back_is sub rp)) eqn:Ebranch.
  - eapply runs_bind0; [exact (FindMandatoryRule_next R rp r rs Hr Hsuf)|].
    destruct (first_mand rs) as [[srp sr]|] eqn:Efm; cbn [crule_ptr fst].
    + (* the stop rule belongs to this group *)
      destruct (first_mand_split rs (srp, sr) Efm) as (opts & post & Hrs' & Hsm & _).
      assert (Hsr : rget R srp = Some sr).
      { rewrite Hrs' in HFrs. apply Forall_app in HFrs as [_ HFrs]. now inversion HFrs. }
      eapply runs_bind; [apply (once_end f srp sr nodes n w); [lia|assumption..]|].
      intros [x inner] n1 w1 log [Hi Hp]. cbn [fst snd ptrn] in *. destruct Hp as [->|(a & y & b & Hs & -> & Hy)].
      { apply runs_quiet. apply group_post_none. intros ? ? []. }
      destruct (Hstep a y b Hs) as (Hny & Hwb & Hib & Hia & Hlen).
      assert (Hseg : linked R ((rp, r) :: opts) (Some srp)).
      { apply (linked_seg R ((rp, r) :: opts) srp sr post None).
        - pose proof Hl as Hl'. rewrite Hrs' in Hl'. exact Hl'.
        - pose proof (chain_NoDup cp c) as Hnd. rewrite Hrs, map_app in Hnd. apply nodup_right in Hnd.
          rewrite Hrs' in Hnd. exact Hnd. }
      assert (Hlo : length ((rp, r) :: opts) <= length rs0).
      { rewrite Hrs, Hrs', app_length. cbn [length]. rewrite app_length. unfold crule in *; lia. }
      eapply runs_bind with (P := range_post a (y :: b) (ptrn (y :: b))).
      { rewrite Hpn. apply (range_run f ((rp, r) :: opts) (Some srp) a (y :: b)); [unfold crule in *; lia|exact Hseg| |exact Hia|].
        - now rewrite <- Hs.
        - now rewrite <- Hs. }
      intros [last more] n2 w2 log2 [Hi2 _]. cbn [snd] in Hi2.
      eapply runs_bind0; [exact (rderef_ok _ _ _ Hsr)|].
      eapply runs_bind0; [exact Hny|].
      assert (Hrs2 : rs0 = (pre ++ (rp, r) :: opts ++ [(srp, sr)]) ++ post).
      { rewrite Hrs, Hrs'. rewrite <- !app_assoc. cbn [app]. now rewrite <- app_assoc. }
      assert (E2 : rs0 = (pre ++ (rp, r) :: opts) ++ (srp, sr) :: post) by (rewrite Hrs, Hrs', <- app_assoc; reflexivity).
      pose proof (chain_suffix _ _ _ _ _ _ E2) as Hsuf2.
      assert (Hl2 : linked R ((srp, sr) :: post) None) by (rewrite Hsuf2; now apply chain_linked).
      rewrite (linked_next R _ _ _ _ Hl2).
      eapply runs_weaken; [eapply (IH (pre ++ (rp, r) :: opts ++ [(srp, sr)]) post b _ n2 w2); [lia|exact Hrs2| |exact Hwb|exact Hib]|].
      * right. rewrite app_comm_cons, app_assoc. now apply first_mand_last.
      * intros z log3 Hz. rewrite app_assoc. eapply Hlater; [exact Hs| |exact Hz].
        intros rp' p' H. rewrite !in_app_iff in H. cbn [In] in H. destruct H as [H|[H|[H|[H|[]]]]]; [now left|right; grow..].
    + (* no mandatory rule follows *)
      eapply runs_bind0.
      { unfold FindMandatoryRule. rewrite (rderef_ok _ _ _ Hc). cbn [obind].
        rewrite (find_mandatory_to c cp pre rp r rs Hrs). reflexivity. }
      destruct (first_mand pre) as [[frp fr]|] eqn:Efp; cbn [crule_ptr fst].
      * (* stop before the next match of the first mandatory rule *)
        destruct (first_mand_in pre (frp, fr) Efp) as [Hinp _].
        assert (Hfr : rget R frp = Some fr) by (rewrite Forall_forall in HFpre; now apply (HFpre (frp, fr))).
        destruct (rptr_eqb_spec (Some frp) (Some rp)) as [E|_].
        { exfalso. injection E as ->. pose proof (chain_NoDup cp c) as Hnd. rewrite Hrs, map_app in Hnd. cbn [map fst] in Hnd.
          apply NoDup_remove_2 in Hnd. apply Hnd. apply in_or_app. left. now apply (in_map fst) in Hinp. }
        cbn beta iota.
        assert (Hpre : is_start pre = false) by (destruct pre; [destruct Hinp|reflexivity]). rewrite Hpre.
        eapply runs_bind; [apply (once_end f frp fr nodes n w); [lia|assumption..]|].
        intros [x inner] n1 w1 log [Hi Hp]. cbn [fst snd ptrn] in *.
        assert (Hsub : forall more log2, all_passed log2 more ->
                  forall rp' p', In (rp', p') (sub ++ more) -> In (rp', p') sub \/ passed ((log ++ log2) ++ []) rp' p').
        { intros more log2 Hm rp' p' H. rewrite in_app_iff in H. destruct H as [H|H]; [now left|right; grow]. }
        destruct Hp as [->|(a & y & b & Hs & -> & Hy)].
        -- eapply runs_bind with (P := range_post nodes [] (ptrn [])).
           ++ rewrite Hpn. apply (range_run f ((rp, r) :: rs) None nodes []); [unfold crule in *; lia|exact Hl| |exact Hin|];
                now rewrite app_nil_r.
           ++ intros [last more] n2 w2 log2 [Hi2 _]. apply runs_quiet. rewrite app_assoc. apply group_post_none. now apply Hsub.
        -- destruct (Hstep a y b Hs) as (Hny & Hwb & Hib & Hia & Hlen).
           eapply runs_bind with (P := range_post a (y :: b) (ptrn (y :: b))).
           ++ rewrite Hpn. apply (range_run f ((rp, r) :: rs) None a (y :: b)); [unfold crule in *; lia|exact Hl| |exact Hia|];
                now rewrite <- Hs.
           ++ intros [last more] n2 w2 log2 [Hi2 _]. apply runs_quiet. rewrite app_assoc. split; [now apply Hsub|].
              exists a, (y :: b). repeat split; [exact Hs|discriminate].
      * (* no other mandatory rule *)
        destruct (rptr_eqb_spec (Some rp) (Some rp)) as [_|Hn]; [|now destruct Hn]. cbn beta iota.
        assert (Hpre : pre = []) by (destruct Hinv as [H|H]; [exact H|now destruct H]).
        eapply runs_bind with (P := range_post nodes [] (ptrn [])).
        -- rewrite Hpn. apply (range_run f ((rp, r) :: rs) None nodes []); [unfold crule in *; lia|exact Hl| |exact Hin|];
             now rewrite app_nil_r.
        -- intros [last more] n2 w2 log2 [Hi2 Hlast]. cbn [fst snd ptrn] in *.
           assert (Hsub : forall rp' p', In (rp', p') (sub ++ more) -> In (rp', p') sub \/ passed (log2 ++ []) rp' p').
           { intros rp' p' H. rewrite in_app_iff in H. destruct H as [H|H]; [now left|right; grow]. }
           assert (Hcase : last = None \/ in_seg nodes last) by tauto.
           destruct Hcase as [->|(a & y & b & Hs & ->)].
           ++ eapply runs_bind0; [reflexivity|]. apply runs_quiet. now apply group_post_none.
           ++ destruct (Hstep a y b Hs) as (Hny & Hwb & _). eapply runs_bind0; [exact Hny|]. apply runs_quiet.
              split; [exact Hsub|]. exists (a ++ [y]), b. repeat split; [now apply Hcut|]. intros _ _. apply Hne.
  - (* a mandatory rule *)
    eapply runs_bind; [apply (once_end f rp r nodes n w); [lia|assumption..]|].
    intros [x inner] n1 w1 log [Hi Hp]. cbn [fst snd ptrn] in *. destruct Hp as [->|(a & y & b & Hs & -> & Hy)].
    { apply runs_quiet. apply group_post_none. intros ? ? []. }
    destruct (Hstep a y b Hs) as (Hny & Hwb & Hib & Hia & Hlen).
    eapply runs_bind0; [exact Hny|].
    assert (Hm : mandatory (rp, r) = true).
    { unfold mandatory. cbn [snd]. now destruct (r_optional r). }
    assert (Hsub : forall rp' p', In (rp', p') (sub ++ inner ++ [(rp, y)]) -> In (rp', p') sub \/ passed log rp' p').
    { intros rp' p' H. rewrite !in_app_iff in H. cbn [In] in H. destruct H as [H|[H|[H|[]]]]; [now left|right; grow..]. }
    destruct (r_greedy r).
    + eapply runs_weaken; [eapply (IH pre ((rp, r) :: rs) b _ n1 w1); [lia|assumption..]|].
      intros z log3 Hz. now apply (Hlater _ a y b log _ z log3 Hs Hsub Hz).
    + rewrite (linked_next R _ _ _ _ Hl).
      eapply runs_weaken; [eapply (IH (pre ++ [(rp, r)]) rs b _ n1 w1); [lia| | |exact Hwb|exact Hib]|].
      * rewrite Hrs, <- app_assoc. reflexivity.
      * right. now apply first_mand_last.
      * intros z log3 Hz. now apply (Hlater _ a y b log _ z log3 Hs Hsub Hz).
Qed.

Lemma group_run f p ns n w : length rs0 + 3 * length (p :: ns) + N0 + 5 <= f -> walk_ok (p :: ns) -> Forall inn (p :: ns) ->
  runs n w (fun x log => all_passed log (snd x) /\
      exists ns', fst x = ptrn ns' /\ walk_ok ns' /\ Forall inn ns' /\ length ns' <= length ns)
    (Group f (Some cp) (Some p) n w).
Proof.
  intros Hf Hw Hin. destruct f as [|f]; [lia|]. cbn [rule_group_c].
  pose proof (group_loop_run f [] rs0 (p :: ns) [] n w ltac:(lia) eq_refl (or_introl eq_refl) Hw Hin) as H.
  destruct (chain_of_cons cp c) as [rs E]. rewrite E in H at 1. cbn [rptr_of ptrn] in H.
  eapply runs_weaken; [exact H|]. intros x log (H1 & seg & ns' & Hs & Hx & Hne). split.
  - intros rp q Hq. destruct (H1 rp q Hq) as [[]|Hq']. exact Hq'.
  - exists ns'. specialize (Hne eq_refl ltac:(discriminate)). rewrite Hs in Hw, Hin. repeat split.
    + exact Hx.
    + now apply walk_app in Hw.
    + now apply Forall_app in Hin as [_ Hin].
    + apply (f_equal (@length _)) in Hs. rewrite app_length in Hs. cbn [length] in Hs.
      destruct seg; [now destruct Hne|cbn [length] in Hs; lia].
Qed.

Definition groups_passed (log : list entry) (gs : list MatchingNodes) : Prop := Forall (all_passed log) gs.

Lemma groups_incl a b gs : groups_passed a gs -> incl a b -> groups_passed b gs.
Proof.
  intros H Hi. eapply Forall_impl; [|exact H]. intros g Hg rp p Hp. now apply (passed_incl a b), Hi; auto.
Qed.

Lemma save_groups_run f : forall ns n w, length rs0 + 4 * length ns + N0 + 6 <= f -> walk_ok ns -> Forall inn ns ->
  runs n w (fun gs log => groups_passed log gs) (save_groups_c W act R D f cp (ptrn ns) n w).
Proof.
  induction f as [|f IH]; intros ns n w Hf Hw Hin; [lia|]. cbn [save_groups_c].
  destruct ns as [|p ns]; cbn [ptrn]; [apply runs_quiet; constructor|].
  eapply runs_bind; [apply (group_run f p ns n w); [cbn [length] in *; lia|exact Hw|exact Hin]|].
  intros [x sub] n1 w1 log (Hsub & ns' & Hx & Hw' & Hin' & Hlen). cbn [fst snd length] in *. subst x.
  eapply runs_bind; [apply (IH ns' n1 w1); [lia|assumption..]|].
  intros rest n2 w2 log2 Hrest. apply runs_quiet.
  assert (Hr' : groups_passed (log ++ log2 ++ []) rest).
  { eapply groups_incl; [exact Hrest|]. intros z Hz. rewrite !in_app_iff. tauto. }
  destruct sub as [|pr sub]; [exact Hr'|]. constructor; [|exact Hr'].
  intros rp q Hq. eapply passed_incl; [exact (Hsub rp q Hq)|]. intros z Hz. rewrite !in_app_iff. tauto.
Qed.

Lemma child_loop_run f : forall p ns n w, length rs0 + 4 * length (p :: ns) + N0 + 6 <= f -> walk_ok (p :: ns) -> Forall inn (p :: ns) ->
  runs n w (fun x log => all_passed log (snd x)) (child_loop_c W act R D f cp p n w).
Proof.
  induction f as [|f IH]; intros p ns n w Hf Hw Hin; [lia|]. cbn [child_loop_c].
  eapply runs_bind; [apply (group_run f p ns n w); [cbn [length] in *; lia|exact Hw|exact Hin]|].
  intros [x sub] n1 w1 log (Hsub & ns' & Hx & Hw' & Hin' & Hlen). cbn [fst snd length] in *. subst x.
  eapply runs_bind0; [unfold FindMandatoryRule; rewrite (rderef_ok _ _ _ Hc); reflexivity|].
  destruct ns' as [|y ns']; cbn [ptrn]; [apply runs_quiet; rewrite app_nil_r; exact Hsub|].
  eapply runs_bind; [apply (IH y ns' n1 w1); [cbn [length] in *; lia|assumption..]|].
  intros [m rest] n2 w2 log2 Hrest. cbn [snd] in Hrest. apply runs_quiet. grow.
Qed.

End Lists.

(** ** The functions that call each other *)

Lemma scope_child k p : scope p -> scope (k :: p).
Proof. intros (j & q & Hj & ->). now exists j, (k :: q). Qed.

Variable B : nat.
Hypothesis HB1 : forall p t, nget D p = Some t -> length (children_of t) <= B.
Hypothesis HB2 : forall rp r, rget R rp = Some r -> length (chain_of rp r) <= B /\ length (r_nested r) <= B.
Hypothesis HB3 : 1 <= B.

Definition node_fuel (h : nat) : nat := (6 * B + 11) * h.
Lemma node_fuel_S h : node_fuel (S h) = node_fuel h + 6 * B + 11.
Proof. unfold node_fuel. rewrite Nat.mul_succ_r. lia. Qed.
Definition save_fuel (h : nat) : nat := node_fuel h + 5 * B + 8.

Definition at_height (h : nat) (p : npath) : Prop := scope p /\ forall t, nget D p = Some t -> height t <= h.

Definition node_at (h : nat) : Prop := forall f rp r p t n w,
  node_fuel h <= f -> rget R rp = Some r -> nget D p = Some t -> at_height h p ->
  runs n w (node_post rp p) (matches_node_c W act R D f (Some rp) (Some p) n w).
Definition save_at (h : nat) : Prop := forall f rp r i pp par n w,
  save_fuel h <= f -> rget R rp = Some r -> nget D pp = Some par -> i < length (children_of par) ->
  Forall (at_height h) (places pp i (siblings_seen par i)) ->
  runs n w (fun gs log => groups_passed log gs) (save_c W act R D f (Some rp) (Some (i :: pp)) n w).

Lemma places_cons pp par i : i < length (children_of par) ->
  exists ns, places pp i (siblings_seen par i) = (i :: pp) :: ns.
Proof.
  intros Hi. unfold siblings_seen. destruct (is_element par); [|now exists []].
  destruct (length (children_of par) - i) as [|k] eqn:Ek; [lia|]. cbn [places seq map]. eauto.
Qed.

Lemma places_length pp par i : nget D pp = Some par -> length (places pp i (siblings_seen par i)) <= B.
Proof.
  intros Hp. unfold places. rewrite map_length, seq_length. unfold siblings_seen. specialize (HB1 pp par Hp).
  destruct (is_element par); lia.
Qed.

Lemma places_children h p t : nget D p = Some t -> is_element t = true -> at_height (S h) p ->
  Forall (at_height h) (places p 0 (siblings_seen t 0)).
Proof.
  intros Ht He [Hs Hh]. apply Forall_forall. intros q Hq. apply in_map_iff in Hq as (j & <- & _).
  split; [now apply scope_child|]. intros t' Ht'. cbn [nget] in Ht'. rewrite Ht in Ht'.
  pose proof (height_child t j t' He Ht'). specialize (Hh t Ht). lia.
Qed.

Lemma below_run h rp r : save_at h -> rget R rp = Some r -> forall f p ns n w,
  length (p :: ns) + save_fuel h + 1 <= f -> walk_ok D (p :: ns) -> Forall (at_height (S h)) (p :: ns) ->
  runs n w (fun gs log => groups_passed log gs) (save_below_c W act R D f rp p n w).
Proof.
  intros HS Hr. induction f as [|f IH]; intros p ns n w Hf Hw Hin; [lia|]. cbn [save_below_c]. cbn [length] in Hf.
  cbn [walk_ok] in Hw. destruct Hw as ([t Ht] & _ & Hnx & Hw). inversion Hin as [|? ? Hp Hin']; subst.
  eapply runs_bind0; [unfold deref; rewrite Ht; reflexivity|].
  eapply runs_bind with (P := fun gs log => groups_passed log gs).
  - destruct (is_element t && negb (Nat.eqb (length (children_of t)) 0)) eqn:Eb; [|apply runs_quiet; constructor].
    apply andb_true_iff in Eb as [He Hne]. apply negb_true_iff, Nat.eqb_neq in Hne.
    apply (HS f rp r 0 p t n w); [lia|exact Hr|exact Ht|lia|]. now apply places_children.
  - intros here n1 w1 log Hhere. eapply runs_bind0; [exact Hnx|].
    destruct ns as [|q ns]; cbn [ptrn]; [apply runs_quiet; rewrite app_nil_r; exact Hhere|].
    eapply runs_bind; [apply (IH q ns n1 w1); [cbn [length] in *; lia|assumption..]|].
    intros rest n2 w2 log2 Hrest. apply runs_quiet. apply Forall_app. split.
    + eapply groups_incl; [exact Hhere|]. intros z Hz. rewrite !in_app_iff. tauto.
    + eapply groups_incl; [exact Hrest|]. intros z Hz. rewrite !in_app_iff. tauto.
Qed.

Lemma nested_run h rp r p t : save_at h -> rget R rp = Some r -> nget D p = Some t -> at_height (S h) p ->
  is_element t = true -> children_of t <> [] -> forall f k n w, length (r_nested r) - k + save_fuel h + 1 <= f ->
  runs n w (fun x log => all_passed log (snd x)) (nested_loop_c W act R D f rp k (length (r_nested r)) (0 :: p) n w).
Proof.
  intros HS Hr Hp Hh He Hne. induction f as [|f IH]; intros k n w Hf; [lia|]. cbn [nested_loop_c].
  destruct (Nat.ltb_spec k (length (r_nested r))) as [Hk|Hk]; [|apply runs_quiet; intros ? ? []].
  destruct (nth_error (r_nested r) k) as [r'|] eqn:En; [|apply nth_error_None in En; lia].
  assert (Hr' : rget R (RNested k :: rp) = Some r') by (cbn [rget]; now rewrite Hr).
  eapply runs_bind; [apply (HS f (RNested k :: rp) r' 0 p t n w); [lia|exact Hr'|exact Hp| |now apply places_children]|].
  { destruct (children_of t); [now destruct Hne|cbn [length]; lia]. }
  intros mn n1 w1 log Hmn. eapply runs_bind0; [unfold FindMandatoryRule; rewrite (rderef_ok _ _ _ Hr'); reflexivity|].
  destruct (Nat.eqb (length mn) 0 && is_some _); [apply runs_quiet; intros ? ? []|].
  eapply runs_bind; [apply (IH (S k) n1 w1); lia|].
  intros [m rest] n2 w2 log2 Hrest. cbn [snd] in Hrest. apply runs_quiet. intros rp' q Hq. cbn [snd] in Hq.
  apply in_app_iff in Hq as [Hq|Hq].
  - apply in_concat in Hq as (g & Hg & Hq). unfold groups_passed in Hmn. rewrite Forall_forall in Hmn.
    eapply passed_incl; [exact (Hmn g Hg rp' q Hq)|]. intros z Hz. rewrite !in_app_iff. tauto.
  - eapply passed_incl; [exact (Hrest rp' q Hq)|]. intros z Hz. rewrite !in_app_iff. tauto.
Qed.

Lemma node_step h : node_at h -> save_at h -> node_at (S h).
Proof.
  intros HN HS f rp r p t n w Hf Hr Hp Hh. rewrite node_fuel_S in Hf. destruct f as [|f]; [lia|]. cbn [matches_node_c].
  eapply runs_bind0; [exact (rderef_ok _ _ _ Hr)|].
  eapply runs_bind0; [unfold deref; rewrite Hp; reflexivity|].
  eapply runs_bind; [apply (test_run rp r p t n w Hr Hp (proj1 Hh))|].
  intros m n1 w1 log Hm.
  assert (Hno : forall log', node_post rp p (false, []) log') by (intros log'; split; [intros ? ? []|discriminate]).
  destruct m; cbn [negb]; [|now apply runs_quiet].
  specialize (Hm eq_refl).
  destruct (negb (is_some (r_child r)) && Nat.eqb (length (r_nested r)) 0).
  { apply runs_quiet. rewrite app_nil_r. split; [intros ? ? []|now intros _]. }
  destruct (negb (is_element t) || Nat.eqb (length (children_of t)) 0) eqn:Eb; [now apply runs_quiet|].
  apply orb_false_iff in Eb as [He Hne]. apply negb_false_iff in He. apply Nat.eqb_neq in Hne.
  assert (Hne' : children_of t <> []) by (intros Z; rewrite Z in Hne; now apply Hne).
  eapply runs_bind with (P := fun x log => all_passed log (snd x)).
  - unfold rchild. destruct (r_child r) as [c'|] eqn:Ec; [|apply runs_quiet; intros ? ? []].
    assert (Hc' : rget R (RChild :: rp) = Some c') by (cbn [rget]; now rewrite Hr).
    destruct (places_cons p t 0 ltac:(lia)) as [ns Hns].
    pose proof (places_walk D p t 0 Hp ltac:(lia)) as Hw. pose proof (places_children h p t Hp He Hh) as Hin.
    pose proof (places_length p t 0 Hp) as Hlen. rewrite Hns in *.
    apply (child_loop_run (node_fuel h) (at_height h) HN (RChild :: rp) c' Hc' f (0 :: p) ns n1 w1); [|exact Hw|exact Hin].
    pose proof (proj1 (HB2 _ _ Hc')). cbn [length] in *. unfold crule in *. lia.
  - intros [m sub1] n2 w2 log2 Hs1. cbn [snd] in Hs1. destruct m; cbn [negb]; [|now apply runs_quiet].
    eapply runs_bind; [apply (nested_run h rp r p t HS Hr Hp Hh He Hne' f 0 n2 w2)|].
    { pose proof (proj2 (HB2 _ _ Hr)). unfold save_fuel. lia. }
    intros [m2 sub2] n3 w3 log3 Hs2. cbn [snd] in Hs2. destruct m2; cbn [negb]; [|now apply runs_quiet].
    apply runs_quiet. split; [grow|]. intros _. grow.
Qed.

Lemma save_step h : node_at (S h) -> save_at h -> save_at (S h).
Proof.
  intros HN HS f rp r i pp par n w Hf Hr Hp Hi Hin. unfold save_fuel in Hf. destruct f as [|f]; [lia|]. cbn [save_c].
  eapply runs_bind; [apply runs_tick|]. intros _ n1 w1 log0 _.
  destruct (places_cons pp par i Hi) as [ns Hns].
  pose proof (places_walk D pp par i Hp Hi) as Hw. pose proof (places_length pp par i Hp) as Hlen. rewrite Hns in *.
  eapply runs_bind.
  { apply (save_groups_run (node_fuel (S h)) (at_height (S h)) HN rp r Hr f ((i :: pp) :: ns) n1 w1); [|exact Hw|exact Hin].
    pose proof (proj1 (HB2 _ _ Hr)). cbn [length] in *. unfold crule in *. lia. }
  intros gs n2 w2 log1 Hgs.
  eapply runs_bind; [apply (below_run h rp r HS Hr f (i :: pp) ns n2 w2); [|exact Hw|exact Hin]|].
  { unfold save_fuel. rewrite node_fuel_S in Hf. cbn [length] in *. lia. }
  intros bs n3 w3 log2 Hbs. apply runs_quiet. apply Forall_app. split.
  - eapply groups_incl; [exact Hgs|]. intros z Hz. rewrite !in_app_iff. tauto.
  - eapply groups_incl; [exact Hbs|]. intros z Hz. rewrite !in_app_iff. tauto.
Qed.

Lemma both_at h : node_at h /\ save_at h.
Proof.
  induction h as [|h [IHn IHs]].
  - assert (Hnone : forall p t, nget D p = Some t -> at_height 0 p -> False).
    { intros p t Ht [_ H]. specialize (H t Ht). pose proof (height_pos t). lia. }
    split.
    + intros f rp r p t n w _ _ Ht Hh. now destruct (Hnone p t Ht Hh).
    + intros f rp r i pp par n w _ _ Hp Hi Hin. exfalso. destruct (places_cons pp par i Hi) as [ns Hns]. rewrite Hns in Hin.
      inversion Hin as [|? ? Hh _]; subst.
      destruct (nth_error (children_of par) i) as [t|] eqn:Et; [|apply nth_error_None in Et; lia].
      apply (Hnone (i :: pp) t); [cbn [nget]; now rewrite Hp|exact Hh].
  - assert (HN : node_at (S h)) by now apply node_step. split; [exact HN|now apply save_step].
Qed.

End Search.

(** ** More steps do not change what has been done *)

Section More.

Variable W : Type.
Variable act : match_action W.
Variable R : rule.
Variable D : node.

Definition more {A} (m m' : C W A) : Prop := forall n w, fst (m n w) <> OutOfFuel -> m' n w = m n w.

Lemma more_refl {A} (m : C W A) : more m m.
Proof. intros n w _. reflexivity. Qed.
Lemma more_fuel {A} (m : C W A) : more (no_fuel_c W) m.
Proof. intros n w H. now destruct H. Qed.
Lemma more_bind {A B} (m m' : C W A) (f g : A -> C W B) :
  more m m' -> (forall a, more (f a) (g a)) -> more (bind_c W m f) (bind_c W m' g).
Proof.
  intros Hm Hf n w. unfold bind_c. specialize (Hm n w). destruct (m n w) as [[[a n']|e|u|] [w' log]]; cbn [fst] in *.
  - intros H. rewrite Hm by discriminate. specialize (Hf a n' w').
    destruct (f a n' w') as [o [w'' log']]. cbn [fst] in *. now rewrite Hf.
  - intros _. now rewrite Hm.
  - intros _. now rewrite Hm.
  - intros H. now destruct H.
Qed.

Ltac walk :=
  repeat first
    [ assumption
    | apply more_fuel
    | apply more_bind; [|intros ?]
    | match goal with
      | |- more (match ?x with _ => _ end) _ => destruct x
      | H : forall _, _ |- _ => apply H
      end
    | apply more_refl ].

Lemma runs_more : forall f g, f <= g ->
  (forall rl n, more (save_c W act R D f rl n) (save_c W act R D g rl n)) /\
  (forall rp n, more (save_groups_c W act R D f rp n) (save_groups_c W act R D g rp n)) /\
  (forall rp np, more (save_below_c W act R D f rp np) (save_below_c W act R D g rp np)) /\
  (forall rl n, more (rule_group_c W act R D f rl n) (rule_group_c W act R D g rl n)) /\
  (forall fr rl n sub, more (group_loop_c W act R D f fr rl n sub) (group_loop_c W act R D g fr rl n sub)) /\
  (forall rl n, more (matches_node_c W act R D f rl n) (matches_node_c W act R D g rl n)) /\
  (forall cp n, more (child_loop_c W act R D f cp n) (child_loop_c W act R D g cp n)) /\
  (forall rp k size n, more (nested_loop_c W act R D f rp k size n) (nested_loop_c W act R D g rp k size n)) /\
  (forall rl b e, more (once_c W act R D f rl b e) (once_c W act R D g rl b e)) /\
  (forall rb re nb ne, more (range_c W act R D f rb re nb ne) (range_c W act R D g rb re nb ne)) /\
  (forall rb re nb ne x, more (range_loop_c W act R D f rb re nb ne x) (range_loop_c W act R D g rb re nb ne x)).
Proof.
  induction f as [|f IH]; intros g Hg.
  { repeat split; intros; apply more_fuel. }
  destruct g as [|g]; [lia|]. specialize (IH g ltac:(lia)).
  destruct IH as (I1 & I2 & I3 & I4 & I5 & I6 & I7 & I8 & I9 & I10 & I11).
  repeat split; intros;
    cbn [save_c save_groups_c save_below_c rule_group_c group_loop_c matches_node_c child_loop_c nested_loop_c once_c
         range_c range_loop_c].
  all: walk.
Qed.

End More.
