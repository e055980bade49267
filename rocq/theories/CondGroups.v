(** The shape of the groups, whatever the conditions answer. *)

From Coq Require Import Ascii String NArith ZArith Arith Bool List Lia Sorted.
From Verif Require Import Base Dom Values Match Rule RuleMatching RuleProofs MatchSem MatchRefine GroupSpec MatchSpec
  MatchProofs CountProofs CaptureState CondState CondSpec CondProofs CondMain CondGroupSpec.
Import ListNotations.

Lemma chain_next c : forall d j, j < length (chain c) -> r_next (nth j (chain c) d) = nth_error (chain c) (S j).
Proof.
  induction c as [c IH] using rule_next_ind. intros d j Hj.
  destruct c as [ch [n|] l ms cs t o g name]; cbn [chain length] in *.
  - destruct j as [|j]; cbn [nth nth_error r_next].
    + destruct n as [? [?|] ? ? ? ? ? ? ?]; reflexivity.
    + apply (IH n eq_refl d j). lia.
  - destruct j as [|j]; [reflexivity|cbn [length] in Hj; lia].
Qed.

Section Shape.

Variable W : Type.
Variable act : match_action W.
Variable R : rule.
Variable D : node.
(** The log of the whole search. *)
Variable L : list entry.

Notation Found := (found R D L).

(** ** Triples for calls that return *)

Definition gives {A} (m : C W A) (Q : A -> Prop) : Prop :=
  forall n w, match m n w with
              | (Ok (a, _), (_, log)) => incl log L -> Q a
              | _ => True
              end.

Lemma gives_ok A (m : C W A) Q n w a n' w' log :
  gives m Q -> m n w = (Ok (a, n'), (w', log)) -> incl log L -> Q a.
Proof. intros H E Hl. specialize (H n w). rewrite E in H. exact (H Hl). Qed.

Lemma gives_quiet {A} (a : A) (Q : A -> Prop) : Q a -> gives (quiet W a) Q.
Proof. intros H n w. cbn. auto. Qed.
Lemma gives_fuel {A} (Q : A -> Prop) : gives (no_fuel_c W) Q.
Proof. intros n w. exact I. Qed.
Lemma gives_call {A} (o : outcome A) (Q : A -> Prop) : (forall a, o = Ok a -> Q a) -> gives (call_c W o) Q.
Proof. intros H n w. unfold call_c, RuleMatching.lift. destruct o as [a|e|u|]; cbn [obind]; auto. Qed.
Lemma gives_tick (Q : unit -> Prop) : Q tt -> gives (tick_c W) Q.
Proof.
  intros H n w. unfold tick_c. destruct (tick n) as [[[] n']|e|u|]; auto.
Qed.
Lemma gives_bind {A B} (m : C W A) (f : A -> C W B) (P : A -> Prop) (Q : B -> Prop) :
  gives m P -> (forall a, P a -> gives (f a) Q) -> gives (bind_c W m f) Q.
Proof.
  intros Hm Hf n w. specialize (Hm n w). unfold bind_c. destruct (m n w) as [[[a n']|e|u|] [w' log]]; auto.
  pose proof (fun H => Hf a H n' w') as Hf'. destruct (f a n' w') as [[[b n'']|e|u|] [w'' log']]; auto.
  intros Hi. apply Hf'; [apply Hm|]; intros z Hz; apply Hi, in_or_app; auto.
Qed.
Lemma gives_bind_call {A B} (o : outcome A) (f : A -> C W B) (Q : B -> Prop) a :
  o = Ok a -> gives (f a) Q -> gives (bind_c W (call_c W o) f) Q.
Proof.
  intros -> H. eapply gives_bind; [apply gives_call with (Q := eq a)|intros b <-; exact H]. now intros b [= <-].
Qed.
Lemma gives_weaken {A} (m : C W A) (P Q : A -> Prop) : gives m P -> (forall a, P a -> Q a) -> gives m Q.
Proof.
  intros Hm H n w. specialize (Hm n w). destruct (m n w) as [[[a n']|e|u|] [w' log]]; auto.
Qed.

Lemma gives_test rp r p t : rget R rp = Some r -> nget D p = Some t ->
  gives (Rule_matches_c W act D rp r p) (fun m => m = true -> passed R D L rp p).
Proof.
  intros Hr Ht n w.
  assert (Hs : in_scope (hd 0 (p ++ [0])) (tl (p ++ [0])) (p ++ [0])).
  { exists (hd 0 (p ++ [0])), []. split; [lia|]. now destruct p. }
  unfold Rule_matches_c, deref. rewrite Ht. destruct (tag_matches r t) eqn:Et.
  - pose proof (all_match_run W act rp p (r_matches r) 0 w) as H.
    destruct (all_match_c W act rp 0 (r_matches r) p w) as [o [w' calls]]. destruct H as [_ Hcase].
    destruct Hcase as [[-> ->]|(before & j & later & x & E & Hx & -> & ->)].
    + cbn [RuleMatching.lift obind]. intros Hi _. exists r, t, (yes (numbers 0 (r_matches r))).
      split; [exact Hr|]. split; [exact Ht|]. split; [exact Et|]. split; [apply Hi; now left|].
      intros k m Hm. apply yes_in. apply numbers_ok. now exists m.
    + destruct x as [[|]|e|u]; cbn [said RuleMatching.lift obind]; auto; [now destruct Hx|]. intros _ H. discriminate H.
  - cbn [RuleMatching.lift obind]. intros _ H. discriminate H.
Qed.

Definition node_ok (f : nat) : Prop := forall rp r p t, rget R rp = Some r -> nget D p = Some t ->
  gives (matches_node_c W act R D f (Some rp) (Some p)) (fun x => fst x = true -> Found rp p (snd x)).

(** ** One list of siblings *)

Section List_of_siblings.

Variable cp : rpath.
Variable c : rule.
Hypothesis Hc : rget R cp = Some c.
Notation nr := (length (chain c)).
Notation opt := (fun j => r_optional (rule_at c j)).
Notation gre := (fun j => r_greedy (rule_at c j)).

Definition rl (j : nat) : rptr := if Nat.ltb j nr then Some (address cp j) else None.

Lemma rl_at j : j < nr -> rl j = Some (address cp j).
Proof. intros H. unfold rl. destruct (Nat.ltb_spec j nr); [reflexivity|lia]. Qed.
Lemma rl_end : rl nr = None.
Proof. unfold rl. now rewrite Nat.ltb_irrefl. Qed.

Lemma address_inj j j' : address cp j = address cp j' -> j = j'.
Proof.
  unfold address. intros H. apply (f_equal (@length _)) in H. rewrite !app_length, !repeat_length in H. lia.
Qed.
Lemma address_eqb j j' : rpath_eqb (address cp j) (address cp j') = Nat.eqb j j'.
Proof.
  destruct (rpath_eqb_spec (address cp j) (address cp j')) as [E|E].
  - apply address_inj in E. subst. symmetry. apply Nat.eqb_refl.
  - destruct (Nat.eqb_spec j j') as [->|]; [now destruct E|reflexivity].
Qed.
Lemma rl_eqb j j' : j <= nr -> j' <= nr -> rptr_eqb (rl j) (rl j') = Nat.eqb j j'.
Proof.
  intros H H'. unfold rl. destruct (Nat.ltb_spec j nr), (Nat.ltb_spec j' nr); cbn [rptr_eqb].
  - apply address_eqb.
  - destruct (Nat.eqb_spec j j'); [lia|reflexivity].
  - destruct (Nat.eqb_spec j j'); [lia|reflexivity].
  - destruct (Nat.eqb_spec j j'); [reflexivity|lia].
Qed.

Lemma next_at j : j < nr -> r_next (rule_at c j) = nth_error (chain c) (S j).
Proof. apply chain_next. Qed.

Lemma rget_at j : j < nr -> rget R (address cp j) = Some (rule_at c j).
Proof.
  induction j as [|j IH]; intros Hj.
  - unfold address, rule_at. cbn [repeat app]. rewrite Hc. destruct c as [? [?|] ? ? ? ? ? ? ?]; reflexivity.
  - specialize (IH ltac:(lia)). change (address cp (S j)) with (RNext :: address cp j). cbn [rget]. rewrite IH.
    cbn [rstep_get]. rewrite (next_at j) by lia. rewrite (rule_at_nth c (S j) c Hj). now apply nth_error_nth'.
Qed.
Lemma rderef_at j : j < nr -> rderef R (address cp j) = Ok (rule_at c j).
Proof. intros H. unfold rderef. now rewrite (rget_at j H). Qed.
Lemma rnext_at j : j < nr -> rnext (rule_at c j) (address cp j) = rl (S j).
Proof.
  intros H. unfold rnext, rl. rewrite (next_at j H). destruct (Nat.ltb_spec (S j) nr) as [H'|H'].
  - rewrite (nth_error_nth' (chain c) c H'). reflexivity.
  - apply nth_error_None in H'. now rewrite H'.
Qed.

Definition first_from (j e m : nat) : Prop :=
  j <= m <= e /\ (forall x, j <= x < m -> opt x = true) /\ (m < e -> opt m = false).

Lemma first_from_exists e : forall k j, j + k = e -> exists m, first_from j e m.
Proof.
  induction k as [|k IH]; intros j H.
  - exists j. split; [lia|]. split; intros; lia.
  - destruct (r_optional (rule_at c j)) eqn:Eo.
    + destruct (IH (S j) ltac:(lia)) as (m & H1 & H2 & H3). exists m. split; [lia|]. split; [|exact H3].
      intros x Hx. destruct (Nat.eq_dec x j) as [->|]; [exact Eo|]. apply H2. lia.
    + exists j. split; [lia|]. split; [lia|auto].
Qed.

Lemma find_mandatory_at j e m : j < nr -> e <= nr -> first_from j e m ->
  find_mandatory (rule_at c j) (address cp j) (rl e) = rl m.
Proof.
  intros Hj He (H1 & H2 & H3). remember (e - j) as k eqn:Hk. revert j Hj H1 H2 Hk.
  induction k as [|k IH]; intros j Hj H1 H2 Hk.
  - assert (j = e) by lia. assert (m = e) by lia. subst. rewrite find_mandatory_eq. rewrite (rl_at e Hj).
    cbn [rptr_eqb]. now rewrite address_eqb, Nat.eqb_refl.
  - rewrite find_mandatory_eq. rewrite <- (rl_at j Hj) at 1. rewrite rl_eqb by lia.
    destruct (Nat.eqb_spec j e) as [E|_]; [lia|].
    destruct (Nat.eq_dec m j) as [->|Hm].
    + unfold mandatory. cbn [snd]. rewrite H3 by lia. rewrite (rl_at j Hj). reflexivity.
    + unfold mandatory. cbn [snd]. rewrite (H2 j) by lia. cbn [negb]. rewrite (next_at j Hj).
      destruct (nth_error (chain c) (S j)) as [n|] eqn:En.
      * assert (Hj' : S j < nr) by (apply nth_error_Some; now rewrite En).
        assert (n = rule_at c (S j)) as ->.
        { rewrite (rule_at_nth c (S j) c Hj'). symmetry. apply nth_error_nth. exact En. }
        change (RNext :: address cp j) with (address cp (S j)). apply IH; [exact Hj'|lia| |lia]. intros x Hx. apply H2. lia.
      * apply nth_error_None in En. assert (e = S j) by lia. assert (m = e) by lia. now subst.
Qed.

Lemma FindMandatory_at j e m : j <= nr -> e <= nr -> first_from j e m ->
  FindMandatoryRule R (rl j) (rl e) = Ok (rl m).
Proof.
  intros Hj He Hm. unfold FindMandatoryRule. destruct (Nat.eq_dec j nr) as [->|Hn].
  - rewrite rl_end. destruct Hm as (Hm & _). now replace m with e by lia.
  - rewrite (rl_at j) by lia. rewrite (rderef_at j) by lia. cbn [obind].
    rewrite (find_mandatory_at j e m); [reflexivity|lia|lia|exact Hm].
Qed.

(** The siblings [lo] .. [hi - 1] below [pp]. *)
Variable pp : npath.
Variable lo hi : nat.
Hypothesis Hnodes : forall k, lo <= k < hi -> exists t, nget D (k :: pp) = Some t.
Hypothesis Hnext : forall k, lo <= k < hi ->
  NextNode D (Some (k :: pp)) = Ok (if Nat.ltb (S k) hi then Some (S k :: pp) else None).

Definition nd (k : nat) : nptr := if Nat.ltb k hi then Some (k :: pp) else None.
Lemma nd_at k : k < hi -> nd k = Some (k :: pp).
Proof. intros H. unfold nd. destruct (Nat.ltb_spec k hi); [reflexivity|lia]. Qed.
Lemma nd_end k : hi <= k -> nd k = None.
Proof. intros H. unfold nd. destruct (Nat.ltb_spec k hi); [lia|reflexivity]. Qed.
Lemma nd_eqb k k' : k <= hi -> k' <= hi -> nptr_eqb (nd k) (nd k') = Nat.eqb k k'.
Proof.
  intros H H'. destruct (nptr_eqb_spec (nd k) (nd k')) as [E|E]; destruct (Nat.eqb_spec k k') as [E'|E']; try reflexivity.
  - exfalso. unfold nd in E. destruct (Nat.ltb_spec k hi), (Nat.ltb_spec k' hi); try discriminate; [|lia].
    injection E as E. lia.
  - exfalso. subst. now destruct E.
Qed.
Lemma next_nd k : lo <= k < hi -> NextNode D (Some (k :: pp)) = Ok (nd (S k)).
Proof. exact (Hnext k). Qed.

Definition place (x : find) : Prop := Found (address cp (rule_no x)) (node_no x :: pp) (inside x).

Lemma once_gives f : (forall g, g < f -> node_ok g) -> forall j k e, j < nr -> lo <= k -> k <= e -> e <= hi ->
  gives (once_c W act R D f (Some (address cp j)) (nd k) (nd e))
    (fun x => x = (nd e, []) \/ exists y, k <= y < e /\ fst x = nd y /\ place (mk_find j y (snd x))).
Proof.
  induction f as [|f IH]; intros HN j k e Hj Hlo Hke He; [apply gives_fuel|]. cbn [once_c].
  destruct (Nat.eq_dec k hi) as [->|Hk].
  { rewrite (nd_end hi) by lia. apply gives_quiet. now left. }
  rewrite (nd_at k) by lia. rewrite <- (nd_at k) at 1 by lia. rewrite nd_eqb by lia.
  destruct (Nat.eqb_spec k e) as [->|Hne]; [apply gives_quiet; now left|].
  destruct (Hnodes k ltac:(lia)) as [t Ht].
  eapply gives_bind; [apply (HN f ltac:(lia) _ _ _ _ (rget_at j Hj) Ht)|].
  intros [m inner] Hm. cbn [fst snd] in Hm. destruct m.
  - apply gives_quiet. right. exists k. cbn [fst snd]. split; [lia|]. split; [now rewrite nd_at by lia|]. now apply Hm.
  - eapply gives_bind_call; [apply next_nd; lia|].
    eapply gives_weaken; [apply IH; [intros g Hg; apply HN; lia|lia..]|].
    intros x [Hx|(y & Hy & Hx)]; [now left|right]. exists y. split; [lia|exact Hx].
Qed.

(** The pairs of matches of optional or repeated rules. *)
Definition in_row (t : list find) : MatchingNodes :=
  concat (map (fun x => inside x ++ [(address cp (rule_no x), node_no x :: pp)]) t).

Definition sorted (t : list find) : Prop :=
  StronglySorted (fun x y => rule_no x <= rule_no y /\ node_no x < node_no y) t.

(** Only greedy rules have several nodes. *)
Definition sole (t : list find) : Prop :=
  forall x y, In x t -> In y t -> rule_no x = rule_no y -> gre (rule_no x) = false -> x = y.

Record row (a b k e : nat) (t : list find) : Prop := {
  row_sorted : sorted t;
  row_range : forall x, In x t -> a <= rule_no x < b /\ k <= node_no x < e;
  row_sole : sole t;
  row_found : forall x, In x t -> place x }.

Lemma row_nil a b k e : row a b k e [].
Proof. split; [constructor|intros x []|intros x y []|intros x []]. Qed.

Lemma row_more a a' b k k' e t : row a b k e t -> a' <= a -> k' <= k -> row a' b k' e t.
Proof.
  intros [H1 H2 H3 H4] Ha Hk. split; auto. intros x Hx. specialize (H2 x Hx). lia.
Qed.

Lemma row_cons a b k e t j y inner : row j b (S y) e t -> (gre j = false -> row (S j) b (S y) e t) ->
  a <= j < b -> k <= y < e -> place (mk_find j y inner) -> row a b k e (mk_find j y inner :: t).
Proof.
  intros [H1 H2 H3 H4] Hg Ha Hk Hp. split.
  - constructor; [exact H1|]. apply Forall_forall. intros x Hx. specialize (H2 x Hx). cbn [rule_no node_no]. lia.
  - intros x [<-|Hx]; [cbn [rule_no node_no]; lia|]. specialize (H2 x Hx). lia.
  - assert (Hno : forall x, In x t -> rule_no x = j -> gre j = false -> False).
    { intros x Hx E Eg. pose proof (row_range _ _ _ _ _ (Hg Eg) x Hx). lia. }
    intros x z [<-|Hx] [<-|Hz] E Eg; cbn [rule_no] in *; auto.
    + now destruct (Hno z Hz (eq_sym E) Eg).
    + rewrite E in Eg. now destruct (Hno x Hx E Eg).
  - intros x [<-|Hx]; [exact Hp|now apply H4].
Qed.

Lemma range_loop_gives f : (forall g, g < f -> node_ok g) -> forall a b k e mn,
  a <= b -> b <= nr -> lo <= k -> k <= e -> e <= hi ->
  gives (range_loop_c W act R D f (rl a) (rl b) (nd k) (nd e) mn)
    (fun x => exists t, snd x = in_row t /\ row a b k e t /\
       ((fst x = mn /\ t = []) \/ fst x = nd e \/
        exists y, k <= y < e /\ fst x = nd y /\ forall z, In z t -> node_no z <= y)).
Proof.
  induction f as [|f IH]; intros HN a b k e mn Hab Hb Hlo Hk He; [apply gives_fuel|]. cbn [range_loop_c].
  destruct (Nat.eq_dec a b) as [->|Hne].
  { assert (Hq : forall o, exists t, snd (mn, @nil (rpath * npath)) = in_row t /\ row b b k e t /\
       ((fst (mn, @nil (rpath * npath)) = mn /\ t = []) \/ o = nd e \/ exists y, k <= y < e /\ o = nd y /\ forall z, In z t -> node_no z <= y)).
    { intros o. exists []. split; [reflexivity|]. split; [apply row_nil|now left]. }
    destruct (rl b) as [bp|] eqn:Eb; [|apply gives_quiet; apply Hq].
    destruct (rptr_eqb_spec (Some bp) (Some bp)) as [_|Hn]; [|now destruct Hn]. apply gives_quiet. apply Hq. }
  assert (Ha : a < nr) by lia. rewrite (rl_at a Ha). rewrite <- (rl_at a Ha) at 1. rewrite rl_eqb by lia.
  destruct (Nat.eqb_spec a b) as [E|_]; [lia|].
  eapply gives_bind_call; [exact (rderef_at a Ha)|].
  eapply gives_bind; [apply (once_gives f (fun g Hg => HN g ltac:(lia)) a k e); lia|].
  intros [x inner] Hx. rewrite (rnext_at a Ha).
  assert (HN' : forall g, g < f -> node_ok g) by (intros g Hg; apply HN; lia).
  destruct Hx as [Hx|(y & Hy & Hx & Hp)].
  - injection Hx as -> ->.
    assert (Hrest : gives (bind_c W (range_loop_c W act R D f (rl (S a)) (rl b) (nd k) (nd e) (nd e))
              (fun '(last, rest) => quiet W (last, [] ++ rest)))
       (fun x => exists t, snd x = in_row t /\ row a b k e t /\
          ((fst x = mn /\ t = []) \/ fst x = nd e \/
           exists y, k <= y < e /\ fst x = nd y /\ forall z, In z t -> node_no z <= y))).
    { eapply gives_bind; [apply (IH HN' (S a) b k e (nd e)); lia|].
      intros [last rest] (t & Ht & Hrow & Hl). cbn [fst snd] in *. apply gives_quiet. exists t. cbn [fst snd app].
      split; [exact Ht|]. split; [apply (row_more (S a) a b k k e t Hrow); lia|]. destruct Hl as [[-> _]|Hl]; tauto. }
    destruct (nd e) as [q|] eqn:Ee; [|exact Hrest].
    destruct (nptr_eqb_spec (Some q) (Some q)) as [_|Hn]; [|now destruct Hn]. exact Hrest.
  - cbn [fst snd] in Hx, Hp. subst x. rewrite (nd_at y) by lia. rewrite <- (nd_at y) at 1 by lia. rewrite nd_eqb by lia.
    destruct (Nat.eqb_spec y e) as [E|_]; [lia|].
    eapply gives_bind_call; [apply next_nd; lia|].
    eapply gives_bind with (P := fun x => exists t, snd x = in_row t /\ row a b (S y) e t /\
        (gre a = false -> row (S a) b (S y) e t) /\
        ((fst x = Some (y :: pp) /\ t = []) \/ fst x = nd e \/
           exists y', S y <= y' < e /\ fst x = nd y' /\ forall z, In z t -> node_no z <= y')).
    + destruct (r_greedy (rule_at c a)).
      * rewrite <- (rl_at a Ha). eapply gives_weaken; [apply (IH HN' a b (S y) e (Some (y :: pp))); lia|].
        intros z (t & H1 & H2 & H3). exists t. repeat (split; [assumption|]). split; [discriminate|exact H3].
      * eapply gives_weaken; [apply (IH HN' (S a) b (S y) e (Some (y :: pp))); lia|].
        intros z (t & H1 & H2 & H3). exists t. split; [exact H1|]. split; [apply (row_more (S a) a b (S y) (S y) e t H2); lia|].
        split; [intros _; exact H2|exact H3].
    + intros [last rest] (t & Ht & Hrow & Hg & Hl). cbn [fst snd] in *. apply gives_quiet.
      exists (mk_find a y inner :: t). cbn [fst snd]. split.
      { rewrite Ht. unfold in_row. cbn [map concat inside rule_no node_no]. now rewrite <- app_assoc. }
      split; [apply (row_cons a b k e t a y inner Hrow Hg); [lia|lia|exact Hp]|]. right.
      destruct Hl as [[-> ->]|[Hl|(y' & Hy' & Hl & Hz)]]; [|now left|].
      * right. exists y. split; [lia|]. split; [now rewrite nd_at by lia|]. intros z [<-|[]]. cbn [node_no]. lia.
      * right. exists y'. split; [lia|]. split; [exact Hl|]. intros z [<-|H]; [cbn [node_no]; lia|now apply Hz].
Qed.

(** ** MatchRuleGroup *)

Notation rep := (repeated opt gre).

(** How many rules are done: the rule [j] itself is if it is being repeated. *)
Definition repeating (j : nat) (sn : option nat) : bool := match sn with Some j' => Nat.eqb j' j | None => false end.
Definition done (j : nat) (sn : option nat) : nat := if repeating j sn then S j else j.

(** The group up to now: [t] are its matches, [sub] its pairs, [sn] the last
    mandatory rule that has matched. *)
Record state (k0 j k : nat) (sn : option nat) (t : list find) (sub : MatchingNodes) : Prop := {
  st_sorted : sorted t;
  st_range : forall x, In x t -> rule_no x < done j sn /\ k0 <= node_no x < k;
  st_place : forall x, In x t -> place x;
  st_mand : forall a, a < done j sn -> a < nr -> opt a = false -> exists x, In x t /\ rule_no x = a;
  st_sole : forall x y, In x t -> In y t -> rule_no x = rule_no y -> takes_all opt gre (rule_no x) = false -> x = y;
  st_seen : forall a, sn = Some a -> a < nr /\ a <= j;
  st_rep : repeating j sn = true -> opt j = false /\ gre j = true /\ rep j = true;
  st_fresh : repeating j sn = false -> j < nr -> opt j = false -> gre j = true -> rep j = true;
  st_back : forall a, back_is sub (address cp a) = repeating a sn;
  st_sub : forall t', arranged c cp pp None [] (t ++ t') = sub ++ arranged c cp pp sn [] t' }.

Lemma repeating_seen a sn : repeating a sn = true -> sn = Some a.
Proof. unfold repeating. destruct sn as [b|]; [|discriminate]. intros H. apply Nat.eqb_eq in H. now subst. Qed.

Lemma arranged_row sn t : (forall x, In x t -> opt (rule_no x) = true \/ repeating (rule_no x) sn = true) -> forall gap t',
  arranged c cp pp sn gap (t ++ t') = arranged c cp pp sn (gap ++ in_row t) t'.
Proof.
  induction t as [|[j i m] t IH]; intros H gap t'.
  - unfold in_row. cbn [map concat app]. now rewrite app_nil_r.
  - cbn [app arranged]. pose proof (H (mk_find j i m) (or_introl eq_refl)) as H0. cbn [rule_no] in H0. fold (repeating j sn).
    replace (negb (r_optional (rule_at c j)) && negb (repeating j sn)) with false.
    + rewrite IH by (intros x Hx; apply H; now right). unfold in_row. cbn [map concat inside rule_no node_no].
      now rewrite <- !app_assoc.
    + destruct H0 as [-> | ->]; [reflexivity|]. now rewrite andb_false_r.
Qed.

Lemma arranged_nil sn gap : arranged c cp pp sn gap [] = gap.
Proof. reflexivity. Qed.

Lemma arranged_flush sn gap j i m t' : opt j = false -> repeating j sn = false ->
  arranged c cp pp sn gap (mk_find j i m :: t') =
  m ++ gap ++ [(address cp j, i :: pp)] ++ arranged c cp pp (Some j) [] t'.
Proof. intros H1 H2. cbn [arranged]. fold (repeating j sn). rewrite H1, H2. reflexivity. Qed.

Lemma sorted_app (t u : list find) : sorted t -> sorted u ->
  (forall x y, In x t -> In y u -> rule_no x <= rule_no y /\ node_no x < node_no y) -> sorted (t ++ u).
Proof.
  induction 1 as [|x t Ht IH Hx]; intros Hu H; [exact Hu|]. cbn [app]. constructor.
  - apply IH; [exact Hu|]. intros y z Hy Hz. apply H; [now right|exact Hz].
  - apply Forall_app. split; [exact Hx|]. apply Forall_forall. intros y Hy. apply H; [now left|exact Hy].
Qed.

Definition group_done (k0 k : nat) (x : nptr * MatchingNodes) : Prop :=
  exists k', k <= k' <= hi /\ fst x = nd k' /\
    (snd x = [] \/ exists t, group_shape c k0 hi t /\ (forall y, In y t -> place y /\ node_no y < k') /\
       snd x = arranged c cp pp None [] t).

Lemma group_fails k0 k : k <= hi -> group_done k0 k (None, []).
Proof. intros H. exists hi. split; [lia|]. split; [symmetry; apply nd_end; lia|now left]. Qed.

Lemma group_done_less k0 k k1 x : group_done k0 k1 x -> k <= k1 -> group_done k0 k x.
Proof. intros (k' & H1 & H2) H. exists k'. split; [lia|exact H2]. Qed.

(** Adding a row of optional or repeated rules to a group. *)
Lemma add_row k0 j k sn t sub b e u : state k0 j k sn t sub -> k0 <= k -> k <= e -> j < b -> b <= nr ->
  (forall x, S j <= x < b -> opt x = true) -> opt j = true \/ repeating j sn = true -> row j b k e u ->
  sorted (t ++ u) /\ (forall x, In x (t ++ u) -> rule_no x < b /\ k0 <= node_no x < e /\ place x) /\
  (forall x y, In x (t ++ u) -> In y (t ++ u) -> rule_no x = rule_no y -> takes_all opt gre (rule_no x) = false -> x = y) /\
  (forall t', arranged c cp pp None [] (t ++ u ++ t') = sub ++ arranged c cp pp sn (in_row u) t') /\
  (forall a, a < b -> opt a = false -> exists x, In x (t ++ u) /\ rule_no x = a).
Proof.
  intros Hst Hk0 Hke Hjb Hb Hopt Hj [U1 U2 U3 U4].
  pose proof (st_range _ _ _ _ _ _ Hst) as HR.
  assert (Hd : done j sn <= S j) by (unfold done; destruct (repeating j sn); lia).
  assert (Hgo : forall x, In x u -> opt (rule_no x) = true \/ repeating (rule_no x) sn = true).
  { intros x Hx. destruct (U2 x Hx) as [H _]. destruct (Nat.eq_dec (rule_no x) j) as [->|]; [exact Hj|]. left. apply Hopt. lia. }
  split.
  { apply sorted_app; [exact (st_sorted _ _ _ _ _ _ Hst)|exact U1|]. intros x y Hx Hy.
    specialize (HR x Hx). specialize (U2 y Hy). lia. }
  split.
  { intros x Hx. apply in_app_iff in Hx as [Hx|Hx].
    - pose proof (st_place _ _ _ _ _ _ Hst x Hx). specialize (HR x Hx). repeat split; [lia..|assumption].
    - pose proof (U4 x Hx). specialize (U2 x Hx). repeat split; [lia..|assumption]. }
  split.
  { assert (Hmix : forall x y, In x t -> In y u -> rule_no x = rule_no y -> takes_all opt gre (rule_no x) = false -> False).
    { intros x y Hx Hy E Et. specialize (HR x Hx). specialize (U2 y Hy). unfold done in HR.
      destruct (repeating j sn) eqn:Er; [|lia]. assert (rule_no x = j) by lia.
      destruct (st_rep _ _ _ _ _ _ Hst Er) as (_ & Hg & Hr). unfold takes_all in Et. rewrite H in Et.
      rewrite Hg, Hr, orb_true_r in Et. discriminate. }
    intros x y Hx Hy E Et. apply in_app_iff in Hx, Hy. destruct Hx as [Hx|Hx], Hy as [Hy|Hy].
    - now apply (st_sole _ _ _ _ _ _ Hst).
    - now destruct (Hmix x y Hx Hy E Et).
    - rewrite E in Et. now destruct (Hmix y x Hy Hx (eq_sym E) Et).
    - apply (U3 x y Hx Hy E). unfold takes_all in Et.
      destruct (Hgo x Hx) as [Ho|Ho].
      + rewrite Ho in Et. cbn [orb] in Et. now rewrite andb_true_r in Et.
      + pose proof Ho as Ho'. apply repeating_seen in Ho'. destruct (st_seen _ _ _ _ _ _ Hst _ Ho') as [_ Hle].
        assert (rule_no x = j) as Ej by (specialize (U2 x Hx); lia). rewrite Ej in *.
        destruct (st_rep _ _ _ _ _ _ Hst Ho) as (_ & Hg & Hr). rewrite Hg, Hr, orb_true_r in Et. discriminate. }
  split.
  { intros t'. rewrite (st_sub _ _ _ _ _ _ Hst (u ++ t')). now rewrite (arranged_row sn u Hgo). }
  intros a Ha Ho.
  assert (Hlt : a < done j sn).
  { unfold done. destruct (Nat.eq_dec a j) as [->|].
    - destruct Hj as [Hj|Hj]; [cbn beta in *; congruence|]. rewrite Hj. lia.
    - destruct (Nat.lt_ge_cases a j); [destruct (repeating j sn); lia|].
      rewrite (Hopt a) in Ho by lia. discriminate. }
  destruct (st_mand _ _ _ _ _ _ Hst a Hlt ltac:(lia) Ho) as (x & Hx & E). exists x. split; [apply in_or_app; now left|exact E].
Qed.

(** A mandatory rule matches, and the next one is looked for. *)
Lemma next_state k0 k t t1 m y inner sub1 sn : sorted (t ++ t1) ->
  (forall x, In x (t ++ t1) -> rule_no x < m /\ k0 <= node_no x < y /\ place x) ->
  (forall x z, In x (t ++ t1) -> In z (t ++ t1) -> rule_no x = rule_no z -> takes_all opt gre (rule_no x) = false -> x = z) ->
  (forall a, a < m -> opt a = false -> exists x, In x (t ++ t1) /\ rule_no x = a) ->
  (forall t', arranged c cp pp None [] (t ++ t1 ++ t') = sub1 ++ arranged c cp pp sn (in_row t1) t') ->
  m < nr -> opt m = false -> repeating m sn = false -> k0 <= k -> k <= y -> place (mk_find m y inner) ->
  let sub := sub1 ++ inner ++ in_row t1 ++ [(address cp m, y :: pp)] in
  let t2 := t ++ t1 ++ [mk_find m y inner] in
  (gre m = true -> rep m = true -> state k0 m (S y) (Some m) t2 sub) /\
  (rep m = false -> state k0 (S m) (S y) (Some m) t2 sub).
Proof.
  intros H1 H2 H3 H4 H5 Hm Ho Hs Hk0 Hk Hp sub t2.
  assert (Hin : forall x, In x t2 -> In x (t ++ t1) \/ x = mk_find m y inner).
  { intros x Hx. unfold t2 in Hx. rewrite app_assoc in Hx. apply in_app_iff in Hx as [Hx|[<-|[]]]; auto. }
  assert (Hsorted : sorted t2).
  { unfold t2. rewrite app_assoc. apply sorted_app; [exact H1|repeat constructor|].
    intros x z Hx [<-|[]]. specialize (H2 x Hx). cbn [rule_no node_no]. lia. }
  assert (Hrange : forall x, In x t2 -> rule_no x < S m /\ k0 <= node_no x < S y).
  { intros x Hx. destruct (Hin x Hx) as [H| ->]; [specialize (H2 x H); lia|cbn [rule_no node_no]; lia]. }
  assert (Hplace : forall x, In x t2 -> place x).
  { intros x Hx. destruct (Hin x Hx) as [H| ->]; [now apply H2|exact Hp]. }
  assert (Hmand : forall a, a < S m -> opt a = false -> exists x, In x t2 /\ rule_no x = a).
  { intros a Ha Hoa. unfold t2. rewrite app_assoc. destruct (Nat.eq_dec a m) as [->|].
    - exists (mk_find m y inner). split; [apply in_or_app; right; now left|reflexivity].
    - destruct (H4 a ltac:(lia) Hoa) as (x & Hx & E). exists x. split; [apply in_or_app; now left|exact E]. }
  assert (Hsole : forall x z, In x t2 -> In z t2 -> rule_no x = rule_no z -> takes_all opt gre (rule_no x) = false -> x = z).
  { intros x z Hx Hz E Et. destruct (Hin x Hx) as [Hx'| ->], (Hin z Hz) as [Hz'| ->].
    - now apply H3.
    - exfalso. specialize (H2 x Hx'). cbn [rule_no] in E. lia.
    - exfalso. specialize (H2 z Hz'). cbn [rule_no] in E. lia.
    - reflexivity. }
  assert (Hback : forall a, back_is sub (address cp a) = repeating a (Some m)).
  { intros a. unfold sub, back_is. rewrite !app_assoc, rev_app_distr. cbn [rev app repeating]. rewrite address_eqb. apply Nat.eqb_sym. }
  assert (Hsub : forall t', arranged c cp pp None [] (t2 ++ t') = sub ++ arranged c cp pp (Some m) [] t').
  { intros t'. unfold t2, sub. rewrite <- !app_assoc. cbn [app]. rewrite H5, arranged_flush by assumption.
    cbn [app]. now rewrite <- ?app_assoc. }
  assert (Rm : repeating m (Some m) = true) by (unfold repeating; apply Nat.eqb_refl).
  assert (Rs : repeating (S m) (Some m) = false) by (unfold repeating; apply Nat.eqb_neq; lia).
  assert (Dm : done m (Some m) = S m) by (unfold done; now rewrite Rm).
  assert (Ds : done (S m) (Some m) = S m) by (unfold done; now rewrite Rs).
  split.
  - intros Hg Hr. constructor.
    + exact Hsorted.
    + rewrite Dm. exact Hrange.
    + exact Hplace.
    + rewrite Dm. intros a Ha _. now apply Hmand.
    + exact Hsole.
    + intros a [= <-]. lia.
    + auto.
    + intros Z. rewrite Rm in Z. discriminate.
    + exact Hback.
    + exact Hsub.
  - intros Hr. constructor.
    + exact Hsorted.
    + rewrite Ds. exact Hrange.
    + exact Hplace.
    + rewrite Ds. intros a Ha _. now apply Hmand.
    + exact Hsole.
    + intros a [= <-]. lia.
    + intros Z. rewrite Rs in Z. discriminate.
    + intros _ Hlt Ho1 Hg1. cbn [repeated]. cbn beta in *. rewrite Ho1, Hg1, Ho, Hr. reflexivity.
    + exact Hback.
    + exact Hsub.
Qed.

Lemma state_done k0 j k sn t sub k1 : state k0 j k sn t sub -> lo <= k0 -> k <= k1 <= hi -> k0 <= k ->
  (forall a, done j sn <= a < nr -> opt a = true) -> done j sn <= nr -> group_done k0 k (nd k1, sub).
Proof.
  intros Hst Hlo Hk1 Hk0 Hall Hd. exists k1. split; [lia|]. split; [reflexivity|]. cbn [snd].
  pose proof (st_sub _ _ _ _ _ _ Hst []) as Hsub. rewrite app_nil_r, arranged_nil, app_nil_r in Hsub.
  destruct t as [|x0 t0] eqn:Et; [left; now rewrite <- Hsub|right]. rewrite <- Et in *. exists t. split; [|split].
  - split; [now rewrite Et|]. split; [exact (st_sorted _ _ _ _ _ _ Hst)|]. split; [|split].
    + intros x Hx. pose proof (st_range _ _ _ _ _ _ Hst x Hx). lia.
    + intros a Ha Ho. apply (st_mand _ _ _ _ _ _ Hst); [|exact Ha|exact Ho].
      destruct (Nat.lt_ge_cases a (done j sn)) as [|H]; [assumption|]. rewrite (Hall a) in Ho by lia. discriminate.
    + exact (st_sole _ _ _ _ _ _ Hst).
  - intros x Hx. split; [now apply (st_place _ _ _ _ _ _ Hst)|]. pose proof (st_range _ _ _ _ _ _ Hst x Hx). lia.
  - now symmetry.
Qed.

Lemma row_done k0 j k sn t sub e u k1 : state k0 j k sn t sub -> lo <= k0 -> k0 <= k -> k <= e <= hi -> j < nr ->
  (forall x, S j <= x < nr -> opt x = true) -> opt j = true \/ repeating j sn = true -> row j nr k e u ->
  k <= k1 <= hi -> (forall x, In x u -> node_no x < k1) -> group_done k0 k (nd k1, sub ++ in_row u).
Proof.
  intros Hst Hlo Hk0 Hke Hj Hopt Hoj Hu Hk1 Hlt.
  destruct (add_row k0 j k sn t sub nr e u Hst Hk0 ltac:(lia) Hj (le_n _) Hopt Hoj Hu) as (A1 & A2 & A3 & A4 & A5).
  exists k1. split; [lia|]. split; [reflexivity|]. cbn [snd].
  specialize (A4 []). rewrite !app_nil_r, arranged_nil in A4.
  destruct (t ++ u) as [|x0 t0] eqn:Et; [left; now rewrite <- A4|right]. rewrite <- Et in *. exists (t ++ u). split; [|split].
  - split; [now rewrite Et|]. split; [exact A1|]. split; [|split; [exact A5|exact A3]].
    intros x Hx. specialize (A2 x Hx). lia.
  - intros x Hx. split; [now apply A2|]. apply in_app_iff in Hx as [Hx|Hx]; [|now apply Hlt].
    pose proof (st_range _ _ _ _ _ _ Hst x Hx). lia.
  - now symmetry.
Qed.

Lemma range_gives f : (forall g, g < f -> node_ok g) -> forall a k e,
  a <= nr -> lo <= k -> k < hi -> k <= e -> e <= hi -> forall b, a <= b -> b <= nr ->
  gives (range_c W act R D f (rl a) (rl b) (nd k) (nd e))
    (fun x => exists t, snd x = in_row t /\ row a b k e t /\
       (fst x = nd e \/ exists y, k <= y < e /\ fst x = nd y /\ forall z, In z t -> node_no z <= y)).
Proof.
  intros HN a k e Ha Hlo Hk Hke He b Hab Hb. destruct f as [|f]; [apply gives_fuel|]. cbn [range_c].
  rewrite (nd_at k) by lia. rewrite <- (nd_at k) by lia.
  eapply gives_weaken; [apply (range_loop_gives f (fun g Hg => HN g ltac:(lia)) a b k e (nd e)); lia|].
  intros x (t & H1 & H2 & H3). exists t. split; [exact H1|]. split; [exact H2|]. destruct H3 as [[H3 _]|H3]; tauto.
Qed.

Lemma group_tail_gives k0 j k sn t sub : lo <= k0 -> k0 <= k -> k <= hi -> j <= nr -> state k0 j k sn t sub ->
  gives (call_c W (group_tail R (rl j) (nd k) sub)) (group_done k0 k).
Proof.
  intros Hlo Hk0 Hk Hj Hst. apply gives_call. intros x. unfold group_tail.
  assert (Hrd : repeating j sn = true -> j < nr).
  { intros H. apply repeating_seen in H. now apply (st_seen _ _ _ _ _ _ Hst) in H. }
  assert (Hdn : done j sn <= nr).
  { unfold done. destruct (repeating j sn) eqn:E; [specialize (Hrd eq_refl)|]; lia. }
  assert (Hfin : obind (match rl (done j sn) with None => Ok None | Some rp => obind (rderef R rp) (fun r => Ok (skip_optional r rp)) end)
      (fun rule2 => match rule2 with None => Ok (nd k, sub) | Some _ => Ok (None, []) end) = Ok x -> group_done k0 k x).
  { destruct (first_from_exists nr (nr - done j sn) (done j sn) ltac:(lia)) as [m Hm].
    assert (E : obind (match rl (done j sn) with None => Ok None | Some rp => obind (rderef R rp) (fun r => Ok (skip_optional r rp)) end)
        (fun rule2 => match rule2 with None => Ok (nd k, sub) | Some _ => Ok (@None npath, @nil (rpath * npath)) end) =
        match rl m with None => Ok (nd k, sub) | Some _ => Ok (None, []) end).
    { destruct (Nat.eq_dec (done j sn) nr) as [Ed|Ed].
      - rewrite Ed in *. destruct Hm as [Hm _]. replace m with nr by lia. rewrite rl_end. reflexivity.
      - rewrite (rl_at (done j sn)) by lia. rewrite rderef_at by lia. cbn [obind].
        rewrite skip_optional_eq, <- rl_end. rewrite (find_mandatory_at (done j sn) nr m) by (lia || exact Hm). reflexivity. }
    rewrite E. destruct Hm as (Hm1 & Hm2 & Hm3). destruct (Nat.eq_dec m nr) as [->|Hn].
    - rewrite rl_end. intros [= <-]. apply (state_done k0 j k sn t sub k Hst); [lia|lia|lia| |exact Hdn]. intros a Ha. apply Hm2. lia.
    - rewrite (rl_at m) by lia. intros [= <-]. apply group_fails. lia. }
  destruct (Nat.eq_dec j nr) as [->|Hn].
  - intros H. apply Hfin. unfold done. destruct (repeating nr sn) eqn:E; [specialize (Hrd eq_refl); lia|].
    rewrite rl_end in *. exact H.
  - rewrite (rl_at j) by lia. rewrite (rderef_at j) by lia. cbn [obind]. rewrite (st_back _ _ _ _ _ _ Hst).
    unfold done in Hfin. destruct (repeating j sn) eqn:E.
    + destruct (st_rep _ _ _ _ _ _ Hst E) as (_ & Hg & _). cbn beta in Hg. rewrite Hg. cbn [andb obind].
      rewrite rnext_at by lia. exact Hfin.
    + rewrite andb_false_r. cbn [obind]. rewrite (rl_at j) in Hfin by lia. exact Hfin.
Qed.

Lemma group_loop_gives f : (forall g, g < f -> node_ok g) -> forall k0 j k sn t sub,
  lo <= k0 -> k0 <= k -> k <= hi -> j <= nr -> state k0 j k sn t sub ->
  gives (group_loop_c W act R D f (Some cp) (rl j) (nd k) sub) (group_done k0 k).
Proof.
  induction f as [|f IH]; intros HN k0 j k sn t sub Hlo Hk0 Hk Hj Hst; [apply gives_fuel|]. cbn [group_loop_c].
  assert (HN' : forall g, g < f -> node_ok g) by (intros g Hg; apply HN; lia).
  pose proof (group_tail_gives k0 j k sn t sub Hlo Hk0 Hk Hj Hst) as Htail.
  destruct (Nat.eq_dec j nr) as [->|Hjn].
  { rewrite rl_end in *. destruct (nd k); exact Htail. }
  destruct (Nat.eq_dec k hi) as [->|Hkn].
  { rewrite (nd_end hi) in * by lia. destruct (rl j); exact Htail. }
  clear Htail. rewrite (rl_at j) by lia. rewrite (nd_at k) by lia.
  eapply gives_bind_call; [apply (rderef_at j); lia|].
  rewrite (st_back _ _ _ _ _ _ Hst). rewrite rnext_at by lia. rewrite <- (nd_at k) by lia.
  assert (Hfirst : Some cp = rl 0) by (rewrite rl_at by lia; reflexivity).
  assert (Honce : forall a, a < nr -> gives (once_c W act R D f (rl a) (nd k) None)
      (fun x => x = (None, []) \/ exists y, k <= y < hi /\ fst x = nd y /\ place (mk_find a y (snd x)))).
  { intros a Ha. rewrite (rl_at a Ha). pose proof (once_gives f HN' a k hi Ha ltac:(lia) ltac:(lia) (le_n _)) as H.
    rewrite (nd_end hi) in H by lia. exact H. }
  assert (Hrep_j : forall a, repeating a sn = true -> a = j \/ a < j).
  { intros a Ha. apply repeating_seen in Ha. apply (st_seen _ _ _ _ _ _ Hst) in Ha. lia. }
  destruct (r_optional (rule_at c j) || (r_greedy (rule_at c j) && repeating j sn)) eqn:Eb.
  - assert (Hoj : opt j = true \/ repeating j sn = true).
    { apply orb_true_iff in Eb as [H|H]; [now left|]. apply andb_true_iff in H as [_ H]. now right. }
    destruct (first_from_exists nr (nr - S j) (S j) ltac:(lia)) as [m Hm].
    eapply gives_bind_call; [rewrite <- rl_end; apply (FindMandatory_at (S j) nr m); [lia|lia|exact Hm]|].
    destruct Hm as (Hm1 & Hm2 & Hm3). destruct (Nat.eq_dec m nr) as [->|Hmn].
    + (* no mandatory rule follows *)
      rewrite rl_end.
      destruct (first_from_exists j j 0 ltac:(lia)) as [m2 Hm'].
      eapply gives_bind_call.
      { rewrite Hfirst, <- (rl_at j) by lia. apply (FindMandatory_at 0 j m2); [lia|lia|exact Hm']. }
      destruct Hm' as (Hm1' & Hm2' & Hm3'). rewrite <- (rl_at j) by lia. rewrite rl_eqb by lia.
      destruct (Nat.eqb_spec m2 j) as [->|Hne].
      * cbn beta iota. eapply gives_bind.
        { pose proof (range_gives f HN' j k hi ltac:(lia) ltac:(lia) ltac:(lia) ltac:(lia) (le_n _) nr ltac:(lia) (le_n _)) as H.
          rewrite (nd_end hi), rl_end in H by lia. exact H. }
        intros [last more] (u & Hmore & Hu & Hlast). cbn [fst snd] in *. subst more.
        destruct Hlast as [->|(y & Hy & -> & Hz)].
        -- eapply gives_bind_call; [reflexivity|]. apply gives_quiet. rewrite <- (nd_end hi) by lia.
           apply (row_done k0 j k sn t sub hi u hi Hst); try assumption; try lia.
           intros x Hx. pose proof (row_range _ _ _ _ _ Hu x Hx). lia.
        -- rewrite (nd_at y) by lia. eapply gives_bind_call; [apply next_nd; lia|]. apply gives_quiet.
           apply (row_done k0 j k sn t sub hi u (S y) Hst); try assumption; try lia.
           intros x Hx. specialize (Hz x Hx). lia.
      * rewrite (rl_at m2) by lia. cbn beta iota. rewrite <- (rl_at m2) by lia.
        eapply gives_bind; [apply Honce; lia|]. intros [stop inner] Hstop.
        assert (He : exists e, stop = nd e /\ k <= e <= hi).
        { destruct Hstop as [E|(y & Hy & E & _)].
          - injection E as -> _. exists hi. split; [symmetry; apply nd_end; lia|lia].
          - exists y. split; [exact E|lia]. }
        destruct He as (e & -> & He). eapply gives_bind.
        { pose proof (range_gives f HN' j k e ltac:(lia) ltac:(lia) ltac:(lia) ltac:(lia) ltac:(lia) nr ltac:(lia) (le_n _)) as H.
          rewrite rl_end in H. exact H. }
        intros [last more] (u & Hmore & Hu & _). cbn [fst snd] in *. subst more. apply gives_quiet.
        apply (row_done k0 j k sn t sub e u e Hst); try assumption; try lia.
        intros x Hx. pose proof (row_range _ _ _ _ _ Hu x Hx). lia.
    + (* the mandatory rule m *)
      rewrite (rl_at m) by lia. rewrite <- (rl_at m) by lia.
      eapply gives_bind; [apply Honce; lia|]. intros [stop inner] Hstop.
      destruct Hstop as [E|(y & Hy & E & Hp)].
      { injection E as -> ->. apply gives_quiet. apply group_fails. lia. }
      cbn [fst snd] in E, Hp. subst stop. rewrite (nd_at y) by lia. rewrite <- (nd_at y) by lia.
      rewrite <- (rl_at j) by lia.
      eapply gives_bind.
      { apply (range_gives f HN' j k y); lia. }
      intros [last more] (u & Hmore & Hu & _). cbn [snd] in Hmore. subst more.
      eapply gives_bind_call; [apply rderef_at; lia|].
      eapply gives_bind_call; [rewrite (nd_at y) by lia; apply next_nd; lia|].
      rewrite rnext_at by lia.
      destruct (add_row k0 j k sn t sub m y u Hst Hk0 ltac:(lia) ltac:(lia) ltac:(lia)
                  (fun x Hx => Hm2 x ltac:(lia)) Hoj Hu) as (A1 & A2 & A3 & A4 & A5).
      assert (Hrm : rep m = false).
      { destruct m as [|m']; [lia|]. cbn [repeated]. destruct (Nat.eq_dec m' j) as [->|].
        - destruct Hoj as [Ho|Hr]; [cbn beta in *; rewrite Ho; cbn [negb]; now rewrite !andb_false_r|].
          destruct (st_rep _ _ _ _ _ _ Hst Hr) as (_ & _ & Hr'). rewrite Hr'. cbn [negb]. now rewrite !andb_false_r.
        - pose proof (Hm2 m' ltac:(lia)) as Ho. cbn beta in *. rewrite Ho. cbn [negb]. now rewrite !andb_false_r. }
      assert (Hsm : repeating m sn = false).
      { destruct (repeating m sn) eqn:Er; [|reflexivity]. apply Hrep_j in Er. lia. }
      destruct (next_state k0 k t u m y inner sub sn A1 A2 A3 A5 A4 ltac:(lia) (Hm3 ltac:(lia)) Hsm Hk0 ltac:(lia) Hp) as [_ Hst'].
      specialize (Hst' Hrm).
      eapply gives_weaken; [apply (IH HN' k0 (S m) (S y) (Some m) _ _ Hlo ltac:(lia) ltac:(lia) ltac:(lia) Hst')|].
      intros x Hx. apply (group_done_less k0 k (S y) x Hx). lia.
  - (* a mandatory rule *)
    apply orb_false_iff in Eb as [Ho Eg].
    assert (Hr : repeating j sn = false).
    { destruct (repeating j sn) eqn:Er; [|reflexivity]. destruct (st_rep _ _ _ _ _ _ Hst Er) as (_ & Hg & _).
      cbn beta in Hg. rewrite Hg in Eg. discriminate. }
    rewrite <- (rl_at j) by lia.
    eapply gives_bind; [apply Honce; lia|]. intros [stop inner] Hstop.
    destruct Hstop as [E|(y & Hy & E & Hp)].
    { injection E as -> ->. apply gives_quiet. apply group_fails. lia. }
    cbn [fst snd] in E, Hp. subst stop. rewrite (nd_at y) by lia.
    eapply gives_bind_call; [apply next_nd; lia|].
    assert (Hd : done j sn = j) by (unfold done; now rewrite Hr).
    destruct (next_state k0 k t [] j y inner sub sn) as [Hs1 Hs2]; rewrite ?app_nil_r in *; cbn [app] in *.
    + exact (st_sorted _ _ _ _ _ _ Hst).
    + intros x Hx. pose proof (st_range _ _ _ _ _ _ Hst x Hx). pose proof (st_place _ _ _ _ _ _ Hst x Hx). rewrite Hd in *.
      repeat split; [lia..|assumption].
    + exact (st_sole _ _ _ _ _ _ Hst).
    + intros a Ha. apply (st_mand _ _ _ _ _ _ Hst); [now rewrite Hd|lia].
    + exact (st_sub _ _ _ _ _ _ Hst).
    + lia.
    + exact Ho.
    + exact Hr.
    + exact Hk0.
    + lia.
    + exact Hp.
    + cbn [in_row map concat app] in Hs1, Hs2.
      destruct (r_greedy (rule_at c j)) eqn:Egr.
      * specialize (Hs1 eq_refl (st_fresh _ _ _ _ _ _ Hst Hr ltac:(lia) Ho Egr)).
        eapply gives_weaken; [apply (IH HN' k0 j (S y) (Some j) _ _ Hlo ltac:(lia) ltac:(lia) ltac:(lia) Hs1)|].
        intros x Hx. apply (group_done_less k0 k (S y) x Hx). lia.
      * assert (Hrj : rep j = false) by (destruct j; cbn [repeated]; rewrite Egr; now rewrite andb_false_r).
        specialize (Hs2 Hrj).
        eapply gives_weaken; [apply (IH HN' k0 (S j) (S y) (Some j) _ _ Hlo ltac:(lia) ltac:(lia) ltac:(lia) Hs2)|].
        intros x Hx. apply (group_done_less k0 k (S y) x Hx). lia.
Qed.

Lemma rule_group_gives f : (forall g, g < f -> node_ok g) -> forall k, lo <= k < hi ->
  gives (rule_group_c W act R D f (Some cp) (nd k)) (group_done k k).
Proof.
  intros HN k Hk. destruct f as [|f]; [apply gives_fuel|]. cbn [rule_group_c].
  assert (Hn : 0 < nr) by apply chain_nonempty.
  assert (H : gives (group_loop_c W act R D f (Some cp) (rl 0) (nd k) []) (group_done k k)).
  { apply (group_loop_gives f (fun g Hg => HN g ltac:(lia)) k 0 k None []); try lia. constructor.
    - constructor.
    - intros x [].
    - intros x [].
    - unfold done. cbn [repeating]. intros; lia.
    - intros x y [].
    - discriminate.
    - discriminate.
    - intros _ _ Ho Hg. cbn [repeated]. cbn beta in *. now rewrite Ho, Hg.
    - reflexivity.
    - reflexivity. }
  rewrite rl_at in H by lia. cbn [address] in H. rewrite (nd_at k) in * by lia. exact H.
Qed.

Notation Groups := (found_groups Found cp c pp).

Lemma groups_none k : Groups k hi [].
Proof. exists []. repeat split; [constructor|intros ? ? []]. Qed.

Lemma groups_less k k' gs : Groups k' hi gs -> k <= k' -> Groups k hi gs.
Proof.
  intros (ts & H1 & H2 & H3 & H4) Hk. exists ts. split; [|split; [exact H2|split; [exact H3|exact H4]]].
  eapply Forall_impl; [|exact H1]. intros t (A1 & A2 & A3 & A4). split; [exact A1|]. split; [exact A2|]. split; [|exact A4].
  intros x Hx. specialize (A3 x Hx). lia.
Qed.

Lemma groups_add k k' t gs : group_shape c k hi t -> (forall y, In y t -> place y /\ node_no y < k') -> k <= k' ->
  Groups k' hi gs -> Groups k hi (arranged c cp pp None [] t :: gs).
Proof.
  intros Ht Hy Hk Hg. pose proof (groups_less k k' gs Hg Hk) as (ts0 & HF & _).
  destruct Hg as (ts & H1 & H2 & H3 & ->). exists (t :: ts). split; [|split; [|split]].
  - constructor; [exact Ht|]. eapply Forall_impl; [|exact H1]. intros u (A1 & A2 & A3 & A4). split; [exact A1|].
    split; [exact A2|]. split; [|exact A4]. intros x Hx. specialize (A3 x Hx). lia.
  - split; [|exact H2]. intros u x y Hu Hx Hy'. rewrite Forall_forall in H1. destruct (H1 u Hu) as (_ & _ & A3 & _).
    specialize (A3 y Hy'). destruct (Hy x Hx). lia.
  - intros u x [<-|Hu] Hx; [now apply Hy|now apply (H3 u)].
  - reflexivity.
Qed.

Lemma arranged_some t : t <> [] -> forall sn gap, arranged c cp pp sn gap t <> [].
Proof.
  assert (H : forall t sn gap, gap <> [] -> arranged c cp pp sn gap t <> []).
  { clear t. induction t as [|[j i m] t IH]; intros sn gap Hg; [exact Hg|]. cbn [arranged].
    destruct (negb _ && negb _).
    - destruct m; [destruct gap; [now destruct Hg|discriminate]|discriminate].
    - apply IH. destruct gap; [now destruct Hg|discriminate]. }
  destruct t as [|[j i m] t]; [congruence|]. intros _ sn gap. cbn [arranged]. destruct (negb _ && negb _).
  - destruct m, gap; discriminate.
  - apply H. destruct gap, m; discriminate.
Qed.

Lemma save_groups_gives f : (forall g, g < f -> node_ok g) -> forall k, lo <= k <= hi ->
  gives (save_groups_c W act R D f cp (nd k)) (Groups k hi).
Proof.
  induction f as [|f IH]; intros HN k Hk; [apply gives_fuel|]. cbn [save_groups_c].
  destruct (Nat.eq_dec k hi) as [->|Hn].
  { rewrite (nd_end hi) by lia. apply gives_quiet. apply groups_none. }
  rewrite (nd_at k) by lia. rewrite <- (nd_at k) by lia.
  eapply gives_bind; [apply (rule_group_gives f (fun g Hg => HN g ltac:(lia))); lia|].
  intros [next sub] (k' & Hk' & Hx & Hsub). cbn [fst snd] in *. subst next.
  eapply gives_bind; [apply (IH (fun g Hg => HN g ltac:(lia)) k'); lia|].
  intros gs Hgs. apply gives_quiet. destruct Hsub as [->|(t & Ht & Hy & ->)]; [apply (groups_less k k' gs Hgs); lia|].
  pose proof (arranged_some t (proj1 Ht) None []) as Hne. pose proof (groups_add k k' t gs Ht Hy ltac:(lia) Hgs) as Hadd.
  destruct (arranged c cp pp None [] t); [now destruct Hne|exact Hadd].
Qed.

Lemma mandatory_found m : first_from 0 nr m -> mandatory_of c <> [] -> m < nr.
Proof.
  intros (H1 & H2 & H3) Hne. destruct (Nat.eq_dec m nr) as [->|]; [|lia]. exfalso. apply Hne.
  unfold mandatory_of. rewrite chain_seq, filter_map_comm. replace (filter _ (seq 0 nr)) with (@nil nat); [reflexivity|].
  symmetry. destruct (filter _ (seq 0 nr)) as [|a l] eqn:E; [reflexivity|exfalso].
  assert (Ha : In a (a :: l)) by now left. rewrite <- E in Ha. apply filter_In in Ha as [Ha Hm]. apply in_seq in Ha.
  unfold is_mandatory in Hm. rewrite (H2 a) in Hm by lia. discriminate.
Qed.

Lemma child_loop_gives f : (forall g, g < f -> node_ok g) -> forall k, lo <= k < hi ->
  gives (child_loop_c W act R D f cp (k :: pp))
    (fun x => exists gs, Groups k hi gs /\ snd x = concat gs /\ (fst x = true -> mandatory_of c <> [] -> gs <> [])).
Proof.
  induction f as [|f IH]; intros HN k Hk; [apply gives_fuel|]. cbn [child_loop_c].
  pose proof (rule_group_gives f (fun g Hg => HN g ltac:(lia)) k Hk) as Hgroup. rewrite (nd_at k) in Hgroup by lia.
  eapply gives_bind; [exact Hgroup|].
  intros [next sub] (k' & Hk' & Hx & Hsub). cbn [fst snd] in *. subst next.
  assert (Hn : 0 < nr) by apply chain_nonempty.
  destruct (first_from_exists nr nr 0 ltac:(lia)) as [m Hm].
  eapply gives_bind_call.
  { replace (Some cp) with (rl 0) by (rewrite rl_at by lia; reflexivity). rewrite <- rl_end.
    apply (FindMandatory_at 0 nr m); [lia|lia|exact Hm]. }
  assert (Hone : forall gs, Groups k' hi gs -> exists gs', Groups k hi gs' /\ concat gs' = sub ++ concat gs /\
      (negb (Nat.eqb (length sub) 0) || negb (is_some (rl m)) = true -> mandatory_of c <> [] -> gs' <> []) /\
      (gs <> [] -> gs' <> [])).
  { intros gs Hgs. destruct Hsub as [->|(t & Ht & Hy & ->)].
    - exists gs. split; [apply (groups_less k k' gs Hgs); lia|]. split; [reflexivity|]. split; [|auto].
      cbn [length Nat.eqb negb orb]. intros H Hne. rewrite (rl_at m) in H by now apply mandatory_found. discriminate.
    - exists (arranged c cp pp None [] t :: gs). split; [apply (groups_add k k' t gs Ht Hy); [lia|exact Hgs]|].
      split; [reflexivity|]. split; intros; discriminate. }
  destruct (Nat.eq_dec k' hi) as [->|Hkn].
  - rewrite (nd_end hi) by lia. apply gives_quiet. destruct (Hone [] (groups_none hi)) as (gs & G1 & G2 & G3 & _).
    exists gs. cbn [fst snd]. split; [exact G1|]. split; [now rewrite G2, app_nil_r|exact G3].
  - rewrite (nd_at k') by lia.
    eapply gives_bind; [apply (IH (fun g Hg => HN g ltac:(lia)) k'); lia|].
    intros [m' rest] (gs & Hgs & Hr & Hmand). cbn [fst snd] in *. subst rest. apply gives_quiet.
    destruct (Hone gs Hgs) as (gs' & G1 & G2 & G3 & G4). exists gs'. cbn [fst snd]. split; [exact G1|]. split; [now symmetry|].
    intros Hb Hne. apply orb_true_iff in Hb as [Hb|Hb]; [now apply G3|]. apply G4. now apply Hmand.
Qed.

End List_of_siblings.

(** ** The functions that call each other *)

Lemma list_ok pp par i : nget D pp = Some par -> i < length (children_of par) -> forall k, i <= k < i + siblings_seen par i ->
  (exists t, nget D (k :: pp) = Some t) /\
  NextNode D (Some (k :: pp)) = Ok (if Nat.ltb (S k) (i + siblings_seen par i) then Some (S k :: pp) else None).
Proof.
  intros Hp Hi k Hk.
  assert (Hlt : k < length (children_of par)) by (unfold siblings_seen in Hk; destruct (is_element par); lia).
  assert (Ht : exists t, nget D (k :: pp) = Some t).
  { cbn [nget]. rewrite Hp. destruct (nth_error (children_of par) k) eqn:E; [eauto|]. apply nth_error_None in E. lia. }
  split; [exact Ht|]. destruct Ht as [t Ht]. unfold NextNode, deref. rewrite Ht. cbn [obind]. rewrite Hp. cbn [obind].
  unfold siblings_seen in *. destruct (is_element par).
  - replace (i + (length (children_of par) - i)) with (length (children_of par)) by lia. now destruct (Nat.ltb _ _).
  - destruct (Nat.ltb_spec (S k) (i + 1)); [lia|reflexivity].
Qed.

Definition found_from (rp : rpath) (c : rule) (i : nat) (pp : npath) (par : node) (gs : list MatchingNodes) : Prop :=
  exists g0 gs', found_groups Found rp c pp i (i + siblings_seen par i) g0 /\
    found_groups_in D Found rp c (elements_from D pp i (siblings_seen par i)) gs' /\ gs = g0 ++ gs'.

Definition save_ok (f : nat) : Prop := forall rp r i pp par,
  rget R rp = Some r -> nget D pp = Some par -> i < length (children_of par) ->
  gives (save_c W act R D f (Some rp) (Some (i :: pp))) (found_from rp r i pp par).

Lemma in_app rp c qs qs' gs gs' : found_groups_in D Found rp c qs gs -> found_groups_in D Found rp c qs' gs' ->
  found_groups_in D Found rp c (qs ++ qs') (gs ++ gs').
Proof.
  intros (a & Ha & ->) (b & Hb & ->). exists (a ++ b). split; [now apply Forall2_app|]. now rewrite concat_app.
Qed.

Lemma elements_kids p t : nget D p = Some t -> is_element t = true ->
  elements t p = p :: elements_from D p 0 (length (children_of t)).
Proof.
  intros Hp He. rewrite elements_unfold. destruct t as [|tg o a cs| | | | |]; try discriminate. cbn [children_of]. f_equal.
  apply elements_list_from. intros j x Hj. cbn [plus]. cbn [nget]. rewrite Hp. exact Hj.
Qed.

Lemma found_from_elements rp c p t gs : nget D p = Some t -> is_element t = true -> found_from rp c 0 p t gs ->
  found_groups_in D Found rp c (elements t p) gs.
Proof.
  intros Hp He (g0 & gs' & H0 & (gss & HF & ->) & ->). rewrite (elements_kids p t Hp He).
  unfold siblings_seen in *. rewrite He in *. rewrite Nat.sub_0_r in *. cbn [plus] in H0.
  exists (g0 :: gss). split; [|reflexivity]. constructor; [|exact HF]. unfold child_count. now rewrite Hp.
Qed.

Lemma below_gives rp r pp par i : rget R rp = Some r -> nget D pp = Some par -> i < length (children_of par) ->
  forall f, (forall g, g < f -> save_ok g) -> forall k, i <= k < i + siblings_seen par i ->
  gives (save_below_c W act R D f rp (k :: pp))
    (found_groups_in D Found rp r (elements_from D pp k (i + siblings_seen par i - k))).
Proof.
  intros Hr Hp Hi. induction f as [|f IH]; intros HS k Hk; [apply gives_fuel|]. cbn [save_below_c].
  destruct (list_ok pp par i Hp Hi k Hk) as [[t Ht] Hnx].
  eapply gives_bind_call; [unfold deref; rewrite Ht; reflexivity|].
  eapply gives_bind with (P := found_groups_in D Found rp r (elements t (k :: pp))).
  - destruct (is_element t) eqn:He; cbn [andb].
    + destruct (Nat.eqb_spec (length (children_of t)) 0) as [E|E]; cbn [negb].
      * apply gives_quiet. rewrite (elements_kids _ t Ht He). rewrite E. exists [[]]. split; [|reflexivity].
        constructor; [|constructor]. unfold child_count. rewrite Ht, E. exists []. repeat split; [constructor|intros ? ? []].
      * eapply gives_weaken; [apply (HS f ltac:(lia) rp r 0 (k :: pp) t Hr Ht ltac:(lia))|].
        intros gs Hgs. now apply found_from_elements.
    + apply gives_quiet. replace (elements t (k :: pp)) with (@nil npath) by (destruct t; [reflexivity|discriminate|reflexivity..]).
      exists []. split; [constructor|reflexivity].
  - intros here Hhere. eapply gives_bind_call; [exact Hnx|].
    assert (Hcut : elements_from D pp k (i + siblings_seen par i - k) =
              elements t (k :: pp) ++ elements_from D pp (S k) (i + siblings_seen par i - S k)).
    { replace (i + siblings_seen par i - k) with (S (i + siblings_seen par i - S k)) by lia.
      unfold elements_from. cbn [seq flat_map]. now rewrite Ht. }
    destruct (Nat.ltb_spec (S k) (i + siblings_seen par i)) as [Hlt|Hge].
    + eapply gives_bind; [apply (IH (fun g Hg => HS g ltac:(lia)) (S k)); lia|].
      intros rest Hrest. apply gives_quiet. rewrite Hcut. now apply in_app.
    + apply gives_quiet. rewrite Hcut. replace (i + siblings_seen par i - S k) with 0 by lia.
      unfold elements_from at 1. cbn [seq flat_map]. rewrite app_nil_r. exact Hhere.
Qed.

Lemma save_gives f : (forall g, g < f -> node_ok g) -> (forall g, g < f -> save_ok g) -> save_ok f.
Proof.
  intros HN HS rp r i pp par Hr Hp Hi. destruct f as [|f]; [apply gives_fuel|]. cbn [save_c].
  eapply gives_bind; [apply gives_tick with (Q := fun _ => True); exact I|]. intros _ _.
  assert (Hlen : 0 < siblings_seen par i) by (unfold siblings_seen; destruct (is_element par); lia).
  eapply gives_bind with (P := found_groups Found rp r pp i (i + siblings_seen par i)).
  - replace (Some (i :: pp)) with (nd pp (i + siblings_seen par i) i) by (apply nd_at; lia).
    apply (save_groups_gives rp r Hr pp i (i + siblings_seen par i)
             (fun k Hk => proj1 (list_ok pp par i Hp Hi k Hk)) (fun k Hk => proj2 (list_ok pp par i Hp Hi k Hk)) f
             (fun g Hg => HN g ltac:(lia))). lia.
  - intros g0 Hg0. eapply gives_bind; [apply (below_gives rp r pp par i Hr Hp Hi f (fun g Hg => HS g ltac:(lia)) i); lia|].
    intros gs' Hgs'. apply gives_quiet. exists g0, gs'. split; [exact Hg0|]. split; [|reflexivity].
    now replace (i + siblings_seen par i - i) with (siblings_seen par i) in Hgs' by lia.
Qed.

Lemma nested_gives rp r p t : rget R rp = Some r -> nget D p = Some t -> is_element t = true -> children_of t <> [] ->
  forall f, (forall g, g < f -> save_ok g) -> forall k, k <= length (r_nested r) ->
  gives (nested_loop_c W act R D f rp k (length (r_nested r)) (0 :: p))
    (fun x => fst x = true -> exists ms, snd x = concat ms /\
       Forall2 (fun kc m => exists gs, found_groups_in D Found (RNested (fst kc) :: rp) (snd kc) (elements t p) gs /\
                  m = concat gs /\ (mandatory_of (snd kc) <> [] -> gs <> []))
         (combine (seq k (length (r_nested r) - k)) (skipn k (r_nested r))) ms).
Proof.
  intros Hr Hp He Hne. induction f as [|f IH]; intros HS k Hk; [apply gives_fuel|]. cbn [nested_loop_c].
  destruct (Nat.ltb_spec k (length (r_nested r))) as [Hlt|Hge].
  - destruct (nth_error (r_nested r) k) as [c|] eqn:En; [|apply nth_error_None in En; lia].
    assert (Hc : rget R (RNested k :: rp) = Some c) by (cbn [rget]; now rewrite Hr).
    eapply gives_bind; [apply (HS f ltac:(lia) (RNested k :: rp) c 0 p t Hc Hp)|].
    { destruct (children_of t); [now destruct Hne|cbn [length]; lia]. }
    intros gs Hgs. apply (found_from_elements _ _ _ _ _ Hp He) in Hgs.
    destruct (first_from_exists c (length (chain c)) (length (chain c)) 0 ltac:(lia)) as [m Hm].
    eapply gives_bind_call.
    { replace (Some (RNested k :: rp)) with (rl (RNested k :: rp) c 0) by (rewrite rl_at by apply chain_nonempty; reflexivity).
      rewrite <- (rl_end (RNested k :: rp) c). apply (FindMandatory_at (RNested k :: rp) c Hc 0 (length (chain c)) m); [lia|lia|exact Hm]. }
    destruct (Nat.eqb (length gs) 0 && is_some (rl (RNested k :: rp) c m)) eqn:Eb.
    { apply gives_quiet. discriminate. }
    eapply gives_bind; [apply (IH (fun g Hg => HS g ltac:(lia)) (S k)); lia|].
    intros [m' rest] Hrest. cbn [fst snd] in Hrest. apply gives_quiet. cbn [fst snd]. intros Ht.
    destruct (Hrest Ht) as (ms & -> & HF). exists (concat gs :: ms). split; [reflexivity|].
    replace (length (r_nested r) - k) with (S (length (r_nested r) - S k)) by lia. cbn [seq].
    assert (Hsk : skipn k (r_nested r) = c :: skipn (S k) (r_nested r)).
    { clear - En. revert k En. induction (r_nested r) as [|y l IHl]; intros [|k] En; try discriminate; cbn [skipn nth_error] in *.
      - now injection En as ->.
      - now apply IHl. }
    rewrite Hsk. cbn [combine]. constructor; [|exact HF]. exists gs. cbn [fst snd]. split; [exact Hgs|]. split; [reflexivity|].
    intros Hmc ->. cbn [length Nat.eqb andb] in Eb. rewrite rl_at in Eb by now apply mandatory_found. discriminate.
  - apply gives_quiet. intros _. exists []. split; [reflexivity|]. replace (length (r_nested r) - k) with 0 by lia. constructor.
Qed.

Lemma node_gives f : (forall g, g < f -> node_ok g) -> (forall g, g < f -> save_ok g) -> node_ok f.
Proof.
  intros HN HS rp r p t Hr Hp. destruct f as [|f]; [apply gives_fuel|]. cbn [matches_node_c].
  eapply gives_bind_call; [exact (rderef_ok _ _ _ Hr)|].
  eapply gives_bind_call; [unfold deref; rewrite Hp; reflexivity|].
  eapply gives_bind; [apply (gives_test rp r p t Hr Hp)|]. intros m Hm.
  destruct m; cbn [negb]; [|apply gives_quiet; discriminate]. specialize (Hm eq_refl).
  destruct (negb (is_some (r_child r)) && Nat.eqb (length (r_nested r)) 0) eqn:E1.
  { apply andb_true_iff in E1 as [E1 E2]. apply negb_true_iff in E1. apply Nat.eqb_eq in E2.
    destruct (r_child r) as [c|] eqn:Ec; [discriminate|]. destruct (r_nested r) as [|x l] eqn:El; [|discriminate].
    apply gives_quiet. intros _. cbn [snd]. change (@nil (rpath * npath)) with ([] ++ @concat (rpath * npath) []).
    apply (found_intro R D L rp r p t [] []); auto.
    - rewrite Ec, El. intros [H|H]; now destruct H.
    - rewrite Ec. discriminate.
    - rewrite El. constructor. }
  destruct (negb (is_element t) || Nat.eqb (length (children_of t)) 0) eqn:E2; [apply gives_quiet; discriminate|].
  apply orb_false_iff in E2 as [He Hne]. apply negb_false_iff in He. apply Nat.eqb_neq in Hne.
  assert (Hne' : children_of t <> []) by (intros Z; rewrite Z in Hne; now apply Hne).
  assert (Hcount : child_count D p = length (children_of t)) by (unfold child_count; now rewrite Hp).
  assert (Hseen : 0 + siblings_seen t 0 = length (children_of t)) by (unfold siblings_seen; rewrite He; lia).
  eapply gives_bind with (P := fun x => fst x = true ->
     (r_child r = None -> snd x = []) /\
     (forall c, r_child r = Some c -> exists gs,
        found_groups Found (RChild :: rp) c p 0 (child_count D p) gs /\ snd x = concat gs /\ (mandatory_of c <> [] -> gs <> []))).
  - unfold rchild. destruct (r_child r) as [c|] eqn:Ec.
    + assert (Hc : rget R (RChild :: rp) = Some c) by (cbn [rget]; now rewrite Hr).
      eapply gives_weaken.
      * apply (child_loop_gives (RChild :: rp) c Hc p 0 (0 + siblings_seen t 0)
                 (fun k Hk => proj1 (list_ok p t 0 Hp ltac:(lia) k Hk)) (fun k Hk => proj2 (list_ok p t 0 Hp ltac:(lia) k Hk)) f
                 (fun g Hg => HN g ltac:(lia)) 0). lia.
      * intros [m x] (gs & H1 & H2 & H3). cbn [fst snd] in *. intros ->. split; [discriminate|]. intros c' [= <-].
        exists gs. rewrite Hcount, <- Hseen. split; [exact H1|]. split; [exact H2|]. now apply H3.
    + apply gives_quiet. intros _. split; [reflexivity|discriminate].
  - intros [m child] Hchild. cbn [fst snd] in Hchild. destruct m; cbn [negb]; [|apply gives_quiet; discriminate].
    destruct (Hchild eq_refl) as [C1 C2].
    eapply gives_bind; [apply (nested_gives rp r p t Hr Hp He Hne' f (fun g Hg => HS g ltac:(lia)) 0); lia|].
    intros [m2 nested] Hnested. cbn [fst snd] in Hnested. destruct m2; cbn [negb]; [|apply gives_quiet; discriminate].
    destruct (Hnested eq_refl) as (ms & -> & HF). apply gives_quiet. intros _. cbn [snd].
    rewrite Nat.sub_0_r in HF. cbn [skipn] in HF.
    apply (found_intro R D L rp r p t child ms); auto.
Qed.

Lemma all_ok f : node_ok f /\ save_ok f.
Proof.
  induction f as [f IH] using lt_wf_ind.
  split; [apply node_gives|apply save_gives]; intros g Hg; now apply IH.
Qed.

End Shape.

Lemma search_shape W (act : match_action W) R D i pp t n w gs w' log :
  nget D (i :: pp) = Some t -> search_does act R D (Some (i :: pp)) n w (Ok gs, (w', log)) ->
  search_found R D log i pp gs.
Proof.
  intros Ht [f0 Hf]. specialize (Hf f0 (le_n _)).
  pose proof Ht as Ht'. cbn [nget] in Ht'. destruct (nget D pp) as [par|] eqn:Hp; [|discriminate].
  assert (Hi : i < length (children_of par)) by (apply nth_error_Some; now rewrite Ht').
  pose proof (proj2 (all_ok W act R D log f0) [] R i pp par eq_refl Hp Hi) as H.
  destruct (save_c W act R D f0 (Some []) (Some (i :: pp)) n w) as [o [w1 log1]] eqn:E.
  destruct o as [[gs1 n1]|e|u|]; cbn [obind fst] in Hf; try discriminate. injection Hf as -> -> ->.
  destruct (gives_ok _ _ _ _ _ _ _ _ _ _ _ H E (fun z Hz => Hz)) as (g0 & gs' & H0 & H1 & ->). exists par, g0, gs'. auto.
Qed.
