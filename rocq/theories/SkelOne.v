(** The search with one rule: which pairs belong to mandatory rules. *)

From Coq Require Import Ascii String Arith NArith ZArith Bool List Lia.
From Verif Require Import Base Tags Dom Values Match Rule RuleMatching MatchSem MatchRefine MatchSpec MatchProofs ExtractSpec RewriteSpec SkelSpec.
Import ListNotations.

(** *** All pairs of a search have a property *)

Section All.
Variable P : rpath * npath -> Prop.

Definition fits (cr : crule) (x : item) : Prop :=
  P (fst cr, it_path x) /\ forall m, it_eval x (fst cr) (snd cr) = Some m -> Forall P m.
Definition all_fit (rules : list crule) (ns : list item) : Prop := forall cr x, In cr rules -> In x ns -> fits cr x.

Lemma fit_sub rules rules' ns ns' : all_fit rules ns -> incl rules' rules -> incl ns' ns -> all_fit rules' ns'.
Proof. intros H H1 H2 cr x Hc Hx. apply H; auto. Qed.

Lemma once_fit cr ns pre y inner rest : once cr ns = Some (pre, y, inner, rest) -> all_fit [cr] ns -> P (fst cr, it_path y) /\ Forall P inner.
Proof.
  intros H HF. pose proof (once_eq cr ns) as O. rewrite H in O. destruct O as (-> & O & _).
  destruct (HF cr y) as [H1 H2]; [now left|apply in_or_app; right; now left|]. split; [exact H1|now apply H2].
Qed.

Lemma greedy_fit cr ns m rest : all_greedy cr ns = Some (m, rest) -> all_fit [cr] ns -> Forall P m.
Proof.
  revert m rest. induction ns as [|x ns IH]; intros m rest H HF; cbn [all_greedy] in H; [discriminate|].
  assert (HF' : all_fit [cr] ns) by (apply (fit_sub _ _ _ _ HF); [apply incl_refl|apply incl_tl, incl_refl]).
  destruct (HF cr x) as [H1 H2]; [now left|now left|].
  destruct (it_eval x (fst cr) (snd cr)) as [i|]; destruct (all_greedy cr ns) as [[m' r']|]; try discriminate.
  - injection H as <- _. apply Forall_app. split; [now apply H2|]. apply Forall_cons; [exact H1|exact (IH m' r' eq_refl HF')].
  - injection H as <- _. apply Forall_app. split; [now apply H2|]. now constructor.
  - exact (IH m rest H HF').
Qed.

Lemma incl_head {A} (x : A) l : incl [x] (x :: l).
Proof. intros y [<-|[]]. now left. Qed.

Lemma range_fit rs : forall ns la, all_fit rs ns -> Forall P (snd (range rs ns la)).
Proof.
  induction rs as [|cr rs IH]; intros ns la HF; cbn [range]; [constructor|].
  assert (HT : forall ns', incl ns' ns -> all_fit rs ns') by (intros ns' Hi; apply (fit_sub _ _ _ _ HF); [apply incl_tl, incl_refl|exact Hi]).
  assert (H1 : all_fit [cr] ns) by (apply (fit_sub _ _ _ _ HF); [apply incl_head|apply incl_refl]).
  destruct (r_greedy (snd cr)).
  - pose proof (all_greedy_eq cr ns) as E. destruct (all_greedy cr ns) as [[m rest]|] eqn:G; [|apply IH, HT, incl_refl].
    destruct E as [pre E]. specialize (IH rest None (HT rest ltac:(rewrite E; apply incl_appr, incl_refl))).
    destruct (range rs rest None). cbn [snd] in *. apply Forall_app. split; [exact (greedy_fit cr ns m rest G H1)|exact IH].
  - destruct (once cr ns) as [[[[pre y] inner] rest]|] eqn:O; [|apply IH, HT, incl_refl].
    destruct (once_fit cr ns _ _ _ _ O H1) as [H2 H3]. apply once_app in O.
    specialize (IH rest (Some rest) (HT rest ltac:(rewrite O; apply incl_appr, incl_tl, incl_refl))).
    destruct (range rs rest (Some rest)). cbn [snd] in *. apply Forall_app. split; [exact H3|]. now apply Forall_cons.
Qed.

Lemma find_mand_split rs : match find_mand rs with
  | Some (pre, m, post) => rs = pre ++ m :: post /\ mandatory m = true /\ Forall (fun cr => mandatory cr = false) pre
  | None => Forall (fun cr => mandatory cr = false) rs
  end.
Proof.
  induction rs as [|cr rs IH]; cbn [find_mand]; [constructor|]. destruct (mandatory cr) eqn:Em; [repeat split; auto|].
  destruct (find_mand rs) as [[[pre m] post]|]; [|now constructor]. destruct IH as (-> & H1 & H2). repeat split; auto.
Qed.

Lemma group_fit all k : forall fm again rules ns sub, incl rules all -> (forall m, fm = Some m -> In m all) -> all_fit all ns -> Forall P sub ->
  Forall P (snd (group k fm again rules ns sub)).
Proof.
  induction k as [|k IH]; intros fm again rules ns sub Hi Hf HF Hs.
  - destruct rules as [|cr rs]; [|destruct ns]; cbn [group]; [| |constructor];
      match goal with |- context [find_mand ?l] => destruct (find_mand l) as [[[? ?] ?]|] end; solve [constructor | exact Hs].
  - destruct rules as [|cr rs]; [|destruct ns as [|x ns]]; cbn [group];
      [match goal with |- context [find_mand ?l] => destruct (find_mand l) as [[[? ?] ?]|] end; solve [constructor | exact Hs]..|].
    assert (Hc : In cr all) by (apply Hi; now left).
    assert (Hone : forall c, In c all -> all_fit [c] (x :: ns)) by (intros c Hc0; apply (fit_sub _ _ _ _ HF); [intros y [<-|[]]; exact Hc0|apply incl_refl]).
    assert (Hsub : forall l pre y rest, incl l all -> x :: ns = pre ++ y :: rest -> all_fit l pre).
    { intros l pre y rest Hl E. apply (fit_sub _ _ _ _ HF); [exact Hl|rewrite E; apply incl_appl, incl_refl]. }
    assert (Hrest : forall pre y rest, x :: ns = pre ++ y :: rest -> all_fit all rest).
    { intros pre y rest E. apply (fit_sub _ _ _ _ HF); [apply incl_refl|rewrite E; apply incl_appr, incl_tl, incl_refl]. }
    destruct (r_optional (snd cr) || again).
    + pose proof (find_mand_split rs) as FM. destruct (find_mand rs) as [[[between stop] after]|].
      * destruct FM as (FM & _). assert (Hst : In stop all) by (apply Hi; right; rewrite FM; apply in_or_app; right; now left).
        destruct (once stop (x :: ns)) as [[[[pre y] inner] rest]|] eqn:O; [|constructor].
        destruct (once_fit stop _ _ _ _ _ O (Hone stop Hst)) as [O1 O2]. apply once_app in O. apply IH.
        -- intros z Hz. apply Hi. right. rewrite FM. apply in_or_app. right. now right.
        -- intros m Hm. destruct again, fm; cbn in Hm; injection Hm as <-; auto.
        -- exact (Hrest _ _ _ O).
        -- apply Forall_app. split; [exact Hs|]. apply Forall_app. split; [exact O2|]. apply Forall_app. split; [|now constructor].
           apply range_fit. apply (Hsub _ pre y rest); [|exact O]. intros z [<-|Hz]; [exact Hc|]. apply Hi. right. rewrite FM. apply in_or_app. now left.
      * destruct fm as [stop|].
        -- destruct (once stop (x :: ns)) as [[[[pre y] inner] rest]|] eqn:O; cbn [snd]; apply Forall_app; (split; [exact Hs|]); apply range_fit.
           ++ apply once_app in O. now apply (Hsub _ pre y rest).
           ++ apply (fit_sub _ _ _ _ HF); [exact Hi|apply incl_refl].
        -- pose proof (range_fit (cr :: rs) (x :: ns) None) as HR. destruct (range (cr :: rs) (x :: ns) None). cbn [snd] in *. apply Forall_app.
           split; [exact Hs|]. apply HR. apply (fit_sub _ _ _ _ HF); [exact Hi|apply incl_refl].
    + destruct (once cr (x :: ns)) as [[[[pre y] inner] rest]|] eqn:O; [|constructor].
      destruct (once_fit cr _ _ _ _ _ O (Hone cr Hc)) as [O1 O2]. apply once_app in O.
      assert (Hp : Forall P (sub ++ inner ++ [(fst cr, it_path y)])).
      { apply Forall_app. split; [exact Hs|]. apply Forall_app. split; [exact O2|now constructor]. }
      destruct (r_greedy (snd cr)); apply IH; try exact Hp; try exact (Hrest _ _ _ O); try exact Hi; try exact Hf.
      * intros z Hz. apply Hi. now right.
      * intros m Hm. destruct fm; cbn in Hm; injection Hm as <-; auto.
Qed.

Lemma groups_fit rules ns : all_fit rules ns -> Forall (Forall P) (groups rules ns).
Proof.
  unfold groups. generalize (length ns) as k. intros k. revert ns. induction k as [|k IH]; intros ns HF; cbn [groups_k]; [constructor|].
  destruct ns as [|x ns]; [constructor|].
  pose proof (group_fit rules (length (x :: ns)) None false rules (x :: ns) [] (incl_refl _) (fun m H => match H with end) HF (Forall_nil _)) as G.
  destruct (group_suffix (length (x :: ns)) None false rules (x :: ns) []) as [l S].
  destruct (group (length (x :: ns)) None false rules (x :: ns) []) as [next sub]. cbn [fst snd] in *.
  assert (HN : all_fit rules next) by (apply (fit_sub _ _ _ _ HF); [apply incl_refl|rewrite S; apply incl_appr, incl_refl]).
  specialize (IH next HN). destruct sub; [exact IH|]. now constructor.
Qed.

End All.

Lemma Forall_concat {A} (P : A -> Prop) ls : Forall (Forall P) ls -> Forall P (concat ls).
Proof. induction 1; cbn [concat]; [constructor|]. apply Forall_app. now split. Qed.

(** *** Addresses of pairs *)

(** Pairs found below a node for the rule at [rp]; pairs of a row of rules. *)
Definition under (rp : rpath) (x : rpath * npath) : Prop := exists q st, fst x = q ++ st :: rp /\ st <> RNext.
Definition within (rp : rpath) (x : rpath * npath) : Prop := exists q, fst x = q ++ rp.

Section Tree.
Variable T : rule.

Definition idle (x : rpath * npath) : Prop := essential T (fst x) = false.
Definition known (cr : crule) : Prop := rget T (fst cr) = Some (snd cr).

Definition quiet (x : item) : Prop :=
  (forall rp r m, it_eval x rp r = Some m -> Forall (under rp) m) /\
  (forall rp r, Forall (Forall (within rp)) (it_below x rp r)) /\
  (forall rp r, rget T rp = Some r -> mandatory_of r = [] -> Forall (Forall idle) (it_below x rp r)).

Lemma chain_within rp r (cr : crule) : In cr (chain_of rp r) -> exists q, fst cr = q ++ rp.
Proof.
  revert rp. induction r as [r IH] using rule_next_ind; intros rp. rewrite chain_of_eq. intros [<-|H]; [now exists []|].
  destruct (r_next r) as [n|] eqn:En; [|destruct H]. destruct (IH n eq_refl _ H) as [q Hq]. exists (q ++ [RNext]). now rewrite <- app_assoc.
Qed.

Lemma under_within rp (cr : crule) x : (exists q, fst cr = q ++ rp) -> under (fst cr) x -> within rp x.
Proof. intros [q Hq] (q' & st & Hx & _). exists (q' ++ st :: q). rewrite Hx, Hq, <- app_assoc. reflexivity. Qed.

Lemma row_within rp r ns : Forall quiet ns -> all_fit (within rp) (chain_of rp r) ns.
Proof.
  intros Hn cr x Hc Hx. pose proof (chain_within rp r cr Hc) as Hq. split; [exact Hq|]. intros m Hm.
  rewrite Forall_forall in Hn. destruct (Hn x Hx) as (H & _). eapply Forall_impl; [|exact (H _ _ _ Hm)]. intros y Hy. now apply (under_within rp cr).
Qed.

Lemma owners_under q : forall st rp, st <> RNext -> owners_mandatory T (q ++ st :: rp) = true -> essential T rp = true.
Proof.
  induction q as [|st' q IH]; intros st rp Hst H; cbn [app owners_mandatory] in H.
  - destruct st; [exact H|congruence|exact H].
  - destruct st'; [apply andb_true_iff in H as [_ H]|..|apply andb_true_iff in H as [_ H]]; exact (IH st rp Hst H).
Qed.

Lemma under_idle rp x : mandatory_at T rp = false -> under rp x -> idle x.
Proof.
  intros Hm (q & st & Hx & Hst). unfold idle, essential. destruct (owners_mandatory T (fst x)) eqn:Eo; [|apply andb_false_r].
  rewrite Hx in Eo. pose proof (owners_under q st rp Hst Eo) as H. unfold essential in H. rewrite Hm in H. discriminate H.
Qed.

Lemma known_mandatory cr : known cr -> mandatory_at T (fst cr) = mandatory cr.
Proof. intros H. unfold mandatory_at. rewrite H. reflexivity. Qed.

(** Optional rules find nothing essential. *)
Lemma optional_idle rs ns : Forall known rs -> Forall (fun cr => mandatory cr = false) rs -> Forall quiet ns -> all_fit idle rs ns.
Proof.
  intros Hk Ho Hn cr x Hc Hx. rewrite Forall_forall in *. pose proof (known_mandatory cr (Hk cr Hc)) as HM. rewrite (Ho cr Hc) in HM. split.
  - unfold idle, essential. cbn [fst]. now rewrite HM.
  - intros m Hm. destruct (Hn x Hx) as (H & _). eapply Forall_impl; [|exact (H _ _ _ Hm)]. intros y. now apply under_idle.
Qed.

Lemma row_known rp r : rget T rp = Some r -> Forall known (chain_of rp r).
Proof. apply chain_of_rget. Qed.

Lemma row_optional rp r : mandatory_of r = [] -> Forall (fun cr => mandatory cr = false) (chain_of rp r).
Proof.
  unfold mandatory_of. rewrite <- (chain_of_snd r rp). intros H. apply Forall_forall. intros cr Hc. unfold mandatory.
  destruct (r_optional (snd cr)) eqn:Eo; [reflexivity|]. assert (X : In (snd cr) (filter is_mandatory (map snd (chain_of rp r)))).
  { apply filter_In. split; [now apply in_map|]. unfold is_mandatory. now rewrite Eo. }
  rewrite H in X. destruct X.
Qed.

Lemma groups_idle rp r ns : rget T rp = Some r -> mandatory_of r = [] -> Forall quiet ns -> Forall (Forall idle) (groups (chain_of rp r) ns).
Proof. intros Hr Hm Hn. apply groups_fit, optional_idle; [now apply row_known|now apply row_optional|exact Hn]. Qed.

Lemma save_idle rp r ns : rget T rp = Some r -> mandatory_of r = [] -> Forall quiet ns -> Forall (Forall idle) (save ns rp r).
Proof.
  intros Hr Hm Hn. unfold save. apply Forall_app. split; [now apply groups_idle|]. apply Forall_concat. apply Forall_forall.
  intros gs Hgs. apply in_map_iff in Hgs as (x & <- & Hx). rewrite Forall_forall in Hn. now apply (Hn x Hx).
Qed.

Lemma save_within rp r ns : Forall quiet ns -> Forall (Forall (within rp)) (save ns rp r).
Proof.
  intros Hn. unfold save. apply Forall_app. split; [now apply groups_fit, row_within|]. apply Forall_concat. apply Forall_forall.
  intros gs Hgs. apply in_map_iff in Hgs as (x & <- & Hx). rewrite Forall_forall in Hn. now apply (Hn x Hx).
Qed.

Lemma within_under st rp x : st <> RNext -> within (st :: rp) x -> under rp x.
Proof. intros Hst [q Hq]. now exists q, st. Qed.

Lemma child_under kids rp r m : Forall quiet kids -> child_part kids rp r = Some m -> Forall (under rp) m.
Proof.
  intros Hk. unfold child_part. destruct (r_child r) as [c|]; [|intros [= <-]; constructor]. destruct (_ && _); [discriminate|].
  intros [= <-]. apply Forall_concat. eapply Forall_impl; [|exact (groups_fit _ _ _ (row_within (RChild :: rp) c kids Hk))].
  intros g Hg. eapply Forall_impl; [|exact Hg]. intros x. now apply within_under.
Qed.

Lemma nested_under kids rp l : Forall quiet kids -> forall k m, nested_part kids rp k l = Some m -> Forall (under rp) m.
Proof.
  intros Hk. induction l as [|nr l IH]; intros k m; cbn [nested_part]; [intros [= <-]; constructor|]. destruct (_ && _); [discriminate|].
  destruct (nested_part kids rp (S k) l) as [m'|] eqn:En; [|discriminate]. intros [= <-]. apply Forall_app. split; [|exact (IH _ _ En)].
  apply Forall_concat. eapply Forall_impl; [|exact (save_within (RNested k :: rp) nr kids Hk)].
  intros g Hg. eapply Forall_impl; [|exact Hg]. intros x. now apply within_under.
Qed.

Lemma eval_under b p kids rp r m : Forall quiet kids -> eval_at b p kids rp r = Some m -> Forall (under rp) m.
Proof.
  intros Hk. unfold eval_at. destruct (b r p); [|discriminate].
  assert (X : match kids with [] => None | _ => match child_part kids rp r with None => None | Some m1 => match nested_part kids rp 0 (r_nested r) with None => None | Some m2 => Some (m1 ++ m2) end end end = Some m -> Forall (under rp) m).
  { destruct kids as [|x kids]; [discriminate|]. destruct (child_part (x :: kids) rp r) as [m1|] eqn:E1; [|discriminate].
    destruct (nested_part (x :: kids) rp 0 (r_nested r)) as [m2|] eqn:E2; [|discriminate]. intros [= <-]. apply Forall_app.
    split; [exact (child_under _ _ _ _ Hk E1)|exact (nested_under _ _ _ Hk _ _ E2)]. }
  destruct (r_child r); [exact X|]. destruct (r_nested r); [intros [= <-]; constructor|exact X].
Qed.

Lemma sem_quiet b t : forall p, quiet (sem b t p).
Proof.
  induction t as [t IH] using node_ind2. intros p.
  assert (HK : Forall quiet (kids_of b t p)).
  { destruct t as [|t' orig attrs cs| | | | |]; try constructor. cbn [kids_of children_of] in *. clear - IH. generalize 0 as i. induction IH as [|c l Hc _ IHl]; intros i; cbn [sem_list]; constructor; [apply Hc|apply IHl]. }
  rewrite sem_unfold. unfold quiet. cbn [it_eval it_below]. split; [|split].
  - intros rp r m. now apply eval_under.
  - intros rp r. destruct t as [|t' orig attrs cs| | | | |]; try constructor. now apply save_within.
  - intros rp r Hr Hm. destruct t as [|t' orig attrs cs| | | | |]; try constructor. now apply save_idle.
Qed.

(** *** Steps of a group *)

Definition ep (m : MatchingNodes) : MatchingNodes := essential_pairs T m.
Lemma ep_app m m' : ep (m ++ m') = ep m ++ ep m'.
Proof. apply filter_app. Qed.
Lemma ep_idle m : Forall idle m -> ep m = [].
Proof. induction 1 as [|x m Hx _ IH]; [reflexivity|]. unfold ep, essential_pairs in *. cbn [filter]. rewrite Hx. exact IH. Qed.

Definition norm (m : crule) (ns : list item) : list item := match once m ns with Some (_, y, _, rest) => y :: rest | None => [] end.

Lemma norm_start m ns pre y inner rest : once m ns = Some (pre, y, inner, rest) -> norm m (y :: rest) = norm m ns.
Proof.
  intros H. unfold norm. rewrite H. cbn [once]. pose proof (once_eq m ns) as O. rewrite H in O. destruct O as (_ & O & _). now rewrite O.
Qed.
Lemma norm_none m ns : Forall (fun x => it_eval x (fst m) (snd m) = None) ns -> norm m ns = [].
Proof.
  intros H. unfold norm. destruct (once m ns) as [[[[pre y] inner] rest]|] eqn:O; [|reflexivity].
  pose proof (once_eq m ns) as E. rewrite O in E. destruct E as (-> & E & _). apply Forall_app in H as [_ H]. inversion H; subst. congruence.
Qed.

(** The next mandatory rule. *)
Lemma step_next k fm rules ns sub between stop after : length ns <= k ->
  find_mand rules = Some (between, stop, after) -> (between = [] \/ r_greedy (snd stop) = false) ->
  group k fm false rules ns sub =
  match once stop ns with
  | None => ([], [])
  | Some (pre, y, inner, rest) =>
      if r_greedy (snd stop) then group (pred k) fm true (stop :: after) rest (sub ++ inner ++ [(fst stop, it_path y)])
      else group (pred k) (or_first fm stop) false after rest (sub ++ inner ++ snd (range between pre None) ++ [(fst stop, it_path y)])
  end.
Proof.
  intros Hk HF Hb. destruct rules as [|cr rs]; [discriminate HF|].
  destruct ns as [|x ns]; [destruct k; cbn [group]; rewrite HF; reflexivity|]. destruct k as [|k]; [cbn in Hk; lia|]. cbn [group pred].
  cbn [find_mand] in HF. unfold mandatory in HF. destruct (r_optional (snd cr)) eqn:Eo; cbn [negb orb] in *.
  - destruct (find_mand rs) as [[[bt st] af]|]; [|discriminate HF]. injection HF as <- -> ->. destruct Hb as [Hb|Hb]; [discriminate Hb|]. rewrite Hb.
    destruct (once stop (x :: ns)) as [[[[pre y] inner] rest]|]; reflexivity.
  - injection HF as <- -> ->. destruct (once stop (x :: ns)) as [[[[pre y] inner] rest]|]; [|reflexivity]. destruct (r_greedy (snd stop)); reflexivity.
Qed.

(** No mandatory rule is left. *)
Lemma step_end k m rules ns sub : length ns <= k -> find_mand rules = None -> Forall known rules -> Forall quiet ns ->
  exists next more, group k (Some m) false rules ns sub = (next, sub ++ more) /\ ep more = [] /\ norm m next = norm m ns.
Proof.
  intros Hk HF Hr Hn. pose proof (find_mand_split rules) as FS. rewrite HF in FS.
  assert (HZ : exists next more, (ns, sub) = (next, sub ++ more) /\ ep more = [] /\ norm m next = norm m ns) by (exists ns, []; rewrite app_nil_r; repeat split).
  destruct rules as [|cr rs]; [destruct k; exact HZ|]. destruct ns as [|x ns]; [destruct k; cbn [group]; rewrite HF; exact HZ|].
  destruct k as [|k]; [cbn in Hk; lia|]. cbn [group]. inversion FS as [|? ? Eo FS']; subst. unfold mandatory in Eo. apply negb_false_iff in Eo. rewrite Eo. cbn [orb].
  assert (HN : find_mand rs = None).
  { cbn [find_mand] in HF. unfold mandatory in HF. rewrite Eo in HF. cbn [negb] in HF. destruct (find_mand rs) as [[[? ?] ?]|]; [discriminate HF|reflexivity]. }
  rewrite HN. destruct (once m (x :: ns)) as [[[[pre y] inner] rest]|] eqn:O.
  - exists (y :: rest), (snd (range (cr :: rs) pre None)). split; [reflexivity|]. split; [|exact (norm_start m _ _ _ _ _ O)].
    apply ep_idle, range_fit, optional_idle; [exact Hr|exact FS|]. apply once_app in O. rewrite O in Hn. now apply Forall_app in Hn as [Hn _].
  - exists [], (snd (range (cr :: rs) (x :: ns) None)). split; [reflexivity|]. split; [now apply ep_idle, range_fit, optional_idle|].
    unfold norm. now rewrite O.
Qed.

(** What a greedy rule finds in a segment. *)
Definition repeated (cr : crule) (seg : list item) : MatchingNodes := match all_greedy cr seg with Some (m, _) => m | None => [] end.

Lemma range_repeated (cr : crule) (rs : list crule) seg la : r_greedy (snd cr) = true -> Forall known rs -> Forall (fun cr => mandatory cr = false) rs -> Forall quiet seg ->
  ep (snd (range (cr :: rs) seg la)) = ep (repeated cr seg).
Proof.
  intros Hg Hk Ho Hq. cbn [range]. rewrite Hg. unfold repeated. pose proof (all_greedy_eq cr seg) as E. destruct (all_greedy cr seg) as [[m rest]|].
  - destruct E as [pre E]. assert (Hr : Forall quiet rest) by (rewrite E in Hq; now apply Forall_app in Hq).
    pose proof (range_fit idle rs rest None (optional_idle rs rest Hk Ho Hr)) as HI. destruct (range rs rest None). cbn [snd] in *.
    rewrite ep_app, (ep_idle _ HI). apply app_nil_r.
  - apply ep_idle, range_fit. now apply optional_idle.
Qed.

Lemma greedy_rest cr ns : match all_greedy cr ns with
  | Some (_, rest) => Forall (fun x => it_eval x (fst cr) (snd cr) = None) rest
  | None => Forall (fun x => it_eval x (fst cr) (snd cr) = None) ns end.
Proof.
  induction ns as [|x ns IH]; cbn [all_greedy]; [constructor|].
  destruct (it_eval x (fst cr) (snd cr)) eqn:E; destruct (all_greedy cr ns) as [[mm rest]|]; try exact IH. now constructor.
Qed.

(** A greedy rule that has just matched, and no mandatory rule is left. *)
Lemma again_end k fm (cr : crule) (rs : list crule) ns (sub : MatchingNodes) : length ns <= k -> r_greedy (snd cr) = true -> find_mand rs = None ->
  Forall known rs -> Forall quiet ns ->
  exists next more, group k fm true (cr :: rs) ns sub = (next, sub ++ more) /\
    match fm with
    | None => ep more = ep (repeated cr ns) /\ norm cr next = []
    | Some m => ep more = ep (repeated cr (match once m ns with Some (pre, _, _, _) => pre | None => ns end)) /\ norm m next = norm m ns
    end.
Proof.
  intros Hk Hg HF Hr Hn. pose proof (find_mand_split rs) as FS. rewrite HF in FS. destruct ns as [|x ns].
  { exists [], []. rewrite app_nil_r. split; [destruct k; cbn [group tl]; rewrite HF; reflexivity|]. destruct fm; split; reflexivity. }
  destruct k as [|k]; [cbn in Hk; lia|]. cbn [group]. rewrite orb_true_r, HF. destruct fm as [m|].
  - destruct (once m (x :: ns)) as [[[[pre y] inner] rest]|] eqn:O.
    + exists (y :: rest), (snd (range (cr :: rs) pre None)). split; [reflexivity|]. split; [|exact (norm_start m _ _ _ _ _ O)].
      apply range_repeated; try assumption. apply once_app in O. rewrite O in Hn. now apply Forall_app in Hn as [Hn _].
    + exists [], (snd (range (cr :: rs) (x :: ns) None)). split; [reflexivity|]. split; [now apply range_repeated|]. unfold norm. now rewrite O.
  - pose proof (range_repeated cr rs (x :: ns) None Hg Hr FS Hn) as HR.
    assert (HL : match fst (range (cr :: rs) (x :: ns) None) with Some rest => norm cr rest = [] | None => True end).
    { cbn [range]. rewrite Hg. pose proof (greedy_rest cr (x :: ns)) as GR. destruct (all_greedy cr (x :: ns)) as [[m0 rest]|].
      - pose proof (range_last_app rs rest None) as RL. destruct (range rs rest None) as [l m2]. cbn [fst] in *. destruct l as [l|]; [|exact I].
        destruct (RL l eq_refl) as [F|(q & _ & ->)]; [discriminate F|]. apply norm_none. now apply Forall_app in GR.
      - pose proof (range_last_app rs (x :: ns) None) as RL. destruct (range rs (x :: ns) None) as [l m2]. cbn [fst] in *. destruct l as [l|]; [|exact I].
        destruct (RL l eq_refl) as [F|(q & _ & E)]; [discriminate F|]. apply norm_none. rewrite E in GR. now apply Forall_app in GR. }
    destruct (range (cr :: rs) (x :: ns) None) as [la more]. cbn [fst snd] in *. exists (match la with Some rest => rest | None => [] end), more.
    split; [reflexivity|]. split; [exact HR|]. destruct la; [exact HL|reflexivity].
Qed.

(** A greedy rule that has just matched, and the next mandatory rule. *)
Lemma again_next k fm cr rs ns sub between stop after : length ns <= k -> find_mand rs = Some (between, stop, after) ->
  group k fm true (cr :: rs) ns sub =
  match once stop ns with
  | None => ([], [])
  | Some (pre, y, inner, rest) =>
      group (pred k) (or_first (or_first fm cr) stop) false after rest (sub ++ inner ++ snd (range (cr :: between) pre None) ++ [(fst stop, it_path y)])
  end.
Proof.
  intros Hk HF. destruct ns as [|x ns]; [destruct k; cbn [group tl]; rewrite HF; reflexivity|]. destruct k as [|k]; [cbn in Hk; lia|].
  cbn [group pred]. rewrite orb_true_r, HF. reflexivity.
Qed.

End Tree.
