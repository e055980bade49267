(** The search with two rules that differ in optional rules alone. *)

From Coq Require Import Ascii String Arith NArith ZArith Bool List Lia.
From Verif Require Import Base Tags Dom Values Match Rule RuleMatching MatchSem MatchRefine MatchSpec MatchProofs ExtractSpec RewriteSpec SkelSpec SkelOne.
Import ListNotations.

(** *** Rows of rules *)

Fixpoint free_row (rules : list crule) : Prop :=
  match rules with
  | [] => True
  | a :: rs => match rs with b :: _ => mandatory a = false -> mandatory b = true -> r_greedy (snd b) = false | [] => True end /\ free_row rs
  end.

Lemma free_row_tail a rs : free_row (a :: rs) -> free_row rs.
Proof. intros [_ H]. exact H. Qed.

Lemma free_row_mand rules between stop after : free_row rules -> find_mand rules = Some (between, stop, after) ->
  (between = [] \/ r_greedy (snd stop) = false) /\ free_row after.
Proof.
  revert between stop after. induction rules as [|a rs IH]; intros between stop after HF; cbn [find_mand]; [discriminate|].
  destruct (mandatory a) eqn:Ea; [intros [= <- <- <-]; split; [now left|exact (free_row_tail _ _ HF)]|].
  destruct (find_mand rs) as [[[pre m] post]|] eqn:Ef; [|discriminate]. intros [= <- <- <-].
  destruct (IH pre m post (free_row_tail _ _ HF) eq_refl) as [H1 H2]. split; [|exact H2]. right. destruct H1 as [->|H1]; [|exact H1].
  pose proof (find_mand_split rs) as FS. rewrite Ef in FS. destruct FS as (E & Hm & _). cbn [app] in E. rewrite E in HF. cbn [free_row] in HF. now apply HF.
Qed.

Lemma free_chain T rp r : repeats_freely T -> rget T rp = Some r -> free_row (chain_of rp r).
Proof.
  intros HT. revert rp. induction r as [r IH] using rule_next_ind; intros rp Hr. rewrite chain_of_eq.
  destruct (r_next r) as [n|] eqn:En; [|now split].
  assert (Hn : rget T (RNext :: rp) = Some n) by (cbn [rget]; now rewrite Hr).
  specialize (IH n eq_refl (RNext :: rp) Hn). split; [|exact IH]. rewrite chain_of_eq.
  unfold mandatory. cbn [snd]. intros H1 H2. apply negb_false_iff in H1. apply negb_true_iff in H2. exact (HT rp r n Hr En H1 H2).
Qed.

Lemma chain_owners T rp r cr : In cr (chain_of rp r) -> owners_mandatory T (fst cr) = owners_mandatory T rp.
Proof.
  revert rp. induction r as [r IH] using rule_next_ind; intros rp. rewrite chain_of_eq. intros [<-|H]; [reflexivity|].
  destruct (r_next r) as [n|] eqn:En; [|destruct H]. exact (IH n eq_refl _ H).
Qed.

Lemma chain_addresses r : forall rp, map fst (filter mandatory (chain_of rp r)) = mandatory_addresses rp r.
Proof.
  induction r as [r IH] using rule_next_ind; intros rp. rewrite chain_of_eq. cbn [filter]. unfold mandatory at 1. cbn [snd].
  destruct r as [c n l ms cs t o g name]. cbn [r_next r_optional mandatory_addresses] in *.
  destruct n as [n|]; destruct o; cbn [negb map fst app]; rewrite ?(IH n eq_refl); reflexivity.
Qed.

Lemma chain_mandatory rp r : map snd (filter mandatory (chain_of rp r)) = mandatory_of r.
Proof. unfold mandatory_of. rewrite <- (chain_of_snd r rp), filter_map_comm. reflexivity. Qed.

Section Two.
Variables R R' : rule.
Hypothesis HR : repeats_freely R.
Hypothesis HR' : repeats_freely R'.

Definition krel (cr cr' : crule) : Prop :=
  (known R cr /\ essential R (fst cr) = true) /\ (known R' cr' /\ essential R' (fst cr') = true) /\
  same_core (snd cr) (snd cr') /\ stands_for R R' (fst cr) (fst cr').

Lemma krel_greedy cr cr' : krel cr cr' -> r_greedy (snd cr) = r_greedy (snd cr').
Proof. intros (_ & _ & H & _). now destruct H. Qed.

Definition crel (m m' : MatchingNodes) : Prop := same_essentials R R' m m'.

Lemma crel_app m1 m1' m2 m2' : crel m1 m1' -> crel m2 m2' -> crel (m1 ++ m2) (m1' ++ m2').
Proof. intros H1 H2. unfold crel, same_essentials, essential_pairs in *. rewrite !filter_app. now apply Forall2_app. Qed.
Lemma crel_nil : crel [] [].
Proof. constructor. Qed.
Lemma crel_idle m m' : Forall (idle R) m -> Forall (idle R') m' -> crel m m'.
Proof. intros H H'. unfold crel, same_essentials. change (Forall2 (same_pair R R') (ep R m) (ep R' m')). rewrite (ep_idle R m H), (ep_idle R' m' H'). constructor. Qed.
Lemma crel_pair cr cr' p : krel cr cr' -> crel [(fst cr, p)] [(fst cr', p)].
Proof.
  intros ((_ & H) & (_ & H') & _ & HS). unfold crel, same_essentials, essential_pairs. cbn [filter fst]. rewrite H, H'.
  constructor; [|constructor]. now split.
Qed.
Lemma crel_ep m m' n n' : ep R m = ep R n -> ep R' m' = ep R' n' -> crel n n' -> crel m m'.
Proof. intros H H' HC. unfold crel, same_essentials. unfold ep in *. now rewrite H, H'. Qed.

Definition filled (m : MatchingNodes) : Prop := ep R m <> [].
Lemma filled_pair m cr cr' p : krel cr cr' -> filled (m ++ [(fst cr, p)]).
Proof.
  intros ((_ & H) & _). unfold filled. rewrite ep_app. unfold ep at 2, essential_pairs. cbn [filter fst]. rewrite H. intros E. now apply app_eq_nil in E as [_ E].
Qed.
Lemma filled_app m n : filled m -> filled (m ++ n).
Proof. unfold filled. rewrite ep_app. intros H E. now apply app_eq_nil in E as [E _]. Qed.

(** Two rows of rules with related mandatory rules. *)
Definition row_rel (rp rp' : rpath) (r r' : rule) : Prop :=
  rget R rp = Some r /\ rget R' rp' = Some r' /\
  Forall2 krel (filter mandatory (chain_of rp r)) (filter mandatory (chain_of rp' r')).

Definition good (x : item) : Prop :=
  (forall cr cr', krel cr cr' ->
     match it_eval x (fst cr) (snd cr), it_eval x (fst cr') (snd cr') with
     | Some m, Some m' => crel m m' | None, None => True | _, _ => False end) /\
  (forall rp rp' r r', row_rel rp rp' r r' -> mandatory_of r <> [] -> Forall2 crel (it_below x rp r) (it_below x rp' r')) /\
  quiet R x /\ quiet R' x.

Lemma good_quiet ns : Forall good ns -> Forall (quiet R) ns /\ Forall (quiet R') ns.
Proof. intros H. split; (eapply Forall_impl; [|exact H]); intros x (_ & _ & H1 & H2); assumption. Qed.

Lemma once_sim cr cr' ns : krel cr cr' -> Forall good ns ->
  match once cr ns, once cr' ns with
  | Some (pre, y, i, rest), Some (pre', y', i', rest') => pre = pre' /\ y = y' /\ rest = rest' /\ crel i i'
  | None, None => True | _, _ => False end.
Proof.
  intros HK. induction 1 as [|x ns (Hx & _) _ IH]; cbn [once]; [exact I|]. specialize (Hx cr cr' HK).
  destruct (it_eval x (fst cr) (snd cr)), (it_eval x (fst cr') (snd cr')); try contradiction; [now repeat split|].
  destruct (once cr ns) as [[[[pre y] i] rest]|], (once cr' ns) as [[[[pre' y'] i'] rest']|]; try exact IH.
  destruct IH as (-> & -> & -> & HI). now repeat split.
Qed.

Lemma repeated_sim cr cr' ns : krel cr cr' -> Forall good ns -> crel (repeated cr ns) (repeated cr' ns).
Proof.
  intros HK HN. unfold repeated.
  assert (X : match all_greedy cr ns, all_greedy cr' ns with Some (m, _), Some (m', _) => crel m m' | None, None => True | _, _ => False end).
  { induction HN as [|x ns (Hx & _) _ IH]; cbn [all_greedy]; [exact I|]. specialize (Hx cr cr' HK).
    destruct (it_eval x (fst cr) (snd cr)) as [i|], (it_eval x (fst cr') (snd cr')) as [i'|]; try contradiction; [|exact IH].
    destruct (all_greedy cr ns) as [[m r]|], (all_greedy cr' ns) as [[m' r']|]; try contradiction.
    - apply crel_app; [exact Hx|]. apply crel_app; [now apply crel_pair|exact IH].
    - apply crel_app; [exact Hx|now apply crel_pair]. }
  destruct (all_greedy cr ns) as [[m r]|], (all_greedy cr' ns) as [[m' r']|]; try contradiction; [exact X|apply crel_nil].
Qed.

(** Lists that begin with the same match of the first mandatory rule. *)
Lemma norm_sim cr cr' ns ns' : krel cr cr' -> Forall good ns -> norm cr ns = norm cr' ns' ->
  match once cr ns, once cr' ns' with
  | Some (pre, y, i, rest), Some (pre', y', i', rest') => y = y' /\ rest = rest' /\ crel i i'
  | None, None => True | _, _ => False end.
Proof.
  intros HK HN. unfold norm. pose proof (once_eq cr ns) as E. pose proof (once_eq cr' ns') as E'.
  destruct (once cr ns) as [[[[pre y] i] rest]|], (once cr' ns') as [[[[pre' y'] i'] rest']|]; try discriminate; [|auto].
  intros [= <- <-]. destruct E as (-> & E & _), E' as (_ & E' & _). apply Forall_app in HN as [_ HN]. inversion HN as [|? ? (Hy & _) _]; subst.
  specialize (Hy cr cr' HK). rewrite E, E' in Hy. now repeat split.
Qed.

Lemma norm_same cr cr' ns : krel cr cr' -> Forall good ns -> norm cr ns = norm cr' ns.
Proof.
  intros HK HN. pose proof (once_sim cr cr' ns HK HN) as O. unfold norm.
  destruct (once cr ns) as [[[[pre y] i] rest]|], (once cr' ns) as [[[[pre' y'] i'] rest']|]; try contradiction; [|reflexivity].
  destruct O as (_ & -> & -> & _). reflexivity.
Qed.

(** *** One group *)

(** [m1] and [m1'] are the first mandatory rules. *)
Definition same_group (m1 m1' : crule) (g g' : list item * MatchingNodes) : Prop :=
  (g = ([], []) /\ g' = ([], [])) \/
  (crel (snd g) (snd g') /\ filled (snd g) /\ norm m1 (fst g) = norm m1' (fst g')).

Definition firsts (fm fm' : option crule) (m1 m1' : crule) : Prop :=
  match fm, fm' with Some m, Some m' => m = m1 /\ m' = m1' | _, _ => False end.

Definition state (m1 m1' : crule) (fm fm' : option crule) (again : bool) (rules rules' : list crule) (ns ns' : list item) (sub : MatchingNodes) : Prop :=
  if again then
    match rules, rules' with
    | cr :: rs, cr' :: rs' =>
        krel cr cr' /\ r_greedy (snd cr) = true /\ Forall2 krel (filter mandatory rs) (filter mandatory rs') /\ ns = ns' /\ filled sub /\
        (firsts fm fm' m1 m1' \/ (fm = None /\ fm' = None /\ cr = m1 /\ cr' = m1'))
    | _, _ => False
    end
  else
    Forall2 krel (filter mandatory rules) (filter mandatory rules') /\
    ((firsts fm fm' m1 m1' /\ ns = ns' /\ filled sub) \/
     (fm = None /\ fm' = None /\ norm m1 ns = norm m1' ns' /\
      (exists l, filter mandatory rules = m1 :: l) /\ exists l', filter mandatory rules' = m1' :: l')).

Lemma mand_sim rules rules' : Forall2 krel (filter mandatory rules) (filter mandatory rules') ->
  match find_mand rules, find_mand rules' with
  | Some (b, m, a), Some (b', m', a') =>
      krel m m' /\ Forall2 krel (filter mandatory a) (filter mandatory a') /\
      filter mandatory rules = m :: filter mandatory a /\ filter mandatory rules' = m' :: filter mandatory a'
  | None, None => True
  | _, _ => False
  end.
Proof.
  assert (X : forall l, match find_mand l with Some (b, m, a) => filter mandatory l = m :: filter mandatory a | None => filter mandatory l = [] end).
  { clear. induction l as [|cr l IH]; cbn [find_mand filter]; [reflexivity|]. destruct (mandatory cr); [reflexivity|].
    destruct (find_mand l) as [[[? ?] ?]|]; exact IH. }
  intros H. pose proof (X rules) as H1. pose proof (X rules') as H2.
  destruct (find_mand rules) as [[[b m] a]|], (find_mand rules') as [[[b' m'] a']|]; rewrite H1, H2 in H; inversion H; subst; auto.
Qed.

Lemma known_after T rules between stop after : Forall (known T) rules -> find_mand rules = Some (between, stop, after) ->
  Forall (known T) between /\ Forall (fun cr => mandatory cr = false) between /\ Forall (known T) after.
Proof.
  intros HK HF. pose proof (find_mand_split rules) as FS. rewrite HF in FS. destruct FS as (-> & _ & FS).
  apply Forall_app in HK as [H1 H2]. inversion H2; subst. auto.
Qed.

Lemma firsts_or fm fm' m1 m1' cr cr' : firsts fm fm' m1 m1' -> firsts (or_first fm cr) (or_first fm' cr') m1 m1'.
Proof. destruct fm, fm'; cbn; try contradiction. auto. Qed.

Lemma once_split T cr (ns : list item) pre y i rest : once cr ns = Some (pre, y, i, rest) -> Forall (T : item -> Prop) ns ->
  Forall T pre /\ Forall T rest /\ length rest < length ns.
Proof.
  intros O HN. apply once_app in O. rewrite O in *. apply Forall_app in HN as [H1 H2]. inversion H2; subst. rewrite app_length. cbn [length]. repeat split; [assumption..|lia].
Qed.

Lemma group_sim m1 m1' (HM : krel m1 m1') k : forall k' fm fm' again rules rules' ns ns' sub sub',
  length ns <= k -> length ns' <= k' ->
  Forall (known R) rules -> Forall (known R') rules' -> free_row rules -> free_row rules' ->
  Forall good ns -> Forall good ns' -> crel sub sub' ->
  state m1 m1' fm fm' again rules rules' ns ns' sub ->
  same_group m1 m1' (group k fm again rules ns sub) (group k' fm' again rules' ns' sub').
Proof.
  induction k as [k IH] using lt_wf_ind.
  intros k' fm fm' again rules rules' ns ns' sub sub' Hk Hk' Hr Hr' Hf Hf' Hn Hn' Hs HS.
  destruct (good_quiet ns Hn) as [Hq _]. destruct (good_quiet ns' Hn') as [_ Hq'].
  destruct again; cbn [state] in HS.
  - destruct rules as [|cr rs]; [destruct HS|]. destruct rules' as [|cr' rs']; [destruct HS|].
    destruct HS as (HK & Hg & HF & <- & Hsub & Hfm). pose proof (mand_sim rs rs' HF) as MS.
    pose proof (Forall_inv_tail Hr) as Hrs. pose proof (Forall_inv_tail Hr') as Hrs'.
    assert (Hg' : r_greedy (snd cr') = true) by (now rewrite <- (krel_greedy cr cr' HK)).
    destruct (find_mand rs) as [[[bt stop] af]|] eqn:Ef, (find_mand rs') as [[[bt' stop'] af']|] eqn:Ef'; try contradiction.
    + destruct MS as (HKs & HFa & _ & _).
      rewrite (again_next k fm cr rs ns sub bt stop af Hk Ef), (again_next k' fm' cr' rs' ns sub' bt' stop' af' Hk' Ef').
      pose proof (once_sim stop stop' ns HKs Hn) as O.
      destruct (once stop ns) as [[[[pre y] i] rest]|] eqn:O1, (once stop' ns) as [[[[pre' y'] i'] rest']|] eqn:O2; try contradiction; [|left; auto].
      destruct O as (<- & <- & <- & HI). destruct (once_split good _ _ _ _ _ _ O1 Hn) as (Hpre & Hrest & HL).
      destruct (known_after R rs bt stop af Hrs Ef) as (B1 & B2 & B3). destruct (known_after R' rs' bt' stop' af' Hrs' Ef') as (B1' & B2' & B3').
      destruct (free_row_mand rs bt stop af (free_row_tail _ _ Hf) Ef) as [_ Fa]. destruct (free_row_mand rs' bt' stop' af' (free_row_tail _ _ Hf') Ef') as [_ Fa'].
      destruct (good_quiet pre Hpre) as [Qp Qp'].
      apply IH; [lia|lia|lia|assumption..| |].
      * apply crel_app; [exact Hs|]. apply crel_app; [exact HI|]. apply crel_app; [|now apply crel_pair].
        apply (crel_ep _ _ (repeated cr pre) (repeated cr' pre)); [now apply range_repeated|now apply range_repeated|now apply repeated_sim].
      * cbn [state]. split; [exact HFa|]. left. split; [|split; [reflexivity|now apply filled_app]].
        destruct Hfm as [Hfm|(-> & -> & -> & ->)]; [now apply firsts_or, firsts_or|cbn; auto].
    + destruct (again_end R k fm cr rs ns sub Hk Hg Ef Hrs Hq) as (next & more & -> & HE).
      destruct (again_end R' k' fm' cr' rs' ns sub' Hk' Hg' Ef' Hrs' Hq') as (next' & more' & -> & HE'). right. cbn [fst snd].
      destruct Hfm as [Hfm|(-> & -> & -> & ->)].
      * destruct fm as [m|], fm' as [m'|]; try contradiction. destruct Hfm as [-> ->]. destruct HE as [E1 E2], HE' as [E1' E2'].
        pose proof (once_sim m1 m1' ns HM Hn) as O. split; [|split; [now apply filled_app|rewrite E2, E2'; now apply norm_same]].
        apply crel_app; [exact Hs|]. refine (crel_ep _ _ _ _ E1 E1' _).
        destruct (once m1 ns) as [[[[pre y] i] rest]|] eqn:O1, (once m1' ns) as [[[[pre' y'] i'] rest']|]; try contradiction; [|now apply repeated_sim].
        destruct O as (<- & _). destruct (once_split good _ _ _ _ _ _ O1 Hn) as (Hpre & _). now apply repeated_sim.
      * destruct HE as [E1 E2], HE' as [E1' E2']. split; [|split; [now apply filled_app|now rewrite E2, E2']].
        apply crel_app; [exact Hs|]. refine (crel_ep _ _ _ _ E1 E1' _). now apply repeated_sim.
  - destruct HS as [HF HS]. pose proof (mand_sim rules rules' HF) as MS.
    destruct (find_mand rules) as [[[bt stop] af]|] eqn:Ef, (find_mand rules') as [[[bt' stop'] af']|] eqn:Ef'; try contradiction.
    + destruct MS as (HKs & HFa & HE & HE').
      destruct (free_row_mand rules bt stop af Hf Ef) as [Fb Fa]. destruct (free_row_mand rules' bt' stop' af' Hf' Ef') as [Fb' Fa'].
      rewrite (step_next k fm rules ns sub bt stop af Hk Ef Fb), (step_next k' fm' rules' ns' sub' bt' stop' af' Hk' Ef' Fb').
      assert (O : match once stop ns, once stop' ns' with
        | Some (pre, y, i, rest), Some (pre', y', i', rest') => y = y' /\ rest = rest' /\ crel i i'
        | None, None => True | _, _ => False end).
      { destruct HS as [(_ & <- & _)|(_ & _ & HN & [l Hl] & [l' Hl'])]; [apply norm_sim; [exact HKs|exact Hn|now apply norm_same]|].
        rewrite HE in Hl. rewrite HE' in Hl'. injection Hl as -> _. injection Hl' as -> _. now apply norm_sim. }
      destruct (once stop ns) as [[[[pre y] i] rest]|] eqn:O1, (once stop' ns') as [[[[pre' y'] i'] rest']|] eqn:O2; try contradiction; [|left; auto].
      destruct O as (<- & <- & HI). destruct (once_split good _ _ _ _ _ _ O1 Hn) as (Hpre & Hrest & HL). destruct (once_split good _ _ _ _ _ _ O2 Hn') as (Hpre' & _ & HL').
      destruct (known_after R rules bt stop af Hr Ef) as (B1 & B2 & B3). destruct (known_after R' rules' bt' stop' af' Hr' Ef') as (B1' & B2' & B3').
      destruct (good_quiet pre Hpre) as [Qp _]. destruct (good_quiet pre' Hpre') as [_ Qp'].
      pose proof (krel_greedy _ _ HKs) as Hgg. rewrite <- Hgg in *. destruct (r_greedy (snd stop)) eqn:Eg.
      * destruct Fb as [->|Fb]; [|discriminate Fb]. destruct Fb' as [->|Fb']; [|discriminate Fb'].
        pose proof (find_mand_split rules) as FS. rewrite Ef in FS. destruct FS as (-> & _ & _). pose proof (find_mand_split rules') as FS. rewrite Ef' in FS. destruct FS as (-> & _ & _).
        cbn [app] in *. apply IH; [lia|lia|lia|assumption..| |].
        -- apply crel_app; [exact Hs|]. apply crel_app; [exact HI|now apply crel_pair].
        -- cbn [state]. split; [exact HKs|]. split; [exact Eg|]. split; [exact HFa|]. split; [reflexivity|]. split; [rewrite app_assoc; now apply filled_pair with stop'|].
           destruct HS as [(HS & _)|(-> & -> & _ & [l Hl] & [l' Hl'])]; [now left|]. right. rewrite HE in Hl. rewrite HE' in Hl'.
           injection Hl as -> _. injection Hl' as -> _. auto.
      * apply IH; [lia|lia|lia|assumption..| |].
        -- apply crel_app; [exact Hs|]. apply crel_app; [exact HI|]. apply crel_app; [|now apply crel_pair].
           apply crel_idle; apply range_fit, optional_idle; assumption.
        -- cbn [state]. split; [exact HFa|]. left. split; [|split; [reflexivity|rewrite !app_assoc; now apply filled_pair with stop']].
           destruct HS as [(HS & _)|(-> & -> & _ & [l Hl] & [l' Hl'])]; [now apply firsts_or|]. rewrite HE in Hl. rewrite HE' in Hl'.
           injection Hl as -> _. injection Hl' as -> _. cbn. auto.
    + destruct HS as [(Hfm & <- & Hsub)|(_ & _ & _ & [l Hl] & _)]; [|apply find_mand_filter in Ef; rewrite Ef in Hl; discriminate Hl].
      destruct fm as [m|], fm' as [m'|]; try contradiction. destruct Hfm as [-> ->].
      destruct (step_end R k m1 rules ns sub Hk Ef Hr Hq) as (next & more & -> & E1 & E2).
      destruct (step_end R' k' m1' rules' ns sub' Hk' Ef' Hr' Hq') as (next' & more' & -> & E1' & E2'). right. cbn [fst snd].
      split; [|split; [now apply filled_app|rewrite E2, E2'; now apply norm_same]]. apply crel_app; [exact Hs|].
      refine (crel_ep _ _ [] [] E1 E1' _). apply crel_nil.
Qed.

(** *** All groups *)

Lemma suffix_good (T : item -> Prop) k fm again rules ns sub : Forall T ns -> Forall T (fst (group k fm again rules ns sub)).
Proof. intros H. destruct (group_suffix k fm again rules ns sub) as [l E]. rewrite E in H. now apply Forall_app in H. Qed.

Lemma groups_none chain m l ns k : filter mandatory chain = m :: l -> free_row chain -> norm m ns = [] -> groups_k k chain ns = [].
Proof.
  intros Hc Hf HN. destruct k as [|k]; [reflexivity|]. destruct ns as [|x ns]; [reflexivity|]. cbn [groups_k].
  pose proof (find_mand_split chain) as FS. destruct (find_mand chain) as [[[bt stop] af]|] eqn:Ef; [|apply find_mand_filter in Ef; congruence].
  destruct (free_row_mand chain bt stop af Hf Ef) as [Fb _]. destruct FS as (E & Em & Eb).
  assert (stop = m). { assert (X : filter mandatory bt = []) by (clear - Eb; induction Eb as [|c b H _ IH]; [reflexivity|]; cbn [filter]; now rewrite H). rewrite E, filter_app, X in Hc. cbn [filter app] in Hc. rewrite Em in Hc. now injection Hc. }
  subst stop. rewrite (step_next _ _ _ _ _ bt m af (le_n _) Ef Fb). unfold norm in HN. destruct (once m (x :: ns)) as [[[[pre y] i] rest]|]; [discriminate|]. destruct k; reflexivity.
Qed.

Lemma groups_sim chain chain' m l m' l' : Forall (known R) chain -> Forall (known R') chain' -> free_row chain -> free_row chain' ->
  Forall2 krel (filter mandatory chain) (filter mandatory chain') -> filter mandatory chain = m :: l -> filter mandatory chain' = m' :: l' ->
  forall k k' ns ns', length ns <= k -> length ns' <= k' -> Forall good ns -> Forall good ns' -> norm m ns = norm m' ns' ->
  Forall2 crel (groups_k k chain ns) (groups_k k' chain' ns').
Proof.
  intros Hk Hk' Hf Hf' HF Hm Hm'. assert (HM : krel m m') by (rewrite Hm, Hm' in HF; now inversion HF).
  induction k as [|k IH]; intros k' ns ns' L L' Hn Hn' HN.
  { destruct ns; [|cbn in L; lia]. rewrite (groups_none chain' m' l' ns' k' Hm' Hf' (eq_sym HN)). constructor. }
  destruct ns as [|x ns]; [rewrite (groups_none chain' m' l' ns' k' Hm' Hf' (eq_sym HN)); constructor|].
  destruct ns' as [|x' ns']; [rewrite (groups_none chain m l (x :: ns) (S k) Hm Hf HN); destruct k'; constructor|].
  destruct k' as [|k']; [cbn in L'; lia|]. cbn [groups_k].
  destruct chain as [|c0 ch]; [discriminate Hm|]. destruct chain' as [|c0' ch']; [discriminate Hm'|].
  pose proof (group_sim m m' HM (length (x :: ns)) (length (x' :: ns')) None None false (c0 :: ch) (c0' :: ch') (x :: ns) (x' :: ns') [] []
    (le_n _) (le_n _) Hk Hk' Hf Hf' Hn Hn' crel_nil) as GS.
  cbn [state] in GS. specialize (GS (conj HF (or_intror (conj eq_refl (conj eq_refl (conj HN (conj (ex_intro _ l Hm) (ex_intro _ l' Hm')))))))).
  pose proof (group_progress (length (x :: ns)) c0 ch x ns []) as P. pose proof (group_progress (length (x' :: ns')) c0' ch' x' ns' []) as P'.
  pose proof (suffix_good good (length (x :: ns)) None false (c0 :: ch) (x :: ns) [] Hn) as S. pose proof (suffix_good good (length (x' :: ns')) None false (c0' :: ch') (x' :: ns') [] Hn') as S'.
  destruct (group (length (x :: ns)) None false (c0 :: ch) (x :: ns) []) as [next sub], (group (length (x' :: ns')) None false (c0' :: ch') (x' :: ns') []) as [next' sub'].
  cbn [fst snd length] in *. destruct GS as [[E E']|(HC & HFl & HNN)].
  - injection E as -> ->. injection E' as -> ->. apply IH; [cbn; lia|cbn; lia|constructor|constructor|reflexivity].
  - cbn [fst snd] in *. assert (HG : Forall2 crel (groups_k k (c0 :: ch) next) (groups_k k' (c0' :: ch') next')) by (apply IH; [lia|lia|assumption..]).
    assert (sub <> []) by (intros ->; now apply HFl). assert (sub' <> []) by (intros ->; apply HFl; unfold crel, same_essentials in HC; unfold ep; inversion HC; reflexivity).
    destruct sub; [congruence|]. destruct sub'; [congruence|]. now constructor.
Qed.

Lemma row_groups rp rp' r r' ns : row_rel rp rp' r r' -> mandatory_of r <> [] -> Forall good ns ->
  Forall2 crel (groups (chain_of rp r) ns) (groups (chain_of rp' r') ns).
Proof.
  intros (Hr & Hr' & HF) Hm Hn. rewrite <- (chain_mandatory rp r) in Hm.
  destruct (filter mandatory (chain_of rp r)) as [|m l] eqn:E; [now destruct Hm|]. inversion HF as [|? m' ? l' HM HL E1 E2]; subst.
  unfold groups. rewrite <- E in HF. apply (groups_sim _ _ m l m' l'); try assumption; try apply le_n; try (now apply row_known); try (now apply (free_chain R)); try (now apply (free_chain R')).
  - symmetry. exact E2.
  - now apply norm_same.
Qed.

Lemma row_save rp rp' r r' ns : row_rel rp rp' r r' -> mandatory_of r <> [] -> Forall good ns ->
  Forall2 crel (save ns rp r) (save ns rp' r').
Proof.
  intros HR0 Hm Hn. unfold save. apply Forall2_app; [now apply row_groups|].
  induction Hn as [|x ns (_ & Hx & _) _ IH]; cbn [map concat]; [constructor|]. apply Forall2_app; [now apply Hx|exact IH].
Qed.

Lemma crel_concat gs gs' : Forall2 crel gs gs' -> crel (concat gs) (concat gs').
Proof. induction 1; cbn [concat]; [apply crel_nil|now apply crel_app]. Qed.

Lemma mand_same rp rp' r r' : row_rel rp rp' r r' -> has_mand (chain_of rp r) = has_mand (chain_of rp' r').
Proof.
  intros (_ & _ & HF). unfold has_mand. pose proof (mand_sim _ _ HF) as MS.
  destruct (find_mand (chain_of rp r)) as [[[? ?] ?]|], (find_mand (chain_of rp' r')) as [[[? ?] ?]|]; try contradiction; reflexivity.
Qed.

Lemma mand_empty rp rp' r r' : row_rel rp rp' r r' -> mandatory_of r = [] -> mandatory_of r' = [].
Proof. intros (_ & _ & HF). rewrite <- (chain_mandatory rp r), <- (chain_mandatory rp' r'). intros H. apply map_eq_nil in H. rewrite H in HF. inversion HF. reflexivity. Qed.

Lemma nonempty_same (gs gs' : list MatchingNodes) : Forall2 crel gs gs' -> nonempty gs = nonempty gs'.
Proof. now destruct 1. Qed.

Definition orel (o o' : option MatchingNodes) : Prop := match o, o' with Some m, Some m' => crel m m' | None, None => True | _, _ => False end.

Lemma child_sim kids rp rp' r r' : Forall good kids ->
  (r_child r = None <-> r_child r' = None) ->
  (forall c c', r_child r = Some c -> r_child r' = Some c' -> row_rel (RChild :: rp) (RChild :: rp') c c') ->
  orel (child_part kids rp r) (child_part kids rp' r').
Proof.
  intros Hk HN HC. unfold child_part. destruct (r_child r) as [c|], (r_child r') as [c'|]; cbn in *; try (destruct HN as [HN1 HN2]; solve [discriminate (HN1 eq_refl)|discriminate (HN2 eq_refl)]); [|apply crel_nil].
  specialize (HC c c' eq_refl eq_refl). rewrite <- (mand_same _ _ _ _ HC). destruct (good_quiet kids Hk) as [Q Q']. pose proof (has_mand_spec (RChild :: rp) c) as HS.
  destruct (has_mand (chain_of (RChild :: rp) c)); cbn [andb].
  - pose proof (row_groups _ _ _ _ kids HC (proj1 HS eq_refl) Hk) as G. rewrite <- (nonempty_same _ _ G). destruct (negb _); [exact I|now apply crel_concat].
  - assert (Hm : mandatory_of c = []) by (destruct (mandatory_of c); [reflexivity|]; exfalso; assert (false = true) by (apply HS; discriminate); discriminate).
    pose proof (mand_empty _ _ _ _ HC Hm) as Hm'. destruct HC as (H1 & H2 & _). cbn.
    apply crel_idle; apply Forall_concat; now apply groups_idle.
Qed.

Lemma nested_sim kids rp rp' l l' : Forall good kids -> forall k, 
  length l = length l' -> (forall j c c', nth_error l j = Some c -> nth_error l' j = Some c' -> row_rel (RNested (k + j) :: rp) (RNested (k + j) :: rp') c c') ->
  orel (nested_part kids rp k l) (nested_part kids rp' k l').
Proof.
  intros Hk. revert l'. induction l as [|c l IH]; intros [|c' l'] k HL HC; try discriminate HL; cbn [nested_part]; [apply crel_nil|].
  pose proof (HC 0 c c' eq_refl eq_refl) as HR0. rewrite Nat.add_0_r in HR0.
  assert (HT : orel (nested_part kids rp (S k) l) (nested_part kids rp' (S k) l')).
  { apply IH; [now injection HL|]. intros j d d' Hd Hd'. specialize (HC (S j) d d' Hd Hd'). now rewrite Nat.add_succ_r in HC. }
  assert (HX : (negb (nonempty (save kids (RNested k :: rp) c)) && has_mand (chain_of (RNested k :: rp) c) =
      negb (nonempty (save kids (RNested k :: rp') c')) && has_mand (chain_of (RNested k :: rp') c')) /\
    crel (concat (save kids (RNested k :: rp) c)) (concat (save kids (RNested k :: rp') c'))).
  { rewrite <- (mand_same _ _ _ _ HR0). destruct (good_quiet kids Hk) as [Q Q']. pose proof (has_mand_spec (RNested k :: rp) c) as HS.
    destruct (has_mand (chain_of (RNested k :: rp) c)).
    - pose proof (row_save _ _ _ _ kids HR0 (proj1 HS eq_refl) Hk) as G. split; [now rewrite (nonempty_same _ _ G)|now apply crel_concat].
    - assert (Hm : mandatory_of c = []) by (destruct (mandatory_of c); [reflexivity|]; exfalso; assert (false = true) by (apply HS; discriminate); discriminate).
      pose proof (mand_empty _ _ _ _ HR0 Hm) as Hm'. destruct HR0 as (H1 & H2 & _). split; [now rewrite !andb_false_r|].
      apply crel_idle; apply Forall_concat; now apply save_idle. }
  destruct HX as [HX HY]. rewrite <- HX. destruct (_ && _); [exact I|].
  destruct (nested_part kids rp (S k) l), (nested_part kids rp' (S k) l'); try exact HT. now apply crel_app.
Qed.

(** *** Rows below related rules *)

Lemma row_build rp rp' r r' : rget R rp = Some r -> rget R' rp' = Some r' -> owners_mandatory R rp = true -> owners_mandatory R' rp' = true ->
  Forall2 same_core (mandatory_of r) (mandatory_of r') ->
  (forall a a', In (a, a') (combine (mandatory_addresses rp r) (mandatory_addresses rp' r')) -> stands_for R R' a a') ->
  row_rel rp rp' r r'.
Proof.
  intros Hr Hr' Ho Ho' HC HA. split; [exact Hr|]. split; [exact Hr'|].
  rewrite <- (chain_mandatory rp r), <- (chain_mandatory rp' r') in HC. rewrite <- (chain_addresses r rp), <- (chain_addresses r' rp') in HA.
  assert (X : forall T q x, rget T q = Some x -> owners_mandatory T q = true -> Forall (fun cr => known T cr /\ essential T (fst cr) = true) (filter mandatory (chain_of q x))).
  { intros T q x Hq Hx. apply Forall_forall. intros cr Hc. apply filter_In in Hc as [Hc Hm]. pose proof (row_known T q x Hq) as HK. rewrite Forall_forall in HK.
    specialize (HK cr Hc). split; [exact HK|]. unfold essential. now rewrite (known_mandatory T cr HK), Hm, (chain_owners T q x cr Hc). }
  pose proof (X R rp r Hr Ho) as H1. pose proof (X R' rp' r' Hr' Ho') as H2. clear X. revert HC HA H1 H2.
  generalize (filter mandatory (chain_of rp r)) (filter mandatory (chain_of rp' r')). intros l l'. revert l'.
  induction l as [|cr l IH]; intros [|cr' l'] HC HA H1 H2; cbn [map combine] in *; inversion HC; subst; [constructor|]. inversion H1; inversion H2; subst.
  constructor; [|apply IH; try assumption; intros a a' Hi; apply HA; now right]. unfold krel. split; [assumption|]. split; [assumption|]. split; [assumption|].
  apply HA. now left.
Qed.

Variable b : rule -> npath -> bool.
Hypothesis Hb : forall r r' p, same_core r r' -> b r p = b r' p.

Lemma eval_sim p kids cr cr' : Forall good kids -> krel cr cr' -> orel (eval_at b p kids (fst cr) (snd cr)) (eval_at b p kids (fst cr') (snd cr')).
Proof.
  destruct cr as [rp r], cr' as [rp' r']. cbn [fst snd]. intros Hk ((Hr & He) & (Hr' & He') & HC & HSt). unfold known in *. cbn [fst snd] in *.
  unfold eval_at. rewrite <- (Hb r r' p HC). destruct (b r p); [|exact I].
  destruct HC as [r r' _ _ _ _ _ HN HCh HNe].
  assert (HB : orel (child_part kids rp r) (child_part kids rp' r')).
  { apply child_sim; [exact Hk|exact HN|]. intros c c' Hc Hc'. apply row_build.
    - cbn [rget]. now rewrite Hr.
    - cbn [rget]. now rewrite Hr'.
    - exact He.
    - exact He'.
    - now apply HCh.
    - intros a a' Hi. exact (stands_child R R' rp rp' r r' c c' a a' HSt Hr Hr' Hc Hc' Hi). }
  assert (HL : forall j c c', nth_error (r_nested r) j = Some c -> nth_error (r_nested r') j = Some c' -> Forall2 same_core (mandatory_of c) (mandatory_of c')).
  { clear - HNe. induction HNe as [|x y l l' Hx _ IH]; intros [|j] c c'; cbn [nth_error]; try discriminate; [intros [= <-] [= <-]; exact Hx|apply IH]. }
  assert (HB2 : orel (nested_part kids rp 0 (r_nested r)) (nested_part kids rp' 0 (r_nested r'))).
  { apply nested_sim; [exact Hk|clear - HNe; induction HNe; cbn; congruence|]. intros j c c' Hc Hc'. cbn [Nat.add]. apply row_build.
    - cbn [rget]. now rewrite Hr.
    - cbn [rget]. now rewrite Hr'.
    - exact He.
    - exact He'.
    - exact (HL j c c' Hc Hc').
    - intros a a' Hi. exact (stands_nested R R' rp rp' r r' j c c' a a' HSt Hr Hr' Hc Hc' Hi). }
  assert (HX : orel
    match kids with [] => None | _ => match child_part kids rp r with None => None | Some m1 => match nested_part kids rp 0 (r_nested r) with None => None | Some m2 => Some (m1 ++ m2) end end end
    match kids with [] => None | _ => match child_part kids rp' r' with None => None | Some m1 => match nested_part kids rp' 0 (r_nested r') with None => None | Some m2 => Some (m1 ++ m2) end end end).
  { destruct kids; [exact I|]. destruct (child_part _ rp r), (child_part _ rp' r'); try contradiction; [|exact I].
    destruct (nested_part _ rp 0 _), (nested_part _ rp' 0 _); try contradiction; [|exact I]. now apply crel_app. }
  destruct (r_child r), (r_child r'); try (destruct HN as [HN1 HN2]; solve [discriminate (HN1 eq_refl)|discriminate (HN2 eq_refl)]); [exact HX|].
  inversion HNe as [E1 E2|? ? ? ? ? ? E1 E2]; [apply crel_nil|]. rewrite <- E1, <- E2 in HX. exact HX.
Qed.

Lemma sem_good t : forall p, good (sem b t p).
Proof.
  induction t as [t IH] using node_ind2. intros p.
  assert (HK : Forall good (kids_of b t p)).
  { destruct t as [|t' orig attrs cs| | | | |]; try constructor. cbn [kids_of children_of] in *. clear - IH. generalize 0 as i. induction IH as [|c l Hc _ IHl]; intros i; cbn [sem_list]; constructor; [apply Hc|apply IHl]. }
  split; [|split; [|split; apply sem_quiet]].
  - intros cr cr' H. rewrite sem_unfold. cbn [it_eval]. exact (eval_sim p _ cr cr' HK H).
  - intros rp rp' r r' H Hm. rewrite sem_unfold. cbn [it_below]. destruct t as [|t' orig attrs cs| | | | |]; try constructor. now apply row_save.
Qed.

Theorem search_sim D i pp : same_skeleton R R' -> mandatory_of R <> [] ->
  Forall2 crel (save (sibling_items b D (i :: pp)) [] R) (save (sibling_items b D (i :: pp)) [] R').
Proof.
  intros HS Hm. apply row_save; [|exact Hm|].
  - apply row_build; try reflexivity; [exact HS|]. intros a a'. apply stands_top.
  - assert (HL : forall l k q, Forall good (sem_list b l k q)).
    { induction l as [|c l IH]; intros k q; cbn [sem_list]; constructor; [apply sem_good|apply IH]. }
    unfold sibling_items. destruct (nget D pp) as [par|]; [|constructor]. destruct (is_element par); [apply HL|].
    destruct (nth_error (children_of par) i); [|constructor]. constructor; [apply sem_good|constructor].
Qed.

End Two.
