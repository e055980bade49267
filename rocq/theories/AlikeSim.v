(** Two lists of siblings that differ in items that no rule matches: the search
    finds the same in both. *)

From Coq Require Import Arith Bool List Lia.
From Verif Require Import Base Dom Match Rule RuleMatching MatchSem MatchRefine.
Import ListNotations.

Section Sim.
Variable R : rule.
Variable place : npath -> npath -> Prop.

Definition pair_sim (x y : rpath * npath) : Prop := fst x = fst y /\ place (snd x) (snd y).
Definition pairs_sim : MatchingNodes -> MatchingNodes -> Prop := Forall2 pair_sim.
Definition eval_sim (a b : option MatchingNodes) : Prop :=
  match a, b with Some x, Some y => pairs_sim x y | None, None => True | _, _ => False end.
Definition item_sim (x x' : item) : Prop :=
  place (it_path x) (it_path x') /\
  forall rp r, rget R rp = Some r ->
    eval_sim (it_eval x rp r) (it_eval x' rp r) /\ Forall2 pairs_sim (it_below x rp r) (it_below x' rp r).
Definition item_hidden (x : item) : Prop :=
  forall rp r, rget R rp = Some r -> it_eval x rp r = None /\ it_below x rp r = [].

Inductive items_sim : list item -> list item -> Prop :=
| sim_nil : items_sim [] []
| sim_both x x' l l' : item_sim x x' -> items_sim l l' -> items_sim (x :: l) (x' :: l')
| sim_left x l l' : item_hidden x -> items_sim l l' -> items_sim (x :: l) l'
| sim_right x' l l' : item_hidden x' -> items_sim l l' -> items_sim l (x' :: l').

Notation known cr := (rget R (fst cr) = Some (snd cr)).

Lemma sim_hidden_left l : Forall item_hidden l -> items_sim l [].
Proof. induction 1; [constructor|now constructor]. Qed.
Lemma sim_hidden_right l : Forall item_hidden l -> items_sim [] l.
Proof. induction 1; [constructor|now constructor]. Qed.
Lemma sim_nil_left l' : items_sim [] l' -> Forall item_hidden l'.
Proof. intros H. remember [] as l. induction H; try discriminate; [constructor|constructor; auto]. Qed.
Lemma sim_nil_right l : items_sim l [] -> Forall item_hidden l.
Proof. intros H. remember [] as l'. induction H; try discriminate; [constructor|constructor; auto]. Qed.
Lemma sim_app a a' l l' : items_sim a a' -> items_sim l l' -> items_sim (a ++ l) (a' ++ l').
Proof. intros H Hl. induction H; cbn [app]; [exact Hl|now constructor|now constructor|now constructor]. Qed.

Lemma once_sim cr l l' : known cr -> items_sim l l' ->
  match once cr l, once cr l' with
  | Some (pre, y, inner, rest), Some (pre', y', inner', rest') =>
      items_sim pre pre' /\ item_sim y y' /\ pairs_sim inner inner' /\ items_sim rest rest'
  | None, None => True
  | _, _ => False
  end.
Proof.
  intros Hk H. induction H as [|x x' l l' Hx H IH|x l l' Hx H IH|x l l' Hx H IH]; cbn [once].
  - exact I.
  - destruct (proj2 Hx _ _ Hk) as [He _]. unfold eval_sim in He.
    destruct (it_eval x (fst cr) (snd cr)) as [inner|], (it_eval x' (fst cr) (snd cr)) as [inner'|]; try contradiction.
    + split; [constructor|]. split; [exact Hx|]. split; [exact He|exact H].
    + destruct (once cr l) as [[[[pre y] inner] rest]|], (once cr l') as [[[[pre' y'] inner'] rest']|]; try contradiction; [|exact I].
      destruct IH as [H1 [H2 [H3 H4]]]. split; [now constructor|]. repeat split; try assumption; apply H2; assumption.
  - destruct (Hx _ _ Hk) as [-> _].
    destruct (once cr l) as [[[[pre y] inner] rest]|], (once cr l') as [[[[pre' y'] inner'] rest']|]; try contradiction; [|exact I].
    destruct IH as [H1 H2]. split; [now constructor|exact H2].
  - destruct (Hx _ _ Hk) as [-> _].
    destruct (once cr l) as [[[[pre y] inner] rest]|], (once cr l') as [[[[pre' y'] inner'] rest']|]; try contradiction; [|exact I].
    destruct IH as [H1 H2]. split; [now constructor|exact H2].
Qed.

Lemma pairs_one rp y y' : item_sim y y' -> pairs_sim [(rp, it_path y)] [(rp, it_path y')].
Proof. intros [H _]. constructor; [split; [reflexivity|exact H]|constructor]. Qed.
Lemma pairs_app a a' c c' : pairs_sim a a' -> pairs_sim c c' -> pairs_sim (a ++ c) (a' ++ c').
Proof. apply Forall2_app. Qed.

Lemma greedy_sim cr l l' : known cr -> items_sim l l' ->
  match all_greedy cr l, all_greedy cr l' with
  | Some (m, rest), Some (m', rest') => pairs_sim m m' /\ items_sim rest rest'
  | None, None => True
  | _, _ => False
  end.
Proof.
  intros Hk H. induction H as [|x x' l l' Hx H IH|x l l' Hx H IH|x l l' Hx H IH]; cbn [all_greedy].
  - exact I.
  - destruct (proj2 Hx _ _ Hk) as [He _]. unfold eval_sim in He.
    destruct (it_eval x (fst cr) (snd cr)) as [inner|], (it_eval x' (fst cr) (snd cr)) as [inner'|]; try contradiction; [|exact IH].
    destruct (all_greedy cr l) as [[m rest]|], (all_greedy cr l') as [[m' rest']|]; try contradiction.
    + destruct IH as [H1 H2]. split; [|exact H2]. apply pairs_app; [exact He|]. apply pairs_app; [now apply pairs_one|exact H1].
    + split; [|exact H]. apply pairs_app; [exact He|now apply pairs_one].
  - destruct (Hx _ _ Hk) as [-> _]. exact IH.
  - destruct (Hx _ _ Hk) as [-> _]. exact IH.
Qed.

Definition last_sim (a b : option (list item)) : Prop :=
  match a, b with Some l, Some l' => items_sim l l' | None, None => True | _, _ => False end.

Lemma range_sim rs : Forall (fun cr => known cr) rs -> forall l l' la la', items_sim l l' -> last_sim la la' ->
  last_sim (fst (range rs l la)) (fst (range rs l' la')) /\ pairs_sim (snd (range rs l la)) (snd (range rs l' la')).
Proof.
  induction 1 as [|cr rs Hk _ IH]; intros l l' la la' H HL; cbn [range]; [split; [exact HL|constructor]|].
  destruct (r_greedy (snd cr)).
  - pose proof (greedy_sim cr l l' Hk H) as G.
    destruct (all_greedy cr l) as [[m rest]|], (all_greedy cr l') as [[m' rest']|]; try contradiction; [|now apply IH].
    destruct G as [G1 G2]. specialize (IH rest rest' None None G2 I).
    destruct (range rs rest None), (range rs rest' None). cbn [fst snd] in *. split; [apply IH|]. apply pairs_app; [exact G1|apply IH].
  - pose proof (once_sim cr l l' Hk H) as G.
    destruct (once cr l) as [[[[pre y] inner] rest]|], (once cr l') as [[[[pre' y'] inner'] rest']|]; try contradiction; [|now apply IH].
    destruct G as [_ [G1 [G2 G3]]]. specialize (IH rest rest' (Some rest) (Some rest') G3 G3).
    destruct (range rs rest (Some rest)), (range rs rest' (Some rest')). cbn [fst snd] in *. split; [apply IH|].
    apply pairs_app; [exact G2|]. apply pairs_app; [now apply pairs_one|apply IH].
Qed.

Lemma find_mand_known rs : Forall (fun cr => known cr) rs ->
  match find_mand rs with
  | Some (pre, m, post) => Forall (fun cr => known cr) pre /\ known m /\ Forall (fun cr => known cr) post
  | None => True
  end.
Proof.
  induction 1 as [|cr rs Hk H IH]; cbn [find_mand]; [exact I|]. destruct (mandatory cr); [now repeat split|].
  destruct (find_mand rs) as [[[pre m] post]|]; [|exact I]. destruct IH as [H1 [H2 H3]]. split; [now constructor|now split].
Qed.

Definition known_first (fm : option crule) : Prop := match fm with Some cr => known cr | None => True end.

(** Items that nothing matches are like no items. *)
Lemma once_hidden cr l : known cr -> Forall item_hidden l -> once cr l = None.
Proof.
  intros Hk H. pose proof (once_sim cr l [] Hk (sim_hidden_left l H)) as G. destruct (once cr l) as [[[[? ?] ?] ?]|]; [contradiction|reflexivity].
Qed.
Lemma range_hidden rs l la : Forall (fun cr => known cr) rs -> rs <> [] -> Forall item_hidden l -> range rs l la = (None, []).
Proof.
  intros Hk Hne H. revert la. induction Hk as [|cr rs Hk Hr IH]; [congruence|]. intros la. cbn [range].
  assert (G : all_greedy cr l = None).
  { pose proof (greedy_sim cr l [] Hk (sim_hidden_left l H)) as G. destruct (all_greedy cr l) as [[? ?]|]; [contradiction|reflexivity]. }
  rewrite G, (once_hidden cr l Hk H). destruct rs as [|cr' rs]; [now destruct (r_greedy (snd cr))|].
  destruct (r_greedy (snd cr)); apply IH; discriminate.
Qed.

Lemma group_hidden k fm again rules l sub : Forall (fun cr => known cr) rules -> known_first fm ->
  Forall item_hidden l -> length l <= k ->
  exists rest, Forall item_hidden rest /\
    group k fm again rules l sub = (rest, snd (group 0 fm again rules [] sub)).
Proof.
  intros Hr Hf Hl Hk.
  destruct rules as [|cr rs].
  - assert (X : forall k, group k fm again [] l sub = (l, sub)).
    { intros k'. destruct k'; cbn [group tl]; destruct again; reflexivity. }
    rewrite X. exists l. split; [exact Hl|]. cbn [group tl]. now destruct again.
  - destruct l as [|x l].
    + exists (fst (group k fm again (cr :: rs) [] sub)).
      assert (X : forall k, group k fm again (cr :: rs) [] sub = group 0 fm again (cr :: rs) [] sub) by (intros [|k']; reflexivity).
      rewrite (X k). split; [|apply surjective_pairing]. cbn [group].
      destruct again; cbn [tl]; match goal with |- context [find_mand ?q] => destruct (find_mand q) end; constructor.
    + destruct k as [|k]; [cbn [length] in Hk; lia|]. cbn [group].
      inversion Hr as [|? ? Hk1 Hr1]; subst. pose proof (find_mand_known rs Hr1) as HM.
      destruct (r_optional (snd cr)) eqn:Eo; cbn [orb].
      * assert (FM : match find_mand (if again then tl (cr :: rs) else cr :: rs), find_mand rs with Some _, Some _ | None, None => True | _, _ => False end).
        { destruct again; cbn [tl find_mand]; unfold mandatory; rewrite ?Eo; cbn [negb]; destruct (find_mand rs) as [[[? ?] ?]|]; exact I. }
        unfold crule in *.
        destruct (find_mand rs) as [[[between stop] after]|] eqn:Em.
        -- destruct HM as [_ [HM _]]. rewrite (once_hidden stop (x :: l) HM Hl). exists []. split; [constructor|].
           match goal with |- context [find_mand ?q] => destruct (find_mand q); [reflexivity|contradiction] end.
        -- match goal with |- context [find_mand ?q] => destruct (find_mand q); [contradiction|] end. destruct fm as [stop|].
           ++ rewrite (once_hidden stop (x :: l) Hf Hl), (range_hidden (cr :: rs) (x :: l) None Hr ltac:(discriminate) Hl).
              exists []. split; [constructor|]. cbn [snd]. now rewrite app_nil_r.
           ++ rewrite (range_hidden (cr :: rs) (x :: l) None Hr ltac:(discriminate) Hl). exists []. split; [constructor|]. cbn [snd]. now rewrite app_nil_r.
      * destruct again.
        -- cbn [tl]. destruct (find_mand rs) as [[[between stop] after]|] eqn:Em.
           ++ destruct HM as [_ [HM _]]. rewrite (once_hidden stop (x :: l) HM Hl). exists []. split; [constructor|reflexivity].
           ++ destruct fm as [stop|].
              ** rewrite (once_hidden stop (x :: l) Hf Hl), (range_hidden (cr :: rs) (x :: l) None Hr ltac:(discriminate) Hl).
                 exists []. split; [constructor|]. cbn [snd]. now rewrite app_nil_r.
              ** rewrite (range_hidden (cr :: rs) (x :: l) None Hr ltac:(discriminate) Hl). exists []. split; [constructor|]. cbn [snd]. now rewrite app_nil_r.
        -- rewrite (once_hidden cr (x :: l) Hk1 Hl). exists []. split; [constructor|]. cbn [find_mand]. unfold mandatory. rewrite Eo. reflexivity.
Qed.

Lemma once_shorter cr l : forall pre y inner rest, once cr l = Some (pre, y, inner, rest) -> length rest < length l.
Proof.
  induction l as [|x l IH]; intros pre y inner rest; cbn [once]; [discriminate|].
  destruct (it_eval x (fst cr) (snd cr)); [intros H; injection H as _ _ _ <-; cbn [length]; lia|].
  destruct (once cr l) as [[[[pre' y'] inner'] rest']|]; [|discriminate].
  intros H. injection H as _ _ _ <-. specialize (IH _ _ _ _ eq_refl). cbn [length]. lia.
Qed.

Lemma groups_hidden cp c l : Forall (fun cr => known cr) (chain_of cp c) -> Forall item_hidden l ->
  groups (chain_of cp c) l = [].
Proof.
  intros Hr. remember (length l) as k eqn:Hk. revert l Hk.
  induction k as [k IH] using lt_wf_ind. intros l -> Hl. destruct l as [|x l]; [reflexivity|].
  rewrite groups_eq. pose proof (group_chain_progress cp c (x :: l) ltac:(discriminate)) as Hp.
  destruct (group_hidden (length (x :: l)) None false (chain_of cp c) (x :: l) [] Hr I Hl (le_n _)) as [rest [H1 H2]].
  rewrite H2 in *. cbn [fst] in Hp.
  assert (X : snd (group 0 None false (chain_of cp c) [] []) = []).
  { destruct (chain_of_cons cp c) as [rs ->]. cbn [group]. match goal with |- context [find_mand ?q] => destruct (find_mand q) end; reflexivity. }
  rewrite X. apply (IH (length rest)); [exact Hp|reflexivity|exact H1].
Qed.

Lemma group_sim k : forall k' fm again rules l l' sub sub', Forall (fun cr => known cr) rules -> known_first fm ->
  items_sim l l' -> length l <= k -> length l' <= k' -> pairs_sim sub sub' ->
  items_sim (fst (group k fm again rules l sub)) (fst (group k' fm again rules l' sub')) /\
  pairs_sim (snd (group k fm again rules l sub)) (snd (group k' fm again rules l' sub')).
Proof.
  assert (Z : forall fm again rules sub sub', pairs_sim sub sub' ->
    pairs_sim (snd (group 0 fm again rules [] sub)) (snd (group 0 fm again rules [] sub'))).
  { intros fm again rules sub sub' Hs. destruct rules; cbn [group]; match goal with |- context [find_mand ?q] => destruct (find_mand q) end; try exact Hs; constructor. }
  induction k as [|k IH]; intros k' fm again rules l l' sub sub' Hr Hf Hl Hk Hk' Hs.
  - destruct l as [|x l]; [|cbn [length] in Hk; lia]. apply sim_nil_left in Hl.
    destruct (group_hidden 0 fm again rules [] sub Hr Hf (Forall_nil _) (le_n _)) as [r1 [H1 H2]].
    destruct (group_hidden k' fm again rules l' sub' Hr Hf Hl Hk') as [r2 [H3 H4]].
    rewrite H2, H4. cbn [fst snd]. split; [|now apply Z]. rewrite <- (app_nil_r r1). change r2 with ([] ++ r2).
    apply sim_app; [now apply sim_hidden_left|now apply sim_hidden_right].
  - destruct l as [|x l].
    { apply sim_nil_left in Hl.
      destruct (group_hidden (S k) fm again rules [] sub Hr Hf (Forall_nil _) (Nat.le_0_l _)) as [r1 [H1 H2]].
      destruct (group_hidden k' fm again rules l' sub' Hr Hf Hl Hk') as [r2 [H3 H4]].
      rewrite H2, H4. cbn [fst snd]. split; [|now apply Z]. rewrite <- (app_nil_r r1). change r2 with ([] ++ r2).
      apply sim_app; [now apply sim_hidden_left|now apply sim_hidden_right]. }
    destruct l' as [|x' l'].
    { apply sim_nil_right in Hl.
      destruct (group_hidden (S k) fm again rules (x :: l) sub Hr Hf Hl Hk) as [r1 [H1 H2]].
      destruct (group_hidden k' fm again rules [] sub' Hr Hf (Forall_nil _) (Nat.le_0_l _)) as [r2 [H3 H4]].
      rewrite H2, H4. cbn [fst snd]. split; [|now apply Z]. rewrite <- (app_nil_r r1). change r2 with ([] ++ r2).
      apply sim_app; [now apply sim_hidden_left|now apply sim_hidden_right]. }
    destruct k' as [|k']; [cbn [length] in Hk'; lia|].
    destruct rules as [|cr rs].
    { cbn [group tl]. destruct again; cbn [find_mand fst snd]; now split. }
    cbn [group]. inversion Hr as [|? ? Hk1 Hr1]; subst. pose proof (find_mand_known rs Hr1) as HM.
    assert (RS : forall a b c c', Forall (fun cr => known cr) a -> items_sim b c -> c' = None ->
      pairs_sim (snd (range a b None)) (snd (range a c c'))).
    { intros a b c c' Ha Hb ->. now apply range_sim. }
    destruct (r_optional (snd cr) || again).
    + destruct (find_mand rs) as [[[between stop] after]|] eqn:Em.
      * destruct HM as [HM1 [HM2 HM3]].
        pose proof (once_sim stop _ _ HM2 Hl) as G.
        pose proof (once_shorter stop (x :: l)) as L1. pose proof (once_shorter stop (x' :: l')) as L2.
        destruct (once stop (x :: l)) as [[[[pre y] inner] rest]|], (once stop (x' :: l')) as [[[[pre' y'] inner'] rest']|]; try contradiction;
          [|now split; constructor].
        destruct G as [G1 [G2 [G3 G4]]].
        apply IH; try assumption.
        -- unfold or_first. destruct fm, again; cbn [known_first]; try exact Hf; try exact HM2; exact Hk1.
        -- specialize (L1 _ _ _ _ eq_refl); cbn [length] in *. lia.
        -- specialize (L2 _ _ _ _ eq_refl); cbn [length] in *. lia.
        -- apply pairs_app; [exact Hs|]. apply pairs_app; [exact G3|]. apply pairs_app; [|now apply pairs_one].
           apply RS; [now constructor|exact G1|reflexivity].
      * destruct fm as [stop|].
        -- pose proof (once_sim stop _ _ Hf Hl) as G.
           destruct (once stop (x :: l)) as [[[[pre y] inner] rest]|], (once stop (x' :: l')) as [[[[pre' y'] inner'] rest']|]; try contradiction.
           ++ destruct G as [G1 [G2 [G3 G4]]]. cbn [fst snd]. split; [now constructor|]. apply pairs_app; [exact Hs|]. now apply RS.
           ++ cbn [fst snd]. split; [constructor|]. apply pairs_app; [exact Hs|]. now apply RS.
        -- destruct (range_sim (cr :: rs) Hr _ _ None None Hl I) as [G1 G2].
           destruct (range (cr :: rs) (x :: l) None) as [la more], (range (cr :: rs) (x' :: l') None) as [la' more'].
           cbn [fst snd] in *. split; [|now apply pairs_app].
           unfold last_sim in G1. destruct la, la'; try contradiction; [exact G1|constructor].
    + pose proof (once_sim cr _ _ Hk1 Hl) as G.
      pose proof (once_shorter cr (x :: l)) as L1. pose proof (once_shorter cr (x' :: l')) as L2.
      destruct (once cr (x :: l)) as [[[[pre y] inner] rest]|], (once cr (x' :: l')) as [[[[pre' y'] inner'] rest']|]; try contradiction;
        [|now split; constructor].
      destruct G as [_ [G2 [G3 G4]]]. specialize (L1 _ _ _ _ eq_refl); cbn [length] in *. specialize (L2 _ _ _ _ eq_refl); cbn [length] in *.
      destruct (r_greedy (snd cr)); apply IH; try assumption; try lia.
      * apply pairs_app; [exact Hs|]. apply pairs_app; [exact G3|now apply pairs_one].
      * unfold or_first. destruct fm; [exact Hf|exact Hk1].
      * apply pairs_app; [exact Hs|]. apply pairs_app; [exact G3|now apply pairs_one].
Qed.

Lemma groups_sim cp c l l' : Forall (fun cr => known cr) (chain_of cp c) -> items_sim l l' ->
  Forall2 pairs_sim (groups (chain_of cp c) l) (groups (chain_of cp c) l').
Proof.
  intros Hr. remember (length l) as k eqn:Hk. revert l l' Hk.
  induction k as [k IH] using lt_wf_ind. intros l l' -> Hl.
  destruct l as [|x l]; [rewrite (groups_hidden cp c l' Hr (sim_nil_left _ Hl)); constructor|].
  destruct l' as [|x' l']; [rewrite (groups_hidden cp c (x :: l) Hr (sim_nil_right _ Hl)); constructor|].
  rewrite !groups_eq. pose proof (group_chain_progress cp c (x :: l) ltac:(discriminate)) as Hp.
  destruct (group_sim (length (x :: l)) (length (x' :: l')) None false (chain_of cp c) (x :: l) (x' :: l') [] []
    Hr I Hl (le_n _) (le_n _) (Forall2_nil _)) as [G1 G2].
  destruct (group (length (x :: l)) None false (chain_of cp c) (x :: l) []) as [next sub].
  destruct (group (length (x' :: l')) None false (chain_of cp c) (x' :: l') []) as [next' sub'].
  cbn [fst snd] in *. specialize (IH (length next) Hp next next' eq_refl G1).
  inversion G2; subst; [exact IH|]. constructor; [now constructor|exact IH].
Qed.

Lemma save_sim cp c l l' : Forall (fun cr => known cr) (chain_of cp c) -> rget R cp = Some c -> items_sim l l' ->
  Forall2 pairs_sim (save l cp c) (save l' cp c).
Proof.
  intros Hr Hc Hl. unfold save. apply Forall2_app; [now apply groups_sim|].
  induction Hl as [|x x' l l' Hx H IH|x l l' Hx H IH|x l l' Hx H IH]; cbn [map concat].
  - constructor.
  - apply Forall2_app; [apply (proj2 Hx); exact Hc|exact IH].
  - rewrite (proj2 (Hx _ _ Hc)). exact IH.
  - rewrite (proj2 (Hx _ _ Hc)). exact IH.
Qed.

Lemma concat_sim gs gs' : Forall2 pairs_sim gs gs' -> pairs_sim (concat gs) (concat gs').
Proof. induction 1; cbn [concat]; [constructor|now apply pairs_app]. Qed.
Lemma nonempty_sim {A B} (P : A -> B -> Prop) l l' : Forall2 P l l' -> nonempty l = nonempty l'.
Proof. destruct 1; reflexivity. Qed.

End Sim.
