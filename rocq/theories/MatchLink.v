(** The groups of MatchSem.v in terms of positions (GroupAlg.v). *)

From Coq Require Import Arith NArith Bool List Lia Sorted Permutation.
From Verif Require Import Base Dom Values Match Rule RuleMatching MatchSem.
From Verif Require GroupAlg GroupProofs.
Import ListNotations.

Definition default_crule : crule := ([], mk_rule None None [] [] [] 0%N false false None).
Definition default_item : item := mk_item [] (fun _ _ => None) (fun _ _ => []).

Section Link.
Variable chain : list crule.
Variable items : list item.

Definition ruleof (j : nat) : crule := nth j chain default_crule.
Definition itemof (i : nat) : item := nth i items default_item.

Definition opt (j : nat) : bool := r_optional (snd (ruleof j)).
Definition greedy (j : nat) : bool := r_greedy (snd (ruleof j)).
Definition evalp (j i : nat) : option MatchingNodes :=
  it_eval (itemof i) (fst (ruleof j)) (snd (ruleof j)).
Definition matchp (j i : nat) : bool := is_some (evalp j i).
Definition inner (j i : nat) : MatchingNodes := match evalp j i with Some m => m | None => [] end.
Definition pr (p : nat * nat) : rpath * npath := (fst (ruleof (fst p)), it_path (itemof (snd p))).
Definition blk (p : nat * nat) : MatchingNodes := inner (fst p) (snd p) ++ [pr p].
Definition flat (t : list (nat * nat)) : MatchingNodes := flat_map blk t.

Notation R := (map ruleof).
Notation I := (map itemof).

Lemma once_link j is :
  once (ruleof j) (I is) =
  match GroupAlg.once matchp j is with
  | Some (pre, y, rest) => Some (I pre, itemof y, inner j y, I rest)
  | None => None
  end.
Proof.
  induction is as [|x is IH]; simpl; [reflexivity|].
  change (it_eval (itemof x) (fst (ruleof j)) (snd (ruleof j))) with (evalp j x).
  unfold matchp at 1, inner. destruct (evalp j x) as [m|] eqn:E; simpl; [now rewrite E|].
  rewrite IH. destruct (GroupAlg.once matchp j is) as [[[pre y] rest]|]; reflexivity.
Qed.

Lemma all_greedy_link j is :
  all_greedy (ruleof j) (I is) =
  match GroupAlg.allg matchp j is with
  | Some (l, rest) => Some (flat (map (pair j) l), I rest)
  | None => None
  end.
Proof.
  induction is as [|x is IH]; simpl; [reflexivity|].
  change (it_eval (itemof x) (fst (ruleof j)) (snd (ruleof j))) with (evalp j x).
  unfold matchp at 1. rewrite IH. destruct (evalp j x) as [m|] eqn:E; simpl.
  - destruct (GroupAlg.allg matchp j is) as [[l rest]|]; simpl; unfold blk; simpl; unfold inner; rewrite E;
      unfold pr; simpl; [now rewrite <- app_assoc|now rewrite app_nil_r].
  - destruct (GroupAlg.allg matchp j is) as [[l rest]|]; reflexivity.
Qed.

Lemma flat_app t t' : flat (t ++ t') = flat t ++ flat t'.
Proof. apply flat_map_app. Qed.

Lemma range_link rs is la :
  range (R rs) (I is) (option_map I la) =
  let '(l, t) := GroupAlg.range greedy matchp rs is la in (option_map I l, flat t).
Proof.
  revert is la. induction rs as [|j rs IH]; intros is la; simpl; [reflexivity|].
  unfold greedy at 1. destruct (r_greedy (snd (ruleof j))).
  - rewrite all_greedy_link. destruct (GroupAlg.allg matchp j is) as [[l rest]|]; [|apply (IH is None)].
    pose proof (IH rest None) as Hr. simpl option_map in Hr. rewrite Hr. clear Hr. destruct (GroupAlg.range greedy matchp rs rest None) as [l' t].
    now rewrite flat_app.
  - rewrite once_link. destruct (GroupAlg.once matchp j is) as [[[pre y] rest]|]; [|apply (IH is None)].
    pose proof (IH rest (Some rest)) as Hr. simpl option_map in Hr. rewrite Hr. clear Hr. destruct (GroupAlg.range greedy matchp rs rest (Some rest)) as [l' t].
    simpl. unfold blk, pr. simpl. now rewrite <- app_assoc.
Qed.

Lemma find_mand_link rs :
  find_mand (R rs) =
  match GroupAlg.find_mand opt rs with
  | Some (pre, s, post) => Some (R pre, ruleof s, R post)
  | None => None
  end.
Proof.
  induction rs as [|j rs IH]; simpl; [reflexivity|].
  unfold mandatory. change (negb (r_optional (snd (ruleof j)))) with (GroupAlg.mand opt j).
  destruct (GroupAlg.mand opt j); [reflexivity|]. rewrite IH.
  destruct (GroupAlg.find_mand opt rs) as [[[pre s] post]|]; reflexivity.
Qed.

Lemma or_first_link fm j : or_first (option_map ruleof fm) (ruleof j) = option_map ruleof (GroupAlg.or_first fm j).
Proof. destruct fm; reflexivity. Qed.

(** The pairs of a group: the pairs of the match [(j, i)] are [blk (j, i)], in
    order, except that what was found below the node of a mandatory rule comes
    before the matches since the previous mandatory rule ([gap]). [seen] is the
    last mandatory rule that has matched. *)
Fixpoint lay (seen : option nat) (gap : MatchingNodes) (t : list (nat * nat)) : MatchingNodes :=
  match t with
  | [] => gap
  | (j, i) :: t' =>
      if negb (opt j) && negb (match seen with Some j' => j' =? j | None => false end)
      then inner j i ++ gap ++ [pr (j, i)] ++ lay (Some j) [] t'
      else lay seen (gap ++ blk (j, i)) t'
  end.

Definition gap_rule (seen : option nat) (j : nat) : Prop := opt j = true \/ seen = Some j.

Lemma lay_gap seen gap t t' :
  (forall j i, In (j, i) t -> gap_rule seen j) ->
  lay seen gap (t ++ t') = lay seen (gap ++ flat t) t'.
Proof.
  revert gap. induction t as [|[j i] t IH]; intros gap H; simpl app; [now rewrite app_nil_r|].
  cbn [lay]. replace (negb (opt j) && negb (match seen with Some j' => j' =? j | None => false end)) with false.
  - rewrite IH by (intros j' i' H'; apply (H j' i'); now right). simpl. now rewrite app_assoc.
  - destruct (H j i (or_introl eq_refl)) as [->| ->]; [reflexivity|].
    now rewrite Nat.eqb_refl, andb_false_r.
Qed.

Lemma lay_mand seen gap j i t :
  opt j = false -> seen <> Some j ->
  lay seen gap ((j, i) :: t) = inner j i ++ gap ++ [pr (j, i)] ++ lay (Some j) [] t.
Proof.
  intros Ho Hs. cbn [lay]. rewrite Ho. simpl.
  destruct seen as [j'|]; [|reflexivity]. destruct (Nat.eqb_spec j' j); [congruence|reflexivity].
Qed.

Lemma once_in j is pre y rest : GroupAlg.once matchp j is = Some (pre, y, rest) ->
  In y is /\ (forall x, In x pre -> In x is) /\ (forall x, In x rest -> In x is).
Proof.
  intros E. apply GroupAlg.once_some in E as [-> _]. repeat split; intros; apply in_or_app; simpl; auto.
Qed.

(** What is known about the last mandatory rule when [rs] are still to be
    matched. *)
Definition seen_ok (again : bool) (rs : list nat) (seen : option nat) : Prop :=
  match rs with
  | [] => True
  | j :: rs' => (if again then seen = Some j else seen <> Some j) /\ forall j', In j' rs' -> seen <> Some j'
  end.

Lemma group_link k fm again rs is sub seen :
  StronglySorted lt rs -> seen_ok again rs seen ->
  match GroupAlg.grp opt greedy matchp k fm again rs is with
  | Some (next, t, _) =>
      group k (option_map ruleof fm) again (R rs) (I is) sub = (I next, sub ++ lay seen [] t)
  | None => group k (option_map ruleof fm) again (R rs) (I is) sub = ([], [])
  end.
Proof.
  revert fm again rs is sub seen.
  induction k as [|k IH]; intros fm again rs is sub seen Hrs Hseen.
  all: assert (Htail : forall rs',
    match (match GroupAlg.find_mand opt rs' with
           | None => Some (is, [], @None nat)
           | Some _ => None
           end) with
    | Some (next, t, _) =>
      (match find_mand (R rs') with None => (I is, sub) | Some _ => ([], []) end) = (I next, sub ++ lay seen [] t)
    | None => (match find_mand (R rs') with None => (I is, sub) | Some _ => ([], []) end) = ([], [])
    end : Prop)
    by (intros rs'; rewrite find_mand_link; destruct (GroupAlg.find_mand opt rs') as [[[pre s] post]|];
        [reflexivity|simpl; now rewrite app_nil_r]).
  - destruct rs as [|j rs]; [specialize (Htail []); destruct again; exact Htail|].
    destruct is as [|i is]; [|reflexivity].
    destruct again; [exact (Htail rs)|exact (Htail (j :: rs))].
  - destruct rs as [|j rs]; [specialize (Htail []); destruct again; exact Htail|].
    destruct is as [|i0 is0]; [destruct again; [exact (Htail rs)|exact (Htail (j :: rs))]|].
    clear Htail. remember (i0 :: is0) as is eqn:Eis.
    assert (HA : GroupAlg.grp opt greedy matchp (S k) fm again (j :: rs) is =
          if opt j || again then
            match GroupAlg.find_mand opt rs with
            | None =>
                match fm with
                | None =>
                    let '(last, t) := GroupAlg.range greedy matchp (j :: rs) is None in
                    Some (match last with Some rest => rest | None => [] end, t, None)
                | Some stop =>
                    match GroupAlg.once matchp stop is with
                    | Some (pre, y, rest) => Some (y :: rest, snd (GroupAlg.range greedy matchp (j :: rs) pre None), Some y)
                    | None => Some ([], snd (GroupAlg.range greedy matchp (j :: rs) is None), None)
                    end
                end
            | Some (between, stop, after) =>
                match GroupAlg.once matchp stop is with
                | None => None
                | Some (pre, y, rest) =>
                    match GroupAlg.grp opt greedy matchp k (GroupAlg.or_first (if again then GroupAlg.or_first fm j else fm) stop) false after rest with
                    | Some (next, t, bd) =>
                        Some (next, snd (GroupAlg.range greedy matchp (j :: between) pre None) ++ (stop, y) :: t, bd)
                    | None => None
                    end
                end
            end
          else
            match GroupAlg.once matchp j is with
            | None => None
            | Some (_, y, rest) =>
                match (if greedy j then GroupAlg.grp opt greedy matchp k fm true (j :: rs) rest
                       else GroupAlg.grp opt greedy matchp k (GroupAlg.or_first fm j) false rs rest) with
                | Some (next, t, bd) => Some (next, (j, y) :: t, bd)
                | None => None
                end
            end) by (subst is; reflexivity).
    assert (HB : group (S k) (option_map ruleof fm) again (R (j :: rs)) (I is) sub =
          if opt j || again then
            match find_mand (R rs) with
            | None =>
                match option_map ruleof fm with
                | None =>
                    let '(last, more) := range (R (j :: rs)) (I is) None in
                    (match last with Some rest => rest | None => [] end, sub ++ more)
                | Some stop =>
                    match once stop (I is) with
                    | Some (pre, y, _, rest) => (y :: rest, sub ++ snd (range (R (j :: rs)) pre None))
                    | None => ([], sub ++ snd (range (R (j :: rs)) (I is) None))
                    end
                end
            | Some (between, stop, after) =>
                match once stop (I is) with
                | None => ([], [])
                | Some (pre, y, inner, rest) =>
                    let more := snd (range (ruleof j :: between) pre None) in
                    group k (or_first (if again then or_first (option_map ruleof fm) (ruleof j) else (option_map ruleof fm)) stop) false after rest
                          (sub ++ inner ++ more ++ [(fst stop, it_path y)])
                end
            end
          else
            match once (ruleof j) (I is) with
            | None => ([], [])
            | Some (_, y, inner, rest) =>
                if greedy j
                then group k (option_map ruleof fm) true (R (j :: rs)) rest (sub ++ inner ++ [(fst (ruleof j), it_path y)])
                else group k (or_first (option_map ruleof fm) (ruleof j)) false (R rs) rest (sub ++ inner ++ [(fst (ruleof j), it_path y)])
            end) by (subst is; reflexivity).
    rewrite HA, HB. clear HA HB Eis i0 is0.
    inversion Hrs as [|? ? Hrs' HFj]; subst. rewrite Forall_forall in HFj.
    destruct Hseen as [Hseen1 Hseen2].
    destruct (opt j || again) eqn:Hoa.
    + assert (Hgj : gap_rule seen j).
      { destruct again; [now right|]. rewrite orb_false_r in Hoa. now left. }
      rewrite find_mand_link.
      pose proof (GroupAlg.find_mand_spec opt rs) as Hfm.
      destruct (GroupAlg.find_mand opt rs) as [[[bt s] post]|].
      * destruct Hfm as [Hsplit [Hms Hbt]].
        assert (Hsin : In s rs) by (rewrite Hsplit; apply in_or_app; right; now left).
        rewrite once_link. destruct (GroupAlg.once matchp s is) as [[[pre y] rest]|] eqn:Eo; [|reflexivity].
        change (ruleof j :: R bt) with (R (j :: bt)).
        pose proof (range_link (j :: bt) pre None) as Hr. simpl option_map in Hr. rewrite Hr. clear Hr.
        assert (Hv : forall j' i', In (j', i') (snd (GroupAlg.range greedy matchp (j :: bt) pre None)) -> gap_rule seen j').
        { intros j' i' Hp. apply GroupAlg.range_in in Hp as [[<-|Hj'] _]; [exact Hgj|].
          left. specialize (Hbt _ Hj'). unfold GroupAlg.mand in Hbt. now apply negb_false_iff in Hbt. }
        destruct (GroupAlg.range greedy matchp (j :: bt) pre None) as [la tm]. cbn [snd fst] in *. cbv zeta.
        specialize (IH (GroupAlg.or_first (if again then GroupAlg.or_first fm j else fm) s) false post rest
          (sub ++ inner s y ++ flat tm ++ [pr (s, y)]) (Some s)).
        assert (Hfm' : or_first (if again then or_first (option_map ruleof fm) (ruleof j) else option_map ruleof fm) (ruleof s)
               = option_map ruleof (GroupAlg.or_first (if again then GroupAlg.or_first fm j else fm) s)).
        { destruct again; rewrite ?or_first_link; reflexivity. }
        rewrite Hfm'.
        assert (Hpost : StronglySorted lt (s :: post)).
        { rewrite Hsplit in Hrs'. now apply GroupAlg.ss_app_inv in Hrs' as [_ [H _]]. }
        inversion Hpost as [|? ? Hpost' HFs]; subst. rewrite Forall_forall in HFs.
        assert (Hseen' : seen_ok false post (Some s)).
        { destruct post as [|a post]; [exact Logic.I|]. split.
          - intros E. injection E as ->. specialize (HFs a (or_introl eq_refl)). lia.
          - intros j' Hj' E. injection E as ->. specialize (HFs j' (or_intror Hj')). lia. }
        specialize (IH Hpost' Hseen').
        destruct (GroupAlg.grp opt greedy matchp k _ false post rest) as [[[next t] bd]|]; [|exact IH].
        rewrite lay_gap by exact Hv. rewrite lay_mand; [| |apply Hseen2; exact Hsin].
        2:{ unfold GroupAlg.mand in Hms. now apply negb_true_iff in Hms. }
        etransitivity; [exact IH|]. f_equal. rewrite <- !app_assoc. reflexivity.
      * assert (Hv : forall is' j' i', In (j', i') (snd (GroupAlg.range greedy matchp (j :: rs) is' None)) -> gap_rule seen j').
        { intros is' j' i' Hp. apply GroupAlg.range_in in Hp as [[<-|Hj'] _]; [exact Hgj|].
          left. specialize (Hfm _ Hj'). unfold GroupAlg.mand in Hfm. now apply negb_false_iff in Hfm. }
        assert (Hlay : forall is', lay seen [] (snd (GroupAlg.range greedy matchp (j :: rs) is' None)) =
           flat (snd (GroupAlg.range greedy matchp (j :: rs) is' None))).
        { intros is'. pose proof (lay_gap seen [] _ [] (Hv is')) as E. now rewrite app_nil_r in E. }
        destruct fm as [stop|]; cbn [option_map].
        -- rewrite once_link. destruct (GroupAlg.once matchp stop is) as [[[pre y] rest]|] eqn:Eo.
           ++ rewrite Hlay. pose proof (range_link (j :: rs) pre None) as Hr. simpl option_map in Hr. rewrite Hr. clear Hr.
              destruct (GroupAlg.range greedy matchp (j :: rs) pre None) as [la tm]. reflexivity.
           ++ rewrite Hlay. pose proof (range_link (j :: rs) is None) as Hr. simpl option_map in Hr. rewrite Hr. clear Hr.
              destruct (GroupAlg.range greedy matchp (j :: rs) is None) as [la tm]. reflexivity.
        -- specialize (Hlay is). pose proof (range_link (j :: rs) is None) as Hr. simpl option_map in Hr. rewrite Hr. clear Hr.
           destruct (GroupAlg.range greedy matchp (j :: rs) is None) as [la tm]. cbn [snd] in *. rewrite Hlay.
           destruct la; reflexivity.
    + apply orb_false_iff in Hoa as [Ho ->].
      rewrite once_link. destruct (GroupAlg.once matchp j is) as [[[pre y] rest]|] eqn:Eo; [|reflexivity].
      destruct (greedy j).
      * specialize (IH fm true (j :: rs) rest (sub ++ inner j y ++ [(fst (ruleof j), it_path (itemof y))]) (Some j) Hrs).
        assert (Hs' : seen_ok true (j :: rs) (Some j)).
        { split; [reflexivity|]. intros j' Hj' E. injection E as ->. specialize (HFj _ Hj'). lia. }
        specialize (IH Hs').
        destruct (GroupAlg.grp opt greedy matchp k fm true (j :: rs) rest) as [[[next t] bd]|]; [|exact IH].
        rewrite lay_mand by assumption. etransitivity; [exact IH|]. f_equal. rewrite <- !app_assoc. reflexivity.
      * specialize (IH (GroupAlg.or_first fm j) false rs rest (sub ++ inner j y ++ [(fst (ruleof j), it_path (itemof y))]) (Some j) Hrs').
        assert (Hs' : seen_ok false rs (Some j)).
        { destruct rs as [|a rs]; [exact Logic.I|]. split.
          - intros E. injection E as ->. specialize (HFj a (or_introl eq_refl)). lia.
          - intros j' Hj' E. injection E as ->. specialize (HFj j' (or_intror Hj')). lia. }
        specialize (IH Hs'). rewrite or_first_link.
        destruct (GroupAlg.grp opt greedy matchp k (GroupAlg.or_first fm j) false rs rest) as [[[next t] bd]|]; [|exact IH].
        rewrite lay_mand by assumption. etransitivity; [exact IH|]. f_equal. rewrite <- !app_assoc. reflexivity.
Qed.

Lemma app_cons_nonempty {A} (a b c : list A) x : a ++ b ++ [x] ++ c <> [].
Proof. destruct a; [destruct b|]; discriminate. Qed.

Lemma lay_nonempty seen gap p t : lay seen gap (p :: t) <> [].
Proof.
  assert (H : forall t seen gap, gap <> [] -> lay seen gap t <> []).
  { clear. induction t as [|[j i] t IH]; intros seen gap Hg; cbn [lay]; [exact Hg|].
    destruct (negb (opt j) && _); [apply app_cons_nonempty|].
    apply IH. destruct gap; [congruence|discriminate]. }
  destruct p as [j i]. cbn [lay]. destruct (negb (opt j) && _); [apply app_cons_nonempty|].
  apply H. unfold blk. pose proof (app_cons_nonempty gap (inner j i) [] (pr (j, i))) as E.
  exact E.
Qed.

Lemma chain_link : chain = R (seq 0 (length chain)).
Proof.
  unfold ruleof. apply nth_ext with (d := default_crule) (d' := nth 0 chain default_crule).
  - now rewrite map_length, seq_length.
  - intros i Hi. rewrite (map_nth (fun j => nth j chain default_crule)). now rewrite seq_nth.
Qed.

Lemma items_link : items = I (seq 0 (length items)).
Proof.
  unfold itemof. apply nth_ext with (d := default_item) (d' := nth 0 items default_item).
  - now rewrite map_length, seq_length.
  - intros i Hi. rewrite (map_nth (fun j => nth j items default_item)). now rewrite seq_nth.
Qed.

Lemma groups_k_link k is :
  StronglySorted lt is ->
  groups_k k chain (I is) = map (lay None []) (GroupProofs.pgroups (length chain) opt greedy matchp k is).
Proof.
  revert is. induction k as [|k IH]; intros is Hs; [destruct is; reflexivity|].
  destruct is as [|i is]; [reflexivity|].
  assert (HA : groups_k (S k) chain (I (i :: is)) =
    let '(next, sub) := group (length (i :: is)) None false chain (I (i :: is)) [] in
    let rest := groups_k k chain next in
    match sub with [] => rest | _ => sub :: rest end).
  { cbn [groups_k map length]. now rewrite map_length. }
  rewrite HA. clear HA. remember (i :: is) as ns eqn:Ens.
  assert (HB : GroupProofs.pgroups (length chain) opt greedy matchp (S k) ns =
    match GroupAlg.grp opt greedy matchp (length ns) None false (seq 0 (length chain)) ns with
    | Some (next, t, _) =>
        let rest := GroupProofs.pgroups (length chain) opt greedy matchp k next in
        match t with [] => rest | _ => t :: rest end
    | None => []
    end) by (subst ns; reflexivity).
  rewrite HB. clear HB Ens i is.
  pose proof (group_link (length ns) None false (seq 0 (length chain)) ns [] None (GroupAlg.seq_sorted _ _)) as HG.
  assert (Hseen : seen_ok false (seq 0 (length chain)) None).
  { destruct (length chain); [exact Logic.I|]. split; [discriminate|]. intros j' _ E. discriminate E. }
  specialize (HG Hseen).
  pose proof (GroupAlg.grp_post opt greedy matchp (length ns) None false 0 (length chain) ns Hs (le_n _)
    (GroupProofs.inv0 _ _ _)) as HP.
  rewrite <- chain_link in HG. cbn [option_map] in HG.
  destruct (GroupAlg.grp opt greedy matchp (length ns) None false (seq 0 (length chain)) ns) as [[[next t] bd]|].
  - rewrite HG. cbv zeta. simpl app.
    destruct (GroupAlg.post_next _ _ _ _ _ _ _ _ _ _ HP) as [pre Hpre].
    assert (IH' : groups_k k chain (I next) = map (lay None []) (GroupProofs.pgroups (length chain) opt greedy matchp k next)).
    { apply IH. rewrite Hpre in Hs. now apply GroupAlg.ss_app_inv in Hs as [_ [Hs _]]. }
    destruct t as [|p t]; [exact IH'|].
    pose proof (lay_nonempty None [] p t) as Hne. cbn [map]. rewrite <- IH'.
    destruct (lay None [] (p :: t)); [congruence|reflexivity].
  - rewrite HG. destruct k; reflexivity.
Qed.

Theorem groups_link :
  groups chain items =
  map (lay None [])
    (GroupProofs.pgroups (length chain) opt greedy matchp (length items) (seq 0 (length items))).
Proof.
  unfold groups. rewrite items_link at 2. apply groups_k_link. apply GroupAlg.seq_sorted.
Qed.

End Link.
