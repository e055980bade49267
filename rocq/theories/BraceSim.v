(** The search with rules whose braces stand in another order. *)

From Coq Require Import Ascii String Arith NArith ZArith Bool List Lia Permutation Sorted.
From Verif Require Import Base Tags Dom Values Match Rule RuleMatching StringProofs MatchSem MatchRefine AlikeSim MatchSpec ExtractSpec RewriteSpec BraceSpec BraceProofs.
Import ListNotations.

Section Sim.
Variable R R' : rule.
Variable g : rpath -> rpath.
Hypothesis Hg : renumbered R R' g.
Variable ordered : str -> Prop.
Hypothesis Hkeep : forall name, ordered name -> keeps R g name.

Definition stores (T : rule) (name : str) (x : rpath * npath) : bool :=
  match rget T (fst x) with Some r => existsb (fun c => str_eqb (stores_as c) name) (present (r_captures r)) | None => false end.

Definition gp (x : rpath * npath) : rpath * npath := (g (fst x), snd x).

Definition inside (base : rpath) (m : MatchingNodes) : Prop := forall x, In x m -> (exists q, fst x = q ++ base) /\ rget R (fst x) <> None.

Definition prel (base : rpath) (m m' : MatchingNodes) : Prop :=
  Permutation (map gp m) m' /\ (forall name, ordered name -> filter (stores R' name) (map gp m) = filter (stores R' name) m') /\ inside base m.

Lemma prel_nil base : prel base [] [].
Proof. split; [constructor|]. split; [reflexivity|]. intros x []. Qed.

Lemma prel_app base a a' b b' : prel base a a' -> prel base b b' -> prel base (a ++ b) (a' ++ b').
Proof.
  intros (A1 & A2 & A3) (B1 & B2 & B3). split; [rewrite map_app; now apply Permutation_app|]. split.
  - intros name Hn. rewrite map_app, !filter_app, (A2 name Hn), (B2 name Hn). reflexivity.
  - intros x Hx. apply in_app_or in Hx as [Hx|Hx]; [now apply A3|now apply B3].
Qed.

Lemma prel_weaken q base m m' : prel (q ++ base) m m' -> prel base m m'.
Proof.
  intros (A1 & A2 & A3). split; [exact A1|]. split; [exact A2|]. intros x Hx. destruct (A3 x Hx) as [[q' Hq] Hr]. split; [|exact Hr].
  exists (q' ++ q). now rewrite <- app_assoc.
Qed.

Lemma prel_empty base m m' : prel base m m' -> nonempty m = nonempty m'.
Proof.
  intros (A1 & _). destruct m as [|x m], m' as [|y m']; try reflexivity.
  - apply Permutation_nil in A1. discriminate.
  - apply Permutation_sym, Permutation_nil in A1. discriminate.
Qed.

Lemma concat_prel base gs gs' : Forall2 (prel base) gs gs' -> prel base (concat gs) (concat gs').
Proof. induction 1; cbn [concat]; [apply prel_nil|now apply prel_app]. Qed.

Definition eval_rel (base : rpath) (a a' : option MatchingNodes) : Prop :=
  match a, a' with Some m, Some m' => prel base m m' | None, None => True | _, _ => False end.

Definition good (x : item) : Prop :=
  forall rp r r', rget R rp = Some r -> rget R' (g rp) = Some r' ->
    eval_rel rp (it_eval x rp r) (it_eval x (g rp) r') /\ Forall2 (prel rp) (it_below x rp r) (it_below x (g rp) r').

Definition krel (base : rpath) (cr cr' : crule) : Prop :=
  rget R (fst cr) = Some (snd cr) /\ fst cr' = g (fst cr) /\ rget R' (fst cr') = Some (snd cr') /\ exists q, fst cr = q ++ base.

Lemma krel_same base cr cr' : krel base cr cr' -> same_rule (snd cr) (snd cr').
Proof.
  intros (H1 & H2 & H3 & _). destruct Hg as (_ & H & _). destruct (H _ _ H1) as [r' [Hr S]]. rewrite <- H2, H3 in Hr. injection Hr as <-. exact S.
Qed.

Lemma krel_eval base cr cr' x : krel base cr cr' -> good x -> eval_rel base (it_eval x (fst cr) (snd cr)) (it_eval x (fst cr') (snd cr')).
Proof.
  intros (H1 & H2 & H3 & [q Hq]) Hx. rewrite H2 in *. destruct (Hx _ _ _ H1 H3) as [H _]. unfold eval_rel in *.
  destruct (it_eval x (fst cr) (snd cr)), (it_eval x (g (fst cr)) (snd cr')); try exact H. rewrite Hq in H. exact (prel_weaken q base _ _ H).
Qed.

Lemma prel_one base cr cr' (p : npath) : krel base cr cr' -> prel base [(fst cr, p)] [(fst cr', p)].
Proof.
  intros (H1 & H2 & H3 & Hq). unfold prel. cbn [map]. unfold gp at 1 2. cbn [fst snd]. rewrite <- H2. split; [apply Permutation_refl|]. split; [reflexivity|].
  intros x [<-|[]]. cbn [fst]. split; [exact Hq|congruence].
Qed.

Lemma once_rel base cr cr' ns : krel base cr cr' -> Forall good ns ->
  match once cr ns, once cr' ns with
  | Some (pre, y, inner, rest), Some (pre', y', inner', rest') =>
      pre = pre' /\ y = y' /\ rest = rest' /\ prel base inner inner' /\ Forall good pre /\ Forall good rest
  | None, None => True
  | _, _ => False
  end.
Proof.
  intros Hk. induction 1 as [|x ns Hx Hns IH]; cbn [once]; [exact I|].
  pose proof (krel_eval base cr cr' x Hk Hx) as He. unfold eval_rel in He.
  destruct (it_eval x (fst cr) (snd cr)) as [m|], (it_eval x (fst cr') (snd cr')) as [m'|]; try contradiction.
  - split; [reflexivity|]. split; [reflexivity|]. split; [reflexivity|]. split; [exact He|]. split; [constructor|exact Hns].
  - destruct (once cr ns) as [[[[pre y] inner] rest]|], (once cr' ns) as [[[[pre' y'] inner'] rest']|]; try contradiction; [|exact I].
    destruct IH as (-> & -> & -> & IH & IH1 & IH2). split; [reflexivity|]. split; [reflexivity|]. split; [reflexivity|]. split; [exact IH|]. split; [now constructor|exact IH2].
Qed.

Lemma greedy_rel base cr cr' ns : krel base cr cr' -> Forall good ns ->
  match all_greedy cr ns, all_greedy cr' ns with
  | Some (m, rest), Some (m', rest') => prel base m m' /\ rest = rest' /\ Forall good rest
  | None, None => True
  | _, _ => False
  end.
Proof.
  intros Hk. induction 1 as [|x ns Hx Hns IH]; cbn [all_greedy]; [exact I|].
  pose proof (krel_eval base cr cr' x Hk Hx) as He. unfold eval_rel in He.
  destruct (it_eval x (fst cr) (snd cr)) as [m|], (it_eval x (fst cr') (snd cr')) as [m'|]; try contradiction; [|exact IH].
  destruct (all_greedy cr ns) as [[l rest]|], (all_greedy cr' ns) as [[l' rest']|]; try contradiction.
  - destruct IH as (H1 & -> & H2). split; [|split; [reflexivity|exact H2]]. apply prel_app; [exact He|]. apply prel_app; [now apply prel_one|exact H1].
  - split; [|split; [reflexivity|exact Hns]]. apply prel_app; [exact He|now apply prel_one].
Qed.

Definition last_good (o : option (list item)) : Prop := match o with Some l => Forall good l | None => True end.

Lemma range_rel base rs rs' : Forall2 (krel base) rs rs' -> forall ns la, Forall good ns -> last_good la ->
  fst (range rs ns la) = fst (range rs' ns la) /\ prel base (snd (range rs ns la)) (snd (range rs' ns la)) /\ last_good (fst (range rs ns la)).
Proof.
  induction 1 as [|cr cr' rs rs' Hk _ IH]; intros ns la Hns Hla; cbn [range]; [split; [reflexivity|]; split; [apply prel_nil|exact Hla]|].
  destruct (krel_same base cr cr' Hk) as (_ & _ & _ & _ & _ & <- & _). destruct (r_greedy (snd cr)).
  - pose proof (greedy_rel base cr cr' ns Hk Hns) as G.
    destruct (all_greedy cr ns) as [[m rest]|], (all_greedy cr' ns) as [[m' rest']|]; try contradiction; [|now apply IH].
    destruct G as (G1 & <- & G2). destruct (IH rest None G2 I) as (I1 & I2 & I3).
    destruct (range rs rest None), (range rs' rest None). cbn [fst snd] in *. split; [exact I1|]. split; [now apply prel_app|exact I3].
  - pose proof (once_rel base cr cr' ns Hk Hns) as G.
    destruct (once cr ns) as [[[[pre y] inner] rest]|], (once cr' ns) as [[[[pre' y'] inner'] rest']|]; try contradiction; [|now apply IH].
    destruct G as (<- & <- & <- & G1 & G2 & G3). destruct (IH rest (Some rest) G3 G3) as (I1 & I2 & I3).
    destruct (range rs rest (Some rest)), (range rs' rest (Some rest)). cbn [fst snd] in *. split; [exact I1|]. split; [|exact I3].
    apply prel_app; [exact G1|]. exact (prel_app base [_] [_] _ _ (prel_one base cr cr' (it_path y) Hk) I2).
Qed.

Lemma find_mand_rel base rs rs' : Forall2 (krel base) rs rs' ->
  match find_mand rs, find_mand rs' with
  | Some (pre, m, post), Some (pre', m', post') => Forall2 (krel base) pre pre' /\ krel base m m' /\ Forall2 (krel base) post post'
  | None, None => True
  | _, _ => False
  end.
Proof.
  induction 1 as [|cr cr' rs rs' Hk H IH]; cbn [find_mand]; [exact I|].
  assert (E : mandatory cr = mandatory cr') by (destruct (krel_same base cr cr' Hk) as (_ & _ & _ & _ & E & _); unfold mandatory; now rewrite E).
  rewrite <- E. destruct (mandatory cr); [split; [constructor|now split]|].
  destruct (find_mand rs) as [[[pre m] post]|], (find_mand rs') as [[[pre' m'] post']|]; try contradiction; [|exact I].
  destruct IH as (H1 & H2). split; [now constructor|exact H2].
Qed.

Definition frel (base : rpath) (fm fm' : option crule) : Prop :=
  match fm, fm' with Some a, Some b => krel base a b | None, None => True | _, _ => False end.

Lemma or_first_rel base fm fm' a b : frel base fm fm' -> krel base a b -> frel base (or_first fm a) (or_first fm' b).
Proof. destruct fm, fm'; cbn [frel or_first]; auto; contradiction. Qed.

Lemma group_rel base k : forall fm fm' again rules rules' ns sub sub', Forall2 (krel base) rules rules' -> frel base fm fm' ->
  Forall good ns -> prel base sub sub' ->
  fst (group k fm again rules ns sub) = fst (group k fm' again rules' ns sub') /\
  prel base (snd (group k fm again rules ns sub)) (snd (group k fm' again rules' ns sub')) /\
  Forall good (fst (group k fm again rules ns sub)).
Proof.
  assert (Z : forall again rules rules' (ns : list item) sub sub', Forall2 (krel base) rules rules' -> Forall good ns -> prel base sub sub' ->
    let a := match find_mand (if again : bool then tl rules else rules) with None => (ns, sub) | Some _ => ([], []) end in
    let b := match find_mand (if again then tl rules' else rules') with None => (ns, sub') | Some _ => ([], []) end in
    fst a = fst b /\ prel base (snd a) (snd b) /\ Forall good (fst a)).
  { intros again rules rules' ns sub sub' Hr Hn Hs a b. subst a b.
    assert (HT : Forall2 (krel base) (if again then tl rules else rules) (if again then tl rules' else rules')).
    { destruct again; [|exact Hr]. destruct Hr; [constructor|assumption]. }
    pose proof (find_mand_rel base _ _ HT) as HM.
    destruct (find_mand (if again then tl rules else rules)) as [[[? ?] ?]|], (find_mand (if again then tl rules' else rules')) as [[[? ?] ?]|]; try contradiction; cbn [fst snd].
    - split; [reflexivity|]. split; [apply prel_nil|constructor].
    - split; [reflexivity|]. split; [exact Hs|exact Hn]. }
  induction k as [|k IH]; intros fm fm' again rules rules' ns sub sub' Hr Hf Hn Hs.
  - destruct Hr as [|cr cr' rs rs' Hk Hr]; cbn [group]; [now apply (Z again [] [] ns)|]. destruct ns as [|x ns]; [|split; [reflexivity|]; split; [apply prel_nil|constructor]].
    now apply (Z again (cr :: rs) (cr' :: rs') []); [constructor|..].
  - destruct Hr as [|cr cr' rs rs' Hk Hr]; cbn [group]; [now apply (Z again [] [] ns)|]. destruct ns as [|x ns]; [now apply (Z again (cr :: rs) (cr' :: rs') []); [constructor|..]|].
    destruct (krel_same base cr cr' Hk) as (_ & _ & _ & _ & <- & <- & _). pose proof (find_mand_rel base rs rs' Hr) as HM.
    assert (Hrr : Forall2 (krel base) (cr :: rs) (cr' :: rs')) by now constructor.
    destruct (r_optional (snd cr) || again).
    + destruct (find_mand rs) as [[[between stop] after]|], (find_mand rs') as [[[between' stop'] after']|]; try contradiction.
      * destruct HM as (HM1 & HM2 & HM3). pose proof (once_rel base stop stop' _ HM2 Hn) as G.
        destruct (once stop (x :: ns)) as [[[[pre y] inner] rest]|], (once stop' (x :: ns)) as [[[[pre' y'] inner'] rest']|]; try contradiction;
          [|split; [reflexivity|]; split; [apply prel_nil|constructor]].
        destruct G as (<- & <- & <- & G1 & G2 & G3). apply IH; try assumption.
        -- apply or_first_rel; [|exact HM2]. destruct again; [now apply or_first_rel|exact Hf].
        -- apply prel_app; [exact Hs|]. apply prel_app; [exact G1|]. apply prel_app; [|now apply prel_one].
           apply (range_rel base (cr :: between) (cr' :: between')); [now constructor|exact G2|exact I].
      * destruct fm as [stop|], fm' as [stop'|]; try contradiction.
        -- pose proof (once_rel base stop stop' _ Hf Hn) as G. pose proof (once_eq stop (x :: ns)) as OE.
           destruct (once stop (x :: ns)) as [[[[pre y] inner] rest]|], (once stop' (x :: ns)) as [[[[pre' y'] inner'] rest']|]; try contradiction.
           ++ destruct G as (<- & <- & <- & G1 & G2 & G3). cbn [fst snd]. split; [reflexivity|]. split.
              ** apply prel_app; [exact Hs|]. apply (range_rel base (cr :: rs) (cr' :: rs') Hrr pre None G2 I).
              ** constructor; [|exact G3]. destruct OE as [OE _]. rewrite OE in Hn. apply Forall_app in Hn as [_ Hn]. now inversion Hn.
           ++ cbn [fst snd]. split; [reflexivity|]. split; [|constructor]. apply prel_app; [exact Hs|].
              apply (range_rel base (cr :: rs) (cr' :: rs') Hrr (x :: ns) None Hn I).
        -- destruct (range_rel base (cr :: rs) (cr' :: rs') Hrr (x :: ns) None Hn I) as (G1 & G2 & G3).
           destruct (range (cr :: rs) (x :: ns) None) as [la more], (range (cr' :: rs') (x :: ns) None) as [la' more'].
           cbn [fst snd] in *. subst la'. split; [reflexivity|]. split; [now apply prel_app|]. destruct la; [exact G3|constructor].
    + pose proof (once_rel base cr cr' _ Hk Hn) as G.
      destruct (once cr (x :: ns)) as [[[[pre y] inner] rest]|], (once cr' (x :: ns)) as [[[[pre' y'] inner'] rest']|]; try contradiction;
        [|split; [reflexivity|]; split; [apply prel_nil|constructor]].
      destruct G as (<- & <- & <- & G1 & G2 & G3).
      assert (HP : prel base (sub ++ inner ++ [(fst cr, it_path y)]) (sub' ++ inner' ++ [(fst cr', it_path y)])).
      { apply prel_app; [exact Hs|]. apply prel_app; [exact G1|now apply prel_one]. }
      destruct (r_greedy (snd cr)); apply IH; try assumption. now apply or_first_rel.
Qed.

Lemma groups_rel base rules rules' ns : Forall2 (krel base) rules rules' -> Forall good ns ->
  Forall2 (prel base) (groups rules ns) (groups rules' ns).
Proof.
  intros Hr. unfold groups. generalize (length ns) as k. intros k. revert ns. induction k as [|k IH]; intros ns Hn; cbn [groups_k]; [constructor|].
  destruct ns as [|x ns]; [constructor|].
  destruct (group_rel base (length (x :: ns)) None None false rules rules' (x :: ns) [] [] Hr I Hn (prel_nil base)) as (G1 & G2 & G3).
  destruct (group (length (x :: ns)) None false rules (x :: ns) []) as [next sub].
  destruct (group (length (x :: ns)) None false rules' (x :: ns) []) as [next' sub']. cbn [fst snd] in *. subst next'.
  specialize (IH next G3). pose proof (prel_empty base _ _ G2) as HE.
  destruct sub as [|s1 sub], sub' as [|s2 sub']; try discriminate HE; [exact IH|]. now constructor.
Qed.

Lemma chain_rel : forall r rp r' q base, rp = q ++ base -> rget R rp = Some r -> rget R' (g rp) = Some r' ->
  Forall2 (krel base) (chain_of rp r) (chain_of (g rp) r').
Proof.
  induction r as [r IH] using rule_next_ind; intros rp r' q base Hb Hr Hr'.
  assert (HK : krel base (rp, r) (g rp, r')) by (split; [exact Hr|]; split; [reflexivity|]; split; [exact Hr'|now exists q]).
  pose proof (krel_same base _ _ HK) as (_ & _ & _ & _ & _ & _ & _ & HN & _). cbn [snd] in HN. rewrite !chain_of_eq. constructor; [exact HK|].
  destruct (r_next r) as [n|] eqn:En.
  - assert (Hn : rget R (RNext :: rp) = Some n) by (cbn [rget]; rewrite Hr; exact En).
    assert (Hgn : g (RNext :: rp) = RNext :: g rp) by (apply Hg; congruence).
    destruct (r_next r') as [n'|] eqn:En'; [|exfalso; assert (X : Some n = None) by (now apply HN); discriminate X].
    rewrite <- Hgn. apply (IH n eq_refl (RNext :: rp) n' (RNext :: q) base); [now rewrite Hb|exact Hn|].
    rewrite Hgn. cbn [rget]. rewrite Hr'. exact En'.
  - destruct (r_next r') as [n'|] eqn:En'; [|constructor]. assert (X : Some n' = None) by now apply HN. discriminate X.
Qed.

Lemma save_rel q base rp r r' ns : rp = q ++ base -> rget R rp = Some r -> rget R' (g rp) = Some r' -> Forall good ns ->
  Forall2 (prel base) (save ns rp r) (save ns (g rp) r').
Proof.
  intros Hb Hr Hr' Hn. unfold save. apply Forall2_app; [apply groups_rel; [now apply (chain_rel r rp r' q base)|exact Hn]|].
  induction Hn as [|x ns Hx _ IH]; cbn [map concat]; [constructor|]. apply Forall2_app; [|exact IH].
  destruct (Hx rp r r' Hr Hr') as [_ H]. subst rp. clear - H. induction H; constructor; [now apply (prel_weaken q)|assumption].
Qed.

Lemma nonempty_rel base gs gs' : Forall2 (prel base) gs gs' -> nonempty gs = nonempty gs'.
Proof. destruct 1; reflexivity. Qed.

Lemma has_mand_rel base rs rs' : Forall2 (krel base) rs rs' -> has_mand rs = has_mand rs'.
Proof.
  intros H. pose proof (find_mand_rel base rs rs' H) as HM. unfold has_mand.
  destruct (find_mand rs) as [[[? ?] ?]|], (find_mand rs') as [[[? ?] ?]|]; try contradiction; reflexivity.
Qed.

Lemma same_at rp r r' : rget R rp = Some r -> rget R' (g rp) = Some r' -> same_rule r r'.
Proof. intros H H'. destruct Hg as (_ & H1 & _). destruct (H1 rp r H) as [r2 [E S]]. rewrite H' in E. injection E as <-. exact S. Qed.

Lemma child_rel rp r r' kids : rget R rp = Some r -> rget R' (g rp) = Some r' -> Forall good kids ->
  eval_rel rp (child_part kids rp r) (child_part kids (g rp) r').
Proof.
  intros Hr Hr' Hk. unfold child_part. destruct (same_at rp r r' Hr Hr') as (_ & _ & _ & _ & _ & _ & HC & _).
  destruct (r_child r) as [c|] eqn:Ec.
  - destruct (r_child r') as [c'|] eqn:Ec'; [|exfalso; assert (X : Some c = None) by (now apply HC); discriminate X].
    assert (Hc : rget R (RChild :: rp) = Some c) by (cbn [rget]; rewrite Hr; exact Ec).
    assert (Hgc : g (RChild :: rp) = RChild :: g rp) by (apply Hg; congruence).
    assert (Hc' : rget R' (g (RChild :: rp)) = Some c') by (rewrite Hgc; cbn [rget]; rewrite Hr'; exact Ec').
    rewrite <- Hgc. pose proof (chain_rel c (RChild :: rp) c' [RChild] rp eq_refl Hc Hc') as HCh. rewrite <- (has_mand_rel rp _ _ HCh).
    pose proof (groups_rel rp _ _ kids HCh Hk) as HG. rewrite <- (nonempty_rel rp _ _ HG).
    destruct (has_mand (chain_of (RChild :: rp) c) && negb (nonempty (groups (chain_of (RChild :: rp) c) kids))); [exact I|]. exact (concat_prel rp _ _ HG).
  - destruct (r_child r') as [c'|]; [|apply prel_nil]. assert (X : Some c' = None) by now apply HC. discriminate X.
Qed.

(** *** The rules in braces *)

Definition found (kids : list item) (rp : rpath) (l : list rule) (k : nat) : MatchingNodes :=
  match nth_error l k with Some r => concat (save kids (RNested k :: rp) r) | None => [] end.
Definition fine (kids : list item) (rp : rpath) (l : list rule) (k : nat) : bool :=
  match nth_error l k with
  | Some r => nonempty (save kids (RNested k :: rp) r) || negb (has_mand (chain_of (RNested k :: rp) r))
  | None => true
  end.

Lemma nested_eq kids rp l : forall n k, k + n = length l ->
  nested_part kids rp k (skipn k l) = if forallb (fine kids rp l) (seq k n) then Some (flat_map (found kids rp l) (seq k n)) else None.
Proof.
  induction n as [|n IH]; intros k Hk.
  - rewrite skipn_all2 by lia. reflexivity.
  - destruct (nth_error l k) as [r|] eqn:Er; [|apply nth_error_None in Er; lia].
    assert (Hs : skipn k l = r :: skipn (S k) l).
    { clear - Er. revert k Er. induction l as [|x l IH]; intros [|k] Er; cbn [nth_error skipn] in *; try discriminate; [now injection Er as ->|]. now apply IH. }
    rewrite Hs. cbn [nested_part seq forallb flat_map]. unfold fine at 1, found at 1. rewrite Er. rewrite (IH (S k)) by lia.
    destruct (nonempty (save kids (RNested k :: rp) r)), (has_mand (chain_of (RNested k :: rp) r)); cbn [negb andb orb];
      destruct (forallb (fine kids rp l) (seq (S k) n)); reflexivity.
Qed.

Lemma sorted_same (l l' : list nat) : StronglySorted lt l -> StronglySorted lt l' -> (forall x, In x l <-> In x l') -> l = l'.
Proof.
  intros H. revert l'. induction H as [|x l H IH HF]; intros l' H' Hi.
  - destruct l' as [|y l']; [reflexivity|]. destruct (proj2 (Hi y) (or_introl eq_refl)).
  - destruct H' as [|y l' H' HF']; [destruct (proj1 (Hi x) (or_introl eq_refl))|]. rewrite Forall_forall in HF, HF'.
    assert (x = y).
    { destruct (proj1 (Hi x) (or_introl eq_refl)) as [E|E]; [now symmetry|]. destruct (proj2 (Hi y) (or_introl eq_refl)) as [E'|E']; [exact E'|].
      specialize (HF y E'). specialize (HF' x E). lia. }
    subst y. f_equal. apply IH; [exact H'|]. intros z. split; intros Hz.
    + destruct (proj1 (Hi z) (or_intror Hz)) as [E|E]; [subst z; specialize (HF x Hz); lia|exact E].
    + destruct (proj2 (Hi z) (or_intror Hz)) as [E|E]; [subst z; specialize (HF' x Hz); lia|exact E].
Qed.

Lemma seq_sorted n : forall k, StronglySorted lt (seq k n).
Proof.
  induction n as [|n IH]; intros k; cbn [seq]; [constructor|]. constructor; [apply IH|]. apply Forall_forall. intros x Hx. apply in_seq in Hx. lia.
Qed.

Lemma filter_sorted (P : nat -> bool) l : StronglySorted lt l -> StronglySorted lt (filter P l).
Proof.
  induction 1 as [|x l H IH HF]; cbn [filter]; [constructor|]. destruct (P x); [|exact IH]. constructor; [exact IH|].
  apply Forall_forall. intros y Hy. apply filter_In in Hy as [Hy _]. rewrite Forall_forall in HF. now apply HF.
Qed.

Lemma flat_map_nonempty {A B} (h : A -> list B) l : flat_map h l = flat_map h (filter (fun x => nonempty (h x)) l).
Proof. induction l as [|x l IH]; [reflexivity|]. cbn [flat_map filter]. destruct (h x) as [|b l'] eqn:E; cbn [nonempty]; [exact IH|]. cbn [flat_map]. now rewrite E, IH. Qed.

Lemma filter_flat_map {A B} (P : B -> bool) (h : A -> list B) l : filter P (flat_map h l) = flat_map (fun x => filter P (h x)) l.
Proof. induction l as [|x l IH]; [reflexivity|]. cbn [flat_map]. now rewrite filter_app, IH. Qed.
Lemma map_flat_map {A B C} (f : B -> C) (h : A -> list B) l : map f (flat_map h l) = flat_map (fun x => map f (h x)) l.
Proof. induction l as [|x l IH]; [reflexivity|]. cbn [flat_map]. now rewrite map_app, IH. Qed.
Lemma flat_map_map {A B C} (h : B -> list C) (f : A -> B) l : flat_map h (map f l) = flat_map (fun x => h (f x)) l.
Proof. induction l as [|x l IH]; [reflexivity|]. cbn [flat_map map]. now rewrite IH. Qed.
Lemma flat_map_ext_in {A B} (h h' : A -> list B) l : (forall x, In x l -> h x = h' x) -> flat_map h l = flat_map h' l.
Proof. induction l as [|x l IH]; intros H; [reflexivity|]. cbn [flat_map]. rewrite (H x (or_introl eq_refl)), IH; [reflexivity|]. intros y Hy. apply H. now right. Qed.
Lemma flat_map_perm {A B} (h h' : A -> list B) l : (forall x, In x l -> Permutation (h x) (h' x)) -> Permutation (flat_map h l) (flat_map h' l).
Proof.
  induction l as [|x l IH]; intros H; [constructor|]. cbn [flat_map]. apply Permutation_app; [apply H; now left|]. apply IH. intros y Hy. apply H. now right.
Qed.

Section Numbers.
(** Lists that are taken in another order. *)
Variable n : nat.
Variable at_ : nat -> nat.
Hypothesis at_lt : forall i, i < n -> at_ i < n.
Hypothesis at_inj : forall i j, i < n -> j < n -> at_ i = at_ j -> i = j.

Lemma at_perm : Permutation (map at_ (seq 0 n)) (seq 0 n).
Proof.
  apply NoDup_Permutation_bis; [|rewrite map_length; lia|].
  - assert (H : forall l, NoDup l -> (forall x, In x l -> x < n) -> NoDup (map at_ l)).
    { induction 1 as [|x l Hx _ IH]; intros Hl; [constructor|]. cbn [map]. constructor; [|apply IH; intros y Hy; apply Hl; now right].
      intros Hin. apply in_map_iff in Hin as (y & Hy & Hin). apply Hx. rewrite <- (at_inj y x); [exact Hin|apply Hl; now right|apply Hl; now left|exact Hy]. }
    apply H; [apply seq_NoDup|]. intros x Hx. apply in_seq in Hx. lia.
  - intros x Hx. apply in_map_iff in Hx as (y & <- & Hy). apply in_seq in Hy. apply in_seq. specialize (at_lt y). lia.
Qed.

Lemma at_onto j : j < n -> exists i, i < n /\ at_ i = j.
Proof.
  intros Hj. assert (H : In j (map at_ (seq 0 n))) by (eapply Permutation_in; [apply Permutation_sym, at_perm|apply in_seq; lia]).
  apply in_map_iff in H as (i & Hi & Hin). apply in_seq in Hin. exists i. split; [lia|exact Hi].
Qed.

Lemma flat_map_order {B} (h : nat -> list B) :
  (forall i j, i < j -> j < n -> h (at_ i) <> [] -> h (at_ j) <> [] -> at_ i < at_ j) ->
  flat_map (fun i => h (at_ i)) (seq 0 n) = flat_map h (seq 0 n).
Proof.
  intros H. rewrite <- (flat_map_map h at_), (flat_map_nonempty h (map at_ (seq 0 n))), (flat_map_nonempty h (seq 0 n)). f_equal.
  apply sorted_same; [|apply filter_sorted, seq_sorted|].
  - assert (X : forall m k, k + m = n -> StronglySorted lt (filter (fun x => nonempty (h x)) (map at_ (seq k m)))).
    { induction m as [|m IH]; intros k Hk; cbn [seq map filter]; [constructor|]. specialize (IH (S k) ltac:(lia)).
      destruct (h (at_ k)) as [|b l] eqn:Eh; cbn [nonempty]; [exact IH|]. constructor; [exact IH|]. apply Forall_forall. intros y Hy.
      apply filter_In in Hy as [Hy Hne]. apply in_map_iff in Hy as (j & <- & Hj). apply in_seq in Hj. apply H; try lia; [congruence|].
      intros E. rewrite E in Hne. discriminate. }
    apply X. lia.
  - intros x. rewrite !filter_In. assert (Y : In x (map at_ (seq 0 n)) <-> In x (seq 0 n)); [|tauto].
    split; apply Permutation_in; [apply at_perm|apply Permutation_sym, at_perm].
Qed.
End Numbers.

Lemma stores_moved name rp (p : npath) : rget R rp <> None -> stores R' name (g rp, p) = stores R name (rp, p).
Proof.
  intros H. unfold stores. cbn [fst]. destruct (rget R rp) as [r|] eqn:Er; [|congruence]. destruct Hg as (_ & H1 & _). destruct (H1 rp r Er) as [r' [-> S]].
  destruct S as (_ & _ & _ & -> & _). reflexivity.
Qed.

Lemma stores_stored name rp st a q r (p : npath) : rget R (st :: rp) = Some a -> rget R (q ++ st :: rp) = Some r -> stores R name (q ++ st :: rp, p) = true -> stored_in a name.
Proof.
  intros Ha Hr H. unfold stores in H. cbn [fst] in H. rewrite Hr in H. rewrite rget_app, Ha in Hr. apply existsb_exists in H as (c & Hc & Hn).
  exists q, r, c. split; [exact Hr|]. split.
  - apply in_flat_map in Hc as ([c'|] & Hc' & Hin); [|destruct Hin]. destruct Hin as [<-|[]]. exact Hc'.
  - now apply str_eqb_eq.
Qed.


Lemma nested_rel rp r r' kids : rget R rp = Some r -> rget R' (g rp) = Some r' -> Forall good kids ->
  eval_rel rp (nested_part kids rp 0 (r_nested r)) (nested_part kids (g rp) 0 (r_nested r')).
Proof.
  intros Hr Hr' Hk. destruct (same_at rp r r' Hr Hr') as (_ & _ & _ & _ & _ & _ & _ & _ & HL).
  set (n := length (r_nested r)) in *.
  pose proof (nested_eq kids rp (r_nested r) n 0 eq_refl) as E. pose proof (nested_eq kids (g rp) (r_nested r') n 0 HL) as E'.
  cbn [skipn] in E, E'. rewrite E, E'. clear E E'.
  set (at_ := fun k => match g (RNested k :: rp) with RNested k' :: _ => k' | _ => 0 end).
  assert (HA : forall k a, nth_error (r_nested r) k = Some a -> rget R (RNested k :: rp) = Some a) by (intros k a Ha; cbn [rget]; rewrite Hr; exact Ha).
  assert (HX : forall k, k < n -> exists a, nth_error (r_nested r) k = Some a).
  { intros k Hkn. destruct (nth_error (r_nested r) k) as [a|] eqn:Ea; [now exists a|]. apply nth_error_None in Ea. unfold n in Hkn. lia. }
  assert (HG : forall k, k < n -> g (RNested k :: rp) = RNested (at_ k) :: g rp).
  { intros k Hkn. destruct (HX k Hkn) as [a Ha]. pose proof (HA k a Ha) as Ha'. destruct Hg as (_ & _ & _ & _ & H & _).
    destruct (H k rp ltac:(congruence)) as [k' Hk']. unfold at_. now rewrite Hk'. }
  assert (HY : forall k, k < n -> exists a a', nth_error (r_nested r) k = Some a /\ nth_error (r_nested r') (at_ k) = Some a' /\
            rget R (RNested k :: rp) = Some a /\ rget R' (g (RNested k :: rp)) = Some a').
  { intros k Hkn. destruct (HX k Hkn) as [a Ha]. pose proof (HA k a Ha) as Ha'. destruct Hg as (_ & H & _). destruct (H _ _ Ha') as [a' [H' _]].
    exists a, a'. split; [exact Ha|]. split; [|split; [exact Ha'|exact H']]. rewrite (HG k Hkn) in H'. cbn [rget] in H'. rewrite Hr' in H'. exact H'. }
  assert (at_lt : forall i, i < n -> at_ i < n).
  { intros i Hi. destruct (HY i Hi) as (a & a' & _ & Ha' & _). rewrite HL. apply nth_error_Some. congruence. }
  assert (at_inj : forall i j, i < n -> j < n -> at_ i = at_ j -> i = j).
  { intros i j Hi Hj Hij. destruct (HY i Hi) as (a & _ & _ & _ & Ha & _). destruct (HY j Hj) as (b & _ & _ & _ & Hb & _).
    destruct Hg as (_ & _ & _ & _ & _ & H). apply (H i j rp); [congruence|congruence|]. now rewrite (HG i Hi), (HG j Hj), Hij. }
  assert (HS : forall k, k < n -> prel rp (found kids rp (r_nested r) k) (found kids (g rp) (r_nested r') (at_ k)) /\
            fine kids rp (r_nested r) k = fine kids (g rp) (r_nested r') (at_ k) /\
            forall a, rget R (RNested k :: rp) = Some a -> inside (RNested k :: rp) (found kids rp (r_nested r) k)).
  { intros k Hkn. destruct (HY k Hkn) as (a & a' & Ha & Ha' & HR & HR'). unfold found, fine. rewrite Ha, Ha', <- (HG k Hkn).
    pose proof (save_rel [] (RNested k :: rp) (RNested k :: rp) a a' kids eq_refl HR HR' Hk) as HSv.
    pose proof (concat_prel _ _ _ HSv) as HC. split; [exact (prel_weaken [RNested k] rp _ _ HC)|]. split.
    - rewrite <- (nonempty_rel _ _ _ HSv). rewrite <- (has_mand_rel _ _ _ (chain_rel a (RNested k :: rp) a' [] (RNested k :: rp) eq_refl HR HR')). reflexivity.
    - intros _ _. apply HC. }
  assert (HF : forallb (fine kids rp (r_nested r)) (seq 0 n) = forallb (fine kids (g rp) (r_nested r')) (seq 0 n)).
  { apply eq_true_iff_eq. rewrite !forallb_forall. split; intros H x Hx; apply in_seq in Hx.
    - destruct (at_onto n at_ at_lt at_inj x ltac:(lia)) as (i & Hi & <-). destruct (HS i Hi) as (_ & <- & _). apply H. apply in_seq. lia.
    - destruct (HS x ltac:(lia)) as (_ & -> & _). apply H. apply in_seq. specialize (at_lt x ltac:(lia)). lia. }
  rewrite <- HF. destruct (forallb (fine kids rp (r_nested r)) (seq 0 n)); [|exact I]. cbn [eval_rel]. split; [|split].
  - rewrite map_flat_map. eapply Permutation_trans.
    + apply (flat_map_perm _ (fun k => found kids (g rp) (r_nested r') (at_ k))). intros k Hkn. apply in_seq in Hkn. apply HS. lia.
    + rewrite <- (flat_map_map (found kids (g rp) (r_nested r')) at_). apply Permutation_flat_map. exact (at_perm n at_ at_lt at_inj).
  - intros name Hn. rewrite map_flat_map, !filter_flat_map.
    rewrite (flat_map_ext_in _ (fun k => filter (stores R' name) (found kids (g rp) (r_nested r') (at_ k)))).
    2: { intros k Hkn. apply in_seq in Hkn. destruct (HS k ltac:(lia)) as ((_ & H & _) & _). now apply H. }
    apply (flat_map_order n at_ at_lt at_inj (fun k => filter (stores R' name) (found kids (g rp) (r_nested r') k))).
    intros i j Hij Hj Hni Hnj.
    assert (HZ : forall k, k < n -> filter (stores R' name) (found kids (g rp) (r_nested r') (at_ k)) <> [] -> exists a, rget R (RNested k :: rp) = Some a /\ stored_in a name).
    { intros k Hkn Hne. destruct (HS k Hkn) as ((_ & H & _) & _ & H2). rewrite <- (H name Hn) in Hne. destruct (HY k Hkn) as (a & _ & _ & _ & Ha & _). exists a. split; [exact Ha|].
      specialize (H2 a Ha). destruct (filter (stores R' name) (map gp (found kids rp (r_nested r) k))) as [|y l] eqn:Ef; [congruence|].
      assert (Hy : In y (filter (stores R' name) (map gp (found kids rp (r_nested r) k)))) by (rewrite Ef; now left).
      apply filter_In in Hy as [Hy Hst]. apply in_map_iff in Hy as ([q p] & <- & Hin). unfold gp in Hst. cbn [fst snd] in Hst.
      destruct (H2 _ Hin) as [[q' Hq] Hkn']. cbn [fst] in Hq, Hkn'. rewrite stores_moved in Hst by exact Hkn'. rewrite Hq in *.
      destruct (rget R (q' ++ RNested k :: rp)) as [r0|] eqn:Er0; [|congruence]. exact (stores_stored name rp (RNested k) a q' r0 p Ha Er0 Hst). }
    destruct (HZ i ltac:(lia) Hni) as (a & Ha & Sa). destruct (HZ j Hj Hnj) as (b & Hb & Sb).
    exact (Hkeep name Hn i j (at_ i) (at_ j) rp a b Ha Hb Sa Sb Hij (HG i ltac:(lia)) (HG j Hj)).
  - intros x Hx. apply in_flat_map in Hx as (k & Hkn & Hx). apply in_seq in Hkn. destruct (HS k ltac:(lia)) as ((_ & _ & H) & _). exact (H x Hx).
Qed.

(** *** Whole documents *)

Variable b : rule -> npath -> bool.
Hypothesis Hb : forall r r' p, same_rule r r' -> b r p = b r' p.

Lemma eval_at_rel rp r r' p kids : rget R rp = Some r -> rget R' (g rp) = Some r' -> Forall good kids ->
  eval_rel rp (eval_at b p kids rp r) (eval_at b p kids (g rp) r').
Proof.
  intros Hr Hr' Hk. pose proof (same_at rp r r' Hr Hr') as S. unfold eval_at. rewrite <- (Hb r r' p S). destruct (b r p); [|exact I].
  pose proof (child_rel rp r r' kids Hr Hr' Hk) as HC. pose proof (nested_rel rp r r' kids Hr Hr' Hk) as HN.
  assert (HE : eval_rel rp
    (match child_part kids rp r with None => None | Some m1 => match nested_part kids rp 0 (r_nested r) with None => None | Some m2 => Some (m1 ++ m2) end end)
    (match child_part kids (g rp) r' with None => None | Some m1 => match nested_part kids (g rp) 0 (r_nested r') with None => None | Some m2 => Some (m1 ++ m2) end end)).
  { unfold eval_rel in HC. destruct (child_part kids rp r), (child_part kids (g rp) r'); try contradiction; [|exact I].
    unfold eval_rel in HN. destruct (nested_part kids rp 0 (r_nested r)), (nested_part kids (g rp) 0 (r_nested r')); try contradiction; [|exact I]. now apply prel_app. }
  assert (HK : eval_rel rp
    (match kids with [] => None | _ => match child_part kids rp r with None => None | Some m1 => match nested_part kids rp 0 (r_nested r) with None => None | Some m2 => Some (m1 ++ m2) end end end)
    (match kids with [] => None | _ => match child_part kids (g rp) r' with None => None | Some m1 => match nested_part kids (g rp) 0 (r_nested r') with None => None | Some m2 => Some (m1 ++ m2) end end end)).
  { destruct kids; [exact I|exact HE]. }
  clear HC HN HE. destruct S as (_ & _ & _ & _ & _ & _ & S1 & _ & S2).
  destruct (r_child r) as [c|]; destruct (r_child r') as [c'|];
    try (exfalso; match type of S1 with Some ?a = None <-> _ => assert (X : Some a = None) by (now apply S1); discriminate X | _ <-> Some ?a = None => assert (X : Some a = None) by (now apply S1); discriminate X end).
  - exact HK.
  - destruct (r_nested r) as [|x l], (r_nested r') as [|x' l']; try discriminate S2; [apply prel_nil|exact HK].
Qed.

Lemma sem_good t : forall p, good (sem b t p).
Proof.
  induction t as [t IH] using node_ind2. intros p.
  assert (HK : Forall good (kids_of b t p)).
  { destruct t as [|t' orig attrs cs| | | | |]; try constructor. cbn [kids_of children_of] in *. clear - IH. generalize 0 as i. induction IH as [|c l Hc _ IHl]; intros i; cbn [sem_list]; constructor; [apply Hc|apply IHl]. }
  rewrite sem_unfold. intros rp r r' Hr Hr'. cbn [it_eval it_below]. split; [now apply eval_at_rel|].
  destruct t as [|t' orig attrs cs| | | | |]; try constructor. exact (save_rel [] rp rp r r' _ eq_refl Hr Hr' HK).
Qed.

Theorem search_rel D i pp : Forall2 (prel []) (save (sibling_items b D (i :: pp)) [] R) (save (sibling_items b D (i :: pp)) [] R').
Proof.
  assert (H0 : g [] = []) by apply Hg.
  assert (HR' : rget R' (g []) = Some R') by now rewrite H0.
  pose proof (fun kids => save_rel [] [] [] R R' kids eq_refl eq_refl HR') as HS. rewrite H0 in HS. apply HS.
  assert (HL : forall l k q, Forall good (sem_list b l k q)).
  { induction l as [|c l IH]; intros k q; cbn [sem_list]; constructor; [apply sem_good|apply IH]. }
  unfold sibling_items. destruct (nget D pp) as [par|]; [|constructor]. destruct (is_element par); [apply HL|].
  destruct (nth_error (children_of par) i); [|constructor]. constructor; [apply sem_good|constructor].
Qed.

End Sim.
