(** Rules that ask for less (C79). *)

From Coq Require Import Ascii String Arith NArith ZArith Bool List Lia Sorted.
From Verif Require Import Base Tags Dom Values Match Rule RuleMatching RuleProofs MatchSpec ExtractSpec LocalProofs NodeProofs ExtractProofs
  SearchSpec ExtractMain MatchProofs RewriteSpec RewriteProofs MostSpec MostProofs.
Import ListNotations.

(** ** The size of a rule *)

Fixpoint weight (r : rule) : nat :=
  match r with
  | mk_rule c n l _ _ _ _ _ _ =>
      S (match c with Some c => weight c | None => 0 end + match n with Some n => weight n | None => 0 end + fold_right (fun x k => weight x + k) 0 l)
  end.

Lemma weight_chain r : forall c, In r (chain c) -> weight r <= weight c.
Proof.
  fix IH 1. intros [c0 [n|] l ms cs t o g nm] H; cbn [chain In] in H; destruct H as [H|H]; try (rewrite <- H; apply le_n); [|destruct H].
  pose proof (IH n H). cbn [weight]. lia.
Qed.

Lemma weight_child r c : r_child r = Some c -> weight c < weight r.
Proof. destruct r as [c0 n l ms cs t o g nm]. cbn. intros ->. lia. Qed.

Lemma weight_nested r c : In c (r_nested r) -> weight c < weight r.
Proof.
  destruct r as [c0 n l ms cs t o g nm]. cbn [r_nested weight]. intros H.
  assert (weight c <= fold_right (fun x k => weight x + k) 0 l); [|lia].
  induction l as [|x l IH]; [destruct H|]. cbn [fold_right]. destruct H as [-> |H]; [lia|]. specialize (IH H). lia.
Qed.

Lemma weight_mandatory r c : In r (mandatory_of c) -> weight r <= weight c.
Proof. intros H. apply filter_In in H as [H _]. now apply weight_chain. Qed.

(** ** Rows *)

Lemma fewer_row {A} (below : rule -> rule -> Prop) (P : rule -> A -> Prop) (lt : A -> A -> Prop) l' l : fewer below l' l ->
  (forall r' r x, In r l -> below r' r -> P r x -> P r' x) ->
  forall ks, Forall2 P l ks -> StronglySorted lt ks ->
  exists ks', Forall2 P l' ks' /\ StronglySorted lt ks' /\ incl ks' ks.
Proof.
  intros H. induction H as [|l' r l H IH|r' l' r l Hr H IH]; intros HP ks HF HS.
  - exists []. split; [constructor|]. split; [constructor|intros x []].
  - inversion HF as [|? k ? ks0 Hk HF']; subst. inversion HS; subst. destruct (IH ltac:(intros; eapply HP; [right|..]; eassumption) ks0 HF' H2) as (ks' & H4 & H5 & H6).
    exists ks'. split; [exact H4|]. split; [exact H5|]. now apply incl_tl.
  - inversion HF as [|? k ? ks0 Hk HF']; subst. inversion HS as [|? ? HS' Hlt]; subst.
    destruct (IH ltac:(intros; eapply HP; [right|..]; eassumption) ks0 HF' HS') as (ks' & H4 & H5 & H6). exists (k :: ks'). split; [|split].
    + constructor; [|exact H4]. eapply HP; [now left|exact Hr|exact Hk].
    + constructor; [exact H5|]. rewrite Forall_forall in *. intros x Hx. apply Hlt. now apply H6.
    + intros x [<-|Hx]; [now left|right; now apply H6].
Qed.

Lemma fewer_embedded (M : rule -> npath -> Prop) p l' l : fewer asks_less l' l ->
  (forall r' r q, In r l -> asks_less r' r -> M r q -> M r' q) -> embedded M l p -> embedded M l' p.
Proof.
  intros H HM (ks & HF & HS). destruct (fewer_row asks_less (fun r k => M r (k :: p)) lt l' l H) with (ks := ks) as (ks' & H1 & H2 & _); [|exact HF|exact HS|now exists ks'].
  intros r' r x. apply HM.
Qed.

Lemma fewer_not_nil below l' l : fewer below l' l -> l' <> [] -> l <> [].
Proof. intros H. induction H; congruence. Qed.

(** ** Matching *)

Section Less.
Variable E : engine.
Variable D : node.

Lemma follows_holds l m p n : nget D p = Some n -> follows l m ->
  (forall m', In (Some m') l -> mtch_matches E D m' p = Ok true) -> mtch_matches E D m p = Ok true.
Proof.
  intros Hp H Hl. induction H as [m Hm|m m' H IH Hi|ms ms' H IH Hi]; [now apply Hl|now apply (condition_implied E D m)|].
  rewrite (negate_spec E D _ p n Hp). rewrite (negate_spec E D _ p n Hp) in IH. intros m Hm. apply IH. now apply Hi.
Qed.

Lemma satisfies_less r' r p : asks_less r' r -> node_satisfies E D r p -> node_satisfies E D r' p.
Proof.
  intros H. destruct H as [r' r Ht Hm _ _ _]. unfold node_satisfies, Rule_matches, deref. destruct (nget D p) as [n|] eqn:Hp; cbn [obind]; [|discriminate].
  destruct (tag_matches r n) eqn:Hn; [|discriminate].
  assert (X : tag_matches r' n = true).
  { destruct Ht as [Ht|[Ht Hname]]; [unfold tag_matches; now rewrite Ht|]. now rewrite <- (tag_same r r' n Ht Hname). }
  rewrite X, !all_match_spec. intros Hall m Hin. apply (follows_holds (r_matches r) m p n Hp); [now apply Hm|exact Hall].
Qed.

Notation matching := (rule_matches D (node_satisfies E D)).

Lemma matches_less_at k : forall r' r p, weight r < k -> asks_less r' r -> matching r p -> matching r' p.
Proof.
  induction k as [|k IH]; intros r' r p Hk Hless HM; [lia|].
  pose proof (satisfies_less r' r p Hless) as HS. destruct Hless as [r' r Ht Hm Hex Hrow Hnest]. inversion HM as [? ? n Hn Hsat Hel Hch Hne]; subst.
  assert (IHc : forall c l', r_child r = Some c \/ In c (r_nested r) -> fewer asks_less l' (mandatory_of c) -> forall q,
    embedded matching (mandatory_of c) q -> embedded matching l' q).
  { intros c l' Hc Hf q. apply (fewer_embedded matching q l' _ Hf). intros r1 r2 q' Hin. apply IH. apply weight_mandatory in Hin.
    assert (weight c < weight r) by (destruct Hc; [now apply weight_child|now apply weight_nested]). lia. }
  apply (rule_matches_intro D (node_satisfies E D) r' p n Hn).
  - now apply HS.
  - intros H. apply Hel. now apply Hex.
  - intros c' Hc'. unfold child_row in Hrow. rewrite Hc' in Hrow. destruct (r_child r) as [c|] eqn:Hc.
    + apply (IHc c _ (or_introl eq_refl) Hrow p). now apply Hch.
    + inversion Hrow. exists []. split; constructor.
  - intros c' Hc' Hnn. destruct (Hnest c' Hc' Hnn) as (c & Hc & Hf). destruct Hc as [Hc|Hc].
    + exists p. split.
      * destruct (Hel ltac:(left; congruence)) as [He _]. destruct n; try discriminate He. now left.
      * apply (IHc c _ (or_introl Hc) Hf p). now apply Hch.
    + destruct (Hne c Hc (fewer_not_nil _ _ _ Hf Hnn)) as (q & Hq & Hemb). exists q. split; [exact Hq|]. exact (IHc c _ (or_intror Hc) Hf q Hemb).
Qed.

Theorem matches_less r' r p : asks_less r' r -> matching r p -> matching r' p.
Proof. apply (matches_less_at (S (weight r))). apply Nat.lt_succ_diag_r. Qed.

Theorem recursive_less R R' rp rp' r r' p t f f' n n' b inner inner' k k' :
  rget R rp = Some r -> rget R' rp' = Some r' -> asks_less r' r -> nget D p = Some t ->
  RuleMatchesNodeRecursive R D (Rule_matches E D) f (Some rp) (Some p) n = Ok (true, inner, k) ->
  RuleMatchesNodeRecursive R' D (Rule_matches E D) f' (Some rp') (Some p) n' = Ok (b, inner', k') -> b = true.
Proof.
  intros Hr Hr' Hless Hp H H'. apply (recursive_match E R D f rp r p t n _ _ _ Hr Hp) in H. apply (recursive_match E R' D f' rp' r' p t n' _ _ _ Hr' Hp) in H'.
  apply H'. apply (matches_less r' r p Hless). now apply H.
Qed.

Lemma embeds_less R R' L ks : fewer asks_less (mandatory_of R') (mandatory_of R) -> embeds E D R L ks ->
  exists ks', embeds E D R' L ks' /\ incl ks' ks.
Proof.
  destruct L as [[q s] m]. intros Hf (HF & HS).
  destruct (fewer_row asks_less (fun r k => s <= k < s + m /\ matching r (k :: q)) lt _ _ Hf) with (ks := ks) as (ks' & H1 & H2 & H3); [|exact HF|exact HS|exists ks'; split; [now split|exact H3]].
  intros r' r k _ Hless [Hk HM]. split; [exact Hk|]. now apply (matches_less r' r).
Qed.

Lemma apart_less R R' L : fewer asks_less (mandatory_of R') (mandatory_of R) -> forall kss, Forall (embeds E D R L) kss -> apart kss ->
  exists kss', Forall (embeds E D R' L) kss' /\ apart kss' /\ length kss' = length kss /\ Forall (fun ks' => exists ks, In ks kss /\ incl ks' ks) kss'.
Proof.
  intros Hf kss HF. induction HF as [|ks kss Hk HF IH]; intros Ha.
  - exists []. repeat split; constructor.
  - destruct Ha as [Ha Ha']. destruct (IH Ha') as (kss' & H1 & H2 & H3 & H4). destruct (embeds_less R R' L ks Hf Hk) as (ks' & H5 & H6).
    exists (ks' :: kss'). split; [now constructor|]. split; [split; [|exact H2]|split; [cbn; now rewrite H3|]].
    + intros x a b Hx Hin Hb. rewrite Forall_forall in H4. destruct (H4 x Hx) as (y & Hy & Hxy). exact (Ha y a b Hy (H6 a Hin) (Hxy b Hb)).
    + constructor; [exists ks; split; [now left|exact H6]|]. eapply Forall_impl; [|exact H4]. intros x (y & Hy & Hxy). exists y. split; [now right|exact Hxy].
Qed.
End Less.

Theorem groups_less : forall E R R' D i pp t n n' gs gs',
  nget D (i :: pp) = Some t ->
  search_yields E R D (Some (i :: pp)) n (Ok gs) -> search_yields E R' D (Some (i :: pp)) n' (Ok gs') ->
  fewer asks_less (mandatory_of R') (mandatory_of R) -> mandatory_of R' <> [] -> ~ lone_greedy R' ->
  length gs <= length gs'.
Proof.
  intros E R R' D i pp t n n' gs gs' Hp HS HS' Hf Hm Hl.
  destruct (search_reached E R D i pp t n gs Hp HS (fewer_not_nil _ _ _ Hf Hm)) as (Gs & -> & HG).
  destruct (search_most E R' D i pp t n' gs' Hp HS' Hm Hl) as (Gs' & -> & HG').
  clear HS HS'. revert Gs Gs' HG HG'. induction (lists_searched D i pp) as [|L Ls IH]; intros Gs Gs' HG HG'; inversion HG; inversion HG'; subst; [apply le_n|].
  cbn [concat]. rewrite !app_length. apply Nat.add_le_mono; [|now apply IH].
  destruct H1 as (kss & H1 & Ha & <-). destruct (apart_less E D R R' L Hf kss H1 Ha) as (kss' & X1 & X2 & <- & _). now apply H6.
Qed.

(** ** Single rules *)

Lemma own_in (g : MatchingNodes) j p : In (repeat RNext j, p) g <-> In (repeat RNext j, p) (own g).
Proof. unfold own. rewrite filter_In. cbn [fst]. assert (forallb is_next (repeat RNext j) = true) by (induction j; cbn; auto). tauto. Qed.

Lemma repeat_next j j' : repeat RNext j = repeat RNext j' -> j = j'.
Proof. intros H. rewrite <- (repeat_length RNext j), H. apply repeat_length. Qed.

Theorem nodes_less : forall E R R' D i pp t n n' gs gs' j p,
  nget D (i :: pp) = Some t ->
  search_yields E R D (Some (i :: pp)) n (Ok gs) -> search_yields E R' D (Some (i :: pp)) n' (Ok gs') ->
  r_next R' = None -> r_optional R' = false -> asks_less R' (rule_at R j) ->
  In (repeat RNext j, p) (concat gs) -> In ([], p) (concat gs').
Proof.
  intros E R R' D i pp t n n' gs gs' j p Hp HS HS' Hn Ho Hless Hin.
  destruct (lists_complete E R D i pp t n gs Hp HS) as (Gs & -> & HG).
  assert (X : per_list D i pp gs' (fun L G => exists ks, all_matching E D L R' ks /\ forall k, In k ks -> exists g, In g G /\ In ([], k :: fst (fst L)) g)).
  { destruct (r_greedy R') eqn:Hg.
    - destruct (lists_single_greedy E R' D i pp t n' gs' Hp HS' Hn Ho Hg) as (Gs' & -> & HG'). exists Gs'. split; [reflexivity|].
      clear - HG'. induction HG' as [|L G Ls Gs (ks & Hk & HG) H IH]; constructor; [|exact IH]. exists ks. split; [exact Hk|]. intros k Hin.
      destruct ks as [|k0 ks]; [destruct Hin|]. destruct G as [|g [|g' G]]; try discriminate HG. injection HG as HG.
      exists g. split; [now left|]. apply (own_in g 0). rewrite HG. exact (in_map (fun k => ([] : rpath, k :: fst (fst L))) _ _ Hin).
    - destruct (lists_single E R' D i pp t n' gs' Hp HS' Hn Ho Hg) as (Gs' & -> & HG'). exists Gs'. split; [reflexivity|].
      clear - HG'. induction HG' as [|L G Ls Gs (ks & Hk & HG) H IH]; constructor; [|exact IH]. exists ks. split; [exact Hk|]. intros k Hin.
      assert (Y : In [([] : rpath, k :: fst (fst L))] (map own G)) by (rewrite HG; exact (in_map (fun k => [([] : rpath, k :: fst (fst L))]) _ _ Hin)).
      apply in_map_iff in Y as (g & Hg & Hin'). exists g. split; [exact Hin'|]. apply (own_in g 0). rewrite Hg. now left. }
  destruct X as (Gs' & -> & HG'). clear HS HS'. revert Gs Gs' HG HG' Hin. induction (lists_searched D i pp) as [|L Ls IH]; intros Gs Gs' HG HG' Hin; inversion HG; inversion HG'; subst; [exact Hin|].
  cbn [concat] in *. rewrite concat_app in *. apply in_app_or in Hin as [Hin|Hin]; apply in_or_app; [left|right; eapply IH; eassumption].
  apply in_concat in Hin as (g & Hg & Hin). unfold complete_groups in H1. rewrite Forall_forall in H1. specialize (H1 g Hg). destruct L as [[q s] m].
  destruct H1 as (tt & Hown & _ & Hr & _). apply own_in in Hin. rewrite Hown in Hin. apply in_map_iff in Hin as ([j' k] & Hjk & Hin). cbn [fst snd] in Hjk.
  injection Hjk as Hj Hk. apply repeat_next in Hj. subst j' p. destruct (Hr j k Hin) as (_ & Hsk & HM).
  destruct H6 as (ks & Hks & Hfound). destruct (Hfound k) as (g' & Hg' & Hin').
  { apply Hks. split; [exact Hsk|]. exact (matches_less E D R' _ _ Hless HM). }
  apply in_concat. exists g'. split; [exact Hg'|exact Hin'].
Qed.
