(** Proofs about StringUtil.v and Values.v. *)

From Coq Require Import Ascii String NArith ZArith Bool List Lia.
From Verif Require Import Base StringUtil Values StringSpec.
Import ListNotations.
Open Scope list_scope.

Lemma IsSpace_blank c : IsSpace c = true <-> blank c.
Proof.
  unfold blank. split.
  - destruct c as [b0 b1 b2 b3 b4 b5 b6 b7].
    destruct b0, b1, b2, b3, b4, b5, b6, b7; intros H; try discriminate H; simpl; tauto.
  - simpl. intros H. repeat destruct H as [<-|H]; try reflexivity. destruct H.
Qed.

Lemma IsSpace_false c : IsSpace c = false <-> ~ blank c.
Proof. rewrite <- IsSpace_blank. destruct (IsSpace c); split; intros; congruence. Qed.

(** ** TrimAndCollapseWs *)

(** What the loop still writes. *)
Fixpoint collapsed (started need : bool) (x : str) : str :=
  match x with
  | [] => []
  | c :: x' =>
      if IsSpace c then collapsed started (if started then true else need) x'
      else (if need then [" "%char; c] else [c]) ++ collapsed true false x'
  end.

Lemma buf_get_at a x y i : i = length a -> buf_get (a ++ x :: y) i = Ok x.
Proof.
  intros ->. unfold buf_get. rewrite nth_error_app2 by lia. now rewrite Nat.sub_diag.
Qed.

Lemma buf_set_at a x y i c : i = length a -> buf_set (a ++ x :: y) i c = Ok (a ++ c :: y).
Proof.
  intros ->. induction a as [|z a IH]; simpl; [reflexivity|]. now rewrite IH.
Qed.

Lemma collapse_loop_ok rest : forall out mid need,
  (need = true -> mid <> [] /\ out <> []) ->
  exists buf e, collapse_loop (length rest) (out ++ mid ++ rest) (length out + length mid) (length out) need = Ok (buf, e) /\
    firstn e buf = out ++ collapsed (Nat.ltb 0 (length out)) need rest.
Proof.
  induction rest as [|c rest IH]; intros out mid need Hn; cbn [length collapse_loop collapsed].
  - exists (out ++ mid ++ []), (length out). split; [reflexivity|]. rewrite firstn_app, Nat.sub_diag, firstn_all. reflexivity.
  - rewrite app_assoc. rewrite buf_get_at by (now rewrite app_length). cbn [obind].
    destruct (IsSpace c) eqn:Ec.
    + destruct (IH out (mid ++ [c]) (if Nat.ltb 0 (length out) then true else need)) as [buf [e [H1 H2]]].
      * intros H. split; [destruct mid; discriminate|]. destruct out; [|discriminate]. simpl in H. now apply Hn in H.
      * exists buf, e. split; [|exact H2].
        replace ((out ++ mid) ++ c :: rest) with (out ++ (mid ++ [c]) ++ rest) by (now rewrite <- !app_assoc).
        replace (S (length out + length mid)) with (length out + length (mid ++ [c])) by (rewrite app_length; simpl; lia).
        exact H1.
    + destruct need.
      * destruct (Hn eq_refl) as [Hm Ho]. destruct mid as [|m mid]; [congruence|].
        rewrite <- app_assoc. cbn [app]. rewrite buf_set_at by reflexivity. cbn [obind].
        replace (out ++ " "%char :: mid ++ c :: rest) with ((out ++ " "%char :: mid) ++ c :: rest) by (now rewrite <- app_assoc).
        rewrite buf_get_at by (rewrite app_length; simpl; lia). cbn [obind].
        destruct (IH (out ++ [" "%char; c]) (match mid with [] => [] | _ :: mid' => mid' ++ [c] end) false) as [buf [e [H1 H2]]]; [discriminate|].
        exists buf, e. split.
        -- assert (HB : buf_set ((out ++ " "%char :: mid) ++ c :: rest) (S (length out)) c =
                   Ok ((out ++ [" "%char; c]) ++ (match mid with [] => [] | _ :: mid' => mid' ++ [c] end) ++ rest)).
           { destruct mid as [|m' mid].
             - rewrite buf_set_at by (rewrite app_length; simpl; lia). now rewrite <- !app_assoc.
             - replace ((out ++ " "%char :: m' :: mid) ++ c :: rest) with ((out ++ [" "%char]) ++ m' :: (mid ++ c :: rest)) by (now rewrite <- !app_assoc).
               rewrite buf_set_at by (rewrite app_length; simpl; lia). now rewrite <- !app_assoc. }
           rewrite HB. cbn [obind].
           replace (S (S (length out))) with (length (out ++ [" "%char; c])) by (rewrite app_length; simpl; lia).
           replace (S (length out + length (m :: mid))) with (length (out ++ [" "%char; c]) + length (match mid with [] => [] | _ :: mid' => mid' ++ [c] end)).
           ++ exact H1.
           ++ rewrite app_length. destruct mid; simpl; [lia|]. rewrite app_length. simpl. lia.
        -- rewrite H2. rewrite <- app_assoc.
           replace (Nat.ltb 0 (length (out ++ [" "%char; c]))) with true by (rewrite app_length; simpl; symmetry; apply Nat.ltb_lt; lia).
           reflexivity.
      * destruct (IH (out ++ [c]) (match mid with [] => [] | _ :: mid' => mid' ++ [c] end) false) as [buf [e [H1 H2]]]; [discriminate|].
        exists buf, e. split.
        -- assert (HB : buf_set ((out ++ mid) ++ c :: rest) (length out) c =
                   Ok ((out ++ [c]) ++ (match mid with [] => [] | _ :: mid' => mid' ++ [c] end) ++ rest)).
           { destruct mid as [|m' mid].
             - rewrite app_nil_r. rewrite buf_set_at by reflexivity. now rewrite <- !app_assoc.
             - rewrite <- app_assoc. cbn [app]. rewrite buf_set_at by reflexivity. now rewrite <- !app_assoc. }
           rewrite HB. cbn [obind].
           replace (S (length out)) with (length (out ++ [c])) by (rewrite app_length; simpl; lia).
           replace (S (length out + length mid)) with (length (out ++ [c]) + length (match mid with [] => [] | _ :: mid' => mid' ++ [c] end)).
           ++ exact H1.
           ++ rewrite app_length. destruct mid; simpl; [lia|]. rewrite app_length. simpl. lia.
        -- rewrite H2. rewrite <- app_assoc.
           replace (Nat.ltb 0 (length (out ++ [c]))) with true by (rewrite app_length; simpl; symmetry; apply Nat.ltb_lt; lia).
           reflexivity.
Qed.

Lemma run_collapsed x : TrimAndCollapseWs_run x = Ok (collapsed false false x).
Proof.
  unfold TrimAndCollapseWs_run.
  destruct (collapse_loop_ok x [] [] false) as [buf [e [H1 H2]]]; [discriminate|].
  simpl in H1. rewrite H1. cbn [obind]. now rewrite H2.
Qed.

Theorem TrimAndCollapseWs_run_ok x : TrimAndCollapseWs_run x = Ok (TrimAndCollapseWs x).
Proof. unfold TrimAndCollapseWs. now rewrite run_collapsed. Qed.

Lemma collapsed_gap started need g x : Forall blank g ->
  collapsed started need (g ++ x) = collapsed started (match g with [] => need | _ => if started then true else need end) x.
Proof.
  intros H. revert need. induction H as [|c g Hc H IH]; intros need; [reflexivity|]. simpl.
  apply IsSpace_blank in Hc. rewrite Hc, IH. destruct started, g; reflexivity.
Qed.

Lemma collapsed_word w x : Forall (fun c => ~ blank c) w -> collapsed true false (w ++ x) = w ++ collapsed true false x.
Proof.
  induction 1 as [|c w Hc H IH]; [reflexivity|]. simpl. apply IsSpace_false in Hc. rewrite Hc. simpl. now rewrite IH.
Qed.

Lemma collapsed_words x ws : words_of x ws ->
  collapsed false false x = join_words ws /\
  collapsed true true x = flat_map (fun w => " "%char :: w) ws /\
  (x = [] \/ (exists c x', x = c :: x' /\ blank c) -> collapsed true false x = flat_map (fun w => " "%char :: w) ws).
Proof.
  intros H. induction H as [g Hg|g w rest ws Hg Hne Hw Hr H IH].
  - rewrite <- (app_nil_r g). rewrite !collapsed_gap by exact Hg. destruct g; auto.
  - destruct IH as [_ [_ IH]].
    destruct w as [|c w]; [congruence|]. inversion Hw as [|? ? Hc Hw']; subst. apply IsSpace_false in Hc.
    specialize (IH Hr). split; [|split].
    + rewrite collapsed_gap by exact Hg. replace (match g with [] => false | _ => false end) with false by (destruct g; reflexivity).
      simpl. rewrite Hc. simpl. rewrite collapsed_word by exact Hw'. rewrite IH. clear.
      destruct ws as [|w' ws]; [simpl; now rewrite app_nil_r|].
      assert (E : forall ws w', flat_map (fun w : list ascii => " "%char :: w) (w' :: ws) = " "%char :: join_words (w' :: ws)).
      { clear. induction ws as [|w ws IH]; intros w'; [simpl; now rewrite app_nil_r|].
        change (flat_map (fun w => " "%char :: w) (w' :: w :: ws)) with (" "%char :: w' ++ flat_map (fun w => " "%char :: w) (w :: ws)).
        rewrite IH. reflexivity. }
      rewrite E. reflexivity.
    + rewrite collapsed_gap by exact Hg. replace (match g with [] => true | _ => true end) with true by (destruct g; reflexivity).
      simpl. rewrite Hc. simpl. rewrite collapsed_word by exact Hw'. now rewrite IH.
    + intros Hx. destruct g as [|z g].
      * exfalso. destruct Hx as [Hx|[c' [x' [E Hb]]]]; [discriminate|]. simpl in E. injection E as E1 _. subst c'.
        apply IsSpace_blank in Hb. congruence.
      * rewrite collapsed_gap by exact Hg. simpl. rewrite Hc. simpl. rewrite collapsed_word by exact Hw'. now rewrite IH.
Qed.

Theorem TrimAndCollapseWs_words x ws : words_of x ws -> TrimAndCollapseWs_run x = Ok (join_words ws).
Proof. intros H. rewrite run_collapsed. f_equal. now apply collapsed_words. Qed.

(** Every string has its words. *)
Lemma words_blank c x ws : blank c -> words_of x ws -> words_of (c :: x) ws.
Proof.
  intros Hc H. destruct H as [g Hg|g w rest ws Hg Hne Hw Hr H].
  - constructor. now constructor.
  - change (c :: g ++ w ++ rest) with ((c :: g) ++ w ++ rest). constructor; auto.
Qed.

Lemma words_nonblank c x ws : ~ blank c -> words_of x ws -> exists ws', words_of (c :: x) ws'.
Proof.
  intros Hc H. destruct H as [g Hg|g w rest ws Hg Hne Hw Hr H].
  - exists [[c]]. change (c :: g) with ([] ++ [c] ++ g). constructor; auto.
    + discriminate.
    + destruct g as [|d g]; [now left|right]. exists d, g. split; [reflexivity|]. now inversion Hg.
    + now constructor.
  - destruct g as [|d g].
    + exists ((c :: w) :: ws). change (c :: [] ++ w ++ rest) with ([] ++ (c :: w) ++ rest). constructor; auto. discriminate.
    + exists ([c] :: w :: ws). change (c :: (d :: g) ++ w ++ rest) with ([] ++ [c] ++ ((d :: g) ++ w ++ rest)).
      constructor; auto; [discriminate| |now constructor].
      right. exists d, (g ++ w ++ rest). split; [reflexivity|]. now inversion Hg.
Qed.

Theorem words_exist x : exists ws, words_of x ws.
Proof.
  induction x as [|c x [ws IH]]; [exists []; constructor; constructor|].
  destruct (IsSpace c) eqn:E.
  - exists ws. apply IsSpace_blank in E. now apply words_blank.
  - apply IsSpace_false in E. eapply words_nonblank; eauto.
Qed.

Lemma words_nonempty x ws : words_of x ws -> Forall (fun w => w <> [] /\ Forall (fun c => ~ blank c) w) ws.
Proof. induction 1; constructor; auto. Qed.

Lemma join_words_of ws : Forall (fun w => w <> [] /\ Forall (fun c => ~ blank c) w) ws -> words_of (join_words ws) ws.
Proof.
  induction 1 as [|w ws [Hne Hw] H IH]; [repeat constructor|].
  destruct ws as [|w' ws].
  - change (join_words [w]) with ([] ++ w). rewrite <- (app_nil_r w) at 1. constructor; auto.
  - change (join_words (w :: w' :: ws)) with ([] ++ w ++ (" "%char :: join_words (w' :: ws))).
    constructor; auto.
    + right. eexists _, _. split; [reflexivity|]. simpl. now left.
    + apply words_blank; [simpl; now left|exact IH].
Qed.

Theorem collapse_idempotent x y : TrimAndCollapseWs_run x = Ok y -> TrimAndCollapseWs_run y = Ok y.
Proof.
  destruct (words_exist x) as [ws H]. rewrite (TrimAndCollapseWs_words x ws H). intros E. injection E as <-.
  apply TrimAndCollapseWs_words, join_words_of. eapply words_nonempty; eauto.
Qed.

(** ** Prefix, suffix, substring *)

Lemma str_eqb_eq a b : str_eqb a b = true <-> a = b.
Proof.
  revert b. induction a as [|x a IH]; intros [|y b]; simpl; try (split; congruence).
  rewrite andb_true_iff, Ascii.eqb_eq, IH. split; [intros [-> ->]; reflexivity|intros H; now injection H].
Qed.

Lemma is_prefix_spec w x : is_prefix w x = true <-> starts_with w x.
Proof.
  unfold starts_with. revert x. induction w as [|a w IH]; intros x; simpl.
  - split; [|reflexivity]. intros _. now exists x.
  - destruct x as [|c x]; [split; [discriminate|intros [r H]; discriminate]|].
    rewrite andb_true_iff, Ascii.eqb_eq, IH. split.
    + intros [-> [r ->]]. now exists r.
    + intros [r H]. injection H as -> ->. split; [reflexivity|now exists r].
Qed.

Lemma ends_with_spec lit x :
  (if Nat.ltb (length x) (length lit) then false else is_prefix (rev lit) (rev x)) = true <-> ends_with lit x.
Proof.
  unfold ends_with. destruct (Nat.ltb_spec (length x) (length lit)) as [H|H].
  - split; [discriminate|]. intros [a ->]. rewrite app_length in H. lia.
  - rewrite is_prefix_spec. unfold starts_with. split.
    + intros [r E]. exists (rev r). rewrite <- (rev_involutive x), E, rev_app_distr. now rewrite rev_involutive.
    + intros [a ->]. exists (rev a). apply rev_app_distr.
Qed.

Lemma find_from_some w x pos k : find_from w x pos = Some k ->
  exists a c, x = a ++ w ++ c /\ k = pos + length a /\
    (forall a' c', x = a' ++ w ++ c' -> length a <= length a').
Proof.
  revert pos. induction x as [|y x IH]; intros pos; cbn [find_from].
  - destruct (is_prefix w []) eqn:E; [|discriminate]. intros H. injection H as <-.
    apply is_prefix_spec in E as [r E]. exists [], r. simpl. rewrite <- E. repeat split; [lia|]. intros; simpl; lia.
  - destruct (is_prefix w (y :: x)) eqn:E.
    + intros H. injection H as <-. apply is_prefix_spec in E as [r E]. exists [], r. simpl. rewrite <- E. repeat split; [lia|].
      intros; simpl; lia.
    + intros H. apply IH in H as [a [c [-> [-> Hmin]]]]. exists (y :: a), c. repeat split; [simpl; lia|].
      intros a' c' E'. destruct a' as [|z a'].
      * simpl in E'. assert (is_prefix w (y :: a ++ w ++ c) = true) by (apply is_prefix_spec; now exists c'). congruence.
      * injection E' as -> E'. apply Hmin in E'. simpl. lia.
Qed.

Lemma find_from_none w x pos : find_from w x pos = None -> ~ occurs_in w x.
Proof.
  revert pos. induction x as [|y x IH]; intros pos; cbn [find_from].
  - destruct (is_prefix w []) eqn:E; [discriminate|]. intros _ [a [c H]].
    symmetry in H. apply app_eq_nil in H as [-> H]. apply app_eq_nil in H as [-> ->]. discriminate.
  - destruct (is_prefix w (y :: x)) eqn:E; [discriminate|]. intros H [a [c E']].
    destruct a as [|z a].
    + simpl in E'. assert (is_prefix w (y :: x) = true) by (apply is_prefix_spec; now exists c). congruence.
    + injection E' as -> E'. apply (IH _ H). now exists a, c.
Qed.

Lemma contains_spec lit x : is_some (str_find x lit 0) = true <-> occurs_in lit x.
Proof.
  unfold str_find. simpl. destruct (find_from lit x 0) as [k|] eqn:E.
  - split; [|reflexivity]. intros _. apply find_from_some in E as [a [c [H _]]]. now exists a, c.
  - split; [discriminate|]. intros H. now apply find_from_none in E.
Qed.

(** ** ContainsWord *)

Lemma nth_error_last {A} (a : list A) x y : nth_error ((a ++ [x]) ++ y) (length (a ++ [x]) - 1) = Some x.
Proof.
  rewrite app_length. simpl. rewrite <- app_assoc. rewrite nth_error_app2 by lia.
  replace (length a + 1 - 1 - length a) with 0 by lia. reflexivity.
Qed.

Lemma bound_start a w c :
  Nat.eqb (length a) 0 || (match nth_error (a ++ w ++ c) (length a - 1) with Some z => Ascii.eqb z " "%char | None => false end) = true
  <-> (a = [] \/ exists b, a = b ++ [" "%char]).
Proof.
  destruct (rev a) as [|z ra] eqn:E.
  - assert (a = []) by (rewrite <- (rev_involutive a), E; reflexivity). subst. simpl. split; auto.
  - assert (Ha : a = rev ra ++ [z]) by (rewrite <- (rev_involutive a), E; reflexivity). subst a.
    rewrite nth_error_last. replace (length (rev ra ++ [z]) =? 0) with false by (symmetry; apply Nat.eqb_neq; rewrite app_length; simpl; lia).
    cbn [orb]. rewrite Ascii.eqb_eq. split.
    + intros ->. right. now exists (rev ra).
    + intros [H|[b H]]; [now apply app_eq_nil in H as [_ H]|]. apply app_inj_tail in H as [_ ->]. reflexivity.
Qed.

Lemma bound_end a w c :
  Nat.eqb (length a + length w) (length (a ++ w ++ c)) || (match nth_error (a ++ w ++ c) (length a + length w) with Some z => Ascii.eqb z " "%char | None => false end) = true
  <-> (c = [] \/ exists r, c = " "%char :: r).
Proof.
  rewrite app_assoc. rewrite <- !app_length. rewrite nth_error_app2 by lia. rewrite Nat.sub_diag.
  destruct c as [|z c]; cbn [nth_error].
  - rewrite app_nil_r, Nat.eqb_refl. simpl. split; auto.
  - replace (length (a ++ w) =? length ((a ++ w) ++ z :: c)) with false
      by (symmetry; apply Nat.eqb_neq; rewrite (app_length (a ++ w)); simpl; lia).
    cbn [orb]. rewrite Ascii.eqb_eq. split.
    + intros ->. right. now exists c.
    + intros [H|[r H]]; [discriminate|]. now injection H.
Qed.

Lemma app_split {A} (a b c d : list A) : a ++ b = c ++ d -> length a <= length c -> exists m, c = a ++ m /\ b = m ++ d.
Proof.
  revert c. induction a as [|x a IH]; intros c H Hl; [now exists c|].
  destruct c as [|y c]; [simpl in Hl; lia|]. injection H as -> H. apply IH in H as [m [-> ->]]; [|simpl in Hl; lia].
  now exists m.
Qed.

(** Occurrences of [w] from position [k] on between blanks. *)
Definition word_from (w x : str) (k : nat) : Prop :=
  exists before rest, x = before ++ w ++ rest /\ k <= length before /\
    (before = [] \/ exists b, before = b ++ [" "%char]) /\
    (rest = [] \/ exists r, rest = " "%char :: r).

Lemma contains_loop_ok w : w <> [] -> ~ In " "%char w -> forall fuel x k,
  length x < fuel + k -> k <= length x ->
  exists b, contains_word_loop fuel x w k = Some b /\ (b = true <-> word_from w x k).
Proof.
  intros Hne Hw. induction fuel as [|f IH]; intros x k Hf Hk; [lia|].
  cbn [contains_word_loop]. unfold str_find. destruct (Nat.ltb_spec (length x) k); [lia|].
  destruct (find_from w (skipn k x) k) as [p|] eqn:E.
  - apply find_from_some in E as [a [c [Hx [-> Hmin]]]].
    assert (HX : x = (firstn k x ++ a) ++ w ++ c) by (rewrite <- app_assoc, <- Hx; symmetry; apply firstn_skipn).
    assert (Hla : length (firstn k x ++ a) = k + length a) by (rewrite app_length, firstn_length; lia).
    remember (firstn k x ++ a) as a0. rewrite <- Hla.
    pose proof (bound_start a0 w c) as HS. pose proof (bound_end a0 w c) as HEd. rewrite <- HX in HS, HEd.
    destruct ((length a0 =? 0) || _) eqn:E1; [destruct ((length a0 + length w =? length x) || _) eqn:E2|].
    + exists true. split; [reflexivity|]. split; [|reflexivity]. intros _. exists a0, c.
      repeat split; [exact HX|lia|now apply HS|now apply HEd].
    + cbn [andb]. destruct (IH x (length a0 + length w)) as [b [Hb Hs]].
      { destruct w; [congruence|]. simpl. lia. }
      { rewrite HX. rewrite !app_length. lia. }
      exists b. split; [exact Hb|]. rewrite Hs. clear Hs Hb IH. unfold word_from. split.
      * intros [b1 [r1 [X1 [L1 H1]]]]. exists b1, r1. repeat split; [exact X1|lia|apply H1|apply H1].
      * intros [b1 [r1 [X1 [L1 [H1 H2]]]]]. exists b1, r1. repeat split; [exact X1| |exact H1|exact H2].
        destruct (Nat.le_gt_cases (length a0 + length w) (length b1)) as [HL|HL]; [exact HL|exfalso].
        (* an occurrence that overlaps the one found *)
        rewrite HX in X1.
        assert (length a0 <= length b1).
        { rewrite Hla. assert (Hb1 : exists b1', b1 = firstn k x ++ b1' /\ skipn k x = b1' ++ w ++ r1).
          { rewrite <- HX in X1. rewrite <- (firstn_skipn k x) in X1 at 1.
            apply app_split in X1; [|rewrite firstn_length; lia]. exact X1. }
          destruct Hb1 as [b1' [-> Hsk]]. apply Hmin in Hsk. rewrite app_length, firstn_length. lia. }
        apply app_split in X1 as [m [-> Hm]]; [|exact H0].
        destruct H1 as [H1|[bb H1]].
        -- apply app_eq_nil in H1 as [H1 ->]. rewrite H1 in *. simpl in Hm. apply app_inv_head in Hm. subst r1.
           apply HEd in H2. discriminate.
        -- destruct (rev m) as [|z rm] eqn:Em.
           ++ assert (m = []) by (rewrite <- (rev_involutive m), Em; reflexivity). subst m. simpl in Hm. apply app_inv_head in Hm. subst r1.
              apply HEd in H2. discriminate.
           ++ assert (Hmm : m = rev rm ++ [z]) by (rewrite <- (rev_involutive m), Em; reflexivity).
              rewrite Hmm, app_assoc in H1. apply app_inj_tail in H1 as [_ ->].
              rewrite Hmm in Hm, HL. rewrite !app_length in HL. simpl in HL.
              apply Hw.
              assert (HN : nth_error (w ++ c) (length (rev rm)) = Some " "%char).
              { rewrite Hm. rewrite <- app_assoc. rewrite nth_error_app2 by lia. now rewrite Nat.sub_diag. }
              rewrite nth_error_app1 in HN by lia. now apply nth_error_In in HN.
    + cbn [andb]. destruct (IH x (length a0 + length w)) as [b [Hb Hs]].
      { destruct w; [congruence|]. simpl. lia. }
      { rewrite HX. rewrite !app_length. lia. }
      exists b. split; [exact Hb|]. rewrite Hs. clear Hs Hb IH. unfold word_from. split.
      * intros [b1 [r1 [X1 [L1 H1]]]]. exists b1, r1. repeat split; [exact X1|lia|apply H1|apply H1].
      * intros [b1 [r1 [X1 [L1 [H1 H2]]]]]. exists b1, r1. repeat split; [exact X1| |exact H1|exact H2].
        destruct (Nat.le_gt_cases (length a0 + length w) (length b1)) as [HL|HL]; [exact HL|exfalso].
        rewrite HX in X1.
        assert (length a0 <= length b1).
        { rewrite Hla. assert (Hb1 : exists b1', b1 = firstn k x ++ b1' /\ skipn k x = b1' ++ w ++ r1).
          { rewrite <- HX in X1. rewrite <- (firstn_skipn k x) in X1 at 1.
            apply app_split in X1; [|rewrite firstn_length; lia]. exact X1. }
          destruct Hb1 as [b1' [-> Hsk]]. apply Hmin in Hsk. rewrite app_length, firstn_length. lia. }
        apply app_split in X1 as [m [-> Hm]]; [|exact H0].
        destruct (rev m) as [|z rm] eqn:Em.
        -- assert (m = []) by (rewrite <- (rev_involutive m), Em; reflexivity). subst m. rewrite app_nil_r in *.
           apply HS in H1. discriminate H1.
        -- assert (Hmm : m = rev rm ++ [z]) by (rewrite <- (rev_involutive m), Em; reflexivity).
           destruct H1 as [H1|[bb H1]].
           { apply app_eq_nil in H1 as [_ H1]. rewrite H1 in Hmm. destruct (rev rm); discriminate. }
           rewrite Hmm, app_assoc in H1. apply app_inj_tail in H1 as [_ ->].
           rewrite Hmm in Hm, HL. rewrite !app_length in HL. simpl in HL.
           apply Hw.
           assert (HN : nth_error (w ++ c) (length (rev rm)) = Some " "%char).
           { rewrite Hm. rewrite <- app_assoc. rewrite nth_error_app2 by lia. now rewrite Nat.sub_diag. }
           rewrite nth_error_app1 in HN by lia. now apply nth_error_In in HN.
  - exists false. split; [reflexivity|]. split; [discriminate|]. intros [b1 [r1 [X1 [L1 _]]]]. exfalso.
    apply find_from_none in E. apply E.
    rewrite <- (firstn_skipn k x) in X1 at 1. apply app_split in X1; [|rewrite firstn_length; lia].
    destruct X1 as [m [_ ->]]. now exists m, r1.
Qed.

Theorem ContainsWord_spec x w : w <> [] -> ~ In " "%char w -> (ContainsWord x w = true <-> word_in w x).
Proof.
  intros Hne Hw. unfold ContainsWord.
  assert (HL : word_in w x -> length w <= length x).
  { intros [b [r [-> _]]]. rewrite !app_length. lia. }
  destruct w as [|c w]; [congruence|].
  destruct (Nat.eqb_spec (length x) 0); [cbn [orb]; split; [discriminate|]; intros H; apply HL in H; simpl in H; lia|].
  replace (length (c :: w) =? 0) with false by reflexivity. cbn [orb].
  destruct (Nat.ltb_spec (length x) (length (c :: w))); [split; [discriminate|]; intros H'; apply HL in H'; lia|].
  destruct (contains_loop_ok (c :: w) Hne Hw (S (length x)) x 0) as [b [-> Hb]]; [lia|lia|].
  rewrite Hb. unfold word_from, word_in. split.
  - intros [b1 [r [H1 [_ H2]]]]. exists b1, r. auto.
  - intros [b1 [r [H1 H2]]]. exists b1, r. repeat split; try apply H2; [exact H1|lia].
Qed.
