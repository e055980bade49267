(** Positions in error messages. *)

From Coq Require Import Ascii String Arith NArith ZArith Bool List Lia.
From Verif Require Import Base StringUtil StringSpec StringProofs TextSpec Parser.
Import ListNotations.

(** ** Decimal numbers *)

Lemma decimal_bounds n x : decimal_of n x -> x <> [] /\ (n < 10 ^ N.of_nat (length x))%N /\ (2 <= length x -> (10 ^ N.of_nat (length x - 1) <= n)%N).
Proof.
  induction 1 as [d Hd|n d x Hn Hd H [Hx [H1 H2]]].
  - split; [discriminate|]. split; [exact Hd|]. simpl. lia.
  - split; [now destruct x|]. rewrite app_length. cbn [length].
    replace (length x + 1 - 1) with (length x) by lia. replace (N.of_nat (length x + 1)) with (N.succ (N.of_nat (length x))) by lia.
    rewrite N.pow_succ_r'. split; [lia|]. intros _.
    destruct (Nat.le_gt_cases 2 (length x)) as [Hl|Hl].
    + specialize (H2 Hl). replace (N.of_nat (length x)) with (N.succ (N.of_nat (length x - 1))) at 1 by lia. rewrite N.pow_succ_r'. lia.
    + replace (length x) with 1 by (destruct x as [|? [|? ?]]; simpl in *; [congruence|lia|lia]). change (10 ^ N.of_nat 1)%N with 10%N. lia.
Qed.

Lemma decimal_length_le n x m y : decimal_of n x -> decimal_of m y -> (n <= m)%N -> length x <= length y.
Proof.
  intros Hx Hy Hnm. apply decimal_bounds in Hx as [Hx [_ Hx2]]. apply decimal_bounds in Hy as [Hy [Hy1 _]].
  destruct (Nat.le_gt_cases (length x) (length y)) as [|Hl]; [assumption|]. exfalso.
  assert (Hl2 : 2 <= length x) by (destruct y; simpl in *; [congruence|lia]). specialize (Hx2 Hl2).
  assert (10 ^ N.of_nat (length y) <= 10 ^ N.of_nat (length x - 1))%N by (apply N.pow_le_mono_r; lia). lia.
Qed.

Lemma digit_inj d d' : (d < 10)%N -> (d' < 10)%N -> digit_of d = digit_of d' -> d = d'.
Proof.
  intros H H' E. unfold digit_of in E. apply (f_equal N_of_ascii) in E. rewrite !N_ascii_embedding in E by lia. lia.
Qed.

Lemma decimal_inv n x : decimal_of n x ->
  ((n < 10)%N /\ x = [digit_of n]) \/
  exists m d y, (0 < m)%N /\ (d < 10)%N /\ n = (10 * m + d)%N /\ x = y ++ [digit_of d] /\ decimal_of m y.
Proof. intros H. destruct H as [d Hd|m d y Hm Hd H]; [now left|]. right. exists m, d, y. auto. Qed.

Lemma decimal_unique n x y : decimal_of n x -> decimal_of n y -> x = y.
Proof.
  intros H. revert y. induction H as [d Hd|n d x Hn Hd H IH]; intros y Hy; apply decimal_inv in Hy as [[Hy ->]|[m [d' [y' [Hm [Hd' [E [-> Hy]]]]]]]].
  - reflexivity.
  - lia.
  - lia.
  - assert (m = n /\ d' = d) as [-> ->] by lia. now rewrite (IH y' Hy).
Qed.

Lemma decimal_inj n m x : decimal_of n x -> decimal_of m x -> n = m.
Proof.
  intros H. revert m. induction H as [d Hd|n d x Hn Hd H IH]; intros m Hx; apply decimal_inv in Hx as [[Hy E]|[k [d' [y' [Hm [Hd' [E [E' Hy]]]]]]]].
  - injection E as E. now apply digit_inj.
  - destruct y' as [|? [|? ?]]; try discriminate. apply decimal_bounds in Hy as [Hy _]. congruence.
  - destruct x as [|? [|? ?]]; try discriminate. apply decimal_bounds in H as [H _]. congruence.
  - apply app_inj_tail in E' as [<- E']. apply digit_inj in E'; auto. subst. now rewrite (IH k Hy).
Qed.

Lemma digits_loop_spec fuel : forall n acc, (n < 2 ^ N.of_nat fuel)%N -> (0 < fuel)%nat ->
  exists x, digits_loop fuel n acc = x ++ acc /\ decimal_of n x.
Proof.
  induction fuel as [|f IH]; intros n acc Hn Hf; [lia|]. cbn [digits_loop].
  pose proof (N.div_mod n 10 ltac:(lia)) as E. pose proof (N.mod_lt n 10 ltac:(lia)) as Hm.
  destruct (N.eqb_spec (n / 10) 0) as [E0|E0].
  - exists [digit_of (n mod 10)]. split; [reflexivity|]. replace n with (n mod 10)%N at 1 by lia. now constructor.
  - assert (Hn' : (n / 10 < 2 ^ N.of_nat f)%N).
    { replace (N.of_nat (S f)) with (N.succ (N.of_nat f)) in Hn by lia. rewrite N.pow_succ_r' in Hn.
      apply N.div_lt_upper_bound; lia. }
    destruct f as [|f']; [simpl in Hn'; lia|].
    destruct (IH (n / 10)%N (digit_of (n mod 10) :: acc) Hn' ltac:(lia)) as [x [Hx Hd]].
    exists (x ++ [digit_of (n mod 10)]). split.
    + rewrite <- app_assoc. exact Hx.
    + replace n with (10 * (n / 10) + n mod 10)%N at 1 by lia. constructor; auto. lia.
Qed.

Lemma log_bound n : (n < 2 ^ N.of_nat (S (N.to_nat (N.log2 n))))%N.
Proof.
  replace (N.of_nat (S (N.to_nat (N.log2 n)))) with (N.succ (N.log2 n)) by lia.
  destruct (N.eq_dec n 0) as [->|Hn]; [reflexivity|]. apply N.log2_spec. lia.
Qed.

Theorem decimal_spec n : decimal_of n (decimal n).
Proof.
  unfold decimal. destruct (digits_loop_spec (S (N.to_nat (N.log2 n))) n [] (log_bound n) ltac:(lia)) as [x [E H]].
  rewrite E, app_nil_r. exact H.
Qed.

Lemma width_loop_spec fuel : forall n w x, (n < 2 ^ N.of_nat fuel)%N -> (0 < fuel)%nat -> decimal_of n x ->
  decimal_width_loop fuel n w + 1 = w + length x.
Proof.
  induction fuel as [|f IH]; intros n w x Hn Hf Hx; [lia|]. cbn [decimal_width_loop].
  pose proof (N.div_mod n 10 ltac:(lia)) as E. pose proof (N.mod_lt n 10 ltac:(lia)) as Hm.
  destruct (N.eqb_spec (n / 10) 0) as [E0|E0].
  - apply decimal_inv in Hx as [[Hx ->]|[n' [d [x' [Hn' [Hd [E' [-> H']]]]]]]]; [reflexivity|]. lia.
  - assert (Hn' : (n / 10 < 2 ^ N.of_nat f)%N).
    { replace (N.of_nat (S f)) with (N.succ (N.of_nat f)) in Hn by lia. rewrite N.pow_succ_r' in Hn.
      apply N.div_lt_upper_bound; lia. }
    destruct f as [|f']; [simpl in Hn'; lia|].
    apply decimal_inv in Hx as [[Hx ->]|[n' [d [x' [Hn1 [Hd [E' [-> H']]]]]]]].
    + exfalso. apply E0. apply N.div_small. exact Hx.
    + assert (Eq : (n / 10 = n')%N) by (symmetry; apply (N.div_unique _ _ _ d); lia).
      rewrite Eq in *. rewrite app_length. cbn [length].
      pose proof (IH n' (S w) x' Hn' ltac:(lia) H'). lia.
Qed.

Lemma DecimalWidth_spec n x : decimal_of n x -> DecimalWidth n = length x.
Proof.
  intros H. unfold DecimalWidth.
  pose proof (width_loop_spec (S (N.to_nat (N.log2 n))) n 1 x (log_bound n) ltac:(lia) H). lia.
Qed.

(** ** Positions *)

Lemma count_newlines_eq x : count_newlines x = newlines x.
Proof.
  unfold count_newlines, newlines. induction x as [|c x IH]; [reflexivity|]. cbn [filter count_occ].
  destruct (Ascii.eqb_spec c "010"%char) as [->|Hc]; unfold newline in *; destruct (ascii_dec _ _); try congruence; simpl; congruence.
Qed.

Lemma newlines_app a b : newlines (a ++ b) = newlines a + newlines b.
Proof. apply count_occ_app. Qed.

Lemma newlines_none x : ~ In newline x -> newlines x = 0.
Proof. apply count_occ_not_In. Qed.

Lemma after_last_app x : forall y pos best,
  after_last_newline (x ++ y) pos best = after_last_newline y (pos + length x) (after_last_newline x pos best).
Proof.
  induction x as [|c x IH]; intros y pos best; cbn [after_last_newline app length]; [now rewrite Nat.add_0_r|].
  rewrite IH. f_equal. lia.
Qed.

Lemma after_last_none x : ~ In newline x -> forall pos best, after_last_newline x pos best = best.
Proof.
  induction x as [|c x IH]; intros H pos best; [reflexivity|]. cbn [after_last_newline].
  destruct (Ascii.eqb_spec c "010"%char) as [->|Hc]; [exfalso; apply H; now left|]. apply IH. intros H'. apply H. now right.
Qed.

Theorem CharPosition_spec x before line : last_line x before line -> CharPosition x = (newlines before, length line).
Proof.
  intros [-> [Hl Hb]]. unfold CharPosition. rewrite count_newlines_eq, newlines_app, (newlines_none line Hl), Nat.add_0_r, app_length.
  destruct Hb as [->|[b ->]].
  - simpl. f_equal. lia.
  - rewrite newlines_app. change (newlines [newline]) with 1.
    destruct (Nat.eqb_spec (newlines b + 1) 0); [lia|]. f_equal.
    rewrite after_last_app, (after_last_none line Hl), after_last_app. cbn [after_last_newline].
    change (Ascii.eqb newline "010"%char) with true. cbv iota. rewrite app_length. simpl. lia.
Qed.

Lemma last_line_exists x : exists before line, last_line x before line.
Proof.
  induction x as [|c x [before [line [-> [Hl Hb]]]]].
  - exists [], []. repeat split; auto.
  - destruct Hb as [->|[b ->]].
    + destruct (ascii_dec c newline) as [->|Hc].
      * exists [newline], line. split; [reflexivity|]. split; [exact Hl|]. right. now exists [].
      * exists [], (c :: line). split; [reflexivity|]. split; [|now left]. intros [H|H]; [congruence|contradiction].
    + exists (c :: b ++ [newline]), line. split; [reflexivity|]. split; [exact Hl|]. right. now exists (c :: b).
Qed.

(** ** Listings *)

(** Texts that consist of whole lines. *)
Inductive whole_lines : str -> Prop :=
| whole_nil : whole_lines []
| whole_cons line t : ~ In newline line -> whole_lines t -> whole_lines (line ++ [newline] ++ t).

Lemma whole_app a b : whole_lines a -> whole_lines b -> whole_lines (a ++ b).
Proof. intros H H'. induction H; [exact H'|]. rewrite <- !app_assoc. now constructor. Qed.

Lemma whole_snoc x : whole_lines (x ++ [newline]).
Proof.
  induction x as [|c x IH].
  - apply (whole_cons [] []); [intros []|constructor].
  - destruct (ascii_dec c newline) as [->|Hc].
    + apply (whole_cons [] (x ++ [newline])); [intros []|exact IH].
    + inversion IH as [E|line t Hl Ht E]; [now destruct x|].
      simpl. rewrite <- E. apply (whole_cons (c :: line) t); [|exact Ht]. intros [H|H]; [congruence|contradiction].
Qed.

Lemma split_line line : ~ In newline line -> forall cur t,
  split_newlines cur (line ++ newline :: t) = (rev cur ++ line) :: split_newlines [] t.
Proof.
  induction line as [|c line IH]; intros H cur t; cbn [split_newlines app].
  - change (Ascii.eqb newline "010"%char) with true. cbv iota. now rewrite app_nil_r.
  - destruct (Ascii.eqb_spec c "010"%char) as [->|Hc]; [exfalso; apply H; now left|].
    rewrite IH by (intros H'; apply H; now right). simpl. now rewrite <- app_assoc.
Qed.

Lemma split_last line : ~ In newline line -> forall cur, split_newlines cur line = [rev cur ++ line].
Proof.
  induction line as [|c line IH]; intros H cur; cbn [split_newlines]; [now rewrite app_nil_r|].
  destruct (Ascii.eqb_spec c "010"%char) as [->|Hc]; [exfalso; apply H; now left|].
  rewrite IH by (intros H'; apply H; now right). simpl. now rewrite <- app_assoc.
Qed.

Lemma setw_pad w x : length x <= w -> exists pad, setw w x = pad ++ x /\ Forall (eq " "%char) pad /\ length pad + length x = w.
Proof.
  intros H. exists (repeat " "%char (w - length x)). split; [reflexivity|]. split.
  - apply Forall_forall. intros c Hc. apply repeat_spec in Hc. auto.
  - rewrite repeat_length. lia.
Qed.

Lemma numbered_listing w before : whole_lines before -> forall k last,
  ~ In newline last -> w = length (decimal (k + N.of_nat (newlines before))) ->
  exists earlier, listing w k before earlier /\
    numbered w k (split_newlines [] (before ++ last)) =
    earlier ++ decimal (k + N.of_nat (newlines before)) ++ s ": " ++ last ++ [newline].
Proof.
  induction 1 as [|line t Hl Ht IH]; intros k last Hlast Hw.
  - exists []. split; [constructor|]. cbn [app]. rewrite (split_last last Hlast). cbn [numbered rev app].
    change (N.of_nat (newlines [])) with 0%N in *. rewrite N.add_0_r in *. unfold setw. rewrite <- Hw, Nat.sub_diag. reflexivity.
  - assert (Hn : newlines (line ++ [newline] ++ t) = S (newlines t)).
    { rewrite !newlines_app, (newlines_none line Hl). reflexivity. }
    rewrite Hn in *. replace (k + N.of_nat (S (newlines t)))%N with (k + 1 + N.of_nat (newlines t))%N in * by lia.
    destruct (IH (k + 1)%N last Hlast Hw) as [earlier [HE EE]].
    assert (Hk : length (decimal k) <= w).
    { rewrite Hw. eapply decimal_length_le; [apply decimal_spec|apply decimal_spec|lia]. }
    destruct (setw_pad w (decimal k) Hk) as [pad [Ep [Hp Hpl]]].
    exists (pad ++ decimal k ++ s ": " ++ line ++ [newline] ++ earlier). split.
    + constructor; auto. apply decimal_spec.
    + rewrite <- !app_assoc. cbn [app]. rewrite (split_line line Hl). cbn [rev app numbered]. rewrite Ep, EE.
      rewrite <- !app_assoc. reflexivity.
Qed.

Theorem PrintNumberedLines_spec before last : whole_lines before -> ~ In newline last -> before ++ last <> [] ->
  let number := decimal (N.of_nat (newlines before + 1)) in
  exists earlier, listing (length number) 1 before earlier /\
    PrintNumberedLines (before ++ last) = earlier ++ number ++ s ": " ++ last ++ [newline].
Proof.
  intros Hb Hl Hne number. unfold PrintNumberedLines.
  assert (Hc : count_newlines (before ++ last) = newlines before).
  { rewrite count_newlines_eq, newlines_app, (newlines_none last Hl). lia. }
  rewrite Hc. replace (1 + newlines before) with (newlines before + 1) by lia.
  rewrite (DecimalWidth_spec _ _ (decimal_spec _)). fold number.
  replace (tokenize_lines (before ++ last)) with (split_newlines [] (before ++ last)) by (destruct (before ++ last); [congruence|reflexivity]).
  assert (En : (N.of_nat (newlines before + 1) = 1 + N.of_nat (newlines before))%N) by lia.
  unfold number. rewrite En. apply numbered_listing; auto.
Qed.

(** ** The message *)

Lemma whole_of before : before = [] \/ (exists b, before = b ++ [newline]) -> whole_lines before.
Proof. intros [->|[b ->]]; [constructor|apply whole_snoc]. Qed.

Lemma shown_no_newline line rest : ~ In newline line -> ~ In newline (line ++ shown_of rest).
Proof.
  intros H Hi. apply in_app_or in Hi as [Hi|Hi]; [contradiction|]. destruct rest as [|c rest]; [contradiction|].
  cbn [shown_of] in Hi. destruct (ascii_dec c newline) as [|Hc]; [contradiction|]. destruct Hi as [Hi|[]]. congruence.
Qed.

Lemma char_negative c : (char_to_int c <? 0)%Z = true <-> (128 <= N_of_ascii c)%N.
Proof.
  unfold char_to_int. pose proof (N_ascii_bounded c). destruct (Z.ltb_spec (Z.of_N (N_of_ascii c)) 128); rewrite Z.ltb_lt; lia.
Qed.

Theorem print_error_location_spec before line rest mark :
  last_line (before ++ line) before line -> before ++ line ++ shown_of rest <> [] ->
  location_message before line rest mark
    (print_error_location (before ++ line ++ rest) (length (before ++ line)) mark).
Proof.
  intros HL Hne. pose proof (CharPosition_spec _ _ _ HL) as HP. destruct HL as [_ [Hl Hb]].
  set (number := decimal (N.of_nat (newlines before + 1))).
  assert (Hlen : length (before ++ line ++ rest) = length (before ++ line) + length rest) by (rewrite !app_length; lia).
  destruct (PrintNumberedLines_spec before (line ++ shown_of rest) (whole_of _ Hb) (shown_no_newline line rest Hl) Hne) as [earlier [HE EE]].
  fold number in HE, EE.
  set (head := if match rest with [] => true | _ => false end then s "at end of input:" ++ [newline; newline]
          else s "at line " ++ number ++ s ", char " ++ decimal (N.of_nat (length line + 1)) ++ s ":" ++ [newline; newline]).
  set (marker := if Nat.ltb mark 1 then []
        else if existsb (fun c => (char_to_int c <? 0)%Z) (before ++ line ++ rest) then []
        else
          repeat " "%char (DecimalWidth (N.of_nat (newlines before + 1)) + 2 + (length line + 1) - Nat.min (length line + 1) mark)
          ++ repeat "^"%char (Nat.min (length line + 1) mark) ++ s " here" ++ [newline]).
  assert (EQ : print_error_location (before ++ line ++ rest) (length (before ++ line)) mark
               = head ++ (earlier ++ number ++ s ": " ++ (line ++ shown_of rest) ++ [newline]) ++ marker).
  { unfold print_error_location.
    assert (Ef : firstn (length (before ++ line)) (before ++ line ++ rest) = before ++ line).
    { rewrite app_assoc, firstn_app, Nat.sub_diag, firstn_all. cbn [firstn]. apply app_nil_r. }
    rewrite Ef, HP. cbn [fst snd].
    destruct (Nat.ltb_spec (length (before ++ line ++ rest)) (length (before ++ line))) as [Hlt|_]; [lia|].
    assert (Hrest : Nat.eqb (length (before ++ line)) (length (before ++ line ++ rest)) = match rest with [] => true | _ => false end).
    { rewrite Hlen. destruct rest; [apply Nat.eqb_eq; simpl; lia|apply Nat.eqb_neq; simpl; lia]. }
    assert (Hnth : nth_error (before ++ line ++ rest) (length (before ++ line)) = match rest with [] => None | c :: _ => Some c end).
    { rewrite app_assoc, nth_error_app2, Nat.sub_diag by lia. now destruct rest. }
    rewrite Hrest, Hnth. f_equal. f_equal. rewrite <- EE.
    destruct rest as [|c rest]; cbn [shown_of orb]; [now rewrite app_nil_r|].
    destruct (Ascii.eqb_spec c "010"%char) as [->|Hc]; destruct (ascii_dec _ newline) as [En|En]; unfold newline in *; try congruence.
    - now rewrite app_nil_r.
    - f_equal. rewrite app_assoc, firstn_app. replace (length (before ++ line) + 1 - length (before ++ line)) with 1 by lia.
      rewrite firstn_all2 by lia. now rewrite <- app_assoc. }
  rewrite EQ. exists head, earlier, number, marker.
  split; [now rewrite <- !app_assoc|].
  split.
  { unfold head. destruct rest; [left; auto|]. right. split; [discriminate|]. eexists. split; [apply decimal_spec|reflexivity]. }
  split; [apply decimal_spec|]. split; [exact HE|].
  assert (Hex : existsb (fun c => (char_to_int c <? 0)%Z) (before ++ line ++ rest) = true <->
                exists c, In c (before ++ line ++ rest) /\ (128 <= N_of_ascii c)%N).
  { rewrite existsb_exists. split; intros [c [H1 H2]]; exists c; split; auto; now apply char_negative. }
  split.
  - unfold marker. intros [->|H]; [reflexivity|]. apply Hex in H. rewrite H. now destruct (mark <? 1).
  - unfold marker. intros Hm HA. destruct (Nat.ltb_spec mark 1); [lia|].
    destruct (existsb (fun c => (char_to_int c <? 0)%Z) (before ++ line ++ rest)) eqn:Ex.
    { destruct (proj1 Hex eq_refl) as [c [H1 H2]]. specialize (HA c H1). lia. }
    eexists _, _. split; [reflexivity|]. split; [reflexivity|].
    rewrite (DecimalWidth_spec _ number (decimal_spec _)). rewrite !app_length. change (length (s ": ")) with 2. lia.
Qed.

Theorem decimal_exact n : decimal_of n (decimal n) /\ forall m, decimal_of m (decimal n) -> m = n.
Proof. split; [apply decimal_spec|]. intros m H. symmetry. eapply decimal_inj; [apply decimal_spec|exact H]. Qed.
