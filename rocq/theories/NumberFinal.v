(** A text that "Premature termination" is reported for, although nothing can
    be added to it (C89). *)

From Coq Require Import Ascii String NArith ZArith Bool List Lia.
From Verif Require Import Base StringUtil Dom Values Match Samples Rule ParserTables Parser ParseCostProofs.
Import ListNotations.

Definition big_number : str := s "<a:child-count(99999999999".

Definition digit (c : ascii) : bool := ((48 <=? N_of_ascii c) && (N_of_ascii c <=? 57))%N.

Lemma number_step c : machine_step 429 c =
  if digit c then Ok (429%N, []) else if Ascii.eqb c ")" then Ok (416%N, [31%N]) else Ok (0%N, [88%N]).
Proof. destruct c as [[] [] [] [] [] [] [] []]; vm_compute; reflexivity. Qed.
Lemma number_end : machine_eof 429 = Ok [88%N].
Proof. vm_compute. reflexivity. Qed.

Lemma digits_grow d : forallb digit d = true -> forall acc, (0 <= acc)%Z -> exists z, digits_value d acc = Some z /\ (acc <= z)%Z.
Proof.
  induction d as [|c d IH]; intros Hd acc Ha.
  - exists acc. split; [reflexivity|lia].
  - cbn [forallb] in Hd. apply andb_true_iff in Hd as [Hc Hd]. unfold digit in Hc.
    apply andb_true_iff in Hc as [H1 H2]. apply N.leb_le in H1, H2. cbn [digits_value]. cbv zeta.
    replace ((48 <=? Z.of_N (N_of_ascii c))%Z && (Z.of_N (N_of_ascii c) <=? 57)%Z) with true
      by (symmetry; apply andb_true_iff; split; apply Z.leb_le; lia).
    destruct (IH Hd (10 * acc + (Z.of_N (N_of_ascii c) - 48))%Z) as [z [Hz Hle]]; [lia|]. exists z. split; [exact Hz|lia].
Qed.
Lemma digits_app a : forall b acc z, digits_value a acc = Some z -> digits_value (a ++ b) acc = digits_value b z.
Proof.
  induction a as [|c a IH]; intros b acc z H; [now injection H as ->|]. cbn [digits_value app] in *. cbv zeta in *.
  destruct ((48 <=? Z.of_N (N_of_ascii c))%Z && (Z.of_N (N_of_ascii c) <=? 57)%Z); [|discriminate]. now apply IH.
Qed.
Lemma too_big d : forallb digit d = true -> stoi (s "99999999999" ++ d) = Throw StdOutOfRange.
Proof.
  intros Hd. unfold stoi.
  assert (HV : exists z, digits_value (s "99999999999" ++ d) 0 = Some z /\ (99999999999 <= z)%Z).
  { rewrite (digits_app _ d 0 99999999999%Z) by (vm_compute; reflexivity). now apply digits_grow. }
  destruct HV as [z [HV Hz]]. change (s "99999999999" ++ d) with ("9"%char :: (s "9999999999" ++ d)) in *.
  cbv iota beta zeta. rewrite HV. unfold fits_int. replace (z <=? INT_MAX)%Z with false; [now rewrite andb_false_r|].
  symmetry. apply Z.leb_gt. apply Z.lt_le_trans with 99999999999%Z; [reflexivity|exact Hz].
Qed.

Section Number.
Variable E : engine.
Variable input : str.

Lemma number_stuck y : forall d st x, input = big_number ++ d ++ y -> forallb digit d = true ->
  ps_tok_begin st = Some 15 -> ps_p st = 26 + length d -> exec E input y 429 st <> Ok x.
Proof.
  induction y as [|c y IH]; intros d st x Hi Hd Ht Hp.
  - cbn [exec]. rewrite number_end. cbn [obind run_eof_actions run_eof_action run_action].
    destruct (throw_unexpected input st) eqn:Et; try discriminate. now apply unexpected_never in Et.
  - cbn [exec]. rewrite number_step. destruct (digit c) eqn:Ec; [|destruct (Ascii.eqb_spec c ")")].
    + cbn [obind run_actions]. change (429 =? hext_error)%N with false. cbn iota.
      apply (IH (d ++ [c])); [now rewrite <- app_assoc|now rewrite forallb_app, Hd; cbn [forallb]; rewrite Ec|exact Ht|].
      cbn [ps_p with_p]. rewrite Hp, app_length. cbn. lia.
    + cbn [obind run_actions run_action]. unfold tk_stop. rewrite Ht, Hp.
      replace (Nat.leb 15 (26 + length d)) with true by (symmetry; apply Nat.leb_le; lia). cbn [obind ps_tok].
      replace (firstn (26 + length d - 15) (skipn 15 input)) with (s "99999999999" ++ d).
      * rewrite too_big by exact Hd. discriminate.
      * rewrite Hi. replace (26 + length d - 15) with (11 + length d) by lia.
        change (skipn 15 (big_number ++ d ++ c :: y)) with (s "99999999999" ++ d ++ c :: y).
        rewrite app_assoc. rewrite firstn_app. replace (11 + length d) with (length (s "99999999999" ++ d)) by (rewrite app_length; reflexivity).
        rewrite firstn_all, Nat.sub_diag. cbn [firstn]. now rewrite app_nil_r.
    + cbn [obind run_actions run_action]. destruct (throw_unexpected input st) eqn:Et; try discriminate. now apply unexpected_never in Et.
Qed.
End Number.

(** The machine at the end of a part of the text. *)
Fixpoint exec_part (E : engine) (input u : str) (cs : N) (st : pstate) : option (N * pstate) :=
  match u with
  | [] => Some (cs, st)
  | c :: u' =>
      match machine_step cs c with
      | Ok (cs', acts) =>
          match run_actions E input acts st with
          | Ok st1 => if (cs' =? hext_error)%N then None else exec_part E input u' cs' (with_p st1 (S (ps_p st1)))
          | _ => None
          end
      | _ => None
      end
  end.
Lemma exec_part_app E input y u : forall cs st cs' st', exec_part E input u cs st = Some (cs', st') ->
  exec E input (u ++ y) cs st = exec E input y cs' st'.
Proof.
  induction u as [|c u IH]; intros cs st cs' st' H; cbn [exec_part app exec] in *; [now injection H as -> ->|].
  destruct (machine_step cs c) as [[cs1 acts]| | |]; try discriminate. cbn [obind].
  destruct (run_actions E input acts st) as [st1| | |]; try discriminate. cbn [obind].
  destruct (cs1 =? hext_error)%N; [discriminate|]. now apply IH.
Qed.

Lemma number_reached E y : exists st, ps_tok_begin st = Some 15 /\ ps_p st = 26 /\
  exec_part E (big_number ++ y) big_number hext_start (mk_ps [[]; []] 0 None [] pv_initial) = Some (429%N, st).
Proof.
  destruct (exec_part E (big_number ++ y) big_number hext_start (mk_ps [[]; []] 0 None [] pv_initial)) as [[cs st]|] eqn:Ex;
    vm_compute in Ex; [|discriminate]. injection Ex as <- <-. eexists. repeat split; reflexivity.
Qed.

Lemma stays_stuck {A B} (o : outcome A) (f : A -> outcome B) r : (forall x, o <> Ok x) -> obind o f <> Ok r.
Proof. intros H. destruct o as [a|e|u|]; [destruct (H a eq_refl)|discriminate|discriminate|discriminate]. Qed.

Lemma number_final : exists x loc, (forall E, ParseHext E x = Throw (SyntaxError (s "Premature termination " ++ loc))) /\
  forall E y r, ParseHext E (x ++ y) <> Ok r.
Proof.
  exists big_number. eexists. split; [intros E; vm_compute; reflexivity|].
  intros E y r. unfold ParseHext, parse. destruct (number_reached E y) as [st [H1 [H2 H3]]].
  rewrite (exec_part_app E (big_number ++ y) y big_number _ _ _ _ H3).
  apply stays_stuck. intros st'. now apply (number_stuck E (big_number ++ y) y [] st).
Qed.
