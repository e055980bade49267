(** The text of rapidjson has the meaning of the value. *)

From Coq Require Import Ascii String NArith ZArith Bool List Lia.
From Verif Require Import Base Match RuleMatching ExtractSpec Convert ConvertSpec PyRefs JsonText JsonSpec JsonUnique.
Import ListNotations.

(** ** UTF-8 *)

Definition low (c : ascii) : Prop := (N_of_ascii c < 128)%N.
Definition low_start (t : str) : Prop := match t with [] => True | c :: _ => low c end.

Lemma between_false a n b : (n < a)%N -> between a n b = false.
Proof. intros H. unfold between. destruct (N.leb_spec a n); [lia|reflexivity]. Qed.
Lemma tail_low c : low c -> tail_byte c = false.
Proof. intros H. unfold tail_byte. apply between_false. exact H. Qed.

Lemma utf8_low c y : low c -> utf8 (c :: y) = utf8 y.
Proof. intros H. cbn [utf8]. unfold low in H. destruct (N.ltb_spec (N_of_ascii c) 128); [reflexivity|lia]. Qed.

Lemma utf8_high c y : ~ low c -> utf8 (c :: y) =
  match y with
  | [] => false
  | c1 :: x2 =>
      if between 194 (N_of_ascii c) 223 then tail_byte c1 && utf8 x2
      else
        match x2 with
        | [] => false
        | c2 :: x3 =>
            if between 224 (N_of_ascii c) 239 then
              (if (N_of_ascii c =? 224)%N then between 160 (N_of_ascii c1) 191
               else if (N_of_ascii c =? 237)%N then between 128 (N_of_ascii c1) 159 else tail_byte c1)
              && tail_byte c2 && utf8 x3
            else
              match x3 with
              | [] => false
              | c3 :: x4 =>
                  between 240 (N_of_ascii c) 244 &&
                  (if (N_of_ascii c =? 240)%N then between 144 (N_of_ascii c1) 191
                   else if (N_of_ascii c =? 244)%N then between 128 (N_of_ascii c1) 143 else tail_byte c1)
                  && tail_byte c2 && tail_byte c3 && utf8 x4
              end
        end
  end.
Proof. intros H. cbn [utf8]. unfold low in H. destruct (N.ltb_spec (N_of_ascii c) 128); [lia|]. reflexivity. Qed.

Lemma second_low c y : ~ low c -> low_start y -> utf8 (c :: y) = false.
Proof.
  intros H Hy. rewrite utf8_high by exact H. destruct y as [|c1 x2]; [reflexivity|]. cbn in Hy. unfold low in Hy.
  rewrite (tail_low c1 Hy), !(between_false _ (N_of_ascii c1)) by lia.
  destruct (between 194 _ 223); [reflexivity|]. destruct x2 as [|c2 x3]; [reflexivity|].
  destruct (between 224 _ 239); [now destruct (N_of_ascii c =? 224)%N, (N_of_ascii c =? 237)%N|]. destruct x3 as [|c3 x4]; [reflexivity|].
  destruct (N_of_ascii c =? 240)%N, (N_of_ascii c =? 244)%N; now rewrite andb_false_r.
Qed.

Lemma third_low c c1 y : ~ low c -> between 194 (N_of_ascii c) 223 = false -> low_start y -> utf8 (c :: c1 :: y) = false.
Proof.
  intros H HB Hy. rewrite utf8_high by exact H. rewrite HB. destruct y as [|c2 x3]; [reflexivity|]. cbn in Hy. rewrite (tail_low c2 Hy).
  destruct (between 224 _ 239); [now rewrite andb_false_r|]. destruct x3 as [|c3 x4]; [reflexivity|]. now rewrite !andb_false_r.
Qed.

Lemma fourth_low c c1 c2 y : ~ low c -> between 194 (N_of_ascii c) 223 = false -> between 224 (N_of_ascii c) 239 = false -> low_start y ->
  utf8 (c :: c1 :: c2 :: y) = false.
Proof.
  intros H HB HB2 Hy. rewrite utf8_high by exact H. rewrite HB, HB2. destruct y as [|c3 x4]; [reflexivity|]. cbn in Hy. rewrite (tail_low c3 Hy).
  now rewrite !andb_false_r.
Qed.

Lemma low_dec c : {low c} + {~ low c}.
Proof. unfold low. destruct (N_of_ascii c <? 128)%N eqn:E; [left; now apply N.ltb_lt|right]. apply N.ltb_ge in E. lia. Qed.

Section Escapes.
Variable e : ascii -> str.
Hypothesis e_high : forall c, ~ low c -> e c = [c].
Hypothesis e_low : forall c, low c -> Forall low (e c) /\ e c <> [].

Lemma e_start c x r : low c -> low_start (concat (map e (c :: x)) ++ r).
Proof.
  intros H. cbn [map concat]. destruct (e_low c H) as [HF HN]. destruct (e c) as [|d y]; [contradiction|]. cbn. now inversion HF.
Qed.
Lemma e_cons c x r : ~ low c -> concat (map e (c :: x)) ++ r = c :: concat (map e x) ++ r.
Proof. intros H. cbn [map concat]. now rewrite (e_high c H). Qed.

Lemma e_head x r : low_start r -> (x = [] \/ exists c x', x = c :: x' /\ low c) -> low_start (concat (map e x) ++ r) /\ low_start x.
Proof. intros Hr [->|[c [x' [-> Hc]]]]; [split; [exact Hr|exact I]|]. split; [now apply e_start|exact Hc]. Qed.

Lemma head_cases (x : str) : (x = [] \/ exists c x', x = c :: x' /\ low c) \/ exists c x', x = c :: x' /\ ~ low c.
Proof. destruct x as [|c x]; [left; now left|]. destruct (low_dec c); [left; right|right]; eauto. Qed.

Lemma utf8_escapes r : low_start r -> forall n x, length x <= n -> utf8 (concat (map e x) ++ r) = utf8 x && utf8 r.
Proof.
  intros Hr. induction n as [|n IH]; intros x Hx.
  - destruct x; [reflexivity|cbn in Hx; lia].
  - destruct x as [|c x1]; [reflexivity|]. destruct (low_dec c) as [Hc|Hc].
    + rewrite (utf8_low c x1 Hc). cbn [map concat]. rewrite <- app_assoc. destruct (e_low c Hc) as [HF _].
      rewrite <- (IH x1) by (cbn in Hx; lia). generalize (concat (map e x1) ++ r). intros y. clear - HF. induction HF as [|d l Hd _ IHl]; [reflexivity|].
      cbn [app]. now rewrite utf8_low.
    + rewrite (e_cons c x1 r Hc). cbn [length] in Hx. destruct (head_cases x1) as [HL|[c1 [x2 [-> Hc1]]]].
      { destruct (e_head x1 r Hr HL) as [H1 H2]. now rewrite !second_low. }
      cbn [length] in Hx. rewrite (e_cons c1 x2 r Hc1). destruct (between 194 (N_of_ascii c) 223) eqn:HB.
      { rewrite !(utf8_high c) by exact Hc. rewrite HB, IH by lia. now rewrite andb_assoc. }
      destruct (head_cases x2) as [HL|[c2 [x3 [-> Hc2]]]].
      { destruct (e_head x2 r Hr HL) as [H1 H2]. now rewrite !third_low. }
      cbn [length] in Hx. rewrite (e_cons c2 x3 r Hc2). destruct (between 224 (N_of_ascii c) 239) eqn:HB2.
      { rewrite !(utf8_high c) by exact Hc. rewrite HB, HB2, IH by lia. now rewrite !andb_assoc. }
      destruct (head_cases x3) as [HL|[c3 [x4 [-> Hc3]]]].
      { destruct (e_head x3 r Hr HL) as [H1 H2]. now rewrite !fourth_low. }
      cbn [length] in Hx. rewrite (e_cons c3 x4 r Hc3). rewrite !(utf8_high c) by exact Hc. rewrite HB, HB2, IH by lia. now rewrite !andb_assoc.
Qed.
End Escapes.

Lemma utf8_app x r : low_start r -> utf8 (x ++ r) = utf8 x && utf8 r.
Proof.
  intros H. pose proof (utf8_escapes (fun c => [c]) (fun _ _ => eq_refl)) as HE.
  assert (HC : concat (map (fun c : ascii => [c]) x) = x) by (induction x as [|c x IH]; [reflexivity|cbn; now rewrite IH]).
  rewrite <- HC at 1. apply HE with (length x); [|exact H|lia]. intros c Hc. split; [now constructor|discriminate].
Qed.

(** ** Pieces of text *)

(** What the text consists of; [b]: its strings are UTF-8. *)
Definition newline_char : ascii := "010"%char.
Definition piece (pretty : bool) (t : str) (b : bool) : Prop :=
  low_start t /\ utf8 t = b /\ ~ In NUL t /\ (pretty = false -> ~ In newline_char t).

Lemma piece_nil p : piece p [] true.
Proof. repeat split; auto. Qed.

Lemma piece_app p t1 b1 t2 b2 : piece p t1 b1 -> piece p t2 b2 -> piece p (t1 ++ t2) (b1 && b2).
Proof.
  intros (L1 & U1 & N1 & C1) (L2 & U2 & N2 & C2). repeat split.
  - destruct t1; [exact L2|exact L1].
  - now rewrite utf8_app, U1, U2.
  - rewrite in_app_iff. tauto.
  - intros E. rewrite in_app_iff. tauto.
Qed.

Lemma piece_app' p t1 b1 t2 b2 b : piece p t1 b1 -> piece p t2 b2 -> b = b1 && b2 -> piece p (t1 ++ t2) b.
Proof. intros H1 H2 ->. now apply piece_app. Qed.

(** ** Strings *)

Definition escape_cases (c : ascii) : Prop := forall P : str -> Prop,
  (c = """"%char -> P ["\"; """"]%char) -> (c = "\"%char -> P ["\"; "\"]%char) ->
  (N_of_ascii c = 8%N -> P ["\"; "b"]%char) -> (N_of_ascii c = 9%N -> P ["\"; "t"]%char) -> (N_of_ascii c = 10%N -> P ["\"; "n"]%char) ->
  (N_of_ascii c = 12%N -> P ["\"; "f"]%char) -> (N_of_ascii c = 13%N -> P ["\"; "r"]%char) ->
  ((N_of_ascii c < 32)%N -> P (["\"; "u"; "0"; "0"]%char ++ [hex_char (N_of_ascii c / 16); hex_char (N_of_ascii c mod 16)])) ->
  (c <> """"%char -> c <> "\"%char -> (32 <= N_of_ascii c)%N -> P [c]) -> P (escape c).
Lemma escape_case c : escape_cases c.
Proof.
  intros P H1 H2 H3 H4 H5 H6 H7 H8 H9. unfold escape. destruct (Ascii.eqb_spec c dquote) as [E|N1]; [now apply H1|].
  destruct (Ascii.eqb_spec c "\"%char) as [E|N2]; [now apply H2|].
  destruct (N.eqb_spec (N_of_ascii c) 8); [now apply H3|]. destruct (N.eqb_spec (N_of_ascii c) 9); [now apply H4|].
  destruct (N.eqb_spec (N_of_ascii c) 10); [now apply H5|]. destruct (N.eqb_spec (N_of_ascii c) 12); [now apply H6|].
  destruct (N.eqb_spec (N_of_ascii c) 13); [now apply H7|]. destruct (N.ltb_spec (N_of_ascii c) 32); [now apply H8|]. now apply H9.
Qed.

Lemma small_cases (P : N -> Prop) : P 0%N -> P 1%N -> P 2%N -> P 3%N -> P 4%N -> P 5%N -> P 6%N -> P 7%N -> P 8%N -> P 9%N -> P 10%N -> P 11%N -> P 12%N ->
  P 13%N -> P 14%N -> P 15%N -> forall n, (n < 16)%N -> P n.
Proof.
  intros. assert (HC : (n = 0 \/ n = 1 \/ n = 2 \/ n = 3 \/ n = 4 \/ n = 5 \/ n = 6 \/ n = 7 \/ n = 8 \/ n = 9 \/ n = 10 \/ n = 11 \/ n = 12 \/ n = 13 \/ n = 14 \/ n = 15)%N) by lia.
  intuition (subst; assumption).
Qed.

Lemma hex_digit n : (n < 16)%N -> digit (hex_char n) n /\ low (hex_char n) /\ hex_char n <> NUL /\ hex_char n <> newline_char.
Proof.
  revert n. apply small_cases; (split; [unfold digit; cbn; lia|split; [unfold low; cbn; lia|split; discriminate]]).
Qed.

Lemma low_number c n : N_of_ascii c = n -> ascii_of_N n = c.
Proof. intros <-. apply ascii_N_embedding. Qed.

Lemma escape_means c : char_means (escape c) [c].
Proof.
  apply escape_case.
  - intros ->. apply (escaped """"%char 34). cbn; tauto.
  - intros ->. apply (escaped "\"%char 92). cbn; tauto.
  - intros H. rewrite <- (low_number c _ H). apply (escaped "b"%char 8). cbn; tauto.
  - intros H. rewrite <- (low_number c _ H). apply (escaped "t"%char 9). cbn; tauto.
  - intros H. rewrite <- (low_number c _ H). apply (escaped "n"%char 10). cbn; tauto.
  - intros H. rewrite <- (low_number c _ H). apply (escaped "f"%char 12). cbn; tauto.
  - intros H. rewrite <- (low_number c _ H). apply (escaped "r"%char 13). cbn; tauto.
  - intros H. set (n := N_of_ascii c) in *.
    assert (HB : bytes_of n = [c]). { unfold bytes_of. destruct (N.ltb_spec n 128); [|lia]. cbn [map]. f_equal. now apply low_number. }
    rewrite <- HB. change (["\"; "u"; "0"; "0"]%char ++ ?x) with (s "\u" ++ ["0"; "0"]%char ++ x). apply code; [|lia].
    exists "0"%char, "0"%char, (hex_char (n / 16)), (hex_char (n mod 16)), 0%N, 0%N, (n / 16)%N, (n mod 16)%N. split; [reflexivity|].
    split; [unfold digit; cbn; lia|]. split; [unfold digit; cbn; lia|].
    split; [apply hex_digit; apply N.div_lt_upper_bound; lia|]. split; [apply hex_digit; apply N.mod_lt; lia|].
    pose proof (N.div_mod n 16). lia.
  - intros H1 H2 H3. now apply plain.
Qed.

Lemma concat_escape_means x : chars_mean (concat (map escape x)) x.
Proof. induction x as [|c x IH]; cbn [map concat]; [constructor|]. apply (chars_cons (escape c) [c] _ x); [apply escape_means|exact IH]. Qed.

Lemma write_string_means x : string_means (write_string x) x.
Proof. apply quoted. apply concat_escape_means. Qed.

Lemma escape_low c : low c -> Forall low (escape c) /\ escape c <> [].
Proof.
  assert (HL : forall d, In d ["\"; """"; "b"; "t"; "n"; "f"; "r"; "u"; "0"]%char -> low d).
  { intros d Hd. cbn [In] in Hd. unfold low. intuition (subst; cbn; lia). }
  intros Hc. apply escape_case; intros; (split; [|discriminate]); try (repeat constructor; apply HL; cbn; tauto).
  - cbn [app]. repeat (constructor; [apply HL; cbn; tauto|]). constructor; [|constructor; [|constructor]].
    + apply hex_digit. apply N.div_lt_upper_bound; lia.
    + apply hex_digit. apply N.mod_lt. lia.
  - now constructor.
Qed.

Lemma escape_high c : ~ low c -> escape c = [c].
Proof.
  intros Hc. unfold low in Hc. apply escape_case; intros; subst; try reflexivity; exfalso; try (apply Hc; cbn; lia); lia.
Qed.

Lemma escape_clean c : ~ In NUL (escape c) /\ ~ In newline_char (escape c).
Proof.
  apply escape_case; try (intros; cbn; intuition discriminate).
  - intros H. cbn [app In]. destruct (hex_digit (N_of_ascii c / 16)) as (_ & _ & A1 & A2); [apply N.div_lt_upper_bound; lia|].
    destruct (hex_digit (N_of_ascii c mod 16)) as (_ & _ & B1 & B2); [apply N.mod_lt; lia|].
    split; intros HI; repeat (destruct HI as [HI|HI]; [solve [discriminate|congruence]|]); exact HI.
  - intros _ _ H. cbn [In]. split; intros [->|[]]; cbn in H; lia.
Qed.

Lemma write_string_piece p x : piece p (write_string x) (utf8 x).
Proof.
  unfold write_string. split; [|split; [|split]].
  - unfold low_start, low, dquote. cbn. lia.
  - cbn [app]. rewrite utf8_low by (unfold low; cbn; lia). rewrite (utf8_escapes escape escape_high escape_low [dquote]) with (n := length x); [|unfold low_start, low; cbn; lia|lia].
    change (utf8 [dquote]) with true. apply andb_true_r.
  - cbn [app In]. rewrite in_app_iff. intros [H|[H|[H|[]]]]; try discriminate. apply in_concat in H as [y [Hy Hi]]. apply in_map_iff in Hy as [c [<- _]].
    now apply escape_clean in Hi.
  - intros _. cbn [app In]. rewrite in_app_iff. intros [H|[H|[H|[]]]]; try discriminate. apply in_concat in H as [y [Hy Hi]]. apply in_map_iff in Hy as [c [<- _]].
    now apply escape_clean in Hi.
Qed.

(** ** Writing *)

Definition bump (levels : list level) : list level :=
  match levels with [] => [] | l :: ls => mk_level (in_array l) (S (value_count l)) :: ls end.
Definition strings_ok (v : json) : bool := forallb utf8 (strings v).

(** [f w x] writes the separator and a text that means [v]. *)
Definition writes {X} (f : json_writer -> X -> json_writer) (x : X) (v : json) : Prop := forall w,
  exists t, means t v /\ piece (w_pretty w) t (strings_ok v) /\
    f w x = mk_writer (w_pretty w) (w_buffer w ++ separator (w_pretty w) (w_levels w) ++ t) (bump (w_levels w)).

Lemma prefix_eq w : prefix w = mk_writer (w_pretty w) (w_buffer w ++ separator (w_pretty w) (w_levels w)) (bump (w_levels w)).
Proof. unfold prefix, put. destruct w as [p b [|l ls]]; reflexivity. Qed.

Lemma string_writes x : writes on_string x (JText x).
Proof.
  intros w. exists (write_string x). split; [constructor; apply write_string_means|]. split.
  - unfold strings_ok. cbn. rewrite andb_true_r. apply write_string_piece.
  - unfold on_string. rewrite prefix_eq. unfold put. cbn [w_pretty w_buffer w_levels]. now rewrite <- app_assoc.
Qed.

(** Blanks between the values. *)
Lemma indent_blanks ls : blanks (indent ls).
Proof. unfold indent, blanks. induction ls as [|l ls IH]; cbn [map concat]; [constructor|]. apply Forall_app. split; [|exact IH]. repeat constructor; unfold blank; cbn; tauto. Qed.
Lemma newline_indent_blanks ls : blanks (newline ++ indent ls).
Proof. constructor; [unfold blank; cbn; tauto|apply indent_blanks]. Qed.
Lemma indent_piece p ls : piece p (indent ls) true.
Proof.
  unfold indent. induction ls as [|l ls IH]; cbn [map concat]; [apply piece_nil|]. change true with (true && true). apply piece_app; [|exact IH].
  split; [unfold low_start, low; cbn; lia|]. split; [reflexivity|]. split; [cbn; intuition discriminate|intros _; cbn; intuition discriminate].
Qed.
Lemma char_piece p c : low c -> c <> NUL -> c <> newline_char -> piece p [c] true.
Proof.
  intros H1 H2 H3. split; [exact H1|split; [|split]]; [now rewrite utf8_low|intros [E|[]]; congruence|intros _ [E|[]]; congruence].
Qed.
Lemma newline_piece : piece true newline true.
Proof. split; [unfold low_start, low; cbn; lia|]. split; [reflexivity|]. split; [cbn; intuition discriminate|discriminate]. Qed.
Lemma nl_piece ls : piece true (newline ++ indent ls) true.
Proof. change true with (true && true) at 2. apply piece_app; [apply newline_piece|apply indent_piece]. Qed.

Lemma array_separator p l ls : in_array l = true -> exists b, blanks b /\ piece p b true /\
  separator p (l :: ls) = (if Nat.eqb (value_count l) 0 then [] else s ",") ++ b.
Proof.
  intros H. unfold separator. rewrite H. destruct p.
  - exists (newline ++ indent (l :: ls)). split; [apply newline_indent_blanks|]. split; [apply nl_piece|reflexivity].
  - exists []. split; [constructor|]. split; [apply piece_nil|]. rewrite app_nil_r. now destruct (Nat.eqb (value_count l) 0).
Qed.
Lemma key_separator p l ls : in_array l = false -> Nat.even (value_count l) = true -> exists b, blanks b /\ piece p b true /\
  separator p (l :: ls) = (if Nat.eqb (value_count l) 0 then [] else s ",") ++ b.
Proof.
  intros H HE. unfold separator. rewrite H, HE. destruct p.
  - exists (newline ++ indent (l :: ls)). split; [apply newline_indent_blanks|]. split; [apply nl_piece|].
    destruct (Nat.eqb (value_count l) 0); cbn [app]; reflexivity.
  - exists []. split; [constructor|]. split; [apply piece_nil|]. rewrite app_nil_r. now destruct (Nat.eqb (value_count l) 0).
Qed.
Lemma value_separator p l ls : in_array l = false -> Nat.even (value_count l) = false -> exists b, blanks b /\ piece p b true /\
  separator p (l :: ls) = s ":" ++ b.
Proof.
  intros H HE. unfold separator. rewrite H, HE. assert (HZ : Nat.eqb (value_count l) 0 = false) by (now destruct (value_count l)). rewrite HZ. destruct p.
  - exists (s " "). split; [repeat constructor; unfold blank; cbn; tauto|]. split; [apply char_piece; [unfold low; cbn; lia|discriminate|discriminate]|reflexivity].
  - exists []. split; [constructor|]. split; [apply piece_nil|reflexivity].
Qed.

Lemma comma_piece p : piece p (s ",") true.
Proof. apply char_piece; [unfold low; cbn; lia|discriminate|discriminate]. Qed.
Lemma colon_piece p : piece p (s ":") true.
Proof. apply char_piece; [unfold low; cbn; lia|discriminate|discriminate]. Qed.

Lemma strings_list l : strings_ok (JList l) = forallb strings_ok l.
Proof. unfold strings_ok. cbn [strings]. induction l as [|v l IH]; [reflexivity|]. cbn [flat_map forallb]. now rewrite forallb_app, IH. Qed.
Lemma strings_members l : strings_ok (JMembers l) = forallb (fun kv => utf8 (fst kv) && strings_ok (snd kv)) l.
Proof. unfold strings_ok. cbn [strings]. induction l as [|v l IH]; [reflexivity|]. cbn [flat_map forallb app]. now rewrite forallb_app, IH, andb_assoc. Qed.

(** The values of an array, after the first one. *)
Section Items.
Context {X : Type} (f : json_writer -> X -> json_writer) (val : X -> json).

Lemma items_after xs : Forall (fun x => writes f x (val x)) xs -> forall p b n ls,
  exists T, fold_left f xs (mk_writer p b (mk_level true (S n) :: ls)) = mk_writer p (b ++ T) (mk_level true (S n + length xs) :: ls) /\
    piece p T (forallb strings_ok (map val xs)) /\
    ((xs = [] /\ T = []) \/ (xs <> [] /\ exists T0, T = s "," ++ T0 /\ forall w, blanks w -> items (T0 ++ w) (map val xs))).
Proof.
  induction xs as [|x xs IH]; intros HF p b n ls; cbn [fold_left].
  - exists []. split; [now rewrite app_nil_r, Nat.add_0_r|]. split; [apply piece_nil|]. left. now split.
  - inversion HF as [|? ? Hx HF']; subst. destruct (Hx (mk_writer p b (mk_level true (S n) :: ls))) as [t [HM [HP E]]]. cbn [w_pretty w_buffer w_levels bump in_array value_count] in *.
    destruct (array_separator p (mk_level true (S n)) ls eq_refl) as [bl [Hb [Pb Es]]]. cbn [value_count Nat.eqb] in Es. rewrite E, Es.
    destruct (IH HF' p (b ++ (s "," ++ bl) ++ t) (S n) ls) as [T [ET [PT HT]]]. exists (s "," ++ bl ++ t ++ T). split; [|split].
    + rewrite ET. rewrite <- !app_assoc. cbn [length]. f_equal. do 2 f_equal. lia.
    + cbn [map forallb]. apply piece_app' with true (strings_ok (val x) && forallb strings_ok (map val xs)); [apply comma_piece| |reflexivity].
      apply piece_app' with true (strings_ok (val x) && forallb strings_ok (map val xs)); [exact Pb| |reflexivity]. now apply piece_app.
    + right. split; [discriminate|]. exists (bl ++ t ++ T). split; [reflexivity|]. intros w Hw. cbn [map]. destruct HT as [[-> ->]|[HN [T0 [-> HT]]]].
      * rewrite app_nil_r, <- app_assoc. cbn [map]. now apply items_last.
      * rewrite <- !app_assoc. apply (items_more bl t [] (val x) (T0 ++ w)); [exact Hb|exact HM|constructor|now apply HT|]. destruct xs; [contradiction|discriminate].
Qed.

Lemma items_all xs : Forall (fun x => writes f x (val x)) xs -> forall p b ls,
  exists T, fold_left f xs (mk_writer p b (mk_level true 0 :: ls)) = mk_writer p (b ++ T) (mk_level true (length xs) :: ls) /\
    piece p T (forallb strings_ok (map val xs)) /\ forall w, blanks w -> items (T ++ w) (map val xs).
Proof.
  intros HF p b ls. destruct xs as [|x xs]; cbn [fold_left].
  - exists []. split; [now rewrite app_nil_r|]. split; [apply piece_nil|]. intros w Hw. now apply items_none.
  - inversion HF as [|? ? Hx HF']; subst. destruct (Hx (mk_writer p b (mk_level true 0 :: ls))) as [t [HM [HP E]]]. cbn [w_pretty w_buffer w_levels bump in_array value_count] in *.
    destruct (array_separator p (mk_level true 0) ls eq_refl) as [bl [Hb [Pb Es]]]. cbn [value_count Nat.eqb app] in Es. rewrite E, Es.
    destruct (items_after xs HF' p (b ++ bl ++ t) 0 ls) as [T [ET [PT HT]]]. exists (bl ++ t ++ T). split; [|split].
    + rewrite ET. rewrite <- !app_assoc. reflexivity.
    + cbn [map forallb]. apply piece_app' with true (strings_ok (val x) && forallb strings_ok (map val xs)); [exact Pb| |reflexivity]. now apply piece_app.
    + intros w Hw. cbn [map]. destruct HT as [[-> ->]|[HN [T0 [-> HT]]]].
      * rewrite app_nil_r, <- app_assoc. cbn [map]. now apply items_last.
      * rewrite <- !app_assoc. apply (items_more bl t [] (val x) (T0 ++ w)); [exact Hb|exact HM|constructor|now apply HT|]. destruct xs; [contradiction|discriminate].
Qed.

Lemma end_text array p b n ls : exists w, blanks w /\ piece p w true /\
  on_end array (mk_writer p b (mk_level array n :: ls)) = mk_writer p (b ++ w ++ (if array then s "]" else s "}")) ls.
Proof.
  unfold on_end, put. cbn [w_levels w_pretty w_buffer value_count]. destruct p; cbn [andb].
  - destruct (Nat.eqb n 0); cbn [negb w_levels w_pretty w_buffer].
    + exists []. split; [constructor|]. split; [apply piece_nil|reflexivity].
    + exists (newline ++ indent ls). split; [apply newline_indent_blanks|]. split; [apply nl_piece|]. now rewrite <- app_assoc.
  - exists []. split; [constructor|]. split; [apply piece_nil|reflexivity].
Qed.

Lemma array_writes xs : Forall (fun x => writes f x (val x)) xs ->
  writes (fun w (xs : list X) => on_end true (fold_left f xs (on_start true w))) xs (JList (map val xs)).
Proof.
  intros HF w. unfold on_start at 1. rewrite prefix_eq. unfold put. cbn [w_pretty w_buffer w_levels].
  destruct (items_all xs HF (w_pretty w) ((w_buffer w ++ separator (w_pretty w) (w_levels w)) ++ s "[") (bump (w_levels w))) as [T [E [PT HT]]]. rewrite E.
  destruct (end_text true (w_pretty w) (((w_buffer w ++ separator (w_pretty w) (w_levels w)) ++ s "[") ++ T) (length xs) (bump (w_levels w))) as [bl [Hb [Pb Ee]]]. rewrite Ee.
  exists (s "[" ++ (T ++ bl) ++ s "]"). split; [apply means_list, HT, Hb|]. split.
  - rewrite strings_list. apply piece_app' with true (forallb strings_ok (map val xs)); [apply char_piece; [unfold low; cbn; lia|discriminate|discriminate]| |reflexivity].
    apply piece_app' with (forallb strings_ok (map val xs)) true; [| |now rewrite andb_true_r].
    + apply piece_app' with (forallb strings_ok (map val xs)) true; [exact PT|exact Pb|now rewrite andb_true_r].
    + apply char_piece; [unfold low; cbn; lia|discriminate|discriminate].
  - now rewrite <- !app_assoc.
Qed.
End Items.

Lemma member_writes m : writes accept_member m (member_value m).
Proof.
  destruct m as [v|vs]; cbn [member_value].
  - exact (string_writes v).
  - apply (array_writes on_string JText vs). apply Forall_forall. intros x _. apply string_writes.
Qed.

Definition on_member (w : json_writer) (kv : str * member) : json_writer := accept_member (on_string w (fst kv)) (snd kv).
Definition pair_value (kv : str * member) : str * json := (fst kv, member_value (snd kv)).
Definition pairs_ok (l : list (str * json)) : bool := forallb (fun kv => utf8 (fst kv) && strings_ok (snd kv)) l.

Lemma even_double n : Nat.even (2 * n) = true.
Proof. now rewrite Nat.even_mul. Qed.
Lemma odd_double n : Nat.even (S (2 * n)) = false.
Proof. rewrite Nat.even_succ, <- Nat.negb_even, even_double. reflexivity. Qed.

(** A member: separator, name, colon, value. *)
Lemma member_text p b n ls kv : exists bl k w3 t, blanks bl /\ string_means k (fst kv) /\ blanks w3 /\ means t (member_value (snd kv)) /\
  piece p (bl ++ k ++ s ":" ++ w3 ++ t) (utf8 (fst kv) && strings_ok (member_value (snd kv))) /\
  on_member (mk_writer p b (mk_level false (2 * n) :: ls)) kv =
  mk_writer p (b ++ (if Nat.eqb n 0 then [] else s ",") ++ bl ++ k ++ s ":" ++ w3 ++ t) (mk_level false (2 * S n) :: ls).
Proof.
  unfold on_member. destruct (key_separator p (mk_level false (2 * n)) ls eq_refl (even_double n)) as [bl [Hb [Pb Eb]]].
  assert (ES : on_string (mk_writer p b (mk_level false (2 * n) :: ls)) (fst kv) =
    mk_writer p (b ++ ((if Nat.eqb n 0 then [] else s ",") ++ bl) ++ write_string (fst kv)) (mk_level false (S (2 * n)) :: ls)).
  { unfold on_string. rewrite prefix_eq. unfold put. cbn [w_pretty w_buffer w_levels bump in_array value_count]. rewrite Eb. cbn [value_count].
    rewrite <- !app_assoc. f_equal. f_equal. f_equal. now destruct n. }
  rewrite ES. destruct (member_writes (snd kv) (mk_writer p (b ++ ((if Nat.eqb n 0 then [] else s ",") ++ bl) ++ write_string (fst kv)) (mk_level false (S (2 * n)) :: ls)))
    as [t [HM [HP E]]]. cbn [w_pretty w_buffer w_levels bump in_array value_count] in *.
  destruct (value_separator p (mk_level false (S (2 * n))) ls eq_refl (odd_double n)) as [w3 [H3 [P3 E3]]].
  exists bl, (write_string (fst kv)), w3, t. split; [exact Hb|]. split; [apply write_string_means|]. split; [exact H3|]. split; [exact HM|]. split.
  - apply piece_app' with true (utf8 (fst kv) && strings_ok (member_value (snd kv))); [exact Pb| |reflexivity].
    apply piece_app; [apply write_string_piece|]. apply piece_app' with true (strings_ok (member_value (snd kv))); [apply colon_piece| |reflexivity].
    apply piece_app' with true (strings_ok (member_value (snd kv))); [exact P3|exact HP|reflexivity].
  - rewrite E, E3. rewrite <- !app_assoc. f_equal. do 2 f_equal. lia.
Qed.

Lemma members_after o : forall p b n ls,
  exists T, fold_left on_member o (mk_writer p b (mk_level false (2 * S n) :: ls)) = mk_writer p (b ++ T) (mk_level false (2 * (S n + length o)) :: ls) /\
    piece p T (pairs_ok (map pair_value o)) /\
    ((o = [] /\ T = []) \/ (o <> [] /\ exists T0, T = s "," ++ T0 /\ forall w, blanks w -> members (T0 ++ w) (map pair_value o))).
Proof.
  induction o as [|kv o IH]; intros p b n ls; cbn [fold_left].
  - exists []. split; [now rewrite app_nil_r, Nat.add_0_r|]. split; [apply piece_nil|]. left. now split.
  - destruct (member_text p b (S n) ls kv) as (bl & k & w3 & t & Hb & HK & H3 & HM & HP & E). cbn [Nat.eqb] in E. rewrite E.
    destruct (IH p (b ++ s "," ++ bl ++ k ++ s ":" ++ w3 ++ t) (S n) ls) as [T [ET [PT HT]]]. rewrite ET.
    exists (s "," ++ (bl ++ k ++ s ":" ++ w3 ++ t) ++ T). split; [|split].
    + rewrite <- !app_assoc. cbn [length]. f_equal. do 2 f_equal. lia.
    + cbn [map]. unfold pairs_ok. cbn [forallb pair_value fst snd].
      eapply piece_app'; [apply comma_piece|apply piece_app; [exact HP|exact PT]|reflexivity].
    + right. split; [discriminate|]. exists ((bl ++ k ++ s ":" ++ w3 ++ t) ++ T). split; [reflexivity|]. intros w Hw. cbn [map].
      destruct HT as [[-> ->]|[HN [T0 [-> HT]]]].
      * rewrite app_nil_r, <- !app_assoc. cbn [map]. apply (members_last bl k [] w3 t w); [exact Hb|exact HK|constructor|exact H3|exact HM|exact Hw].
      * rewrite <- !app_assoc. apply (members_more bl k [] w3 t [] (fst kv) (member_value (snd kv)) (T0 ++ w)); try assumption; try constructor; [now apply HT|].
        destruct o; [contradiction|discriminate].
Qed.

Lemma members_all o p b ls :
  exists T, fold_left on_member o (mk_writer p b (mk_level false 0 :: ls)) = mk_writer p (b ++ T) (mk_level false (2 * length o) :: ls) /\
    piece p T (pairs_ok (map pair_value o)) /\ forall w, blanks w -> members (T ++ w) (map pair_value o).
Proof.
  destruct o as [|kv o]; cbn [fold_left].
  - exists []. split; [now rewrite app_nil_r|]. split; [apply piece_nil|]. intros w Hw. now apply members_none.
  - destruct (member_text p b 0 ls kv) as (bl & k & w3 & t & Hb & HK & H3 & HM & HP & E). change (mk_level false (2 * 0)) with (mk_level false 0) in E. change (if Nat.eqb 0 0 then [] else s ",") with (@nil ascii) in E.
    change ([] ++ bl ++ k ++ s ":" ++ w3 ++ t) with (bl ++ k ++ s ":" ++ w3 ++ t) in E. rewrite E.
    destruct (members_after o p (b ++ bl ++ k ++ s ":" ++ w3 ++ t) 0 ls) as [T [ET [PT HT]]].
    rewrite ET.
    exists ((bl ++ k ++ s ":" ++ w3 ++ t) ++ T). split; [|split].
    + rewrite <- !app_assoc. reflexivity.
    + cbn [map]. unfold pairs_ok. cbn [forallb pair_value fst snd]. apply piece_app; [exact HP|exact PT].
    + intros w Hw. cbn [map]. destruct HT as [[-> ->]|[HN [T0 [-> HT]]]].
      * rewrite app_nil_r, <- !app_assoc. cbn [map]. apply (members_last bl k [] w3 t w); [exact Hb|exact HK|constructor|exact H3|exact HM|exact Hw].
      * rewrite <- !app_assoc. apply (members_more bl k [] w3 t [] (fst kv) (member_value (snd kv)) (T0 ++ w)); try assumption; try constructor; [now apply HT|].
        destruct o; [contradiction|discriminate].
Qed.

Lemma object_writes o : writes accept_object o (object_value o).
Proof.
  intros w. unfold accept_object. change (fun w0 kv => accept_member (on_string w0 (fst kv)) (snd kv)) with on_member. unfold on_start. rewrite prefix_eq. unfold put. cbn [w_pretty w_buffer w_levels].
  destruct (members_all o (w_pretty w) ((w_buffer w ++ separator (w_pretty w) (w_levels w)) ++ s "{") (bump (w_levels w))) as [T [E [PT HT]]]. rewrite E.
  destruct (end_text false (w_pretty w) (((w_buffer w ++ separator (w_pretty w) (w_levels w)) ++ s "{") ++ T) (2 * length o) (bump (w_levels w))) as [bl [Hb [Pb Ee]]]. rewrite Ee.
  exists (s "{" ++ (T ++ bl) ++ s "}"). split; [apply means_members; exact (HT bl Hb)|]. split.
  - unfold object_value. rewrite strings_members. change (forallb _ ?l) with (pairs_ok l).
    change (map (fun kv => (fst kv, member_value (snd kv))) o) with (map pair_value o).
    apply piece_app' with true (pairs_ok (map pair_value o)); [apply char_piece; [unfold low; cbn; lia|discriminate|discriminate]| |reflexivity].
    apply piece_app' with (pairs_ok (map pair_value o)) true; [| |now rewrite andb_true_r].
    + apply piece_app' with (pairs_ok (map pair_value o)) true; [exact PT|exact Pb|now rewrite andb_true_r].
    + apply char_piece; [unfold low; cbn; lia|discriminate|discriminate].
  - now rewrite <- !app_assoc.
Qed.

Lemma accept_writes v : writes accept v (value_of v).
Proof.
  destruct v as [o|l]; cbn [value_of].
  - exact (object_writes o).
  - apply (array_writes accept_object object_value l). apply Forall_forall. intros x _. apply object_writes.
Qed.

Theorem rapidjson_text pretty v : exists t, rapidjson pretty v = t /\ means t (value_of v) /\ piece pretty t (strings_ok (value_of v)).
Proof.
  unfold rapidjson. destruct (accept_writes v (mk_writer pretty [] [])) as [t [HM [HP E]]]. exists t. rewrite E. now split.
Qed.
