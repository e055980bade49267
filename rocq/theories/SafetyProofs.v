(** The actions of the parser keep what is known about its variables, so that
    ParseHext only fails in the ways that ParserSpec describes. *)

From Coq Require Import Ascii String NArith ZArith Bool List Lia.
From Verif Require Import Base StringUtil Values Match Rule Regular RegularProofs Arrays ParserTables Parser MachineRows
  Grammar GrammarCheck GrammarSpec GrammarProofs GrammarTexts TextSpec LocationProofs SafetyCheck ParserSpec.
Import ListNotations.

(** ** Stacks *)

(** Stacks come in pairs, the rules that are open and the finished rule; there
    is an open rule below every pair but the last. *)
Fixpoint shape (l : list (list rule)) : Prop :=
  match l with
  | _ :: r :: l' => length r <= 1 /\ match l' with [] => True | w' :: _ => w' <> [] /\ shape l' end
  | _ => False
  end.
Definition opens (l : list (list rule)) : Prop := exists r t rest, l = (r :: t) :: rest.

Lemma shape_head w w' l : shape (w :: l) -> shape (w' :: l).
Proof. destruct l; exact (fun H => H). Qed.

(** ** Tokens *)

Definition slice (input : str) (b p : nat) : str := firstn (p - b) (skipn b input).

Lemma slice_same input p : slice input p p = [].
Proof. unfold slice. now rewrite Nat.sub_diag. Qed.

Lemma firstn_S_nth {A} (l : list A) : forall n c, nth_error l n = Some c -> firstn (S n) l = firstn n l ++ [c].
Proof.
  induction l as [|d l IH]; intros [|n] c H; try discriminate; [cbn in *; now injection H as ->|].
  change (d :: firstn (S n) l = d :: firstn n l ++ [c]). f_equal. now apply IH.
Qed.

Lemma nth_error_skipn {A} (l : list A) : forall n k, nth_error (skipn n l) k = nth_error l (n + k).
Proof. induction l as [|d l IH]; intros [|n] k; cbn; auto. now destruct k. Qed.

Lemma slice_next input b p c : b <= p -> nth_error input p = Some c -> slice input b (S p) = slice input b p ++ [c].
Proof.
  intros Hb Hc. unfold slice. replace (S p - b) with (S (p - b)) by lia. apply firstn_S_nth.
  rewrite nth_error_skipn. now replace (b + (p - b)) with p by lia.
Qed.

Lemma slice_split input b p : b <= p -> p <= length input -> firstn p input = firstn b input ++ slice input b p.
Proof.
  intros H1 H2. unfold slice. rewrite <- (firstn_skipn b input) at 1. rewrite firstn_app, firstn_firstn, firstn_length.
  rewrite Nat.min_r by lia. now rewrite Nat.min_l by lia.
Qed.

Definition is_sign (x : str) : Prop := x = [] \/ x = ["+"%char] \/ x = ["-"%char].

(** The token so far, as [number] says. *)
Definition number_form (n : number) (x : str) : Prop :=
  match n with
  | NUnknown => True
  | NStart => x = []
  | NSign => x = ["+"%char] \/ x = ["-"%char]
  | NDigits => exists sg ds, x = sg ++ ds /\ is_sign sg /\ ds <> [] /\ Forall is_digit ds
  | NMore => x <> []
  end.

Lemma more_form n x : is_more n = true -> number_form n x -> x <> [].
Proof.
  destruct n; try discriminate; intros _ H; [destruct H as [->| ->]; discriminate| |exact H].
  destruct H as [sg [ds [-> [_ [H _]]]]]. intros X. apply app_eq_nil in X as [_ X]. contradiction.
Qed.

(** ** What is known *)

Section Safety.

Variable E : engine.
Variable input : str.

Record conc (A : abs) (st : pstate) : Prop := mk_conc {
  c_open : a_open A = true -> opens (ps_stacks st);
  c_tok : a_tok A = true -> ps_tok_begin st <> None;
  c_rx : a_rx A = true -> pv_regex (ps_pv st) <> None;
  c_neg : a_neg A = true -> pv_negate (ps_pv st) <> None;
  c_pos : a_pos A = true -> 1 <= ps_p st;
  c_nl : a_nl A = true -> exists k c, ps_p st = S k /\ nth_error input k = Some c /\ c <> newline;
  c_num : match a_num A with
          | NUnknown => True
          | n => exists b, ps_tok_begin st = Some b /\ number_form n (slice input b (ps_p st))
          end;
  c_lt : x_lt (a_ctx A) = true -> exists k, ps_p st = S k /\ nth_error input k = Some "<"%char;
  c_close : x_close (a_ctx A) = true -> exists k, ps_p st = S (S k) /\ nth_error input k = Some "<"%char /\ nth_error input (S k) = Some "/"%char;
  c_delim : x_delim (a_ctx A) = true -> exists k d, ps_p st = S k /\ nth_error input k = Some d /\ In d ["/"; "'"; quote]%char;
  c_tag : x_tag (a_ctx A) = true -> exists k, ps_tok_begin st = Some (S (S k)) /\ nth_error input k = Some "<"%char /\ nth_error input (S k) = Some "/"%char;
  c_regex : x_regex (a_ctx A) = true -> exists k d, ps_tok_begin st = Some (S k) /\ nth_error input k = Some d /\ In d ["/"; "'"; quote]%char;
  c_begin : forall b, ps_tok_begin st = Some b -> b <= ps_p st;
  c_shape : shape (ps_stacks st);
  c_end : ps_p st <= length input
}.

Lemma conc_le A B st : abs_le A B = true -> conc A st -> conc B st.
Proof.
  unfold abs_le. intros H [H1 H2 H3 H4 H5 H6 H7 L1 L2 L3 L4 L5 H8 H9 H10].
  repeat (apply andb_true_iff in H; destruct H as [H ?]).
  match goal with HC : ctx_le _ _ = true |- _ => unfold ctx_le in HC; repeat (apply andb_true_iff in HC; destruct HC as [HC ?]) end.
  split; auto; try (intros X; rewrite X in *; cbn in *; auto).
  - destruct (a_num B) eqn:Eb; [exact I| | | |]; destruct (a_num A); try discriminate; try exact H7;
      destruct H7 as [b [H7 HF]]; exists b; (split; [exact H7|]); revert HF; now apply more_form.
Qed.

(** The kinds of actions. *)
Lemma conc_pv A st v rx ng : conc A st -> (rx = true -> pv_regex v <> None) -> (ng = true -> pv_negate v <> None) ->
  conc (mk_abs (a_open A) (a_tok A) rx ng (a_pos A) (a_nl A) (a_num A) (a_ctx A)) (with_pv st v).
Proof. intros [H1 H2 H3 H4 H5 H6 H7 L1 L2 L3 L4 L5 H8 H9 H10] Hr Hn. split; cbn; auto. Qed.

Lemma conc_same_pv A st v : conc A st -> pv_regex v = pv_regex (ps_pv st) -> pv_negate v = pv_negate (ps_pv st) -> conc A (with_pv st v).
Proof. intros [H1 H2 H3 H4 H5 H6 H7 L1 L2 L3 L4 L5 H8 H9 H10] Hr Hn. split; cbn; auto; [now rewrite Hr|now rewrite Hn]. Qed.

Lemma conc_stacks A st l o : conc A st -> shape l -> (o = true -> opens l) -> conc (abs_open A o) (with_stacks st l).
Proof. intros [H1 H2 H3 H4 H5 H6 H7 L1 L2 L3 L4 L5 H8 H9 H10] Hs Ho. split; cbn; auto. Qed.

Lemma conc_start A st : conc A st -> conc (abs_start A) (tk_start st).
Proof.
  intros [H1 H2 H3 H4 H5 H6 H7 L1 L2 L3 L4 L5 H8 H9 H10]. split; cbn; auto; try discriminate.
  - exists (ps_p st). split; [reflexivity|apply slice_same].
  - intros X. destruct (L2 X) as [k [E1 E2]]. exists k. rewrite E1. split; [reflexivity|exact E2].
  - intros X. destruct (L3 X) as [k [d [E1 E2]]]. exists k, d. rewrite E1. split; [reflexivity|exact E2].
  - intros b Hb. injection Hb as <-. constructor.
Qed.

(** Outcomes of actions. *)
Definition fine {T} (p : nat) (P : T -> Prop) (o : outcome T) : Prop :=
  match o with
  | Ok x => P x
  | Throw (SyntaxError m) => complaint input (firstn p input) m
  | Throw StdOutOfRange => has_big_number input
  | _ => False
  end.

Lemma fine_bind {T U} p (P : T -> Prop) (Q : U -> Prop) o (f : T -> outcome U) :
  fine p P o -> (forall x, P x -> fine p Q (f x)) -> fine p Q (obind o f).
Proof. destruct o as [x|e|u|]; cbn; auto. Qed.

Lemma fine_mono {T} p (P Q : T -> Prop) o : (forall x, P x -> Q x) -> fine p P o -> fine p Q o.
Proof. destruct o as [x|e|u|]; cbn; auto. Qed.

(** [p] stays. *)
Definition kept (A : abs) (st st' : pstate) : Prop := conc A st' /\ ps_p st' = ps_p st.

Lemma tk_stop_fine A st : conc A st -> a_tok A = true ->
  fine (ps_p st) (fun st' => conc A st' /\ ps_p st' = ps_p st /\ ps_pv st' = ps_pv st /\ ps_stacks st' = ps_stacks st /\
                   exists b, ps_tok_begin st = Some b /\ ps_tok_begin st' = Some b /\ ps_tok st' = slice input b (ps_p st)) (tk_stop input st).
Proof.
  intros HA Ht. unfold tk_stop. destruct (ps_tok_begin st) as [b|] eqn:Eb; [|now apply (c_tok A st HA) in Ht].
  pose proof (c_begin A st HA b Eb) as Hb. rewrite (proj2 (Nat.leb_le _ _) Hb). cbn.
  destruct HA as [H1 H2 H3 H4 H5 H6 H7 L1 L2 L3 L4 L5 H8 H9 H10]. rewrite Eb in *. split; [|repeat split; exists b; auto].
  split; cbn; auto.
Qed.

(** Numbers. *)
Lemma digits_value_spec ds : Forall is_digit ds -> forall acc, digits_value ds acc = Some (fold_left (fun v c => 10 * v + digit_value c)%Z ds acc).
Proof.
  induction ds as [|c ds IH]; intros H acc; [reflexivity|]. inversion H as [|? ? Hc Hd]; subst. cbn [digits_value fold_left]. unfold is_digit in Hc.
  destruct (Z.leb_spec 48 (Z.of_N (N_of_ascii c))); [|lia]. destruct (Z.leb_spec (Z.of_N (N_of_ascii c)) 57); [|lia]. cbn [andb].
  now apply IH.
Qed.

Lemma number_value_nonneg ds : Forall is_digit ds -> (0 <= number_value ds)%Z.
Proof.
  unfold number_value. intros H. assert (G : forall acc, (0 <= acc)%Z -> (0 <= fold_left (fun v c => 10 * v + digit_value c)%Z ds acc)%Z).
  { induction H as [|c ds Hc Hd IH]; intros acc Ha; [exact Ha|]. cbn [fold_left]. apply IH. unfold digit_value, is_digit in *. lia. }
  now apply G.
Qed.

Lemma digit_not_sign c : is_digit c -> c <> "+"%char /\ c <> "-"%char.
Proof. unfold is_digit. intros H. split; intros ->; cbn in H; lia. Qed.

Lemma stoi_sign sg ds : is_sign sg -> ds <> [] -> Forall is_digit ds ->
  stoi (sg ++ ds) = let z := (if str_eqb sg (s "-") then - number_value ds else number_value ds)%Z in
                    if fits_int z then Ok z else Throw StdOutOfRange.
Proof.
  intros Hs Hne Hd. destruct ds as [|d ds]; [contradiction|]. pose proof (digits_value_spec _ Hd 0%Z) as HV. fold (number_value (d :: ds)) in HV.
  destruct Hs as [->|[->| ->]]; cbn [app].
  - assert (Hd1 : is_digit d) by now inversion Hd. apply digit_not_sign in Hd1 as [N1 N2].
    unfold stoi. cbn [str_eqb]. change (str_eqb [] (s "-")) with false. cbv iota.
    assert (HX : (match d :: ds with
           | [] => None
           | "-"%char :: (_ :: _) as y => option_map Z.opp (digits_value (tl (d :: ds)) 0)
           | "+"%char :: (_ :: _) as y => digits_value (tl (d :: ds)) 0
           | _ => digits_value (d :: ds) 0
           end) = digits_value (d :: ds) 0).
    { destruct d as [[] [] [] [] [] [] [] []]; try reflexivity; exfalso; auto. }
    rewrite HX, HV. reflexivity.
  - unfold stoi. cbv iota beta. cbn [tl]. rewrite HV. reflexivity.
  - unfold stoi. cbv iota beta. cbn [tl]. rewrite HV. reflexivity.
Qed.

Lemma stoi_fine st sg ds a b : input = a ++ (sg ++ ds) ++ b -> is_sign sg -> ds <> [] -> Forall is_digit ds ->
  fine (ps_p st) (fun _ => True) (stoi (sg ++ ds)).
Proof.
  intros Ei Hs Hne Hd. rewrite stoi_sign by auto. cbn zeta.
  set (z := (if str_eqb sg (s "-") then - number_value ds else number_value ds)%Z).
  destruct (fits_int z) eqn:Ef; [exact I|]. cbn. exists (a ++ sg), ds, b. split; [rewrite Ei, <- !app_assoc; reflexivity|].
  split; [exact Hne|]. split; [exact Hd|]. pose proof (number_value_nonneg ds Hd) as Hn.
  unfold fits_int in Ef. apply andb_false_iff in Ef as [Ef|Ef]; apply Z.leb_gt in Ef; unfold z in Ef; unfold INT_MIN, INT_MAX in *; destruct (str_eqb _ _); lia.
Qed.

Lemma slice_in b p : b <= p -> p <= length input -> exists a c, input = a ++ slice input b p ++ c.
Proof.
  intros H1 H2. exists (firstn b input), (skipn p input). rewrite app_assoc, <- slice_split by auto. symmetry. apply firstn_skipn.
Qed.

Lemma number_fine A st (f : pstate -> Z -> pstate) : conc A st -> a_tok A = true -> a_num A = NDigits ->
  (forall st' z, conc A st' -> ps_p st' = ps_p st -> kept A st (f st' z)) ->
  fine (ps_p st) (kept A st) (obind (tk_stop input st) (fun st1 => obind (stoi (ps_tok st1)) (fun z => Ok (f st1 z)))).
Proof.
  intros HA Ht Hn Hf. eapply fine_bind; [apply (tk_stop_fine A st HA Ht)|]. intros st1 [H1 [H2 [_ [_ [b [H3 [H4 H5]]]]]]].
  pose proof (c_num A st HA) as HN. rewrite Hn in HN. destruct HN as [b' [Eb [sg [ds [Es [Hs [Hne Hd]]]]]]].
  assert (b' = b) as -> by congruence. rewrite H5, Es.
  destruct (slice_in b (ps_p st) (c_begin A st HA b Eb) (c_end A st HA)) as [a [c Ei]]. rewrite Es in Ei.
  eapply fine_bind; [apply (stoi_fine st sg ds a c); auto|]. intros z _. cbn. now apply Hf.
Qed.

(** Messages. *)
Lemma points_at_last k c mark : nth_error input k = Some c -> c <> newline ->
  points_at input (firstn (S k) input) mark (print_error_location input k mark).
Proof.
  intros Hc Hn. destruct (last_line_exists (firstn k input)) as [before [line HL]]. pose proof HL as [E1 _]. rewrite E1 in HL.
  exists before, line, c. rewrite (firstn_S_nth _ _ _ Hc), E1, <- app_assoc. repeat split; auto; try apply HL.
  assert (Hk : k < length input) by (apply nth_error_Some; congruence).
  assert (Hx : input = before ++ line ++ c :: skipn (S k) input).
  { rewrite app_assoc, <- E1. rewrite <- (firstn_skipn (S k) input) at 1. rewrite (firstn_S_nth _ _ _ Hc), <- app_assoc. reflexivity. }
  exists (skipn (S k) input). split; [rewrite Hx at 1; now rewrite <- !app_assoc|].
  assert (HM : location_message before line (c :: skipn (S k) input) mark
    (print_error_location (before ++ line ++ c :: skipn (S k) input) (length (before ++ line)) mark)).
  { apply print_error_location_spec; [exact HL|]. cbn. destruct (ascii_dec c TextSpec.newline) as [X|_]; [now apply Hn in X|].
    intros X. apply app_eq_nil in X as [_ X]. apply app_eq_nil in X as [_ X]. discriminate. }
  rewrite <- Hx in HM. rewrite <- E1, firstn_length, Nat.min_l in HM by lia. exact HM.
Qed.

Lemma error_message_fine A st msg P : conc A st -> a_nl A = true ->
  In msg [s "Nested rules must have a parent"; s "Closing nested rule without open"; s "Nested rules cannot be empty"] ->
  fine (T := pstate) (ps_p st) P (throw_error_message input st msg).
Proof.
  intros HA Hn Hm. destruct (c_nl A st HA Hn) as [k [c [Ep [Hc Hcn]]]]. unfold throw_error_message, p_minus_1. rewrite Ep.
  cbn [obind fine]. eapply bad_nesting; [exact Hm|]. now apply (points_at_last k c).
Qed.

Lemma unexpected_tag_fine A st name expected tn P : conc A st -> a_nl A = true -> x_tag (a_ctx A) = true ->
  (exists b, ps_tok_begin st = Some b /\ b < ps_p st /\ name = slice input b (ps_p st)) ->
  fine (T := pstate) (ps_p st) P (throw_unexpected_tag input st name expected tn).
Proof.
  intros HA Hn Hx [b [Et [Hb Eb]]]. destruct (c_nl A st HA Hn) as [k [c [Ep [Hc Hcn]]]]. unfold throw_unexpected_tag, p_minus_1.
  destruct (c_tag A st HA Hx) as [j [Ej [H1 H2]]]. assert (b = S (S j)) as -> by congruence.
  pose proof (c_end A st HA) as He. rewrite Ep.
  cbn [obind fine].
  match goal with |- complaint _ _ (_ ++ _ ++ _ ++ ?e ++ _) => set (ex := e) end.
  apply (bad_tag input _ _ (firstn j input) name ex).
  - rewrite Eb, <- Ep, (slice_split input (S (S j)) (ps_p st)) by lia.
    rewrite (firstn_S_nth _ _ _ H2), (firstn_S_nth _ _ _ H1), <- !app_assoc. reflexivity.
  - intros X. rewrite X in Eb. assert (HH : length (slice input (S (S j)) (ps_p st)) = 0) by now rewrite <- Eb.
    unfold slice in HH. rewrite firstn_length, skipn_length in HH. lia.
  - replace (length (s "</" ++ name)) with (length name + 2) by (cbn; lia). now apply (points_at_last k c).
Qed.

Lemma regex_error_fine A st b error P : conc A st -> a_nl A = true -> x_regex (a_ctx A) = true -> ps_tok_begin st = Some b ->
  fine (T := pstate) (ps_p st) P (throw_regex_error input st (ps_p st - b + 1) error).
Proof.
  intros HA Hn Hx Eb. destruct (c_nl A st HA Hn) as [k [c [Ep [Hc Hcn]]]]. unfold throw_regex_error, p_minus_1.
  destruct (c_regex A st HA Hx) as [j [d [Ej [H1 H2]]]]. assert (b = S j) as -> by congruence.
  pose proof (c_end A st HA) as He. pose proof (c_begin A st HA _ Eb) as Hb. rewrite Ep.
  cbn [obind fine].
  eapply (bad_regex input _ _ (firstn j input) d (slice input (S j) (ps_p st)) error); [|exact H2|].
  - rewrite <- Ep, (slice_split input (S j) (ps_p st)) by lia. rewrite (firstn_S_nth _ _ _ H1), <- app_assoc. reflexivity.
  - assert (HL : length (d :: slice input (S j) (ps_p st)) = S k - S j + 1).
    { cbn [length]. unfold slice. rewrite firstn_length, skipn_length. lia. }
    rewrite HL. now apply (points_at_last k c).
Qed.

(** Rules. *)
Lemma update_fine A st f : conc A st -> a_open A = true ->
  fine (ps_p st) (fun st' => conc A st' /\ ps_p st' = ps_p st /\ ps_pv st' = ps_pv st) (update_cur_rule st f).
Proof.
  intros HA Ho. destruct (c_open A st HA Ho) as [r [t [rest Es]]]. unfold update_cur_rule. rewrite Es. cbn.
  split; [|auto]. replace A with (abs_open A (a_open A)) by now destruct A.
  apply conc_stacks; auto.
  - pose proof (c_shape A st HA) as H. rewrite Es in H. now apply (shape_head (r :: t)).
  - intros _. do 3 eexists. reflexivity.
Qed.

Lemma update_pv_fine A st f rx ng v : conc A st -> a_open A = true ->
  (rx = true -> pv_regex v <> None) -> (ng = true -> pv_negate v <> None) ->
  fine (ps_p st) (kept (mk_abs (a_open A) (a_tok A) rx ng (a_pos A) (a_nl A) (a_num A) (a_ctx A)) st)
    (obind (update_cur_rule st f) (fun st1 => Ok (with_pv st1 v))).
Proof.
  intros HA Ho Hr Hn. eapply fine_bind; [apply (update_fine A st f HA Ho)|]. intros st1 [H1 [H2 H3]]. cbn. split; [|exact H2].
  now apply conc_pv.
Qed.

Lemma pop_rule_fine A st : conc A st -> opens (ps_stacks st) -> fine (ps_p st) (kept (abs_open A false) st) (pop_rule input st).
Proof.
  intros HA [r [t [rest Es]]]. pose proof (c_shape A st HA) as HS. unfold pop_rule. rewrite Es in *.
  destruct t as [|parent t].
  - destruct rest as [|[|top [|]] rest]; [destruct HS| | |]; cbn [shape] in HS.
    + cbn. split; [|reflexivity]. apply conc_stacks; [exact HA| |discriminate]. cbn. split; [lia|]. apply HS.
    + cbn. split; [|reflexivity]. apply conc_stacks; [exact HA| |discriminate]. cbn. split; [lia|]. apply HS.
    + destruct HS as [HS _]. cbn in HS. lia.
  - cbn [fine]. split; [|reflexivity]. apply conc_stacks; [exact HA| |discriminate]. now apply (shape_head (r :: parent :: t)).
Qed.

Lemma push_nested_fine A st : conc A st -> a_nl A = true -> fine (ps_p st) (kept (abs_open A false) st) (push_nested input st).
Proof.
  intros HA Hn. pose proof (c_shape A st HA) as HS. unfold push_nested, top_stack.
  destruct (ps_stacks st) as [|t rest] eqn:Es; [destruct HS|]. cbn [obind]. destruct t as [|r t].
  - apply (error_message_fine A); auto. now left.
  - cbn [fine]. split; [|reflexivity]. apply conc_stacks; [exact HA| |discriminate].
    change (0 <= 1 /\ (r :: t <> [] /\ shape ((r :: t) :: rest))). split; [lia|]. split; [discriminate|exact HS].
Qed.

Lemma pop_nested_fine A st : conc A st -> a_nl A = true -> fine (ps_p st) (kept (abs_open A false) st) (pop_nested input st).
Proof.
  intros HA Hn. pose proof (c_shape A st HA) as HS. unfold pop_nested.
  destruct (ps_stacks st) as [|[|r t] rest] eqn:Es; [destruct HS| |apply (error_message_fine A); auto; right; now left].
  destruct rest as [|[|n [|m ns]] rest]; [destruct HS| | |].
  - apply (error_message_fine A); auto. do 2 right. now left.
  - destruct rest as [|[|r t] rest].
    + apply (error_message_fine A); auto. right. now left.
    + apply (error_message_fine A); auto. now left.
    + cbn [fine]. split; [|reflexivity]. apply conc_stacks; [exact HA| |discriminate].
      destruct HS as [_ [_ HS]]. now apply (shape_head (r :: t)).
  - destruct HS as [HS _]. cbn in HS. lia.
Qed.

Lemma set_open_tag_fine A st name : conc A st -> fine (ps_p st) (kept A st) (set_open_tag_or_throw st name).
Proof.
  intros HA. pose proof (c_shape A st HA) as HS. unfold set_open_tag_or_throw, top_stack.
  destruct (ps_stacks st) as [|[|r t] rest] eqn:Es; [destruct HS| |]; cbn [obind].
  - cbn. split; auto.
  - assert (HH : forall f, fine (ps_p st) (kept A st) (update_cur_rule st f)).
    { intros f. unfold update_cur_rule. rewrite Es. cbn. split; [|reflexivity]. replace A with (abs_open A (a_open A)) by now destruct A.
      apply conc_stacks; [exact HA| |].
      - now apply (shape_head (r :: t)).
      - intros _. do 3 eexists. reflexivity. }
    destruct (is_star name); apply HH.
Qed.

Lemma validate_fine A st name : conc A st -> a_nl A = true -> x_tag (a_ctx A) = true ->
  (exists b, ps_tok_begin st = Some b /\ b < ps_p st /\ name = slice input b (ps_p st)) ->
  fine (ps_p st) (fun st' => st' = st /\ opens (ps_stacks st)) (validate_close_tag_or_throw input st name).
Proof.
  intros HA Hn Hx Hb. assert (HU : forall ex tn, fine (ps_p st) (fun st' => st' = st /\ opens (ps_stacks st)) (throw_unexpected_tag input st name ex tn)).
  { intros ex tn. now apply (unexpected_tag_fine A). }
  pose proof (c_shape A st HA) as HS. unfold validate_close_tag_or_throw, top_stack.
  destruct (ps_stacks st) as [|[|r t] rest] eqn:Es; [destruct HS| |]; cbn [obind]; [apply HU|].
  assert (HO : fine (ps_p st) (fun st' => st' = st /\ opens ((r :: t) :: rest)) (Ok st)) by (cbn; split; [reflexivity|do 3 eexists; reflexivity]).
  destruct (r_tag r =? _)%N.
  - destruct (r_tagname r) as [e|]; [|apply HU]. destruct (str_eqb e name); [exact HO|apply HU].
  - destruct (is_star name); [destruct (r_tag r =? _)%N; [exact HO|apply HU]|].
    destruct (_ || _); [apply HU|exact HO].
Qed.

(** The token of a closing tag has a character. *)
Lemma close_fine A st : conc A st -> a_tok A = true -> a_nl A = true -> is_more (a_num A) = true -> x_tag (a_ctx A) = true ->
  fine (ps_p st) (kept (abs_open A false) st)
    (obind (tk_stop input st) (fun st1 => obind (validate_close_tag_or_throw input st1 (ps_tok st1)) (fun st2 => pop_rule input st2))).
Proof.
  intros HA Ht Hn Hm Hx. eapply fine_bind; [apply (tk_stop_fine A st HA Ht)|]. intros st1 [H1 [H2 [_ [_ [b [H3 [H4 H5]]]]]]].
  eapply fine_bind.
  - rewrite <- H2. apply (validate_fine A st1 _ H1 Hn Hx). exists b. rewrite H2. split; [exact H4|]. split; [|exact H5].
    pose proof (c_begin A st HA b H3) as Hb. pose proof (c_num A st HA) as HN.
    assert (HN' : number_form (a_num A) (slice input b (ps_p st))).
    { destruct (a_num A); try discriminate; destruct HN as [b' [E1 E2]]; assert (b' = b) as -> by congruence; exact E2. }
    apply (more_form _ _ Hm) in HN'. destruct (Nat.eq_dec b (ps_p st)) as [->|]; [|lia]. now rewrite slice_same in HN'.
  - intros st2 [-> Ho]. eapply fine_mono; [|rewrite <- H2; apply (pop_rule_fine A st1 H1 Ho)]. intros st' [K1 K2]. split; [exact K1|congruence].
Qed.


(** ** All actions *)

Lemma need_some b A A' : need b A = Some A' -> b = true /\ A' = A.
Proof. destruct b; [|discriminate]. intros H. injection H as <-. auto. Qed.

Lemma token_fine A st f : conc A st -> a_tok A = true ->
  (forall v x, pv_regex (f v x) = pv_regex v /\ pv_negate (f v x) = pv_negate v) ->
  fine (ps_p st) (kept A st) (token input st f).
Proof.
  intros HA Ht Hf. unfold token. eapply fine_bind; [apply (tk_stop_fine A st HA Ht)|]. intros st1 [H1 [H2 [H3 _]]].
  cbn. split; [|exact H2]. destruct (Hf (ps_pv st1) (ps_tok st1)). now apply conc_same_pv.
Qed.

Lemma need_regex_fine A st : conc A st -> a_rx A = true -> fine (ps_p st) (fun _ => True) (need_regex st).
Proof. intros HA Hr. unfold need_regex. destruct (pv_regex (ps_pv st)) eqn:Er; [exact I|]. now apply (c_rx A st HA) in Hr. Qed.

Lemma abs_same A : mk_abs (a_open A) (a_tok A) (a_rx A) (a_neg A) (a_pos A) (a_nl A) (a_num A) (a_ctx A) = A.
Proof. now destruct A. Qed.

Lemma update_same_fine A st f v : conc A st -> a_open A = true ->
  pv_regex v = pv_regex (ps_pv st) -> pv_negate v = pv_negate (ps_pv st) ->
  fine (ps_p st) (kept A st) (obind (update_cur_rule st f) (fun st1 => Ok (with_pv st1 v))).
Proof.
  intros HA Ho Hr Hn. rewrite <- (abs_same A) at 1. apply update_pv_fine; auto.
  - rewrite Hr. apply (c_rx A st HA).
  - rewrite Hn. apply (c_neg A st HA).
Qed.

Ltac pv_same := split; [apply conc_same_pv; [assumption| |]; now destruct (ps_pv _)|reflexivity].
Ltac needs H := apply need_some in H as [H ->]; repeat (apply andb_true_iff in H; destruct H as [H ?]).


Lemma action_fine a A A' st : (a < 88)%N -> conc A st -> abs_action a A = Some A' -> fine (ps_p st) (kept A' st) (run_action E input a st).
Proof.
  intros Ha HA. apply (below_spec 88) in Ha. cbn in Ha.
  repeat (destruct Ha as [<-|Ha]; [cbn [abs_action run_action]; intros H;
    first
    [ (* Ok (with_pv ..) *)
      injection H as <-; unfold nth_trait, pipe_action, test_action, add_pipe; cbn [fine]; pv_same
    | (* tk_start *)
      injection H as <-; cbn [fine]; split; [now apply conc_start|reflexivity]
    | (* tokens *)
      needs H; apply token_fine; [assumption|assumption|]; now intros []
    | (* tk_stop alone *)
      needs H; eapply fine_mono; [|apply (tk_stop_fine A st HA H)]; now intros st1 [? [? _]]
    | (* numbers *)
      needs H; apply (number_fine A st (fun st1 z => with_pv st1 _)); [assumption|assumption| |];
        [destruct (a_num A); try discriminate; reflexivity|]; intros st1 z ? ?;
        (split; [apply conc_same_pv; [assumption| |]; now destruct (ps_pv st1)|assumption])
    | (* regex needed *)
      needs H; eapply fine_bind; [apply (need_regex_fine A st HA H)|]; intros rx _;
        unfold nth_trait, pipe_action, test_action, add_pipe; cbn [fine]; pv_same
    | (* the current rule and the pattern values *)
      needs H; apply update_same_fine; [assumption|assumption| |]; now destruct (ps_pv st)
    | (* the current rule *)
      needs H; eapply fine_mono; [|apply (update_fine A st _ HA H)]; now intros st1 [? [? _]]
    | idtac ]|]); [..|destruct Ha].
  - needs H. now apply pop_nested_fine.
  - needs H. now apply push_nested_fine.
  - needs H. now apply close_fine.
  - needs H. apply pop_rule_fine; [exact HA|]. now apply (c_open A st HA).
  - needs H. unfold abs_neg. apply update_pv_fine; auto; [|discriminate].
    intros Hr. apply (c_rx A st HA) in Hr. now destruct (ps_pv st).
  - needs H. eapply fine_bind; [apply (tk_stop_fine A st HA H)|]. intros st1 [H1 [H2 _]]. rewrite <- H2.
    eapply fine_mono; [|apply (set_open_tag_fine A st1 _ H1)]. intros st2 [K1 K2]. split; [exact K1|congruence].
  - injection H as <-. unfold push_rule. pose proof (c_shape A st HA) as HS.
    destruct (ps_stacks st) as [|t rest] eqn:Es; [destruct HS|]. cbn [fine]. split; [|reflexivity].
    apply conc_stacks; [exact HA| |].
    + now apply (shape_head t).
    + intros _. do 3 eexists. reflexivity.
  - injection H as <-. cbn [fine]. split; [|reflexivity]. unfold abs_neg, abs_rx. cbn. now apply conc_pv.
  - needs H. destruct (pv_negate (ps_pv st)) as [l|] eqn:El; [|now apply (c_neg A st HA) in H].
    cbn [fine]. split; [|reflexivity]. rewrite <- (abs_same A). apply conc_pv; [exact HA| |].
    + intros Hr. apply (c_rx A st HA) in Hr. now destruct (ps_pv st).
    + intros _. now destruct (ps_pv st).
  - injection H as <-. cbn [fine]. split; [|reflexivity]. unfold abs_neg. apply conc_pv; [exact HA| |].
    + intros Hr. apply (c_rx A st HA) in Hr. now destruct (ps_pv st).
    + intros _. now destruct (ps_pv st).
  - needs H. destruct (eng_compile E _) as [error|].
    + destruct (ps_tok_begin st) as [b|] eqn:Eb; [|now apply (c_tok A st HA) in H]. now apply (regex_error_fine A).
    + cbn [fine]. split; [|reflexivity]. unfold abs_rx. apply conc_pv; [exact HA| |].
      * intros _. now destruct (ps_pv st).
      * intros Hr. apply (c_neg A st HA) in Hr. now destruct (ps_pv st).
Qed.


End Safety.
