(** The actions of the parser on words, without positions. *)

From Coq Require Import Ascii String NArith ZArith Bool List Lia.
From Verif Require Import Base StringUtil Tags Dom NodeUtil Values Match Rule Arrays ParserTables Parser
  Regular RegularProofs MachineRows Grammar GrammarSpec GrammarCheck GrammarProofs GrammarTexts
  SafetyCheck ParserSpec SafetyProofs ParserSafety.
Import ListNotations.
Open Scope outcome_scope.

(** [k_cur]: the input since the last tk_start. *)
Record kst := mk_k {
  k_stacks : list (list rule);
  k_pv : pvals;
  k_cur : option str;
  k_tok : str
}.

Definition k_with_stacks (k : kst) x := mk_k x (k_pv k) (k_cur k) (k_tok k).
Definition k_with_pv (k : kst) x := mk_k (k_stacks k) x (k_cur k) (k_tok k).
Definition k_chr (c : ascii) (k : kst) := mk_k (k_stacks k) (k_pv k) (option_map (fun x => x ++ [c]) (k_cur k)) (k_tok k).
Definition k_start (k : kst) := mk_k (k_stacks k) (k_pv k) (Some []) (k_tok k).

Definition obind' {A B} (o : option A) (f : A -> option B) : option B := match o with Some x => f x | None => None end.

Definition k_stop (k : kst) : option kst := option_map (fun x => mk_k (k_stacks k) (k_pv k) (Some x) x) (k_cur k).
Definition k_stoi (x : str) : option Z := match stoi x with Ok z => Some z | _ => None end.
Definition k_update (k : kst) (f : rule -> rule) : option kst :=
  match k_stacks k with (r :: t) :: rest => Some (k_with_stacks k ((f r :: t) :: rest)) | _ => None end.

Definition push_nested' (sk : list (list rule)) : option (list (list rule)) :=
  match sk with (r :: t) :: rest => Some ([] :: [] :: sk) | _ => None end.
Definition pop_nested' (sk : list (list rule)) : option (list (list rule)) :=
  match sk with [] :: [n] :: (r :: t) :: rest => Some ((append_nested r n :: t) :: rest) | _ => None end.
Definition push_rule' (r : rule) (sk : list (list rule)) : option (list (list rule)) :=
  match sk with t :: rest => Some ((r :: t) :: rest) | _ => None end.
Definition pop_rule' (sk : list (list rule)) : option (list (list rule)) :=
  match sk with
  | (r :: parent :: t) :: rest => Some ((append_child parent r :: t) :: rest)
  | [r] :: [] :: rest => Some ([] :: [r] :: rest)
  | [r] :: (top :: t) :: rest => Some ([] :: (append_next top r :: t) :: rest)
  | _ => None
  end.
Definition set_open' (name : str) (r : rule) : rule :=
  if is_star name then set_tag r TAG_ANY
  else let tg := gumbo_tag_enum (c_str name) in
       let r1 := set_tag r tg in if (tg =? TAG_UNKNOWN)%N then set_tagname r1 name else r1.
Definition closes' (r : rule) (name : str) : bool :=
  let expected := r_tag r in
  if (expected =? TAG_UNKNOWN)%N then match r_tagname r with None => false | Some e => str_eqb e name end
  else if is_star name then (expected =? TAG_ANY)%N
  else let given := gumbo_tag_enum (c_str name) in
       negb ((given =? TAG_UNKNOWN)%N || negb (given =? expected)%N).
Definition check_close' (name : str) (sk : list (list rule)) : option (list (list rule)) :=
  match sk with (r :: t) :: rest => if closes' r name then Some sk else None | _ => None end.
Definition k_stacked (f : list (list rule) -> option (list (list rule))) (k : kst) : option kst :=
  option_map (k_with_stacks k) (f (k_stacks k)).

Section Actions.

Variable E : engine.

Definition k_pvs (k : kst) (f : pvals -> pvals) : option kst := Some (k_with_pv k (f (k_pv k))).
Definition k_token (k : kst) (f : pvals -> str -> pvals) : option kst :=
  obind' (k_stop k) (fun k1 => k_pvs k1 (fun v => f v (k_tok k1))).
Definition k_number (k : kst) (f : pvals -> Z -> pvals) : option kst :=
  obind' (k_stop k) (fun k1 => obind' (k_stoi (k_tok k1)) (fun z => k_pvs k1 (fun v => f v z))).
Definition k_need (k : kst) (f : pvals -> regex -> pvals) : option kst :=
  obind' (pv_regex (k_pv k)) (fun rx => k_pvs k (fun v => f v rx)).
Definition k_rule (k : kst) (f : pvals -> rule -> rule) (g : pvals -> pvals) : option kst :=
  obind' (k_update k (f (k_pv k))) (fun k1 => k_pvs k1 g).
Definition nth_of (v : pvals) (x : Z * Z) (first of_type : bool) : pvals :=
  set_trait v (Some (NthChildMatch (fst x) (snd x) (mk_nth_option first of_type))).

Definition kaction (a : N) (k : kst) : option kst :=
  match a with
  | 0 => k_pvs k set_pv_optional
  | 1 => k_pvs k (fun v => set_test v (Some (NegateTest (pv_test v))))
  | 2 | 4 | 6 | 8 | 10 | 14 | 17 | 19 | 21 | 23 | 30 | 32 | 60 | 79 | 84 => Some (k_start k)
  | 3 => k_token k set_attr_name
  | 5 | 7 | 9 | 11 => k_token k set_literal_value
  | 12 => k_pvs k (fun v => set_nth v (2, 0)%Z)
  | 13 => k_pvs k (fun v => set_nth v (2, 1)%Z)
  | 15 => k_number k (fun v z => set_nth v (0, z)%Z)
  | 16 => k_pvs k (fun v => set_nth v (snd (pv_nth v), 0)%Z)
  | 18 => k_number k (fun v z => set_nth v (fst (pv_nth v), z)%Z)
  | 20 | 22 | 24 => k_stop k
  | 25 => k_pvs k set_icase
  | 26 => k_pvs k set_collate
  | 27 =>
      let rx := mk_regex (k_tok k) (pv_icase (k_pv k)) (pv_collate (k_pv k)) in
      match eng_compile E rx with None => k_pvs k (fun v => set_regex v (Some rx)) | Some _ => None end
  | 28 => k_need k (fun v rx => set_test v (Some (RegexTest rx)))
  | 29 => k_pvs k (fun v => set_trait v (Some (ChildCountMatch 0)))
  | 31 => k_number k (fun v z => set_trait v (Some (ChildCountMatch (z mod UINT_MOD))))
  | 33 => k_number k (fun v z => set_trait v (Some (AttributeCountMatch (z mod UINT_MOD))))
  | 34 => k_pvs k (fun v => nth_of v (pv_nth v) true false)
  | 35 => k_pvs k (fun v => nth_of v (pv_nth v) false false)
  | 36 => k_pvs k (fun v => nth_of v (pv_nth v) true true)
  | 37 => k_pvs k (fun v => nth_of v (0, 1)%Z true false)
  | 38 => k_pvs k (fun v => nth_of v (0, 1)%Z true true)
  | 39 => k_pvs k (fun v => nth_of v (0, 1)%Z false false)
  | 40 => k_pvs k (fun v => nth_of v (0, 1)%Z false true)
  | 41 => k_pvs k (fun v => nth_of v (pv_nth v) false true)
  | 42 => k_pvs k (fun v => set_trait v (Some (OnlyChildMatch false)))
  | 43 => k_pvs k (fun v => set_trait v (Some (OnlyChildMatch true)))
  | 44 => k_need k (fun v rx => set_trait v (Some (TypeRegexMatch rx)))
  | 45 => k_pvs k (fun v => set_negate v (Some []))
  | 46 =>
      match pv_negate (k_pv k) with
      | None => None
      | Some l => k_pvs k (fun v => set_trait (set_negate v (Some (l ++ [pv_trait v]))) None)
      end
  | 47 => k_pvs k (fun v => set_builtin v (Some TextBuiltin))
  | 48 => k_pvs k (fun v => set_builtin v (Some InnerHtmlBuiltin))
  | 49 => k_pvs k (fun v => set_builtin v (Some StripTagsBuiltin))
  | 50 => k_pvs k (fun v => add_pipe v (TrimPipe default_trim))
  | 51 => k_pvs k (fun v => add_pipe v (TrimPipe (pv_literal_value v)))
  | 52 => k_pvs k (fun v => add_pipe v CollapseWsPipe)
  | 53 => k_pvs k (fun v => add_pipe v (CasePipe true))
  | 54 => k_pvs k (fun v => add_pipe v (CasePipe false))
  | 55 => k_pvs k (fun v => add_pipe v (PrependPipe (pv_literal_value v)))
  | 56 => k_pvs k (fun v => add_pipe v (AppendPipe (pv_literal_value v)))
  | 57 => k_need k (fun v rx => add_pipe v (RegexPipe rx))
  | 58 => k_need k (fun v rx => add_pipe v (RegexReplacePipe rx (pv_literal_value v)))
  | 59 => k_pvs k (fun v => set_cap_var v (pv_literal_value v))
  | 61 => k_token k set_cap_var
  | 62 => k_pvs k (fun v => set_test v (Some (make_ContainsWordsTest (pv_literal_value v))))
  | 63 => k_pvs k (fun v => set_test v (Some (EqualsTest (pv_literal_value v))))
  | 64 => k_pvs k (fun v => set_test v (Some (BeginsWithTest (pv_literal_value v))))
  | 65 => k_pvs k (fun v => set_test v (Some (ContainsTest (pv_literal_value v))))
  | 66 => k_pvs k (fun v => set_test v (Some (EndsWithTest (pv_literal_value v))))
  | 67 =>
      k_rule k (fun v r => append_capture r (Some (FunctionCapture (pv_builtin v) (pv_cap_var v) (pv_pipe v))))
               (fun v => set_pipe v None)
  | 68 | 69 =>
      k_rule k (fun v r => append_match r (Some (FunctionValueMatch (pv_builtin v) (pv_test v))))
               (fun v => set_test v None)
  | 70 =>
      k_rule k (fun v r =>
        let r1 := append_capture r (Some (AttributeCapture (pv_attr_name v) (pv_cap_var v) (pv_pipe v))) in
        if pv_optional v then r1 else append_match r1 (Some (AttributeMatch (pv_attr_name v) None)))
               (fun v => set_pipe v None)
  | 71 | 72 | 74 =>
      k_rule k (fun v r => append_match r (Some (AttributeMatch (pv_attr_name v) (pv_test v))))
               (fun v => set_test v None)
  | 73 => k_pvs k (fun v => set_test v None)
  | 75 => k_pvs k pv_reset
  | 76 => k_stacked (push_rule' (rule_of_tag TAG_ANY false false)) k
  | 77 => k_update k (fun r => set_optional r true)
  | 78 => k_update k (fun r => set_greedy r true)
  | 80 =>
      obind' (k_stop k) (fun k1 =>
      match k_stacks k1 with
      | [] => None
      | [] :: _ => Some k1
      | _ => k_update k1 (set_open' (k_tok k1))
      end)
  | 81 =>
      k_rule k (fun v r => append_match r (option_map NegateMatch (pv_negate v))) (fun v => set_negate v None)
  | 82 =>
      k_rule k (fun v r => append_match r (pv_trait v)) (fun v => set_trait v None)
  | 83 => k_stacked pop_rule' k
  | 85 => obind' (k_stop k) (fun k1 => obind' (k_stacked (check_close' (k_tok k1)) k1) (k_stacked pop_rule'))
  | 86 => k_stacked push_nested' k
  | 87 => k_stacked pop_nested' k
  | 88 => None
  | _ => Some k
  end%N.

Fixpoint crun (w : list item) (k : kst) : option kst :=
  match w with
  | [] => Some k
  | IAct a :: w' => obind' (kaction a k) (crun w')
  | IChr c :: w' => crun w' (k_chr c k)
  end.

Lemma crun_app u v k : crun (u ++ v) k = obind' (crun u k) (crun v).
Proof.
  revert k. induction u as [|[a|c] u IH]; intros k; [reflexivity| |]; cbn [app crun].
  - destruct (kaction a k); cbn [obind']; auto.
  - apply IH.
Qed.

(** ** Agreement with the parser *)

Variable input : str.

Definition sim (p : nat) (st : pstate) (k : kst) : Prop :=
  ps_stacks st = k_stacks k /\ ps_pv st = k_pv k /\ ps_tok st = k_tok k /\ ps_p st = p /\
  match ps_tok_begin st, k_cur k with
  | None, None => True
  | Some b, Some x => b <= p /\ x = slice input b p
  | _, _ => False
  end.

Definition agree (p : nat) (o : outcome pstate) (m : option kst) : Prop :=
  match m with
  | Some k => exists st, o = Ok st /\ sim p st k
  | None => forall st, o <> Ok st
  end.

Lemma agree_bind p o m f g : agree p o m -> (forall st k, sim p st k -> agree p (f st) (g k)) -> agree p (obind o f) (obind' m g).
Proof.
  intros H Hf. destruct m as [k|]; cbn in *.
  - destruct H as [st [-> H]]. now apply Hf.
  - destruct o as [st| | |]; cbn; try discriminate. exfalso. exact (H st eq_refl).
Qed.

Lemma agree_pvs p st k f v : sim p st k -> ps_pv st = v -> agree p (Ok (with_pv st (f v))) (k_pvs k f).
Proof.
  intros [H1 [H2 [H3 [H4 H5]]]] <-. exists (with_pv st (f (ps_pv st))). split; [reflexivity|].
  unfold sim, k_with_pv, with_pv. cbn. rewrite H2. auto.
Qed.

Lemma agree_stop p st k : sim p st k -> agree p (tk_stop input st) (k_stop k).
Proof.
  intros [H1 [H2 [H3 [H4 H5]]]]. unfold tk_stop, k_stop.
  destruct (ps_tok_begin st) as [b|], (k_cur k) as [x|]; cbn [option_map agree]; try contradiction; [|discriminate].
  destruct H5 as [H5 H6]. rewrite H4. destruct (Nat.leb_spec b p); [|lia]. eexists. split; [reflexivity|].
  unfold sim. cbn. auto 8.
Qed.

Lemma agree_token p st k f : sim p st k -> agree p (Parser.token input st f) (k_token k f).
Proof.
  intros H. unfold Parser.token, k_token. apply (agree_bind p _ _ _ _ (agree_stop p st k H)). intros st1 k1 H1.
  replace (ps_tok st1) with (k_tok k1) by now destruct H1 as [_ [_ [-> _]]].
  now apply (agree_pvs p st1 k1 (fun v => f v (k_tok k1))).
Qed.

Lemma agree_number p st k f : sim p st k ->
  agree p (let! st1 := tk_stop input st in let! z := stoi (ps_tok st1) in Ok (with_pv st1 (f (ps_pv st1) z))) (k_number k f).
Proof.
  intros H. unfold k_number. apply (agree_bind p _ _ _ _ (agree_stop p st k H)). intros st1 k1 H1.
  replace (ps_tok st1) with (k_tok k1) by now destruct H1 as [_ [_ [-> _]]].
  unfold k_stoi. destruct (stoi (k_tok k1)) as [z| | |]; cbn [obind obind' agree]; try discriminate.
  now apply (agree_pvs p st1 k1 (fun v => f v z)).
Qed.

Lemma agree_need p st k f : sim p st k ->
  agree p (let! rx := need_regex st in Ok (with_pv st (f (ps_pv st) rx))) (k_need k f).
Proof.
  intros H. unfold need_regex, k_need. assert (ps_pv st = k_pv k) as -> by apply H.
  destruct (pv_regex (k_pv k)) as [rx|]; cbn [obind obind' agree]; [|discriminate].
  apply (agree_pvs p st k (fun v => f v rx)); [exact H|apply H].
Qed.

Lemma sim_stacks p st k x : sim p st k -> sim p (with_stacks st x) (k_with_stacks k x).
Proof. intros [H1 [H2 [H3 [H4 H5]]]]. unfold sim, with_stacks, k_with_stacks. cbn. auto. Qed.

Lemma agree_update p st k f : sim p st k -> agree p (update_cur_rule st f) (k_update k f).
Proof.
  intros H. unfold update_cur_rule, k_update. assert (ps_stacks st = k_stacks k) as -> by apply H.
  destruct (k_stacks k) as [|[|r t] rest]; cbn [agree]; try discriminate. eexists. split; [reflexivity|]. now apply sim_stacks.
Qed.

Lemma agree_rule p st k f g : sim p st k ->
  agree p (let! st1 := update_cur_rule st (f (ps_pv st)) in Ok (with_pv st1 (g (ps_pv st)))) (k_rule k f g).
Proof.
  intros H. unfold k_rule. assert (Hv : ps_pv st = k_pv k) by apply H. rewrite Hv. unfold update_cur_rule, k_update.
  assert (ps_stacks st = k_stacks k) as -> by apply H.
  destruct (k_stacks k) as [|[|r t] rest]; cbn [obind obind' agree]; try discriminate.
  apply (agree_pvs p (with_stacks st _) (k_with_stacks k _) g); [now apply sim_stacks|exact Hv].
Qed.

Lemma no_bind {A B} (o : outcome A) (e : A -> exn) (y : B) : (let! x := o in Throw (e x)) <> Ok y.
Proof. destruct o; discriminate. Qed.

Lemma no_unexpected st (y : pstate) : throw_unexpected input st <> Ok y.
Proof. unfold throw_unexpected. apply (no_bind _ (fun h => SyntaxError _)). Qed.
Lemma no_message st m (y : pstate) : throw_error_message input st m <> Ok y.
Proof. unfold throw_error_message. apply (no_bind _ (fun h => SyntaxError _)). Qed.
Lemma no_tag st n e e' (y : pstate) : throw_unexpected_tag input st n e e' <> Ok y.
Proof. unfold throw_unexpected_tag. apply (no_bind _ (fun h => SyntaxError _)). Qed.
Lemma no_regex st n e (y : pstate) : throw_regex_error input st n e <> Ok y.
Proof. unfold throw_regex_error. apply (no_bind _ (fun h => SyntaxError _)). Qed.
Hint Resolve no_unexpected no_message no_tag no_regex : core.

Lemma agree_start p st k : sim p st k -> agree p (Ok (tk_start st)) (Some (k_start k)).
Proof.
  intros [H1 [H2 [H3 [H4 H5]]]]. eexists. split; [reflexivity|]. unfold sim, tk_start, k_start. cbn. rewrite H4.
  repeat split; auto. now rewrite slice_same.
Qed.

Ltac stacks_cases H :=
  let Hs := fresh in assert (Hs := proj1 H); cbn [agree] in *; rewrite <- Hs; clear Hs.

Lemma agree_pop_rule p st k : sim p st k -> agree p (pop_rule input st) (k_stacked pop_rule' k).
Proof.
  intros H. unfold pop_rule, k_stacked. assert (ps_stacks st = k_stacks k) as -> by apply H.
  destruct (k_stacks k) as [|[|r [|r' t]] [|[|top t'] rest]]; cbn [pop_rule' option_map agree]; auto;
    (eexists; split; [reflexivity|now apply sim_stacks]).
Qed.
Lemma agree_push_nested p st k : sim p st k -> agree p (push_nested input st) (k_stacked push_nested' k).
Proof.
  intros H. unfold push_nested, top_stack, k_stacked. assert (ps_stacks st = k_stacks k) as -> by apply H.
  destruct (k_stacks k) as [|[|r t] rest]; cbn [obind push_nested' option_map agree]; auto; try discriminate.
  eexists; split; [reflexivity|now apply sim_stacks].
Qed.
Lemma agree_pop_nested p st k : sim p st k -> agree p (pop_nested input st) (k_stacked pop_nested' k).
Proof.
  intros H. unfold pop_nested, k_stacked. assert (ps_stacks st = k_stacks k) as -> by apply H.
  destruct (k_stacks k) as [|[|r t] [|[|n [|n' t']] [|[|r' t''] rest]]]; cbn [pop_nested' option_map agree]; auto;
  eexists; (split; [reflexivity|now apply sim_stacks]).
Qed.
Lemma agree_push_rule p st k : sim p st k -> agree p (push_rule st) (k_stacked (push_rule' (rule_of_tag TAG_ANY false false)) k).
Proof.
  intros H. unfold push_rule, k_stacked. assert (ps_stacks st = k_stacks k) as -> by apply H.
  destruct (k_stacks k) as [|t rest]; cbn [push_rule' option_map agree]; [discriminate|].
  eexists; split; [reflexivity|now apply sim_stacks].
Qed.
Lemma agree_validate p st k name : sim p st k -> agree p (validate_close_tag_or_throw input st name) (k_stacked (check_close' name) k).
Proof.
  intros H. unfold validate_close_tag_or_throw, top_stack, k_stacked. assert (Es : ps_stacks st = k_stacks k) by apply H. rewrite Es.
  assert (HO : agree p (Ok st) (Some (k_with_stacks k (k_stacks k)))).
  { exists st. split; [reflexivity|]. now destruct k. }
  destruct (k_stacks k) as [|[|r t] rest] eqn:Ek; cbn [obind check_close' option_map agree]; auto; try discriminate.
  unfold closes'. destruct (r_tag r =? TAG_UNKNOWN)%N.
  - destruct (r_tagname r) as [e|]; cbn [option_map agree]; auto. destruct (str_eqb e name); cbn [option_map agree]; auto.
  - destruct (is_star name).
    + destruct (r_tag r =? TAG_ANY)%N; cbn [option_map agree]; auto.
    + destruct ((gumbo_tag_enum (c_str name) =? TAG_UNKNOWN)%N || negb (gumbo_tag_enum (c_str name) =? r_tag r)%N);
        cbn [negb option_map agree]; auto.
Qed.
Lemma agree_set_open p st k name : sim p st k -> agree p (set_open_tag_or_throw st name)
  (match k_stacks k with [] => None | [] :: _ => Some k | _ => k_update k (set_open' name) end).
Proof.
  intros H. unfold set_open_tag_or_throw, top_stack. assert (Es : ps_stacks st = k_stacks k) by apply H. rewrite Es.
  destruct (k_stacks k) as [|[|r t] rest] eqn:Ek; cbn [obind agree]; try discriminate.
  - eauto.
  - unfold set_open'. cbv zeta. destruct (is_star name) eqn:Ei; (destruct (agree_update p st k (set_open' name) H) as [st' [E1 E2]] || idtac).
    + apply agree_update; auto.
    + apply agree_update; auto.
Qed.

Lemma agree_action a p st k : sim p st k -> agree p (run_action E input a st) (kaction a k).
Proof.
  intros H. destruct (N.ltb_spec a 89) as [Ha|Ha].
  - apply (below_spec 89) in Ha. cbn in Ha.
    repeat (destruct Ha as [<-|Ha]; [cbn [run_action kaction];
      first
      [ now apply agree_start
      | now apply agree_token
      | now apply agree_stop
      | now apply agree_update
      | now apply agree_pop_rule | now apply agree_push_rule | now apply agree_push_nested | now apply agree_pop_nested
      | match goal with |- agree _ _ (k_pvs _ ?f) => exact (agree_pvs p st k f _ H eq_refl) end
      | match goal with |- agree _ _ (k_number _ ?f) => exact (agree_number p st k f H) end
      | match goal with |- agree _ _ (k_need _ ?f) => exact (agree_need p st k f H) end
      | match goal with |- agree _ _ (k_rule _ ?f ?g) => exact (agree_rule p st k f g H) end
      | idtac ]|]); [..|destruct Ha].
    + (* 88 *) cbn [agree]. auto.
    + (* 85 *) apply (agree_bind p _ _ _ _ (agree_stop p st k H)). intros st1 k1 H1.
      assert (ps_tok st1 = k_tok k1) as -> by apply H1. apply agree_bind; [now apply agree_validate|]. intros st2 k2 H2.
      now apply agree_pop_rule.
    + (* 80 *) apply (agree_bind p _ _ _ _ (agree_stop p st k H)). intros st1 k1 H1.
      assert (ps_tok st1 = k_tok k1) as -> by apply H1. now apply agree_set_open.
    + (* 46 *) assert (ps_pv st = k_pv k) as -> by apply H. destruct (pv_negate (k_pv k)) as [l|]; [|discriminate].
      apply (agree_pvs p st k (fun v => set_trait (set_negate v (Some (l ++ [pv_trait v]))) None)); [exact H|apply H].
    + (* 27 *) assert (ps_pv st = k_pv k) as -> by apply H. assert (ps_tok st = k_tok k) as -> by apply H.
      destruct (eng_compile E _).
      * cbn [agree]. intros st'. destruct (ps_tok_begin st); [apply no_regex|discriminate].
      * apply (agree_pvs p st k (fun v => set_regex v _)); [exact H|apply H].
  - assert (HA : run_action E input a st = Ok st).
    { destruct a as [|a]; [lia|]. do 7 (destruct a; try (exfalso; lia); try reflexivity). }
    assert (HK : kaction a k = Some k).
    { destruct a as [|a]; [lia|]. do 7 (destruct a; try (exfalso; lia); try reflexivity). }
    rewrite HA, HK. cbn. eauto.
Qed.

Lemma agree_actions l : forall p st k w, sim p st k ->
  agree p (run_actions E input l st) (crun (map IAct l) k) /\ crun (map IAct l ++ w) k = obind' (crun (map IAct l) k) (crun w).
Proof.
  intros p st k w H. split; [|apply crun_app]. revert st k H. induction l as [|a l IH]; intros st k H; cbn [run_actions map crun].
  - cbn. eauto.
  - apply agree_bind; [now apply agree_action|exact IH].
Qed.

Lemma agree_chr p st k c : sim p st k -> nth_error input p = Some c -> sim (S p) (with_p st (S (ps_p st))) (k_chr c k).
Proof.
  intros [H1 [H2 [H3 [H4 H5]]]] Hc. unfold sim, with_p, k_chr. cbn. repeat split; auto.
  destruct (ps_tok_begin st) as [b|], (k_cur k) as [x|]; cbn [option_map]; try contradiction; auto. destruct H5 as [H5 ->].
  split; [lia|]. symmetry. now apply slice_next.
Qed.

Lemma agree_exec rest : forall u cs st k tr q l, input = u ++ rest -> sim (length u) st k -> walk cs rest = Some (tr, q) ->
  machine_eof q = Ok l -> forallb is_eof_action l = true ->
  agree (length input) (exec E input rest cs st) (crun (weave tr rest ++ map IAct l) k).
Proof.
  induction rest as [|c rest IH]; intros u cs st k tr q l Ei H Hw He Hl; cbn [walk] in Hw.
  - injection Hw as <- <-. cbn [exec weave app]. rewrite He. cbn [obind]. rewrite eof_actions_same by exact Hl.
    rewrite app_nil_r in Ei. subst u. now apply (agree_actions l (length input) st k [] H).
  - destruct (machine_step cs c) as [[cs' acts]| | |] eqn:Em; try discriminate.
    destruct (cs' =? hext_error)%N eqn:Ee; [discriminate|]. destruct (walk cs' rest) as [[tr' q']|] eqn:Ew; [|discriminate].
    injection Hw as <- <-. cbn [exec weave]. rewrite Em. cbn [obind]. rewrite <- app_assoc.
    destruct (agree_actions acts (length u) st k ((IChr c :: weave tr' rest) ++ map IAct l) H) as [H1 ->].
    destruct (crun (map IAct acts) k) as [k1|]; cbn [agree obind'] in H1 |- *.
    + destruct H1 as [st1 [-> H1]]. cbn [obind]. rewrite Ee. cbn [app crun].
      assert (Hc : nth_error input (length u) = Some c) by (rewrite Ei, nth_error_app2, Nat.sub_diag by lia; reflexivity).
      apply (IH (u ++ [c]) cs' (with_p st1 (S (ps_p st1))) (k_chr c k1) tr' q' l); auto.
      * now rewrite Ei, <- app_assoc.
      * rewrite app_length, Nat.add_comm. cbn [length Nat.add]. now apply agree_chr.
    + intros st'. destruct (run_actions E input acts st) as [st1| | |]; try discriminate. now specialize (H1 st1).
Qed.

End Actions.

(** ** Parsing and words *)

Lemma eof_actions x tr q l : walk hext_start x = Some (tr, q) -> machine_eof q = Ok l -> l = [88%N] \/ forallb is_eof_action l = true.
Proof.
  intros Hw Ee. pose proof (walk_state lG cG acts_union check_G x _ _ _ start_state Hw) as Hq. pose proof (checked_state q Hq) as HS.
  unfold safe_state in HS. apply andb_true_iff in HS as [_ HS]. rewrite Ee in HS. apply orb_true_iff in HS as [HS|HS].
  - apply andb_true_iff in HS as [HS _]. apply thread_eqb_eq in HS. auto.
  - apply andb_true_iff in HS as [HS _]. auto.
Qed.

Definition k_initial : kst := mk_k [[]; []] pv_initial None [].

(** What finish makes of the stacks. *)
Definition finish' (sk : list (list rule)) : option rule :=
  match sk with
  | [] => Some (rule_of_tag TAG_ANY false false)
  | _ =>
      if Nat.ltb 2 (length sk) then None
      else match pop_empty sk with
           | [] => Some (rule_of_tag TAG_ANY false false)
           | [r] :: [] => Some r
           | _ => None
           end
  end.

Lemma finish_same input st r : finish input st = Ok r <-> finish' (ps_stacks st) = Some r.
Proof.
  unfold finish, finish'. destruct (ps_stacks st) as [|t rest].
  - split; intros H; injection H as <-; reflexivity.
  - destruct (Nat.ltb 2 (length (t :: rest))).
    + split; [|discriminate]. intros H. exfalso. revert H. unfold throw_error_message. destruct (p_minus_1 st); discriminate.
    + destruct (pop_empty (t :: rest)) as [|[|r' [|r'' t']] [|rest0 rest']]; cbn; try (split; [intros H; now injection H as <-|intros H; now injection H as <-]);
        split; discriminate.
Qed.

Theorem parse_word E x r : ParseHext E x = Ok r <->
  exists w k, L G_exact w /\ chars w = x /\ crun E w k_initial = Some k /\ finish' (k_stacks k) = Some r.
Proof.
  set (st0 := mk_ps [[]; []] 0 None [] pv_initial).
  assert (H0 : sim x 0 st0 k_initial) by (unfold sim; cbn; auto).
  assert (HW : forall tr q l, walk hext_start x = Some (tr, q) -> machine_eof q = Ok l -> forallb is_eof_action l = true ->
    (ParseHext E x = Ok r <-> exists k, crun E (weave tr x ++ map IAct l) k_initial = Some k /\ finish' (k_stacks k) = Some r)).
  { intros tr q l Hw He Hl. pose proof (agree_exec E x x [] hext_start st0 k_initial tr q l eq_refl H0 Hw He Hl) as HA.
    unfold ParseHext, parse. fold st0. destruct (crun E (weave tr x ++ map IAct l) k_initial) as [k|]; cbn [agree] in HA.
    - destruct HA as [st [-> HS]]. cbn [obind]. rewrite finish_same. assert (ps_stacks st = k_stacks k) as -> by apply HS.
      split; [eauto|]. now intros [k' [[= <-] H]].
    - split; [|now intros [k [X _]]]. intros H. exfalso. destruct (exec E x x hext_start st0) as [st| | |]; try discriminate. now apply (HA st). }
  split.
  - intros H. pose proof (parsed_text E x r H) as HG.
    assert (HP : prefix_of G x). { exists []. now rewrite app_nil_r. }
    apply G_consumed in HP as [tr [q Hw]]. destruct (G_end x tr q Hw) as [HE _]. destruct (HE HG) as [acts [He [_ Hin]]].
    assert (H88 : acts <> [88%N]). { intros ->. apply (no_error_action x). apply Hin. now left. }
    destruct (eof_actions x tr q acts Hw He) as [|Hl]; [contradiction|].
    destruct (X_text x tr q acts Hw He) as [|HX]; [contradiction|].
    apply (HW tr q acts Hw He Hl) in H as [k [H1 H2]]. exists (weave tr x ++ map IAct acts), k. split; [exact HX|]. split; [|auto].
    rewrite chars_app, chars_acts, app_nil_r. apply chars_weave. clear -Hw. revert Hw. generalize hext_start. revert tr.
    induction x as [|c x IH]; intros tr cs H; cbn [walk] in H; [injection H as <- _; reflexivity|].
    destruct (machine_step cs c) as [[cs' a]| | |]; try discriminate. destruct (cs' =? hext_error)%N; [discriminate|].
    destruct (walk cs' x) as [[tr' q']|] eqn:Ew; [|discriminate]. injection H as <- <-. cbn. f_equal. eapply IH. exact Ew.
  - intros [w [k [HL [Hc [H1 H2]]]]]. destruct (X_run w HL) as [tr [q [l [Hw [He Ew]]]]]. rewrite Hc in *.
    destruct (eof_actions x tr q l Hw He) as [->|Hl].
    + exfalso. rewrite Ew, crun_app in H1. destruct (crun E (weave tr x) k_initial); discriminate.
    + apply (HW tr q l Hw He Hl). rewrite <- Ew. eauto.
Qed.
