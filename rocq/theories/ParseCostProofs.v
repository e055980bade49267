(** Proofs about ParseCost.v. *)

From Coq Require Import Ascii String NArith ZArith Bool List Lia.
From Verif Require Import Base StringUtil Tags Dom NodeUtil Values Match Rule RuleProofs Arrays ParserTables Parser CostSpec ParseCost.
Import ListNotations.

(** ** The counting parser is the parser *)

Lemma append_next_same r x : fst (append_next_c r x) = append_next r x.
Proof.
  revert r. fix IH 1. intros [c [n|] l ms cs t o g name]; [|reflexivity].
  cbn [append_next_c append_next]. specialize (IH n). destruct (append_next_c n x). cbn [fst] in *. now rewrite IH.
Qed.
Lemma append_child_same r x : fst (append_child_c r x) = append_child r x.
Proof.
  destruct r as [[c|] n l ms cs t o g name]; [|reflexivity]. cbn [append_child_c append_child].
  pose proof (append_next_same c x) as H. destruct (append_next_c c x). cbn [fst] in *. now rewrite H.
Qed.
Lemma pipe_append_same q : forall p, fst (pipe_append_c p q) = pipe_append p q.
Proof.
  fix IH 1. intros [t [p|]]; [|reflexivity]. cbn [pipe_append_c pipe_append].
  specialize (IH p). destruct (pipe_append_c p q). cbn [fst] in *. now rewrite IH.
Qed.
Lemma add_pipe_same v t : fst (add_pipe_c v t) = add_pipe v t.
Proof.
  unfold add_pipe_c, add_pipe. destruct (pv_pipe v) as [p|]; [|reflexivity].
  pose proof (pipe_append_same (Some (Pipe t None)) p) as H. destruct (pipe_append_c p (Some (Pipe t None))).
  cbn [fst] in *. now rewrite H.
Qed.

Section Same.
Variable E : engine.
Variable input : str.

Lemma pipe_action_same st t : fst (pipe_action_c st t) = pipe_action st t.
Proof.
  unfold pipe_action_c, pipe_action. pose proof (add_pipe_same (ps_pv st) t) as H.
  destruct (add_pipe_c (ps_pv st) t). cbn [fst] in *. now rewrite H.
Qed.
Lemma pop_rule_same st : fst (pop_rule_c input st) = pop_rule input st.
Proof.
  unfold pop_rule_c. destruct (ps_stacks st) as [|[|r [|parent t]] rest] eqn:Es; try reflexivity.
  - destruct rest as [|[|top t] rest]; try reflexivity. unfold pop_rule. rewrite Es.
    pose proof (append_next_same top r) as H. destruct (append_next_c top r). cbn [fst] in *. now rewrite H.
  - unfold pop_rule. rewrite Es.
    pose proof (append_child_same parent r) as H. destruct (append_child_c parent r). cbn [fst] in *. now rewrite H.
Qed.
Lemma then_same {A} (m : outcome A) f g : (forall x, fst (f x) = g x) -> fst (then_c m f) = obind m g.
Proof. intros H. destruct m; cbn [then_c obind fst]; auto. Qed.

Ltac numbers a := do 7 (try destruct a as [a|a|]); try reflexivity.

Lemma run_action_same a st : fst (run_action_c E input a st) = run_action E input a st.
Proof.
  destruct a as [|a]; [reflexivity|].
  numbers a; cbn [run_action_c run_action];
    try apply pipe_action_same; try apply pop_rule_same;
    try (apply then_same; intros; apply pipe_action_same).
  rewrite (then_same _ _ (pop_rule input)) by (intros; apply pop_rule_same).
  destruct (tk_stop input st); reflexivity.
Qed.
Lemma run_eof_action_same a st : fst (run_eof_action_c E input a st) = run_eof_action E input a st.
Proof.
  destruct a as [|a]; [reflexivity|]. numbers a; apply run_action_same.
Qed.
Lemma also_same m f m' g : fst m = m' -> (forall x, fst (f x) = g x) -> fst (also m f) = obind m' g.
Proof.
  intros <- H. destruct m as [[st|e|u|] k]; try reflexivity. cbn [also fst obind].
  specialize (H st). destruct (f st). exact H.
Qed.
Lemma run_actions_same l : forall st, fst (run_actions_c (run_action_c E input) l st) = run_actions E input l st.
Proof.
  induction l as [|a l IH]; intros st; [reflexivity|]. cbn [run_actions_c run_actions].
  apply also_same; [apply run_action_same|exact IH].
Qed.
Lemma run_eof_actions_same l : forall st, fst (run_actions_c (run_eof_action_c E input) l st) = run_eof_actions E input l st.
Proof.
  induction l as [|a l IH]; intros st; [reflexivity|]. cbn [run_actions_c run_eof_actions].
  apply also_same; [apply run_eof_action_same|exact IH].
Qed.
Lemma exec_same rest : forall cs st, fst (exec_c E input rest cs st) = exec E input rest cs st.
Proof.
  induction rest as [|c rest IH]; intros cs st; cbn [exec_c exec].
  - apply then_same. intros l. apply run_eof_actions_same.
  - apply then_same. intros [cs' acts]. apply also_same; [apply run_actions_same|]. intros st1.
    destruct (cs' =? hext_error)%N; [reflexivity|apply IH].
Qed.
End Same.

Lemma parse_same E x : fst (parse_counted E x) = ParseHext E x.
Proof.
  unfold parse_counted, parse_c, ParseHext, parse.
  pose proof (exec_same E x x hext_start (mk_ps [[]; []] 0 None [] pv_initial)) as H.
  destruct (exec_c E x x hext_start (mk_ps [[]; []] 0 None [] pv_initial)) as [o k]. cbn [fst] in *. now rewrite <- H.
Qed.

(** ** At most as many pointers as there are rules and pipes *)

Fixpoint pipe_count (p : pipe) : nat := let 'Pipe _ n := p in S (match n with Some q => pipe_count q | None => 0 end).
Definition pv_weight (v : pvals) : nat := match pv_pipe v with Some p => pipe_count p | None => 0 end.
Definition stacks_weight (l : list (list rule)) : nat := sum (map (fun t => sum (map rule_count t)) l).
Definition weight (st : pstate) : nat := stacks_weight (ps_stacks st) + pv_weight (ps_pv st).

Lemma next_walk x r : snd (append_next_c r x) < rule_count r /\
  rule_count (append_next r x) = rule_count r + rule_count x.
Proof.
  revert r. fix IH 1. intros [c [n|] l ms cs t o g name]; cbn [append_next_c append_next rule_count].
  - specialize (IH n). destruct (append_next_c n x). cbn [snd] in *. lia.
  - cbn [snd]. lia.
Qed.
Lemma child_walk x r : snd (append_child_c r x) < rule_count r /\
  rule_count (append_child r x) = rule_count r + rule_count x.
Proof.
  destruct r as [[c|] n l ms cs t o g name]; cbn [append_child_c append_child rule_count].
  - pose proof (next_walk x c). destruct (append_next_c c x). cbn [snd] in *. lia.
  - cbn [snd]. lia.
Qed.
Lemma pipe_walk q : forall p, snd (pipe_append_c p (Some (Pipe q None))) < pipe_count p /\
  pipe_count (pipe_append p (Some (Pipe q None))) = S (pipe_count p).
Proof.
  fix IH 1. intros [t [p|]]; cbn [pipe_append_c pipe_append pipe_count].
  - specialize (IH p). destruct (pipe_append_c p (Some (Pipe q None))). cbn [snd] in *. lia.
  - cbn [snd]. lia.
Qed.
Lemma sum_app a b : sum (a ++ b) = sum a + sum b.
Proof. unfold sum. induction a; cbn in *; lia. Qed.
Lemma nested_count r x : rule_count (append_nested r x) = rule_count r + rule_count x.
Proof.
  destruct r as [c n l ms cs t o g name]. cbn [append_nested rule_count]. rewrite map_app, sum_app. cbn. lia.
Qed.

(** The actions that append to a list, or make something that may be appended. *)
Definition busy (a : N) : bool := ((50 <=? a) && (a <=? 58) || (a =? 76) || (a =? 83) || (a =? 85))%N.

(** What one action costs, and what it makes. *)
Definition modest (b : bool) (st : pstate) (m : counted) : Prop :=
  snd m <= (if b then weight st else 0) /\
  forall st', fst m = Ok st' -> weight st' <= weight st + (if b then 1 else 0).

Section Weights.
Variable E : engine.
Variable input : str.

Lemma weight_update st f st' : (forall r, rule_count (f r) = rule_count r) -> update_cur_rule st f = Ok st' ->
  stacks_weight (ps_stacks st') = stacks_weight (ps_stacks st) /\ ps_pv st' = ps_pv st.
Proof.
  unfold update_cur_rule. intros Hf. destruct (ps_stacks st) as [|[|r t] rest]; try discriminate.
  intros H. injection H as <-. unfold stacks_weight. cbn. now rewrite Hf.
Qed.
Lemma count_set_tag r t : rule_count (set_tag r t) = rule_count r. Proof. now destruct r. Qed.
Lemma count_set_tagname r t : rule_count (set_tagname r t) = rule_count r. Proof. now destruct r. Qed.
Lemma count_set_optional r t : rule_count (set_optional r t) = rule_count r. Proof. now destruct r. Qed.
Lemma count_set_greedy r t : rule_count (set_greedy r t) = rule_count r. Proof. now destruct r. Qed.
Lemma count_append_match r t : rule_count (append_match r t) = rule_count r. Proof. now destruct r. Qed.
Lemma count_append_capture r t : rule_count (append_capture r t) = rule_count r. Proof. now destruct r. Qed.

Lemma weight_stop st st' : tk_stop input st = Ok st' -> weight st' = weight st.
Proof.
  unfold tk_stop. destruct (ps_tok_begin st); [|discriminate]. destruct (Nat.leb n (ps_p st)); [|discriminate].
  intros H. injection H as <-. reflexivity.
Qed.
Lemma never {A B} (m : outcome A) (e : A -> exn) (x : B) : obind m (fun a => Throw (e a)) <> Ok x.
Proof. destruct m; discriminate. Qed.
Lemma unexpected_tag_never {A} st name a b (x : A) : throw_unexpected_tag input st name a b <> Ok x.
Proof. unfold throw_unexpected_tag. apply never. Qed.
Lemma error_message_never {A} st m (x : A) : throw_error_message input st m <> Ok x.
Proof. unfold throw_error_message. apply never. Qed.
Lemma unexpected_never {A} st (x : A) : throw_unexpected input st <> Ok x.
Proof. unfold throw_unexpected. repeat first [apply never | discriminate | match goal with |- context [match ?y with _ => _ end] => destruct y; cbn [obind] end]. Qed.
Lemma regex_error_never {A} st n m (x : A) : throw_regex_error input st n m <> Ok x.
Proof. unfold throw_regex_error. apply never. Qed.

Lemma weight_close st name st' : validate_close_tag_or_throw input st name = Ok st' -> st' = st.
Proof.
  unfold validate_close_tag_or_throw, top_stack. destruct (ps_stacks st) as [|[|r t] rest]; cbn [obind]; cbv zeta; intros H;
  repeat (match type of H with
          | throw_unexpected_tag _ _ _ _ _ = Ok _ => destruct (unexpected_tag_never _ _ _ _ _ H)
          | UB _ = _ => discriminate H
          | Ok _ = Ok _ => injection H as H; symmetry; exact H
          | (if ?x then _ else _) = _ => destruct x
          | match ?x with _ => _ end = _ => destruct x
          end).
Qed.
Lemma weight_open st name st' : set_open_tag_or_throw st name = Ok st' -> weight st' = weight st.
Proof.
  unfold set_open_tag_or_throw, top_stack, weight. destruct (ps_stacks st) as [|[|r t] rest] eqn:Es; cbn [obind]; try discriminate.
  - intros H. injection H as <-. now rewrite Es.
  - cbv zeta. destruct (is_star name); intros H.
    + destruct (weight_update _ _ _ (fun x => count_set_tag x TAG_ANY) H) as [H1 H2]. now rewrite H1, H2, Es.
    + apply weight_update in H as [H1 H2]; [now rewrite H1, H2, Es|].
      intros x. destruct (gumbo_tag_enum (c_str name) =? TAG_UNKNOWN)%N;
        [rewrite count_set_tagname|]; apply count_set_tag.
Qed.

Lemma pipe_modest st t : modest true st (pipe_action_c st t).
Proof.
  unfold modest. pose proof (pipe_action_same st t) as Hs. unfold pipe_action in Hs.
  split.
  - unfold pipe_action_c, add_pipe_c, weight, pv_weight. destruct (pv_pipe (ps_pv st)) as [p|]; [|cbn; lia].
    pose proof (pipe_walk t p) as H. destruct (pipe_append_c p (Some (Pipe t None))). cbn [snd] in *. lia.
  - rewrite Hs. intros st' H. injection H as <-. unfold weight, pv_weight. cbn [ps_stacks ps_pv with_pv].
    unfold add_pipe. destruct (ps_pv st) as [nt b a l c p r te tr n fi fc o] eqn:Ev. cbn [set_pipe pv_pipe].
    destruct p as [p|]; [|cbn [pipe_count]; lia]. destruct (pipe_walk t p) as [_ H]. rewrite H. lia.
Qed.

Lemma pop_modest st : modest true st (pop_rule_c input st).
Proof.
  unfold modest. pose proof (pop_rule_same input st) as Hs. split.
  - unfold pop_rule_c, weight. destruct (ps_stacks st) as [|[|r [|parent t]] rest]; try (cbn [snd]; lia).
    + destruct rest as [|[|top t] rest]; try (cbn [snd]; lia).
      pose proof (next_walk r top) as H. destruct (append_next_c top r). unfold stacks_weight. cbn [snd map] in *. unfold sum in *. cbn [fold_right] in *. lia.
    + pose proof (child_walk r parent) as H. destruct (append_child_c parent r). unfold stacks_weight. cbn [snd map] in *. unfold sum in *. cbn [fold_right] in *. lia.
  - rewrite Hs. intros st'. unfold pop_rule, weight. destruct (ps_stacks st) as [|[|r [|parent t]] rest];
      try (intros H; destruct (unexpected_never _ _ H)).
    + destruct rest as [|[|top t] rest]; intros H; [destruct (unexpected_never _ _ H)| |];
        injection H as <-; unfold stacks_weight; cbn [ps_stacks ps_pv with_stacks map]; unfold sum; cbn [fold_right];
        [lia|]. destruct (next_walk r top) as [_ H]. rewrite H. lia.
    + intros H. injection H as <-. unfold stacks_weight; cbn [ps_stacks ps_pv with_stacks map]; unfold sum; cbn [fold_right].
      destruct (child_walk r parent) as [_ H]. rewrite H. lia.
Qed.

Lemma quiet_modest st o : (forall st', o = Ok st' -> weight st' <= weight st) -> modest false st (o, 0).
Proof. intros H. split; [reflexivity|]. cbn [fst]. intros st' Ho. specialize (H _ Ho). lia. Qed.

Lemma push_modest st : modest true st (push_rule st, 0).
Proof.
  split; [cbn; lia|]. cbn [fst]. unfold push_rule, weight. destruct (ps_stacks st) as [|t rest]; [discriminate|].
  intros st' H. injection H as <-. unfold stacks_weight; cbn [ps_stacks ps_pv with_stacks map]; unfold sum; cbn [fold_right]. cbn. lia.
Qed.
Lemma then_modest {A} b st (m : outcome A) f : (forall x, m = Ok x -> modest b st (f x)) -> modest b st (then_c m f).
Proof.
  intros H. destruct m; cbn [then_c]; auto; (split; [cbn [snd]; lia|discriminate]).
Qed.
Lemma update_quiet st f v st' : (forall r, rule_count (f r) = rule_count r) -> pv_weight v <= pv_weight (ps_pv st) ->
  obind (update_cur_rule st f) (fun st1 => Ok (with_pv st1 v)) = Ok st' -> weight st' <= weight st.
Proof.
  intros Hf Hg. destruct (update_cur_rule st f) as [st1| | |] eqn:E1; try discriminate. cbn [obind].
  intros H. injection H as <-. apply (weight_update _ _ _ Hf) in E1 as [H1 _]. unfold weight. cbn [ps_stacks ps_pv with_pv].
  rewrite H1. lia.
Qed.
Lemma update_plain st f st' : (forall r, rule_count (f r) = rule_count r) ->
  update_cur_rule st f = Ok st' -> weight st' <= weight st.
Proof. intros Hf H. apply (weight_update _ _ _ Hf) in H as [H1 H2]. unfold weight. rewrite H1, H2. lia. Qed.
Lemma nested_weight st st' : pop_nested input st = Ok st' -> weight st' <= weight st.
Proof.
  unfold pop_nested, weight. destruct (ps_stacks st) as [|[|x y] s1]; intros H; try (destruct (unexpected_never _ _ H)); try (destruct (error_message_never _ _ _ H)).
  destruct s1 as [|[|n [|z w]] s2]; try (destruct (unexpected_never _ _ H)); try (destruct (error_message_never _ _ _ H)).
  destruct s2 as [|[|r t] s3]; try (destruct (error_message_never _ _ _ H)).
  injection H as <-. unfold stacks_weight; cbn [ps_stacks ps_pv with_stacks map]; unfold sum; cbn [fold_right].
  rewrite nested_count. unfold sum. lia.
Qed.
Lemma push_nested_weight st st' : push_nested input st = Ok st' -> weight st' <= weight st.
Proof.
  unfold push_nested, top_stack, weight. destruct (ps_stacks st) as [|[|x y] s1]; cbn [obind]; intros H; try discriminate; try (destruct (error_message_never _ _ _ H)).
  injection H as <-. unfold stacks_weight; cbn [ps_stacks ps_pv with_stacks map]; unfold sum; cbn [fold_right]. lia.
Qed.
Lemma weight_pv st v : pv_weight v <= pv_weight (ps_pv st) -> weight (with_pv st v) <= weight st.
Proof. unfold weight. cbn [ps_stacks ps_pv with_pv]. lia. Qed.
Lemma token_weight st f st' : (forall v x, pv_weight (f v x) = pv_weight v) -> token input st f = Ok st' -> weight st' <= weight st.
Proof.
  intros Hf. unfold token. destruct (tk_stop input st) as [st1| | |] eqn:E1; try discriminate. cbn [obind].
  intros H. injection H as <-. rewrite <- (weight_stop _ _ E1). apply weight_pv. rewrite Hf. lia.
Qed.
Ltac counts := repeat match goal with |- context [if ?x then _ else _] => destruct x end;
  rewrite ?count_append_match, ?count_append_capture, ?count_set_optional, ?count_set_greedy; reflexivity.

Lemma action_modest a st : modest (busy a) st (run_action_c E input a st).
Proof.
  destruct a as [|a]; [apply quiet_modest; intros st' H; injection H as <-; apply weight_pv; destruct (ps_pv st); reflexivity|].
  do 7 (try destruct a as [a|a|]);
    try (match goal with |- modest ?b _ ?m => let b' := eval vm_compute in b in change b with b' end);
    try apply pipe_modest; try apply pop_modest; try apply push_modest;
    try (apply then_modest; intros; apply pipe_modest);
    try (apply quiet_modest; intros st' H; cbn [run_action] in H; unfold nth_trait, test_action in H;
         first [ injection H as <-; reflexivity
               | injection H as <-; apply weight_pv; destruct (ps_pv st); apply Nat.le_refl
               | refine (token_weight _ _ _ _ H); intros v0 x0; destruct v0; reflexivity
               | injection H as <-; apply weight_pv; apply Nat.le_0_l
               | rewrite (weight_stop _ _ H); reflexivity
               | refine (update_quiet _ _ _ _ _ _ H); [intros; counts|destruct (ps_pv st); try apply Nat.le_refl; apply Nat.le_0_l]
               | refine (update_plain _ _ _ _ H); intros; counts
               | destruct (need_regex st); try discriminate; cbn [obind] in H; injection H as <-; apply weight_pv; destruct (ps_pv st); apply Nat.le_refl
               | destruct (tk_stop input st) as [st1| | |] eqn:E1; try discriminate; cbn [obind] in H; rewrite <- (weight_stop _ _ E1);
                 first [ destruct (stoi (ps_tok st1)); try discriminate; cbn [obind] in H; injection H as <-; apply weight_pv; destruct (ps_pv st1); apply Nat.le_refl
                       | rewrite (weight_open _ _ _ H); reflexivity ]
               | exact (nested_weight _ _ H) | exact (push_nested_weight _ _ H)
               | destruct (unexpected_never _ _ H)
               | destruct (pv_negate (ps_pv st)); try discriminate; injection H as <-; apply weight_pv; destruct (ps_pv st); apply Nat.le_refl
               | destruct (eng_compile E (mk_regex (ps_tok st) (pv_icase (ps_pv st)) (pv_collate (ps_pv st))));
                 [destruct (ps_tok_begin st); [destruct (regex_error_never _ _ _ _ H)|discriminate]
                 |injection H as <-; apply weight_pv; destruct (ps_pv st); apply Nat.le_refl] ]).
  cbn [run_action_c]. apply then_modest. intros st2 H.
  destruct (tk_stop input st) as [st1| | |] eqn:E1; try discriminate. cbn [obind] in H.
  apply weight_close in H as ->. pose proof (pop_modest st1) as HP. unfold modest in *. now rewrite (weight_stop _ _ E1) in HP.
Qed.

Lemma eof_action_modest a st : modest (busy a) st (run_eof_action_c E input a st).
Proof.
  assert (HQ : modest (busy a) st (Ok st, 0)).
  { split; cbn [snd fst]; [destruct (busy a); lia|]. intros st' H. injection H as <-. lia. }
  destruct a as [|a]; [exact HQ|]. do 7 (try destruct a as [a|a|]); try exact HQ; apply action_modest.
Qed.

Lemma actions_modest run l : (forall a st, modest (busy a) st (run a st)) -> length (filter busy l) <= 1 ->
  forall st, modest (Nat.ltb 0 (length (filter busy l))) st (run_actions_c run l st).
Proof.
  intros Hrun. induction l as [|a l IH]; intros Hl st.
  - split; [cbn; lia|]. cbn. intros st' H. injection H as <-. lia.
  - cbn [run_actions_c]. destruct (Hrun a st) as [H1 H2]. cbn [filter] in *. unfold modest in *.
    destruct (run a st) as [o k]. cbn [fst snd] in *. destruct (busy a).
    + cbn [length] in *. specialize (IH ltac:(lia)). destruct (length (filter busy l)) eqn:El; [|lia].
      cbn [Nat.ltb Nat.leb] in *. destruct o as [st1| | |]; cbn [also]; try (split; [cbn [snd]; lia|discriminate]).
      destruct (IH st1) as [H3 H4]. specialize (H2 _ eq_refl). destruct (run_actions_c run l st1) as [o' k']. cbn [fst snd] in *.
      split; [lia|]. intros st' H. specialize (H4 _ H). lia.
    + specialize (IH Hl). destruct o as [st1| | |]; cbn [also]; try (split; [cbn [snd]; lia|discriminate]).
      destruct (IH st1) as [H3 H4]. specialize (H2 _ eq_refl). destruct (run_actions_c run l st1) as [o' k']. cbn [fst snd] in *.
      destruct (Nat.ltb 0 (length (filter busy l))); (split; [lia|]; intros st' H; specialize (H4 _ H); lia).
Qed.

(** ** The tables *)

Fixpoint trie_values (t : trie) : list N :=
  match t with
  | TLeaf => []
  | TNode l o r => (match o with Some v => [v] | None => [] end) ++ trie_values l ++ trie_values r
  end.
Lemma tget_in t : forall p v, tget t p = Some v -> In v (trie_values t).
Proof.
  induction t as [|l IHl o r IHr]; intros p v H; [discriminate|]. cbn [trie_values]. rewrite !in_app_iff.
  destruct p; cbn [tget] in H; [right; right; eauto|right; left; eauto|]. left. rewrite H. now left.
Qed.
Lemma aget_in t i v : aget t i = Ok v -> In v (trie_values t).
Proof.
  unfold aget. destruct (tget t (N.succ_pos i)) eqn:Et; [|discriminate]. intros H. injection H as <-. exact (tget_in _ _ _ Et).
Qed.
Definition light (a : N) : bool :=
  match action_list a with Ok l => Nat.leb (length (filter busy l)) 1 | _ => true end.
Lemma trans_light : forallb light (trie_values a_trans_actions) = true.
Proof. vm_compute. reflexivity. Qed.
Lemma eof_light : forallb light (trie_values a_eof_actions) = true.
Proof. vm_compute. reflexivity. Qed.
Lemma light_list t a l : forallb light (trie_values t) = true -> In a (trie_values t) -> action_list a = Ok l ->
  length (filter busy l) <= 1.
Proof.
  intros H Hin Hl. rewrite forallb_forall in H. specialize (H _ Hin). unfold light in H. rewrite Hl in H. now apply Nat.leb_le.
Qed.
Lemma step_light cs c cs' acts : machine_step cs c = Ok (cs', acts) -> length (filter busy acts) <= 1.
Proof.
  unfold machine_step. destruct (find_trans cs (char_to_int c)) as [tr| | |]; try discriminate. cbn [obind].
  destruct (aget a_indicies tr) as [t| | |]; try discriminate. cbn [obind].
  destruct (aget a_trans_targs t) as [cs1| | |]; try discriminate. cbn [obind].
  destruct (aget a_trans_actions t) as [a| | |] eqn:Ea; try discriminate. cbn [obind].
  destruct (a =? 0)%N; [intros H; injection H as <- <-; cbn; lia|].
  destruct (action_list a) as [l| | |] eqn:El; try discriminate. cbn [obind]. intros H. injection H as <- <-.
  exact (light_list _ _ _ trans_light (aget_in _ _ _ Ea) El).
Qed.
Lemma eof_list_light cs acts : machine_eof cs = Ok acts -> length (filter busy acts) <= 1.
Proof.
  unfold machine_eof. destruct (aget a_eof_actions cs) as [a| | |] eqn:Ea; try discriminate. cbn [obind].
  exact (light_list _ _ _ eof_light (aget_in _ _ _ Ea)).
Qed.

(** ** The whole text *)

Lemma exec_walk rest : forall cs st,
  2 * snd (exec_c E input rest cs st) <= (length rest + 1) * (2 * weight st + length rest).
Proof.
  induction rest as [|c rest IH]; intros cs st; cbn [exec_c].
  - destruct (machine_eof cs) as [acts| | |] eqn:Em; cbn [then_c snd]; try lia.
    destruct (actions_modest _ acts eof_action_modest (eof_list_light _ _ Em) st) as [H _].
    destruct (Nat.ltb 0 (length (filter busy acts))); cbn [length]; lia.
  - destruct (machine_step cs c) as [[cs' acts]| | |] eqn:Em; cbn [then_c snd]; try lia.
    destruct (actions_modest _ acts action_modest (step_light _ _ _ _ Em) st) as [H1 H2].
    destruct (run_actions_c (run_action_c E input) acts st) as [o k]. cbn [fst snd] in *.
    assert (Hk : k <= weight st) by (destruct (Nat.ltb 0 (length (filter busy acts))); lia).
    destruct o as [st1| | |]; cbn [also snd length]; try nia.
    specialize (H2 _ eq_refl).
    assert (Hw : weight st1 <= weight st + 1) by (destruct (Nat.ltb 0 (length (filter busy acts))); lia).
    destruct (cs' =? hext_error)%N; [cbn [snd]; nia|].
    specialize (IH cs' (with_p st1 (S (ps_p st1)))). change (weight (with_p st1 (S (ps_p st1)))) with (weight st1) in IH.
    destruct (exec_c E input rest cs' (with_p st1 (S (ps_p st1)))) as [o' k']. cbn [snd] in *. nia.
Qed.
End Weights.

Lemma parse_walk E x : 2 * snd (parse_counted E x) <= (length x + 1) * length x.
Proof.
  unfold parse_counted, parse_c. pose proof (exec_walk E x x hext_start (mk_ps [[]; []] 0 None [] pv_initial)) as H.
  destruct (exec_c E x x hext_start (mk_ps [[]; []] 0 None [] pv_initial)) as [o k]. exact H.
Qed.
