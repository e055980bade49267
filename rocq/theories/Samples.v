(** Concrete documents, rules and a regex engine for the examples beside the
    theorems. *)

From Coq Require Import Ascii String NArith ZArith Bool List Lia.
From Verif Require Import Base StringUtil Tags Dom NodeUtil Values Match Rule RuleMatching RuleProofs ExtractSpec ExtractProofs ExtractMain.
Import ListNotations.

(** A regex engine: the source is searched literally. *)
Definition sample_engine : engine :=
  mk_engine (fun _ => None)
            (fun rx x => Some (match str_find x (rx_source rx) 0 with Some _ => Some (rx_source rx, []) | None => None end))
            (fun _ x _ => Some x).

Lemma sample_engine_total : engine_total sample_engine.
Proof. split; intros; discriminate. Qed.

Definition el (t : tag) (cs : list node) : node := NElement t (Some []) [] cs.
Definition el_id (t : tag) (id : str) (cs : list node) : node := NElement t (Some []) [mk_attr NsNone (s "id") (Some id)] cs.

(** A document whose body has the given children. *)
Definition page (cs : list node) : node :=
  NDocument true (s "html") [] [] [el TAG_HTML [el TAG_HEAD []; el TAG_BODY cs]].
(** The path of the body. *)
Definition body : npath := [1; 0].

(** <tag id:name/> and its siblings *)
Definition cap (t : tag) (optional greedy : bool) (name : str) (next : option rule) : rule :=
  mk_rule None next [] [] [Some (AttributeCapture (s "id") name None)] t optional greedy None.
Definition plain (t : tag) (optional greedy : bool) (next : option rule) : rule :=
  mk_rule None next [] [] [] t optional greedy None.

(** <ul><li id:item/><?p/></ul> { <b/> } with a sibling <div/> *)
Definition list_rule : rule :=
  mk_rule (Some (cap TAG_LI false false (s "item") (Some (plain TAG_P true false None))))
          (Some (plain TAG_DIV false false None))
          [plain TAG_B false false None]
          [Some (NthChildMatch 2 1 (mk_nth_option true false));
           Some (NegateMatch [Some (AttributeMatch (s "class") (Some (ContainsTest (s "x"))))])]
          [Some (FunctionCapture (Some TextBuiltin) (s "text") None)]
          TAG_UL false false None.

(** <ul><li id=1>one</li><p/><li id=2><b/></li></ul><div/> *)
Definition list_page : node :=
  page [el TAG_UL [el_id TAG_LI (s "1") [NText (s "one")]; el TAG_P []; el_id TAG_LI (s "2") [el TAG_B []]]; el TAG_DIV []].

(** All rules of a tree. *)
Fixpoint all_rules (r : rule) : list rule :=
  let 'mk_rule c n l _ _ _ _ _ _ := r in
  r :: (match c with Some c' => all_rules c' | None => [] end)
    ++ (match n with Some n' => all_rules n' | None => [] end)
    ++ flat_map all_rules l.

Lemma all_rules_self r : In r (all_rules r).
Proof. destruct r. now left. Qed.

Lemma all_rules_step r st r' : rstep_get r st = Some r' -> incl (all_rules r') (all_rules r).
Proof.
  destruct r as [c n l ms cs t o g nm]. destruct st as [| |k]; intros H x Hx; cbn [all_rules]; right; apply in_or_app.
  - simpl in H. subst c. now left.
  - simpl in H. subst n. right. apply in_or_app. now left.
  - simpl in H. right. apply in_or_app. right. apply in_flat_map. exists r'. split; [|exact Hx].
    eapply nth_error_In; eauto.
Qed.

Lemma rule_of_all R r : rule_of R r -> In r (all_rules R).
Proof.
  intros [rp H]. revert r H. induction rp as [|st rp IH]; intros r H.
  - injection H as <-. apply all_rules_self.
  - cbn [rget] in H. destruct (rget R rp) as [r0|] eqn:E0; [|discriminate].
    assert (Hi : forall rp r x, rget R rp = Some r -> In x (all_rules r) -> In x (all_rules R)).
    { clear. induction rp as [|st rp IH]; intros r x H Hx.
      - injection H as <-. exact Hx.
      - cbn [rget] in H. destruct (rget R rp) as [r0|] eqn:E0; [|discriminate].
        apply (IH r0 x eq_refl). now apply (all_rules_step r0 st r H). }
    apply (Hi rp r0 r E0). apply (all_rules_step r0 st r H). apply all_rules_self.
Qed.

(** All nodes below a node have at most so many children. *)
Fixpoint width_at_most (k : nat) (n : node) : bool :=
  match n with
  | NDocument _ _ _ _ c | NElement _ _ _ c | NTemplate _ _ _ c => (length c <=? k)%nat && forallb (width_at_most k) c
  | _ => true
  end.

Lemma width_spec k D p n : width_at_most k D = true -> nget D p = Some n ->
  width_at_most k n = true /\ (length (children_of n) <= k)%nat.
Proof.
  intros HD Hp. assert (Hw : width_at_most k n = true).
  { revert n Hp. induction p as [|i p IH]; intros n Hp.
    - injection Hp as <-. exact HD.
    - cbn [nget] in Hp. destruct (nget D p) as [n0|] eqn:E0; [|discriminate]. specialize (IH n0 eq_refl).
      apply nth_error_In in Hp. destruct n0; simpl in Hp, IH; try contradiction;
        apply andb_true_iff in IH as [_ IH]; rewrite forallb_forall in IH; now apply IH. }
  split; [exact Hw|]. destruct n; simpl in *; try lia; apply andb_true_iff in Hw as [Hw _]; now apply Nat.leb_le.
Qed.

Lemma width_small k D : width_at_most k D = true -> (Z.of_nat k <= INT_MAX)%Z -> small_document (Z.of_nat k) D.
Proof.
  intros HD Hk. split; [exact Hk|]. intros p n Hp. destruct (width_spec k D p n HD Hp). lia.
Qed.

Lemma list_rule_calls : rule_calls_return list_rule.
Proof.
  intros r Hr. apply rule_of_all in Hr. simpl in Hr.
  repeat (destruct Hr as [<-|Hr]; [split; intros x Hx; simpl in Hx; repeat (destruct Hx as [Hx|Hx]; [injection Hx as <-; simpl; auto|]); contradiction|]).
  contradiction.
Qed.

Lemma list_rule_safe : rule_params_safe 1000 list_rule.
Proof.
  intros r m Hr Hm. apply rule_of_all in Hr. simpl in Hr.
  repeat (destruct Hr as [<-|Hr]; [simpl in Hm; repeat (destruct Hm as [Hm|Hm]; [injection Hm as <-; simpl; unfold INT_MIN, INT_MAX; try tauto; lia|]); contradiction|]).
  contradiction.
Qed.

Lemma list_page_small : small_document 1000 list_page.
Proof. apply (width_small 1000 list_page); vm_compute; congruence. Qed.

(** Computes the outcome of extract. *)
Ltac run_extract :=
  match goal with |- extract_yields ?E ?R ?D ?p ?n ?o =>
    let H := fresh in
    assert (H : extract 100 E R D p n = o) by (vm_compute; reflexivity);
    rewrite <- H; apply extract_yields_at; rewrite H; discriminate
  end.
(** Computes the groups of a search. *)
Ltac run_search :=
  match goal with |- search_yields ?E ?R ?D ?p ?n _ =>
    eapply (search_yields_at E R D p n 100); vm_compute; reflexivity
  end.
