(** A snippet and a page for the examples of PropMeaning.v. *)

From Coq Require Import Ascii String Arith NArith ZArith Bool List Lia.
From Verif Require Import Base StringUtil Tags Dom NodeUtil Values Match Rule RuleMatching RuleProofs ExtractSpec ExtractProofs ExtractMain
  Samples SyntaxSpec Parser SyntaxTree ParsedProofs MeaningSpec MeaningMain.
Import ListNotations.

(** All nodes of a tree. *)
Fixpoint all_nodes (n : node) : list node :=
  n :: match n with
       | NDocument _ _ _ _ c | NElement _ _ _ c | NTemplate _ _ _ c => flat_map all_nodes c
       | _ => []
       end.

Lemma nget_all D p : forall n, nget D p = Some n -> In n (all_nodes D).
Proof.
  assert (HS : forall n, In n (all_nodes n)) by (intros []; now left).
  assert (HC : forall n c i, nth_error (children_of n) i = Some c -> incl (all_nodes c) (all_nodes n)).
  { intros n c i H x Hx. apply nth_error_In in H. destruct n; try contradiction; right; apply in_flat_map; exists c; split; assumption. }
  induction p as [|i p IH]; intros n H; [injection H as <-; apply HS|]. cbn [nget] in H.
  destruct (nget D p) as [m|] eqn:E0; [|discriminate]. specialize (IH m eq_refl).
  assert (HT : forall a b, In a (all_nodes b) -> incl (all_nodes a) (all_nodes b)).
  { clear. intros a b. revert a. induction b as [b IHb] using MatchRefine.node_ind2. intros a Ha.
    assert (HB : all_nodes b = b :: flat_map all_nodes (children_of b)) by (destruct b; reflexivity).
    rewrite HB in Ha. destruct Ha as [<-|Ha]; [intros x Hx; exact Hx|]. apply in_flat_map in Ha as [c [Hc Ha]].
    rewrite Forall_forall in IHb. intros x Hx. rewrite HB. right. apply in_flat_map. exists c. split; [exact Hc|]. now apply (IHb c Hc a Ha). }
  apply (HT m D IH). eapply HC; [exact H|]. apply HS.
Qed.

Definition fits (n : node) : bool :=
  (length (children_of n) <? 1000) && match n with NElement _ _ attrs _ => length attrs <? 1000 | _ => true end.

Lemma fits_counts D : forallb fits (all_nodes D) = true -> counts_fit D.
Proof.
  intros H p n Hn. rewrite forallb_forall in H. specialize (H n (nget_all D p n Hn)). unfold fits in H.
  apply andb_true_iff in H as [H1 H2]. apply Nat.ltb_lt in H1. split; [unfold UINT_MOD; lia|].
  intros t orig attrs cs ->. apply Nat.ltb_lt in H2. unfold UINT_MOD. lia.
Qed.

(** A menu. *)
Definition link (class href : string) (cs : list node) : node :=
  NElement TAG_A (Some (s "<a>")) [mk_attr NsNone (s "class") (Some (s class)); mk_attr NsNone (s "href") (Some (s href))] cs.
Definition menu_page : node :=
  page [el TAG_UL [el TAG_LI [link "big red" "/one" [NText (s " The  "); el TAG_B [NText (s "first")]]];
                   el TAG_LI [link "small" "/two" [NText (s "second")]];
                   el TAG_LI [link "red big" "/three" [el TAG_P [NText (s "the")]; NText (s "third")]]]].

Definition menu_snippet : str := s "<li:not(:nth-child(2))><a class=""big"" href:prepend(""x:""):link @text=~/h/ @text:toupper:name/></li>".

Definition menu_result : list ResultMap :=
  [[(s "link", s "x:/one"); (s "name", s "THE FIRST")]; [(s "link", s "x:/three"); (s "name", s "THE THIRD")]].

Definition menu_rule : rule :=
  mk_rule
    (Some (mk_rule None None []
      [Some (AttributeMatch (s "class") (Some (ContainsWordsTest [s "big"])));
       Some (AttributeMatch (s "href") None);
       Some (FunctionValueMatch (Some TextBuiltin) (Some (RegexTest (mk_regex (s "h") false false))))]
      [Some (AttributeCapture (s "href") (s "link") (Some (Pipe (PrependPipe (s "x:")) None)));
       Some (FunctionCapture (Some TextBuiltin) (s "name") (Some (Pipe (CasePipe false) None)))]
      TAG_A false false None))
    None [] [Some (NegateMatch [Some (NthChildMatch 0 2 (mk_nth_option true false))])] [] TAG_LI false false None.

Lemma menu_parsed : ParseHext sample_engine menu_snippet = Ok menu_rule.
Proof. vm_compute. reflexivity. Qed.

Lemma menu_safe : rule_params_safe 1000 menu_rule.
Proof.
  intros r m Hr Hm. apply rule_of_all in Hr. simpl in Hr.
  repeat (destruct Hr as [<-|Hr]; [simpl in Hm; repeat (destruct Hm as [Hm|Hm]; [injection Hm as <-; simpl; unfold INT_MIN, INT_MAX; try tauto; lia|]); contradiction|]).
  contradiction.
Qed.

Lemma menu_conditions :
  nget menu_page [0] <> None /\ engine_total sample_engine /\ counts_fit menu_page /\
  (exists size, small_document size menu_page /\ forall R, denotes sample_engine menu_snippet R -> rule_params_safe size R).
Proof.
  split; [discriminate|]. split; [exact sample_engine_total|]. split; [apply fits_counts; vm_compute; reflexivity|].
  exists 1000%Z. split; [apply (width_small 1000 menu_page); vm_compute; congruence|].
  intros R HR. apply parse_denotes in HR. rewrite menu_parsed in HR. injection HR as <-. exact menu_safe.
Qed.

Lemma menu_runs : extract_yields sample_engine menu_rule menu_page (Some [0]) 0 (Ok menu_result).
Proof. run_extract. Qed.

Lemma menu_means : exists R, denotes sample_engine menu_snippet R /\ means sample_engine R menu_page 0 [] menu_result.
Proof.
  destruct menu_conditions as [H1 [H2 [H3 H4]]].
  destruct (nget menu_page [0]) as [t|] eqn:Ht; [|congruence].
  apply (program_means sample_engine menu_snippet menu_page 0 [] t menu_result Ht H2 H3 H4).
  exists menu_rule. split; [exact menu_parsed|exact menu_runs].
Qed.
