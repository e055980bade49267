(** Cases for C84. *)

From Coq Require Import Ascii String NArith ZArith Bool List Lia.
From Verif Require Import Base Tags Dom NodeUtil Values Match Rule RuleMatching StringSpec ValueSpec TextSpec TextProofs ExtractSpec Samples SelectSpec PipeSpec PipeProofs.
Import ListNotations.

Definition decide_in (c : ascii) (x : str) : bool := if in_dec ascii_dec c x then true else false.
Lemma incl_by x y : forallb (fun c => decide_in c y) x = true -> incl x y.
Proof.
  intros H c Hc. rewrite forallb_forall in H. specialize (H c Hc). unfold decide_in in H. destruct (in_dec ascii_dec c y); [assumption|discriminate].
Qed.
Lemma no_letters_by x : forallb (fun c => negb (decide_in c lower_letters) && negb (decide_in c upper_letters)) x = true -> no_letters x.
Proof.
  intros H. apply Forall_forall. intros c Hc. rewrite forallb_forall in H. specialize (H c Hc). unfold decide_in in H.
  destruct (in_dec ascii_dec c lower_letters), (in_dec ascii_dec c upper_letters); try discriminate H; split; assumption.
Qed.

(** append "!", lower case, trim "!?", prepend "A", lower case, collapse *)
Definition long_chain : list transform :=
  [AppendPipe (s "!"); CasePipe false; TrimPipe (s "!?"); PrependPipe (s " A"); CasePipe true; CollapseWsPipe].
(** trim "?!", lower case, prepend "a", collapse *)
Definition short_chain : list transform := [TrimPipe (s "?!"); CasePipe true; PrependPipe (s " a"); CollapseWsPipe].

Lemma chains_equal : pipes_equal long_chain short_chain.
Proof.
  unfold long_chain, short_chain.
  eapply equal_trans.
  { exact (equal_within [AppendPipe (s "!")] [PrependPipe (s " A"); CasePipe true; CollapseWsPipe] _ _
      (equal_case_trim false (s "!?") (no_letters_by (s "!?") eq_refl))). }
  cbn [app]. eapply equal_trans.
  { exact (equal_within [] [CasePipe false; PrependPipe (s " A"); CasePipe true; CollapseWsPipe] _ _
      (equal_append_trim (s "!") (s "!?") (incl_by (s "!") (s "!?") eq_refl))). }
  cbn [app]. eapply equal_trans.
  { exact (equal_within [TrimPipe (s "!?"); CasePipe false] [CollapseWsPipe] _ _
      (equal_prepend_case true (s " A") (s " a") (in_case_of true (s " A")))). }
  cbn [app]. eapply equal_trans.
  { exact (equal_within [TrimPipe (s "!?")] [PrependPipe (s " a"); CollapseWsPipe] _ _ (equal_case false true)). }
  cbn [app]. exact (equal_within [] [CasePipe true; PrependPipe (s " a"); CollapseWsPipe] _ _
      (equal_trim_set (s "!?") (s "?!") (incl_by (s "!?") (s "?!") eq_refl) (incl_by (s "?!") (s "!?") eq_refl))).
Qed.

Lemma chains_run : run_pipes sample_engine long_chain (s "?Some  Text!") = Ok (s "asome text").
Proof. reflexivity. Qed.

Definition pipes (ts : list transform) : option pipe := fold_right (fun t p => Some (Pipe t p)) None ts.

(** <a @id:x | long /> { <b @text:y | collapsews | trim " " | append "." /> } *)
Definition pipe_rule (first second : list transform) : rule :=
  mk_rule None None
    [mk_rule None None [] [] [Some (FunctionCapture (Some TextBuiltin) (s "y") (pipes second))] TAG_B false false None]
    [] [Some (AttributeCapture (s "id") (s "x") (pipes first))] TAG_A false false None.

Definition pipe_page : node := page [el_id TAG_A (s "?Some  Text!") [el TAG_B [NText (s " b  c ")]]].

Lemma pipe_rules_alike : rules_alike (pipe_rule long_chain [CollapseWsPipe; TrimPipe (s " "); AppendPipe (s ".")]) (pipe_rule short_chain [AppendPipe (s ".")]).
Proof.
  split; [reflexivity|]. intros rp.
  assert (HC : pipes_equal [CollapseWsPipe; CollapseWsPipe; TrimPipe (s " "); AppendPipe (s ".")] [CollapseWsPipe; AppendPipe (s ".")]).
  { eapply equal_trans; [exact (equal_within [] [TrimPipe (s " "); AppendPipe (s ".")] _ _ equal_collapse)|].
    cbn [app]. refine (equal_within [] [AppendPipe (s ".")] _ _ (equal_collapse_trim (s " ") _)). constructor; [now left|constructor]. }
  destruct rp as [|st rp] using rev_ind.
  - cbn [rget]. intros r r' H H'. injection H as <-. injection H' as <-. cbn. constructor; [|constructor]. apply alike_attribute. exact chains_equal.
  - clear IHrp. intros r r' H H'.
    assert (HG : forall R q, rget R (rp ++ [q]) = match rstep_get R q with Some R' => rget R' rp | None => None end).
    { clear. intros R q. induction rp as [|st rp IH]; cbn [app rget]; [destruct (rstep_get R q); reflexivity|]. rewrite IH. now destruct (rstep_get R q). }
    rewrite HG in H, H'. destruct st as [| |[|k]]; cbn [rstep_get pipe_rule r_child r_next r_nested nth_error] in H, H'; try discriminate H.
    2: { destruct k; discriminate H. }
    destruct rp as [|st rp] using rev_ind.
    + injection H as <-. injection H' as <-. cbn. constructor; [|constructor]. apply alike_text. exact HC.
    + exfalso. clear - H. assert (HG : forall R q, rget R (rp ++ [q]) = match rstep_get R q with Some R' => rget R' rp | None => None end).
      { clear. intros R q. induction rp as [|st rp IH]; cbn [app rget]; [destruct (rstep_get R q); reflexivity|]. rewrite IH. now destruct (rstep_get R q). }
      rewrite HG in H. destruct st as [| |[|k]]; discriminate H.
Qed.

Lemma pipe_rules_run :
  extract_yields sample_engine (pipe_rule long_chain [CollapseWsPipe; TrimPipe (s " "); AppendPipe (s ".")]) pipe_page (Some [0]) 0
    (Ok [[(s "x", s "asome text"); (s "y", s "b c.")]]).
Proof. run_extract. Qed.

(** <p>a <b>b</b>c</p> and <p>a<br>b</p> *)
Definition running_page : node := el TAG_P [NText (s " a "); el TAG_B [NText (s "b")]; NText (s "c")].
Definition broken_page : node := el TAG_P [NText (s "a"); el TAG_BR []; NText (s "b")].

Lemma below_children t orig attrs cs p m : below (NElement t orig attrs cs) p m -> p <> [] -> In m (flat_map reached cs).
Proof.
  intros H. remember (NElement t orig attrs cs) as n eqn:En. induction H as [|i p t' o' a' cs' m Hp IH Hi]; [congruence|]. intros _.
  destruct p as [|j p].
  - assert (E0 : NElement t' o' a' cs' = n) by (clear - Hp; now inversion Hp). rewrite En in E0. injection E0 as -> -> -> ->. apply in_flat_map. exists m. split; [eapply nth_error_In; exact Hi|]. rewrite reached_unfold. now left.
  - assert (Hj : j :: p <> []) by discriminate. apply IH, in_flat_map in Hj as [c [Hc Hr]]. apply in_flat_map. exists c. split; [exact Hc|].
    apply reached_below in Hr as [q Hq]. apply reached_below. exists (i :: q). eapply below_child; eassumption.
Qed.

Lemma running_page_runs : running_text running_page.
Proof.
  intros p m Hm Hp. apply below_children in Hm; [|exact Hp]. intros [t [orig [attrs [cs [-> Hb]]]]].
  cbn in Hm. destruct Hm as [H|[H|[H|[H|[]]]]]; try discriminate H. injection H as <- _ _ _. apply Hb. cbn. tauto.
Qed.

Lemma running_page_text : NodeText running_page = s "a bc".
Proof. reflexivity. Qed.

Lemma broken_capture : exists E D x v v',
  capture_capture E D (FunctionCapture (Some TextBuiltin) x None) [] = Ok (Some (x, v)) /\
  capture_capture E D (FunctionCapture (Some StripTagsBuiltin) x (Some (Pipe CollapseWsPipe None))) [] = Ok (Some (x, v')) /\ v <> v'.
Proof. exists sample_engine, broken_page, (s "x"), (s "a b"), (s "ab"). split; [reflexivity|]. split; [reflexivity|discriminate]. Qed.

Lemma trims_differ : exists E a b x,
  run_pipes E [TrimPipe a; TrimPipe b] x <> run_pipes E [TrimPipe (a ++ b)] x /\
  run_pipes E [TrimPipe a; TrimPipe b] x <> run_pipes E [TrimPipe b; TrimPipe a] x.
Proof. exists sample_engine, (s "a"), (s "b"), (s "abcab"). split; discriminate. Qed.

Lemma pipes_case :
  (pipes_equal long_chain short_chain /\ run_pipes sample_engine long_chain (s "?Some  Text!") = Ok (s "asome text")) /\
  (rules_alike (pipe_rule long_chain [CollapseWsPipe; TrimPipe (s " "); AppendPipe (s ".")]) (pipe_rule short_chain [AppendPipe (s ".")]) /\
   extract_yields sample_engine (pipe_rule long_chain [CollapseWsPipe; TrimPipe (s " "); AppendPipe (s ".")]) pipe_page (Some [0]) 0
     (Ok [[(s "x", s "asome text"); (s "y", s "b c.")]])) /\
  (running_text running_page /\ NodeText running_page = s "a bc").
Proof. exact (conj (conj chains_equal chains_run) (conj (conj pipe_rules_alike pipe_rules_run) (conj running_page_runs running_page_text))). Qed.
