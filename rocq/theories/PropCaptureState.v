(** C65: captures with side effects. *)

From Coq Require Import Ascii String NArith ZArith Bool List Lia.
From Verif Require Import Base StringUtil Tags Dom Values Match Rule RuleMatching MatchSpec ExtractSpec Samples Parser
  CaptureState CaptureStateSpec CaptureStateProofs.
Import ListNotations.

(** C65. If the search of extract returns groups, then the captures are called
    in the order of the groups, of the pairs of a group, and of the captures of
    a rule, each one exactly once per pair. The maps hold what the calls
    returned. A call that does not return ends extract; no further one is
    made. *)
Theorem C65_calls : forall W (act : capture_action W) E R D i pp t n gs,
  nget D (i :: pp) = Some t -> search_yields E R D (Some (i :: pp)) n (Ok gs) ->
  exists css, Forall2 (group_calls R) gs css /\
  forall w, exists w' o, extract_yields_in act E R D (Some (i :: pp)) n w (w', o) /\
    ((exists outss res, performs act w (concat css) (concat outss) w' /\
        Forall2 (fun calls outs => length outs = length calls) css outss /\
        o = Ok res /\ Forall2 map_of (filter nonempty_list (map present outss)) res) \/
     breaks_off act w (concat css) w' o).
Proof. exact @extract_calls. Qed.
Print Assumptions C65_calls.

(** If the search fails, for example at the limit, then no capture has been
    called. *)
Theorem C65_no_calls : forall W (act : capture_action W) E R D p n e w,
  search_yields E R D p n (Throw e) -> extract_yields_in act E R D p n w (w, Throw e).
Proof. exact @extract_no_calls. Qed.
Print Assumptions C65_no_calls.

(** Functions that only observe (their values do not depend on the state) do
    not change the outcome. *)
Theorem C65_observers : forall W (act : capture_action W) E R D,
  same_values act E R D ->
  forall f p n w, snd (extract_in W act f E R D p n w) = extract f E R D p n.
Proof. exact @extract_same. Qed.
Print Assumptions C65_observers.

(** The counter of examples/mixed.cpp: if it is the only capture of its name,
    then it numbers the values of the result, in the order of the result, and
    counts the nodes of the rule it was added to. *)
Theorem C65_counter : forall E R D rp k name, only_here R rp k name ->
  forall i pp t n gs w' res, nget D (i :: pp) = Some t ->
  search_yields E R D (Some (i :: pp)) n (Ok gs) ->
  extract_yields_in (action_of E R D (one_user rp k count_captures)) E R D (Some (i :: pp)) n 0%N (w', Ok res) ->
  numbers_from 1 (concat (map (values_of name) res)) /\
  length (concat (map (values_of name) res)) = length (nodes_of rp gs) /\ w' = N.of_nat (length (nodes_of rp gs)).
Proof. exact counter_values. Qed.
Print Assumptions C65_counter.

(** ** examples/mixed.cpp *)

(** Lines 37-72; the function itself is given to [action_of]. *)
Definition mixed_span (number : bool) : outcome rule :=
  let! span := ParseHext sample_engine (s "<?span @text:span />") in
  Ok (if number then append_capture span (Some (FunctionCapture (Some (UserFunction (fun _ _ => FThrow))) (s "number") None))
      else span).
Definition mixed_anchor (number : bool) : outcome rule :=
  let! img := ParseHext sample_engine (s "<img src:img /><p @text:par />") in
  let! span := mixed_span number in
  match img with
  | mk_rule c (Some par) ne m ca t o g tn =>
      Ok (append_child
            (append_capture (append_match (rule_of_tag TAG_A false false) (Some (AttributeMatch (s "href") None)))
               (Some (AttributeCapture (s "href") (s "href") None)))
            (mk_rule c (Some (append_child par span)) ne m ca t o g tn))
  | _ => UB NullDeref
  end.

(** "Rule anchor is now equivalent to this hext template". *)
Example mixed_template :
  mixed_anchor false =
  ParseHext sample_engine (s "<a href:href> <img src:img /> <p @text:par> <?span @text:span /> </p> </a>").
Proof. vm_compute. reflexivity. Qed.

Definition mixed_rule : rule := match mixed_anchor true with Ok r => r | _ => rule_of_tag TAG_A false false end.
Definition mixed_item (number : str) (t : tag) (text : str) : node :=
  NElement TAG_A (Some (s "<a>")) [mk_attr NsNone (s "href") (Some (s "href" ++ number))]
    [NElement TAG_IMG (Some (s "<img>")) [mk_attr NsNone (s "src") (Some (s "src" ++ number))] [];
     el TAG_P [NText (number ++ s " "); el t [NText text]]].
Definition mixed_page : node :=
  page [mixed_item (s "1") TAG_SPAN (s "a"); mixed_item (s "2") TAG_SPAN (s "b"); mixed_item (s "3") TAG_CODE (s "c");
        mixed_item (s "4") TAG_SPAN (s "d"); mixed_item (s "5") TAG_SPAN (s "e")].

Lemma mixed_only : only_here mixed_rule [RChild; RNext; RChild] 1 (s "number").
Proof.
  split; [eexists; vm_compute; reflexivity|]. intros rp k c. unfold capture_at.
  let r := eval vm_compute in mixed_rule in change mixed_rule with r.
  repeat match goal with
  | |- context [rget _ ?rp] => is_var rp;
      induction rp as [|[ | |[|n] ] rp _] using rev_ind; [cbn [rget]|rewrite rget_app_last..];
      cbn [rstep_get r_child r_next r_nested nth_error]; try (intros H; discriminate H)
  end;
  cbn [r_captures app];
  destruct k as [|[|[|k]]]; cbn [nth_error]; intros H; try discriminate H; injection H as <-; cbn [capture_name];
  intros H; try discriminate H; now split.
Qed.

Definition mixed_line (m : ResultMap) : list str := map snd m.

(** Five groups, four of them with a number. *)
Example C65_case :
  let act := action_of sample_engine mixed_rule mixed_page (one_user [RChild; RNext; RChild] 1 count_captures) in
  only_here mixed_rule [RChild; RNext; RChild] 1 (s "number") /\ nget mixed_page [0] <> None /\
  (exists gs, search_yields sample_engine mixed_rule mixed_page (Some [0]) 0 (Ok gs) /\
     length (nodes_of [RChild; RNext; RChild] gs) = 4) /\
  exists res, extract_yields_in act sample_engine mixed_rule mixed_page (Some [0]) 0 0%N (4%N, Ok res) /\
    map mixed_line res =
      [[s "href1"; s "src1"; s "1"; s "1 a"; s "a"]; [s "href2"; s "src2"; s "2"; s "2 b"; s "b"];
       [s "href3"; s "src3"; s "3 c"]; [s "href4"; s "src4"; s "3"; s "4 d"; s "d"];
       [s "href5"; s "src5"; s "4"; s "5 e"; s "e"]].
Proof.
  intros act. split; [exact mixed_only|]. split; [discriminate|].
  assert (HS : exists gs, search_yields sample_engine mixed_rule mixed_page (Some [0]) 0 (Ok gs) /\
     length (nodes_of [RChild; RNext; RChild] gs) = 4 /\
     exists res, capture_groups_in N act mixed_rule gs 0%N = (4%N, Ok res) /\ map mixed_line res =
      [[s "href1"; s "src1"; s "1"; s "1 a"; s "a"]; [s "href2"; s "src2"; s "2"; s "2 b"; s "b"];
       [s "href3"; s "src3"; s "3 c"]; [s "href4"; s "src4"; s "3"; s "4 d"; s "d"];
       [s "href5"; s "src5"; s "4"; s "5 e"; s "e"]]).
  { eexists. split; [run_search|]. split; [vm_compute; reflexivity|]. eexists. split; vm_compute; reflexivity. }
  destruct HS as (gs & HS & HL & res & HC & HM). split; [exists gs; auto|]. exists res. split; [|exact HM].
  rewrite <- HC. now apply extract_in_search.
Qed.

(** A function that only writes a log. *)
Example C65_observers_case :
  same_values (action_of sample_engine list_rule list_page (fun _ _ => @None (node -> npath -> effect (list npath) str)))
    sample_engine list_rule list_page /\
  exists act : capture_action (list npath), same_values act sample_engine list_rule list_page /\
    fst (act [] 0 [1; 2] []) = [[1; 2]].
Proof.
  split.
  - intros rp k c p w Hc. unfold action_of. rewrite Hc. destruct c as [| [f|] ? ?]; reflexivity.
  - exists (fun rp k p w => (p :: w, match capture_at list_rule rp k with Some c => capture_capture sample_engine list_page c p | None => Ok None end)).
    split; [|reflexivity]. intros rp k c p w Hc. cbn [snd]. now rewrite Hc.
Qed.

(** The limit is reached: nothing is called. *)
Example C65_no_calls_case : search_yields sample_engine mixed_rule mixed_page (Some [0]) 1 (Throw MaxSearchError).
Proof. apply (search_throws_at _ _ _ _ _ 100). vm_compute. reflexivity. Qed.
