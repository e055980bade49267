(** C68: conditions with side effects. *)

From Coq Require Import Ascii String NArith ZArith Bool List Lia.
From Verif Require Import Base StringUtil Tags Dom Values Match Rule RuleMatching MatchSpec ExtractSpec Samples
  CostSpec CaptureState CaptureStateSpec CondState CondSpec CondMain.
From Verif Require CaptureStateProofs.
Import ListNotations.

(** C68. Whatever the conditions answer, and however often they change their
    mind: the search ends. Rule::matches was called for rules of the tree and for
    nodes of the part that is searched. Each of its calls asked the conditions of
    the rule in order, up to the first that did not say yes. The search ended
    with the exception of a condition exactly if a condition has thrown one; no
    condition is asked after that. *)
Theorem C68_finishes : forall W (act : match_action W) R D i pp t n w,
  nget D (i :: pp) = Some t ->
  exists o w' log, search_does act R D (Some (i :: pp)) n w (o, (w', log)) /\
    heard act w (calls_of log) w' /\ Forall (entry_ok R D i pp) log /\ ends n o log.
Proof. exact @search_finishes. Qed.
Print Assumptions C68_finishes.

(** All pairs that are reported have passed their test. *)
Theorem C68_passed : forall W (act : match_action W) R D i pp t n w gs w' log,
  nget D (i :: pp) = Some t -> search_does act R D (Some (i :: pp)) n w (Ok gs, (w', log)) ->
  forall g rp p, In g gs -> In (rp, p) g -> passed R D log rp p.
Proof. exact @search_passed. Qed.
Print Assumptions C68_passed.

(** The captures are called after the last condition, in the state that the
    conditions left, as in C65. *)
Theorem C68_extract : forall W (act : match_action W) R D (cact : capture_action W) i pp t n w gs w1 log,
  nget D (i :: pp) = Some t -> search_does act R D (Some (i :: pp)) n w (Ok gs, (w1, log)) ->
  exists css, Forall2 (group_calls R) gs css /\
  exists w2 o, extract_does act cact R D (Some (i :: pp)) n w (o, (w2, log)) /\
    ((exists outss res, performs cact w1 (concat css) (concat outss) w2 /\
        Forall2 (fun calls outs => length outs = length calls) css outss /\
        o = Ok res /\ Forall2 map_of (filter nonempty_list (map present outss)) res) \/
     breaks_off cact w1 (concat css) w2 o).
Proof. exact @extract_after_search. Qed.
Print Assumptions C68_extract.

(** If a condition throws, no capture is called. *)
Theorem C68_thrown : forall W (act : match_action W) R D (cact : capture_action W) p n w e w' log,
  search_does act R D p n w (Throw e, (w', log)) -> extract_does act cact R D p n w (Throw e, (w', log)).
Proof. exact @extract_failed_search. Qed.
Print Assumptions C68_thrown.

(** Conditions that only observe, or that remember their answers, do not change
    the result of the search, and are not asked more often than C67 says. *)
Theorem C68_observers : forall W (inv : W -> Prop) (act : match_action W) E R D,
  same_answers inv act E R D ->
  forall i pp par n w o, inv w -> nget D pp = Some par -> i < length (children_of par) ->
  search_yields E R D (Some (i :: pp)) n o ->
  exists w' log, search_does act R D (Some (i :: pp)) n w (o, (w', log)) /\ inv w' /\
    length log <= search_tests R (siblings_from par i).
Proof. exact @search_pure. Qed.
Print Assumptions C68_observers.

(** ** Cases *)

(** <li/> and <?p/>, the first with a function of the user. *)
Definition asking : rule :=
  mk_rule None (Some (plain TAG_P true false None)) [] [Some (FunctionMatch (Some (fun _ _ => FReturn true)))] []
    TAG_LI false false None.
Definition three_items : node := page [el TAG_LI []; el TAG_LI []; el TAG_LI []].

Ltac run_asking := match goal with |- search_does ?act ?R ?D ?p ?n ?w _ =>
  eapply eq_ind; [apply (search_does_by act R D 100 p n w); vm_compute; discriminate|vm_compute; reflexivity] end.

(** The first three questions are answered with yes. The second item is asked
    about twice: first as the end of the first group, then as the start of the
    second one. So only two items are found. *)
Definition three_times : match_action nat :=
  fun _ _ _ w => (S w, Says (Nat.ltb w 3)).
Example C68_case :
  nget three_items (0 :: body) <> None /\
  exists log, search_does three_times asking three_items (Some (0 :: body)) 0 0
    (Ok [[([], 0 :: body)]; [([], 1 :: body)]], (4, log)) /\
    map (fun '(_, p, _) => p) (filter (fun '(rp, _, _) => rpath_eqb rp []) log) =
      [0 :: body; 1 :: body; 1 :: body; 2 :: body].
Proof. split; [discriminate|]. eexists. split; [run_asking|vm_compute; reflexivity]. Qed.

(** The second time a node is asked about, the answer may be another one. Here
    the second item ends the first group, but does not start a group. *)
Definition changes_its_mind : match_action nat :=
  fun _ _ _ w => (S w, Says (match w with 0 | 1 | 3 | 4 => true | _ => false end)).
Example C68_mind_case :
  exists log w, search_does changes_its_mind asking three_items (Some (0 :: body)) 0 0
    (Ok [[([], 0 :: body)]; [([], 2 :: body)]], (w, log)).
Proof. eexists. eexists. run_asking. Qed.

(** The third question throws. *)
Definition throws_third : match_action nat :=
  fun _ _ _ w => (S w, if Nat.eqb w 2 then Raises UserException else Says true).
Example C68_throw_case :
  exists log, search_does throws_third asking three_items (Some (0 :: body)) 0 0 (Throw UserException, (3, log)) /\
    broken_by (Raises UserException) log.
Proof.
  eexists. split; [run_asking|].
  exists [([], 0, 0 :: body, Says true); ([], 0, 1 :: body, Says true)], [], 0, (1 :: body).
  split; [vm_compute; reflexivity|]. intros rp k p y H. cbn [In] in H. destruct H as [H|[H|[]]]; injection H as _ _ _ <-; now exists true.
Qed.

(** A function that remembers its answers. *)
Section Memory.
Variable f : npath -> bool.
Definition remembering : rule :=
  mk_rule None None [] [Some (FunctionMatch (Some (fun _ p => FReturn (f p))))] [] TAG_LI false false None.
Fixpoint recall (p : npath) (w : list (npath * bool)) : option bool :=
  match w with
  | [] => None
  | (q, b) :: w' => if list_eq_dec Nat.eq_dec p q then Some b else recall p w'
  end.
Definition remember : match_action (list (npath * bool)) :=
  fun _ _ p w => match recall p w with Some b => (w, Says b) | None => ((p, f p) :: w, Says (f p)) end.
Definition right (w : list (npath * bool)) : Prop := forall p b, recall p w = Some b -> b = f p.
Lemma remember_same E D : same_answers right remember E remembering D.
Proof.
  intros rp r k m p t w Hr Hm Hp Hw.
  assert (Hmm : m = FunctionMatch (Some (fun _ p => FReturn (f p)))).
  { destruct rp as [|st rp] using rev_ind.
    - injection Hr as <-. destruct k as [|k]; [now injection Hm|destruct k; discriminate].
    - rewrite CaptureStateProofs.rget_app_last in Hr. destruct st as [| |[|?]]; discriminate. }
  subst m. unfold remember. cbn [mtch_matches]. unfold deref. rewrite Hp. cbn [obind call].
  destruct (recall p w) as [b|] eqn:Eb; cbn [fst snd said].
  - split; [now rewrite (Hw p b Eb)|exact Hw].
  - split; [reflexivity|]. intros q b. cbn [recall]. destruct (list_eq_dec Nat.eq_dec q p) as [->|_]; [now injection 1 as <-|].
    apply Hw.
Qed.
End Memory.

Example C68_observers_case :
  same_answers (right (fun p => Nat.even (hd 0 p))) (remember (fun p => Nat.even (hd 0 p))) sample_engine
    (remembering (fun p => Nat.even (hd 0 p))) three_items /\
  right (fun p => Nat.even (hd 0 p)) [] /\
  search_yields sample_engine (remembering (fun p => Nat.even (hd 0 p))) three_items (Some (0 :: body)) 0
    (Ok [[([], 0 :: body)]; [([], 2 :: body)]]).
Proof. split; [apply remember_same|]. split; [intros p b H; discriminate H|]. run_search. Qed.
