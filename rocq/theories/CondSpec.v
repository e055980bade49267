(** Vocabulary for the statements about conditions with side effects (C68). *)

From Coq Require Import Ascii String NArith List Sorted.
From Verif Require Import Base Tags Dom NodeUtil Values Match Rule RuleMatching CaptureState CondState.
Import ListNotations.

(** One call of Match::matches: match number [k] of the rule at [rp], on the node
    at [p], and what it did. *)
Definition one_call : Type := rpath * nat * npath * reply.
Definition calls_of (log : list entry) : list one_call :=
  flat_map (fun '(rp, p, calls) => map (fun '(k, x) => (rp, k, p, x)) calls) log.

(** The calls were made in this order, each in the state that the one before it
    left, and did what is recorded. *)
Inductive heard {W} (act : match_action W) : W -> list one_call -> W -> Prop :=
| heard_none : forall w, heard act w [] w
| heard_next : forall rp k p w x w1 calls w2,
    act rp k p w = (w1, x) -> heard act w1 calls w2 -> heard act w ((rp, k, p, x) :: calls) w2.

(** The numbers of the matches of a rule that are not null, in order. *)
Definition match_numbers (r : rule) (ks : list nat) : Prop :=
  StronglySorted lt ks /\ forall k, In k ks <-> exists m, nth_error (r_matches r) k = Some (Some m).

(** How Rule::matches proceeds: nothing is called if the tag does not fit, else
    the matches are called one after the other, up to the first one that does not
    say yes. *)
Definition proceeds (r : rule) (t : node) (calls : list (nat * reply)) : Prop :=
  exists ks, match_numbers r ks /\
  if tag_matches r t then
    calls = map (fun k => (k, Says true)) ks \/
    exists before k later x, ks = before ++ k :: later /\ x <> Says true /\
      calls = map (fun k => (k, Says true)) before ++ [(k, x)]
  else calls = [].

(** The node at [i :: pp], its following siblings, and everything below these. *)
Definition in_scope (i : nat) (pp : npath) (p : npath) : Prop :=
  exists j q, i <= j /\ p = q ++ j :: pp.

Definition entry_ok (R : rule) (D : node) (i : nat) (pp : npath) (e : entry) : Prop :=
  let '(rp, p, calls) := e in
  in_scope i pp p /\ exists r t, rget R rp = Some r /\ nget D p = Some t /\ proceeds r t calls.

(** The rule at [rp] was tried on the node at [p], its tag fitted and all its
    matches said yes. *)
Definition passed (R : rule) (D : node) (log : list entry) (rp : rpath) (p : npath) : Prop :=
  exists r t calls, rget R rp = Some r /\ nget D p = Some t /\ tag_matches r t = true /\
    In (rp, p, calls) log /\
    forall k m, nth_error (r_matches r) k = Some (Some m) -> In (k, Says true) calls.

(** All calls returned. *)
Definition answers (x : reply) : Prop := exists b, x = Says b.
Definition calm (log : list entry) : Prop := forall rp k p x, In (rp, k, p, x) (calls_of log) -> answers x.

(** All calls returned, except for the very last one, which did [x]. *)
Definition broken_by (x : reply) (log : list entry) : Prop :=
  exists rest rp k p, calls_of log = rest ++ [(rp, k, p, x)] /\
    forall rp k p y, In (rp, k, p, y) rest -> answers y.

(** How a search with limit [n] may end (0: no limit). *)
Definition ends {A} (n : N) (o : outcome A) (log : list entry) : Prop :=
  match o with
  | Ok _ => calm log
  | Throw e => (e = MaxSearchError /\ n <> 0%N /\ calm log) \/ broken_by (Raises e) log
  | UB u => broken_by (Breaks u) log
  | OutOfFuel => False
  end.

(** The model's step bound does not matter. *)
Definition search_does {W} (act : match_action W) (R : rule) (D : node) (p : nptr) (n : N) (w : W)
    (x : outcome (list MatchingNodes) * (W * list entry)) : Prop :=
  exists f0, forall f, f0 <= f ->
    (let '(o, y) := save_c W act R D f (Some []) p n w in (obind o (fun z => Ok (fst z)), y)) = x.

Definition extract_does {W} (act : match_action W) (cact : capture_action W) (R : rule) (D : node)
    (p : nptr) (n : N) (w : W) (x : outcome (list ResultMap) * (W * list entry)) : Prop :=
  exists f0, forall f, f0 <= f -> extract_c W act R D cact f p n w = x.

(** In every state that satisfies [inv], the conditions answer as those of the
    rule do, and leave such a state. *)
Definition same_answers {W} (inv : W -> Prop) (act : match_action W) (E : engine) (R : rule) (D : node) : Prop :=
  forall rp r k m p t w, rget R rp = Some r -> nth_error (r_matches r) k = Some (Some m) -> nget D p = Some t -> inv w ->
  said (snd (act rp k p w)) = mtch_matches E D m p /\ inv (fst (act rp k p w)).
