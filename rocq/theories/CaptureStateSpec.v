(** Vocabulary for the statements about captures with side effects. *)

From Coq Require Import Ascii String NArith ZArith Bool List Sorted.
From Verif Require Import Base StringUtil Dom Values Match Rule RuleMatching MatchSpec ExtractSpec TextSpec CaptureState.
Import ListNotations.

(** A call: of capture number [k] of the rule at [rp], on the node [p]. *)
Definition call_of : Type := rpath * nat * npath.

(** The calls for a pair of a group: its captures that are not null, in order. *)
Definition pair_calls (R : rule) (x : rpath * npath) (calls : list call_of) : Prop :=
  exists r ks, rget R (fst x) = Some r /\ calls = map (fun k => (fst x, k, snd x)) ks /\
    StronglySorted lt ks /\ forall k, In k ks <-> exists c, nth_error (r_captures r) k = Some (Some c).

(** The calls for a group: those for its pairs, in order. *)
Definition group_calls (R : rule) (g : MatchingNodes) (calls : list call_of) : Prop :=
  exists css, Forall2 (pair_calls R) g css /\ calls = concat css.

Section Calls.
Context {W : Type}.
Variable act : capture_action W.

Definition do_call (c : call_of) : effect W (option result_pair) := act (fst (fst c)) (snd (fst c)) (snd c).

(** The calls take place one after the other and all return. *)
Inductive performs : W -> list call_of -> list (option result_pair) -> W -> Prop :=
| performs_nil w : performs w [] [] w
| performs_cons w c w1 o calls outs w2 :
    do_call c w = (w1, Ok o) -> performs w1 calls outs w2 -> performs w (c :: calls) (o :: outs) w2.

(** Some calls return, the next one does not, and no further call takes place. *)
Definition breaks_off (w : W) (calls : list call_of) (w' : W) (o : outcome (list ResultMap)) : Prop :=
  exists before c after outs w1 o1, calls = before ++ c :: after /\ performs w before outs w1 /\
    do_call c w1 = (w', o1) /\
    match o1, o with
    | Throw e, Throw e' => e = e'
    | UB u, UB u' => u = u'
    | OutOfFuel, OutOfFuel => True
    | _, _ => False
    end.

Definition extract_yields_in (E : engine) (R : rule) (D : node) (p : nptr) (limit : N) (w : W)
    (x : W * outcome (list ResultMap)) : Prop :=
  exists f0, forall f, f0 <= f -> extract_in W act f E R D p limit w = x.
End Calls.

(** All functions have the values that they have without a state. *)
Definition same_values {W} (act : capture_action W) (E : engine) (R : rule) (D : node) : Prop :=
  forall rp k c p w, capture_at R rp k = Some c -> snd (act rp k p w) = capture_capture E D c p.

Definition capture_name (c : capture) : str :=
  match c with AttributeCapture _ name _ => name | FunctionCapture _ name _ => name end.

(** Only capture number [k] of the rule at [rp] has its name; it is a function
    without a pipe. *)
Definition only_here (R : rule) (rp : rpath) (k : nat) (name : str) : Prop :=
  (exists f, capture_at R rp k = Some (FunctionCapture (Some f) name None)) /\
  forall rp' k' c, capture_at R rp' k' = Some c -> capture_name c = name -> rp' = rp /\ k' = k.

(** The numbers from 1 on. *)
Fixpoint numbers_from (n : N) (texts : list str) : Prop :=
  match texts with
  | [] => True
  | x :: texts' => decimal_of n x /\ numbers_from (n + 1) texts'
  end.

(** A function for one capture, the others have no side effects. *)
Definition one_user {W} (rp : rpath) (k : nat) (f : node -> npath -> effect W str)
  : rpath -> nat -> option (node -> npath -> effect W str) :=
  fun rp' k' => if rpath_eqb rp' rp && Nat.eqb k' k then Some f else None.

(** The nodes that some groups have for a rule. *)
Definition nodes_of (rp : rpath) (gs : list MatchingNodes) : list npath :=
  map snd (filter (fun x : rpath * npath => rpath_eqb (fst x) rp) (concat gs)).
