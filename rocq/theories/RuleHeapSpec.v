(** What programs that handle rules are expected to do: a variable holds a
    value, a copy is a value of its own, and every object is destroyed exactly
    once. *)

From Coq Require Import Ascii String NArith ZArith Bool List Permutation.
From Verif Require Import Base Tags Values Match Rule RuleMatching RuleHeap.
Import ListNotations.

(** ** Values *)

(** The rule at a place, and the rule with another one in that place. *)
Fixpoint part (r : rule) (path : list rstep) : option rule :=
  match path with
  | [] => Some r
  | st :: path' => match rstep_get r st with Some r' => part r' path' | None => None end
  end.

Fixpoint replace_nth {A} (l : list A) (k : nat) (x : A) : list A :=
  match l, k with
  | [], _ => []
  | _ :: l', O => x :: l'
  | y :: l', S k' => y :: replace_nth l' k' x
  end.

Definition set_step (r : rule) (st : rstep) (x : rule) : rule :=
  match r with
  | mk_rule c n l ms cs t o g name =>
      match st with
      | RChild => mk_rule (Some x) n l ms cs t o g name
      | RNext => mk_rule c (Some x) l ms cs t o g name
      | RNested k => mk_rule c n (replace_nth l k x) ms cs t o g name
      end
  end.

Fixpoint set_part (r : rule) (path : list rstep) (x : rule) : rule :=
  match path with
  | [] => x
  | st :: path' =>
      match rstep_get r st with
      | Some r' => set_step r st (set_part r' path' x)
      | None => r
      end
  end.

(** The variables and their values. *)
Definition store := list (nat * rule).

Definition value_at (S : store) (p : place) : option rule :=
  match var_get S (pl_var p) with Some r => part r (pl_path p) | None => None end.

Fixpoint set_value (S : store) (p : place) (x : rule) : store :=
  match S with
  | [] => []
  | (y, r) :: S' => if Nat.eqb (pl_var p) y then (y, set_part r (pl_path p) x) :: S' else (y, r) :: set_value S' p x
  end.

(** One of two places is within the other one, or they are the same. *)
Definition related (p q : place) : bool :=
  Nat.eqb (pl_var p) (pl_var q) &&
  ((fix prefix (a b : list rstep) : bool :=
      match a, b with
      | [], _ | _, [] => true
      | x :: a', y :: b' => rstep_eqb x y && prefix a' b'
      end) (pl_path p) (pl_path q)).

Section Values.
Variable rest : str -> str.

(** A rule that was moved from. *)
Definition emptied (r : rule) : rule :=
  match r with mk_rule _ _ _ _ _ t o g name => mk_rule None None [] [] [] t o g (option_map rest name) end.

(** The value of an argument, and the variables afterwards. *)
Definition argument_value (S : store) (arg : argument) : option (rule * store) :=
  match arg with
  | ByCopy q => match value_at S q with Some v => Some (v, S) | None => None end
  | ByMove q => match value_at S q with Some v => Some (v, set_value S q (emptied v)) | None => None end
  end.

Definition update_at (S : store) (p : place) (f : rule -> rule) : option store :=
  match value_at S p with Some w => Some (set_value S p (f w)) | None => None end.

Definition new_variable (S : store) (x : nat) (v : rule) : option store :=
  match var_get S x with Some _ => None | None => Some ((x, v) :: S) end.

Definition flag_set (f : setter) (r : rule) : rule :=
  match f with
  | SetTag t => set_tag r t
  | SetOptional o => set_optional r o
  | SetGreedy g => set_greedy r g
  | SetTagname name => set_tagname r name
  end.

(** The variables after a statement. [None]: a variable is missing or declared
    twice; a place does not exist, also because the rule that it was part of
    has been moved away for the argument of the same call; or a rule is
    move-assigned from a part of itself, from a rule that it is part of, or
    from itself. *)
Definition effect (S : store) (st : statement) : option store :=
  match st with
  | NewTag x t o g => new_variable S x (rule_of_tag t o g)
  | NewName x name o g => new_variable S x (rule_of_name name o g)
  | NewRule x arg => match argument_value S arg with Some (v, S') => new_variable S' x v | None => None end
  | Assign p (ByCopy q) => match value_at S q with Some v => update_at S p (fun _ => v) | None => None end
  | Assign p (ByMove q) =>
      if related p q then None
      else match argument_value S (ByMove q) with Some (v, S') => update_at S' p (fun _ => v) | None => None end
  | AppendChild p arg =>
      match argument_value S arg with Some (v, S') => update_at S' p (fun w => append_child w v) | None => None end
  | AppendNext p arg =>
      match argument_value S arg with Some (v, S') => update_at S' p (fun w => append_next w v) | None => None end
  | AppendNested p _ arg =>
      match argument_value S arg with Some (v, S') => update_at S' p (fun w => append_nested w v) | None => None end
  | AppendMatch p m => update_at S p (fun w => append_match w m)
  | AppendCapture p c => update_at S p (fun w => append_capture w c)
  | SetFlag p f => update_at S p (flag_set f)
  | EndOf x => match var_get S x with Some _ => Some (var_del S x) | None => None end
  end.

Fixpoint effects (S : store) (l : list statement) : option store :=
  match l with
  | [] => Some S
  | st :: l' => match effect S st with Some S' => effects S' l' | None => None end
  end.

End Values.

(** ** Memory *)

(** At the address [a] there is a Rule of value [r]; it owns the cells [fp]. *)
Inductive reads (h : heap) : addr -> rule -> list addr -> Prop :=
| reads_rule a m c n l ms cs f1 f2 f3 f4 f5 :
    cell_get (h_cells h) a = Some (CRule m) ->
    reads_any h (o_child m) c f1 -> reads_any h (o_next m) n f2 -> reads_all h (o_nested m) l f3 ->
    reads_matches h (o_matches m) ms f4 -> reads_captures h (o_captures m) cs f5 ->
    reads h a (mk_rule c n l ms cs (o_tag m) (o_optional m) (o_greedy m) (o_name m)) (a :: f1 ++ f2 ++ f3 ++ f4 ++ f5)
with reads_any (h : heap) : option addr -> option rule -> list addr -> Prop :=
| reads_none : reads_any h None None []
| reads_some a r fp : reads h a r fp -> reads_any h (Some a) (Some r) fp
with reads_all (h : heap) : list addr -> list rule -> list addr -> Prop :=
| reads_nil : reads_all h [] [] []
| reads_cons a r fp l rs fps : reads h a r fp -> reads_all h l rs fps -> reads_all h (a :: l) (r :: rs) (fp ++ fps)
with reads_matches (h : heap) : list (option addr) -> list (option mtch) -> list addr -> Prop :=
| matches_nil : reads_matches h [] [] []
| matches_null l ms fp : reads_matches h l ms fp -> reads_matches h (None :: l) (None :: ms) fp
| matches_cons a m l ms fp : cell_get (h_cells h) a = Some (CMatch m) ->
    reads_matches h l ms fp -> reads_matches h (Some a :: l) (Some m :: ms) (a :: fp)
with reads_captures (h : heap) : list (option addr) -> list (option capture) -> list addr -> Prop :=
| captures_nil : reads_captures h [] [] []
| captures_null l cs fp : reads_captures h l cs fp -> reads_captures h (None :: l) (None :: cs) fp
| captures_cons a c l cs fp : cell_get (h_cells h) a = Some (CCapture c) ->
    reads_captures h l cs fp -> reads_captures h (Some a :: l) (Some c :: cs) (a :: fp).

(** The variables of the machine have the values of the store. Every living
    cell is owned by exactly one of them, exactly once. Every address that was
    ever used is either alive or was given back, exactly once. *)
Inductive variables_hold (h : heap) : list (nat * addr) -> store -> list addr -> Prop :=
| hold_nil : variables_hold h [] [] []
| hold_cons x a r fp l S fps : reads h a r fp -> variables_hold h l S fps ->
    variables_hold h ((x, a) :: l) ((x, r) :: S) (fp ++ fps).

Definition alive (h : heap) : list addr := map fst (h_cells h).

Definition sound (s : machine) (S : store) : Prop :=
  (exists fps, variables_hold (mem s) (env s) S fps /\ Permutation fps (alive (mem s))) /\
  Permutation (h_freed (mem s) ++ alive (mem s)) (seq 0 (h_fresh (mem s))).
