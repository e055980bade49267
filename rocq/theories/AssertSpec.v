(** What the assertions about functions ask of a rule. *)

From Coq Require Import Bool List.
From Verif Require Import Base StringUtil Dom Values Match Rule RuleMatching ExtractSpec.
Import ListNotations.

(** No std::function in the match is empty. *)
Fixpoint functions_set (m : mtch) : Prop :=
  match m with
  | FunctionMatch f => f <> None
  | FunctionValueMatch f _ => f <> None
  | NegateMatch ms =>
      (fix all (l : list (option mtch)) : Prop :=
         match l with
         | [] => True
         | Some m' :: l' => functions_set m' /\ all l'
         | None :: l' => all l'
         end) ms
  | _ => True
  end.
Definition function_set (c : capture) : Prop :=
  match c with FunctionCapture f _ _ => f <> None | _ => True end.

Definition rule_functions_set (R : rule) : Prop :=
  forall r, rule_of R r ->
    (forall m, In (Some m) (r_matches r) -> functions_set m) /\
    (forall c, In (Some c) (r_captures r) -> function_set c).
