(** The regexes of a rule, and engines that agree on them (C95). *)

From Coq Require Import Ascii String NArith ZArith Bool List.
From Verif Require Import Base Values Match Rule.
Import ListNotations.

(** How a rule uses a regex. *)
Inductive use := Searches (rx : regex) | Replaces (rx : regex) (format : str).
Definition use_regex (u : use) : regex := match u with Searches rx => rx | Replaces rx _ => rx end.

Definition of_option {A} (f : A -> list use) (o : option A) : list use := match o with Some a => f a | None => [] end.

Fixpoint test_uses (t : vtest) : list use :=
  match t with RegexTest rx => [Searches rx] | NegateTest (Some t') => test_uses t' | _ => [] end.
Fixpoint condition_uses (m : mtch) : list use :=
  match m with
  | AttributeMatch _ t | FunctionValueMatch _ t => of_option test_uses t
  | NegateMatch ms => flat_map (fun o => match o with Some m' => condition_uses m' | None => [] end) ms
  | TypeRegexMatch rx => [Searches rx]
  | _ => []
  end.
Definition transform_uses (t : transform) : list use :=
  match t with RegexPipe rx => [Searches rx] | RegexReplacePipe rx format => [Replaces rx format] | _ => [] end.
Fixpoint pipe_uses (p : pipe) : list use :=
  match p with Pipe t next => transform_uses t ++ match next with Some p' => pipe_uses p' | None => [] end end.
Definition capture_uses (c : capture) : list use :=
  match c with AttributeCapture _ _ p | FunctionCapture _ _ p => of_option pipe_uses p end.

(** Those of the conditions and captures of one rule, and of a tree of rules. *)
Definition own_uses (ms : list (option mtch)) (cs : list (option capture)) : list use :=
  flat_map (of_option condition_uses) ms ++ flat_map (of_option capture_uses) cs.
Fixpoint rule_uses (r : rule) : list use :=
  match r with
  | mk_rule child next nested ms cs _ _ _ _ =>
      own_uses ms cs ++
      match child with Some r' => rule_uses r' | None => [] end ++
      flat_map rule_uses nested ++
      match next with Some r' => rule_uses r' | None => [] end
  end.

(** Two libraries that do the same with the regexes [l]. *)
Definition agree (E E' : engine) (l : list use) : Prop :=
  (forall rx, In (Searches rx) l -> forall x, eng_search E rx x = eng_search E' rx x) /\
  (forall rx format, In (Replaces rx format) l -> forall x, eng_replace E rx x format = eng_replace E' rx x format).

(** The library accepts the regexes [l]. *)
Definition accepts (E : engine) (l : list use) : Prop := forall u, In u l -> eng_compile E (use_regex u) = None.

(** The library never gives up on the regexes [l]. *)
Definition answers (E : engine) (l : list use) : Prop :=
  (forall rx, In (Searches rx) l -> forall x, eng_search E rx x <> None) /\
  (forall rx format, In (Replaces rx format) l -> forall x, eng_replace E rx x format <> None).
