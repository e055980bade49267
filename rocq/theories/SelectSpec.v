(** Rules that differ only in their captures (C83). *)

From Coq Require Import Ascii String NArith ZArith Bool List Sorted Permutation.
From Verif Require Import Base Dom Values Match Rule RuleMatching ExtractSpec RewriteSpec.
Import ListNotations.

(** The rule with other captures everywhere. *)
Fixpoint with_captures (f : list (option capture) -> list (option capture)) (r : rule) : rule :=
  match r with
  | mk_rule c n l ms cs t o g name =>
      mk_rule (option_map (with_captures f) c) (option_map (with_captures f) n) (map (with_captures f) l) ms (f cs) t o g name
  end.

(** The rule without captures. *)
Definition bare : rule -> rule := with_captures (fun _ => []).

(** Only the captures whose names are wanted. *)
Definition select (keep : str -> bool) : rule -> rule :=
  with_captures (filter (fun c => match c with Some c' => keep (stores_as c') | None => false end)).

(** The captures under other names. *)
Definition rename_capture (f : str -> str) (c : capture) : capture :=
  match c with
  | AttributeCapture a name p => AttributeCapture a (f name) p
  | FunctionCapture g name p => FunctionCapture g (f name) p
  end.
Definition rename (f : str -> str) : rule -> rule := with_captures (map (option_map (rename_capture f))).

(** A pipe behind the others for the captures with some names. *)
Definition pipe_behind (p : option pipe) (q : pipe) : option pipe :=
  match p with Some p' => Some (pipe_append p' (Some q)) | None => Some q end.
Definition pipe_capture (names : str -> bool) (q : pipe) (c : capture) : capture :=
  match c with
  | AttributeCapture a name p => if names name then AttributeCapture a name (pipe_behind p q) else c
  | FunctionCapture g name p => if names name then FunctionCapture g name (pipe_behind p q) else c
  end.
Definition piped (names : str -> bool) (q : pipe) : rule -> rule := with_captures (map (option_map (pipe_capture names q))).

(** A map under other names: the values of a name are those of the old name. *)
Definition renamed (f : str -> str) (m m' : ResultMap) : Prop :=
  StronglySorted name_le m' /\ Permutation m' (map (fun x => (f (fst x), snd x)) m) /\
  forall name, values_of (f name) m' = values_of name m.

(** A value after the pipe. *)
Definition through (names : str -> bool) (g : str -> str) (x : result_pair) : result_pair :=
  if names (fst x) then (fst x, g (snd x)) else x.
