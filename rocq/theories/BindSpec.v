(** Vocabulary for the statements about the bindings. *)

From Coq Require Import Ascii String NArith ZArith Bool List.
From Verif Require Import Base Dom Values Match Rule RuleMatching ExtractSpec Convert ConvertSpec ParserSpec Parser Bindings.
Import ListNotations.

(** The model's step bound does not matter. *)
Definition eventually {A} (run : nat -> outcome A) (o : outcome A) : Prop :=
  exists f0, forall f, f0 <= f -> run f = o.

(** What may come of constructing a rule from [text]. *)
Definition rule_made (E : engine) (text : str) (k : error_kind) (prefix : str) (o : outcome (bound rule)) : Prop :=
  match o with
  | Ok (Returns r) => ParseHext E text = Ok r
  | Ok (Raises k' m) => k' = k /\ exists m', ParseHext E text = Throw (SyntaxError m') /\ m = prefix ++ c_str m'
  | Ok (Escapes e) => e = StdOutOfRange /\ has_big_number text
  | UB u => u = BadCtypeArgument /\ exists u c v, lexical_error text u c v /\ (128 <= N_of_ascii c < 255)%N
  | _ => False
  end.

(** What may come of extracting from a document. [value] relates the result to
    what the script language gets. *)
Definition extracted {A} (E : engine) (R : rule) (html : node * nptr) (limit : N) (k : error_kind) (msg : str)
    (value : list ResultMap -> A -> Prop) (o : outcome (bound A)) : Prop :=
  match o with
  | Ok (Returns v) => exists result, extract_yields E R (fst html) (snd html) limit (Ok result) /\ value result v
  | Ok (Raises k' m) => k' = k /\ m = msg /\ extract_yields E R (fst html) (snd html) limit (Throw MaxSearchError)
  | Ok (Escapes e) => e = RegexRuntimeError /\ ~ engine_total E
  | UB u => u = IntOverflow /\ forall size, small_document size (fst html) -> ~ rule_params_safe size R
  | _ => False
  end.

(** A document whose root, if there is one, is a node below the document node. *)
Definition proper_root (html : node * nptr) : Prop :=
  match snd html with
  | None => True
  | Some p => p <> [] /\ nget (fst html) p <> None
  end.

(** The calls of extract in Node with proper arguments. *)
Inductive proper_call (rule_ : option rule) (args : list js_value) : rule -> node * nptr -> N -> Prop :=
| call_without R D p : rule_ = Some R -> args = [JsHtml (Some (D, Some p))] -> proper_call rule_ args R (D, Some p) 0
| call_limited R D p x rest : rule_ = Some R -> args = JsHtml (Some (D, Some p)) :: JsNumber x :: rest ->
    proper_call rule_ args R (D, Some p) (node_max_searches (Some x)).
