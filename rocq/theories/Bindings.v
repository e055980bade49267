(** Model of the entry points of the bindings: libhext/bindings/wrapper,
    the %exception blocks of python/pyhext.i 123-144, ruby/rbhext.i 62-82 and
    php/phphext.i 66-86 (all the same), and libhext/bindings/nodejs/src. *)

From Coq Require Import Ascii String NArith ZArith Bool List.
From Verif Require Import Base Dom Values Match Rule RuleMatching Parser Convert.
Import ListNotations.
Open Scope outcome_scope.

(** What a call from the script language leads to: a value, an exception of the
    script language, or a C++ exception that leaves the binding. *)
Inductive error_kind := ValueError | RuntimeError | TypeError | PlainError.
Inductive bound (A : Type) : Type :=
| Returns (v : A)
| Raises (k : error_kind) (msg : str)
| Escapes (e : exn).
Arguments Returns {A}.
Arguments Raises {A}.
Arguments Escapes {A}.

Section Bindings.

Variable E : engine.
(** Html::Html and Html::root (Html.cpp 23-49): the document and its root; null
    if Gumbo returns null. *)
Variable gumbo : str -> node * nptr.
(** e.what() of a MaxSearchError, RuleMatching.cpp 35 *)
Definition limit_text : str := s "The allowed amount of searches was exhausted".

(** ** Python, Ruby and PHP *)

(** wrapper/Rule.cpp 19-22 in %exception Rule::Rule *)
Definition swig_new_rule (text : str) : outcome (bound rule) :=
  match ParseHext E text with
  | Ok r => Ok (Returns r)
  | Throw (SyntaxError m) => Ok (Raises ValueError (c_str m))
  | Throw e => Ok (Escapes e)
  | UB u => UB u
  | OutOfFuel => OutOfFuel
  end.

(** wrapper/Rule.cpp 24-28 in %exception Rule::extract *)
Definition swig_extract (fuel : nat) (R : rule) (html : node * nptr) (max_searches : N) : outcome (bound (list ResultMap)) :=
  match extract fuel E R (fst html) (snd html) max_searches with
  | Ok result => Ok (Returns result)
  | Throw MaxSearchError => Ok (Raises RuntimeError (limit_text))
  | Throw e => Ok (Escapes e)
  | UB u => UB u
  | OutOfFuel => OutOfFuel
  end.

(** ** Node *)

(** The values that matter. [JsHtml]: an object with the type tag of Html,
    whose member [html_] may be null. *)
Inductive js_value : Type :=
| JsString (x : str)
| JsNumber (x : js_number)
| JsHtml (html_ : option (node * nptr))
| JsObject
| JsPrimitive.

(** nodejs/src/Html.cpp 18-55. [tagged]: whether napi_type_tag_object works. *)
Definition node_new_html (tagged : bool) (args : list js_value) : bound js_value :=
  match args with
  | [] => Raises TypeError (s "Argument error: invalid argument, expected String")
  | JsString x :: _ =>
      if tagged then Returns (JsHtml (Some (gumbo x)))
      else Raises PlainError (s "Internal error: type tagging failed")
  | _ :: _ => Raises TypeError (s "Argument error: missing argument, expected String")
  end.

(** nodejs/src/Rule.cpp 25-61 *)
Definition node_new_rule (args : list js_value) : outcome (bound rule) :=
  match args with
  | [] => Ok (Raises TypeError (s "Argument error: missing argument, expected String"))
  | JsString x :: _ =>
      match ParseHext E (c_str x) with
      | Ok r => Ok (Returns r)
      | Throw (SyntaxError m) => Ok (Raises PlainError (s "Hext syntax error: " ++ c_str m))
      | Throw e => Ok (Escapes e)
      | UB u => UB u
      | OutOfFuel => OutOfFuel
      end
  | _ :: _ => Ok (Raises TypeError (s "Argument error: invalid argument, expected String"))
  end.

(** nodejs/src/Rule.cpp 154-187 *)
Fixpoint node_objects (result : list ResultMap) : outcome (list object) :=
  match result with
  | [] => Ok []
  | m :: result' =>
      let! o := convert_map node_handover m in
      let! l := node_objects result' in
      Ok (o :: l)
  end.

(** A member access through a pointer. *)
Definition at_pointer {A B} (p : option A) (f : A -> outcome B) : outcome B :=
  match p with
  | Some x => f x
  | None => UB NullDeref
  end.

(** Html::root, nodejs/src/Html.h 33-39 *)
Definition node_root (html_ : option (node * nptr)) : nptr :=
  match html_ with
  | None => None
  | Some doc => snd doc
  end.

(** nodejs/src/Rule.cpp 141-187; [rule_] and [html_] are dereferenced. *)
Definition node_run (fuel : nat) (rule_ : option rule) (html_ : option (node * nptr)) (max_searches : N)
  : outcome (bound (list object)) :=
  at_pointer rule_ (fun R =>
  at_pointer html_ (fun doc =>
    match extract fuel E R (fst doc) (snd doc) max_searches with
    | Ok result => let! l := node_objects result in Ok (Returns l)
    | Throw MaxSearchError => Ok (Raises PlainError (s "Error: " ++ limit_text))
    | Throw e => Ok (Escapes e)
    | UB u => UB u
    | OutOfFuel => OutOfFuel
    end)).

(** nodejs/src/Rule.cpp 98-140: the first argument. *)
Definition node_run_on (fuel : nat) (rule_ : option rule) (arg : js_value) (max_searches : N)
  : outcome (bound (list object)) :=
  match arg with
  | JsHtml html_ =>
      match node_root html_ with
      | None => Ok (Raises TypeError (s "Internal Error: html_ is uninitialized"))
      | Some _ => node_run fuel rule_ html_ max_searches
      end
  | JsObject => Ok (Raises TypeError (s "Argument error: invalid argument, expected hext.Html"))
  | _ => Ok (Raises PlainError (s "Internal error: napi_check_object_type_tag failed"))
  end.

(** nodejs/src/Rule.cpp 63-188. [rule_] is null if the constructor did not
    finish. *)
Definition node_extract (fuel : nat) (rule_ : option rule) (args : list js_value) : outcome (bound (list object)) :=
  match rule_ with
  | None => Ok (Raises TypeError (s "Internal Error: rule_ is uninitialized"))
  | Some _ =>
      match args with
      | [] => Ok (Raises TypeError (s "Argument error: missing argument, expected hext.Html"))
      | [html] => node_run_on fuel rule_ html (node_max_searches None)
      | html :: JsNumber x :: _ => node_run_on fuel rule_ html (node_max_searches (Some x))
      | _ :: _ :: _ =>
          Ok (Raises TypeError (s "Argument error: Optional argument 'max_searches' must be a number"))
      end
  end.

End Bindings.
