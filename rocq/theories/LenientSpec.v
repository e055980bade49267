(** What a regex library can do to the parser (C97). *)

From Coq Require Import Ascii String NArith ZArith Bool List.
From Verif Require Import Base Values RegexSpec.
Import ListNotations.

(** A library that accepts everything. *)
Definition lenient : engine := mk_engine (fun _ => None) (fun _ _ => None) (fun _ _ _ => None).

(** The error for a regex that the library rejects. *)
Definition regex_error (E : engine) (rx : regex) (e : exn) : Prop :=
  exists error loc, eng_compile E rx = Some error /\
    e = SyntaxError (s "In regular expression " ++ loc ++ ["010"%char] ++ s "Error: " ++ error).
