(** Model of the text that rapidjson writes: Writer and PrettyWriter with their
    default parameters (external, from rapidjson 1.1.0), as PrintJsonValue uses
    them, htmlext/htmlext/Json.cpp 87-105. *)

From Coq Require Import Ascii String NArith ZArith Bool List.
From Verif Require Import Base Match RuleMatching Convert.
Import ListNotations.

Definition dquote : ascii := "034"%char.

(** Writer::WriteString: the table [escape] and the digits. A byte without an
    entry is copied; nothing is said about its encoding (the flag
    kWriteValidateEncodingFlag is not set by default). *)
Definition hex_char (n : N) : ascii :=
  if (n <? 10)%N then ascii_of_N (48 + n) else ascii_of_N (55 + n).
Definition escape (c : ascii) : str :=
  let n := N_of_ascii c in
  if Ascii.eqb c dquote then s "\" ++ [dquote]
  else if Ascii.eqb c "\"%char then s "\\"
  else if (n =? 8)%N then s "\b"
  else if (n =? 9)%N then s "\t"
  else if (n =? 10)%N then s "\n"
  else if (n =? 12)%N then s "\f"
  else if (n =? 13)%N then s "\r"
  else if (n <? 32)%N then s "\u00" ++ [hex_char (n / 16); hex_char (n mod 16)]
  else [c].
Definition write_string (x : str) : str := [dquote] ++ concat (map escape x) ++ [dquote].

(** Writer::Level: one for every array or object that is open. *)
Record level := mk_level { in_array : bool; value_count : nat }.

(** A writer: what is in the buffer, and the stack of levels (last one first).
    [pretty]: it is a PrettyWriter. *)
Record json_writer := mk_writer { w_pretty : bool; w_buffer : str; w_levels : list level }.

Definition put (w : json_writer) (x : str) : json_writer := mk_writer (w_pretty w) (w_buffer w ++ x) (w_levels w).

(** PrettyWriter::WriteIndent, four blanks per level. *)
Definition indent (levels : list level) : str := concat (map (fun _ => s "    ") levels).

(** Writer::Prefix and PrettyWriter::PrettyPrefix: what separates a value from
    the one before it. *)
Definition separator (pretty : bool) (levels : list level) : str :=
  match levels with
  | [] => []
  | l :: _ =>
      let first := Nat.eqb (value_count l) 0 in
      let even := Nat.even (value_count l) in
      if pretty
      then if in_array l
           then (if first then [] else s ",") ++ newline ++ indent levels
           else (if first then newline else if even then s "," ++ newline else s ": ")
                ++ (if even then indent levels else [])
      else if first then []
      else if in_array l then s "," else if even then s "," else s ":"
  end.
Definition prefix (w : json_writer) : json_writer :=
  let w' := put w (separator (w_pretty w) (w_levels w)) in
  match w_levels w with
  | [] => w'
  | l :: ls => mk_writer (w_pretty w') (w_buffer w') (mk_level (in_array l) (S (value_count l)) :: ls)
  end.

(** String, Key, StartObject, EndObject, StartArray, EndArray. *)
Definition on_string (w : json_writer) (x : str) : json_writer := put (prefix w) (write_string x).
Definition on_start (array : bool) (w : json_writer) : json_writer :=
  let w' := prefix w in
  put (mk_writer (w_pretty w') (w_buffer w') (mk_level array 0 :: w_levels w')) (if array then s "[" else s "{").
Definition on_end (array : bool) (w : json_writer) : json_writer :=
  match w_levels w with
  | [] => w
  | l :: ls =>
      let w1 := mk_writer (w_pretty w) (w_buffer w) ls in
      let w2 := if w_pretty w && negb (Nat.eqb (value_count l) 0) then put w1 (newline ++ indent ls) else w1 in
      put w2 (if array then s "]" else s "}")
  end.

(** Value::Accept: strings, arrays of strings, objects, arrays of objects. *)
Definition accept_member (w : json_writer) (m : member) : json_writer :=
  match m with
  | One v => on_string w v
  | Many vs => on_end true (fold_left on_string vs (on_start true w))
  end.
Definition accept_object (w : json_writer) (o : object) : json_writer :=
  on_end false (fold_left (fun w kv => accept_member (on_string w (fst kv)) (snd kv)) o (on_start false w)).
Definition accept (w : json_writer) (v : json_value) : json_writer :=
  match v with
  | JObject o => accept_object w o
  | JArray l => on_end true (fold_left accept_object l (on_start true w))
  end.

(** The buffer that PrintJsonValue prints, Json.cpp 92-102. *)
Definition rapidjson (pretty : bool) (v : json_value) : str := w_buffer (accept (mk_writer pretty [] []) v).
