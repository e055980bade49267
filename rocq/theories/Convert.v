(** Model of the conversions of a result: htmlext/htmlext/Json.cpp and the
    Node, Python, Ruby and PHP bindings (libhext/bindings). *)

From Coq Require Import Ascii String NArith ZArith Bool List.
From Verif Require Import Base Match RuleMatching.
Import ListNotations.

(** A member of a converted map: one string, or a list of strings. *)
Inductive member : Type :=
| One (v : str)
| Many (vs : list str).

(** A converted map: the members in the order in which they were added.

    Simplification: rapidjson objects, Python dicts, Ruby hashes and PHP arrays
    keep that order. Objects of JavaScript do so for keys that are no array
    index. The special treatment of the key "__proto__" in JavaScript and of
    numeric keys in PHP is modelled in Scripts.v. The conversion between UTF-8
    and the strings of the script language is not modelled. *)
Definition object := list (str * member).

(** ** htmlext/htmlext/Json.cpp *)

(** rapidjson::Value::FindMember: the first member of that name. *)
Fixpoint FindMember (obj : object) (name : str) : option member :=
  match obj with
  | [] => None
  | (k, v) :: obj' => if str_eqb k name then Some v else FindMember obj' name
  end.

(** Assignment through obj[name], for a member that exists. *)
Fixpoint SetMember (obj : object) (name : str) (v : member) : object :=
  match obj with
  | [] => []
  | (k, w) :: obj' => if str_eqb k name then (k, v) :: obj' else (k, w) :: SetMember obj' name v
  end.

(** The body of the inner loop, Json.cpp 35-57. The strings are handed over as
    [c_str()]. *)
Definition json_add (obj : object) (p : result_pair) : object :=
  let name := c_str (fst p) in
  let value := c_str (snd p) in
  match FindMember obj name with
  | Some (Many vs) => SetMember obj name (Many (vs ++ [value]))
  | Some (One v) => SetMember obj name (Many [v; value])
  | None => obj ++ [(name, One value)]
  end.

(** The object for one map, Json.cpp 31-60. *)
Definition json_object (m : ResultMap) : object := fold_left json_add m [].

(** The array for all maps, Json.cpp 25-61. *)
Definition json_array (result : list ResultMap) : list object := map json_object result.

(** JsonOption, Json.h *)
Record json_option := mk_json_option { PrettyPrint : bool; ArrayEnvelope : bool }.

(** What is given to PrintJsonValue: an object, or the whole document. *)
Inductive json_value : Type :=
| JObject (o : object)
| JArray (l : list object).

Definition newline : str := ["010"%char].

(** PrintJson, Json.cpp 25-84. [writer] is the text that rapidjson::Writer or
    rapidjson::PrettyWriter (if the flag is set) puts into the buffer. *)
Definition PrintJson (writer : bool -> json_value -> str) (opt : json_option)
    (result : list ResultMap) : str :=
  let doc := json_array result in
  let print v := c_str (writer (PrettyPrint opt) v) ++ newline in
  if ArrayEnvelope opt then
    match doc with
    | [] => []
    | _ :: _ => print (JArray doc)
    end
  else concat (map (fun o => print (JObject o)) doc).

(** ** The bindings *)

(** std::multimap::count, lower_bound and upper_bound, given the iterator as
    the rest of the sequence. *)
Definition multimap_count (m : ResultMap) (name : str) : nat :=
  length (filter (fun x => negb (str_ltb (fst x) name) && negb (str_ltb name (fst x))) m).
Fixpoint lower_bound (m : ResultMap) (name : str) : ResultMap :=
  match m with
  | [] => []
  | x :: m' => if str_ltb (fst x) name then lower_bound m' name else m
  end.
Fixpoint upper_bound (m : ResultMap) (name : str) : ResultMap :=
  match m with
  | [] => []
  | x :: m' => if str_ltb name (fst x) then m else upper_bound m' name
  end.

(** The elements from one iterator up to another one. *)
Definition range_between (from to_ : ResultMap) : ResultMap :=
  firstn (length from - length to_) from.

(** Setting a key replaces the value of an existing key. *)
Definition object_set (obj : object) (name : str) (v : member) : object :=
  match FindMember obj name with
  | Some _ => SetMember obj name v
  | None => obj ++ [(name, v)]
  end.

(** How the strings are handed over: a binding may cut a string at NUL. *)
Record handover := mk_handover { on_name : str -> str; on_single : str -> str; on_listed : str -> str }.

(** nodejs/src/Rule.cpp 157-191: std::string is given to Napi::String::New. *)
Definition node_handover : handover := mk_handover (fun x => x) (fun x => x) (fun x => x).
(** python/pyhext.i 69-116: PyString_FromString, PyDict_SetItemString. *)
Definition python_handover : handover := mk_handover c_str c_str c_str.
(** ruby/rbhext.i 31-59: rb_enc_str_new with sizes. *)
Definition ruby_handover : handover := mk_handover (fun x => x) (fun x => x) (fun x => x).
(** php/phphext.i 31-63: add_assoc_string, add_next_index_stringl with size. *)
Definition php_handover : handover := mk_handover c_str c_str (fun x => x).

(** The loop over one map. [it] is the iterator, the fuel bounds the number of
    rounds (one per element is enough, see C47). *)
Fixpoint convert_loop (h : handover) (fuel : nat) (m it : ResultMap) (obj : object) : outcome object :=
  match it with
  | [] => Ok obj
  | (name, value) :: it' =>
      match fuel with
      | O => OutOfFuel
      | S f =>
          if Nat.ltb (multimap_count m name) 2 then
            convert_loop h f m it' (object_set obj (on_name h name) (One (on_single h value)))
          else
            let lower := lower_bound m name in
            let upper := upper_bound m name in
            convert_loop h f m upper
              (object_set obj (on_name h name)
                 (Many (map (fun x => on_listed h (snd x)) (range_between lower upper))))
      end
  end.
Definition convert_map (h : handover) (m : ResultMap) : outcome object :=
  convert_loop h (length m) m m [].

(** ** The search limit in the Node binding *)

(** A JavaScript number. Finite ones are [m * 2^e]. *)
Inductive js_number : Type :=
| JsNaN
| JsInfinity (negative : bool)
| JsFinite (m e : Z).

(** The number without its fraction. *)
Definition js_truncate (m e : Z) : Z :=
  if (0 <=? e)%Z then (m * 2 ^ e)%Z else Z.quot m (2 ^ (- e)).

(** Napi::Number::Uint32Value: napi_get_value_uint32 does the conversion
    ToUint32 of ECMAScript. *)
Definition Uint32Value (x : js_number) : N :=
  match x with
  | JsFinite m e => Z.to_N (js_truncate m e mod UINT_MOD)
  | _ => 0%N
  end.

(** nodejs/src/Rule.cpp 79-96: the limit that is given to Rule::extract. *)
Definition node_max_searches (arg : option js_number) : N :=
  match arg with
  | None => 0%N
  | Some x => Uint32Value x
  end.
