(** Model of the maps of the script languages that have names with a special
    meaning: objects of JavaScript (nodejs/src/Rule.cpp 157-191) and arrays of
    PHP (php/phphext.i 31-63). Python's dicts and Ruby's hashes have none; for
    them see [convert_map]. *)

From Coq Require Import Ascii String NArith ZArith Bool List.
From Verif Require Import Base Match RuleMatching Convert.
Import ListNotations.
Open Scope outcome_scope.

(** The loop over one map, as [convert_loop], for any kind of map. *)
Fixpoint script_loop {M} (set : M -> str -> member -> M) (h : handover) (fuel : nat)
    (m it : ResultMap) (obj : M) : outcome M :=
  match it with
  | [] => Ok obj
  | (name, value) :: it' =>
      match fuel with
      | O => OutOfFuel
      | S f =>
          if Nat.ltb (multimap_count m name) 2 then
            script_loop set h f m it' (set obj (on_name h name) (One (on_single h value)))
          else
            let lower := lower_bound m name in
            let upper := upper_bound m name in
            script_loop set h f m upper
              (set obj (on_name h name)
                 (Many (map (fun x => on_listed h (snd x)) (range_between lower upper))))
      end
  end.

(** Digits without leading zeros, and their value. *)
Definition digit_value (c : ascii) : option N :=
  let n := N_of_ascii c in if ((48 <=? n) && (n <=? 57))%N then Some (n - 48)%N else None.
Fixpoint digits_value (acc : N) (x : str) : option N :=
  match x with
  | [] => Some acc
  | c :: x' => match digit_value c with Some d => digits_value (10 * acc + d) x' | None => None end
  end.
Definition canonical (x : str) : option N :=
  match x with
  | [] => None
  | "0"%char :: _ :: _ => None
  | _ => digits_value 0 x
  end.

(** ** JavaScript *)

(** An object: its own properties in the order of their creation, and its
    prototype if that is not Object.prototype. *)
Record js_object := mk_js { js_own : object; js_proto : option (list str) }.

(** Napi::Object::Set, which is [[Set]] of ECMAScript. Object.prototype has one
    accessor that is visible through every object, "__proto__": its setter
    replaces the prototype if the value is an object (an array is one) and does
    nothing if it is a string. All other properties of Object.prototype, and
    those of an array that became the prototype, are writable values, which
    [[Set]] shadows by a new property. *)
Definition js_set (o : js_object) (name : str) (v : member) : js_object :=
  if str_eqb name (s "__proto__") then
    match v with
    | One _ => o
    | Many vs => mk_js (js_own o) (Some vs)
    end
  else mk_js (object_set (js_own o) name v) (js_proto o).

(** The object for one map, nodejs/src/Rule.cpp 160-187. *)
Definition js_map (m : ResultMap) : outcome js_object :=
  script_loop js_set node_handover (length m) m m (mk_js [] None).

(** An array index: a number below 2^32-1. *)
Definition array_index (name : str) : option N :=
  match canonical name with
  | Some n => if (n <? 4294967295)%N then Some n else None
  | None => None
  end.

(** [[OwnPropertyKeys]], the order of Object.keys, for-in and JSON.stringify:
    array indices first, ascending, then the others in the order of their
    creation. *)
Fixpoint insert_index (n : N) (x : str * member) (l : list (N * (str * member))) : list (N * (str * member)) :=
  match l with
  | [] => [(n, x)]
  | (n', y) :: l' => if (n <? n')%N then (n, x) :: l else (n', y) :: insert_index n x l'
  end.
Fixpoint js_indices (own : object) : list (N * (str * member)) :=
  match own with
  | [] => []
  | x :: own' => match array_index (fst x) with
                 | Some n => insert_index n x (js_indices own')
                 | None => js_indices own'
                 end
  end.
Definition own_properties (o : js_object) : object :=
  map snd (js_indices (js_own o)) ++
  filter (fun x => match array_index (fst x) with Some _ => false | None => true end) (js_own o).

(** ** PHP *)

(** A key of an array. *)
Inductive php_key := PhpInt (n : Z) | PhpString (x : str).

(** What add_assoc_string, add_assoc_zval and a script's [$map["name"]] do with a
    name: decimal integers in the range of a 64 bit integer are integers. *)
Definition LONG_LIMIT : Z := 9223372036854775808.
Definition to_key (name : str) : php_key :=
  match name with
  | "-"%char :: x =>
      match canonical x with
      | Some n => if ((1 <=? Z.of_N n) && (Z.of_N n <=? LONG_LIMIT))%Z then PhpInt (- Z.of_N n) else PhpString name
      | None => PhpString name
      end
  | _ =>
      match canonical name with
      | Some n => if (Z.of_N n <? LONG_LIMIT)%Z then PhpInt (Z.of_N n) else PhpString name
      | None => PhpString name
      end
  end.

Definition key_eqb (a b : php_key) : bool :=
  match a, b with
  | PhpInt m, PhpInt n => Z.eqb m n
  | PhpString x, PhpString y => str_eqb x y
  | _, _ => false
  end.

(** An array: its entries in the order of their insertion. *)
Definition php_array := list (php_key * member).

Fixpoint php_get (a : php_array) (k : php_key) : option member :=
  match a with
  | [] => None
  | (k', v) :: a' => if key_eqb k' k then Some v else php_get a' k
  end.
Fixpoint php_update (a : php_array) (k : php_key) (v : member) : php_array :=
  match a with
  | [] => [(k, v)]
  | (k', w) :: a' => if key_eqb k' k then (k', v) :: a' else (k', w) :: php_update a' k v
  end.
Definition php_set (a : php_array) (name : str) (v : member) : php_array := php_update a (to_key name) v.

(** The array for one map, php/phphext.i 31-60. *)
Definition php_map (m : ResultMap) : outcome php_array :=
  script_loop php_set php_handover (length m) m m [].

(** json_encode, as php/htmlext.php 71 calls it: an array with the keys 0, 1, 2
    and so on in this order is written as a list, every other one as an
    object. *)
Fixpoint is_list_from (n : Z) (a : php_array) : bool :=
  match a with
  | [] => true
  | (PhpInt k, _) :: a' => Z.eqb k n && is_list_from (n + 1) a'
  | (PhpString _, _) :: _ => false
  end.
Definition encoded_as_list (a : php_array) : bool := is_list_from 0 a.
