(** The language JSON (RFC 8259) and what a text in it means. *)

From Coq Require Import Ascii String NArith ZArith Bool List.
From Verif Require Import Base Match RuleMatching ExtractSpec Convert ConvertSpec.
Import ListNotations.

(** A value. An object is the list of its members, in the order of the text.
    Numbers, true, false and null are represented by their text. *)
Inductive json : Type :=
| JText (x : str)
| JList (l : list json)
| JMembers (l : list (str * json))
| JWord (x : str).

Definition blank (c : ascii) : Prop := In (N_of_ascii c) [32; 9; 10; 13]%N.
Definition blanks (w : str) : Prop := Forall blank w.

(** The characters of numbers and words; every number, and true, false and null
    are such a word. *)
Definition word_char (c : ascii) : Prop :=
  let n := N_of_ascii c in
  (48 <= n <= 57 \/ 65 <= n <= 90 \/ 97 <= n <= 122)%N \/ In n [43; 45; 46]%N.

(** ** Strings *)

Definition digit (c : ascii) (n : N) : Prop :=
  let k := N_of_ascii c in
  (48 <= k <= 57 /\ n = k - 48)%N \/ (65 <= k <= 70 /\ n = k - 55)%N \/ (97 <= k <= 102 /\ n = k - 87)%N.
Definition four_digits (t : str) (n : N) : Prop :=
  exists c1 c2 c3 c4 n1 n2 n3 n4, t = [c1; c2; c3; c4] /\ digit c1 n1 /\ digit c2 n2 /\ digit c3 n3 /\ digit c4 n4 /\
    n = (((n1 * 16 + n2) * 16 + n3) * 16 + n4)%N.

(** The bytes of a code point in UTF-8. *)
Definition bytes_of (n : N) : str :=
  map ascii_of_N
    (if n <? 128 then [n]
     else if n <? 2048 then [192 + n / 64; 128 + n mod 64]
     else if n <? 65536 then [224 + n / 4096; 128 + n / 64 mod 64; 128 + n mod 64]
     else [240 + n / 262144; 128 + n / 4096 mod 64; 128 + n / 64 mod 64; 128 + n mod 64])%N.

(** The bytes that one character of a string stands for. A code point above
    65535 is written as two surrogates. *)
Inductive char_means : str -> str -> Prop :=
| plain c : (32 <= N_of_ascii c)%N -> c <> """"%char -> c <> "\"%char -> char_means [c] [c]
| escaped e n : In (e, n) [("""", 34); ("\", 92); ("/", 47); ("b", 8); ("f", 12); ("n", 10); ("r", 13); ("t", 9)]%char%N ->
    char_means ["\"%char; e] [ascii_of_N n]
| code t n : four_digits t n -> ~ (55296 <= n <= 57343)%N -> char_means (s "\u" ++ t) (bytes_of n)
| pair t1 n1 t2 n2 : four_digits t1 n1 -> (55296 <= n1 <= 56319)%N -> four_digits t2 n2 -> (56320 <= n2 <= 57343)%N ->
    char_means (s "\u" ++ t1 ++ s "\u" ++ t2) (bytes_of (65536 + (n1 - 55296) * 1024 + (n2 - 56320))).
Inductive chars_mean : str -> str -> Prop :=
| chars_nil : chars_mean [] []
| chars_cons t x ts xs : char_means t x -> chars_mean ts xs -> chars_mean (t ++ ts) (x ++ xs).
Inductive string_means : str -> str -> Prop :=
| quoted t x : chars_mean t x -> string_means (s """" ++ t ++ s """") x.

(** ** Values *)

Inductive means : str -> json -> Prop :=
| means_text t x : string_means t x -> means t (JText x)
| means_word t : t <> [] -> Forall word_char t -> means t (JWord t)
| means_list t l : items t l -> means (s "[" ++ t ++ s "]") (JList l)
| means_members t l : members t l -> means (s "{" ++ t ++ s "}") (JMembers l)
with items : str -> list json -> Prop :=
| items_none w : blanks w -> items w []
| items_last w1 t w2 v : blanks w1 -> means t v -> blanks w2 -> items (w1 ++ t ++ w2) [v]
| items_more w1 t w2 v ts l : blanks w1 -> means t v -> blanks w2 -> items ts l -> l <> [] ->
    items (w1 ++ t ++ w2 ++ s "," ++ ts) (v :: l)
with members : str -> list (str * json) -> Prop :=
| members_none w : blanks w -> members w []
| members_last w1 k w2 w3 t w4 key v : blanks w1 -> string_means k key -> blanks w2 -> blanks w3 -> means t v -> blanks w4 ->
    members (w1 ++ k ++ w2 ++ s ":" ++ w3 ++ t ++ w4) [(key, v)]
| members_more w1 k w2 w3 t w4 key v ts l : blanks w1 -> string_means k key -> blanks w2 -> blanks w3 -> means t v -> blanks w4 ->
    members ts l -> l <> [] ->
    members (w1 ++ k ++ w2 ++ s ":" ++ w3 ++ t ++ w4 ++ s "," ++ ts) ((key, v) :: l).

(** Texts one after the other, each an object or an array, with blanks between
    them. *)
Definition closed (v : json) : Prop := match v with JList _ | JMembers _ => True | _ => False end.
Inductive stream : str -> list json -> Prop :=
| stream_end w : blanks w -> stream w []
| stream_next w t v ts l : blanks w -> means t v -> closed v -> stream ts l -> stream (w ++ t ++ ts) (v :: l).

(** ** Results *)

(** The value for a converted map. *)
Definition member_value (m : member) : json :=
  match m with One v => JText v | Many vs => JList (map JText vs) end.
Definition object_value (o : object) : json := JMembers (map (fun kv => (fst kv, member_value (snd kv))) o).
Definition value_of (v : json_value) : json :=
  match v with JObject o => object_value o | JArray l => JList (map object_value l) end.

(** The values that are printed for a result: one per map, or a single array
    (none if there are no maps, see C51). *)
Definition printed_values (envelope : bool) (objects : list object) : list json :=
  if envelope
  then match objects with [] => [] | _ => [JList (map object_value objects)] end
  else map object_value objects.

(** The strings in a value. *)
Fixpoint strings (v : json) : list str :=
  match v with
  | JText x => [x]
  | JList l => flat_map strings l
  | JMembers l => flat_map (fun kv => fst kv :: strings (snd kv)) l
  | JWord _ => []
  end.

(** UTF-8: the bytes of a list of code points without surrogates. *)
Definition scalar (n : N) : Prop := (n < 55296 \/ 57344 <= n < 1114112)%N.
Definition is_utf8 (x : str) : Prop := exists points, Forall scalar points /\ x = flat_map bytes_of points.

(** All names and values that are printed. *)
Definition result_utf8 (result : list ResultMap) : Prop :=
  forall m kv, In m result -> In kv m -> is_utf8 (c_str (fst kv)) /\ is_utf8 (c_str (snd kv)).
