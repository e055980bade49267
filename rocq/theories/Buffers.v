(** The memory behind parsed documents. A hext::Html does not own the text that
    it was made of (libhext/include/hext/Html.h 54-72): the names of elements that
    Gumbo keeps ([original_tag], read in Rule.cpp 217-232, TypeRegexMatch.cpp 39
    and NodeUtil.cpp 206) are places in the text. This is a model of who keeps
    the text, and where: main of htmlext (htmlext/main.cpp 55-117) and the class
    Html of the bindings (bindings/wrapper/Html.{h,cpp},
    bindings/nodejs/src/Html.{h,cpp}). *)

From Coq Require Import Ascii String NArith ZArith Bool List.
From Verif Require Import Base.
Import ListNotations.
Open Scope outcome_scope.

(** ** Memory *)

(** A place: a block, and which of the strings in it. *)
Definition place : Type := nat * nat.

(** What an allocated block holds. *)
Inductive block : Type :=
| Freed
| Chars (x : str)                  (* the characters of one std::string *)
| Bytes (xs : list str)            (* std::string objects: the characters that each of them keeps in itself *)
| Output (from : place) (x : str)  (* a GumboOutput, made of the text [x] at [from] *)
| Other.                           (* anything that holds no text *)

Definition memory : Type := list block.

Definition allocate (b : block) (m : memory) : nat * memory := (length m, m ++ [b]).

Fixpoint overwrite (i : nat) (b : block) (m : memory) : memory :=
  match m, i with
  | [], _ => []
  | _ :: m', O => b :: m'
  | c :: m', S i' => c :: overwrite i' b m'
  end.

Definition release (i : nat) (m : memory) : outcome memory :=
  match nth_error m i with
  | None => UB BadPointer
  | Some Freed => UB DoubleFree
  | Some _ => Ok (overwrite i Freed m)
  end.

Definition release_if (i : option nat) (m : memory) : outcome memory :=
  match i with None => Ok m | Some i' => release i' m end.

Fixpoint release_all (l : list nat) (m : memory) : outcome memory :=
  match l with
  | [] => Ok m
  | i :: l' => let! m' := release i m in release_all l' m'
  end.

(** Reading the text at a place. *)
Definition load (a : place) (m : memory) : outcome str :=
  match nth_error m (fst a) with
  | Some (Chars x) => Ok x
  | Some (Bytes xs) => match nth_error xs (snd a) with Some x => Ok x | None => UB OutOfBounds end
  | _ => UB BadPointer
  end.

(** ** std::string of libstdc++: up to 15 characters are kept in the object, more
    are allocated. *)
Inductive string_rep : Type :=
| Short (x : str)
| Long (b : nat).

Definition make_string (x : str) (m : memory) : string_rep * memory :=
  if Nat.leb (length x) 15 then (Short x, m)
  else let (b, m') := allocate (Chars x) m in (Long b, m').

(** The characters inside the object. *)
Definition inside (r : string_rep) : str := match r with Short x => x | Long _ => [] end.

(** c_str() of the string that is number [k] in the block [b]. *)
Definition c_str_at (r : string_rep) (b k : nat) : place :=
  match r with Short _ => (b, k) | Long b' => (b', 0) end.

(** The text of a string that is a temporary or a local object. *)
Definition text_of (r : string_rep) (m : memory) : outcome str :=
  match r with Short x => Ok x | Long b => load (b, 0) m end.

Definition destroy_string (r : string_rep) (m : memory) : outcome memory :=
  match r with Short _ => Ok m | Long b => release b m end.

Fixpoint destroy_strings (l : list string_rep) (m : memory) : outcome memory :=
  match l with
  | [] => Ok m
  | r :: l' => let! m' := destroy_string r m in destroy_strings l' m'
  end.

(** ** std::vector *)

Record vec (A : Type) : Type := mk_vec { storage : option nat; room : nat; items : list A }.
Arguments mk_vec {A}. Arguments storage {A}. Arguments room {A}. Arguments items {A}.
Definition empty_vec {A} : vec A := mk_vec None 0 [].

(** What differs between types of elements: the block that holds them, and what
    happens when an element is moved to another block (the move constructor,
    then the destructor of the old object). *)
Record element (A : Type) : Type := mk_element {
  image : list A -> block;
  move : A -> memory -> outcome memory
}.
Arguments mk_element {A}. Arguments image {A}. Arguments move {A}.

(** The move constructor of std::string takes the allocated characters. *)
Definition string_element : element string_rep :=
  mk_element (fun l => Bytes (map inside l)) (fun _ m => Ok m).
(** A rule owns what it has allocated and passes it on (C61). It is named by the
    text that it was made of and one block for all that. *)
Definition rule_element : element (str * nat) := mk_element (fun _ => Other) (fun _ m => Ok m).
(** The defaulted move constructor of hext::Html copies the pointer, and the
    destructor of the old object destroys the output (C49). *)
Definition html_element : element nat := mk_element (fun _ => Other) release.

Fixpoint move_all {A} (K : element A) (l : list A) (m : memory) : outcome memory :=
  match l with
  | [] => Ok m
  | x :: l' => let! m' := move K x m in move_all K l' m'
  end.

(** reserve(n) *)
Definition reserve {A} (K : element A) (n : nat) (v : vec A) (m : memory) : outcome (vec A * memory) :=
  if Nat.leb n (room v) then Ok (v, m)
  else
    let (b, m1) := allocate (image K (items v)) m in
    let! m2 := move_all K (items v) m1 in
    let! m3 := release_if (storage v) m2 in
    Ok (mk_vec (Some b) n (items v), m3).

(** emplace_back(...), where [x] is the new element: if there is no room the
    elements are moved to a block of twice the size. *)
Definition emplace_back {A} (K : element A) (x : A) (v : vec A) (m : memory) : outcome (vec A * memory) :=
  let l := items v ++ [x] in
  if Nat.ltb (length (items v)) (room v) then
    match storage v with
    | None => UB BadPointer
    | Some b => Ok (mk_vec (Some b) (room v) l, overwrite b (image K l) m)
    end
  else
    let (b, m1) := allocate (image K l) m in
    let! m2 := move_all K (items v) m1 in
    let! m3 := release_if (storage v) m2 in
    Ok (mk_vec (Some b) (Nat.max 1 (2 * length (items v))) l, m3).

(** back().c_str() of a vector of strings. *)
Definition back_c_str (v : vec string_rep) : outcome place :=
  match storage v, rev (items v) with
  | Some b, r :: before => Ok (c_str_at r b (length before))
  | _, _ => UB EmptyContainer
  end.

(** ** hext::Html *)

(** The constructor, Html.cpp 23-38: Gumbo reads the text and keeps its place. *)
Definition parse_html (a : place) (m : memory) : outcome (nat * memory) :=
  let! x := load a m in Ok (allocate (Output a x) m).

(** Reading the document, and the names in it where they are now. *)
Definition look (o : nat) (m : memory) : outcome (str * str) :=
  match nth_error m o with
  | Some (Output a x) => let! y := load a m in Ok (x, y)
  | _ => UB BadPointer
  end.

(** ** htmlext/main.cpp *)

(** A source of hext: what reading the file gives ([None]: ReadFileOrThrow throws
    a FileError), or a text given as an option. *)
Inductive source : Type :=
| HextFile (contents : option str)
| HextInput (x : str).

Section Main.
(** Whether ParseHext returns, and whether extracting and printing return, given
    the rule, the document, and the text in which its names are looked up. *)
Variable parses : str -> bool.
Variable extracts : str -> str -> str -> bool.

(** main.cpp 64-83: the rules. The text of a file is a temporary that lives until
    the end of the statement. [false]: main returns, or an exception ends the
    block. *)
Fixpoint read_rules (sources : list source) (v : vec (str * nat)) (m : memory)
  : outcome (bool * vec (str * nat) * memory) :=
  match sources with
  | [] => Ok (true, v, m)
  | HextFile None :: _ => Ok (false, v, m)
  | HextFile (Some x) :: rest =>
      let (t, m1) := make_string x m in
      let! y := text_of t m1 in
      if parses y then
        let (r, m2) := allocate Other m1 in
        let! (v', m3) := emplace_back rule_element (y, r) v m2 in
        let! m4 := destroy_string t m3 in
        read_rules rest v' m4
      else
        let! m2 := destroy_string t m1 in
        Ok (false, v, m2)
  | HextInput x :: rest =>
      if parses x then
        let (r, m1) := allocate Other m in
        let! (v', m2) := emplace_back rule_element (x, r) v m1 in
        read_rules rest v' m2
      else Ok (false, v, m)
  end.

(** main.cpp 91-97: the documents. *)
Fixpoint read_htmls (files : list (option str)) (contents : vec string_rep) (htmls : vec nat) (m : memory)
  : outcome (bool * vec string_rep * vec nat * memory) :=
  match files with
  | [] => Ok (true, contents, htmls, m)
  | None :: _ => Ok (false, contents, htmls, m)
  | Some x :: rest =>
      let (t, m1) := make_string x m in
      let! (contents', m2) := emplace_back string_element t contents m1 in
      let! a := back_c_str contents' in
      let! (o, m3) := parse_html a m2 in
      let! (htmls', m4) := emplace_back html_element o htmls m3 in
      read_htmls rest contents' htmls' m4
  end.

(** main.cpp 99-117: what is looked at, up to the first exception. *)
Fixpoint search_htmls (rule : str) (htmls : list nat) (m : memory)
  : outcome (bool * list (str * str * str)) :=
  match htmls with
  | [] => Ok (true, [])
  | o :: rest =>
      let! (x, y) := look o m in
      if extracts rule x y then
        let! (done, seen) := search_htmls rule rest m in
        Ok (done, (rule, x, y) :: seen)
      else Ok (false, [(rule, x, y)])
  end.
Fixpoint search_all (rules : list (str * nat)) (htmls : list nat) (m : memory)
  : outcome (bool * list (str * str * str)) :=
  match rules with
  | [] => Ok (true, [])
  | (rule, _) :: rest =>
      let! (done, seen) := search_htmls rule htmls m in
      if done then
        let! (done', seen') := search_all rest htmls m in
        Ok (done', seen ++ seen')
      else Ok (false, seen)
  end.

(** The locals of the block are destroyed in the reverse order of main.cpp
    55-57, however it is left. *)
Definition leave (rules : vec (str * nat)) (contents : vec string_rep) (htmls : vec nat) (m : memory)
  : outcome memory :=
  let! m1 := release_all (items htmls) m in
  let! m2 := release_if (storage htmls) m1 in
  let! m3 := destroy_strings (items contents) m2 in
  let! m4 := release_if (storage contents) m3 in
  let! m5 := release_all (map snd (items rules)) m4 in
  release_if (storage rules) m5.

(** main.cpp 55-117. [reserving]: whether the calls of reserve in lines 62, 90
    and 89 are there. The result: whether the block is left normally, what was
    looked at, and the memory. *)
Definition run_main (reserving : bool * bool * bool) (sources : list source) (lint : bool) (files : list (option str))
  : outcome (bool * list (str * str * str) * memory) :=
  let '(reserve_rules, reserve_contents, reserve_htmls) := reserving in
  let! (rules, m1) := reserve rule_element (if reserve_rules then length sources else 0) empty_vec [] in
  let! (ok, rules', m2) := read_rules sources rules m1 in
  if negb ok || lint then
    let! m3 := leave rules' empty_vec empty_vec m2 in
    Ok (ok, [], m3)
  else
    let! (htmls, m3) := reserve html_element (if reserve_htmls then length files else 0) empty_vec m2 in
    let! (contents, m4) := reserve string_element (if reserve_contents then length files else 0) empty_vec m3 in
    let! (ok', contents', htmls', m5) := read_htmls files contents htmls m4 in
    if ok' then
      let! (done, seen) := search_all (items rules') (items htmls') m5 in
      let! m6 := leave rules' contents' htmls' m5 in
      Ok (done, seen, m6)
    else
      let! m6 := leave rules' contents' htmls' m5 in
      Ok (false, [], m6).

End Main.

(** ** The class Html of the bindings *)

(** The block of the object, which contains [buffer_], and [html_]. In
    bindings/nodejs/src/Html.h 46-47 [html_] may be null; the pointer in between
    is left out. *)
Record wrapper : Type := mk_wrapper { body : nat; buffer : string_rep; html : option nat }.

(** What a program does with such objects, which are numbered in the order of
    their construction. *)
Inductive step : Type :=
| Create (x : option str)  (* new Html(x); [None]: nodejs/src/Html.cpp 24-51, the constructor leaves early *)
| Look (i : nat)           (* extracting from root() *)
| Delete (i : nat)         (* delete, or the garbage collector *)
| MoveFrom (i : nat).      (* new Html(std::move(object i)); implicit in wrapper/Html.h, no binding does it *)

(** wrapper/Html.cpp 18-22 and nodejs/src/Html.cpp 18-56: the text is moved into
    [buffer_]; then it is parsed. *)
Definition create (x : option str) (m : memory) : outcome (wrapper * memory) :=
  match x with
  | None => let (b, m1) := allocate (Bytes [[]]) m in Ok (mk_wrapper b (Short []) None, m1)
  | Some x' =>
      let (r, m1) := make_string x' m in
      let (b, m2) := allocate (Bytes [inside r]) m1 in
      let! (o, m3) := parse_html (c_str_at r b 0) m2 in
      Ok (mk_wrapper b r (Some o), m3)
  end.

(** The members are destroyed in reverse order. *)
Definition destroy (w : wrapper) (m : memory) : outcome memory :=
  let! m1 := release_if (html w) m in
  let! m2 := destroy_string (buffer w) m1 in
  release (body w) m2.

(** The implicit move constructor of wrapper/Html.h: [buffer_] is moved, which
    leaves an empty string, the pointer in [html_] is copied. *)
Definition move_wrapper (w : wrapper) (m : memory) : wrapper * wrapper * memory :=
  let (b, m1) := allocate (Bytes [inside (buffer w)]) m in
  (mk_wrapper b (buffer w) (html w), mk_wrapper (body w) (Short []) (html w), overwrite (body w) (Bytes [[]]) m1).

Fixpoint replace_at {A} (i : nat) (x : A) (l : list A) : list A :=
  match l, i with
  | [], _ => []
  | _ :: l', O => x :: l'
  | y :: l', S i' => y :: replace_at i' x l'
  end.

(** One step; deleted objects are [None]. The result includes what was looked
    at. *)
Definition do_step (e : step) (objects : list (option wrapper)) (m : memory)
  : outcome (list (str * str) * list (option wrapper) * memory) :=
  match e with
  | Create x => let! (w, m') := create x m in Ok ([], objects ++ [Some w], m')
  | Look i =>
      match nth_error objects i with
      | Some (Some w) =>
          match html w with
          | None => Ok ([], objects, m)
          | Some o => let! p := look o m in Ok ([p], objects, m)
          end
      | _ => UB BadPointer
      end
  | Delete i =>
      match nth_error objects i with
      | Some (Some w) => let! m' := destroy w m in Ok ([], replace_at i None objects, m')
      | _ => UB BadPointer
      end
  | MoveFrom i =>
      match nth_error objects i with
      | Some (Some w) =>
          let '(w1, w2, m') := move_wrapper w m in
          Ok ([], replace_at i (Some w2) objects ++ [Some w1], m')
      | _ => UB BadPointer
      end
  end.

Fixpoint do_steps (es : list step) (objects : list (option wrapper)) (m : memory)
  : outcome (list (str * str) * list (option wrapper) * memory) :=
  match es with
  | [] => Ok ([], objects, m)
  | e :: es' =>
      let! (seen, objects1, m1) := do_step e objects m in
      let! (seen', objects2, m2) := do_steps es' objects1 m1 in
      Ok (seen ++ seen', objects2, m2)
  end.
