(** Model of the value tests (libhext/src/*Test.cpp), the string pipes
    (libhext/src/*Pipe.cpp) and the boundary to the regular expression
    library. *)

From Coq Require Import Ascii String NArith ZArith Bool List.
From Verif Require Import Base StringUtil.
Import ListNotations.
Open Scope outcome_scope.

(** A compiled [boost::regex] is represented by what it was compiled from: the
    source text and the two syntax flags that a hext snippet can set. *)
Record regex := mk_regex { rx_source : str; rx_icase : bool; rx_collate : bool }.

(** What the library does with a regex. Boost.Regex is external to the
    repository, so it is a parameter of the model: every theorem that mentions
    an [engine] holds for all of them. [eng_compile] is [None] if the source
    compiles, otherwise the error text of the boost::regex_error. [eng_search] is [None]
    if the library throws std::runtime_error (complexity limit), otherwise the
    whole match and the list of sub-matches (an unmatched one is empty).
    [eng_replace] likewise. *)
Record engine := mk_engine {
  eng_compile : regex -> option str;
  eng_search  : regex -> str -> option (option (str * list str));
  eng_replace : regex -> str -> str -> option str
}.

(** boost::regex_search *)
Definition regex_search (E : engine) (rx : regex) (x : str) : outcome (option (str * list str)) :=
  match eng_search E rx x with
  | Some r => Ok r
  | None => Throw RegexRuntimeError
  end.

(** boost::regex_replace *)
Definition regex_replace (E : engine) (x : str) (rx : regex) (fmt : str) : outcome str :=
  match eng_replace E rx x fmt with
  | Some r => Ok r
  | None => Throw RegexRuntimeError
  end.

Definition is_some {A} (o : option A) : bool := match o with Some _ => true | None => false end.

(** ** Value tests *)

(** The subclasses of hext::ValueTest that libhext defines. A null
    [unique_ptr] is [None]. *)
Inductive vtest : Type :=
| BeginsWithTest (lit : str)
| EndsWithTest (lit : str)
| ContainsTest (lit : str)
| ContainsWordsTest (words : list str)
| EqualsTest (lit : str)
| RegexTest (rx : regex)
| NegateTest (t : option vtest).

(** boost::is_any_of(chars) *)
Definition is_any_of (chars : str) (c : ascii) : bool := existsb (Ascii.eqb c) chars.

Fixpoint trim_left_if (p : ascii -> bool) (x : str) : str :=
  match x with
  | [] => []
  | c :: x' => if p c then trim_left_if p x' else x
  end.

(** boost::trim_if *)
Definition trim_if (p : ascii -> bool) (x : str) : str :=
  rev (trim_left_if p (rev (trim_left_if p x))).

(** boost::split with boost::token_compress_on: [cur] is the current token
    (reversed), [sep] tells whether the previous byte was a separator. *)
Fixpoint split_compress (p : ascii -> bool) (cur : str) (sep : bool) (x : str) : list str :=
  match x with
  | [] => [rev cur]
  | c :: x' =>
      if p c then
        if sep then split_compress p cur true x'
        else rev cur :: split_compress p [] true x'
      else split_compress p (c :: cur) false x'
  end.

(** The constructor ContainsWordsTest(std::string), ContainsWordsTest.cpp 27-35. *)
Definition make_ContainsWordsTest (words : str) : vtest :=
  ContainsWordsTest
    (split_compress (is_any_of (s " ")) [] false (trim_if (is_any_of (s " ")) words)).

(** ValueTest::test. The subject is a C string; [None] is the null pointer.
    BeginsWithTest.cpp 30-39, EndsWithTest.cpp 29-40, ContainsTest.cpp 28-35,
    ContainsWordsTest.cpp 42-54, EqualsTest.cpp 28-31, RegexTest.cpp 28-34,
    NegateTest.cpp 42-48. *)
Fixpoint vtest_test (E : engine) (t : vtest) (subject : option str) : outcome bool :=
  match t with
  | BeginsWithTest lit =>
      Ok (match subject with None => false | Some x => is_prefix lit x end)
  | EndsWithTest lit =>
      Ok (match subject with
          | None => false
          | Some x => if Nat.ltb (length x) (length lit) then false
                      else is_prefix (rev lit) (rev x)
          end)
  | ContainsTest lit =>
      Ok (match subject with None => false | Some x => is_some (str_find x lit 0) end)
  | ContainsWordsTest words =>
      Ok (match subject with
          | None => false
          | Some x => match words with
                      | [] => false
                      | _ => forallb (ContainsWord x) words
                      end
          end)
  | EqualsTest lit =>
      Ok (match subject with None => false | Some x => str_eqb lit x end)
  | RegexTest rx =>
      match subject with
      | None => Ok false
      | Some x => let! r := regex_search E rx x in Ok (is_some r)
      end
  | NegateTest (Some t') => let! b := vtest_test E t' subject in Ok (negb b)
  | NegateTest None => Ok (match subject with None => true | Some _ => false end)
  end.

(** ** String pipes *)

(** The subclasses of hext::StringPipe that libhext defines. *)
Inductive transform : Type :=
| AppendPipe (suffix : str)
| PrependPipe (prefix : str)
| TrimPipe (trim_any_of : str)
| CasePipe (to_lower_option : bool)
| CollapseWsPipe
| RegexPipe (rx : regex)
| RegexReplacePipe (rx : regex) (replace : str).

(** StringPipe::transform: AppendPipe.cpp 26-30, PrependPipe.cpp 26-30,
    TrimPipe.cpp 28-32, CasePipe.cpp 28-36, CollapseWsPipe.cpp 22-25,
    RegexPipe.cpp 26-37 ([str.c_str()] cuts at NUL), RegexReplacePipe.cpp 27-30. *)
Definition transform_str (E : engine) (t : transform) (x : str) : outcome str :=
  match t with
  | AppendPipe suffix => Ok (x ++ suffix)
  | PrependPipe prefix => Ok (prefix ++ x)
  | TrimPipe chars => Ok (trim_if (is_any_of chars) x)
  | CasePipe true => Ok (str_lower x)
  | CasePipe false => Ok (str_upper x)
  | CollapseWsPipe => TrimAndCollapseWs_run x
  | RegexPipe rx =>
      let! r := regex_search E rx (c_str x) in
      Ok (match r with
          | Some (_, g1 :: _) => g1
          | Some (whole, []) => whole
          | None => []
          end)
  | RegexReplacePipe rx fmt => regex_replace E x rx fmt
  end.

(** A StringPipe object with its [next_] pointer, StringPipe.h 33-78. *)
Inductive pipe : Type := Pipe (t : transform) (next : option pipe).

(** StringPipe::pipe, StringPipe.cpp 47-55. *)
Fixpoint pipe_pipe (E : engine) (p : pipe) (x : str) : outcome str :=
  match p with
  | Pipe t next =>
      let! y := transform_str E t x in
      match next with
      | Some p' => pipe_pipe E p' y
      | None => Ok y
      end
  end.

(** StringPipe::append, StringPipe.cpp 57-64. *)
Fixpoint pipe_append (p : pipe) (q : option pipe) : pipe :=
  match p with
  | Pipe t (Some p') => Pipe t (Some (pipe_append p' q))
  | Pipe t None => Pipe t q
  end.
