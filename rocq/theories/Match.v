(** Model of the matches (libhext/src/*Match.cpp), the captures
    (libhext/src/*Capture.cpp) and the builtin functions
    (libhext/src/Builtins.cpp).

    All functions get the whole document and the path of the node they are
    applied to, since some look at the node's siblings. [assert] is compiled
    out, as in the project's default Release build; where a null pointer check
    follows an assert the check is modelled. *)

From Coq Require Import Ascii String NArith ZArith Bool List.
From Verif Require Import Base StringUtil Tags Dom NodeUtil Values.
Import ListNotations.
Open Scope outcome_scope.

(** What a user supplied [std::function] does when it is called: return a
    value or throw. It is taken to be a function of the node (and the document
    around it); functions with side effects are not modelled. *)
Inductive fres (A : Type) := FReturn (a : A) | FThrow.
Arguments FReturn {A}. Arguments FThrow {A}.

Definition call {A} (r : fres A) : outcome A :=
  match r with FReturn a => Ok a | FThrow => Throw UserException end.

(** MatchFunction, a std::function from nodes to bool (MatchFunction.h). *)
Definition match_function := node -> npath -> fres bool.

(** CaptureFunction, a std::function from nodes to strings
    (CaptureFunction.h): one of the three builtins of Builtins.cpp 40, 44, 49 or
    a function of the user. *)
Inductive capture_function :=
| TextBuiltin
| InnerHtmlBuiltin
| StripTagsBuiltin
| UserFunction (f : node -> npath -> fres str).

(** Calling a CaptureFunction on a node. Builtins.cpp 30-49: the builtins call
    NodeText, NodeInnerHtml, and StripTags without smart wrapping. *)
Definition call_capture_function (f : capture_function) (d : node) (p : npath) : outcome str :=
  match f with
  | TextBuiltin => let! n := deref d p in Ok (NodeText n)
  | InnerHtmlBuiltin => let! n := deref d p in Ok (NodeInnerHtml n)
  | StripTagsBuiltin => let! n := deref d p in Ok (StripTags false n)
  | UserFunction g => call (g d p)
  end.

(** ** Matches *)

(** NthChildMatch::Option, NthChildMatch.h 92-102; [Last] is the absence of
    [First] in all of libhext (NthChildMatch.cpp 51 only tests [First]). *)
Record nth_option := mk_nth_option { opt_first : bool; opt_of_type : bool }.

(** The subclasses of hext::Match that libhext defines. *)
Inductive mtch : Type :=
| AttributeCountMatch (count : Z)
| AttributeMatch (attr_name : str) (test : option vtest)
| ChildCountMatch (count : Z)
| FunctionMatch (f : option match_function)
| FunctionValueMatch (f : option capture_function) (test : option vtest)
| NegateMatch (ms : list (option mtch))
| NthChildMatch (step shift : Z) (o : nth_option)
| OnlyChildMatch (of_type : bool)
| TypeRegexMatch (rx : regex).

(** AttributeMatch::matches, AttributeMatch.cpp 46-66. *)
Definition AttributeMatch_matches (E : engine) (n : node) (attr_name : str)
    (test : option vtest) : outcome bool :=
  match n with
  | NElement _ _ attrs _ =>
      let g_attr := gumbo_get_attribute attrs (c_str attr_name) in
      match test with
      | None => Ok (is_some g_attr)
      | Some t =>
          match g_attr with
          | None => vtest_test E t None
          | Some a => match a_value a with
                      | Some v => vtest_test E t (Some (c_str v))
                      | None => Ok false
                      end
          end
      end
  | _ => Ok false
  end.

(** AttributeCountMatch::matches, AttributeCountMatch.cpp 28-36; the length of
    a GumboVector is an [unsigned int]. *)
Definition AttributeCountMatch_matches (n : node) (count : Z) : bool :=
  match n with
  | NElement _ _ attrs _ => (count =? Z.of_nat (length attrs) mod UINT_MOD)%Z
  | _ => false
  end.

(** ChildCountMatch::count_child_elements, ChildCountMatch.cpp 38-54; the
    counter is an [unsigned int]. *)
Definition count_child_elements (children : list node) : Z :=
  fold_left (fun count c => if is_element c then ((count + 1) mod UINT_MOD)%Z else count)
            children 0%Z.

(** ChildCountMatch::matches, ChildCountMatch.cpp 28-36. *)
Definition ChildCountMatch_matches (n : node) (count : Z) : bool :=
  match n with
  | NElement _ _ _ children => (count =? count_child_elements children)%Z
  | _ => false
  end.

(** The test in the counting loops, NthChildMatch.cpp 105-108 and 143-146:
    [count_tag = None] is HtmlTag::ANY. *)
Definition counts (count_tag : option tag) (child : node) : bool :=
  match child with
  | NElement t _ _ _ => match count_tag with None => true | Some t' => (t =? t')%N end
  | _ => false
  end.

(** The loop of count_preceding_siblings, NthChildMatch.cpp 100-112: [i] is the
    index of the head of [l], [index] is node->index_within_parent. Siblings
    are distinct objects, so [node == child] compares indices. *)
Fixpoint count_up (count_tag : option tag) (l : list node) (i index : nat) (count : Z)
  : outcome Z :=
  match l with
  | [] => UB OutOfBounds
  | child :: l' =>
      let! count' := if counts count_tag child then int_op (count + 1) else Ok count in
      if Nat.eqb i index then Ok count' else count_up count_tag l' (S i) index count'
  end.

(** The loop of count_following_siblings, NthChildMatch.cpp 137-150, from the
    last child downwards: [l] is the reversed child list. *)
Fixpoint count_down (count_tag : option tag) (l : list node) (index : nat) (count : Z)
  : outcome Z :=
  match l with
  | [] => Ok 0%Z
  | child :: l' =>
      if Nat.ltb (length l') index then Ok 0%Z         (* i < index_within_parent *)
      else
        let! count' := if counts count_tag child then int_op (count + 1) else Ok count in
        if Nat.eqb (length l') index then Ok count'
        else count_down count_tag l' index count'
  end.

(** NthChildMatch::count_preceding_siblings, NthChildMatch.cpp 83-115. *)
Definition count_preceding_siblings (d : node) (p : npath) (count_tag : option tag) : outcome Z :=
  match p with
  | [] => Ok 0%Z                                        (* no parent *)
  | i :: pp =>
      let! par := deref d pp in
      if is_element par then count_up count_tag (children_of par) 0 i 0%Z else Ok 0%Z
  end.

(** NthChildMatch::count_following_siblings, NthChildMatch.cpp 117-153. *)
Definition count_following_siblings (d : node) (p : npath) (count_tag : option tag) : outcome Z :=
  match p with
  | [] => Ok 0%Z
  | i :: pp =>
      let! par := deref d pp in
      if is_element par then count_down count_tag (rev (children_of par)) i 0%Z else Ok 0%Z
  end.

(** NthChildMatch::matches, NthChildMatch.cpp 40-81. *)
Definition NthChildMatch_matches (d : node) (p : npath) (n : node)
    (step shift : Z) (o : nth_option) : outcome bool :=
  match n with
  | NElement t _ _ _ =>
      let count_tag := if opt_of_type o then Some t else None in
      let! node_pos :=
        (if opt_first o then count_preceding_siblings d p count_tag
         else count_following_siblings d p count_tag) in
      if (step =? 0)%Z then Ok (node_pos =? shift)%Z
      else if (0 <? step)%Z then
        if (node_pos <? shift)%Z then Ok false
        else
          let! diff := int_op (node_pos - shift) in
          Ok (Z.rem diff step =? 0)%Z
      else
        if (shift <? node_pos)%Z then Ok false
        else
          let! diff := int_op (shift - node_pos) in
          let! pos_step := int_op (-1 * step) in
          Ok (Z.rem diff pos_step =? 0)%Z
  | _ => Ok false
  end.

(** The loop of OnlyChildMatch::matches, OnlyChildMatch.cpp 41-48. *)
Fixpoint only_child_loop (of_type : bool) (count_tag : tag) (l : list node) (i index : nat) : bool :=
  match l with
  | [] => true
  | child :: l' =>
      if (match child with
          | NElement t _ _ _ =>
              negb (Nat.eqb i index) && (negb of_type || (t =? count_tag)%N)
          | _ => false
          end)
      then false
      else only_child_loop of_type count_tag l' (S i) index
  end.

(** OnlyChildMatch::matches, OnlyChildMatch.cpp 28-51. *)
Definition OnlyChildMatch_matches (d : node) (p : npath) (n : node) (of_type : bool) : outcome bool :=
  match n with
  | NElement t _ _ _ =>
      match p with
      | [] => Ok false
      | i :: pp =>
          let! par := deref d pp in
          if is_element par then Ok (only_child_loop of_type t (children_of par) 0 i)
          else Ok false
      end
  | _ => Ok false
  end.

(** TypeRegexMatch::matches, TypeRegexMatch.cpp 30-47. *)
Definition TypeRegexMatch_matches (E : engine) (n : node) (rx : regex) : outcome bool :=
  let subject :=
    match n with
    | NElement t orig _ _ =>
        if (t =? TAG_UNKNOWN)%N then gumbo_tag_from_original_text orig
        else gumbo_normalized_tagname t
    | _ => []
    end in
  let! r := regex_search E rx subject in Ok (is_some r).

(** Match::matches on a non-null node. FunctionMatch.cpp 29-36,
    FunctionValueMatch.cpp 48-56, NegateMatch.cpp 58-69; the others see above. *)
Fixpoint mtch_matches (E : engine) (d : node) (m : mtch) (p : npath) : outcome bool :=
  let! n := deref d p in
  match m with
  | AttributeCountMatch count => Ok (AttributeCountMatch_matches n count)
  | AttributeMatch attr_name test => AttributeMatch_matches E n attr_name test
  | ChildCountMatch count => Ok (ChildCountMatch_matches n count)
  | FunctionMatch None => Ok false
  | FunctionMatch (Some f) => call (f d p)
  | FunctionValueMatch (Some f) (Some t) =>
      let! x := call_capture_function f d p in
      vtest_test E t (Some (c_str x))
  | FunctionValueMatch _ _ => Ok false
  | NegateMatch ms =>
      (fix loop (l : list (option mtch)) : outcome bool :=
         match l with
         | [] => Ok true
         | None :: l' => loop l'
         | Some m' :: l' =>
             let! b := mtch_matches E d m' p in
             if b then Ok false else loop l'
         end) ms
  | NthChildMatch step shift o => NthChildMatch_matches d p n step shift o
  | OnlyChildMatch of_type => OnlyChildMatch_matches d p n of_type
  | TypeRegexMatch rx => TypeRegexMatch_matches E n rx
  end.

(** ** Captures *)

(** ResultPair, Result.h 32. *)
Definition result_pair : Type := str * str.

(** The subclasses of hext::Capture that libhext defines. *)
Inductive capture : Type :=
| AttributeCapture (attr_name result_name : str) (p : option pipe)
| FunctionCapture (f : option capture_function) (result_name : str) (p : option pipe).

Definition apply_pipe (E : engine) (pp : option pipe) (x : str) : outcome str :=
  match pp with Some q => pipe_pipe E q x | None => Ok x end.

(** Capture::capture on a non-null node. AttributeCapture.cpp 52-74,
    FunctionCapture.cpp 52-67. *)
Definition capture_capture (E : engine) (d : node) (c : capture) (p : npath)
  : outcome (option result_pair) :=
  let! n := deref d p in
  match c with
  | AttributeCapture attr_name result_name pp =>
      match n with
      | NElement _ _ attrs _ =>
          match gumbo_get_attribute attrs (c_str attr_name) with
          | Some a =>
              match a_value a with
              | Some v =>
                  let! y := apply_pipe E pp (c_str v) in
                  Ok (Some (result_name, y))
              | None => Ok None
              end
          | None => Ok None
          end
      | _ => Ok None
      end
  | FunctionCapture None _ _ => Ok None
  | FunctionCapture (Some f) result_name pp =>
      let! x := call_capture_function f d p in
      let! y := apply_pipe E pp x in
      Ok (Some (result_name, y))
  end.
