(** Model of hext::Rule (libhext/src/Rule.cpp), except extract. *)

From Coq Require Import Ascii String NArith ZArith Bool List.
From Verif Require Import Base StringUtil Tags Dom NodeUtil Values Match.
Import ListNotations.
Open Scope outcome_scope.

(** The members of hext::Rule, Rule.h 269-278. [first_child_], [next_] and the
    elements of [nested_] are owned, so a Rule is a tree. *)
Inductive rule : Type :=
| mk_rule (first_child next : option rule) (nested : list rule)
          (matches : list (option mtch)) (captures : list (option capture))
          (t : tag) (is_optional is_greedy : bool) (tagname : option str).

Definition r_child (r : rule) := let (c, _, _, _, _, _, _, _, _) := r in c.
Definition r_next (r : rule) := let (_, n, _, _, _, _, _, _, _) := r in n.
Definition r_nested (r : rule) := let (_, _, l, _, _, _, _, _, _) := r in l.
Definition r_matches (r : rule) := let (_, _, _, m, _, _, _, _, _) := r in m.
Definition r_captures (r : rule) := let (_, _, _, _, c, _, _, _, _) := r in c.
Definition r_tag (r : rule) := let (_, _, _, _, _, t, _, _, _) := r in t.
Definition r_optional (r : rule) := let (_, _, _, _, _, _, o, _, _) := r in o.
Definition r_greedy (r : rule) := let (_, _, _, _, _, _, _, g, _) := r in g.
Definition r_tagname (r : rule) := let (_, _, _, _, _, _, _, _, n) := r in n.

(** Rule::Rule(HtmlTag, bool, bool), Rule.cpp 24-37. *)
Definition rule_of_tag (t : tag) (optional greedy : bool) : rule :=
  mk_rule None None [] [] [] t optional greedy None.

(** Rule::Rule(std::string, bool, bool), Rule.cpp 39-54. *)
Definition rule_of_name (name : str) (optional greedy : bool) : rule :=
  let t := gumbo_tag_enum (c_str name) in
  mk_rule None None [] [] [] t optional greedy
          (if (t =? TAG_UNKNOWN)%N then Some name else None).

(** Copying a unique_ptr to a Match with clone(), Cloneable.h 46-57: the copy
    constructors AttributeMatch.cpp 32-36, FunctionValueMatch.cpp 35-39,
    NegateMatch.cpp 37-43, NegateTest.cpp 29-32, and the defaulted ones. *)
Fixpoint vtest_clone (t : vtest) : vtest :=
  match t with
  | BeginsWithTest l => BeginsWithTest l
  | EndsWithTest l => EndsWithTest l
  | ContainsTest l => ContainsTest l
  | ContainsWordsTest w => ContainsWordsTest w
  | EqualsTest l => EqualsTest l
  | RegexTest rx => RegexTest rx
  | NegateTest (Some t') => NegateTest (Some (vtest_clone t'))
  | NegateTest None => NegateTest None
  end.
Fixpoint mtch_clone (m : mtch) : mtch :=
  match m with
  | AttributeCountMatch c => AttributeCountMatch c
  | AttributeMatch a t => AttributeMatch a (option_map vtest_clone t)
  | ChildCountMatch c => ChildCountMatch c
  | FunctionMatch f => FunctionMatch f
  | FunctionValueMatch f t => FunctionValueMatch f (option_map vtest_clone t)
  | NegateMatch ms =>
      NegateMatch (map (fun om => match om with Some m' => Some (mtch_clone m') | None => None end) ms)
  | NthChildMatch a b o => NthChildMatch a b o
  | OnlyChildMatch o => OnlyChildMatch o
  | TypeRegexMatch rx => TypeRegexMatch rx
  end.
(** StringPipe::StringPipe(const StringPipe&), StringPipe.cpp 26-29. *)
Fixpoint pipe_clone (p : pipe) : pipe :=
  match p with
  | Pipe t (Some p') => Pipe t (Some (pipe_clone p'))
  | Pipe t None => Pipe t None
  end.
(** AttributeCapture.cpp 33-38, FunctionCapture.cpp 33-38. *)
Definition capture_clone (c : capture) : capture :=
  match c with
  | AttributeCapture a n p => AttributeCapture a n (option_map pipe_clone p)
  | FunctionCapture f n p => FunctionCapture f n (option_map pipe_clone p)
  end.

(** Rule::Rule(const Rule&), Rule.cpp 56-80. *)
Fixpoint rule_copy (r : rule) : rule :=
  match r with
  | mk_rule c n l ms cs t o g name =>
      mk_rule (match c with Some c' => Some (rule_copy c') | None => None end)
              (match n with Some n' => Some (rule_copy n') | None => None end)
              (map rule_copy l)
              (map (option_map mtch_clone) ms)
              (map (option_map capture_clone) cs)
              t o g name
  end.

(** Rule::append_next, Rule.cpp 129-137. *)
Fixpoint append_next (r sibling : rule) : rule :=
  match r with
  | mk_rule c (Some n) l ms cs t o g name =>
      mk_rule c (Some (append_next n sibling)) l ms cs t o g name
  | mk_rule c None l ms cs t o g name => mk_rule c (Some sibling) l ms cs t o g name
  end.

(** Rule::append_child, Rule.cpp 119-127. *)
Definition append_child (r new_child : rule) : rule :=
  match r with
  | mk_rule (Some c) n l ms cs t o g name =>
      mk_rule (Some (append_next c new_child)) n l ms cs t o g name
  | mk_rule None n l ms cs t o g name => mk_rule (Some new_child) n l ms cs t o g name
  end.

(** Rule::append_nested, Rule.cpp 139-143. *)
Definition append_nested (r nested : rule) : rule :=
  match r with
  | mk_rule c n l ms cs t o g name => mk_rule c n (l ++ [nested]) ms cs t o g name
  end.

(** Rule::append_match, Rule.cpp 145-149. *)
Definition append_match (r : rule) (m : option mtch) : rule :=
  match r with
  | mk_rule c n l ms cs t o g name => mk_rule c n l (ms ++ [m]) cs t o g name
  end.

(** Rule::append_capture, Rule.cpp 151-155. *)
Definition append_capture (r : rule) (cap : option capture) : rule :=
  match r with
  | mk_rule c n l ms cs t o g name => mk_rule c n l ms (cs ++ [cap]) t o g name
  end.

(** Rule::set_tag, set_optional, set_greedy, set_tagname: Rule.cpp 162-199. *)
Definition set_tag (r : rule) (t : tag) : rule :=
  match r with mk_rule c n l ms cs _ o g name => mk_rule c n l ms cs t o g name end.
Definition set_optional (r : rule) (o : bool) : rule :=
  match r with mk_rule c n l ms cs t _ g name => mk_rule c n l ms cs t o g name end.
Definition set_greedy (r : rule) (g : bool) : rule :=
  match r with mk_rule c n l ms cs t o _ name => mk_rule c n l ms cs t o g name end.
Definition set_tagname (r : rule) (name : str) : rule :=
  match r with mk_rule c n l ms cs t o g _ => mk_rule c n l ms cs t o g (Some name) end.

(** [gumbo_string_equals_ignore_case]: equal lengths and [strncasecmp], which
    stops at a NUL byte. *)
Definition gumbo_string_equals_ignore_case (a b : str) : bool :=
  Nat.eqb (length a) (length b) && str_eqb_nocase (c_str a) (c_str b).

(** The tag part of Rule::matches, Rule.cpp 206-237. *)
Definition tag_matches (r : rule) (n : node) : bool :=
  if (r_tag r =? TAG_ANY)%N then true
  else
    match n with
    | NElement t orig _ _ =>
        if negb (t =? r_tag r)%N then false
        else if (r_tag r =? TAG_UNKNOWN)%N then
          match r_tagname r, orig with
          | None, _ | _, None | _, Some [] => false
          | Some name, Some _ =>
              let original := gumbo_tag_from_original_text orig in
              if negb (Nat.eqb (length name) (length original)) then false
              else gumbo_string_equals_ignore_case name original
          end
        else true
    | _ => false
    end.

(** The loop over [matches_], Rule.cpp 239-241. *)
Fixpoint all_match (E : engine) (d : node) (l : list (option mtch)) (p : npath) : outcome bool :=
  match l with
  | [] => Ok true
  | None :: l' => all_match E d l' p
  | Some m :: l' =>
      let! b := mtch_matches E d m p in
      if b then all_match E d l' p else Ok false
  end.

(** Rule::matches on a non-null node, Rule.cpp 201-244. *)
Definition Rule_matches (E : engine) (d : node) (r : rule) (p : npath) : outcome bool :=
  let! n := deref d p in
  if tag_matches r n then all_match E d (r_matches r) p else Ok false.

(** The loop over [captures_], Rule.cpp 253-262. *)
Fixpoint capture_all (E : engine) (d : node) (l : list (option capture)) (p : npath)
  : outcome (list result_pair) :=
  match l with
  | [] => Ok []
  | None :: l' => capture_all E d l' p
  | Some c :: l' =>
      let! o := capture_capture E d c p in
      let! rest := capture_all E d l' p in
      Ok (match o with Some x => x :: rest | None => rest end)
  end.

(** Rule::capture on a non-null node, Rule.cpp 246-265. *)
Definition Rule_capture (E : engine) (d : node) (r : rule) (p : npath)
  : outcome (list result_pair) := capture_all E d (r_captures r) p.
