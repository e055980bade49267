(** The rules that Hext text can express (C43). *)

From Coq Require Import Ascii String NArith ZArith Bool List.
From Verif Require Import Base StringUtil Tags Dom NodeUtil Values Match Rule SyntaxSpec.
Import ListNotations.

Section Express.

Variable E : engine.

(** Text that can stand between quotes, or as a regex. *)
Definition literal (x : str) : Prop := enclosed quote x \/ enclosed apostrophe x.
Definition regex_source (x : str) : Prop := enclosed "/" x \/ literal x.

(** [P_at fl x fl']: [x] can be written where the flags [fl] are in force, and
    then [fl'] are in force. A regex has its flags and those in force, and
    leaves all of them in force. *)
Definition regex_at (fl : flags) (rx : regex) (fl' : flags) : Prop :=
  regex_source (rx_source rx) /\ eng_compile E rx = None /\
  (f_icase fl = true -> rx_icase rx = true) /\ (f_collate fl = true -> rx_collate rx = true) /\
  fl' = mk_flags (rx_icase rx) (rx_collate rx).

Inductive seq_at {A} (P : flags -> A -> flags -> Prop) : flags -> list A -> flags -> Prop :=
| seq_nil fl : seq_at P fl [] fl
| seq_cons fl x fl1 l fl2 : P fl x fl1 -> seq_at P fl1 l fl2 -> seq_at P fl (x :: l) fl2.

(** Traits hold any int. *)
Inductive trait_at (fl : flags) : mtch -> flags -> Prop :=
| trait_children z : (0 <= z)%Z -> fits_int z = true -> trait_at fl (ChildCountMatch z) fl
| trait_attributes z : (0 <= z)%Z -> fits_int z = true -> trait_at fl (AttributeCountMatch z) fl
| trait_nth step shift first of_type : fits_int step = true -> fits_int shift = true ->
    trait_at fl (NthChildMatch step shift (mk_nth_option first of_type)) fl
| trait_only of_type : trait_at fl (OnlyChildMatch of_type) fl
| trait_type rx fl' : regex_at fl rx fl' -> trait_at fl (TypeRegexMatch rx) fl'.
Inductive condition_at (fl : flags) : mtch -> flags -> Prop :=
| condition_is m fl' : trait_at fl m fl' -> condition_at fl m fl'
| condition_not ms fl' : ms <> [] -> seq_at trait_at fl ms fl' -> condition_at fl (NegateMatch (map Some ms)) fl'.

Inductive test_at (fl : flags) : vtest -> Prop :=
| test_regex rx fl' : regex_at fl rx fl' -> test_at fl (RegexTest rx)
| test_words x : literal x -> test_at fl (make_ContainsWordsTest x)
| test_equals x : literal x -> test_at fl (EqualsTest x)
| test_begins x : literal x -> test_at fl (BeginsWithTest x)
| test_contains x : literal x -> test_at fl (ContainsTest x)
| test_ends x : literal x -> test_at fl (EndsWithTest x).
Definition is_builtin (f : capture_function) : Prop :=
  match f with TextBuiltin | InnerHtmlBuiltin | StripTagsBuiltin => True | UserFunction _ => False end.
Inductive match_at (fl : flags) : mtch -> Prop :=
| match_has a ng : is_name a -> match_at fl (AttributeMatch a (negated_test ng None))
| match_attribute a t ng : is_name a -> test_at fl t -> match_at fl (AttributeMatch a (negated_test ng (Some t)))
| match_builtin f t ng : is_builtin f -> test_at fl t -> match_at fl (FunctionValueMatch (Some f) (negated_test ng (Some t))).

Inductive transform_at (fl : flags) : transform -> flags -> Prop :=
| transform_trim x : literal x -> transform_at fl (TrimPipe x) fl
| transform_collapse : transform_at fl CollapseWsPipe fl
| transform_case b : transform_at fl (CasePipe b) fl
| transform_prepend x : literal x -> transform_at fl (PrependPipe x) fl
| transform_append x : literal x -> transform_at fl (AppendPipe x) fl
| transform_filter rx fl' : regex_at fl rx fl' -> transform_at fl (RegexPipe rx) fl'
| transform_replace rx x fl' : regex_at fl rx fl' -> literal x -> transform_at fl (RegexReplacePipe rx x) fl'.
Inductive capture_at (fl : flags) : capture -> Prop :=
| capture_attribute a n ts fl' : is_name a -> literal n -> seq_at transform_at fl ts fl' ->
    capture_at fl (AttributeCapture a n (pipe_chain ts))
| capture_builtin f n ts fl' : is_builtin f -> literal n -> seq_at transform_at fl ts fl' ->
    capture_at fl (FunctionCapture (Some f) n (pipe_chain ts)).

(** Matches and captures can be written in any order, as long as the first
    pattern can bear the flags that the conditions left in force. *)
Inductive patterns_at (fl : flags) : list mtch -> list capture -> flags -> Prop :=
| patterns_none : patterns_at fl [] [] fl
| patterns_some ms cs :
    Forall (match_at no_flags) ms -> Forall (capture_at no_flags) cs ->
    (exists m l, ms = m :: l /\ match_at fl m) \/ (exists c l, cs = c :: l /\ capture_at fl c) ->
    patterns_at fl ms cs no_flags.

(** Rules, their children and nested rules in some order. *)
Inductive element_at : flags -> rule -> flags -> Prop :=
| element_intro fl conds fl1 ms cs fl2 parts fl3 name optional greedy :
    seq_at condition_at fl conds fl1 -> patterns_at fl1 ms cs fl2 -> parts_at fl2 parts fl3 -> is_tag_name name ->
    element_at fl
      (mk_rule (row_of_rules (elements parts)) None (nested_rules parts)
        (map Some (conds ++ ms)) (map Some cs) (tag_of_name name) optional greedy
        (if (tag_of_name name =? TAG_UNKNOWN)%N then Some name else None)) fl3
with parts_at : flags -> list part -> flags -> Prop :=
| parts_nil fl : parts_at fl [] fl
| parts_element fl r fl1 l fl2 : element_at fl r fl1 -> parts_at fl1 l fl2 -> parts_at fl (Element r :: l) fl2
| parts_nested fl rs r fl1 l fl2 : elements_at fl rs fl1 -> row_of_rules rs = Some r -> parts_at fl1 l fl2 ->
    parts_at fl (NestedRule r :: l) fl2
with elements_at : flags -> list rule -> flags -> Prop :=
| elements_nil fl : elements_at fl [] fl
| elements_cons fl r fl1 l fl2 : element_at fl r fl1 -> elements_at fl1 l fl2 -> elements_at fl (r :: l) fl2.

Definition expressible (r : rule) : Prop := exists rs fl, elements_at no_flags rs fl /\ row_of_rules rs = Some r.

End Express.
