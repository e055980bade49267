(** The Hext language: the parts of a text, how they are spelled and which rule
    they denote (C42 - C46). *)

From Coq Require Import Ascii String NArith ZArith Bool List.
From Verif Require Import Base StringUtil Tags Dom NodeUtil Values Match Rule StringSpec ParserSpec.
Import ListNotations.

(** ** Characters *)

Definition code_in (a b : N) (c : ascii) : bool := (a <=? N_of_ascii c)%N && (N_of_ascii c <=? b)%N.
Definition is_alpha (c : ascii) : bool := code_in 65 90 c || code_in 97 122 c.
Definition is_number (c : ascii) : bool := code_in 48 57 c.
Definition is_space (c : ascii) : bool := code_in 9 13 c || Ascii.eqb c " ".
Definition is_name_char (c : ascii) : bool :=
  is_alpha c || is_number c || Ascii.eqb c "-" || Ascii.eqb c "_".
Definition is_var_char (c : ascii) : bool := is_name_char c || Ascii.eqb c ".".

Definition all_in (f : ascii -> bool) (x : str) : Prop := forall c, In c x -> f c = true.
(** The name of a tag or an attribute. *)
Definition is_name (x : str) : Prop := exists c x', x = c :: x' /\ is_alpha c = true /\ all_in is_name_char x'.
Definition is_tag_name (x : str) : Prop := x = ["*"%char] \/ is_name x.
Definition spaces_only (x : str) : Prop := all_in is_space x.
Definition is_digits (x : str) : Prop := x <> [] /\ all_in is_number x.

Definition newline : ascii := "010"%char.
Definition backslash : ascii := "\"%char.
Definition quote : ascii := """"%char.
Definition apostrophe : ascii := "'"%char.

(** Something between two delimiters [d]: every [d] inside follows a backslash,
    and the last character is not a backslash. *)
Definition enclosed (d : ascii) (x : str) : Prop :=
  (forall u v, x = u ++ d :: v -> exists u', u = u' ++ [backslash]) /\ (forall u, x <> u ++ [backslash]).

(** ** Literals *)

Record quoted := mk_quoted { q_mark : ascii; q_body : str }.
Definition quoted_ok (q : quoted) : Prop := In (q_mark q) [quote; apostrophe] /\ enclosed (q_mark q) (q_body q).
Definition quoted_text (q : quoted) : str := q_mark q :: q_body q ++ [q_mark q].

(** The flags i and c after a regex. *)
Inductive flag := FlagI | FlagC.
Record regex_lit := mk_rl { rl_mark : ascii; rl_body : str; rl_flags : list flag }.
Definition regex_ok (r : regex_lit) : Prop := In (rl_mark r) ["/"%char; apostrophe; quote] /\ enclosed (rl_mark r) (rl_body r).
Definition flag_text (f : flag) : ascii := match f with FlagI => "i" | FlagC => "c" end%char.
Definition regex_text (r : regex_lit) : str := rl_mark r :: rl_body r ++ rl_mark r :: map flag_text (rl_flags r).

(** even, odd, 3, -3, 2n, 2n+1, 2n-1 *)
Inductive nth_lit :=
| NthEven
| NthOdd
| NthNumber (minus : bool) (ds : str)
| NthStep (minus : bool) (ds : str)
| NthStepShift (minus : bool) (ds : str) (minus' : bool) (ds' : str).
Definition nth_ok (n : nth_lit) : Prop :=
  match n with
  | NthEven | NthOdd => True
  | NthNumber _ ds | NthStep _ ds => is_digits ds
  | NthStepShift _ ds _ ds' => is_digits ds /\ is_digits ds'
  end.
Definition minus_text (minus : bool) : str := if minus then s "-" else [].
Definition sign_text (minus : bool) : str := if minus then s "-" else s "+".
Definition nth_text (n : nth_lit) : str :=
  match n with
  | NthEven => s "even"
  | NthOdd => s "odd"
  | NthNumber m ds => minus_text m ++ ds
  | NthStep m ds => minus_text m ++ ds ++ s "n"
  | NthStepShift m ds m' ds' => minus_text m ++ ds ++ s "n" ++ sign_text m' ++ ds'
  end.

(** ** Traits *)

Inductive trait :=
| TrEmpty
| TrChildCount (ds : str)
| TrAttributeCount (ds : str)
| TrNth (first of_type : bool) (n : nth_lit)
| TrEnd (first of_type : bool)
| TrOnly (of_type : bool)
| TrTypeMatches (r : regex_lit).
Definition trait_ok (t : trait) : Prop :=
  match t with
  | TrChildCount ds | TrAttributeCount ds => is_digits ds
  | TrNth _ _ n => nth_ok n
  | TrTypeMatches r => regex_ok r
  | _ => True
  end.
Definition trait_text (t : trait) : str :=
  s ":" ++
  match t with
  | TrEmpty => s "empty"
  | TrChildCount ds => s "child-count(" ++ ds ++ s ")"
  | TrAttributeCount ds => s "attribute-count(" ++ ds ++ s ")"
  | TrNth true false n => s "nth-child(" ++ nth_text n ++ s ")"
  | TrNth false false n => s "nth-last-child(" ++ nth_text n ++ s ")"
  | TrNth true true n => s "nth-of-type(" ++ nth_text n ++ s ")"
  | TrNth false true n => s "nth-last-of-type(" ++ nth_text n ++ s ")"
  | TrEnd true false => s "first-child"
  | TrEnd true true => s "first-of-type"
  | TrEnd false false => s "last-child"
  | TrEnd false true => s "last-of-type"
  | TrOnly false => s "only-child"
  | TrOnly true => s "only-of-type"
  | TrTypeMatches r => s "type-matches(" ++ regex_text r ++ s ")"
  end.

Inductive condition := Is (t : trait) | IsNot (t : trait) (ts : list trait).
Definition condition_ok (c : condition) : Prop :=
  match c with Is t => trait_ok t | IsNot t ts => trait_ok t /\ Forall trait_ok ts end.
Definition condition_text (c : condition) : str :=
  match c with
  | Is t => trait_text t
  | IsNot t ts => s ":not(" ++ trait_text t ++ flat_map trait_text ts ++ s ")"
  end.

(** ** Patterns *)

Inductive builtin := BText | BInnerHtml | BStripTags.
Definition builtin_text (b : builtin) : str :=
  match b with BText => s "@text" | BInnerHtml => s "@inner-html" | BStripTags => s "@strip-tags" end.

Inductive pipe_lit :=
| PlTrim
| PlTrimAny (q : quoted)
| PlCollapse
| PlLower
| PlUpper
| PlPrepend (q : quoted)
| PlAppend (q : quoted)
| PlFilter (r : regex_lit)
| PlReplace (r : regex_lit) (sp sp' : str) (q : quoted).
Definition pipe_ok (p : pipe_lit) : Prop :=
  match p with
  | PlTrimAny q | PlPrepend q | PlAppend q => quoted_ok q
  | PlFilter r => regex_ok r
  | PlReplace r sp sp' q => regex_ok r /\ spaces_only sp /\ spaces_only sp' /\ quoted_ok q
  | _ => True
  end.
Definition pipe_text (p : pipe_lit) : str :=
  s ":" ++
  match p with
  | PlTrim => s "trim"
  | PlTrimAny q => s "trim(" ++ quoted_text q ++ s ")"
  | PlCollapse => s "collapsews"
  | PlLower => s "tolower"
  | PlUpper => s "toupper"
  | PlPrepend q => s "prepend(" ++ quoted_text q ++ s ")"
  | PlAppend q => s "append(" ++ quoted_text q ++ s ")"
  | PlFilter r => s "filter(" ++ regex_text r ++ s ")"
  | PlReplace r sp sp' q => s "replace(" ++ regex_text r ++ sp ++ s "," ++ sp' ++ quoted_text q ++ s ")"
  end.

Inductive cap_name := CQuoted (q : quoted) | CPlain (x : str).
Definition cap_name_ok (n : cap_name) : Prop :=
  match n with CQuoted q => quoted_ok q | CPlain x => x <> [] /\ all_in is_var_char x end.
Definition cap_name_text (n : cap_name) : str := match n with CQuoted q => quoted_text q | CPlain x => x end.

Inductive operator := Words | Equals | Begins | Contains | Ends.
Definition operator_text (o : operator) : str :=
  match o with Words => s "=" | Equals => s "==" | Begins => s "^=" | Contains => s "*=" | Ends => s "$=" end.

Inductive value_test := VRegex (r : regex_lit) | VLiteral (o : operator) (q : quoted).
Definition value_test_ok (v : value_test) : Prop :=
  match v with VRegex r => regex_ok r | VLiteral _ q => quoted_ok q end.
Definition value_test_text (v : value_test) : str :=
  match v with VRegex r => s "=~" ++ regex_text r | VLiteral o q => operator_text o ++ quoted_text q end.

Inductive pattern :=
| PBuiltinCapture (b : builtin) (ps : list pipe_lit) (n : cap_name)
| PBuiltinMatch (b : builtin) (v : value_test) (negated : bool)
| PAttrCapture (a : str) (ps : list pipe_lit) (n : cap_name) (optional : bool)
| PAttrMatch (a : str) (v : value_test) (negated : bool)
| PAttr (a : str) (negated : bool).
Definition pattern_ok (p : pattern) : Prop :=
  match p with
  | PBuiltinCapture _ ps n => Forall pipe_ok ps /\ cap_name_ok n
  | PBuiltinMatch _ v _ => value_test_ok v
  | PAttrCapture a ps n _ => is_name a /\ Forall pipe_ok ps /\ cap_name_ok n
  | PAttrMatch a v _ => is_name a /\ value_test_ok v
  | PAttr a _ => is_name a
  end.
Definition negation_text (negated : bool) : str := if negated then s "!" else [].
Definition optional_text (optional : bool) : str := if optional then s "?" else [].
Definition pattern_text (p : pattern) : str :=
  match p with
  | PBuiltinCapture b ps n => builtin_text b ++ flat_map pipe_text ps ++ s ":" ++ cap_name_text n
  | PBuiltinMatch b v ng => builtin_text b ++ value_test_text v ++ negation_text ng
  | PAttrCapture a ps n o => a ++ flat_map pipe_text ps ++ s ":" ++ cap_name_text n ++ optional_text o
  | PAttrMatch a v ng => a ++ value_test_text v ++ negation_text ng
  | PAttr a ng => a ++ negation_text ng
  end.

(** ** Elements *)

(** What stands in an opening tag: the options ? and +, the name, traits,
    patterns, each after some whitespace, and whitespace. *)
Inductive option_mark := OptOptional | OptGreedy.
Definition option_text (o : option_mark) : ascii := match o with OptOptional => "?" | OptGreedy => "+" end%char.
Record head := mk_head {
  h_options : list option_mark;
  h_name : str;
  h_conditions : list condition;
  h_patterns : list (str * pattern);
  h_space : str
}.
Definition head_ok (h : head) : Prop :=
  is_tag_name (h_name h) /\ Forall condition_ok (h_conditions h) /\
  Forall (fun sp => fst sp <> [] /\ spaces_only (fst sp) /\ pattern_ok (snd sp)) (h_patterns h) /\
  spaces_only (h_space h).
Definition head_text (h : head) : str :=
  map option_text (h_options h) ++ h_name h ++ flat_map condition_text (h_conditions h) ++
  flat_map (fun sp => fst sp ++ pattern_text (snd sp)) (h_patterns h) ++ h_space h.

(** The tag that a name stands for. *)
Definition tag_of_name (x : str) : tag := if str_eqb x (s "*") then TAG_ANY else gumbo_tag_enum x.
(** Whether a closing tag with name [y] may close an element with name [x]: the
    names are equal, ignoring case if they are standard tags. *)
Definition standard_tag (x : str) : Prop := exists n, In n tag_names /\ equal_ignoring_case n x.
Definition closes (x y : str) : Prop := x = y \/ (standard_tag x /\ equal_ignoring_case x y).

(** The tokens that a text consists of. *)
Inductive token :=
| TSpace (c : ascii)
| TComment (x : str)
| TBegin
| TEnd
| TOpen (h : head) (closed : bool)
| TClose (name : str).

Definition token_ok (t : token) : Prop :=
  match t with
  | TSpace c => is_space c = true
  | TComment x => ~ In newline x
  | TBegin | TEnd => True
  | TOpen h _ => head_ok h
  | TClose name => is_tag_name name
  end.
Definition token_text (t : token) : str :=
  match t with
  | TSpace c => [c]
  | TComment x => s "#" ++ x ++ [newline]
  | TBegin => s "{"
  | TEnd => s "}"
  | TOpen h closed => s "<" ++ head_text h ++ (if closed then s "/>" else s ">")
  | TClose name => s "</" ++ name ++ s ">"
  end.
Definition tokens_text (l : list token) : str := flat_map token_text l.
Definition is_blank (t : token) : Prop := match t with TSpace _ | TComment _ => True | _ => False end.

(** Tokens with paired tags and braces, directly inside of an element or not.
    Braces are allowed directly inside of an element and hold at least one element. *)
Inductive balanced : bool -> list token -> Prop :=
| balanced_nil i : balanced i []
| balanced_blank i t l : is_blank t -> balanced i l -> balanced i (t :: l)
| balanced_closed i h l : balanced i l -> balanced i (TOpen h true :: l)
| balanced_pair i h body name l : balanced true body -> closes (h_name h) name -> balanced i l ->
    balanced i (TOpen h false :: body ++ TClose name :: l)
| balanced_braces body l : balanced false body -> (exists h c, In (TOpen h c) body) -> balanced true l ->
    balanced true (TBegin :: body ++ TEnd :: l).

Inductive piece :=
| Space (c : ascii)
| Comment (x : str)
| Closed (h : head)
| Opened (h : head) (body : list piece) (name : str)
| Nested (body : list piece).

Definition is_element (p : piece) : bool := match p with Closed _ | Opened _ _ _ => true | _ => false end.

(** Braces are allowed directly inside of an element, with at least one element
    in them. *)
Fixpoint piece_ok (inside : bool) (p : piece) : Prop :=
  match p with
  | Space c => is_space c = true
  | Comment x => ~ In newline x
  | Closed h => head_ok h
  | Opened h body name =>
      head_ok h /\ is_tag_name name /\ closes (h_name h) name /\
      (fix all l := match l with [] => True | q :: l' => piece_ok true q /\ all l' end) body
  | Nested body =>
      inside = true /\ (exists q, In q body /\ is_element q = true) /\
      (fix all l := match l with [] => True | q :: l' => piece_ok false q /\ all l' end) body
  end.

Fixpoint piece_text (p : piece) : str :=
  match p with
  | Space c => [c]
  | Comment x => s "#" ++ x ++ [newline]
  | Closed h => s "<" ++ head_text h ++ s "/>"
  | Opened h body name => s "<" ++ head_text h ++ s ">" ++ flat_map piece_text body ++ s "</" ++ name ++ s ">"
  | Nested body => s "{" ++ flat_map piece_text body ++ s "}"
  end.

(** ** Meaning *)

(** The flags that are in force for the next regex: they are added by each
    regex and only removed at the end of a pattern. *)
Record flags := mk_flags { f_icase : bool; f_collate : bool }.
Definition no_flags : flags := mk_flags false false.
Definition add_flag (fl : flags) (f : flag) : flags :=
  match f with FlagI => mk_flags true (f_collate fl) | FlagC => mk_flags (f_icase fl) true end.

(** Something that may not exist and depends on the flags in force. *)
Definition meaning (A : Type) : Type := flags -> option (A * flags).
Definition ret {A} (x : A) : meaning A := fun fl => Some (x, fl).
Definition none {A} : meaning A := fun _ => None.
Definition bind {A B} (m : meaning A) (f : A -> meaning B) : meaning B :=
  fun fl => match m fl with Some (x, fl') => f x fl' | None => None end.
Section Each.
  Context {A B : Type} (f : A -> meaning B).
  Fixpoint each (l : list A) : meaning (list B) :=
    match l with
    | [] => ret []
    | a :: l' => bind (f a) (fun b => bind (each l') (fun bs => ret (b :: bs)))
    end.
End Each.

(** A regex must be accepted by the regex library. *)
Definition regex_meaning (E : engine) (r : regex_lit) : meaning regex :=
  fun fl =>
    let fl' := fold_left add_flag (rl_flags r) fl in
    let rx := mk_regex (rl_body r) (f_icase fl') (f_collate fl') in
    match eng_compile E rx with None => Some (rx, fl') | Some _ => None end.
(** A regex if its flags applied to itself only. *)
Definition own_regex_meaning (E : engine) (r : regex_lit) : meaning regex :=
  fun fl => match regex_meaning E r no_flags with Some (rx, _) => Some (rx, fl) | None => None end.

Section Meaning.

Variable R : regex_lit -> meaning regex.

(** Numbers must fit an int. *)
Definition number_meaning (minus : bool) (ds : str) : meaning Z :=
  let z := (if minus then - number_value ds else number_value ds)%Z in
  if fits_int z then ret z else none.

Definition nth_meaning (n : nth_lit) : meaning (Z * Z) :=
  match n with
  | NthEven => ret (2, 0)%Z
  | NthOdd => ret (2, 1)%Z
  | NthNumber m ds => bind (number_meaning m ds) (fun z => ret (0, z)%Z)
  | NthStep m ds => bind (number_meaning m ds) (fun z => ret (z, 0)%Z)
  | NthStepShift m ds m' ds' =>
      bind (number_meaning m ds) (fun z => bind (number_meaning m' ds') (fun z' => ret (z, z')))
  end.

Definition trait_meaning (t : trait) : meaning mtch :=
  match t with
  | TrEmpty => ret (ChildCountMatch 0)
  | TrChildCount ds => bind (number_meaning false ds) (fun z => ret (ChildCountMatch z))
  | TrAttributeCount ds => bind (number_meaning false ds) (fun z => ret (AttributeCountMatch z))
  | TrNth first of_type n => bind (nth_meaning n) (fun z => ret (NthChildMatch (fst z) (snd z) (mk_nth_option first of_type)))
  | TrEnd first of_type => ret (NthChildMatch 0 1 (mk_nth_option first of_type))
  | TrOnly of_type => ret (OnlyChildMatch of_type)
  | TrTypeMatches r => bind (R r) (fun rx => ret (TypeRegexMatch rx))
  end.

Definition condition_meaning (c : condition) : meaning mtch :=
  match c with
  | Is t => trait_meaning t
  | IsNot t ts => bind (each trait_meaning (t :: ts)) (fun ms => ret (NegateMatch (map Some ms)))
  end.

Definition builtin_meaning (b : builtin) : capture_function :=
  match b with BText => TextBuiltin | BInnerHtml => InnerHtmlBuiltin | BStripTags => StripTagsBuiltin end.

Definition pipe_meaning (p : pipe_lit) : meaning transform :=
  match p with
  | PlTrim => ret (TrimPipe (s " "))
  | PlTrimAny q => ret (TrimPipe (q_body q))
  | PlCollapse => ret CollapseWsPipe
  | PlLower => ret (CasePipe true)
  | PlUpper => ret (CasePipe false)
  | PlPrepend q => ret (PrependPipe (q_body q))
  | PlAppend q => ret (AppendPipe (q_body q))
  | PlFilter r => bind (R r) (fun rx => ret (RegexPipe rx))
  | PlReplace r _ _ q => bind (R r) (fun rx => ret (RegexReplacePipe rx (q_body q)))
  end.
(** Pipes in the order in which they are applied. *)
Fixpoint pipe_chain (l : list transform) : option pipe :=
  match l with [] => None | t :: l' => Some (Pipe t (pipe_chain l')) end.

Definition cap_name_meaning (n : cap_name) : str := match n with CQuoted q => q_body q | CPlain x => x end.

Definition value_test_meaning (v : value_test) : meaning vtest :=
  match v with
  | VRegex r => bind (R r) (fun rx => ret (RegexTest rx))
  | VLiteral Words q => ret (make_ContainsWordsTest (q_body q))
  | VLiteral Equals q => ret (EqualsTest (q_body q))
  | VLiteral Begins q => ret (BeginsWithTest (q_body q))
  | VLiteral Contains q => ret (ContainsTest (q_body q))
  | VLiteral Ends q => ret (EndsWithTest (q_body q))
  end.
Definition negated_test (negated : bool) (t : option vtest) : option vtest :=
  if negated then Some (NegateTest t) else t.

(** The matches and captures of a pattern. No flags are left after it. *)
Definition pattern_meaning (p : pattern) : meaning (list mtch * list capture) :=
  bind
    (match p with
     | PBuiltinCapture b ps n =>
         bind (each pipe_meaning ps) (fun ts =>
         ret ([], [FunctionCapture (Some (builtin_meaning b)) (cap_name_meaning n) (pipe_chain ts)]))
     | PBuiltinMatch b v ng =>
         bind (value_test_meaning v) (fun t =>
         ret ([FunctionValueMatch (Some (builtin_meaning b)) (negated_test ng (Some t))], []))
     | PAttrCapture a ps n o =>
         bind (each pipe_meaning ps) (fun ts =>
         ret (if o then [] else [AttributeMatch a None],
              [AttributeCapture a (cap_name_meaning n) (pipe_chain ts)]))
     | PAttrMatch a v ng =>
         bind (value_test_meaning v) (fun t => ret ([AttributeMatch a (negated_test ng (Some t))], []))
     | PAttr a ng => ret ([AttributeMatch a (negated_test ng None)], [])
     end)
    (fun mc _ => Some (mc, no_flags)).

(** The rule of an opening tag, with the given children and nested rules. *)
Definition has_option (o : option_mark) (l : list option_mark) : bool :=
  existsb (fun o' => match o, o' with OptOptional, OptOptional | OptGreedy, OptGreedy => true | _, _ => false end) l.
Definition head_rule (h : head) (children : option rule) (nested : list rule)
    (ms : list mtch) (mcs : list (list mtch * list capture)) : rule :=
  mk_rule children None nested
    (map Some (ms ++ flat_map fst mcs)) (map Some (flat_map snd mcs))
    (tag_of_name (h_name h)) (has_option OptOptional (h_options h)) (has_option OptGreedy (h_options h))
    (if (tag_of_name (h_name h) =? TAG_UNKNOWN)%N then Some (h_name h) else None).
Definition head_meaning (h : head) : meaning (option rule -> list rule -> rule) :=
  bind (each condition_meaning (h_conditions h)) (fun ms =>
  bind (each (fun sp => pattern_meaning (snd sp)) (h_patterns h)) (fun mcs =>
  ret (fun children nested => head_rule h children nested ms mcs))).

(** Rules in a row: each is the next rule of the one before it. *)
Definition with_next (r : rule) (n : option rule) : rule :=
  match r with mk_rule c _ l ms cs t o g name => mk_rule c n l ms cs t o g name end.
Fixpoint row_of_rules (l : list rule) : option rule :=
  match l with [] => None | r :: l' => Some (with_next r (row_of_rules l')) end.

(** What a piece adds to what surrounds it: an element, or nested rules. *)
Inductive part := Element (r : rule) | NestedRule (r : rule).
Definition elements (l : list part) : list rule := flat_map (fun p => match p with Element r => [r] | _ => [] end) l.
Definition nested_rules (l : list part) : list rule := flat_map (fun p => match p with NestedRule r => [r] | _ => [] end) l.

Fixpoint piece_meaning (p : piece) : meaning (list part) :=
  match p with
  | Space _ | Comment _ => ret []
  | Closed h => bind (head_meaning h) (fun f => ret [Element (f None [])])
  | Opened h body _ =>
      bind (head_meaning h) (fun f =>
      bind (each piece_meaning body) (fun l =>
      ret [Element (f (row_of_rules (elements (concat l))) (nested_rules (concat l)))]))
  | Nested body =>
      bind (each piece_meaning body) (fun l =>
      match row_of_rules (elements (concat l)) with
      | Some r => ret [NestedRule r]
      | None => none
      end)
  end.

(** The rule of a text: its elements in a row. A text without elements stands
    for a rule that matches any element. *)
Definition text_meaning (ps : list piece) : option rule :=
  match each piece_meaning ps no_flags with
  | Some (l, _) =>
      Some (match row_of_rules (elements (concat l)) with
            | Some r => r
            | None => mk_rule None None [] [] [] TAG_ANY false false None
            end)
  | None => None
  end.

End Meaning.

(** Texts in which no flagged regex is followed by another regex before the end
    of its pattern; flags on type-matches would last until the next pattern ends. *)
Definition trait_unflagged (t : trait) : Prop := match t with TrTypeMatches r => rl_flags r = [] | _ => True end.
Definition condition_unflagged (c : condition) : Prop :=
  match c with Is t => trait_unflagged t | IsNot t ts => Forall trait_unflagged (t :: ts) end.
Definition pipe_regex (p : pipe_lit) : option regex_lit := match p with PlFilter r | PlReplace r _ _ _ => Some r | _ => None end.
Fixpoint pipes_unflagged (l : list pipe_lit) : Prop :=
  match l with
  | [] => True
  | p :: l' => ((forall r, pipe_regex p = Some r -> rl_flags r = []) \/ Forall (fun q => pipe_regex q = None) l') /\ pipes_unflagged l'
  end.
Definition pattern_unflagged (p : pattern) : Prop :=
  match p with PBuiltinCapture _ ps _ | PAttrCapture _ ps _ _ => pipes_unflagged ps | _ => True end.
Definition head_unflagged (h : head) : Prop :=
  Forall condition_unflagged (h_conditions h) /\ Forall (fun sp => pattern_unflagged (snd sp)) (h_patterns h).
Fixpoint piece_unflagged (p : piece) : Prop :=
  match p with
  | Space _ | Comment _ => True
  | Closed h => head_unflagged h
  | Opened h body _ =>
      head_unflagged h /\ (fix all l := match l with [] => True | q :: l' => piece_unflagged q /\ all l' end) body
  | Nested body => (fix all l := match l with [] => True | q :: l' => piece_unflagged q /\ all l' end) body
  end.

(** [x] is a well-formed text that denotes [r]. *)
Definition spells (ps : list piece) (x : str) : Prop :=
  Forall (piece_ok false) ps /\ flat_map piece_text ps = x.
Definition denotes (E : engine) (x : str) (r : rule) : Prop :=
  exists ps, spells ps x /\ text_meaning (regex_meaning E) ps = Some r.
