(** What a snippet means: the values that it takes from a document, without
    reference to the functions that compute them. Conditions, tests, pipes,
    captures and the builtin functions are described by relations; the groups
    of matching nodes are those of MatchSpec.v, and which rules a text stands
    for is said by SyntaxSpec.v. *)

From Coq Require Import Ascii String NArith ZArith Bool List.
From Verif Require Import Base Tags Dom Values Match Rule RuleMatching StringSpec ValueSpec NodeSpec TextSpec MatchSpec ExtractSpec.
Import ListNotations.

(** ** Texts of a node *)

(** The text of a node in which every block stands on lines of its own. *)
Inductive spread : node -> str -> Prop :=
| spread_text x : spread (NText x) (c_str x)
| spread_whitespace x : spread (NWhitespace x) (c_str x)
| spread_comment x : spread (NComment x) []
| spread_cdata x : spread (NCdata x) []
| spread_template t orig attrs cs : spread (NTemplate t orig attrs cs) []
| spread_document b x y z cs : spread (NDocument b x y z cs) []
| spread_element t orig attrs cs parts :
    Forall2 spread_part cs parts -> spread (NElement t orig attrs cs) (concat parts)
with spread_part : node -> str -> Prop :=
| part_block n x : block n -> spread n x -> spread_part n ([newline] ++ x ++ [newline])
| part_inline n x : ~ block n -> spread n x -> spread_part n x.

(** The text: the words of that, separated by single blanks. *)
Definition text_of_node (n : node) (y : str) : Prop :=
  exists x ws, spread n x /\ words_of x ws /\ y = join_words ws.

(** [y] is [x] with a backslash before every quote and backslash. *)
Inductive escaped : str -> str -> Prop :=
| escaped_nil : escaped [] []
| escaped_special c x y : c = """"%char \/ c = "\"%char -> escaped x y -> escaped (c :: x) ("\"%char :: c :: y)
| escaped_other c x y : c <> """"%char -> c <> "\"%char -> escaped x y -> escaped (c :: x) (c :: y).

(** The name of an element as the document gives it. *)
Definition source_name (t : tag) (orig : option str) (name : str) : Prop :=
  (t <> TAG_UNKNOWN /\ name = gumbo_normalized_tagname t) \/
  (t = TAG_UNKNOWN /\ name = gumbo_tag_from_original_text orig).

(** An attribute in inner HTML. *)
Definition attribute_markup (a : attr) (x : str) : Prop :=
  exists prefix,
    In (a_ns a, prefix) [(NsNone, s ""); (NsXlink, s "xlink:"); (NsXml, s "xml:"); (NsXmlns, s "xmlns:")] /\
    ((a_value a = None /\ x = s " " ++ prefix ++ c_str (a_name a)) \/
     (exists v y, a_value a = Some v /\ escaped (c_str v) y /\
        x = s " " ++ prefix ++ c_str (a_name a) ++ s "=""" ++ y ++ s """")).

(** A node in inner HTML. *)
Inductive markup : node -> str -> Prop :=
| markup_text x : markup (NText x) (c_str x)
| markup_whitespace x : markup (NWhitespace x) (c_str x)
| markup_comment x : markup (NComment x) (s "<!--" ++ c_str x ++ s "-->")
| markup_cdata x : markup (NCdata x) []
| markup_document x y z cs : markup (NDocument false x y z cs) []
| markup_doctype x y z cs :
    markup (NDocument true x y z cs)
      (s "<!DOCTYPE " ++ c_str x ++ s " " ++ c_str y ++ s " " ++ c_str z ++ s ">" ++ [newline])
| markup_void n t orig attrs cs name parts :
    n = NElement t orig attrs cs \/ n = NTemplate t orig attrs cs ->
    source_name t orig name -> Forall2 attribute_markup attrs parts ->
    In (gumbo_normalized_tagname t) void_names ->
    markup n (s "<" ++ name ++ concat parts ++ s "/>")
| markup_element n t orig attrs cs name parts inner :
    n = NElement t orig attrs cs \/ n = NTemplate t orig attrs cs ->
    source_name t orig name -> Forall2 attribute_markup attrs parts ->
    ~ In (gumbo_normalized_tagname t) void_names ->
    Forall2 markup cs inner ->
    markup n (s "<" ++ name ++ concat parts ++ s ">" ++ concat inner ++ s "</" ++ name ++ s ">").

(** Inner HTML. *)
Definition inner_markup (n : node) (x : str) : Prop :=
  match n with
  | NElement _ _ _ cs => exists parts, Forall2 markup cs parts /\ x = concat parts
  | _ => x = []
  end.

(** The value of a function at a node. *)
Definition function_gives (D : node) (p : npath) (f : capture_function) (x : str) : Prop :=
  exists n, nget D p = Some n /\
  match f with
  | TextBuiltin => text_of_node n x
  | InnerHtmlBuiltin => inner_markup n x
  | StripTagsBuiltin => x = full_text n
  | UserFunction g => g D p = FReturn x
  end.

Section Meaning.
Variable E : engine.

(** ** Tests *)

Definition found (rx : regex) (x : str) : Prop := exists r, eng_search E rx x = Some (Some r).

(** A test holds for a value, or for the lack of one. *)
Fixpoint test_holds (t : vtest) (subject : option str) : Prop :=
  match t with
  | EqualsTest lit => subject = Some lit
  | BeginsWithTest lit => exists x, subject = Some x /\ starts_with lit x
  | EndsWithTest lit => exists x, subject = Some x /\ ends_with lit x
  | ContainsTest lit => exists x, subject = Some x /\ occurs_in lit x
  | ContainsWordsTest words =>
      exists x, subject = Some x /\ words <> [] /\ forall w, In w words -> w <> [] /\ word_in w x
  | RegexTest rx => exists x, subject = Some x /\ found rx x
  | NegateTest (Some t') => ~ test_holds t' subject
  | NegateTest None => subject = None
  end.

(** ** Conditions *)

Section Node.
Variable D : node.
Variable p : npath.

(** The place of an element with tag [t] at [p] among its siblings; the root
    has place 0. *)
Definition place (o : nth_option) (t : tag) (pos : Z) : Prop :=
  (exists i pp par, p = i :: pp /\ nget D pp = Some par /\ is_element par = true /\
     pos = position o t (children_of par) i) \/
  ((forall i pp par, p = i :: pp -> nget D pp = Some par -> is_element par = false) /\ pos = 0%Z).

(** A condition holds for the node. *)
Fixpoint holds (m : mtch) : Prop :=
  exists n, nget D p = Some n /\
  match m with
  | FunctionMatch f => exists g, f = Some g /\ g D p = FReturn true
  | FunctionValueMatch f test =>
      exists g t x, f = Some g /\ test = Some t /\ function_gives D p g x /\ test_holds t (Some (c_str x))
  | NegateMatch ms =>
      (fix none (l : list (option mtch)) : Prop :=
         match l with
         | [] => True
         | Some m' :: l' => ~ holds m' /\ none l'
         | None :: l' => none l'
         end) ms
  | TypeRegexMatch rx =>
      (exists t orig attrs cs name, n = NElement t orig attrs cs /\ source_name t orig name /\ found rx name) \/
      (is_element n = false /\ found rx [])
  | _ => (* the others hold for elements only *)
      exists t orig attrs cs, n = NElement t orig attrs cs /\
      match m with
      | AttributeCountMatch z => z = Z.of_nat (length attrs)
      | ChildCountMatch z => z = Z.of_nat (length (filter is_element cs))
      | AttributeMatch name None => exists a, first_attribute (c_str name) attrs a
      | AttributeMatch name (Some test) =>
          (no_attribute (c_str name) attrs /\ test_holds test None) \/
          (exists a v, first_attribute (c_str name) attrs a /\ a_value a = Some v /\ test_holds test (Some (c_str v)))
      | NthChildMatch a b o => exists pos, place o t pos /\ of_form a b pos
      | OnlyChildMatch of_type =>
          exists i pp par, p = i :: pp /\ nget D pp = Some par /\ is_element par = true /\
            forall j c, nth_error (children_of par) j = Some c -> j <> i -> kind of_type t c = false
      | _ => False
      end
  end.

(** The node satisfies the tag and the conditions of a rule. *)
Definition meets (r : rule) : Prop :=
  exists n, nget D p = Some n /\ tag_accepts r n /\ forall m, In (Some m) (r_matches r) -> holds m.

(** ** Captures *)

(** [y] is what a pipe makes of [x]. *)
Definition turned (t : transform) (x y : str) : Prop :=
  match t with
  | AppendPipe a => y = x ++ a
  | PrependPipe a => y = a ++ x
  | TrimPipe chars => trimmed chars x y
  | CasePipe true => Forall2 (letter_mapped upper_letters lower_letters) x y
  | CasePipe false => Forall2 (letter_mapped lower_letters upper_letters) x y
  | CollapseWsPipe => exists ws, words_of x ws /\ y = join_words ws
  | RegexPipe rx => filtered E rx x y
  | RegexReplacePipe rx fmt => eng_replace E rx x fmt = Some y
  end.

Inductive through : list transform -> str -> str -> Prop :=
| through_nil x : through [] x x
| through_cons t ts x z y : turned t x z -> through ts z y -> through (t :: ts) x y.

Definition through_pipe (q : option pipe) : str -> str -> Prop :=
  through (match q with Some q' => pipes_of q' | None => [] end).

(** A capture takes [o] from the node. *)
Definition takes (c : capture) (o : option result_pair) : Prop :=
  match c with
  | AttributeCapture name result q =>
      (exists t orig attrs cs a v y, nget D p = Some (NElement t orig attrs cs) /\
         first_attribute (c_str name) attrs a /\ a_value a = Some v /\ through_pipe q (c_str v) y /\ o = Some (result, y)) \/
      (exists n, nget D p = Some n /\
         (forall t orig attrs cs, n = NElement t orig attrs cs ->
            no_attribute (c_str name) attrs \/ exists a, first_attribute (c_str name) attrs a /\ a_value a = None) /\
         o = None)
  | FunctionCapture (Some f) result q =>
      exists x y, function_gives D p f x /\ through_pipe q x y /\ o = Some (result, y)
  | FunctionCapture None _ _ => o = None
  end.

(** A rule takes [values] from the node. *)
Definition values_at (r : rule) (values : list result_pair) : Prop :=
  exists outs, Forall2 takes (present (r_captures r)) outs /\ values = present outs.

End Node.

(** ** Results *)

(** The values of the pairs of a group, in order. *)
Inductive group_values (R : rule) (D : node) : MatchingNodes -> list result_pair -> Prop :=
| group_values_nil : group_values R D [] []
| group_values_cons rp p r g values rest :
    rget R rp = Some r -> values_at D p r values -> group_values R D g rest ->
    group_values R D ((rp, p) :: g) (values ++ rest).

(** The result of a rule for the siblings from [i :: pp] on: a map for every
    group from which a value is taken. *)
Definition means (R : rule) (D : node) (i : nat) (pp : npath) (res : list ResultMap) : Prop :=
  exists gs vss, search_result D (fun r p => meets D p r) R i pp gs /\
    Forall2 (group_values R D) gs vss /\ Forall2 map_of (filter nonempty_list vss) res.

End Meaning.

(** ** What a program relies on *)

(** The counters of children and attributes do not wrap around. *)
Definition counts_fit (D : node) : Prop :=
  forall p n, nget D p = Some n ->
    (Z.of_nat (length (children_of n)) < UINT_MOD)%Z /\
    (forall t orig attrs cs, n = NElement t orig attrs cs -> (Z.of_nat (length attrs) < UINT_MOD)%Z).

(** The words that are looked for have no blanks. *)
Fixpoint test_plain (t : vtest) : Prop :=
  match t with
  | ContainsWordsTest words => forall w, In w words -> ~ In " "%char w
  | NegateTest (Some t') => test_plain t'
  | _ => True
  end.

Fixpoint condition_plain (m : mtch) : Prop :=
  match m with
  | AttributeMatch _ (Some t) | FunctionValueMatch _ (Some t) => test_plain t
  | NegateMatch ms =>
      (fix all (l : list (option mtch)) : Prop :=
         match l with
         | [] => True
         | Some m' :: l' => condition_plain m' /\ all l'
         | None :: l' => all l'
         end) ms
  | _ => True
  end.

(** A rule tree without NUL in tag names and with such words. All rules that a
    snippet can stand for are of this kind. *)
Definition plain_rules (R : rule) : Prop :=
  forall r, rule_of R r ->
    (forall name, r_tagname r = Some name -> ~ In NUL name) /\
    (forall m, In (Some m) (r_matches r) -> condition_plain m).
