(** What an extraction asks the regex library (C98). *)

From Coq Require Import Ascii String NArith ZArith Bool List.
From Verif Require Import Base StringUtil Tags Dom NodeUtil Values Match Rule RuleMatching StringSpec ValueSpec NodeSpec MeaningSpec.
Import ListNotations.

(** To find a regex in a text, or to replace it. *)
Inductive question := Find (rx : regex) (x : str) | Change (rx : regex) (format x : str).

Definition same_answer (E E' : engine) (q : question) : Prop :=
  match q with
  | Find rx x => eng_search E rx x = eng_search E' rx x
  | Change rx format x => eng_replace E rx x format = eng_replace E' rx x format
  end.
Definition no_answer (E : engine) (q : question) : Prop :=
  match q with Find rx x => eng_search E rx x = None | Change rx format x => eng_replace E rx x format = None end.

(** ** Conditions *)

(** A test of the value [x]. *)
Inductive test_asks (x : str) : vtest -> question -> Prop :=
| ask_test rx : test_asks x (RegexTest rx) (Find rx x)
| ask_negated t q : test_asks x t q -> test_asks x (NegateTest (Some t)) q.

(** A condition on the node at [p]: the value of an attribute or a function, or
    the name of the element. *)
Inductive condition_asks (D : node) (p : npath) : mtch -> question -> Prop :=
| ask_attribute t orig attrs cs name test a v q :
    nget D p = Some (NElement t orig attrs cs) -> first_attribute (c_str name) attrs a -> a_value a = Some v ->
    test_asks (c_str v) test q -> condition_asks D p (AttributeMatch name (Some test)) q
| ask_function f test x q :
    function_gives D p f x -> test_asks (c_str x) test q -> condition_asks D p (FunctionValueMatch (Some f) (Some test)) q
| ask_not ms m q : In (Some m) ms -> condition_asks D p m q -> condition_asks D p (NegateMatch ms) q
| ask_name rx t orig attrs cs name :
    nget D p = Some (NElement t orig attrs cs) -> source_name t orig name -> condition_asks D p (TypeRegexMatch rx) (Find rx name)
| ask_no_name rx n : nget D p = Some n -> is_element n = false -> condition_asks D p (TypeRegexMatch rx) (Find rx []).

(** ** Captures *)

Inductive transform_asks (x : str) : transform -> question -> Prop :=
| ask_filter rx : transform_asks x (RegexPipe rx) (Find rx (c_str x))
| ask_replace rx format : transform_asks x (RegexReplacePipe rx format) (Change rx format x).

(** Each pipe gets what the pipes before it made of [x]. *)
Definition pipes_ask (E : engine) (x : str) (o : option pipe) (q : question) : Prop :=
  exists p ts t ts' y, o = Some p /\ pipes_of p = ts ++ t :: ts' /\ through E ts x y /\ transform_asks y t q.

Inductive capture_asks (E : engine) (D : node) (p : npath) : capture -> question -> Prop :=
| ask_attribute_value t orig attrs cs name result a v o q :
    nget D p = Some (NElement t orig attrs cs) -> first_attribute (c_str name) attrs a -> a_value a = Some v ->
    pipes_ask E (c_str v) o q -> capture_asks E D p (AttributeCapture name result o) q
| ask_function_value f result x o q :
    function_gives D p f x -> pipes_ask E x o q -> capture_asks E D p (FunctionCapture (Some f) result o) q.

(** The tag of the rule lets the node pass. Only then its conditions are tried. *)
Definition right_tag (r : rule) (n : node) : Prop :=
  r_tag r = TAG_ANY \/ exists orig attrs cs, n = NElement (r_tag r) orig attrs cs.

(** Questions about the nodes of the document. *)
Inductive asked (E : engine) (R : rule) (D : node) : question -> Prop :=
| asked_condition rp r p n m q :
    rget R rp = Some r -> nget D p = Some n -> right_tag r n -> In (Some m) (r_matches r) -> condition_asks D p m q -> asked E R D q
| asked_capture rp r p c q : rget R rp = Some r -> In (Some c) (r_captures r) -> capture_asks E D p c q -> asked E R D q.
