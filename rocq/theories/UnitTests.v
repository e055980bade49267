(** The project's unit tests (libhext/test/src), run on the model.

    Like Blackbox.v this compares the model with what the authors of the library
    expect of it; the theorems about all inputs are elsewhere. Not repeated are
    the tests of the values of enumerators (html-tag.cpp is part of Tags.v) and
    the assignments of string-pipe.cpp (C50). The documents are what an HTML5
    parser builds for the HTML texts of the tests; they were written down by a
    script. *)

From Coq Require Import Ascii String NArith ZArith Bool List.
From Verif Require Import Base StringUtil Tags Dom NodeUtil Values Match Rule RuleMatching Parser TestRegex Blackbox.
Import ListNotations.

(** THtml::body_child of test/src/helper/html.h; THtml::first is the first one,
    THtml::root is [0]. *)
Definition body_child (pos : nat) : npath := [pos - 1; 1; 0].
Definition first : npath := body_child 1.
Definition rx (x : string) : regex := mk_regex (s x) false false.

Definition matches (m : mtch) (h : node) (p : npath) : outcome bool := mtch_matches test_engine h m p.
Definition test (v : vtest) (x : string) : outcome bool := vtest_test test_engine v (Some (s x)).
Definition yes (f : string -> outcome bool) (l : list string) : bool :=
  forallb (fun x => match f x with Ok b => b | _ => false end) l.
Definition no (f : string -> outcome bool) (l : list string) : bool :=
  forallb (fun x => match f x with Ok b => negb b | _ => false end) l.
Definition transforms (f : transform) (l : list (str * str)) : bool :=
  forallb (fun p => match transform_str test_engine f (fst p) with Ok y => str_eqb y (snd p) | _ => false end) l.
Definition capture_at (c : capture) (h : node) (p : npath) : outcome (option result_pair) := capture_capture test_engine h c p.
Definition pipe_of (f : transform) : option pipe := Some (Pipe f None).
Definition nl : str := ["010"%char].
Definition tab : str := ["009"%char].

(** ** parse-hext/parse-hext.cpp *)

Example ParseHext_example : exists r, ParseHext test_engine (s "<a href:link />") = Ok r.
Proof. eexists. vm_compute. reflexivity. Qed.
Example ParseHext_ThrowsSyntaxError :
  forallb (fun x => match ParseHext test_engine (s x) with Throw (SyntaxError _) => true | _ => false end)
    ["invalid"; "<"; ">"; "/>"; "</>"; "<a>{"; "<a>}"; "{}"; "{<a/>}"; "<a/>}"; "<a/>{"; "<a>{<b/>}</a><b>";
     "<a>{{<b/>}}</a>"; "<a>{{<b/>{{</a>"]%string = true.
Proof. vm_compute. reflexivity. Qed.

(** ** pattern *)

Definition class_value : node := (NDocument false [] [] [] [implied "html" [ implied "head" []; implied "body" [ k "div" [a "class" (s "class-value")] []]]]).
Example AttributeCapture_Captures : capture_at (AttributeCapture (s "class") (s "result") None) class_value first = Ok (Some (s "result", s "class-value")).
Proof. vm_compute. reflexivity. Qed.
Example AttributeCapture_CapturesWithRegex :
  capture_at (AttributeCapture (s "class") (s "result") (pipe_of (RegexPipe (rx "class-(.*)")))) class_value first = Ok (Some (s "result", s "value")).
Proof. vm_compute. reflexivity. Qed.
Example AttributeCapture_MissingAttrReturnsEmpty :
  capture_at (AttributeCapture (s "class") (s "result") None) (NDocument false [] [] [] [implied "html" [ implied "head" []; implied "body" [ k "div" [a "nope" (s "nope")] []]]]) first = Ok None.
Proof. vm_compute. reflexivity. Qed.
Example AttributeCapture_ExampleFromDocumentation :
  capture_at (AttributeCapture (s "src") (s "image") None) (NDocument false [] [] [] [implied "html" [ implied "head" []; implied "body" [ k "img" [a "src" (s "bob.jpg")] []]]]) first = Ok (Some (s "image", s "bob.jpg")) /\
  capture_at (AttributeCapture (s "href") (s "U.S. Route") (pipe_of (RegexPipe (rx "\d+")))) (NDocument false [] [] [] [implied "html" [ implied "head" []; implied "body" [ k "a" [a "href" (s "/highway-61")] []]]]) first
    = Ok (Some (s "U.S. Route", s "61")).
Proof. vm_compute. repeat split. Qed.

Definition empty_div : node := (NDocument false [] [] [] [implied "html" [ implied "head" []; implied "body" [ k "div" [] []]]]).
Definition one_attr : node := (NDocument false [] [] [] [implied "html" [ implied "head" []; implied "body" [ k "div" [a "attr" (s "attr")] []]]]).
Example AttributeCountMatch_Matches :
  matches (AttributeCountMatch 0) empty_div first = Ok true /\
  matches (AttributeCountMatch 1) one_attr first = Ok true /\
  matches (AttributeCountMatch 2) (NDocument false [] [] [] [implied "html" [ implied "head" []; implied "body" [ k "div" [a "attr1" (s "attr1"); a "attr2" (s "attr2")] []]]]) first = Ok true.
Proof. vm_compute. repeat split. Qed.
Example AttributeCountMatch_Fails :
  forallb (fun i => match matches (AttributeCountMatch i) empty_div first with Ok b => negb b | _ => false end) [1; 2; 3; 4; 5; 6; 7; 8; 9]%Z = true /\
  forallb (fun i => match matches (AttributeCountMatch i) one_attr first with Ok b => negb b | _ => false end) [0; 2; 3; 4; 5; 6; 7; 8; 9]%Z = true.
Proof. vm_compute. repeat split. Qed.

Definition value_test : option vtest := Some (EqualsTest (s "value")).
Example AttributeMatch_Matches :
  matches (AttributeMatch (s "class") None) (NDocument false [] [] [] [implied "html" [ implied "head" []; implied "body" [ k "div" [a "class" (s "value")] []]]]) first = Ok true /\
  matches (AttributeMatch (s "class") value_test) (NDocument false [] [] [] [implied "html" [ implied "head" []; implied "body" [ k "div" [a "class" (s "value")] []]]]) first = Ok true.
Proof. vm_compute. repeat split. Qed.
Example AttributeMatch_Fails :
  matches (AttributeMatch (s "clas") None) (NDocument false [] [] [] [implied "html" [ implied "head" []; implied "body" [ k "div" [a "class" (s "nope")] []]]]) first = Ok false /\
  matches (AttributeMatch (s "nope") None) (NDocument false [] [] [] [implied "html" [ implied "head" []; implied "body" [ k "div" [a "class" (s "nope")] []]]]) first = Ok false /\
  matches (AttributeMatch (s "class") value_test) (NDocument false [] [] [] [implied "html" [ implied "head" []; implied "body" [ k "div" [a "class" (s "nope")] []]]]) first = Ok false.
Proof. vm_compute. repeat split. Qed.

Example BeginsWithTest_tests :
  yes (test (BeginsWithTest (s "word"))) ["word"; "words"; "word s"]%string = true /\
  yes (test (BeginsWithTest (s " "))) [" "; " word"]%string = true /\
  no (test (BeginsWithTest (s "word"))) ["w"; "wo"; "wor"; "swords"; "sword"; "Word"]%string = true.
Proof. vm_compute. repeat split. Qed.

Definition five_hr : node := (NDocument false [] [] [] [implied "html" [ implied "head" []; implied "body" [ k "div" [] [ w (["010"%char] ++ s "        "); k "hr" [] []; w (["010"%char] ++ s "        "); k "hr" [] []; w (["010"%char] ++ s "        "); k "hr" [] []; w (["010"%char] ++ s "        "); k "hr" [] []; w (["010"%char] ++ s "        "); k "hr" [] []; w (["010"%char] ++ s "      ")]]]]).
Example ChildCountMatch_tests :
  matches (ChildCountMatch 0) empty_div first = Ok true /\ matches (ChildCountMatch 5) five_hr first = Ok true /\
  forallb (fun i => match matches (ChildCountMatch i) five_hr first with Ok b => negb b | _ => false end) [1; 2; 3; 4; 6; 7; 8; 9; 10]%Z = true.
Proof. vm_compute. repeat split. Qed.

Example ContainsTest_tests :
  yes (test (ContainsTest (s "word"))) ["word"; "words"; "sword"; "swords"; "aa words aa"; "aawordaa"]%string = true /\
  no (test (ContainsTest (s "word"))) ["ward"; "sord"; "wrd"; "wor"; "nope nope nope"]%string = true.
Proof. vm_compute. repeat split. Qed.

Example ContainsWordsTest_Succeeds :
  yes (test (make_ContainsWordsTest (s "word"))) ["word"; "word "; "word a"; "sword word a"; " word"; "a word"]%string = true /\
  forallb (fun v => yes (test v) ["one two"; "two one"; "one two three"; "three two one"]%string)
    [make_ContainsWordsTest (s "one two"); ContainsWordsTest [s "one"; s "two"]] = true.
Proof. vm_compute. repeat split. Qed.
Example ContainsWordsTest_Fails :
  no (test (make_ContainsWordsTest (s "word"))) ["words"; "sword"; "swords"; "swordsword"; "wrd"; "wor"]%string = true /\
  forallb (fun v => no (test v) ["onetwo"; "twoone "; " one twothree"; "threetwoone"]%string)
    [make_ContainsWordsTest (s "one two"); ContainsWordsTest [s "one"; s "two"]] = true.
Proof. vm_compute. repeat split. Qed.

Example EndsWithTest_tests :
  yes (test (EndsWithTest (s "word"))) ["word"; "sword"; " word"; "wordwordword"; "word word word"]%string = true /\
  no (test (EndsWithTest (s "word"))) ["words"; "swor"; "wrd"; "wordwor"]%string = true.
Proof. vm_compute. repeat split. Qed.

Example EqualsTest_tests :
  yes (test (EqualsTest (s "word"))) ["word"]%string = true /\ yes (test (EqualsTest [])) [""]%string = true /\
  no (test (EqualsTest (s "word"))) ["words"; "sword"; "wrd"; "wor"]%string = true /\
  no (test (EqualsTest [])) ["w"; "word"]%string = true.
Proof. vm_compute. repeat split. Qed.

Definition inner_text : node := (NDocument false [] [] [] [implied "html" [ implied "head" []; implied "body" [ k "div" [] [ t (s "Inner Text")]]]]).
Definition secret : capture_function := UserFunction (fun _ _ => FReturn (s "secret")).
Example FunctionCapture_tests :
  capture_at (FunctionCapture (Some TextBuiltin) (s "result") None) inner_text first = Ok (Some (s "result", s "Inner Text")) /\
  capture_at (FunctionCapture (Some TextBuiltin) (s "result") (pipe_of (RegexPipe (rx "Inner (.*)")))) inner_text first = Ok (Some (s "result", s "Text")) /\
  capture_at (FunctionCapture (Some secret) (s "r") (pipe_of (RegexPipe (rx "[a-z]{6}")))) empty_div first = Ok (Some (s "r", s "secret")) /\
  capture_at (FunctionCapture (Some secret) (s "r") None) empty_div first = Ok (Some (s "r", s "secret")) /\
  capture_at (FunctionCapture (Some TextBuiltin) (s "text") None) (NDocument false [] [] [] [implied "html" [ implied "head" []; implied "body" [ k "div" [] [ t (s "5 reasons why foo is better than bar")]]]]) first
    = Ok (Some (s "text", s "5 reasons why foo is better than bar")) /\
  capture_at (FunctionCapture (Some InnerHtmlBuiltin) (s "centimeters") (pipe_of (RegexPipe (rx "(\d+)cm")))) (NDocument false [] [] [] [implied "html" [ implied "head" []; implied "body" [ k "div" [] [ t (s "The result is 25cm.")]]]]) first
    = Ok (Some (s "centimeters", s "25")).
Proof. vm_compute. repeat split. Qed.

Definition is_div : match_function :=
  fun d p => FReturn (match nget d p with Some (NElement t _ _ _) => (t =? TAG_DIV)%N | _ => false end).
Example FunctionMatch_tests :
  matches (FunctionMatch (Some is_div)) empty_div first = Ok true /\
  matches (FunctionMatch (Some is_div)) (NDocument false [] [] [] [implied "html" [ implied "head" []; implied "body" [ k "span" [] []]]]) first = Ok false.
Proof. vm_compute. repeat split. Qed.

Example FunctionValueMatch_tests :
  matches (FunctionValueMatch (Some TextBuiltin) (Some (EqualsTest (s "Inner Text")))) inner_text first = Ok true /\
  matches (FunctionValueMatch (Some TextBuiltin) (Some (EqualsTest (s "Inner Text")))) (NDocument false [] [] [] [implied "html" [ implied "head" []; implied "body" [ k "div" [] [ t (s "Nope")]]]]) first = Ok false /\
  matches (FunctionValueMatch (Some secret) (Some (EqualsTest (s "secret")))) (NDocument false [] [] [] [implied "html" [ implied "head" []; implied "body" [ k "div" [] [ t (s "dummy")]]]]) first = Ok true.
Proof. vm_compute. repeat split. Qed.

Example NegateMatch_tests :
  matches (NegateMatch [Some (AttributeMatch (s "href") None)]) (NDocument false [] [] [] [implied "html" [ implied "head" []; implied "body" [ k "a" [a "class" (s "dummy")] []]]]) first = Ok true /\
  matches (NegateMatch [Some (AttributeMatch (s "href") None)]) (NDocument false [] [] [] [implied "html" [ implied "head" []; implied "body" [ k "a" [a "href" (s "dummy")] []]]]) first = Ok false.
Proof. vm_compute. repeat split. Qed.

Example NegateTest_tests :
  test (NegateTest (Some (EqualsTest (s "word")))) "nope" = Ok true /\ test (NegateTest (Some (EqualsTest (s "word")))) "word" = Ok false.
Proof. vm_compute. repeat split. Qed.

Definition nth_table : node := (NDocument false [] [] [] [k "html" [] [ k "head" [] []; k "body" [] [ k "a" [a "pos" (s "1"); a "rev-pos" (s "15"); a "tag-pos" (s "1"); a "tag-rev-pos" (s "8")] []; k "h2" [a "pos" (s "2"); a "rev-pos" (s "14"); a "tag-pos" (s "1"); a "tag-rev-pos" (s "1")] []; k "a" [a "pos" (s "3"); a "rev-pos" (s "13"); a "tag-pos" (s "2"); a "tag-rev-pos" (s "7")] []; k "span" [a "pos" (s "4"); a "rev-pos" (s "12"); a "tag-pos" (s "1"); a "tag-rev-pos" (s "2")] []; k "div" [a "pos" (s "5"); a "rev-pos" (s "11"); a "tag-pos" (s "1"); a "tag-rev-pos" (s "3")] []; k "div" [a "pos" (s "6"); a "rev-pos" (s "10"); a "tag-pos" (s "2"); a "tag-rev-pos" (s "2")] []; k "a" [a "pos" (s "7"); a "rev-pos" (s "9"); a "tag-pos" (s "3"); a "tag-rev-pos" (s "6")] []; k "a" [a "pos" (s "8"); a "rev-pos" (s "8"); a "tag-pos" (s "4"); a "tag-rev-pos" (s "5")] []; k "span" [a "pos" (s "9"); a "rev-pos" (s "7"); a "tag-pos" (s "2"); a "tag-rev-pos" (s "1")] []; k "a" [a "pos" (s "10"); a "rev-pos" (s "6"); a "tag-pos" (s "5"); a "tag-rev-pos" (s "4")] []; k "a" [a "pos" (s "11"); a "rev-pos" (s "5"); a "tag-pos" (s "6"); a "tag-rev-pos" (s "3")] []; k "div" [a "pos" (s "12"); a "rev-pos" (s "4"); a "tag-pos" (s "3"); a "tag-rev-pos" (s "1")] []; k "a" [a "pos" (s "13"); a "rev-pos" (s "3"); a "tag-pos" (s "7"); a "tag-rev-pos" (s "2")] []; k "h1" [a "pos" (s "14"); a "rev-pos" (s "2"); a "tag-pos" (s "1"); a "tag-rev-pos" (s "1")] []; k "a" [a "pos" (s "15"); a "rev-pos" (s "1"); a "tag-pos" (s "8"); a "tag-rev-pos" (s "1")] []]]]).
Definition nth_is (step shift : Z) (is_first of_type : bool) (expect : bool) (l : list nat) : bool :=
  forallb (fun pos => match matches (NthChildMatch step shift (mk_nth_option is_first of_type)) nth_table (body_child pos) with
                      | Ok b => Bool.eqb b expect | _ => false end) l.
Example NthChildMatch_Front :
  nth_is 2 0 true false false [1; 15] = true /\ nth_is 2 0 true false true [2; 14] = true /\
  nth_is 2 1 true false false [2; 14] = true /\ nth_is 2 1 true false true [1; 15] = true /\
  nth_is (-2) 15 true false false [2; 14] = true /\ nth_is (-2) 15 true false true [1; 15] = true /\
  nth_is 2 1 true true false [15; 9] = true /\ nth_is 2 1 true true true [4] = true /\
  nth_is 0 3 true false false [6] = true /\ nth_is 0 3 true false true [3] = true.
Proof. vm_compute. repeat split. Qed.
Example NthChildMatch_Back :
  nth_is 2 0 false false false [1; 15] = true /\ nth_is 2 0 false false true [2; 14] = true /\
  nth_is 2 1 false false false [2; 14] = true /\ nth_is 2 1 false false true [1; 15] = true /\
  nth_is (-2) 15 false false false [2; 14] = true /\ nth_is (-2) 15 false false true [1; 15] = true /\
  nth_is 2 1 false true false [1; 4] = true /\ nth_is 2 1 false true true [9] = true /\
  nth_is 0 3 false false false [12] = true /\ nth_is 0 3 false false true [13] = true.
Proof. vm_compute. repeat split. Qed.
(** The table itself says where its elements are. *)
Example NthChildMatch_table :
  forallb (fun pos =>
    let here name m := match capture_at (AttributeCapture (s name) [] None) nth_table (body_child pos) with
      | Ok (Some (_, v)) => forallb (fun i => match matches (m (Z.of_nat i)) nth_table (body_child pos) with
          | Ok b => Bool.eqb b (str_eqb v (decimal (N.of_nat i))) | _ => false end) (seq 1 15)
      | _ => false end in
    here "pos"%string (fun i => NthChildMatch 0 i (mk_nth_option true false)) &&
    here "rev-pos"%string (fun i => NthChildMatch 0 i (mk_nth_option false false)) &&
    here "tag-pos"%string (fun i => NthChildMatch 0 i (mk_nth_option true true)) &&
    here "tag-rev-pos"%string (fun i => NthChildMatch 0 i (mk_nth_option false true))) (seq 1 15) = true.
Proof. vm_compute. reflexivity. Qed.

Example OnlyChildMatch_tests :
  matches (OnlyChildMatch false) (NDocument false [] [] [] [implied "html" [ implied "head" []; implied "body" [ k "div" [] [ k "b" [] []; k "b" [] []]]]]) first = Ok true /\
  matches (OnlyChildMatch true) (NDocument false [] [] [] [implied "html" [ implied "head" []; implied "body" [ k "b" [] []; k "div" [] []]]]) (body_child 1) = Ok true /\
  matches (OnlyChildMatch true) (NDocument false [] [] [] [implied "html" [ implied "head" []; implied "body" [ k "b" [] []; k "div" [] []]]]) (body_child 2) = Ok true /\
  matches (OnlyChildMatch false) (NDocument false [] [] [] [implied "html" [ implied "head" []; implied "body" [ k "b" [] []; k "b" [] []]]]) first = Ok false /\
  matches (OnlyChildMatch true) (NDocument false [] [] [] [implied "html" [ implied "head" []; implied "body" [ k "b" [] []; k "b" [] []]]]) (body_child 1) = Ok false /\
  matches (OnlyChildMatch true) (NDocument false [] [] [] [implied "html" [ implied "head" []; implied "body" [ k "b" [] []; k "b" [] []]]]) (body_child 2) = Ok false.
Proof. vm_compute. repeat split. Qed.

Example RegexTest_tests :
  yes (test (RegexTest (rx "\d+"))) ["Nr. 23!"; "23"]%string = true /\
  yes (test (RegexTest (rx "^\d{2}-\d{2}-\d{4}$"))) ["01-01-1970"; "19-01-2038"]%string = true /\
  no (test (RegexTest (rx "\d+"))) ["foo"]%string = true /\
  no (test (RegexTest (rx "^\d{2}-\d{2}-\d{4}$"))) ["09-09-99"; "Born on 09-09-1941."]%string = true.
Proof. vm_compute. repeat split. Qed.

Definition types : node := (NDocument false [] [] [] [implied "html" [ implied "head" []; implied "body" [ k "div" [] []; k "a" [] []; e (Some (s "<bdiv>")) "bdiv" [] []; e (Some (s "<c>")) "c" [] []; e (Some (s "<dc>")) "dc" [] []; e (Some (s "<divc>")) "divc" [] []]]]).
Definition types_matching (x : string) : list bool :=
  map (fun pos => match matches (TypeRegexMatch (rx x)) types (body_child pos) with Ok b => b | _ => false end) (seq 1 6).
Example TypeRegexMatch_tests :
  matches (TypeRegexMatch (rx "div")) empty_div first = Ok true /\
  types_matching "^(div)$|^(c)$" = [true; false; false; true; false; false] /\
  types_matching "bdiv" = [false; false; true; false; false; false].
Proof. vm_compute. repeat split. Qed.

(** ** pipe *)

Example pipe_tests :
  transforms (AppendPipe (s "content")) [(s "Content: ", s "Content: content")] = true /\
  transforms (CasePipe true) [(s "Word", s "word"); (s "WoRd", s "word")] = true /\
  transforms (CasePipe false) [(s "Word", s "WORD")] = true /\
  transforms (PrependPipe (s "Content: ")) [(s "content", s "Content: content")] = true /\
  transforms (TrimPipe (s " ")) [(s "  str ", s "str")] = true /\
  transforms (TrimPipe (s "t")) [(s "t", [])] = true /\
  pipe_pipe test_engine (Pipe (TrimPipe (s " ")) (Some (Pipe (TrimPipe (s "sr")) (Some (Pipe (TrimPipe (s "t")) (Some (Pipe (TrimPipe (s "#")) None)))))))
    (s "  st#center#r  ") = Ok (s "center").
Proof. vm_compute. repeat split. Qed.
Definition whitespace_checks : list (str * str) :=
  [([], []); (s " ", []); (s "  ", []); (s "   ", []); (s "a", s "a");
   (s " " ++ nl ++ s " left", s "left"); (s "right " ++ nl ++ s " ", s "right");
   (s "   " ++ tab ++ s " leftright " ++ nl ++ s " ", s "leftright");
   (s "   " ++ tab ++ s " l  e ftr    ig " ++ nl ++ tab ++ ["013"%char] ++ s " ht " ++ nl ++ s " ", s "l e ftr ig ht");
   (s "left           right", s "left right"); (s "left           right ", s "left right");
   (s "left" ++ nl ++ s "right", s "left right"); (s "left right", s "left right")].
Example CollapseWsPipe_tests : transforms CollapseWsPipe whitespace_checks = true.
Proof. vm_compute. reflexivity. Qed.
Example RegexPipe_tests :
  transforms (RegexPipe (rx "Number (\d+)")) [(s "Number 42", s "42")] = true /\
  forallb (fun p => transforms (RegexPipe (rx (fst p))) [(s "Highway 61 revisited", s (snd p))])
    [("\d+", "61"); ("Highway \d+", "Highway 61"); ("Highway (\d+)", "61"); ("\w+", "Highway"); ("(\w+) (\d+)", "Highway")]%string = true.
Proof. vm_compute. repeat split. Qed.
Example RegexReplacePipe_tests :
  transforms (RegexReplacePipe (rx "Number \d+") (s "Number 23")) [(s "My Number? Number 42", s "My Number? Number 23")] = true /\
  transforms (RegexReplacePipe (rx "Number") (s "Potato")) [(s "My Number? Number 42", s "My Potato? Potato 42")] = true /\
  transforms (RegexReplacePipe (rx " Number") []) [(s "My Number? Number 42", s "My? 42")] = true /\
  transforms (RegexReplacePipe (rx "^(\w+) (\w+)$") (s "$2 $1")) [(s "first second", s "second first")] = true.
Proof. vm_compute. repeat split. Qed.

(** ** builtins *)

Example InnerHtmlBuiltin_ExtractsHtml :
  call_capture_function InnerHtmlBuiltin (NDocument false [] [] [] [k "html" [] [ k "head" [] []; k "body" [] [ k "div" [] [ k "div" [] [ t (s " --- text --- ")]; k "div" [] [ t (s " --- stuff --- ")]]]]]) [1; 0]
    = Ok (s "<div><div> --- text --- </div><div> --- stuff --- </div></div>").
Proof. vm_compute. reflexivity. Qed.
Example StripTagsBuiltin_StripsTags :
  call_capture_function StripTagsBuiltin (NDocument false [] [] [] [implied "html" [ implied "head" []; implied "body" [ k "div" [] [ t (s " like"); k "div" [] [ t (s "a")]; t (s "rolling  stone")]]]]) [0] = Ok (s " likearolling  stone").
Proof. vm_compute. reflexivity. Qed.
Example TextBuiltin_ExtractsText :
  call_capture_function TextBuiltin (NDocument false [] [] [] [k "html" [] [ k "head" [] []; k "body" [] [ t (["010"%char] ++ s "   This is  "); k "span" [] [ t (s " a")]; k "span" [] [ t (s " b")]; t (s "adly" ++ ["010"%char] ++ s "f"); k "span" [] [ t (s "ormatte")]; t (s "d"); k "div" [] [ k "div" [] [ t (s "html")]; t (s "doc"); k "a" [] [ t (s "ume")]; t (s "nt"); k "span" [] []; t (s "." ++ ["010"%char]); k "div" [] [ k "span" [] []; w ["010"%char]]; w (["010"%char; "010"%char] ++ s "  ")]]]]) [0] = Ok (s "This is a badly formatted html document.") /\
  call_capture_function TextBuiltin (NDocument false [] [] [] [implied "html" [ implied "head" []; implied "body" [ k "div" [] []]]]) [0] = Ok [] /\
  call_capture_function TextBuiltin (NDocument false [] [] [] [implied "html" [ implied "head" []; implied "body" [ t (s ".")]]]) [0] = Ok (s ".").
Proof. vm_compute. repeat split. Qed.

(** ** string-util *)

Definition sentence : str := s "This" ++ nl ++ s "is" ++ nl ++ s "a" ++ nl ++ s "string" ++ nl ++ s "in" ++ nl ++ s "a" ++ nl ++ s "sentence" ++ nl.
Fixpoint positions (x : str) (line char : nat) : list (nat * nat) :=
  match x with
  | [] => []
  | c :: x' => (line, char) :: if Ascii.eqb c "010" then positions x' (S line) 0 else positions x' line (S char)
  end.
Example CharPosition_Position : map (fun i => CharPosition (firstn i sentence)) (seq 0 (length sentence)) = positions sentence 0 0.
Proof. vm_compute. reflexivity. Qed.
Example IsSpace_DidntChangeBehaviour :
  forallb (fun i => let c := ascii_of_nat i in Bool.eqb (IsSpace c) (existsb (Ascii.eqb c) [" "; "009"; "010"; "012"; "013"]%char)) (seq 0 256) = true.
Proof. vm_compute. reflexivity. Qed.
Example PrintNumberedLines_tests :
  PrintNumberedLines [] = [] /\
  PrintNumberedLines sentence = concat (map (fun l => s l ++ nl) ["1: This"; "2: is"; "3: a"; "4: string"; "5: in"; "6: a"; "7: sentence"; "8: "]%string).
Proof. vm_compute. repeat split. Qed.
Example TrimAndCollapseWs_tests : forallb (fun p => str_eqb (TrimAndCollapseWs (fst p)) (snd p)) whitespace_checks = true.
Proof. vm_compute. reflexivity. Qed.

(** ** html/html.cpp *)

Example Html_ExampleFromDocumentation :
  Rule_matches test_engine (NDocument false [] [] [] [k "html" [] [ implied "head" []; k "body" [] [ t (s "This is a string containing html")]]]) (rule_of_tag TAG_HTML false false) [0] = Ok true.
Proof. vm_compute. reflexivity. Qed.

(** ** rule/rule.cpp *)

(** std::multimap compares the elements in order. *)
Definition three_people : list ResultMap :=
  [[(s "img", s "bob.jpg"); (s "link", s "/bob")]; [(s "img", s "alice.jpg"); (s "link", s "/alice")];
   [(s "img", s "carol.jpg"); (s "link", s "/carol")]].
Example Rule_ExampleFromDocumentation :
  let anchor := append_capture (append_match (rule_of_tag TAG_A false false) (Some (AttributeMatch (s "href") None)))
                  (Some (AttributeCapture (s "href") (s "link") None)) in
  let img := append_capture (rule_of_tag TAG_IMG false false) (Some (AttributeCapture (s "src") (s "img") None)) in
  extract 100 test_engine (append_child anchor img)
    (NDocument false [] [] [] [k "html" [] [ implied "head" []; k "body" [] [ k "div" [] [ k "a" [a "href" (s "/bob")] [ w (s "  "); k "img" [a "src" (s "bob.jpg")] []; w (s "  ")]]; k "div" [] [ k "a" [a "href" (s "/alice")] [ k "img" [a "src" (s "alice.jpg")] []]]; k "div" [] [ k "a" [a "href" (s "/carol")] [ k "img" [a "src" (s "carol.jpg")] []]]]]])
    (Some [0]) 0 = Ok three_people.
Proof. vm_compute. reflexivity. Qed.
Example Rule_SettersGetters :
  let r := rule_of_tag TAG_ANY false false in
  let r' := set_greedy (set_optional (set_tagname (set_tag r TAG_SPAN) (s "span")) true) true in
  (r_tagname r, r_optional r, r_greedy r) = (None, false, false) /\
  (r_tag r', r_tagname r', r_optional r', r_greedy r') = (TAG_SPAN, Some (s "span"), true, true).
Proof. vm_compute. repeat split. Qed.
Example Rule_Copy :
  let h := (NDocument false [] [] [] [implied "html" [ implied "head" []; implied "body" [ k "a" [a "href" (s "/page"); a "class" (s "link")] [ k "img" [a "src" (s "/img.png")] []; e (Some (s "<custom-tag>")) "custom-tag" [] [ t (s "Page")]]]]]) in
  match ParseHext test_engine (s "<a href^='/' class:type href:link ><img src:img /><custom-tag @text:link_name /></a>") with
  | Ok original =>
      let copied := rule_copy original in
      Rule_matches test_engine h original first = Ok true /\ Rule_matches test_engine h copied first = Ok true /\
      r_next copied = None /\ (exists c n, r_child copied = Some c /\ r_next c = Some n /\ r_next n = None) /\
      match extract 100 test_engine copied h (Some [0]) 0 with Ok result => map (@length _) result = [4] | _ => False end
  | _ => False
  end.
Proof. vm_compute. repeat split. do 2 eexists. repeat split. Qed.
Example Rule_TagNameIsConvertedToTag :
  r_tag (rule_of_name (s "img") false false) = TAG_IMG /\ r_tagname (rule_of_name (s "img") false false) = None /\
  r_tag (rule_of_name (s "dIv") false false) = TAG_DIV /\ r_tagname (rule_of_name (s "dIv") false false) = None.
Proof. vm_compute. repeat split. Qed.
Example Rule_MatchesCustomTags :
  let custom := append_capture (append_match (rule_of_name (s "yt-formatted-string") false false) (Some (AttributeMatch (s "href") None)))
                  (Some (AttributeCapture (s "href") (s "link") None)) in
  let image := append_capture (rule_of_name (s "images") false false) (Some (AttributeCapture (s "src") (s "img") None)) in
  extract 100 test_engine (append_child custom image)
    (NDocument false [] [] [] [k "html" [] [ implied "head" []; k "body" [] [ k "div" [] [ e (Some (s "<yt-formatted-string href='/bob'>")) "yt-formatted-string" [a "href" (s "/bob")] [ e (Some (s "<images src='bob.jpg' />")) "images" [a "src" (s "bob.jpg")] []]]; k "div" [] [ e (Some (s "<yt-formatted-string href='/alice'>")) "yt-formatted-string" [a "href" (s "/alice")] [ e (Some (s "<images src='alice.jpg' />")) "images" [a "src" (s "alice.jpg")] []]]; k "div" [] [ e (Some (s "<yt-formatted-string href='/carol'>")) "yt-formatted-string" [a "href" (s "/carol")] [ e (Some (s "<images src='carol.jpg' />")) "images" [a "src" (s "carol.jpg")] []]]]]])
    (Some [0]) 0 = Ok three_people.
Proof. vm_compute. reflexivity. Qed.
Example Rule_EmptyTagNameDoesNotMatch :
  extract 100 test_engine (append_capture (rule_of_name [] false false) (Some (AttributeCapture (s "class") (s "y") None)))
    (NDocument false [] [] [] [k "html" [] [ implied "head" []; k "body" [a "class" (s "y")] [ k "div" [a "class" (s "y")] []]]]) (Some [0]) 0 = Ok [].
Proof. vm_compute. reflexivity. Qed.
Example Rule_NestedRule :
  let h := (NDocument false [] [] [] [k "html" [] [ k "head" [] []; k "body" [] [ k "div" [] [ k "div" [] [ k "div" [] [ k "div" [] [ k "div" [] [ k "div" [] [ k "span" [a "class" (s "one")] []; k "span" [a "class" (s "two")] []; k "span" [a "class" (s "three")] []]]]]]]]]]) in
  let inner := append_capture (rule_of_tag TAG_SPAN false false) (Some (AttributeCapture (s "class") (s "c") None)) in
  extract 100 test_engine (rule_of_tag TAG_BODY false false) h (Some [0]) 10 = Ok [] /\
  extract 100 test_engine (append_nested (rule_of_tag TAG_BODY false false) inner) h (Some [0]) 17
    = Ok [[(s "c", s "one"); (s "c", s "two"); (s "c", s "three")]].
Proof. vm_compute. repeat split. Qed.

(** ** rule/rule-matching.cpp *)

Definition seven : node := (NDocument false [] [] [] [implied "html" [ implied "head" []; implied "body" [ k "div" [] [ k "div" [] [ k "ul" [] [ k "li" [] []; k "li" [] []]]; k "div" [] [ k "ul" [] [ k "li" [] []; k "li" [] []]]]; k "div" [] [ k "div" [] [ k "ul" [] [ k "li" [] []; k "li" [] []]]; k "div" [] [ k "ul" [] [ k "li" [] []; k "li" [] []]]]; k "div" [] [ k "div" [] [ k "ul" [] [ k "li" [] []; k "li" [] []]]; k "div" [] [ k "ul" [] [ k "li" [] []; k "li" [] []]; k "div" [] [ k "ul" [] [ k "li" [] []; k "li" [] []]]]]]]]).
Fixpoint unique {A} (eqb : A -> A -> bool) (l : list A) : bool :=
  match l with [] => true | x :: l' => negb (existsb (eqb x) l') && unique eqb l' end.
Definition rule_matching (x : string) (h : node) : outcome (list MatchingNodes * N) :=
  match ParseHext test_engine (s x) with
  | Ok r => SaveMatchingNodesRecursive r h (Rule_matches test_engine h) 200 (Some []) (Some [0]) 0%N
  | _ => UB NullDeref
  end.
Example SaveMatchingNodesRecursive_seven :
  forallb (fun x => match rule_matching x seven with
    | Ok (result, _) =>
        Nat.eqb (length result) 7 && unique npath_eqb (map snd (concat result)) &&
        forallb (fun g => Nat.eqb (length g) 4 && unique rpath_eqb (map fst g)) result
    | _ => false end)
    ["<div><ul><li/><li/></ul></div>"; "<?div><ul><li/><li/></ul></div>"; "<?div/><div><ul><li/><li/></ul></div>";
     "<div><ul><li/><li/></ul></div><?div/>"; "<?div/><div><ul><li/><li/></ul></div><?div/>";
     "<?div/><div><ul><+li/><li/></ul></div><?div/>"; "<?+div/><+div><+ul><+li/><+li/></ul></div><?+div/>"]%string = true.
Proof. vm_compute. reflexivity. Qed.

Example SaveMatchingNodesRecursive_MaxSearches :
  let h := (NDocument false [] [] [] [k "html" [] [ k "head" [] []; k "body" [] [ k "div" [] [ k "a" [] []]; k "div" [] [ k "div" [] [ k "a" [] []]]]]]) in
  match ParseHext test_engine (s "<a/>") with
  | Ok r =>
      let search n := SaveMatchingNodesRecursive r h (Rule_matches test_engine h) 200 (Some []) (Some [0]) n in
      (exists gs, search 0%N = Ok (gs, 0%N) /\ length gs = 2) /\ search 1%N = Throw MaxSearchError /\
      (exists gs, search 7%N = Ok (gs, 1%N))
  | _ => False
  end.
Proof. vm_compute. repeat split; eexists; repeat split. Qed.

(** The result of one of the functions: the node and the number of pairs. *)
Definition brief {A B} (o : outcome (A * list B * N)) : outcome (A * nat) :=
  match o with Ok (x, l, _) => Ok (x, length l) | Throw x => Throw x | UB u => UB u | OutOfFuel => OutOfFuel end.
Definition on {A} (f : rule -> outcome A) (x : string) : outcome A :=
  match ParseHext test_engine (s x) with Ok r => f r | Throw x => Throw x | UB u => UB u | OutOfFuel => OutOfFuel end.
Definition group h (p : npath) := on (fun r => brief (MatchRuleGroup r h (Rule_matches test_engine h) 200 (Some []) (Some p) 0%N)).
Definition once h (p : npath) := on (fun r => brief (MatchRuleOnce r h (Rule_matches test_engine h) 200 (Some []) (Some p) None 0%N)).
Definition range h (stop : rptr) (e : nptr) := on (fun r => brief (MatchRange r h (Rule_matches test_engine h) 200 (Some []) stop (Some first) e 0%N)).

Definition a_div_a : node := (NDocument false [] [] [] [implied "html" [ implied "head" []; implied "body" [ k "a" [] []; k "div" [] []; k "a" [] []]]]).
Example MatchRuleGroup_tests :
  group a_div_a first "<a/><?div/>" = Ok (Some (body_child 3), 2) /\
  group a_div_a (body_child 3) "<a/><?div/>" = Ok (None, 1) /\
  group a_div_a first "<?a/><?div/>" = Ok (Some (body_child 3), 2) /\
  group a_div_a (body_child 3) "<?a/><?div/>" = Ok (None, 1) /\
  group (NDocument false [] [] [] [implied "html" [ implied "head" []; implied "body" [ k "a" [] []; k "div" [] []; k "a" [] []; k "div" [] []]]]) first "<+a/>" = Ok (None, 2).
Proof. vm_compute. repeat split. Qed.

Example RuleMatchesNodeRecursive_test :
  let h := (NDocument false [] [] [] [implied "html" [ implied "head" []; implied "body" [ k "a" [] [ k "u" [] []; k "i" [] []]]]]) in
  on (fun r => brief (RuleMatchesNodeRecursive r h (Rule_matches test_engine h) 200 (Some []) (Some first) 0%N)) "<a><u/><i/></a>" = Ok (true, 2).
Proof. vm_compute. reflexivity. Qed.

Definition a_b : node := (NDocument false [] [] [] [implied "html" [ implied "head" []; implied "body" [ k "a" [] []; k "b" [] []]]]).
Definition au_bu : node := (NDocument false [] [] [] [implied "html" [ implied "head" []; implied "body" [ k "a" [] [ k "u" [] []]; k "b" [] [ k "u" [] []]]]]).
Example MatchRuleOnce_tests :
  once a_b first "<a/>" = Ok (Some first, 0) /\ once a_b first "<a/><a/>" = Ok (Some first, 0) /\
  once a_b first "<b/>" = Ok (Some (body_child 2), 0) /\ once a_b first "<i/>" = Ok (None, 0) /\
  once au_bu first "<a><u/></a>" = Ok (Some first, 1) /\ once au_bu first "<a><u/></a><a><u/></a>" = Ok (Some first, 1) /\
  once au_bu first "<b><u/></b>" = Ok (Some (body_child 2), 1) /\ once au_bu first "<a><i/></a>" = Ok (None, 0).
Proof. vm_compute. repeat split. Qed.

Definition apapb : node := (NDocument false [] [] [] [implied "html" [ implied "head" []; implied "body" [ k "a" [] []; k "p" [] []; k "a" [] []; k "p" [] []; k "b" [] []]]]).
Example MatchRange_tests :
  range apapb (Some [RNext]) (Some (body_child 2)) "<a/><b/>" = Ok (Some first, 1) /\
  range apapb None None "<a/><b/>" = Ok (Some (body_child 5), 2).
Proof. vm_compute. repeat split. Qed.
Definition pairs h (x : string) : outcome nat := match range h None None x with Ok (_, n) => Ok n | _ => OutOfFuel end.
Example MatchRangeNested_tests :
  pairs (NDocument false [] [] [] [implied "html" [ implied "head" []; implied "body" [ k "a" [] [ k "b" [] []]]]]) "<a>{<b/>}</a>" = Ok 2 /\
  pairs (NDocument false [] [] [] [implied "html" [ implied "head" []; implied "body" [ k "a" [] [ k "div" [] [ k "b" [] []]]]]]) "<a>{<b/>}</a>" = Ok 2 /\
  pairs (NDocument false [] [] [] [implied "html" [ implied "head" []; implied "body" [ k "a" [] [ k "div" [] [ k "div" [] [ k "b" [] []]]]]]]) "<a>{<b/>}</a>" = Ok 2 /\
  pairs (NDocument false [] [] [] [implied "html" [ implied "head" []; implied "body" [ k "div" [] [ k "span" [] [ k "span" [] [ k "span" [] [ k "b" [] []; k "a" [] []]]]]]]]) "<div>{<b/><a/>}</div>" = Ok 3 /\
  pairs (NDocument false [] [] [] [implied "html" [ implied "head" []; implied "body" [ k "div" [] [ k "i" [] []; k "span" [] [ k "span" [] [ k "span" [] [ k "b" [] []; k "a" [] []]]]]]]]) "<div>{<b/><a/>}<i/>{<span><b/><a/></span>}</div>" = Ok 7 /\
  pairs (NDocument false [] [] [] [implied "html" [ implied "head" []; implied "body" [ k "b" [] []; k "div" [] [ k "span" [] [ k "span" [] [ k "span" [] [ k "b" [] []; k "a" [] []]]]]; k "b" [] []]]]) "<div>{<b/><a/>}</div><b/>" = Ok 4 /\
  pairs (NDocument false [] [] [] [implied "html" [ implied "head" []; implied "body" [ k "div" [] [ k "span" [] [ k "span" [] [ k "span" [] [ k "b" [] [ k "span" [] [ k "a" [] []]]]]]]]]]) "<div>{<b>{<a/>}</b>}</div>" = Ok 3 /\
  pairs (NDocument false [] [] [] [implied "html" [ implied "head" []; implied "body" [ k "div" [] [ k "p" [] []; k "span" [] [ k "span" [] [ k "span" [] [ k "i" [] []; k "b" [] [ k "span" [] [ k "a" [] []; k "b" [] []]]]]]]]]]) "<div><p/>{<i/><b>{<a/><b/>}</b>}</div>" = Ok 6.
Proof. vm_compute. repeat split. Qed.

Definition find_mandatory_from (begin_ : rptr) (x : string) : outcome rptr := on (fun r => FindMandatoryRule r begin_ None) x.
Example FindMandatoryRule_tests :
  find_mandatory_from None "<a/>" = Ok None /\ find_mandatory_from (Some []) "<a/>" = Ok (Some []) /\
  find_mandatory_from (Some []) "<a/><b/>" = Ok (Some []) /\ find_mandatory_from (Some [RNext]) "<a/><b/>" = Ok (Some [RNext]) /\
  find_mandatory_from (Some []) "<?a/><b/>" = Ok (Some [RNext]) /\ find_mandatory_from (Some [RNext]) "<?a/><b/>" = Ok (Some [RNext]) /\
  find_mandatory_from (Some []) "<?a/><?b/>" = Ok None /\ find_mandatory_from (Some [RNext]) "<?a/><?b/>" = Ok None /\
  find_mandatory_from (Some []) "<a/><?b/><i/>" = Ok (Some []) /\ find_mandatory_from (Some [RNext]) "<a/><?b/><i/>" = Ok (Some [RNext; RNext]) /\
  find_mandatory_from (Some []) "<a/><?b/><custom-tag/>" = Ok (Some []) /\
  find_mandatory_from (Some [RNext]) "<a/><?b/><custom-tag/>" = Ok (Some [RNext; RNext]).
Proof. vm_compute. repeat split. Qed.
