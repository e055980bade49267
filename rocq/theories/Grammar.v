(** The grammar of Hext, libhext/ragel/hext-machine.rl, as a regular expression
    with embedded actions.

    The actions have the numbers that the generated parser (Parser.cpp
    1912-2285) gives them, which is the order of their appearance in
    hext-machine.rl. Ragel's [r >a] is [Act a] before [r] and [r %a] is [Act a]
    after [r]. *)

From Coq Require Import Ascii String NArith Bool List.
From Verif Require Import Base Regular.
Import ListNotations.

(** ** Notation of Ragel *)

Definition cls (c : ascii) : N := byte_range (N_of_ascii c) (N_of_ascii c).
Definition chr (c : ascii) : re := Sym (cls c).
Fixpoint lit (x : str) : re :=
  match x with
  | [] => Eps
  | [c] => chr c
  | c :: x' => Cat (chr c) (lit x')
  end.
Definition any_but (c : ascii) : N := N.ldiff all_bytes (cls c).
Definition opt (r : re) : re := Alt r Eps.
Fixpoint cats (l : list re) : re :=
  match l with
  | [] => Eps
  | [r] => r
  | r :: l' => Cat r (cats l')
  end.
Fixpoint alts (l : list re) : re :=
  match l with
  | [] => Eps
  | [r] => r
  | r :: l' => Alt r (alts l')
  end.

Definition m_digit : N := byte_range 48 57.
Definition m_alpha : N := N.lor (byte_range 65 90) (byte_range 97 122).
Definition m_alnum : N := N.lor m_alpha m_digit.
(** Tab, newline, vertical tab, form feed, carriage return and blank. *)
Definition m_space : N := N.lor (byte_range 9 13) (cls " ").
Definition m_name : N := N.lor m_alnum (N.lor (cls "-") (cls "_")).
Definition m_var : N := N.lor m_name (cls ".").

Definition backslash : ascii := "\"%char.
Definition quote : ascii := """"%char.
Definition apostrophe : ascii := "'"%char.
Definition newline : ascii := "010"%char.

Definition spaces : re := Star (Sym m_space).
Definition digits : re := Plus (Sym m_digit).

(** [( \[^q\] | '\\q' )**], lines 40-57 and 89-93. The longest-match star gives
    staying inside the repetition precedence over leaving it: a delimiter [q]
    after a backslash belongs to the repetition. So these are the texts of
    [( \[^q\] | '\\q' )*] that do not end in a backslash (theorem
    [body_words] in GrammarTexts). *)
Definition body (q : ascii) : re :=
  Star (Alt (Sym (N.ldiff (any_but q) (cls backslash)))
            (Cat (Plus (chr backslash)) (Sym (any_but backslash)))).

(** Lines 40-46, 48-57, 89-93: a delimiter, a body with its two actions, the
    same delimiter. *)
Definition delimited (q : ascii) (a b : N) : re :=
  cats [chr q; Act a; body q; Act b; chr q].

Section Grammar.

(** See [G] and [G_exact] below. *)
Variable pipe_mark : re.

(** Lines 25-57 *)
Definition g_optional : re := Cat (chr "?") (Act 0).
Definition g_negate : re := Cat (chr "!") (Act 1).
Definition g_name : re := Cat (Sym m_alpha) (Star (Sym m_name)).
Definition g_attr_name : re := cats [Act 2; g_name; Act 3].
Definition g_opt_quoted : re := Alt (delimited quote 4 5) (delimited apostrophe 6 7).
Definition g_quoted : re := Alt (delimited quote 8 9) (delimited apostrophe 10 11).

(** Lines 63-83 *)
Definition g_nth : re :=
  alts [Cat (lit (s "even")) (Act 12);
        Cat (lit (s "odd")) (Act 13);
        cats [Act 14; opt (chr "-"); digits; Act 15;
              opt (cats [chr "n"; Act 16;
                         opt (cats [Act 17; Alt (chr "+") (chr "-"); digits; Act 18])])]].

(** Lines 87-115 *)
Definition g_regex : re :=
  cats [alts [delimited "/" 19 20; delimited apostrophe 21 22; delimited quote 23 24];
        Star (Alt (Cat (chr "i") (Act 25)) (Cat (chr "c") (Act 26)));
        Act 27].
Definition g_regex_test : re := Cat g_regex (Act 28).

(** Lines 119-175 *)
Definition g_count (name : str) (a b : N) : re :=
  cats [lit name; Act a; digits; Act b; chr ")"].
Definition g_nth_trait (name : str) (a : N) : re :=
  cats [lit name; g_nth; chr ")"; Act a].
Definition g_plain (name : str) (a : N) : re := Cat (lit name) (Act a).
Definition g_trait : re :=
  Cat (chr ":")
    (alts [g_plain (s "empty") 29;
           g_count (s "child-count(") 30 31;
           g_count (s "attribute-count(") 32 33;
           g_nth_trait (s "nth-child(") 34;
           g_nth_trait (s "nth-last-child(") 35;
           g_nth_trait (s "nth-of-type(") 36;
           g_plain (s "first-child") 37;
           g_plain (s "first-of-type") 38;
           g_plain (s "last-child") 39;
           g_plain (s "last-of-type") 40;
           g_nth_trait (s "nth-last-of-type(") 41;
           g_plain (s "only-child") 42;
           g_plain (s "only-of-type") 43;
           cats [lit (s "type-matches("); g_regex; chr ")"; Act 44]]).
(** Lines 176-187 *)
Definition g_not_trait : re :=
  cats [lit (s ":not("); Act 45; Plus (Cat g_trait (Act 46)); chr ")"].

(** Lines 191-198 *)
Definition g_builtin : re :=
  Cat (chr "@")
    (alts [g_plain (s "text") 47; g_plain (s "inner-html") 48; g_plain (s "strip-tags") 49]).

(** Lines 203-226 *)
Definition g_pipe_arg (name : str) (a : N) : re := cats [lit name; g_quoted; chr ")"; Act a].
Definition g_pipe : re :=
  cats [chr ":"; pipe_mark;
    (alts [g_plain (s "trim") 50;
           g_pipe_arg (s "trim(") 51;
           g_plain (s "collapsews") 52;
           g_plain (s "tolower") 53;
           g_plain (s "toupper") 54;
           g_pipe_arg (s "prepend(") 55;
           g_pipe_arg (s "append(") 56;
           cats [lit (s "filter("); g_regex; chr ")"; Act 57];
           cats [lit (s "replace("); g_regex; spaces; chr ","; spaces; g_opt_quoted; chr ")"; Act 58]])].
(** Lines 227-236 *)
Definition g_capture : re :=
  cats [Star g_pipe; chr ":";
        Alt (Cat g_quoted (Act 59)) (cats [Act 60; Plus (Sym m_var); Act 61])].

(** Lines 240-255 *)
Definition g_match_arg : re :=
  alts [cats [chr "="; g_quoted; Act 62];
        cats [lit (s "=="); g_opt_quoted; Act 63];
        cats [lit (s "^="); g_quoted; Act 64];
        cats [lit (s "*="); g_quoted; Act 65];
        cats [lit (s "$="); g_quoted; Act 66]].

(** Lines 259-299 *)
Definition g_pattern_body : re :=
  Cat (alts [cats [g_builtin; g_capture; Act 67];
             cats [g_builtin; lit (s "=~"); g_regex_test; opt g_negate; Act 68];
             cats [g_builtin; g_match_arg; opt g_negate; Act 69];
             cats [g_attr_name; g_capture; opt g_optional; Act 70];
             cats [g_attr_name; lit (s "=~"); g_regex_test; opt g_negate; Act 71];
             cats [g_attr_name; g_match_arg; opt g_negate; Act 72];
             cats [g_attr_name; Act 73; opt g_negate; Act 74]])
      (Act 75).
Definition g_pattern : re := Cat (Plus (Sym m_space)) g_pattern_body.

(** Lines 303-347 *)
Definition g_tag_name : re := Alt (chr "*") g_name.
Definition g_open : re :=
  cats [chr "<"; Act 76;
        Star (Alt (Cat (chr "?") (Act 77)) (Cat (chr "+") (Act 78)));
        Act 79; g_tag_name; Act 80;
        Star (Alt (Cat g_not_trait (Act 81)) (Cat g_trait (Act 82)));
        Star g_pattern;
        spaces;
        Alt (Cat (lit (s "/>")) (Act 83)) (chr ">")].
Definition g_close : re :=
  cats [lit (s "</"); Act 84; g_tag_name; Act 85; chr ">"].

(** Lines 349-369 *)
Definition g_comment : re := cats [chr "#"; Star (Sym (any_but newline)); chr newline].
Definition g_main : re :=
  Star (alts [Sym m_space;
              g_comment;
              Cat (chr "{") (Act 86);
              Cat (chr "}") (Act 87);
              Alt g_open g_close]).

End Grammar.

(** The grammar as it stands. *)
Definition G : re := g_main Eps.

(** Where the name of a pipe starts, a capture name may start as well, and
    Ragel runs the action of both. [G_exact] has the action 60 of the capture
    name in front of the name of a pipe, too. *)
Definition G_exact : re := g_main (Act 60).
