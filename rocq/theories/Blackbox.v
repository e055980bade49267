(** The project's black-box test cases (test/case, test/blackbox.sh), run on the
    model of htmlext.

    These are tests of the model and not proofs of properties: they compare the
    model with the output that the authors of the program expect. [blackbox] is
    blackbox.sh: it runs htmlext on a Hext file and an HTML file and compares the
    sorted lines of the output with those of the expected file. The documents
    are what Gumbo builds for the HTML files (transcribed by a script that
    follows the HTML parsing algorithm); regular expressions are those of
    TestRegex.v. *)

From Coq Require Import Ascii String NArith ZArith Bool List.
From Verif Require Import Base StringUtil Tags Dom NodeUtil Values Match Rule RuleMatching Parser Convert Cli JsonText TestRegex.
Import ListNotations.

Definition t (x : str) : node := NText x.
Definition w (x : str) : node := NWhitespace x.
Definition a (name : string) (value : str) : attr := mk_attr NsNone (s name) (Some value).
(** An element that HTML knows, one that it does not know (with its start tag),
    and one that is not in the file. *)
Definition k (name : string) (attrs : list attr) (children : list node) : node :=
  NElement (gumbo_tag_enum (s name)) (Some (s "<" ++ s name ++ s ">")) attrs children.
Definition e (orig : option str) (name : string) (attrs : list attr) (children : list node) : node :=
  NElement (gumbo_tag_enum (s name)) orig attrs children.
Definition implied (name : string) (children : list node) : node := NElement (gumbo_tag_enum (s name)) None [] children.

Fixpoint split_lines (x line : str) : list str :=
  match x with
  | [] => [rev line]
  | c :: x' => if Ascii.eqb c "010" then rev line :: split_lines x' [] else split_lines x' (c :: line)
  end.
Fixpoint insert_line (x : str) (l : list str) : list str :=
  match l with [] => [x] | y :: l' => if str_ltb y x then y :: insert_line x l' else x :: l end.
Definition sorted_lines (x : str) : list str := fold_right insert_line [] (split_lines x []).

Definition files (hext : str) (document : node) (root : nat) : surroundings :=
  mk_surroundings
    (fun name => if str_eqb name (s "case.hext") then inl hext else if str_eqb name (s "case.html") then inl [] else inr [])
    (fun _ => (document, Some [root])) test_engine rapidjson (fun _ => []).
Definition arguments : options :=
  mk_options [s "case.hext"] [] [s "case.html"] false None 10000 (mk_json_option false false).

Definition blackbox (hext : str) (document : node) (root : nat) (expected : str) : Prop :=
  match main 3000 (files hext document root) arguments with
  | Ok ending => sorted_lines (out ending) = sorted_lines expected /\ err ending = [] /\ failed ending = false
  | _ => False
  end.

Example append_pipe : blackbox
  (s "<a class:trim:prepend(""'""):append(""' is the class""):'class' />" ++ ["010"%char])
  (NDocument false [] [] [] [
    implied "html" [
      implied "head" [];
      implied "body" [
        k "div" [] [
          w (["010"%char] ++ s "  ");
          k "a" [a "class" (s " spaces ")] [
            t (s " This is some content   ")];
          w (["010"%char] ++ s "  ");
          k "a" [a "class" (s "no spaces")] [
            t (s "   some more content")];
          w ["010"%char]];
        w ["010"%char]]]]) 0
  (s "{""class"":""'no spaces' is the class""}" ++ ["010"%char] ++ s "{""class"":""'spaces' is the class""}" ++ ["010"%char]).
Proof. vm_compute. auto. Qed.

Example array : blackbox
  (s "<div>" ++ ["010"%char] ++ s "  <h2 @text:heading/>" ++ ["010"%char] ++ s "  <p @text:paragraph/>" ++ ["010"%char] ++ s "</div>" ++ ["010"%char])
  (NDocument false [] [] [] [
    k "html" [] [
      implied "head" [];
      k "body" [] [
        w (["010"%char] ++ s "  ");
        k "div" [] [
          w (["010"%char] ++ s "    ");
          k "h2" [] [
            t (s "Heading1")];
          w (["010"%char] ++ s "    ");
          k "p" [] [
            t (s "Text1")];
          w (["010"%char] ++ s "    ");
          k "p" [] [
            t (s "Timestamp1")];
          w (["010"%char] ++ s "    ");
          k "h2" [] [
            t (s "Heading2")];
          w (["010"%char] ++ s "    ");
          k "p" [] [
            t (s "Text2")];
          w (["010"%char] ++ s "    ");
          k "p" [] [
            t (s "Timestamp2")];
          w (["010"%char] ++ s "    ");
          k "div" [a "class" (s "advertising")] [
            t (s "...")];
          w (["010"%char] ++ s "    ");
          k "h2" [] [
            t (s "Heading3")];
          w (["010"%char] ++ s "    ");
          k "p" [] [
            t (s "Text3")];
          w (["010"%char] ++ s "    ");
          k "p" [] [
            t (s "Timestamp3")];
          w (["010"%char] ++ s "  ")];
        w ["010"%char; "010"%char; "010"%char]]]]) 0
  (s "{""heading"":[""Heading1"",""Heading2"",""Heading3""],""paragraph"":[""Text1"",""Text2"",""Text3""]}" ++ ["010"%char]).
Proof. vm_compute. auto. Qed.

Example attribute_case : blackbox
  (s "<span CLass:class />" ++ ["010"%char])
  (NDocument false [] [] [] [
    implied "html" [
      implied "head" [];
      implied "body" [
        k "div" [] [
          w (["010"%char] ++ s "  ");
          k "span" [a "class" (s "lower case attribute")] [];
          w (["010"%char] ++ s "  ");
          k "span" [a "class" (s "mixed case attribute")] [];
          w (["010"%char] ++ s "  ");
          k "span" [a "class" (s "upper case attribute")] [];
          w ["010"%char]];
        w ["010"%char]]]]) 0
  (s "{""class"":""lower case attribute""}" ++ ["010"%char] ++ s "{""class"":""mixed case attribute""}" ++ ["010"%char] ++ s "{""class"":""upper case attribute""}" ++ ["010"%char]).
Proof. vm_compute. auto. Qed.

Example attribute_count : blackbox
  (s "<div:attribute-count(3) @inner-html:attr_count/>" ++ ["010"%char])
  (NDocument false [] [] [] [
    k "html" [] [
      k "head" [] [
        w (["010"%char] ++ s "  ")];
      w (["010"%char] ++ s "  ");
      k "body" [] [
        w (["010"%char] ++ s "    ");
        k "div" [] [
          t (s "0")];
        w (["010"%char] ++ s "    ");
        k "div" [a "attr1" []] [
          t (s "1")];
        w (["010"%char] ++ s "    ");
        k "div" [a "attr1" []; a "attr2" []] [
          t (s "2")];
        w (["010"%char] ++ s "    ");
        k "div" [a "attr1" []; a "attr2" []; a "attr3" []] [
          t (s "3")];
        w (["010"%char] ++ s "  " ++ ["010"%char; "010"%char])]]]) 0
  (s "{""attr_count"":""3""}" ++ ["010"%char]).
Proof. vm_compute. auto. Qed.

Example attribute_operators : blackbox
  (s "<div class=""swo"" class*=""wor"" class$=""word"" class^=""swo"" same==""same"" class:class/>" ++ ["010"%char])
  (NDocument false [] [] [] [
    implied "html" [
      implied "head" [];
      implied "body" [
        k "div" [a "id" (s "anchor")] [
          w (["010"%char] ++ s "  ");
          k "div" [a "same" (s "same"); a "class" (s "swo sword")] [];
          w (["010"%char] ++ s "  ");
          k "div" [a "same" (s "same"); a "class" (s "swo ssword")] [];
          w (["010"%char] ++ s "  ");
          k "div" [a "class" (s "ord")] [];
          w (["010"%char] ++ s "  ");
          k "div" [a "class" (s "or")] [];
          w (["010"%char] ++ s "  ");
          k "div" [a "class" (s "nope")] [];
          w ["010"%char]];
        w ["010"%char]]]]) 0
  (s "{""class"":""swo ssword""}" ++ ["010"%char] ++ s "{""class"":""swo sword""}" ++ ["010"%char]).
Proof. vm_compute. auto. Qed.

Example carriage_return : blackbox
  (s "<tr>" ++ ["013"%char; "010"%char] ++ s "  <td><span @text:rank /></td>" ++ ["013"%char; "010"%char] ++ s "  <td><a href:href @text:title /></td>" ++ ["013"%char; "010"%char] ++ s "</tr>" ++ ["013"%char; "010"%char] ++ s "<?tr>" ++ ["013"%char; "010"%char] ++ s "  <td>" ++ ["013"%char; "010"%char] ++ s "    <span @text:score />" ++ ["013"%char; "010"%char] ++ s "    <a @text:user />" ++ ["013"%char; "010"%char] ++ s "    <a:last-child @text:filter(/\d+/):comment_count />" ++ ["013"%char; "010"%char] ++ s "  </td>" ++ ["013"%char; "010"%char] ++ s "</tr>" ++ ["013"%char; "010"%char; "013"%char; "010"%char])
  (NDocument false [] [] [] [
    implied "html" [
      implied "head" [];
      implied "body" [
        k "table" [] [
          w (["010"%char] ++ s "  ");
          k "tbody" [] [
            w (["010"%char] ++ s "    ");
            k "tr" [] [
              w (["010"%char] ++ s "      ");
              k "td" [] [
                k "span" [] [
                  t (s "1.")]];
              w (["010"%char] ++ s "      ");
              k "td" [] [
                k "a" [a "href" (s "http://example.com/10-reasons")] [
                  t (["010"%char] ++ s "          10 Reasons why your startup is" ++ ["010"%char] ++ s "          worse than mine")]];
              w (["010"%char] ++ s "      ");
              k "td" [] [
                k "a" [a "href" (s "javascript:vote()")] [
                  t (s "Vote up")]];
              w (["010"%char] ++ s "    ")];
            w (["010"%char] ++ s "    ");
            k "tr" [] [
              w (["010"%char] ++ s "      ");
              k "td" [a "class" (s "spacer")] [];
              w (["010"%char] ++ s "      ");
              k "td" [a "class" (s "subtext")] [
                w (["010"%char] ++ s "        ");
                k "span" [a "class" (s "score")] [
                  t (s "23 points")];
                t (s " |" ++ ["010"%char] ++ s "        by ");
                k "a" [a "href" (s "/user/mr-robot-23")] [
                  t (s "MrRobot23")];
                t (["010"%char] ++ s "        some time ago |" ++ ["010"%char] ++ s "        ");
                k "a" [a "href" (s "/posts/1478923")] [
                  t (s "42 comments")];
                w (["010"%char] ++ s "      ")];
              w (["010"%char] ++ s "    ")];
            w (["010"%char] ++ s "    ");
            k "tr" [a "class" (s "spacer")] [];
            w (["010"%char] ++ s "    ");
            k "tr" [] [
              w (["010"%char] ++ s "      ");
              k "td" [] [
                k "span" [] [
                  t (s "2.")]];
              w (["010"%char] ++ s "      ");
              k "td" [] [
                w (["010"%char] ++ s "        ");
                k "a" [a "href" (s "https://www.example.com/cutting-onions")] [
                  t (["010"%char] ++ s "           The lost art of cutting onions:" ++ ["010"%char] ++ s "           How an outcast revolutionized food supply" ++ ["010"%char] ++ s "        ")];
                w (["010"%char] ++ s "      ")];
              w (["010"%char] ++ s "      ");
              k "td" [] [
                k "a" [a "href" (s "javascript:vote()")] [
                  t (s "Vote up")]];
              w (["010"%char] ++ s "    ")];
            w (["010"%char] ++ s "    ");
            k "tr" [] [
              w (["010"%char] ++ s "      ");
              k "td" [a "class" (s "spacer")] [];
              w (["010"%char] ++ s "      ");
              k "td" [a "class" (s "subtext")] [
                w (["010"%char] ++ s "        ");
                k "span" [a "class" (s "score")] [
                  t (s "99 points")];
                t (s " |" ++ ["010"%char] ++ s "        by ");
                k "a" [a "href" (s "/user/sillyvalley")] [
                  t (s "SillyValley")];
                t (["010"%char] ++ s "        some time ago |" ++ ["010"%char] ++ s "        ");
                k "a" [a "href" (s "/posts/1478930")] [
                  t (s "5 comments")];
                w (["010"%char] ++ s "      ")];
              w (["010"%char] ++ s "    ")];
            w (["010"%char] ++ s "    ");
            k "tr" [a "class" (s "spacer")] [];
            w (["010"%char] ++ s "    ");
            k "tr" [] [
              w (["010"%char] ++ s "      ");
              k "td" [] [
                k "span" [] [
                  t (s "3.")]];
              w (["010"%char] ++ s "      ");
              k "td" [] [
                w (["010"%char] ++ s "        ");
                k "a" [a "href" (s "https://www.example.com/cppcompjs")] [
                  t (["010"%char] ++ s "          cppcompjs: A non-blocking (web-scale) C++" ++ ["010"%char] ++ s "          compiler for node.js")]];
              w (["010"%char] ++ s "      ");
              k "td" [] [
                k "a" [a "href" (s "javascript:vote()")] [
                  t (s "Vote up")]];
              w (["010"%char] ++ s "    ")];
            w (["010"%char] ++ s "    ");
            k "tr" [] [
              w (["010"%char] ++ s "      ");
              k "td" [a "class" (s "spacer")] [];
              w (["010"%char] ++ s "      ");
              k "td" [a "class" (s "subtext")] [
                w (["010"%char] ++ s "        ");
                k "span" [a "class" (s "score")] [
                  t (s "235 points")];
                t (s " |" ++ ["010"%char] ++ s "        by ");
                k "a" [a "href" (s "/user/malicealice")] [
                  t (s "malicealice")];
                t (["010"%char] ++ s "        some time ago |" ++ ["010"%char] ++ s "        ");
                k "a" [a "href" (s "/posts/")] [
                  t (s "144 comments")];
                w (["010"%char] ++ s "      ")];
              w (["010"%char] ++ s "    ")];
            w (["010"%char] ++ s "    ");
            k "tr" [a "class" (s "spacer")] [];
            w (["010"%char] ++ s "  ")];
          w ["010"%char]];
        w ["010"%char; "010"%char]]]]) 0
  (s "{""comment_count"":""42"",""href"":""http://example.com/10-reasons"",""rank"":""1."",""score"":""23 points"",""title"":""10 Reasons why your startup is worse than mine"",""user"":""MrRobot23""}" ++ ["010"%char] ++ s "{""comment_count"":""5"",""href"":""https://www.example.com/cutting-onions"",""rank"":""2."",""score"":""99 points"",""title"":""The lost art of cutting onions: How an outcast revolutionized food supply"",""user"":""SillyValley""}" ++ ["010"%char] ++ s "{""comment_count"":""144"",""href"":""https://www.example.com/cppcompjs"",""rank"":""3."",""score"":""235 points"",""title"":""cppcompjs: A non-blocking (web-scale) C++ compiler for node.js"",""user"":""malicealice""}" ++ ["010"%char]).
Proof. vm_compute. auto. Qed.

Example chaining_rules_example : blackbox
  (s "<div:attribute-count(0)>" ++ ["010"%char] ++ s "  <ul:attribute-count(0)>" ++ ["010"%char] ++ s "    <li>" ++ ["010"%char] ++ s "      <a href:link/>" ++ ["010"%char] ++ s "    </li>" ++ ["010"%char] ++ s "  </ul>" ++ ["010"%char] ++ s "</div>" ++ ["010"%char])
  (NDocument false [] [] [] [
    k "html" [] [
      k "head" [] [];
      w (["010"%char] ++ s "  ");
      k "body" [] [
        w (["010"%char] ++ s "    ");
        k "div" [] [
          w (["010"%char] ++ s "      ");
          k "ul" [a "attribute" []] [
            w (["010"%char] ++ s "        ");
            k "li" [] [
              k "a" [a "href" (s "nope1")] []];
            w (["010"%char] ++ s "        ");
            k "li" [] [
              k "a" [a "href" (s "nope2")] []];
            w (["010"%char] ++ s "      ")];
          w (["010"%char] ++ s "    ")];
        w (["010"%char] ++ s "    ");
        k "div" [] [
          w (["010"%char] ++ s "      ");
          k "ul" [] [
            w (["010"%char] ++ s "        ");
            k "li" [] [
              k "a" [a "href" (s "result1")] []];
            w (["010"%char] ++ s "        ");
            k "li" [] [
              k "a" [a "href" (s "result2")] []];
            w (["010"%char] ++ s "        ");
            k "li" [] [
              k "a" [a "href" (s "result3")] []];
            w (["010"%char] ++ s "        ");
            k "li" [] [
              k "a" [a "href" (s "result4")] []];
            w (["010"%char] ++ s "        ");
            k "li" [] [
              k "a" [a "href" (s "result5")] []];
            w (["010"%char] ++ s "        ");
            k "li" [] [
              k "a" [a "href" (s "result6")] []];
            w (["010"%char] ++ s "        ");
            k "li" [] [
              k "a" [a "href" (s "result7")] []];
            w (["010"%char] ++ s "        ");
            k "li" [] [
              k "a" [a "nope3" []] []];
            w (["010"%char] ++ s "      ")];
          w (["010"%char] ++ s "      ");
          k "div" [] [
            w (["010"%char] ++ s "        ");
            k "div" [] [
              w (["010"%char] ++ s "          ");
              k "a" [a "href" (s "nope4")] [];
              w (["010"%char] ++ s "        ")];
            w (["010"%char] ++ s "      ")];
          w (["010"%char] ++ s "    ")];
        w (["010"%char] ++ s "  " ++ ["010"%char; "010"%char])]]]) 0
  (s "{""link"":[""result1"",""result2"",""result3"",""result4"",""result5"",""result6"",""result7""]}" ++ ["010"%char]).
Proof. vm_compute. auto. Qed.

Example collapsews_pipe : blackbox
  (s "<article @strip-tags:collapsews:t />" ++ ["010"%char])
  (NDocument false [] [] [] [
    implied "html" [
      implied "head" [];
      implied "body" [
        k "article" [] [
          w (["010"%char] ++ s "  ");
          k "h1" [] [
            t (s "Something is happening!")];
          w (["010"%char] ++ s "  ");
          k "p" [] [
            t (s "And ");
            k "b" [] [
              t (s "you")];
            t (s " don't know ");
            k "i" [] [
              t (s "what")];
            t (s " it is")];
          w ["010"%char]];
        w ["010"%char]]]]) 0
  (s "{""t"":""Something is happening! And you don't know what it is""}" ++ ["010"%char]).
Proof. vm_compute. auto. Qed.

Example contains_all_words : blackbox
  (s "<div class==""one two three"" class:class/>" ++ ["010"%char])
  (NDocument false [] [] [] [
    k "html" [] [
      k "head" [] [
        w (["010"%char] ++ s "  ")];
      w (["010"%char] ++ s "  ");
      k "body" [] [
        w (["010"%char] ++ s "    ");
        k "div" [a "class" (s "one two three")] [];
        w (["010"%char] ++ s "    ");
        k "div" [a "class" (s "three two one")] [];
        w (["010"%char] ++ s "    ");
        k "div" [a "class" (s "two one two three")] [];
        w (["010"%char] ++ s "    ");
        k "div" [a "class" (s "five six seven")] [];
        w (["010"%char] ++ s "    ");
        k "div" [a "class" (s "five six")] [];
        w (["010"%char] ++ s "    ");
        k "div" [a "class" (s "nine")] [];
        w (["010"%char] ++ s "  " ++ ["010"%char; "010"%char])]]]) 0
  (s "{""class"":""one two three""}" ++ ["010"%char]).
Proof. vm_compute. auto. Qed.

Example custom_tag : blackbox
  (s "<yt-formatted-string @text:x />" ++ ["010"%char])
  (NDocument false [] [] [] [
    implied "html" [
      implied "head" [];
      implied "body" [
        k "div" [] [
          w (["010"%char] ++ s "  ");
          e (Some (s "<yt-formatted-string>")) "yt-formatted-string" [] [
            t (s "This is some content in a custom tag")];
          w ["010"%char]];
        w ["010"%char]]]]) 0
  (s "{""x"":""This is some content in a custom tag""}" ++ ["010"%char]).
Proof. vm_compute. auto. Qed.

Example custom_tag_case_insensitive : blackbox
  (s "<yt-formatted-string class:c @text:x />" ++ ["010"%char])
  (NDocument false [] [] [] [
    implied "html" [
      implied "head" [];
      implied "body" [
        k "div" [] [
          w (["010"%char] ++ s "  ");
          e (Some (s "<yt-formatted-string class=""one"">")) "yt-formatted-string" [a "class" (s "one")] [
            t (s "Content1")];
          w (["010"%char] ++ s "  ");
          e (Some (s "<yt-fOrmatted-string class=""two"">")) "yt-formatted-string" [a "class" (s "two")] [
            t (s "Content2")];
          w (["010"%char] ++ s "  ");
          e (Some (s "<Yt-Formatted-String class=""three"">")) "yt-formatted-string" [a "class" (s "three")] [];
          w (["010"%char] ++ s "  ");
          e (Some (s "<NOMATCH class=""no"">")) "nomatch" [a "class" (s "no")] [
            t (s "no match")];
          w ["010"%char]];
        w ["010"%char]]]]) 0
  (s "{""c"":""one"",""x"":""Content1""}" ++ ["010"%char] ++ s "{""c"":""three"",""x"":""""}" ++ ["010"%char] ++ s "{""c"":""two"",""x"":""Content2""}" ++ ["010"%char]).
Proof. vm_compute. auto. Qed.

Example custom_tag_inner_html : blackbox
  (s "<div @inner-html:x />" ++ ["010"%char])
  (NDocument false [] [] [] [
    implied "html" [
      implied "head" [];
      implied "body" [
        k "div" [] [
          w (["010"%char] ++ s "  ");
          e (Some (s "<yt-formatted-string>")) "yt-formatted-string" [] [
            t (s "This is some content in a custom tag")];
          w (["010"%char] ++ s "  ");
          e (Some (s "<self-closing-custom-tag />")) "self-closing-custom-tag" [] [
            w ["010"%char]]];
        w ["010"%char]]]]) 0
  (s "{""x"":""\n  <yt-formatted-string>This is some content in a custom tag</yt-formatted-string>\n  <self-closing-custom-tag>\n</self-closing-custom-tag>""}" ++ ["010"%char]).
Proof. vm_compute. auto. Qed.

Example custom_tag_parent : blackbox
  (s "<yt-formatted-string>" ++ ["010"%char] ++ s "  <div @text:x />" ++ ["010"%char] ++ s "</yt-formatted-string>" ++ ["010"%char])
  (NDocument false [] [] [] [
    implied "html" [
      implied "head" [];
      implied "body" [
        e (Some (s "<yt-formatted-string>")) "yt-formatted-string" [] [
          w (["010"%char] ++ s "  ");
          k "div" [] [
            t (s "This is some content in a child of a custom tag")];
          w ["010"%char]];
        w ["010"%char]]]]) 0
  (s "{""x"":""This is some content in a child of a custom tag""}" ++ ["010"%char]).
Proof. vm_compute. auto. Qed.

Example doxygen_annotated_class_list : blackbox
  (s "<tr id^=""row_0_"">" ++ ["010"%char] ++ s "  <td class=""entry"">" ++ ["010"%char] ++ s "    <a @text:class_name/>" ++ ["010"%char] ++ s "  </td>" ++ ["010"%char] ++ s "  <td class=""desc"" @text:class_desc/>" ++ ["010"%char] ++ s "</tr>" ++ ["010"%char])
  (NDocument true (s "html") (s "-//W3C//DTD XHTML 1.0 Transitional//EN") (s "http://www.w3.org/TR/xhtml1/DTD/xhtml1-transitional.dtd") [
    k "html" [a "xmlns" (s "http://www.w3.org/1999/xhtml")] [
      k "head" [] [
        w ["010"%char];
        k "meta" [a "http-equiv" (s "Content-Type"); a "content" (s "text/xhtml;charset=UTF-8")] [];
        w ["010"%char];
        k "meta" [a "http-equiv" (s "X-UA-Compatible"); a "content" (s "IE=9")] [];
        w ["010"%char];
        k "meta" [a "name" (s "viewport"); a "content" (s "width=device-width, initial-scale=1")] [];
        w ["010"%char];
        k "title" [] [
          t (s "libhext: Class List")];
        w ["010"%char];
        k "script" [a "type" (s "text/javascript"); a "src" (s "jquery.js")] [];
        w ["010"%char];
        k "script" [a "type" (s "text/javascript"); a "src" (s "dynsections.js")] [];
        w ["010"%char];
        k "link" [a "href" (s "search/search.css"); a "rel" (s "stylesheet"); a "type" (s "text/css")] [];
        w ["010"%char];
        k "script" [a "type" (s "text/javascript"); a "src" (s "search/search.js")] [];
        w ["010"%char];
        k "script" [a "type" (s "text/javascript")] [
          t (["010"%char] ++ s "  $(document).ready(function() { searchBox.OnSelectItem(0); });" ++ ["010"%char])];
        w ["010"%char];
        k "link" [a "rel" (s "stylesheet"); a "href" (s "https://maxcdn.bootstrapcdn.com/bootstrap/3.3.4/css/bootstrap.min.css")] [];
        w ["010"%char];
        k "link" [a "rel" (s "stylesheet"); a "href" (s "style.css")] [];
        w ["010"%char]];
      w ["010"%char];
      k "body" [] [
        w ["010"%char];
        k "div" [a "id" (s "top")] [
          w ["010"%char];
          k "div" [a "id" (s "titlearea")] [];
          w ["010"%char];
          NComment (s " Generated by Doxygen 1.8.8 ");
          w ["010"%char];
          k "script" [a "type" (s "text/javascript")] [
            t (["010"%char] ++ s "var searchBox = new SearchBox(""searchBox"", ""search"",false,'Search');" ++ ["010"%char])];
          w (["010"%char] ++ s "  ");
          k "div" [a "id" (s "navrow1"); a "class" (s "tabs")] [
            w (["010"%char] ++ s "    ");
            k "ul" [a "class" (s "tablist")] [
              w (["010"%char] ++ s "      ");
              k "li" [] [
                k "a" [a "href" (s "index.html")] [
                  k "span" [] [
                    t (s "Main" ++ ["194"%char; "160"%char] ++ s "Page")]]];
              w (["010"%char] ++ s "      ");
              k "li" [] [
                k "a" [a "href" (s "namespaces.html")] [
                  k "span" [] [
                    t (s "Namespaces")]]];
              w (["010"%char] ++ s "      ");
              k "li" [a "class" (s "current")] [
                k "a" [a "href" (s "annotated.html")] [
                  k "span" [] [
                    t (s "Classes")]]];
              w (["010"%char] ++ s "      ");
              k "li" [] [
                k "a" [a "href" (s "files.html")] [
                  k "span" [] [
                    t (s "Files")]]];
              w (["010"%char] ++ s "      ");
              k "li" [] [
                w (["010"%char] ++ s "        ");
                k "div" [a "id" (s "MSearchBox"); a "class" (s "MSearchBoxInactive")] [
                  w (["010"%char] ++ s "        ");
                  k "span" [a "class" (s "left")] [
                    w (["010"%char] ++ s "          ");
                    k "img" [a "id" (s "MSearchSelect"); a "src" (s "search/mag_sel.png"); a "onmouseover" (s "return searchBox.OnSearchSelectShow()"); a "onmouseout" (s "return searchBox.OnSearchSelectHide()"); a "alt" []] [];
                    w (["010"%char] ++ s "          ");
                    k "input" [a "type" (s "text"); a "id" (s "MSearchField"); a "value" (s "Search"); a "accesskey" (s "S"); a "onfocus" (s "searchBox.OnSearchFieldFocus(true)"); a "onblur" (s "searchBox.OnSearchFieldFocus(false)"); a "onkeyup" (s "searchBox.OnSearchFieldChange(event)")] [];
                    w (["010"%char] ++ s "          ")];
                  k "span" [a "class" (s "right")] [
                    w (["010"%char] ++ s "            ");
                    k "a" [a "id" (s "MSearchClose"); a "href" (s "javascript:searchBox.CloseResultsWindow()")] [
                      k "img" [a "id" (s "MSearchCloseImg"); a "border" (s "0"); a "src" (s "search/close.png"); a "alt" []] []];
                    w (["010"%char] ++ s "          ")];
                  w (["010"%char] ++ s "        ")];
                w (["010"%char] ++ s "      ")];
              w (["010"%char] ++ s "    ")];
            w (["010"%char] ++ s "  ")];
          w (["010"%char] ++ s "  ");
          k "div" [a "id" (s "navrow2"); a "class" (s "tabs2")] [
            w (["010"%char] ++ s "    ");
            k "ul" [a "class" (s "tablist")] [
              w (["010"%char] ++ s "      ");
              k "li" [a "class" (s "current")] [
                k "a" [a "href" (s "annotated.html")] [
                  k "span" [] [
                    t (s "Class" ++ ["194"%char; "160"%char] ++ s "List")]]];
              w (["010"%char] ++ s "      ");
              k "li" [] [
                k "a" [a "href" (s "inherits.html")] [
                  k "span" [] [
                    t (s "Class" ++ ["194"%char; "160"%char] ++ s "Hierarchy")]]];
              w (["010"%char] ++ s "      ");
              k "li" [] [
                k "a" [a "href" (s "functions.html")] [
                  k "span" [] [
                    t (s "Class" ++ ["194"%char; "160"%char] ++ s "Members")]]];
              w (["010"%char] ++ s "    ")];
            w (["010"%char] ++ s "  ")];
          w ["010"%char]];
        NComment (s " top ");
        w ["010"%char];
        NComment (s " window showing the filter options ");
        w ["010"%char];
        k "div" [a "id" (s "MSearchSelectWindow"); a "onmouseover" (s "return searchBox.OnSearchSelectShow()"); a "onmouseout" (s "return searchBox.OnSearchSelectHide()"); a "onkeydown" (s "return searchBox.OnSearchSelectKey(event)")] [
          w ["010"%char];
          k "a" [a "class" (s "SelectItem"); a "href" (s "javascript:void(0)"); a "onclick" (s "searchBox.OnSelectItem(0)")] [
            k "span" [a "class" (s "SelectionMark")] [
              t ["194"%char; "160"%char]];
            t (s "All")];
          k "a" [a "class" (s "SelectItem"); a "href" (s "javascript:void(0)"); a "onclick" (s "searchBox.OnSelectItem(1)")] [
            k "span" [a "class" (s "SelectionMark")] [
              t ["194"%char; "160"%char]];
            t (s "Classes")];
          k "a" [a "class" (s "SelectItem"); a "href" (s "javascript:void(0)"); a "onclick" (s "searchBox.OnSelectItem(2)")] [
            k "span" [a "class" (s "SelectionMark")] [
              t ["194"%char; "160"%char]];
            t (s "Namespaces")];
          k "a" [a "class" (s "SelectItem"); a "href" (s "javascript:void(0)"); a "onclick" (s "searchBox.OnSelectItem(3)")] [
            k "span" [a "class" (s "SelectionMark")] [
              t ["194"%char; "160"%char]];
            t (s "Files")];
          k "a" [a "class" (s "SelectItem"); a "href" (s "javascript:void(0)"); a "onclick" (s "searchBox.OnSelectItem(4)")] [
            k "span" [a "class" (s "SelectionMark")] [
              t ["194"%char; "160"%char]];
            t (s "Functions")];
          k "a" [a "class" (s "SelectItem"); a "href" (s "javascript:void(0)"); a "onclick" (s "searchBox.OnSelectItem(5)")] [
            k "span" [a "class" (s "SelectionMark")] [
              t ["194"%char; "160"%char]];
            t (s "Variables")];
          k "a" [a "class" (s "SelectItem"); a "href" (s "javascript:void(0)"); a "onclick" (s "searchBox.OnSelectItem(6)")] [
            k "span" [a "class" (s "SelectionMark")] [
              t ["194"%char; "160"%char]];
            t (s "Typedefs")];
          k "a" [a "class" (s "SelectItem"); a "href" (s "javascript:void(0)"); a "onclick" (s "searchBox.OnSelectItem(7)")] [
            k "span" [a "class" (s "SelectionMark")] [
              t ["194"%char; "160"%char]];
            t (s "Enumerations")];
          k "a" [a "class" (s "SelectItem"); a "href" (s "javascript:void(0)"); a "onclick" (s "searchBox.OnSelectItem(8)")] [
            k "span" [a "class" (s "SelectionMark")] [
              t ["194"%char; "160"%char]];
            t (s "Enumerator")];
          k "a" [a "class" (s "SelectItem"); a "href" (s "javascript:void(0)"); a "onclick" (s "searchBox.OnSelectItem(9)")] [
            k "span" [a "class" (s "SelectionMark")] [
              t ["194"%char; "160"%char]];
            t (s "Pages")]];
        w ["010"%char; "010"%char];
        NComment (s " iframe showing the search results (closed by default) ");
        w ["010"%char];
        k "div" [a "id" (s "MSearchResultsWindow")] [
          w ["010"%char];
          k "iframe" [a "src" (s "javascript:void(0)"); a "frameborder" (s "0"); a "name" (s "MSearchResults"); a "id" (s "MSearchResults")] [
            w ["010"%char]];
          w ["010"%char]];
        w ["010"%char; "010"%char];
        k "div" [a "class" (s "header")] [
          w (["010"%char] ++ s "  ");
          k "div" [a "class" (s "headertitle")] [
            w ["010"%char];
            k "div" [a "class" (s "title")] [
              t (s "Class List")];
            w (s "  ")];
          w ["010"%char]];
        NComment (s "header");
        w ["010"%char];
        k "div" [a "class" (s "contents")] [
          w ["010"%char];
          k "div" [a "class" (s "textblock")] [
            t (s "Here are the classes, structs, unions and interfaces with brief descriptions:")];
          k "div" [a "class" (s "directory")] [
            w ["010"%char];
            k "div" [a "class" (s "levels")] [
              t (s "[detail level ");
              k "span" [a "onclick" (s "javascript:toggleLevel(1);")] [
                t (s "1")];
              k "span" [a "onclick" (s "javascript:toggleLevel(2);")] [
                t (s "2")];
              t (s "]")];
            k "table" [a "class" (s "directory")] [
              w ["010"%char];
              implied "tbody" [
                k "tr" [a "id" (s "row_0_"); a "class" (s "even")] [
                  k "td" [a "class" (s "entry")] [
                    k "span" [a "style" (s "width:0px;display:inline-block;")] [
                      t ["194"%char; "160"%char]];
                    k "span" [a "id" (s "arr_0_"); a "class" (s "arrow"); a "onclick" (s "toggleFolder('0_')")] [
                      t ["226"%char; "150"%char; "188"%char]];
                    k "span" [a "class" (s "icona")] [
                      k "span" [a "class" (s "icon")] [
                        t (s "N")]];
                    k "a" [a "class" (s "el"); a "href" (s "namespacehext.html"); a "target" (s "_self")] [
                      t (s "hext")]];
                  k "td" [a "class" (s "desc")] [
                    t (s "The hext namespace is the top level namespace for everything in libhext ")]];
                w ["010"%char];
                k "tr" [a "id" (s "row_0_0_")] [
                  k "td" [a "class" (s "entry")] [
                    k "span" [a "style" (s "width:32px;display:inline-block;")] [
                      t ["194"%char; "160"%char]];
                    k "span" [a "class" (s "icona")] [
                      k "span" [a "class" (s "icon")] [
                        t (s "C")]];
                    k "a" [a "class" (s "el"); a "href" (s "classhext_1_1AttributeCapture.html"); a "target" (s "_self")] [
                      t (s "AttributeCapture")]];
                  k "td" [a "class" (s "desc")] [
                    t (s "Captures an HTML Element's attribute ")]];
                w ["010"%char];
                k "tr" [a "id" (s "row_0_1_"); a "class" (s "even")] [
                  k "td" [a "class" (s "entry")] [
                    k "span" [a "style" (s "width:32px;display:inline-block;")] [
                      t ["194"%char; "160"%char]];
                    k "span" [a "class" (s "icona")] [
                      k "span" [a "class" (s "icon")] [
                        t (s "C")]];
                    k "a" [a "class" (s "el"); a "href" (s "classhext_1_1AttributeCountMatch.html"); a "target" (s "_self")] [
                      t (s "AttributeCountMatch")]];
                  k "td" [a "class" (s "desc")] [
                    t (s "Matches HTML elements that have a certain amount of HTML attributes ")]];
                w ["010"%char];
                k "tr" [a "id" (s "row_0_2_")] [
                  k "td" [a "class" (s "entry")] [
                    k "span" [a "style" (s "width:32px;display:inline-block;")] [
                      t ["194"%char; "160"%char]];
                    k "span" [a "class" (s "icona")] [
                      k "span" [a "class" (s "icon")] [
                        t (s "C")]];
                    k "a" [a "class" (s "el"); a "href" (s "classhext_1_1AttributeMatch.html"); a "target" (s "_self")] [
                      t (s "AttributeMatch")]];
                  k "td" [a "class" (s "desc")] [
                    t (s "Matches HTML elements having an HTML attribute with a certain name and, optionally, whose value is matched by a ");
                    k "a" [a "class" (s "el"); a "href" (s "classhext_1_1ValueTest.html"); a "title" (s "Abstract base for every ValueTest. ")] [
                      t (s "ValueTest")];
                    w (s " ")]];
                w ["010"%char];
                k "tr" [a "id" (s "row_0_3_"); a "class" (s "even")] [
                  k "td" [a "class" (s "entry")] [
                    k "span" [a "style" (s "width:32px;display:inline-block;")] [
                      t ["194"%char; "160"%char]];
                    k "span" [a "class" (s "icona")] [
                      k "span" [a "class" (s "icon")] [
                        t (s "C")]];
                    k "a" [a "class" (s "el"); a "href" (s "classhext_1_1BeginsWithTest.html"); a "target" (s "_self")] [
                      t (s "BeginsWithTest")]];
                  k "td" [a "class" (s "desc")] [
                    t (s "Tests whether a string begins with a given literal ")]];
                w ["010"%char];
                k "tr" [a "id" (s "row_0_4_")] [
                  k "td" [a "class" (s "entry")] [
                    k "span" [a "style" (s "width:32px;display:inline-block;")] [
                      t ["194"%char; "160"%char]];
                    k "span" [a "class" (s "icona")] [
                      k "span" [a "class" (s "icon")] [
                        t (s "C")]];
                    k "a" [a "class" (s "el"); a "href" (s "classhext_1_1Capture.html"); a "target" (s "_self")] [
                      t (s "Capture")]];
                  k "td" [a "class" (s "desc")] [
                    t (s "Abstract base for every ");
                    k "a" [a "class" (s "el"); a "href" (s "classhext_1_1Capture.html"); a "title" (s "Abstract base for every Capture. ")] [
                      t (s "Capture")];
                    w (s " ")]];
                w ["010"%char];
                k "tr" [a "id" (s "row_0_5_"); a "class" (s "even")] [
                  k "td" [a "class" (s "entry")] [
                    k "span" [a "style" (s "width:32px;display:inline-block;")] [
                      t ["194"%char; "160"%char]];
                    k "span" [a "class" (s "icona")] [
                      k "span" [a "class" (s "icon")] [
                        t (s "C")]];
                    k "a" [a "class" (s "el"); a "href" (s "classhext_1_1ChildCountMatch.html"); a "target" (s "_self")] [
                      t (s "ChildCountMatch")]];
                  k "td" [a "class" (s "desc")] [
                    t (s "Matches HTML elements that have a certain amount of children of type element (exluding text nodes, document nodes and others) ")]];
                w ["010"%char];
                k "tr" [a "id" (s "row_0_6_")] [
                  k "td" [a "class" (s "entry")] [
                    k "span" [a "style" (s "width:32px;display:inline-block;")] [
                      t ["194"%char; "160"%char]];
                    k "span" [a "class" (s "icona")] [
                      k "span" [a "class" (s "icon")] [
                        t (s "C")]];
                    k "a" [a "class" (s "el"); a "href" (s "classhext_1_1ContainsTest.html"); a "target" (s "_self")] [
                      t (s "ContainsTest")]];
                  k "td" [a "class" (s "desc")] [
                    t (s "Tests whether a string contains a given literal ")]];
                w ["010"%char];
                k "tr" [a "id" (s "row_0_7_"); a "class" (s "even")] [
                  k "td" [a "class" (s "entry")] [
                    k "span" [a "style" (s "width:32px;display:inline-block;")] [
                      t ["194"%char; "160"%char]];
                    k "span" [a "class" (s "icona")] [
                      k "span" [a "class" (s "icon")] [
                        t (s "C")]];
                    k "a" [a "class" (s "el"); a "href" (s "classhext_1_1ContainsWordsTest.html"); a "target" (s "_self")] [
                      t (s "ContainsWordsTest")]];
                  k "td" [a "class" (s "desc")] [
                    t (s "Tests whether a string contains all given words ")]];
                w ["010"%char];
                k "tr" [a "id" (s "row_0_8_")] [
                  k "td" [a "class" (s "entry")] [
                    k "span" [a "style" (s "width:32px;display:inline-block;")] [
                      t ["194"%char; "160"%char]];
                    k "span" [a "class" (s "icona")] [
                      k "span" [a "class" (s "icon")] [
                        t (s "C")]];
                    k "a" [a "class" (s "el"); a "href" (s "classhext_1_1EndsWithTest.html"); a "target" (s "_self")] [
                      t (s "EndsWithTest")]];
                  k "td" [a "class" (s "desc")] [
                    t (s "Tests whether a string ends with a given literal ")]];
                w ["010"%char];
                k "tr" [a "id" (s "row_0_9_"); a "class" (s "even")] [
                  k "td" [a "class" (s "entry")] [
                    k "span" [a "style" (s "width:32px;display:inline-block;")] [
                      t ["194"%char; "160"%char]];
                    k "span" [a "class" (s "icona")] [
                      k "span" [a "class" (s "icon")] [
                        t (s "C")]];
                    k "a" [a "class" (s "el"); a "href" (s "classhext_1_1EqualsTest.html"); a "target" (s "_self")] [
                      t (s "EqualsTest")]];
                  k "td" [a "class" (s "desc")] [
                    t (s "Tests whether a string equals a given literal ")]];
                w ["010"%char];
                k "tr" [a "id" (s "row_0_10_")] [
                  k "td" [a "class" (s "entry")] [
                    k "span" [a "style" (s "width:32px;display:inline-block;")] [
                      t ["194"%char; "160"%char]];
                    k "span" [a "class" (s "icona")] [
                      k "span" [a "class" (s "icon")] [
                        t (s "C")]];
                    k "a" [a "class" (s "el"); a "href" (s "classhext_1_1Extractor.html"); a "target" (s "_self")] [
                      t (s "Extractor")]];
                  k "td" [a "class" (s "desc")] [
                    t (s "Extracts ResultTrees from HTML ")]];
                w ["010"%char];
                k "tr" [a "id" (s "row_0_11_"); a "class" (s "even")] [
                  k "td" [a "class" (s "entry")] [
                    k "span" [a "style" (s "width:32px;display:inline-block;")] [
                      t ["194"%char; "160"%char]];
                    k "span" [a "class" (s "icona")] [
                      k "span" [a "class" (s "icon")] [
                        t (s "C")]];
                    k "a" [a "class" (s "el"); a "href" (s "classhext_1_1FunctionCapture.html"); a "target" (s "_self")] [
                      t (s "FunctionCapture")]];
                  k "td" [a "class" (s "desc")] [
                    t (s "Captures the result of applying a function to an HTML node ")]];
                w ["010"%char];
                k "tr" [a "id" (s "row_0_12_")] [
                  k "td" [a "class" (s "entry")] [
                    k "span" [a "style" (s "width:32px;display:inline-block;")] [
                      t ["194"%char; "160"%char]];
                    k "span" [a "class" (s "icona")] [
                      k "span" [a "class" (s "icon")] [
                        t (s "C")]];
                    k "a" [a "class" (s "el"); a "href" (s "classhext_1_1FunctionMatch.html"); a "target" (s "_self")] [
                      t (s "FunctionMatch")]];
                  k "td" [a "class" (s "desc")] [
                    t (s "Matches if the result of applying a given CaptureFunction to an HTML node passes a ");
                    k "a" [a "class" (s "el"); a "href" (s "classhext_1_1ValueTest.html"); a "title" (s "Abstract base for every ValueTest. ")] [
                      t (s "ValueTest")];
                    w (s " ")]];
                w ["010"%char];
                k "tr" [a "id" (s "row_0_13_"); a "class" (s "even")] [
                  k "td" [a "class" (s "entry")] [
                    k "span" [a "style" (s "width:32px;display:inline-block;")] [
                      t ["194"%char; "160"%char]];
                    k "span" [a "class" (s "icona")] [
                      k "span" [a "class" (s "icon")] [
                        t (s "C")]];
                    k "a" [a "class" (s "el"); a "href" (s "classhext_1_1Html.html"); a "target" (s "_self")] [
                      t (s "Html")]];
                  k "td" [a "class" (s "desc")] [
                    t (s "A RAII wrapper for Gumbo ")]];
                w ["010"%char];
                k "tr" [a "id" (s "row_0_14_")] [
                  k "td" [a "class" (s "entry")] [
                    k "span" [a "style" (s "width:32px;display:inline-block;")] [
                      t ["194"%char; "160"%char]];
                    k "span" [a "class" (s "icona")] [
                      k "span" [a "class" (s "icon")] [
                        t (s "C")]];
                    k "a" [a "class" (s "el"); a "href" (s "classhext_1_1Match.html"); a "target" (s "_self")] [
                      t (s "Match")]];
                  k "td" [a "class" (s "desc")] [
                    t (s "Abstract base for every ");
                    k "a" [a "class" (s "el"); a "href" (s "classhext_1_1Match.html"); a "title" (s "Abstract base for every Match. ")] [
                      t (s "Match")];
                    w (s " ")]];
                w ["010"%char];
                k "tr" [a "id" (s "row_0_15_"); a "class" (s "even")] [
                  k "td" [a "class" (s "entry")] [
                    k "span" [a "style" (s "width:32px;display:inline-block;")] [
                      t ["194"%char; "160"%char]];
                    k "span" [a "class" (s "icona")] [
                      k "span" [a "class" (s "icon")] [
                        t (s "C")]];
                    k "a" [a "class" (s "el"); a "href" (s "classhext_1_1NegateMatch.html"); a "target" (s "_self")] [
                      t (s "NegateMatch")]];
                  k "td" [a "class" (s "desc")] [
                    t (s "Matches HTML nodes for which every given ");
                    k "a" [a "class" (s "el"); a "href" (s "classhext_1_1Match.html"); a "title" (s "Abstract base for every Match. ")] [
                      t (s "Match")];
                    t (s " returns false ")]];
                w ["010"%char];
                k "tr" [a "id" (s "row_0_16_")] [
                  k "td" [a "class" (s "entry")] [
                    k "span" [a "style" (s "width:32px;display:inline-block;")] [
                      t ["194"%char; "160"%char]];
                    k "span" [a "class" (s "icona")] [
                      k "span" [a "class" (s "icon")] [
                        t (s "C")]];
                    k "a" [a "class" (s "el"); a "href" (s "classhext_1_1NegateTest.html"); a "target" (s "_self")] [
                      t (s "NegateTest")]];
                  k "td" [a "class" (s "desc")] [
                    t (s "Negates the result of another ");
                    k "a" [a "class" (s "el"); a "href" (s "classhext_1_1ValueTest.html"); a "title" (s "Abstract base for every ValueTest. ")] [
                      t (s "ValueTest")];
                    w (s " ")]];
                w ["010"%char];
                k "tr" [a "id" (s "row_0_17_"); a "class" (s "even")] [
                  k "td" [a "class" (s "entry")] [
                    k "span" [a "style" (s "width:32px;display:inline-block;")] [
                      t ["194"%char; "160"%char]];
                    k "span" [a "class" (s "icona")] [
                      k "span" [a "class" (s "icon")] [
                        t (s "C")]];
                    k "a" [a "class" (s "el"); a "href" (s "classhext_1_1NthChildMatch.html"); a "target" (s "_self")] [
                      t (s "NthChildMatch")]];
                  k "td" [a "class" (s "desc")] [
                    t (s "Matches HTML nodes having a certain position within their parent HTML element ")]];
                w ["010"%char];
                k "tr" [a "id" (s "row_0_18_")] [
                  k "td" [a "class" (s "entry")] [
                    k "span" [a "style" (s "width:32px;display:inline-block;")] [
                      t ["194"%char; "160"%char]];
                    k "span" [a "class" (s "icona")] [
                      k "span" [a "class" (s "icon")] [
                        t (s "C")]];
                    k "a" [a "class" (s "el"); a "href" (s "classhext_1_1OnlyChildMatch.html"); a "target" (s "_self")] [
                      t (s "OnlyChildMatch")]];
                  k "td" [a "class" (s "desc")] [
                    t (s "Matches HTML nodes that are the only child of their parent HTML element ")]];
                w ["010"%char];
                k "tr" [a "id" (s "row_0_19_"); a "class" (s "even")] [
                  k "td" [a "class" (s "entry")] [
                    k "span" [a "style" (s "width:32px;display:inline-block;")] [
                      t ["194"%char; "160"%char]];
                    k "span" [a "class" (s "icona")] [
                      k "span" [a "class" (s "icon")] [
                        t (s "C")]];
                    k "a" [a "class" (s "el"); a "href" (s "classhext_1_1RegexTest.html"); a "target" (s "_self")] [
                      t (s "RegexTest")]];
                  k "td" [a "class" (s "desc")] [
                    t (s "Tests whether another string matches a given regex ")]];
                w ["010"%char];
                k "tr" [a "id" (s "row_0_20_")] [
                  k "td" [a "class" (s "entry")] [
                    k "span" [a "style" (s "width:32px;display:inline-block;")] [
                      t ["194"%char; "160"%char]];
                    k "span" [a "class" (s "icona")] [
                      k "span" [a "class" (s "icon")] [
                        t (s "C")]];
                    k "a" [a "class" (s "el"); a "href" (s "classhext_1_1ResultTree.html"); a "target" (s "_self")] [
                      t (s "ResultTree")]];
                  k "td" [a "class" (s "desc")] [
                    t (s "A self-managing tree containing all values captured from HTML ")]];
                w ["010"%char];
                k "tr" [a "id" (s "row_0_21_"); a "class" (s "even")] [
                  k "td" [a "class" (s "entry")] [
                    k "span" [a "style" (s "width:32px;display:inline-block;")] [
                      t ["194"%char; "160"%char]];
                    k "span" [a "class" (s "icona")] [
                      k "span" [a "class" (s "icon")] [
                        t (s "C")]];
                    k "a" [a "class" (s "el"); a "href" (s "classhext_1_1Rule.html"); a "target" (s "_self")] [
                      t (s "Rule")]];
                  k "td" [a "class" (s "desc")] [
                    t (s "Extracts values from HTML ")]];
                w ["010"%char];
                k "tr" [a "id" (s "row_0_22_")] [
                  k "td" [a "class" (s "entry")] [
                    k "span" [a "style" (s "width:32px;display:inline-block;")] [
                      t ["194"%char; "160"%char]];
                    k "span" [a "class" (s "icona")] [
                      k "span" [a "class" (s "icon")] [
                        t (s "C")]];
                    k "a" [a "class" (s "el"); a "href" (s "classhext_1_1SyntaxError.html"); a "target" (s "_self")] [
                      t (s "SyntaxError")]];
                  k "td" [a "class" (s "desc")] [
                    t (s "The exception that is thrown when parsing invalid hext ")]];
                w ["010"%char];
                k "tr" [a "id" (s "row_0_23_"); a "class" (s "even")] [
                  k "td" [a "class" (s "entry")] [
                    k "span" [a "style" (s "width:32px;display:inline-block;")] [
                      t ["194"%char; "160"%char]];
                    k "span" [a "class" (s "icona")] [
                      k "span" [a "class" (s "icon")] [
                        t (s "C")]];
                    k "a" [a "class" (s "el"); a "href" (s "classhext_1_1TextNodeMatch.html"); a "target" (s "_self")] [
                      t (s "TextNodeMatch")]];
                  k "td" [a "class" (s "desc")] [
                    t (s "Matches if an HTML node is a text node ")]];
                w ["010"%char];
                k "tr" [a "id" (s "row_0_24_")] [
                  k "td" [a "class" (s "entry")] [
                    k "span" [a "style" (s "width:32px;display:inline-block;")] [
                      t ["194"%char; "160"%char]];
                    k "span" [a "class" (s "icona")] [
                      k "span" [a "class" (s "icon")] [
                        t (s "C")]];
                    k "a" [a "class" (s "el"); a "href" (s "classhext_1_1ValueTest.html"); a "target" (s "_self")] [
                      t (s "ValueTest")]];
                  k "td" [a "class" (s "desc")] [
                    t (s "Abstract base for every ");
                    k "a" [a "class" (s "el"); a "href" (s "classhext_1_1ValueTest.html"); a "title" (s "Abstract base for every ValueTest. ")] [
                      t (s "ValueTest")];
                    w (s " ")]];
                w ["010"%char]]];
            w ["010"%char]];
          NComment (s " directory ");
          w ["010"%char]];
        NComment (s " contents ");
        w ["010"%char];
        k "div" [a "id" (s "nav-path"); a "class" (s "navpath")] [
          NComment (s " id is needed for treeview function! ");
          w (["010"%char] ++ s "  ");
          k "ul" [] [
            w (["010"%char] ++ s "    ");
            k "li" [a "class" (s "footer")] [
              t (s "Generated on Tue Jul 21 2015 22:16:33 for libhext by" ++ ["010"%char] ++ s "    ");
              k "a" [a "href" (s "http://www.doxygen.org/index.html")] [
                t (s "doxygen")];
              t (s " 1.8.8 ")];
            w (["010"%char] ++ s "  ")];
          w ["010"%char]];
        w ["010"%char; "010"%char; "010"%char]]]]) 0
  (s "{""class_desc"":""Abstract base for every Capture"",""class_name"":""Capture""}" ++ ["010"%char] ++ s "{""class_desc"":""Abstract base for every Match"",""class_name"":""Match""}" ++ ["010"%char] ++ s "{""class_desc"":""Abstract base for every ValueTest"",""class_name"":""ValueTest""}" ++ ["010"%char] ++ s "{""class_desc"":""A RAII wrapper for Gumbo"",""class_name"":""Html""}" ++ ["010"%char] ++ s "{""class_desc"":""A self-managing tree containing all values captured from HTML"",""class_name"":""ResultTree""}" ++ ["010"%char] ++ s "{""class_desc"":""Captures an HTML Element's attribute"",""class_name"":""AttributeCapture""}" ++ ["010"%char] ++ s "{""class_desc"":""Captures the result of applying a function to an HTML node"",""class_name"":""FunctionCapture""}" ++ ["010"%char] ++ s "{""class_desc"":""Extracts ResultTrees from HTML"",""class_name"":""Extractor""}" ++ ["010"%char] ++ s "{""class_desc"":""Extracts values from HTML"",""class_name"":""Rule""}" ++ ["010"%char] ++ s "{""class_desc"":""Matches HTML elements having an HTML attribute with a certain name and, optionally, whose value is matched by a ValueTest"",""class_name"":""AttributeMatch""}" ++ ["010"%char] ++ s "{""class_desc"":""Matches HTML elements that have a certain amount of children of type element (exluding text nodes, document nodes and others)"",""class_name"":""ChildCountMatch""}" ++ ["010"%char] ++ s "{""class_desc"":""Matches HTML elements that have a certain amount of HTML attributes"",""class_name"":""AttributeCountMatch""}" ++ ["010"%char] ++ s "{""class_desc"":""Matches HTML nodes for which every given Match returns false"",""class_name"":""NegateMatch""}" ++ ["010"%char] ++ s "{""class_desc"":""Matches HTML nodes having a certain position within their parent HTML element"",""class_name"":""NthChildMatch""}" ++ ["010"%char] ++ s "{""class_desc"":""Matches HTML nodes that are the only child of their parent HTML element"",""class_name"":""OnlyChildMatch""}" ++ ["010"%char] ++ s "{""class_desc"":""Matches if an HTML node is a text node"",""class_name"":""TextNodeMatch""}" ++ ["010"%char] ++ s "{""class_desc"":""Matches if the result of applying a given CaptureFunction to an HTML node passes a ValueTest"",""class_name"":""FunctionMatch""}" ++ ["010"%char] ++ s "{""class_desc"":""Negates the result of another ValueTest"",""class_name"":""NegateTest""}" ++ ["010"%char] ++ s "{""class_desc"":""Tests whether another string matches a given regex"",""class_name"":""RegexTest""}" ++ ["010"%char] ++ s "{""class_desc"":""Tests whether a string begins with a given literal"",""class_name"":""BeginsWithTest""}" ++ ["010"%char] ++ s "{""class_desc"":""Tests whether a string contains a given literal"",""class_name"":""ContainsTest""}" ++ ["010"%char] ++ s "{""class_desc"":""Tests whether a string contains all given words"",""class_name"":""ContainsWordsTest""}" ++ ["010"%char] ++ s "{""class_desc"":""Tests whether a string ends with a given literal"",""class_name"":""EndsWithTest""}" ++ ["010"%char] ++ s "{""class_desc"":""Tests whether a string equals a given literal"",""class_name"":""EqualsTest""}" ++ ["010"%char] ++ s "{""class_desc"":""The exception that is thrown when parsing invalid hext"",""class_name"":""SyntaxError""}" ++ ["010"%char] ++ s "{""class_desc"":""The hext namespace is the top level namespace for everything in libhext"",""class_name"":""hext""}" ++ ["010"%char]).
Proof. vm_compute. auto. Qed.

Example empty_literal_attrib : blackbox
  (s "<div id=="""" class:class/>" ++ ["010"%char])
  (NDocument false [] [] [] [
    k "html" [] [
      k "head" [] [
        w (["010"%char] ++ s "  ")];
      w (["010"%char] ++ s "  ");
      k "body" [] [
        w (["010"%char] ++ s "    ");
        k "div" [a "id" []; a "class" (s "empty-id")] [];
        w (["010"%char] ++ s "    ");
        k "div" [a "id" (s "nope"); a "class" (s "nope")] [];
        w (["010"%char] ++ s "    ");
        k "div" [a "class" (s "no-attrib-id")] [];
        w (["010"%char] ++ s "    ");
        k "a" [a "href" (s "asd#asd"); a "class" (s "href")] [];
        w (["010"%char] ++ s "  " ++ ["010"%char; "010"%char])]]]) 0
  (s "{""class"":""empty-id""}" ++ ["010"%char]).
Proof. vm_compute. auto. Qed.

Example empty_node : blackbox
  (s "<*:empty class:class/>" ++ ["010"%char])
  (NDocument false [] [] [] [
    k "html" [] [
      implied "head" [];
      k "body" [] [
        w (["010"%char] ++ s "    ");
        k "div" [a "class" (s "not-empty")] [
          w (["010"%char] ++ s "      ");
          k "div" [a "class" (s "not-empty")] [
            w (["010"%char] ++ s "        ");
            k "div" [a "class" (s "not-empty")] [
              w (["010"%char] ++ s "          ");
              k "div" [a "class" (s "empty1")] [];
              w (["010"%char] ++ s "          ");
              k "div" [a "class" (s "empty2")] [];
              w (["010"%char] ++ s "        ")];
            w (["010"%char] ++ s "      ")];
          w (["010"%char] ++ s "      ");
          k "div" [a "class" (s "empty3")] [];
          w (["010"%char] ++ s "    ")];
        w (["010"%char] ++ s "    ");
        k "div" [a "class" (s "empty4")] [];
        w (["010"%char] ++ s "  " ++ ["010"%char; "010"%char])]]]) 0
  (s "{""class"":""empty1""}" ++ ["010"%char] ++ s "{""class"":""empty2""}" ++ ["010"%char] ++ s "{""class"":""empty3""}" ++ ["010"%char] ++ s "{""class"":""empty4""}" ++ ["010"%char]).
Proof. vm_compute. auto. Qed.

Example encoding_agnostic : blackbox
  (s "<p @text*=""" ++ ["233"%char; "130"%char; "163"%char] ++ s """ @text:content />" ++ ["010"%char])
  (NDocument false [] [] [] [
    k "html" [] [
      k "head" [] [
        w (["010"%char] ++ s "  ")];
      w (["010"%char] ++ s "  ");
      k "body" [] [
        w (["010"%char] ++ s "    ");
        k "p" [] [
          t (["010"%char] ++ s "      " ++ ["231"%char; "136"%char; "177"%char; "229"%char; "155"%char; "160"%char; "230"%char; "150"%char; "175"%char; "229"%char; "157"%char; "166"%char; "239"%char; "188"%char; "140"%char; "230"%char; "137"%char; "174"%char; "230"%char; "136"%char; "144"%char; "231"%char; "189"%char; "151"%char; "229"%char; "174"%char; "190"%char; "230"%char; "177"%char; "137"%char]);
          k "br" [] [];
          t (["010"%char] ++ s "      " ++ ["233"%char; "154"%char; "143"%char; "231"%char; "157"%char; "128"%char; "228"%char; "187"%char; "150"%char; "229"%char; "156"%char; "168"%char; "230"%char; "160"%char; "145"%char; "229"%char; "185"%char; "178"%char; "231"%char; "154"%char; "132"%char; "229"%char; "155"%char; "158"%char; "229"%char; "191"%char; "134"%char]);
          k "br" [] [];
          t (["010"%char] ++ s "      " ++ ["228"%char; "184"%char; "128"%char; "228"%char; "184"%char; "170"%char; "229"%char; "176"%char; "143"%char; "230"%char; "151"%char; "182"%char; "229"%char; "137"%char; "141"%char; "229"%char; "176"%char; "177"%char; "232"%char; "191"%char; "153"%char; "230"%char; "160"%char; "183"%char; "232"%char; "191"%char; "135"%char; "229"%char; "142"%char; "187"%char; "228"%char; "186"%char; "134"%char]);
          k "br" [] [];
          t (["010"%char] ++ s "      " ++ ["233"%char; "154"%char; "143"%char; "231"%char; "157"%char; "128"%char; "228"%char; "187"%char; "150"%char; "231"%char; "154"%char; "132"%char; "230"%char; "156"%char; "139"%char; "229"%char; "143"%char; "139"%char; "239"%char; "188"%char; "140"%char; "228"%char; "184"%char; "128"%char; "228"%char; "184"%char; "170"%char; "229"%char; "171"%char; "137"%char; "229"%char; "166"%char; "146"%char; "231"%char; "154"%char; "132"%char; "229"%char; "146"%char; "140"%char; "229"%char; "176"%char; "154"%char]);
          k "br" [] [];
          t (["010"%char] ++ s "      " ++ ["228"%char; "187"%char; "150"%char; "231"%char; "156"%char; "139"%char; "228"%char; "184"%char; "138"%char; "229"%char; "142"%char; "187"%char; "230"%char; "152"%char; "175"%char; "233"%char; "130"%char; "163"%char; "228"%char; "185"%char; "136"%char; "228"%char; "184"%char; "128"%char; "229"%char; "176"%char; "152"%char; "228"%char; "184"%char; "141"%char; "230"%char; "159"%char; "147"%char; "229"%char; "143"%char; "175"%char; "230"%char; "128"%char; "149"%char]);
          k "br" [] [];
          t (["010"%char] ++ s "      " ++ ["229"%char; "189"%char; "147"%char; "228"%char; "187"%char; "150"%char; "230"%char; "151"%char; "169"%char; "232"%char; "181"%char; "183"%char; "229"%char; "186"%char; "138"%char; "229"%char; "174"%char; "158"%char; "229"%char; "156"%char; "168"%char; "233"%char; "166"%char; "153"%char; "231"%char; "131"%char; "159"%char]);
          k "br" [] [];
          t (["010"%char] ++ s "      " ++ ["231"%char; "132"%char; "182"%char; "229"%char; "144"%char; "142"%char; "239"%char; "188"%char; "140"%char; "228"%char; "187"%char; "150"%char; "229"%char; "142"%char; "187"%char; "228"%char; "186"%char; "134"%char; "229"%char; "151"%char; "133"%char; "230"%char; "142"%char; "162"%char; "230"%char; "142"%char; "146"%char; "230"%char; "176"%char; "180"%char; "231"%char; "174"%char; "161"%char]);
          k "br" [] [];
          t (["010"%char] ++ s "      " ++ ["232"%char; "128"%char; "140"%char; "232"%char; "131"%char; "140"%char; "232"%char; "175"%char; "181"%char; "229"%char; "173"%char; "151"%char; "230"%char; "175"%char; "141"%char; "232"%char; "161"%char; "168"%char]);
          k "br" [] [];
          t (["010"%char] ++ s "      " ++ ["231"%char; "142"%char; "176"%char; "229"%char; "156"%char; "168"%char; "239"%char; "188"%char; "140"%char; "228"%char; "189"%char; "160"%char; "228"%char; "184"%char; "141"%char; "228"%char; "188"%char; "154"%char; "230"%char; "131"%char; "179"%char; "231"%char; "156"%char; "139"%char; "231"%char; "156"%char; "139"%char; "228"%char; "187"%char; "150"%char]);
          k "br" [] [];
          t (["010"%char] ++ s "      " ++ ["228"%char; "189"%char; "134"%char; "228"%char; "187"%char; "150"%char; "230"%char; "136"%char; "144"%char; "229"%char; "144"%char; "141"%char; "229"%char; "183"%char; "178"%char; "228"%char; "185"%char; "133"%char; "228"%char; "187"%char; "165"%char; "229"%char; "137"%char; "141"%char]);
          k "br" [] [];
          t (["010"%char] ++ s "      " ++ ["229"%char; "175"%char; "185"%char; "228"%char; "186"%char; "142"%char; "231"%char; "142"%char; "169"%char; "231"%char; "148"%char; "181"%char; "229"%char; "176"%char; "143"%char; "230"%char; "143"%char; "144"%char; "231"%char; "144"%char; "180"%char]);
          k "br" [] [];
          t (["010"%char] ++ s "      " ++ ["229"%char; "156"%char; "168"%char; "232"%char; "141"%char; "146"%char; "229"%char; "135"%char; "137"%char; "232"%char; "161"%char; "140"%char]);
          k "br" [] [];
          w (["010"%char] ++ s "    ")];
        w (["010"%char] ++ s "    ");
        k "p" [] [
          t (["010"%char] ++ s "      " ++ ["231"%char; "136"%char; "177"%char; "229"%char; "155"%char; "160"%char; "230"%char; "150"%char; "175"%char; "229"%char; "157"%char; "166"%char; "239"%char; "188"%char; "140"%char; "230"%char; "137"%char; "174"%char; "230"%char; "136"%char; "144"%char; "231"%char; "189"%char; "151"%char; "229"%char; "174"%char; "190"%char; "230"%char; "177"%char; "137"%char]);
          k "br" [] [];
          t (["010"%char] ++ s "      " ++ ["233"%char; "154"%char; "143"%char; "231"%char; "157"%char; "128"%char; "228"%char; "187"%char; "150"%char; "229"%char; "156"%char; "168"%char; "230"%char; "160"%char; "145"%char; "229"%char; "185"%char; "178"%char; "231"%char; "154"%char; "132"%char; "229"%char; "155"%char; "158"%char; "229"%char; "191"%char; "134"%char]);
          k "br" [] [];
          t (["010"%char] ++ s "      " ++ ["228"%char; "184"%char; "128"%char; "228"%char; "184"%char; "170"%char; "229"%char; "176"%char; "143"%char; "230"%char; "151"%char; "182"%char; "229"%char; "137"%char; "141"%char; "229"%char; "176"%char; "177"%char; "232"%char; "191"%char; "153"%char; "230"%char; "160"%char; "183"%char; "232"%char; "191"%char; "135"%char; "229"%char; "142"%char; "187"%char; "228"%char; "186"%char; "134"%char]);
          k "br" [] [];
          t (["010"%char] ++ s "      " ++ ["233"%char; "154"%char; "143"%char; "231"%char; "157"%char; "128"%char; "228"%char; "187"%char; "150"%char; "231"%char; "154"%char; "132"%char; "230"%char; "156"%char; "139"%char; "229"%char; "143"%char; "139"%char; "239"%char; "188"%char; "140"%char; "228"%char; "184"%char; "128"%char; "228"%char; "184"%char; "170"%char; "229"%char; "171"%char; "137"%char; "229"%char; "166"%char; "146"%char; "231"%char; "154"%char; "132"%char; "229"%char; "146"%char; "140"%char; "229"%char; "176"%char; "154"%char]);
          k "br" [] [];
          t (["010"%char] ++ s "      " ++ ["228"%char; "187"%char; "150"%char; "231"%char; "156"%char; "139"%char; "228"%char; "184"%char; "138"%char; "229"%char; "142"%char; "187"%char; "230"%char; "152"%char; "175"%char] ++ s " " ++ ["228"%char; "185"%char; "136"%char; "228"%char; "184"%char; "128"%char; "229"%char; "176"%char; "152"%char; "228"%char; "184"%char; "141"%char; "230"%char; "159"%char; "147"%char; "229"%char; "143"%char; "175"%char; "230"%char; "128"%char; "149"%char]);
          k "br" [] [];
          t (["010"%char] ++ s "      " ++ ["229"%char; "189"%char; "147"%char; "228"%char; "187"%char; "150"%char; "230"%char; "151"%char; "169"%char; "232"%char; "181"%char; "183"%char; "229"%char; "186"%char; "138"%char; "229"%char; "174"%char; "158"%char; "229"%char; "156"%char; "168"%char; "233"%char; "166"%char; "153"%char; "231"%char; "131"%char; "159"%char]);
          k "br" [] [];
          t (["010"%char] ++ s "      " ++ ["231"%char; "132"%char; "182"%char; "229"%char; "144"%char; "142"%char; "239"%char; "188"%char; "140"%char; "228"%char; "187"%char; "150"%char; "229"%char; "142"%char; "187"%char; "228"%char; "186"%char; "134"%char; "229"%char; "151"%char; "133"%char; "230"%char; "142"%char; "162"%char; "230"%char; "142"%char; "146"%char; "230"%char; "176"%char; "180"%char; "231"%char; "174"%char; "161"%char]);
          k "br" [] [];
          t (["010"%char] ++ s "      " ++ ["232"%char; "128"%char; "140"%char; "232"%char; "131"%char; "140"%char; "232"%char; "175"%char; "181"%char; "229"%char; "173"%char; "151"%char; "230"%char; "175"%char; "141"%char; "232"%char; "161"%char; "168"%char]);
          k "br" [] [];
          t (["010"%char] ++ s "      " ++ ["231"%char; "142"%char; "176"%char; "229"%char; "156"%char; "168"%char; "239"%char; "188"%char; "140"%char; "228"%char; "189"%char; "160"%char; "228"%char; "184"%char; "141"%char; "228"%char; "188"%char; "154"%char; "230"%char; "131"%char; "179"%char; "231"%char; "156"%char; "139"%char; "231"%char; "156"%char; "139"%char; "228"%char; "187"%char; "150"%char]);
          k "br" [] [];
          t (["010"%char] ++ s "      " ++ ["228"%char; "189"%char; "134"%char; "228"%char; "187"%char; "150"%char; "230"%char; "136"%char; "144"%char; "229"%char; "144"%char; "141"%char; "229"%char; "183"%char; "178"%char; "228"%char; "185"%char; "133"%char; "228"%char; "187"%char; "165"%char; "229"%char; "137"%char; "141"%char]);
          k "br" [] [];
          t (["010"%char] ++ s "      " ++ ["229"%char; "175"%char; "185"%char; "228"%char; "186"%char; "142"%char; "231"%char; "142"%char; "169"%char; "231"%char; "148"%char; "181"%char; "229"%char; "176"%char; "143"%char; "230"%char; "143"%char; "144"%char; "231"%char; "144"%char; "180"%char]);
          k "br" [] [];
          t (["010"%char] ++ s "      " ++ ["229"%char; "156"%char; "168"%char; "232"%char; "141"%char; "146"%char; "229"%char; "135"%char; "137"%char; "232"%char; "161"%char; "140"%char]);
          k "br" [] [];
          w (["010"%char] ++ s "    ")];
        w (["010"%char] ++ s "  " ++ ["010"%char; "010"%char])]]]) 0
  (s "{""content"":""" ++ ["231"%char; "136"%char; "177"%char; "229"%char; "155"%char; "160"%char; "230"%char; "150"%char; "175"%char; "229"%char; "157"%char; "166"%char; "239"%char; "188"%char; "140"%char; "230"%char; "137"%char; "174"%char; "230"%char; "136"%char; "144"%char; "231"%char; "189"%char; "151"%char; "229"%char; "174"%char; "190"%char; "230"%char; "177"%char; "137"%char] ++ s " " ++ ["233"%char; "154"%char; "143"%char; "231"%char; "157"%char; "128"%char; "228"%char; "187"%char; "150"%char; "229"%char; "156"%char; "168"%char; "230"%char; "160"%char; "145"%char; "229"%char; "185"%char; "178"%char; "231"%char; "154"%char; "132"%char; "229"%char; "155"%char; "158"%char; "229"%char; "191"%char; "134"%char] ++ s " " ++ ["228"%char; "184"%char; "128"%char; "228"%char; "184"%char; "170"%char; "229"%char; "176"%char; "143"%char; "230"%char; "151"%char; "182"%char; "229"%char; "137"%char; "141"%char; "229"%char; "176"%char; "177"%char; "232"%char; "191"%char; "153"%char; "230"%char; "160"%char; "183"%char; "232"%char; "191"%char; "135"%char; "229"%char; "142"%char; "187"%char; "228"%char; "186"%char; "134"%char] ++ s " " ++ ["233"%char; "154"%char; "143"%char; "231"%char; "157"%char; "128"%char; "228"%char; "187"%char; "150"%char; "231"%char; "154"%char; "132"%char; "230"%char; "156"%char; "139"%char; "229"%char; "143"%char; "139"%char; "239"%char; "188"%char; "140"%char; "228"%char; "184"%char; "128"%char; "228"%char; "184"%char; "170"%char; "229"%char; "171"%char; "137"%char; "229"%char; "166"%char; "146"%char; "231"%char; "154"%char; "132"%char; "229"%char; "146"%char; "140"%char; "229"%char; "176"%char; "154"%char] ++ s " " ++ ["228"%char; "187"%char; "150"%char; "231"%char; "156"%char; "139"%char; "228"%char; "184"%char; "138"%char; "229"%char; "142"%char; "187"%char; "230"%char; "152"%char; "175"%char; "233"%char; "130"%char; "163"%char; "228"%char; "185"%char; "136"%char; "228"%char; "184"%char; "128"%char; "229"%char; "176"%char; "152"%char; "228"%char; "184"%char; "141"%char; "230"%char; "159"%char; "147"%char; "229"%char; "143"%char; "175"%char; "230"%char; "128"%char; "149"%char] ++ s " " ++ ["229"%char; "189"%char; "147"%char; "228"%char; "187"%char; "150"%char; "230"%char; "151"%char; "169"%char; "232"%char; "181"%char; "183"%char; "229"%char; "186"%char; "138"%char; "229"%char; "174"%char; "158"%char; "229"%char; "156"%char; "168"%char; "233"%char; "166"%char; "153"%char; "231"%char; "131"%char; "159"%char] ++ s " " ++ ["231"%char; "132"%char; "182"%char; "229"%char; "144"%char; "142"%char; "239"%char; "188"%char; "140"%char; "228"%char; "187"%char; "150"%char; "229"%char; "142"%char; "187"%char; "228"%char; "186"%char; "134"%char; "229"%char; "151"%char; "133"%char; "230"%char; "142"%char; "162"%char; "230"%char; "142"%char; "146"%char; "230"%char; "176"%char; "180"%char; "231"%char; "174"%char; "161"%char] ++ s " " ++ ["232"%char; "128"%char; "140"%char; "232"%char; "131"%char; "140"%char; "232"%char; "175"%char; "181"%char; "229"%char; "173"%char; "151"%char; "230"%char; "175"%char; "141"%char; "232"%char; "161"%char; "168"%char] ++ s " " ++ ["231"%char; "142"%char; "176"%char; "229"%char; "156"%char; "168"%char; "239"%char; "188"%char; "140"%char; "228"%char; "189"%char; "160"%char; "228"%char; "184"%char; "141"%char; "228"%char; "188"%char; "154"%char; "230"%char; "131"%char; "179"%char; "231"%char; "156"%char; "139"%char; "231"%char; "156"%char; "139"%char; "228"%char; "187"%char; "150"%char] ++ s " " ++ ["228"%char; "189"%char; "134"%char; "228"%char; "187"%char; "150"%char; "230"%char; "136"%char; "144"%char; "229"%char; "144"%char; "141"%char; "229"%char; "183"%char; "178"%char; "228"%char; "185"%char; "133"%char; "228"%char; "187"%char; "165"%char; "229"%char; "137"%char; "141"%char] ++ s " " ++ ["229"%char; "175"%char; "185"%char; "228"%char; "186"%char; "142"%char; "231"%char; "142"%char; "169"%char; "231"%char; "148"%char; "181"%char; "229"%char; "176"%char; "143"%char; "230"%char; "143"%char; "144"%char; "231"%char; "144"%char; "180"%char] ++ s " " ++ ["229"%char; "156"%char; "168"%char; "232"%char; "141"%char; "146"%char; "229"%char; "135"%char; "137"%char; "232"%char; "161"%char; "140"%char] ++ s """}" ++ ["010"%char]).
Proof. vm_compute. auto. Qed.

Example escapes : blackbox
  (s "<a title=~/bla \/\d+\// title:filter(/\/(\d+)\//):number/>" ++ ["010"%char])
  (NDocument false [] [] [] [
    k "html" [] [
      implied "head" [];
      k "body" [] [
        w (["010"%char] ++ s "    ");
        k "a" [a "title" (s "bla /1/")] [];
        w (["010"%char] ++ s "    ");
        k "a" [a "title" (s "bla /2/")] [];
        w (["010"%char] ++ s "    ");
        k "a" [a "title" (s "bla /3/")] [];
        w (["010"%char] ++ s "    ");
        k "a" [a "title" (s "bla /4/")] [];
        w (["010"%char] ++ s "    ");
        k "a" [a "title" (s "bla /5/")] [];
        w (["010"%char] ++ s "    ");
        k "a" [a "title" (s "bla /6/")] [];
        w (["010"%char] ++ s "    ");
        k "a" [a "title" (s "bla /7/")] [];
        w (["010"%char] ++ s "    ");
        k "a" [a "title" (s "bla 97/")] [];
        w (["010"%char] ++ s "    ");
        k "a" [a "title" (s "bla 98")] [];
        w (["010"%char] ++ s "    ");
        k "a" [a "title" (s "bla /99")] [];
        w (["010"%char] ++ s "  " ++ ["010"%char; "010"%char])]]]) 0
  (s "{""number"":""1""}" ++ ["010"%char] ++ s "{""number"":""2""}" ++ ["010"%char] ++ s "{""number"":""3""}" ++ ["010"%char] ++ s "{""number"":""4""}" ++ ["010"%char] ++ s "{""number"":""5""}" ++ ["010"%char] ++ s "{""number"":""6""}" ++ ["010"%char] ++ s "{""number"":""7""}" ++ ["010"%char]).
Proof. vm_compute. auto. Qed.

Example first_child : blackbox
  (s "<*:first-child class:class/>" ++ ["010"%char])
  (NDocument false [] [] [] [
    implied "html" [
      implied "head" [];
      implied "body" [
        k "div" [a "class" (s "first-div")] [
          w (["010"%char] ++ s "  ");
          k "ul" [] [
            w (["010"%char] ++ s "    ");
            k "li" [a "class" (s "first-li")] [];
            w (["010"%char] ++ s "    ");
            k "li" [a "class" (s "nope")] [];
            w (["010"%char] ++ s "    ");
            k "li" [a "class" (s "nope")] [];
            w (["010"%char] ++ s "    ");
            k "li" [a "class" (s "nope")] [];
            w (["010"%char] ++ s "    ");
            k "li" [a "class" (s "nope")] [];
            w (["010"%char] ++ s "    ");
            k "li" [a "class" (s "nope")] [];
            w (["010"%char] ++ s "    ");
            k "li" [a "class" (s "nope")] [];
            w (["010"%char] ++ s "  ")];
          w ["010"%char]];
        w ["010"%char]]]]) 0
  (s "{""class"":""first-div""}" ++ ["010"%char] ++ s "{""class"":""first-li""}" ++ ["010"%char]).
Proof. vm_compute. auto. Qed.

Example greedy_example : blackbox
  (s "<h1 @text:heading />" ++ ["010"%char] ++ s "<+div>" ++ ["010"%char] ++ s "  <a href:href @text:title />" ++ ["010"%char] ++ s "</div>" ++ ["010"%char])
  (NDocument false [] [] [] [
    implied "html" [
      implied "head" [];
      implied "body" [
        k "h1" [] [
          t (s "Heading 1")];
        w ["010"%char];
        k "div" [] [
          w (["010"%char] ++ s "  ");
          k "a" [a "href" (s "one.html")] [
            t (s "One")];
          w ["010"%char]];
        w ["010"%char; "010"%char];
        k "h1" [] [
          t (s "Heading 2")];
        w ["010"%char];
        k "div" [] [
          w (["010"%char] ++ s "  ");
          k "a" [a "href" (s "two.html")] [
            t (s "Two")];
          w ["010"%char]];
        w ["010"%char];
        k "h2" [] [
          t (s "Subheading 2.1")];
        w ["010"%char];
        k "div" [] [
          w (["010"%char] ++ s "  ");
          k "a" [a "href" (s "three.html")] [
            t (s "Three")];
          w ["010"%char]];
        w ["010"%char; "010"%char];
        k "p" [] [
          t (s "Archive")];
        w ["010"%char; "010"%char];
        k "h1" [] [
          t (s "Heading 3")];
        w ["010"%char];
        k "div" [] [
          w (["010"%char] ++ s "  ");
          k "a" [a "href" (s "four.html")] [
            t (s "Four")];
          w ["010"%char]];
        w ["010"%char; "010"%char]]]]) 0
  (s "{""heading"":""Heading 1"",""href"":""one.html"",""title"":""One""}" ++ ["010"%char] ++ s "{""heading"":""Heading 2"",""href"":[""two.html"",""three.html""],""title"":[""Two"",""Three""]}" ++ ["010"%char] ++ s "{""heading"":""Heading 3"",""href"":""four.html"",""title"":""Four""}" ++ ["010"%char]).
Proof. vm_compute. auto. Qed.

Example greedy_vs_mandatory : blackbox
  (s "<+p class:greedy1 />" ++ ["010"%char] ++ s "<h1 class:h />" ++ ["010"%char] ++ s "<+p class:greedy2 />" ++ ["010"%char] ++ s "<p class:p />" ++ ["010"%char])
  (NDocument false [] [] [] [
    implied "html" [
      implied "head" [];
      implied "body" [
        k "p" [a "class" (s "greedy1")] [];
        w ["010"%char];
        k "h1" [a "class" (s "h1")] [];
        w ["010"%char];
        k "p" [a "class" (s "greedy2")] [];
        w ["010"%char];
        k "p" [a "class" (s "p1")] [];
        w ["010"%char; "010"%char];
        k "p" [a "class" (s "greedy1")] [];
        w ["010"%char];
        k "p" [a "class" (s "greedy1")] [];
        w ["010"%char];
        k "h1" [a "class" (s "h1")] [];
        w ["010"%char];
        k "p" [a "class" (s "greedy2")] [];
        w ["010"%char];
        k "p" [a "class" (s "p1")] [];
        w ["010"%char];
        k "p" [a "class" (s "p2")] [];
        w ["010"%char; "010"%char]]]]) 0
  (s "{""greedy1"":""greedy1"",""greedy2"":""greedy2"",""h"":""h1"",""p"":""p1""}" ++ ["010"%char] ++ s "{""greedy1"":[""greedy1"",""greedy1""],""greedy2"":""greedy2"",""h"":""h1"",""p"":""p1""}" ++ ["010"%char]).
Proof. vm_compute. auto. Qed.

Example hext_github_issue7 : blackbox
  (s "<div>" ++ ["010"%char] ++ s "  <h3><a @text:title /></h3>" ++ ["010"%char] ++ s "  <+p @text:body />" ++ ["010"%char] ++ s "</div>" ++ ["010"%char])
  (NDocument false [] [] [] [
    implied "html" [
      implied "head" [];
      implied "body" [
        k "li" [] [
          w (["010"%char] ++ s "  ");
          k "div" [] [
            w (["010"%char] ++ s "    ");
            k "h5" [] [
              t (["010"%char] ++ s "      Heading 1" ++ ["010"%char] ++ s "    ")];
            w (["010"%char] ++ s "  ")];
          w (["010"%char] ++ s "  ");
          k "div" [] [
            w (["010"%char] ++ s "    ");
            k "h3" [] [
              w (["010"%char] ++ s "      ");
              k "a" [a "href" (s "link")] [
                t (s "Link text 1")];
              w (["010"%char] ++ s "    ")];
            w (["010"%char] ++ s "    ");
            k "p" [] [
              t (s "Line 1.1")];
            w (["010"%char] ++ s "    ");
            k "p" [] [
              t (s "Line 1.2")];
            w (["010"%char] ++ s "    ");
            k "p" [] [];
            w (["010"%char] ++ s "  ")];
          w (["010"%char] ++ s "  ");
          k "div" [] [
            w (["010"%char] ++ s "    ");
            k "h4" [] [
              t (["010"%char] ++ s "      Heading 2" ++ ["010"%char] ++ s "    ")];
            w (["010"%char] ++ s "    ");
            k "p" [] [
              t (["010"%char] ++ s "      Text 1" ++ ["010"%char] ++ s "    ")];
            w (["010"%char] ++ s "  ")];
          w ["010"%char]];
        w ["010"%char; "010"%char];
        k "li" [] [
          w (["010"%char] ++ s "  ");
          k "div" [] [
            w (["010"%char] ++ s "    ");
            k "h5" [] [
              t (["010"%char] ++ s "      Heading 3" ++ ["010"%char] ++ s "    ")];
            w (["010"%char] ++ s "  ")];
          w (["010"%char] ++ s "  ");
          k "div" [] [
            w (["010"%char] ++ s "    ");
            k "h3" [] [
              w (["010"%char] ++ s "      ");
              k "a" [a "href" (s "link")] [
                t (s "Link text 2")];
              w (["010"%char] ++ s "    ")];
            w (["010"%char] ++ s "    ");
            k "p" [] [];
            w (["010"%char] ++ s "    ");
            k "p" [] [
              t (s "Line 2.2")];
            w (["010"%char] ++ s "    ");
            k "p" [] [];
            w (["010"%char] ++ s "  ")];
          w (["010"%char] ++ s "  ");
          k "div" [] [
            w (["010"%char] ++ s "    ");
            k "h4" [] [
              t (["010"%char] ++ s "      Heading 4" ++ ["010"%char] ++ s "    ")];
            w (["010"%char] ++ s "    ");
            k "p" [] [
              t (["010"%char] ++ s "      Text 2" ++ ["010"%char] ++ s "    ")];
            w (["010"%char] ++ s "  ")];
          w ["010"%char]];
        w ["010"%char]]]]) 0
  (s "{""body"":[""Line 1.1"",""Line 1.2"",""""],""title"":""Link text 1""}" ++ ["010"%char] ++ s "{""body"":["""",""Line 2.2"",""""],""title"":""Link text 2""}" ++ ["010"%char]).
Proof. vm_compute. auto. Qed.

Example icase_quoted_regex : blackbox
  (s "<a class=~""^[drow]+$""i class:class />" ++ ["010"%char])
  (NDocument false [] [] [] [
    k "html" [] [
      k "head" [] [
        w (["010"%char] ++ s "  ")];
      w (["010"%char] ++ s "  ");
      k "body" [] [
        w (["010"%char] ++ s "    ");
        k "a" [a "class" (s "WORD")] [];
        w (["010"%char] ++ s "    ");
        k "a" [a "class" (s "word")] [];
        w (["010"%char] ++ s "    ");
        k "a" [a "class" (s "WoRd")] [];
        w (["010"%char] ++ s "    ");
        k "a" [a "class" (s "Word")] [];
        w (["010"%char] ++ s "    ");
        k "a" [a "class" (s "NOPE")] [];
        w (["010"%char] ++ s "    ");
        k "a" [a "class" (s "nOpE")] [];
        w (["010"%char] ++ s "    ");
        k "a" [a "class" (s "nope")] [];
        w (["010"%char] ++ s "    ");
        k "a" [a "class" (s "no")] [];
        w (["010"%char] ++ s "  " ++ ["010"%char; "010"%char])]]]) 0
  (s "{""class"":""word""}" ++ ["010"%char] ++ s "{""class"":""Word""}" ++ ["010"%char] ++ s "{""class"":""WoRd""}" ++ ["010"%char] ++ s "{""class"":""WORD""}" ++ ["010"%char]).
Proof. vm_compute. auto. Qed.

Example icase_regex : blackbox
  (s "<a class=~/^[drow]+$/i class:class/>" ++ ["010"%char])
  (NDocument false [] [] [] [
    k "html" [] [
      k "head" [] [
        w (["010"%char] ++ s "  ")];
      w (["010"%char] ++ s "  ");
      k "body" [] [
        w (["010"%char] ++ s "    ");
        k "a" [a "class" (s "WORD")] [];
        w (["010"%char] ++ s "    ");
        k "a" [a "class" (s "word")] [];
        w (["010"%char] ++ s "    ");
        k "a" [a "class" (s "WoRd")] [];
        w (["010"%char] ++ s "    ");
        k "a" [a "class" (s "Word")] [];
        w (["010"%char] ++ s "    ");
        k "a" [a "class" (s "NOPE")] [];
        w (["010"%char] ++ s "    ");
        k "a" [a "class" (s "nOpE")] [];
        w (["010"%char] ++ s "    ");
        k "a" [a "class" (s "nope")] [];
        w (["010"%char] ++ s "    ");
        k "a" [a "class" (s "no")] [];
        w (["010"%char] ++ s "  " ++ ["010"%char; "010"%char])]]]) 0
  (s "{""class"":""word""}" ++ ["010"%char] ++ s "{""class"":""Word""}" ++ ["010"%char] ++ s "{""class"":""WoRd""}" ++ ["010"%char] ++ s "{""class"":""WORD""}" ++ ["010"%char]).
Proof. vm_compute. auto. Qed.

Example inner_html_body : blackbox
  (s "<body @inner-html:html />" ++ ["010"%char])
  (NDocument true (s "html") [] [] [
    k "html" [] [
      k "head" [] [
        w (["010"%char] ++ s "    ");
        k "title" [] [
          t (s "title")];
        w (["010"%char] ++ s "    ");
        k "meta" [a "charset" (s "utf-8")] [];
        w (["010"%char] ++ s "  ")];
      w (["010"%char] ++ s "  ");
      k "body" [] [
        w (["010"%char] ++ s "    ");
        k "div" [a "class" (s "asd")] [
          w (["010"%char] ++ s "      ");
          NComment (s " comment ");
          w (["010"%char] ++ s "      ");
          k "img" [a "alt" (s "test"); a "src" (s "1.png")] [];
          w (["010"%char] ++ s "    ")];
        w (["010"%char] ++ s "  " ++ ["010"%char; "010"%char])]]]) 0
  (s "{""html"":""\n    <div class=\""asd\"">\n      <!-- comment -->\n      <img alt=\""test\"" src=\""1.png\""/>\n    </div>\n  \n\n""}" ++ ["010"%char]).
Proof. vm_compute. auto. Qed.

Example inner_html_div : blackbox
  (s "<div @inner-html:html />" ++ ["010"%char])
  (NDocument true (s "html") [] [] [
    k "html" [] [
      k "head" [] [
        w (["010"%char] ++ s "    ");
        k "title" [] [
          t (s "title")];
        w (["010"%char] ++ s "    ");
        k "meta" [a "charset" (s "utf-8")] [];
        w (["010"%char] ++ s "  ")];
      w (["010"%char] ++ s "  ");
      k "body" [] [
        w (["010"%char] ++ s "    ");
        k "div" [a "class" (s "asd")] [
          w (["010"%char] ++ s "      ");
          NComment (s " comment ");
          w (["010"%char] ++ s "      ");
          k "img" [a "alt" (s "test"); a "src" (s "1.png")] [];
          w (["010"%char] ++ s "    ")];
        w (["010"%char] ++ s "  " ++ ["010"%char; "010"%char])]]]) 0
  (s "{""html"":""\n      <!-- comment -->\n      <img alt=\""test\"" src=\""1.png\""/>\n    ""}" ++ ["010"%char]).
Proof. vm_compute. auto. Qed.

Example inner_html_full : blackbox
  (s "<html @inner-html:html />" ++ ["010"%char])
  (NDocument true (s "html") [] [] [
    k "html" [] [
      k "head" [] [
        w (["010"%char] ++ s "    ");
        k "title" [] [
          t (s "title")];
        w (["010"%char] ++ s "    ");
        k "meta" [a "charset" (s "utf-8")] [];
        w (["010"%char] ++ s "  ")];
      w (["010"%char] ++ s "  ");
      k "body" [] [
        w (["010"%char] ++ s "    ");
        k "div" [a "class" (s "asd")] [
          w (["010"%char] ++ s "      ");
          NComment (s " comment ");
          w (["010"%char] ++ s "      ");
          k "img" [a "alt" (s "test"); a "src" (s "1.png")] [];
          w (["010"%char] ++ s "    ")];
        w (["010"%char] ++ s "  " ++ ["010"%char; "010"%char])]]]) 0
  (s "{""html"":""<head>\n    <title>title</title>\n    <meta charset=\""utf-8\""/>\n  </head>\n  <body>\n    <div class=\""asd\"">\n      <!-- comment -->\n      <img alt=\""test\"" src=\""1.png\""/>\n    </div>\n  \n\n</body>""}" ++ ["010"%char]).
Proof. vm_compute. auto. Qed.

Example inner_html_head : blackbox
  (s "<head @inner-html:html />" ++ ["010"%char])
  (NDocument true (s "html") [] [] [
    k "html" [] [
      k "head" [] [
        w (["010"%char] ++ s "    ");
        k "title" [] [
          t (s "title")];
        w (["010"%char] ++ s "    ");
        k "meta" [a "charset" (s "utf-8")] [];
        w (["010"%char] ++ s "  ")];
      w (["010"%char] ++ s "  ");
      k "body" [] [
        w (["010"%char] ++ s "    ");
        k "div" [a "class" (s "asd")] [
          w (["010"%char] ++ s "      ");
          NComment (s " comment ");
          w (["010"%char] ++ s "      ");
          k "img" [a "alt" (s "test"); a "src" (s "1.png")] [];
          w (["010"%char] ++ s "    ")];
        w (["010"%char] ++ s "  " ++ ["010"%char; "010"%char])]]]) 0
  (s "{""html"":""\n    <title>title</title>\n    <meta charset=\""utf-8\""/>\n  ""}" ++ ["010"%char]).
Proof. vm_compute. auto. Qed.

Example inner_html_inserted_element : blackbox
  (s "<html @inner-html:html />" ++ ["010"%char])
  (NDocument false [] [] [] [
    implied "html" [
      implied "head" [];
      implied "body" [
        t (s "a" ++ ["010"%char])]]]) 0
  (s "{""html"":""<head></head><body>a\n</body>""}" ++ ["010"%char]).
Proof. vm_compute. auto. Qed.

Example last_child : blackbox
  (s "<*:last-child class:class/>" ++ ["010"%char])
  (NDocument false [] [] [] [
    implied "html" [
      implied "head" [];
      implied "body" [
        k "div" [a "class" (s "first-div")] [
          w (["010"%char] ++ s "  ");
          k "ul" [] [
            w (["010"%char] ++ s "    ");
            k "li" [a "class" (s "7 first-li")] [];
            w (["010"%char] ++ s "    ");
            k "li" [a "class" (s "6 nope")] [];
            w (["010"%char] ++ s "    ");
            k "li" [a "class" (s "5 nope")] [];
            w (["010"%char] ++ s "    ");
            k "li" [a "class" (s "4 nope")] [];
            t (["010"%char] ++ s "    text" ++ ["010"%char] ++ s "    ");
            k "li" [a "class" (s "3 nope")] [];
            t (["010"%char] ++ s "    text" ++ ["010"%char] ++ s "    ");
            k "li" [a "class" (s "2 nope")] [];
            t (["010"%char] ++ s "    text" ++ ["010"%char] ++ s "    ");
            k "li" [a "class" (s "1 last-li")] [];
            w (["010"%char] ++ s "  ")];
          w ["010"%char]];
        w ["010"%char]]]]) 0
  (s "{""class"":""1 last-li""}" ++ ["010"%char] ++ s "{""class"":""first-div""}" ++ ["010"%char]).
Proof. vm_compute. auto. Qed.

Example man_opt_opt_man : blackbox
  (s "<a>" ++ ["010"%char] ++ s "  <?span class:first_opt_span>" ++ ["010"%char] ++ s "    <?span class:secnd_opt_span>" ++ ["010"%char] ++ s "      <span class:trd_manda_span />" ++ ["010"%char] ++ s "    </span>" ++ ["010"%char] ++ s "  </span>" ++ ["010"%char] ++ s "</a>" ++ ["010"%char])
  (NDocument false [] [] [] [
    implied "html" [
      implied "head" [];
      implied "body" [
        k "a" [a "href" []] [
          w (["010"%char] ++ s "  ");
          k "span" [a "class" (s "-span1")] [
            w (["010"%char] ++ s "    ");
            k "span" [a "class" (s "--span1")] [
              w (["010"%char] ++ s "      ");
              k "span" [a "class" (s "---span1")] [];
              w (["010"%char] ++ s "    ")];
            w (["010"%char] ++ s "    ");
            k "span" [a "class" (s "--span2 NOPE")] [
              w (["010"%char] ++ s "      ");
              k "b" [] [
                t (s "nope")];
              w (["010"%char] ++ s "    ")];
            w (["010"%char] ++ s "  ")];
          w ["010"%char]];
        w ["010"%char]]]]) 0
  (s "{""first_opt_span"":""-span1"",""secnd_opt_span"":""--span1"",""trd_manda_span"":""---span1""}" ++ ["010"%char]).
Proof. vm_compute. auto. Qed.

Example man_opt_opt_man_nested : blackbox
  (s "<a>" ++ ["010"%char] ++ s "  <?span class:first_opt_span>" ++ ["010"%char] ++ s "    <?span class:secnd_opt_span>" ++ ["010"%char] ++ s "      <span class:trd_manda_span />" ++ ["010"%char] ++ s "    </span>" ++ ["010"%char] ++ s "  </span>" ++ ["010"%char] ++ s "</a>" ++ ["010"%char])
  (NDocument false [] [] [] [
    implied "html" [
      implied "head" [];
      implied "body" [
        k "a" [a "href" []] [
          w (["010"%char] ++ s "  ");
          k "span" [a "class" (s "-span1")] [
            w (["010"%char] ++ s "    ");
            k "span" [a "class" (s "--span1")] [
              w (["010"%char] ++ s "      ");
              k "span" [a "class" (s "---span1")] [];
              w (["010"%char] ++ s "      ")]]];
        k "a" [a "href" []] [
          w (["010"%char] ++ s "        ");
          k "span" [a "class" (s "-span1")] [
            w (["010"%char] ++ s "          ");
            k "span" [a "class" (s "--span1")] [
              w (["010"%char] ++ s "            ");
              k "span" [a "class" (s "---span1")] [];
              w (["010"%char] ++ s "          ")];
            w (["010"%char] ++ s "          ");
            k "span" [a "class" (s "--span2 NOPE")] [
              w (["010"%char] ++ s "            ");
              k "b" [] [
                t (s "nope")];
              w (["010"%char] ++ s "          ")];
            w (["010"%char] ++ s "        ")];
          w (["010"%char] ++ s "      ")];
        w (["010"%char] ++ s "    " ++ ["010"%char] ++ s "    ");
        k "span" [a "class" (s "--span2 NOPE")] [
          w (["010"%char] ++ s "      ");
          k "b" [] [
            t (s "nope")];
          w (["010"%char] ++ s "    ")];
        w (["010"%char] ++ s "    ");
        k "a" [a "href" []] [
          w (["010"%char] ++ s "      ");
          k "span" [a "class" (s "-span1")] [
            w (["010"%char] ++ s "        ");
            k "span" [a "class" (s "--span1")] [
              w (["010"%char] ++ s "          ");
              k "span" [a "class" (s "---span1")] [];
              w (["010"%char] ++ s "          ")]]];
        k "a" [a "href" []] [
          w (["010"%char] ++ s "            ");
          k "span" [a "class" (s "-span1")] [
            w (["010"%char] ++ s "              ");
            k "span" [a "class" (s "--span1")] [
              w (["010"%char] ++ s "                ");
              k "span" [a "class" (s "---span1")] [];
              w (["010"%char] ++ s "              ")];
            w (["010"%char] ++ s "              ");
            k "span" [a "class" (s "--span2 NOPE")] [
              w (["010"%char] ++ s "                ");
              k "b" [] [
                t (s "nope")];
              w (["010"%char] ++ s "              ")];
            w (["010"%char] ++ s "            ")];
          w (["010"%char] ++ s "          ")];
        w (["010"%char] ++ s "        " ++ ["010"%char] ++ s "        ");
        k "span" [a "class" (s "--span2 NOPE")] [
          w (["010"%char] ++ s "          ");
          k "a" [a "href" []] [
            w (["010"%char] ++ s "            ");
            k "span" [a "class" (s "-span1")] [
              w (["010"%char] ++ s "              ");
              k "span" [a "class" (s "--span1")] [
                w (["010"%char] ++ s "                ");
                k "span" [a "class" (s "---span1")] [];
                w (["010"%char] ++ s "              ")];
              w (["010"%char] ++ s "              ");
              k "span" [a "class" (s "--span2 NOPE")] [
                w (["010"%char] ++ s "                ");
                k "b" [] [
                  t (s "nope")];
                w (["010"%char] ++ s "              ")];
              w (["010"%char] ++ s "            ")];
            w (["010"%char] ++ s "          ")];
          w (["010"%char] ++ s "          ");
          k "b" [] [
            t (s "nope")];
          w (["010"%char] ++ s "          ");
          k "a" [a "href" []] [
            w (["010"%char] ++ s "            ");
            k "span" [a "class" (s "-span1")] [
              w (["010"%char] ++ s "              ");
              k "span" [a "class" (s "--span1")] [
                w (["010"%char] ++ s "                ");
                k "span" [a "class" (s "---span1")] [];
                w (["010"%char] ++ s "              ")];
              w (["010"%char] ++ s "              ");
              k "span" [a "class" (s "--span2 NOPE")] [
                w (["010"%char] ++ s "                ");
                k "b" [] [
                  t (s "nope")];
                w (["010"%char] ++ s "              ")];
              w (["010"%char] ++ s "            ")];
            w (["010"%char] ++ s "          ")];
          w (["010"%char] ++ s "        ")];
        w (["010"%char] ++ s "      " ++ ["010"%char] ++ s "    " ++ ["010"%char] ++ s "  " ++ ["010"%char; "010"%char])]]]) 0
  (s "{""first_opt_span"":""-span1"",""secnd_opt_span"":""--span1"",""trd_manda_span"":""---span1""}" ++ ["010"%char] ++ s "{""first_opt_span"":""-span1"",""secnd_opt_span"":""--span1"",""trd_manda_span"":""---span1""}" ++ ["010"%char] ++ s "{""first_opt_span"":""-span1"",""secnd_opt_span"":""--span1"",""trd_manda_span"":""---span1""}" ++ ["010"%char] ++ s "{""first_opt_span"":""-span1"",""secnd_opt_span"":""--span1"",""trd_manda_span"":""---span1""}" ++ ["010"%char] ++ s "{""first_opt_span"":""-span1"",""secnd_opt_span"":""--span1"",""trd_manda_span"":""---span1""}" ++ ["010"%char] ++ s "{""first_opt_span"":""-span1"",""secnd_opt_span"":""--span1"",""trd_manda_span"":""---span1""}" ++ ["010"%char]).
Proof. vm_compute. auto. Qed.

Example man_opt_opt_man_opt : blackbox
  (s "<a>" ++ ["010"%char] ++ s "  <?span class:1_opti_span>" ++ ["010"%char] ++ s "    <?span class:2_opti_span>" ++ ["010"%char] ++ s "      <span class:3_mand_span>" ++ ["010"%char] ++ s "        <?span class:4_opti_span/>" ++ ["010"%char] ++ s "      </span>" ++ ["010"%char] ++ s "    </span>" ++ ["010"%char] ++ s "  </span>" ++ ["010"%char] ++ s "</a>" ++ ["010"%char])
  (NDocument false [] [] [] [
    implied "html" [
      implied "head" [];
      implied "body" [
        k "a" [a "href" []] [
          w (["010"%char] ++ s "  ");
          k "span" [a "class" (s "-span1")] [
            w (["010"%char] ++ s "    ");
            k "span" [a "class" (s "--span1")] [
              w (["010"%char] ++ s "      ");
              k "span" [a "class" (s "---span1")] [
                w (["010"%char] ++ s "        ");
                k "span" [a "class" (s "----span1")] [];
                w (["010"%char] ++ s "      ")];
              w (["010"%char] ++ s "    ")];
            w (["010"%char] ++ s "    ");
            k "span" [a "class" (s "--span2 dupl")] [
              w (["010"%char] ++ s "      ");
              k "span" [a "class" (s "---span1 dupl")] [
                w (["010"%char] ++ s "        ");
                k "b" [a "class" (s "error")] [
                  t (s "nope")];
                w (["010"%char] ++ s "      ")];
              w (["010"%char] ++ s "    ")];
            w (["010"%char] ++ s "  ")];
          w ["010"%char]];
        w ["010"%char]]]]) 0
  (s "{""1_opti_span"":""-span1"",""2_opti_span"":[""--span1"",""--span2 dupl""],""3_mand_span"":[""---span1"",""---span1 dupl""],""4_opti_span"":""----span1""}" ++ ["010"%char]).
Proof. vm_compute. auto. Qed.

Example manda_trailing_optional : blackbox
  (s "<a class:a_class/>" ++ ["010"%char] ++ s "<?div class:div_class/>" ++ ["010"%char])
  (NDocument false [] [] [] [
    k "html" [] [
      implied "head" [];
      k "body" [] [
        w (["010"%char] ++ s "  ");
        k "a" [a "class" (s "first-a")] [];
        w (["010"%char] ++ s "  ");
        k "div" [a "class" (s "optional-div")] [];
        w (["010"%char] ++ s "  ");
        k "a" [a "class" (s "second-a")] [];
        w ["010"%char; "010"%char; "010"%char]]]]) 0
  (s "{""a_class"":""first-a"",""div_class"":""optional-div""}" ++ ["010"%char] ++ s "{""a_class"":""second-a""}" ++ ["010"%char]).
Proof. vm_compute. auto. Qed.

Example mandatory_precedence : blackbox
  (s "<p class:num />" ++ ["010"%char] ++ s "<?p class:optional />" ++ ["010"%char])
  (NDocument false [] [] [] [
    k "html" [] [
      k "head" [] [];
      w (["010"%char] ++ s "  ");
      k "body" [] [
        w (["010"%char] ++ s "    ");
        k "p" [a "class" (s "1")] [];
        w (["010"%char] ++ s "    ");
        k "p" [a "class" (s "2")] [];
        w (["010"%char] ++ s "    ");
        k "p" [a "class" (s "3")] [];
        w (["010"%char] ++ s "    ");
        k "p" [a "class" (s "4")] [];
        w (["010"%char] ++ s "    ");
        k "p" [a "class" (s "5")] [];
        w (["010"%char] ++ s "    ");
        k "p" [a "class" (s "6")] [];
        w (["010"%char] ++ s "    ");
        k "p" [a "class" (s "7")] [];
        w (["010"%char] ++ s "    ");
        k "p" [a "class" (s "8")] [];
        w (["010"%char] ++ s "  " ++ ["010"%char; "010"%char])]]]) 0
  (s "{""num"":""1""}" ++ ["010"%char] ++ s "{""num"":""2""}" ++ ["010"%char] ++ s "{""num"":""3""}" ++ ["010"%char] ++ s "{""num"":""4""}" ++ ["010"%char] ++ s "{""num"":""5""}" ++ ["010"%char] ++ s "{""num"":""6""}" ++ ["010"%char] ++ s "{""num"":""7""}" ++ ["010"%char] ++ s "{""num"":""8""}" ++ ["010"%char]).
Proof. vm_compute. auto. Qed.

Example mandatory_precedence_recursive : blackbox
  (s "<?span class:optional>" ++ ["010"%char] ++ s "  <?span class:opt_inner_optional />" ++ ["010"%char] ++ s "  <span class:opt_inner_num />" ++ ["010"%char] ++ s "  <?span class:opt_inner_optional />" ++ ["010"%char] ++ s "</span>" ++ ["010"%char] ++ s "<span class:num>" ++ ["010"%char] ++ s "  <?span class:inner_optional />" ++ ["010"%char] ++ s "  <span class:inner_num />" ++ ["010"%char] ++ s "  <?span class:inner_optional />" ++ ["010"%char] ++ s "</span>" ++ ["010"%char] ++ s "<?span class:optional>" ++ ["010"%char] ++ s "  <?span class:opt_inner_optional />" ++ ["010"%char] ++ s "  <span class:opt_inner_num />" ++ ["010"%char] ++ s "</span>" ++ ["010"%char])
  (NDocument false [] [] [] [
    k "html" [] [
      k "head" [] [];
      w (["010"%char] ++ s "  ");
      k "body" [] [
        w (["010"%char] ++ s "    ");
        k "span" [a "class" (s "1")] [
          w (["010"%char] ++ s "      ");
          k "span" [a "class" (s "1")] [];
          w (["010"%char] ++ s "      ");
          k "span" [a "class" (s "2")] [];
          w (["010"%char] ++ s "      ");
          k "span" [a "class" (s "3")] [];
          w (["010"%char] ++ s "      ");
          k "span" [a "class" (s "4")] [];
          w (["010"%char] ++ s "      ");
          k "span" [a "class" (s "5")] [];
          w (["010"%char] ++ s "      ");
          k "span" [a "class" (s "6")] [];
          w (["010"%char] ++ s "      ");
          k "span" [a "class" (s "7")] [];
          w (["010"%char] ++ s "      ");
          k "span" [a "class" (s "8")] [];
          w (["010"%char] ++ s "    ")];
        w (["010"%char] ++ s "    ");
        k "span" [a "class" (s "2")] [
          w (["010"%char] ++ s "      ");
          k "span" [a "class" (s "1")] [];
          w (["010"%char] ++ s "      ");
          k "span" [a "class" (s "2")] [];
          w (["010"%char] ++ s "      ");
          k "span" [a "class" (s "3")] [];
          w (["010"%char] ++ s "      ");
          k "span" [a "class" (s "4")] [];
          w (["010"%char] ++ s "      ");
          k "span" [a "class" (s "5")] [];
          w (["010"%char] ++ s "      ");
          k "span" [a "class" (s "6")] [];
          w (["010"%char] ++ s "      ");
          k "span" [a "class" (s "7")] [];
          w (["010"%char] ++ s "      ");
          k "span" [a "class" (s "8")] [];
          w (["010"%char] ++ s "    ")];
        w (["010"%char] ++ s "    ");
        k "span" [a "class" (s "3")] [
          w (["010"%char] ++ s "      ");
          k "span" [a "class" (s "1")] [];
          w (["010"%char] ++ s "      ");
          k "span" [a "class" (s "2")] [];
          w (["010"%char] ++ s "      ");
          k "span" [a "class" (s "3")] [];
          w (["010"%char] ++ s "      ");
          k "span" [a "class" (s "4")] [];
          w (["010"%char] ++ s "      ");
          k "span" [a "class" (s "5")] [];
          w (["010"%char] ++ s "      ");
          k "span" [a "class" (s "6")] [];
          w (["010"%char] ++ s "      ");
          k "span" [a "class" (s "7")] [];
          w (["010"%char] ++ s "      ");
          k "span" [a "class" (s "8")] [];
          w (["010"%char] ++ s "    ")];
        w (["010"%char] ++ s "    ");
        k "span" [a "class" (s "4")] [
          w (["010"%char] ++ s "      ");
          k "span" [a "class" (s "1")] [];
          w (["010"%char] ++ s "      ");
          k "span" [a "class" (s "2")] [];
          w (["010"%char] ++ s "      ");
          k "span" [a "class" (s "3")] [];
          w (["010"%char] ++ s "      ");
          k "span" [a "class" (s "4")] [];
          w (["010"%char] ++ s "      ");
          k "span" [a "class" (s "5")] [];
          w (["010"%char] ++ s "      ");
          k "span" [a "class" (s "6")] [];
          w (["010"%char] ++ s "      ");
          k "span" [a "class" (s "7")] [];
          w (["010"%char] ++ s "      ");
          k "span" [a "class" (s "8")] [];
          w (["010"%char] ++ s "    ")];
        w (["010"%char] ++ s "    ");
        k "span" [a "class" (s "5")] [
          w (["010"%char] ++ s "      ");
          k "span" [a "class" (s "1")] [];
          w (["010"%char] ++ s "      ");
          k "span" [a "class" (s "2")] [];
          w (["010"%char] ++ s "      ");
          k "span" [a "class" (s "3")] [];
          w (["010"%char] ++ s "      ");
          k "span" [a "class" (s "4")] [];
          w (["010"%char] ++ s "      ");
          k "span" [a "class" (s "5")] [];
          w (["010"%char] ++ s "      ");
          k "span" [a "class" (s "6")] [];
          w (["010"%char] ++ s "      ");
          k "span" [a "class" (s "7")] [];
          w (["010"%char] ++ s "      ");
          k "span" [a "class" (s "8")] [];
          w (["010"%char] ++ s "    ")];
        w (["010"%char] ++ s "    ");
        k "span" [a "class" (s "6")] [
          w (["010"%char] ++ s "      ");
          k "span" [a "class" (s "1")] [];
          w (["010"%char] ++ s "      ");
          k "span" [a "class" (s "2")] [];
          w (["010"%char] ++ s "      ");
          k "span" [a "class" (s "3")] [];
          w (["010"%char] ++ s "      ");
          k "span" [a "class" (s "4")] [];
          w (["010"%char] ++ s "      ");
          k "span" [a "class" (s "5")] [];
          w (["010"%char] ++ s "      ");
          k "span" [a "class" (s "6")] [];
          w (["010"%char] ++ s "      ");
          k "span" [a "class" (s "7")] [];
          w (["010"%char] ++ s "      ");
          k "span" [a "class" (s "8")] [];
          w (["010"%char] ++ s "    ")];
        w (["010"%char] ++ s "    ");
        k "span" [a "class" (s "7")] [
          w (["010"%char] ++ s "      ");
          k "span" [a "class" (s "1")] [];
          w (["010"%char] ++ s "      ");
          k "span" [a "class" (s "2")] [];
          w (["010"%char] ++ s "      ");
          k "span" [a "class" (s "3")] [];
          w (["010"%char] ++ s "      ");
          k "span" [a "class" (s "4")] [];
          w (["010"%char] ++ s "      ");
          k "span" [a "class" (s "5")] [];
          w (["010"%char] ++ s "      ");
          k "span" [a "class" (s "6")] [];
          w (["010"%char] ++ s "      ");
          k "span" [a "class" (s "7")] [];
          w (["010"%char] ++ s "      ");
          k "span" [a "class" (s "8")] [];
          w (["010"%char] ++ s "    ")];
        w (["010"%char] ++ s "    ");
        k "span" [a "class" (s "8")] [
          w (["010"%char] ++ s "      ");
          k "span" [a "class" (s "1")] [];
          w (["010"%char] ++ s "      ");
          k "span" [a "class" (s "2")] [];
          w (["010"%char] ++ s "      ");
          k "span" [a "class" (s "3")] [];
          w (["010"%char] ++ s "      ");
          k "span" [a "class" (s "4")] [];
          w (["010"%char] ++ s "      ");
          k "span" [a "class" (s "5")] [];
          w (["010"%char] ++ s "      ");
          k "span" [a "class" (s "6")] [];
          w (["010"%char] ++ s "      ");
          k "span" [a "class" (s "7")] [];
          w (["010"%char] ++ s "      ");
          k "span" [a "class" (s "8")] [];
          w (["010"%char] ++ s "    ")];
        w (["010"%char] ++ s "  " ++ ["010"%char; "010"%char])]]]) 0
  (s "{""inner_num"":[""1"",""2"",""3"",""4"",""5"",""6"",""7"",""8""],""num"":""1""}" ++ ["010"%char] ++ s "{""inner_num"":[""1"",""2"",""3"",""4"",""5"",""6"",""7"",""8""],""num"":""2""}" ++ ["010"%char] ++ s "{""inner_num"":[""1"",""2"",""3"",""4"",""5"",""6"",""7"",""8""],""num"":""3""}" ++ ["010"%char] ++ s "{""inner_num"":[""1"",""2"",""3"",""4"",""5"",""6"",""7"",""8""],""num"":""4""}" ++ ["010"%char] ++ s "{""inner_num"":[""1"",""2"",""3"",""4"",""5"",""6"",""7"",""8""],""num"":""5""}" ++ ["010"%char] ++ s "{""inner_num"":[""1"",""2"",""3"",""4"",""5"",""6"",""7"",""8""],""num"":""6""}" ++ ["010"%char] ++ s "{""inner_num"":[""1"",""2"",""3"",""4"",""5"",""6"",""7"",""8""],""num"":""7""}" ++ ["010"%char] ++ s "{""inner_num"":[""1"",""2"",""3"",""4"",""5"",""6"",""7"",""8""],""num"":""8""}" ++ ["010"%char]).
Proof. vm_compute. auto. Qed.

Example mandatory_precedence_reverse : blackbox
  (s "<?p class:optional />" ++ ["010"%char] ++ s "<p class:num />" ++ ["010"%char])
  (NDocument false [] [] [] [
    k "html" [] [
      k "head" [] [];
      w (["010"%char] ++ s "  ");
      k "body" [] [
        w (["010"%char] ++ s "    ");
        k "p" [a "class" (s "1")] [];
        w (["010"%char] ++ s "    ");
        k "p" [a "class" (s "2")] [];
        w (["010"%char] ++ s "    ");
        k "p" [a "class" (s "3")] [];
        w (["010"%char] ++ s "    ");
        k "p" [a "class" (s "4")] [];
        w (["010"%char] ++ s "    ");
        k "p" [a "class" (s "5")] [];
        w (["010"%char] ++ s "    ");
        k "p" [a "class" (s "6")] [];
        w (["010"%char] ++ s "    ");
        k "p" [a "class" (s "7")] [];
        w (["010"%char] ++ s "    ");
        k "p" [a "class" (s "8")] [];
        w (["010"%char] ++ s "  " ++ ["010"%char; "010"%char])]]]) 0
  (s "{""num"":""1""}" ++ ["010"%char] ++ s "{""num"":""2""}" ++ ["010"%char] ++ s "{""num"":""3""}" ++ ["010"%char] ++ s "{""num"":""4""}" ++ ["010"%char] ++ s "{""num"":""5""}" ++ ["010"%char] ++ s "{""num"":""6""}" ++ ["010"%char] ++ s "{""num"":""7""}" ++ ["010"%char] ++ s "{""num"":""8""}" ++ ["010"%char]).
Proof. vm_compute. auto. Qed.

Example matched_but_no_capture : blackbox
  (s "<a href:href?/>" ++ ["010"%char])
  (NDocument false [] [] [] [
    k "html" [] [
      k "head" [] [
        w (["010"%char] ++ s "  ")];
      w (["010"%char] ++ s "  ");
      k "body" [] [
        w (["010"%char] ++ s "    ");
        k "a" [a "href" (s "yes")] [];
        w (["010"%char] ++ s "    ");
        k "a" [] [];
        w (["010"%char] ++ s "    ");
        k "a" [] [];
        w (["010"%char] ++ s "    ");
        k "a" [] [];
        w (["010"%char] ++ s "    ");
        k "a" [] [];
        w (["010"%char] ++ s "    ");
        k "a" [] [];
        w (["010"%char] ++ s "    ");
        k "a" [] [];
        w (["010"%char] ++ s "    ");
        k "a" [] [];
        w (["010"%char] ++ s "    ");
        k "a" [] [];
        w (["010"%char] ++ s "    ");
        k "a" [] [];
        w (["010"%char] ++ s "  " ++ ["010"%char; "010"%char])]]]) 0
  (s "{""href"":""yes""}" ++ ["010"%char]).
Proof. vm_compute. auto. Qed.

Example multiple_nested_rules : blackbox
  (s "<*>" ++ ["010"%char] ++ s "  {" ++ ["010"%char] ++ s "    <p @text:content />" ++ ["010"%char] ++ s "  }" ++ ["010"%char] ++ s "  {" ++ ["010"%char] ++ s "    <a href:href />" ++ ["010"%char] ++ s "  }" ++ ["010"%char] ++ s "</*>" ++ ["010"%char])
  (NDocument false [] [] [] [
    k "html" [] [
      implied "head" [];
      k "body" [] [
        w (["010"%char] ++ s "    ");
        k "div" [] [
          w (s " ");
          k "p" [] [
            t (s "P1 ");
            k "a" [a "href" (s "p1-href")] []];
          w (s " ")];
        w (["010"%char] ++ s "    ");
        k "div" [] [
          w (s " ");
          k "p" [] [
            t (s "P2 ");
            k "a" [a "href" (s "p2-href")] []];
          w (s " ")];
        w (["010"%char] ++ s "  " ++ ["010"%char; "010"%char])]]]) 0
  (s "{""content"":[""P1"",""P2""],""href"":[""p1-href"",""p2-href""]}" ++ ["010"%char] ++ s "{""content"":[""P1"",""P2""],""href"":[""p1-href"",""p2-href""]}" ++ ["010"%char] ++ s "{""content"":""P1"",""href"":""p1-href""}" ++ ["010"%char] ++ s "{""content"":""P2"",""href"":""p2-href""}" ++ ["010"%char]).
Proof. vm_compute. auto. Qed.

Example negate_value : blackbox
  (s "<a class=""not""! class:class/>" ++ ["010"%char])
  (NDocument false [] [] [] [
    k "html" [] [
      k "head" [] [
        w (["010"%char] ++ s "  ")];
      w (["010"%char] ++ s "  ");
      k "body" [] [
        w (["010"%char] ++ s "  ");
        k "a" [a "class" (s "not"); a "href" (s "yes not yes")] [];
        w (["010"%char] ++ s "  ");
        k "a" [a "class" (s "yes"); a "href" (s "apples")] [];
        w (["010"%char] ++ s "  ");
        k "a" [a "class" (s "yes"); a "href" (s "oranges")] [];
        w (["010"%char] ++ s "  ");
        k "a" [a "class" (s "not"); a "href" (s "yes not")] [];
        w (["010"%char] ++ s "  ");
        k "a" [a "class" (s "not"); a "href" (s "not apples")] [];
        w (["010"%char] ++ s "  ");
        k "a" [a "class" (s "not"); a "href" (s "yes not")] [];
        w (["010"%char] ++ s "  ");
        k "a" [a "class" (s "yes"); a "href" []] [];
        w (["010"%char] ++ s "  " ++ ["010"%char; "010"%char])]]]) 0
  (s "{""class"":""yes""}" ++ ["010"%char] ++ s "{""class"":""yes""}" ++ ["010"%char] ++ s "{""class"":""yes""}" ++ ["010"%char]).
Proof. vm_compute. auto. Qed.

Example nested_rule_direct_descendant : blackbox
  (s "<div id>" ++ ["010"%char] ++ s "  {" ++ ["010"%char] ++ s "    <div class:class>" ++ ["010"%char] ++ s "      {" ++ ["010"%char] ++ s "        <p @text:p />" ++ ["010"%char] ++ s "      }" ++ ["010"%char] ++ s "    </div>" ++ ["010"%char] ++ s "  }" ++ ["010"%char] ++ s "</div>" ++ ["010"%char])
  (NDocument false [] [] [] [
    k "html" [] [
      implied "head" [];
      k "body" [] [
        w (["010"%char] ++ s "    ");
        k "div" [a "id" (s "list1"); a "class" (s "list1")] [
          w (["010"%char] ++ s "      ");
          k "div" [a "class" (s "item1")] [
            k "p" [] [
              t (s "One")];
            w (s "  ")];
          w (["010"%char] ++ s "      ");
          k "div" [a "class" (s "item2")] [
            k "p" [] [
              t (s "Two")];
            w (s "  ")];
          w (["010"%char] ++ s "      ");
          k "div" [a "class" (s "item3")] [
            k "p" [] [
              t (s "Three")]];
          w (["010"%char] ++ s "    ")];
        w (["010"%char] ++ s "    ");
        k "div" [a "id" (s "list2"); a "class" (s "list2")] [
          w (["010"%char] ++ s "      ");
          k "div" [a "class" (s "item4")] [
            k "p" [] [
              t (s "Four")];
            w (s " ")];
          w (["010"%char] ++ s "      ");
          k "div" [a "class" (s "item5")] [
            k "p" [] [
              t (s "Five")];
            w (s " ")];
          w (["010"%char] ++ s "      ");
          k "div" [a "class" (s "item6")] [
            k "p" [] [
              t (s "Six")];
            w (s "  ")];
          w (["010"%char] ++ s "    ")];
        w (["010"%char] ++ s "  " ++ ["010"%char; "010"%char])]]]) 0
  (s "{""class"":[""item1"",""item2"",""item3""],""p"":[""One"",""Two"",""Three""]}" ++ ["010"%char] ++ s "{""class"":[""item4"",""item5"",""item6""],""p"":[""Four"",""Five"",""Six""]}" ++ ["010"%char]).
Proof. vm_compute. auto. Qed.

Example nested_rule_sibling : blackbox
  (s "<*>" ++ ["010"%char] ++ s "  <div/>" ++ ["010"%char] ++ s "  <div/>" ++ ["010"%char] ++ s "  <div/>" ++ ["010"%char] ++ s "  {" ++ ["010"%char] ++ s "    <p @text:p />" ++ ["010"%char] ++ s "  }" ++ ["010"%char] ++ s "</*>" ++ ["010"%char])
  (NDocument false [] [] [] [
    k "html" [] [
      implied "head" [];
      k "body" [] [
        w (["010"%char] ++ s "    ");
        k "div" [a "id" (s "list1"); a "class" (s "list1")] [
          w (["010"%char] ++ s "      ");
          k "div" [a "class" (s "item")] [
            k "p" [] [
              t (s "One")];
            w (s "  ")];
          w (["010"%char] ++ s "      ");
          k "div" [a "class" (s "item")] [
            k "p" [] [
              t (s "Two")];
            w (s "  ")];
          w (["010"%char] ++ s "      ");
          k "div" [a "class" (s "item")] [
            k "p" [] [
              t (s "Three")]];
          w (["010"%char] ++ s "    ")];
        w (["010"%char] ++ s "    ");
        k "div" [a "id" (s "list2"); a "class" (s "list2")] [
          w (["010"%char] ++ s "      ");
          k "div" [a "class" (s "item")] [
            k "p" [] [
              t (s "Four")];
            w (s " ")];
          w (["010"%char] ++ s "      ");
          k "div" [a "class" (s "item")] [
            k "p" [] [
              t (s "Five")];
            w (s " ")];
          w (["010"%char] ++ s "      ");
          k "div" [a "class" (s "item")] [
            k "p" [] [
              t (s "Six")];
            w (s "  ")];
          w (["010"%char] ++ s "    ")];
        w (["010"%char] ++ s "  " ++ ["010"%char; "010"%char])]]]) 0
  (s "{""p"":[""One"",""Two"",""Three""]}" ++ ["010"%char] ++ s "{""p"":[""Four"",""Five"",""Six""]}" ++ ["010"%char]).
Proof. vm_compute. auto. Qed.

Example nested_rule_simple_example : blackbox
  (s "<div class:class id>" ++ ["010"%char] ++ s "  {" ++ ["010"%char] ++ s "    <p @text:content />" ++ ["010"%char] ++ s "  }" ++ ["010"%char] ++ s "</div>" ++ ["010"%char])
  (NDocument false [] [] [] [
    k "html" [] [
      implied "head" [];
      k "body" [] [
        w (["010"%char] ++ s "    ");
        k "div" [a "id" (s "list1"); a "class" (s "list1")] [
          w (["010"%char] ++ s "      ");
          k "div" [a "class" (s "item")] [
            k "p" [] [
              t (s "One")];
            w (s "  ")];
          w (["010"%char] ++ s "      ");
          k "div" [a "class" (s "item")] [
            k "p" [] [
              t (s "Two")];
            w (s "  ")];
          w (["010"%char] ++ s "      ");
          k "div" [a "class" (s "item")] [
            k "p" [] [
              t (s "Three")]];
          w (["010"%char] ++ s "    ")];
        w (["010"%char] ++ s "    ");
        k "div" [a "id" (s "list2"); a "class" (s "list2")] [
          w (["010"%char] ++ s "      ");
          k "div" [a "class" (s "item")] [
            k "p" [] [
              t (s "Four")];
            w (s " ")];
          w (["010"%char] ++ s "      ");
          k "div" [a "class" (s "item")] [
            k "p" [] [
              t (s "Five")];
            w (s " ")];
          w (["010"%char] ++ s "      ");
          k "div" [a "class" (s "item")] [
            k "p" [] [
              t (s "Six")];
            w (s "  ")];
          w (["010"%char] ++ s "    ")];
        w (["010"%char] ++ s "  " ++ ["010"%char; "010"%char])]]]) 0
  (s "{""class"":""list1"",""content"":[""One"",""Two"",""Three""]}" ++ ["010"%char] ++ s "{""class"":""list2"",""content"":[""Four"",""Five"",""Six""]}" ++ ["010"%char]).
Proof. vm_compute. auto. Qed.

Example not_trait : blackbox
  (s "<*:not(:empty) class:class/>" ++ ["010"%char])
  (NDocument false [] [] [] [
    k "html" [] [
      implied "head" [];
      k "body" [] [
        w (["010"%char] ++ s "    ");
        k "div" [a "class" (s "non-empty1")] [
          w (["010"%char] ++ s "      ");
          k "div" [a "class" (s "empty1")] [];
          w (["010"%char] ++ s "      ");
          k "div" [a "class" (s "non-empty2")] [
            w (["010"%char] ++ s "        ");
            k "div" [a "class" (s "empty2")] [];
            w (["010"%char] ++ s "        ");
            k "div" [a "class" (s "empty3")] [];
            w (["010"%char] ++ s "      ")];
          w (["010"%char] ++ s "    ")];
        w (["010"%char] ++ s "  " ++ ["010"%char; "010"%char])]]]) 0
  (s "{""class"":""non-empty1""}" ++ ["010"%char] ++ s "{""class"":""non-empty2""}" ++ ["010"%char]).
Proof. vm_compute. auto. Qed.

Example nth_child : blackbox
  (s "<ul class:div>" ++ ["010"%char] ++ s "  <li:nth-child(3n+1) class:link/>" ++ ["010"%char] ++ s "</ul>" ++ ["010"%char; "010"%char])
  (NDocument false [] [] [] [
    k "html" [] [
      k "head" [] [
        w (["010"%char] ++ s "    ");
        k "style" [a "type" (s "text/css")] [
          t (["010"%char] ++ s "      ul {" ++ ["010"%char] ++ s "        list-style:numeric;" ++ ["010"%char] ++ s "      }" ++ ["010"%char] ++ s "      li:after {" ++ ["010"%char] ++ s "        content: ""node"";" ++ ["010"%char] ++ s "      }" ++ ["010"%char] ++ s "      li:nth-child(-2n+5) {" ++ ["010"%char] ++ s "        color:red;" ++ ["010"%char] ++ s "      }" ++ ["010"%char] ++ s "    ")];
        w (["010"%char] ++ s "  ")];
      w (["010"%char] ++ s "  ");
      k "body" [] [
        w (["010"%char] ++ s "    ");
        k "ul" [a "class" (s "anchor1 first")] [
          w (["010"%char] ++ s "      ");
          k "li" [a "class" (s "child1 first")] [];
          w (["010"%char] ++ s "      ");
          k "li" [a "class" (s "child2")] [];
          w (["010"%char] ++ s "      ");
          k "li" [a "class" (s "child3")] [];
          w (["010"%char] ++ s "      ");
          k "li" [a "class" (s "child4")] [];
          w (["010"%char] ++ s "      ");
          k "li" [a "class" (s "child5")] [];
          w (["010"%char] ++ s "      ");
          k "li" [a "class" (s "child6")] [];
          w (["010"%char] ++ s "      ");
          k "li" [a "class" (s "child7")] [];
          w (["010"%char] ++ s "      ");
          k "li" [a "class" (s "child8")] [];
          w (["010"%char] ++ s "      ");
          k "li" [a "class" (s "child9")] [];
          w (["010"%char] ++ s "      ");
          k "li" [a "class" (s "child10")] [];
          w (["010"%char] ++ s "      ");
          k "li" [a "class" (s "child11")] [];
          w (["010"%char] ++ s "      ");
          k "li" [a "class" (s "child12")] [];
          w (["010"%char] ++ s "      ");
          k "li" [a "class" (s "child13")] [];
          w (["010"%char] ++ s "      ");
          k "li" [a "class" (s "child14 last")] [];
          w (["010"%char] ++ s "    ")];
        w (["010"%char] ++ s "    ");
        k "ul" [a "class" (s "anchor2")] [
          w (["010"%char] ++ s "      ");
          k "li" [a "class" (s "child1 first")] [];
          w (["010"%char] ++ s "      ");
          k "li" [a "class" (s "child2")] [];
          w (["010"%char] ++ s "      ");
          k "li" [a "class" (s "child3")] [];
          w (["010"%char] ++ s "      ");
          k "li" [a "class" (s "child4")] [];
          w (["010"%char] ++ s "      ");
          k "li" [a "class" (s "child5")] [];
          w (["010"%char] ++ s "      ");
          k "li" [a "class" (s "child6")] [];
          w (["010"%char] ++ s "      ");
          k "li" [a "class" (s "child7")] [];
          w (["010"%char] ++ s "      ");
          k "li" [a "class" (s "child8")] [];
          w (["010"%char] ++ s "      ");
          k "li" [a "class" (s "child9")] [];
          w (["010"%char] ++ s "      ");
          k "li" [a "class" (s "child10")] [];
          w (["010"%char] ++ s "      ");
          k "li" [a "class" (s "child11")] [];
          w (["010"%char] ++ s "      ");
          k "li" [a "class" (s "child12")] [];
          w (["010"%char] ++ s "      ");
          k "li" [a "class" (s "child13")] [];
          w (["010"%char] ++ s "      ");
          k "li" [a "class" (s "child14 last")] [];
          w (["010"%char] ++ s "    ")];
        w (["010"%char] ++ s "    ");
        k "ul" [a "class" (s "anchor3")] [
          w (["010"%char] ++ s "      ");
          k "li" [a "class" (s "child1 first")] [];
          w (["010"%char] ++ s "      ");
          k "li" [a "class" (s "child2")] [];
          w (["010"%char] ++ s "      ");
          k "li" [a "class" (s "child3")] [];
          w (["010"%char] ++ s "      ");
          k "li" [a "class" (s "child4")] [];
          w (["010"%char] ++ s "      ");
          k "li" [a "class" (s "child5")] [];
          w (["010"%char] ++ s "      ");
          k "li" [a "class" (s "child6")] [];
          w (["010"%char] ++ s "      ");
          k "li" [a "class" (s "child7")] [];
          w (["010"%char] ++ s "      ");
          k "li" [a "class" (s "child8")] [];
          w (["010"%char] ++ s "      ");
          k "li" [a "class" (s "child9")] [];
          w (["010"%char] ++ s "      ");
          k "li" [a "class" (s "child10")] [];
          w (["010"%char] ++ s "      ");
          k "li" [a "class" (s "child11")] [];
          w (["010"%char] ++ s "      ");
          k "li" [a "class" (s "child12")] [];
          w (["010"%char] ++ s "      ");
          k "li" [a "class" (s "child13")] [];
          w (["010"%char] ++ s "      ");
          k "li" [a "class" (s "child14 last")] [];
          w (["010"%char] ++ s "    ")];
        w (["010"%char] ++ s "    ");
        k "ul" [a "class" (s "anchor4")] [
          w (["010"%char] ++ s "      ");
          k "li" [a "class" (s "child1 first")] [];
          w (["010"%char] ++ s "      ");
          k "li" [a "class" (s "child2")] [];
          w (["010"%char] ++ s "      ");
          k "li" [a "class" (s "child3")] [];
          w (["010"%char] ++ s "      ");
          k "li" [a "class" (s "child4")] [];
          w (["010"%char] ++ s "      ");
          k "li" [a "class" (s "child5")] [];
          w (["010"%char] ++ s "      ");
          k "li" [a "class" (s "child6")] [];
          w (["010"%char] ++ s "      ");
          k "li" [a "class" (s "child7")] [];
          w (["010"%char] ++ s "      ");
          k "li" [a "class" (s "child8")] [];
          w (["010"%char] ++ s "      ");
          k "li" [a "class" (s "child9")] [];
          w (["010"%char] ++ s "      ");
          k "li" [a "class" (s "child10")] [];
          w (["010"%char] ++ s "      ");
          k "li" [a "class" (s "child11")] [];
          w (["010"%char] ++ s "      ");
          k "li" [a "class" (s "child12")] [];
          w (["010"%char] ++ s "      ");
          k "li" [a "class" (s "child13")] [];
          w (["010"%char] ++ s "      ");
          k "li" [a "class" (s "child14 last")] [];
          w (["010"%char] ++ s "    ")];
        w (["010"%char] ++ s "    ");
        k "ul" [a "class" (s "anchor5")] [
          w (["010"%char] ++ s "      ");
          k "li" [a "class" (s "child1 first")] [];
          w (["010"%char] ++ s "      ");
          k "li" [a "class" (s "child2")] [];
          w (["010"%char] ++ s "      ");
          k "li" [a "class" (s "child3")] [];
          w (["010"%char] ++ s "      ");
          k "li" [a "class" (s "child4")] [];
          w (["010"%char] ++ s "      ");
          k "li" [a "class" (s "child5")] [];
          w (["010"%char] ++ s "      ");
          k "li" [a "class" (s "child6")] [];
          w (["010"%char] ++ s "      ");
          k "li" [a "class" (s "child7")] [];
          w (["010"%char] ++ s "      ");
          k "li" [a "class" (s "child8")] [];
          w (["010"%char] ++ s "      ");
          k "li" [a "class" (s "child9")] [];
          w (["010"%char] ++ s "      ");
          k "li" [a "class" (s "child10")] [];
          w (["010"%char] ++ s "      ");
          k "li" [a "class" (s "child11")] [];
          w (["010"%char] ++ s "      ");
          k "li" [a "class" (s "child12")] [];
          w (["010"%char] ++ s "      ");
          k "li" [a "class" (s "child13")] [];
          w (["010"%char] ++ s "      ");
          k "li" [a "class" (s "child14 last")] [];
          w (["010"%char] ++ s "    ")];
        w (["010"%char] ++ s "    ");
        k "ul" [a "class" (s "anchor6")] [
          w (["010"%char] ++ s "      ");
          k "li" [a "class" (s "child1 first")] [];
          w (["010"%char] ++ s "      ");
          k "li" [a "class" (s "child2")] [];
          w (["010"%char] ++ s "      ");
          k "li" [a "class" (s "child3")] [];
          w (["010"%char] ++ s "      ");
          k "li" [a "class" (s "child4")] [];
          w (["010"%char] ++ s "      ");
          k "li" [a "class" (s "child5")] [];
          w (["010"%char] ++ s "      ");
          k "li" [a "class" (s "child6")] [];
          w (["010"%char] ++ s "      ");
          k "li" [a "class" (s "child7")] [];
          w (["010"%char] ++ s "      ");
          k "li" [a "class" (s "child8")] [];
          w (["010"%char] ++ s "      ");
          k "li" [a "class" (s "child9")] [];
          w (["010"%char] ++ s "      ");
          k "li" [a "class" (s "child10")] [];
          w (["010"%char] ++ s "      ");
          k "li" [a "class" (s "child11")] [];
          w (["010"%char] ++ s "      ");
          k "li" [a "class" (s "child12")] [];
          w (["010"%char] ++ s "      ");
          k "li" [a "class" (s "child13")] [];
          w (["010"%char] ++ s "      ");
          k "li" [a "class" (s "child14 last")] [];
          w (["010"%char] ++ s "    ")];
        w (["010"%char] ++ s "    ");
        k "ul" [a "class" (s "anchor7 last")] [
          w (["010"%char] ++ s "      ");
          k "li" [a "class" (s "child1 first")] [];
          w (["010"%char] ++ s "      ");
          k "li" [a "class" (s "child2")] [];
          w (["010"%char] ++ s "      ");
          k "li" [a "class" (s "child3")] [];
          w (["010"%char] ++ s "      ");
          k "li" [a "class" (s "child4")] [];
          w (["010"%char] ++ s "      ");
          k "li" [a "class" (s "child5")] [];
          w (["010"%char] ++ s "      ");
          k "li" [a "class" (s "child6")] [];
          w (["010"%char] ++ s "      ");
          k "li" [a "class" (s "child7")] [];
          w (["010"%char] ++ s "      ");
          k "li" [a "class" (s "child8")] [];
          w (["010"%char] ++ s "      ");
          k "li" [a "class" (s "child9")] [];
          w (["010"%char] ++ s "      ");
          k "li" [a "class" (s "child10")] [];
          w (["010"%char] ++ s "      ");
          k "li" [a "class" (s "child11")] [];
          w (["010"%char] ++ s "      ");
          k "li" [a "class" (s "child12")] [];
          w (["010"%char] ++ s "      ");
          k "li" [a "class" (s "child13")] [];
          w (["010"%char] ++ s "      ");
          k "li" [a "class" (s "child14 last")] [];
          w (["010"%char] ++ s "    ")];
        w (["010"%char] ++ s "  " ++ ["010"%char; "010"%char])]]]) 0
  (s "{""div"":""anchor1 first"",""link"":[""child1 first"",""child4"",""child7"",""child10"",""child13""]}" ++ ["010"%char] ++ s "{""div"":""anchor2"",""link"":[""child1 first"",""child4"",""child7"",""child10"",""child13""]}" ++ ["010"%char] ++ s "{""div"":""anchor3"",""link"":[""child1 first"",""child4"",""child7"",""child10"",""child13""]}" ++ ["010"%char] ++ s "{""div"":""anchor4"",""link"":[""child1 first"",""child4"",""child7"",""child10"",""child13""]}" ++ ["010"%char] ++ s "{""div"":""anchor5"",""link"":[""child1 first"",""child4"",""child7"",""child10"",""child13""]}" ++ ["010"%char] ++ s "{""div"":""anchor6"",""link"":[""child1 first"",""child4"",""child7"",""child10"",""child13""]}" ++ ["010"%char] ++ s "{""div"":""anchor7 last"",""link"":[""child1 first"",""child4"",""child7"",""child10"",""child13""]}" ++ ["010"%char]).
Proof. vm_compute. auto. Qed.

Example only_child : blackbox
  (s "<*:only-child class:class/>" ++ ["010"%char])
  (NDocument false [] [] [] [
    implied "html" [
      implied "head" [];
      implied "body" [
        k "div" [a "class" (s "only-child div")] [
          w (["010"%char] ++ s "  ");
          k "div" [a "class" (s "nope1")] [];
          w (["010"%char] ++ s "  ");
          k "div" [a "class" (s "nope2")] [];
          w (["010"%char] ++ s "  ");
          k "div" [a "class" (s "nope3")] [
            w (["010"%char] ++ s "    ");
            k "span" [a "class" (s "only-child span")] [];
            w (["010"%char] ++ s "  ")];
          w ["010"%char]];
        w ["010"%char]]]]) 0
  (s "{""class"":""only-child div""}" ++ ["010"%char] ++ s "{""class"":""only-child span""}" ++ ["010"%char]).
Proof. vm_compute. auto. Qed.

Example opt_opt_opt_man_nested : blackbox
  (s "<?a>" ++ ["010"%char] ++ s "  <?span class:first_opt_span>" ++ ["010"%char] ++ s "    <?span class:secnd_opt_span>" ++ ["010"%char] ++ s "      <span class:trd_manda_span />" ++ ["010"%char] ++ s "    </span>" ++ ["010"%char] ++ s "  </span>" ++ ["010"%char] ++ s "</a>" ++ ["010"%char])
  (NDocument false [] [] [] [
    implied "html" [
      implied "head" [];
      implied "body" [
        k "a" [a "href" []] [
          w (["010"%char] ++ s "  ");
          k "span" [a "class" (s "-span1")] [
            w (["010"%char] ++ s "    ");
            k "span" [a "class" (s "--span1")] [
              w (["010"%char] ++ s "      ");
              k "span" [a "class" (s "---span1")] [];
              w (["010"%char] ++ s "      ")]]];
        k "a" [a "href" []] [
          w (["010"%char] ++ s "        ");
          k "span" [a "class" (s "-span1")] [
            w (["010"%char] ++ s "          ");
            k "span" [a "class" (s "--span1")] [
              w (["010"%char] ++ s "            ");
              k "span" [a "class" (s "---span1")] [];
              w (["010"%char] ++ s "          ")];
            w (["010"%char] ++ s "          ");
            k "span" [a "class" (s "--span2 NOPE")] [
              w (["010"%char] ++ s "            ");
              k "b" [] [
                t (s "nope")];
              w (["010"%char] ++ s "          ")];
            w (["010"%char] ++ s "        ")];
          w (["010"%char] ++ s "      ")];
        w (["010"%char] ++ s "    " ++ ["010"%char] ++ s "    ");
        k "span" [a "class" (s "--span2 NOPE")] [
          w (["010"%char] ++ s "      ");
          k "b" [] [
            t (s "nope")];
          w (["010"%char] ++ s "    ")];
        w (["010"%char] ++ s "    ");
        k "a" [a "href" []] [
          w (["010"%char] ++ s "      ");
          k "span" [a "class" (s "-span1")] [
            w (["010"%char] ++ s "        ");
            k "span" [a "class" (s "--span1")] [
              w (["010"%char] ++ s "          ");
              k "span" [a "class" (s "---span1")] [];
              w (["010"%char] ++ s "          ")]]];
        k "a" [a "href" []] [
          w (["010"%char] ++ s "            ");
          k "span" [a "class" (s "-span1")] [
            w (["010"%char] ++ s "              ");
            k "span" [a "class" (s "--span1")] [
              w (["010"%char] ++ s "                ");
              k "span" [a "class" (s "---span1")] [];
              w (["010"%char] ++ s "              ")];
            w (["010"%char] ++ s "              ");
            k "span" [a "class" (s "--span2 NOPE")] [
              w (["010"%char] ++ s "                ");
              k "b" [] [
                t (s "nope")];
              w (["010"%char] ++ s "              ")];
            w (["010"%char] ++ s "            ")];
          w (["010"%char] ++ s "          ")];
        w (["010"%char] ++ s "        " ++ ["010"%char] ++ s "        ");
        k "span" [a "class" (s "--span2 NOPE")] [
          w (["010"%char] ++ s "          ");
          k "a" [a "href" []] [
            w (["010"%char] ++ s "            ");
            k "span" [a "class" (s "-span1")] [
              w (["010"%char] ++ s "              ");
              k "span" [a "class" (s "--span1")] [
                w (["010"%char] ++ s "                ");
                k "span" [a "class" (s "---span1")] [];
                w (["010"%char] ++ s "              ")];
              w (["010"%char] ++ s "              ");
              k "span" [a "class" (s "--span2 NOPE")] [
                w (["010"%char] ++ s "                ");
                k "b" [] [
                  t (s "nope")];
                w (["010"%char] ++ s "              ")];
              w (["010"%char] ++ s "            ")];
            w (["010"%char] ++ s "          ")];
          w (["010"%char] ++ s "          ");
          k "b" [] [
            t (s "nope")];
          w (["010"%char] ++ s "          ");
          k "a" [a "href" []] [
            w (["010"%char] ++ s "            ");
            k "span" [a "class" (s "-span1")] [
              w (["010"%char] ++ s "              ");
              k "span" [a "class" (s "--span1")] [
                w (["010"%char] ++ s "                ");
                k "span" [a "class" (s "---span1")] [];
                w (["010"%char] ++ s "              ")];
              w (["010"%char] ++ s "              ");
              k "span" [a "class" (s "--span2 NOPE")] [
                w (["010"%char] ++ s "                ");
                k "b" [] [
                  t (s "nope")];
                w (["010"%char] ++ s "              ")];
              w (["010"%char] ++ s "            ")];
            w (["010"%char] ++ s "          ")];
          w (["010"%char] ++ s "        ")];
        w (["010"%char] ++ s "      " ++ ["010"%char] ++ s "    " ++ ["010"%char] ++ s "  " ++ ["010"%char; "010"%char])]]]) 0
  (s "{""first_opt_span"":""-span1"",""secnd_opt_span"":""--span1"",""trd_manda_span"":""---span1""}" ++ ["010"%char] ++ s "{""first_opt_span"":""-span1"",""secnd_opt_span"":""--span1"",""trd_manda_span"":""---span1""}" ++ ["010"%char] ++ s "{""first_opt_span"":""-span1"",""secnd_opt_span"":""--span1"",""trd_manda_span"":""---span1""}" ++ ["010"%char] ++ s "{""first_opt_span"":""-span1"",""secnd_opt_span"":""--span1"",""trd_manda_span"":""---span1""}" ++ ["010"%char] ++ s "{""first_opt_span"":""-span1"",""secnd_opt_span"":""--span1"",""trd_manda_span"":""---span1""}" ++ ["010"%char] ++ s "{""first_opt_span"":""-span1"",""secnd_opt_span"":""--span1"",""trd_manda_span"":""---span1""}" ++ ["010"%char]).
Proof. vm_compute. auto. Qed.

Example optdiv_div_greedyul_li_li_optdiv : blackbox
  (s "<?div class:c />" ++ ["010"%char] ++ s "<div class:c >" ++ ["010"%char] ++ s "  <+ul class:c >" ++ ["010"%char] ++ s "    <li class:c />" ++ ["010"%char] ++ s "    <li class:c />" ++ ["010"%char] ++ s "  </ul>" ++ ["010"%char] ++ s "</div>" ++ ["010"%char] ++ s "<?div class:c />" ++ ["010"%char])
  (NDocument false [] [] [] [
    implied "html" [
      implied "head" [];
      implied "body" [
        k "div" [a "class" (s "1")] [
          w (s " " ++ ["010"%char] ++ s "  ");
          k "div" [a "class" (s "2")] [
            k "ul" [a "class" (s "3")] [
              k "li" [a "class" (s "4")] [];
              k "li" [a "class" (s "5")] []]];
          w (["010"%char] ++ s "  ");
          k "div" [a "class" (s "6")] [
            k "ul" [a "class" (s "7")] [
              k "li" [a "class" (s "8")] [];
              k "li" [a "class" (s "9")] []]];
          w ["010"%char]];
        w (s " " ++ ["010"%char]);
        k "div" [a "class" (s "10")] [
          w (s " " ++ ["010"%char] ++ s "  ");
          k "div" [a "class" (s "11")] [
            k "ul" [a "class" (s "12")] [
              k "li" [a "class" (s "13")] [];
              k "li" [a "class" (s "14")] []]];
          w (["010"%char] ++ s "  ");
          k "div" [a "class" (s "15")] [
            k "ul" [a "class" (s "16")] [
              k "li" [a "class" (s "17")] [];
              k "li" [a "class" (s "18")] []]];
          w ["010"%char]];
        w (s " " ++ ["010"%char]);
        k "div" [a "class" (s "19")] [
          w (s " " ++ ["010"%char] ++ s "  ");
          k "div" [a "class" (s "20")] [
            k "ul" [a "class" (s "21")] [
              k "li" [a "class" (s "22")] [];
              k "li" [a "class" (s "23")] []]];
          w (["010"%char] ++ s "  ");
          k "div" [a "class" (s "24")] [
            w (s " " ++ ["010"%char] ++ s "    ");
            k "ul" [a "class" (s "25")] [
              w (s " " ++ ["010"%char] ++ s "      ");
              k "li" [a "class" (s "26")] [];
              w (s " " ++ ["010"%char] ++ s "      ");
              k "li" [a "class" (s "27")] [];
              w (s " " ++ ["010"%char] ++ s "    ")];
            w (s " " ++ ["010"%char] ++ s "    ");
            k "div" [a "class" (s "28")] [
              k "ul" [a "class" (s "29")] [
                k "li" [a "class" (s "30")] [];
                k "li" [a "class" (s "31")] []]];
            w (["010"%char] ++ s "  ")];
          w ["010"%char]];
        w ["010"%char]]]]) 0
  (s "{""c"":[""4"",""5"",""3"",""2""]}" ++ ["010"%char] ++ s "{""c"":[""8"",""9"",""7"",""6""]}" ++ ["010"%char] ++ s "{""c"":[""13"",""14"",""12"",""11""]}" ++ ["010"%char] ++ s "{""c"":[""17"",""18"",""16"",""15""]}" ++ ["010"%char] ++ s "{""c"":[""22"",""23"",""21"",""20""]}" ++ ["010"%char] ++ s "{""c"":[""26"",""27"",""25"",""24""]}" ++ ["010"%char] ++ s "{""c"":[""30"",""31"",""29"",""28""]}" ++ ["010"%char]).
Proof. vm_compute. auto. Qed.

Example optional_child_mandatory_grand_child : blackbox
  (s "<a @text:no_span>" ++ ["010"%char] ++ s "  <?p @text:nope>" ++ ["010"%char] ++ s "    <span />" ++ ["010"%char] ++ s "  </p>" ++ ["010"%char] ++ s "</a>" ++ ["010"%char])
  (NDocument false [] [] [] [
    implied "html" [
      implied "head" [];
      implied "body" [
        k "a" [a "href" (s "href")] [
          k "img" [a "src" (s "src")] [];
          k "p" [] [
            t (s "no ");
            k "b" [] [
              t (s "span")]]];
        w ["010"%char]]]]) 0
  (s "{""no_span"":""no span""}" ++ ["010"%char]).
Proof. vm_compute. auto. Qed.

Example optional_grand_child : blackbox
  (s "<div @text:no_span>" ++ ["010"%char] ++ s "  <p>" ++ ["010"%char] ++ s "    <?span />" ++ ["010"%char] ++ s "  </p>" ++ ["010"%char] ++ s "</div>" ++ ["010"%char])
  (NDocument false [] [] [] [
    k "html" [] [
      k "head" [] [];
      w (["010"%char] ++ s "  ");
      k "body" [] [
        w (["010"%char] ++ s "  ");
        k "div" [] [
          w (["010"%char] ++ s "    ");
          k "img" [a "src" (s "src")] [];
          w (["010"%char] ++ s "    ");
          k "p" [] [
            t (s "no ");
            k "b" [] [
              t (s "span")]];
          w (["010"%char] ++ s "  ")];
        w (["010"%char] ++ s "  " ++ ["010"%char; "010"%char])]]]) 0
  (s "{""no_span"":""no span""}" ++ ["010"%char]).
Proof. vm_compute. auto. Qed.

Example optional_greedy_any_match : blackbox
  (s "<?+* @inner-html:x @inner-html==""""! />" ++ ["010"%char])
  (NDocument true (s "html") [] [] [
    k "html" [a "lang" (s "en")] [
      k "head" [] [
        w (["010"%char] ++ s "    ");
        k "meta" [a "charset" (s "utf-8")] [];
        w (["010"%char] ++ s "    ");
        k "title" [] [
          t (s "Example")];
        w (["010"%char] ++ s "  ")];
      w (["010"%char] ++ s "  ");
      k "body" [] [
        w (["010"%char] ++ s "    ");
        k "a" [a "href" (s "one.html")] [
          t (s "  Page 1")];
        w (["010"%char] ++ s "    ");
        k "a" [a "href" (s "two.html")] [
          t (s "  Page 2")];
        w (["010"%char] ++ s "    ");
        k "a" [a "href" (s "three.html")] [
          t (s "Page 3")];
        w (["010"%char] ++ s "  " ++ ["010"%char])]]]) 0
  (s "{""x"":""<head>\n    <meta charset=\""utf-8\""/>\n    <title>Example</title>\n  </head>\n  <body>\n    <a href=\""one.html\"">  Page 1</a>\n    <a href=\""two.html\"">  Page 2</a>\n    <a href=\""three.html\"">Page 3</a>\n  \n</body>""}" ++ ["010"%char] ++ s "{""x"":[""\n    <meta charset=\""utf-8\""/>\n    <title>Example</title>\n  "",""\n    <a href=\""one.html\"">  Page 1</a>\n    <a href=\""two.html\"">  Page 2</a>\n    <a href=\""three.html\"">Page 3</a>\n  \n""]}" ++ ["010"%char] ++ s "{""x"":""Example""}" ++ ["010"%char] ++ s "{""x"":[""  Page 1"",""  Page 2"",""Page 3""]}" ++ ["010"%char]).
Proof. vm_compute. auto. Qed.

Example page_attr_optional : blackbox
  (s "<a href:link name:anchor? />" ++ ["010"%char])
  (NDocument false [] [] [] [
    implied "html" [
      implied "head" [];
      implied "body" [
        k "a" [a "href" (s "link1"); a "name" (s "anchor1")] [];
        w ["010"%char];
        k "a" [a "href" (s "link2")] [];
        w ["010"%char];
        k "a" [a "href" (s "link3"); a "name" (s "anchor3")] [];
        w ["010"%char];
        k "a" [a "href" (s "link4"); a "name" []] [];
        w ["010"%char];
        k "a" [a "name" (s "anchor5 no")] [];
        w ["010"%char]]]]) 0
  (s "{""anchor"":""anchor1"",""link"":""link1""}" ++ ["010"%char] ++ s "{""link"":""link2""}" ++ ["010"%char] ++ s "{""anchor"":""anchor3"",""link"":""link3""}" ++ ["010"%char] ++ s "{""anchor"":"""",""link"":""link4""}" ++ ["010"%char]).
Proof. vm_compute. auto. Qed.

Example page_bf_heading : blackbox
  (s "<h1 @text^=""News: "" class:class />" ++ ["010"%char])
  (NDocument false [] [] [] [
    implied "html" [
      implied "head" [];
      implied "body" [
        k "h1" [a "class" (s "yes")] [
          t (["010"%char] ++ s "  News: asd" ++ ["010"%char])];
        w ["010"%char];
        k "h1" [a "class" (s "no")] [
          t (["010"%char] ++ s "  news: asd" ++ ["010"%char])];
        w ["010"%char]]]]) 0
  (s "{""class"":""yes""}" ++ ["010"%char]).
Proof. vm_compute. auto. Qed.

Example page_bf_heading_ci_rx : blackbox
  (s "<h1 @text=~/section \d+.\d+/i class:class />" ++ ["010"%char])
  (NDocument false [] [] [] [
    implied "html" [
      implied "head" [];
      implied "body" [
        k "h1" [a "class" (s "yes1")] [
          t (["010"%char] ++ s "  Section 1.1" ++ ["010"%char])];
        w ["010"%char];
        k "h1" [a "class" (s "yes2")] [
          t (["010"%char] ++ s "  section 13.13" ++ ["010"%char])];
        w ["010"%char];
        k "h1" [a "class" (s "no1")] [
          t (["010"%char] ++ s "  section a.a" ++ ["010"%char])];
        w ["010"%char];
        k "h1" [a "class" (s "no2")] [
          t (["010"%char] ++ s "  section" ++ ["010"%char])];
        w ["010"%char]]]]) 0
  (s "{""class"":""yes1""}" ++ ["010"%char] ++ s "{""class"":""yes2""}" ++ ["010"%char]).
Proof. vm_compute. auto. Qed.

Example page_filter_phone : blackbox
  (s "<div @text:filter(/Phone: ([0-9]+)/):phone_nr />" ++ ["010"%char])
  (NDocument false [] [] [] [
    implied "html" [
      implied "head" [];
      implied "body" [
        k "div" [] [
          t (["010"%char] ++ s "  Phone: 012345689" ++ ["010"%char])];
        w ["010"%char];
        k "div" [] [
          t (["010"%char] ++ s "  Phone: 0" ++ ["010"%char])];
        w ["010"%char];
        k "div" [] [
          w ["010"%char]];
        w ["010"%char]]]]) 0
  (s "{""phone_nr"":""012345689""}" ++ ["010"%char] ++ s "{""phone_nr"":""0""}" ++ ["010"%char] ++ s "{""phone_nr"":""""}" ++ ["010"%char]).
Proof. vm_compute. auto. Qed.

Example page_has_attr : blackbox
  (s "<a href class:class />" ++ ["010"%char])
  (NDocument false [] [] [] [
    implied "html" [
      implied "head" [];
      implied "body" [
        k "a" [a "href" []; a "class" (s "yes1")] [];
        w ["010"%char];
        k "a" [a "href" (s "#a"); a "class" (s "yes2")] [];
        w ["010"%char];
        k "a" [a "class" (s "no")] [];
        w ["010"%char]]]]) 0
  (s "{""class"":""yes1""}" ++ ["010"%char] ++ s "{""class"":""yes2""}" ++ ["010"%char]).
Proof. vm_compute. auto. Qed.

Example page_match_h1_time_p : blackbox
  (s "<h1 class:h1_class />" ++ ["010"%char] ++ s "<?time class:time_class />" ++ ["010"%char] ++ s "<p class:p_class />" ++ ["010"%char])
  (NDocument false [] [] [] [
    implied "html" [
      implied "head" [];
      implied "body" [
        k "div" [] [
          w (["010"%char] ++ s "  ");
          k "h1" [a "class" (s "heading1")] [
            t (s "a")];
          w (["010"%char] ++ s "  ");
          k "time" [a "class" (s "time1")] [
            t (s "a")];
          w (["010"%char] ++ s "  ");
          k "p" [a "class" (s "p1")] [
            t (s "a")];
          w (["010"%char] ++ s "  ");
          k "h1" [a "class" (s "heading2")] [
            t (s "a")];
          w (["010"%char] ++ s "  ");
          k "time" [a "class" (s "time2")] [
            t (s "a")];
          w (["010"%char] ++ s "  ");
          k "p" [a "class" (s "p2")] [
            t (s "a")];
          w (["010"%char] ++ s "  ");
          k "h1" [a "class" (s "heading3")] [
            t (s "a")];
          w (["010"%char] ++ s "  ");
          k "time" [a "class" (s "time3")] [
            t (s "a")];
          w (["010"%char] ++ s "  ");
          k "p" [a "class" (s "p3")] [
            t (s "a")];
          w (["010"%char] ++ s "  ");
          k "h1" [a "class" (s "heading4")] [
            t (s "a")];
          w (["010"%char] ++ s "  ");
          k "p" [a "class" (s "p4")] [
            t (s "a")];
          w (["010"%char] ++ s "  ");
          k "h1" [a "class" (s "heading5")] [
            t (s "a")];
          w (["010"%char] ++ s "  ");
          k "time" [a "class" (s "time5")] [
            t (s "a")];
          w (["010"%char] ++ s "  ");
          k "p" [a "class" (s "p5")] [
            t (s "a")];
          w ["010"%char]];
        w ["010"%char]]]]) 0
  (s "{""h1_class"":""heading1"",""p_class"":""p1"",""time_class"":""time1""}" ++ ["010"%char] ++ s "{""h1_class"":""heading2"",""p_class"":""p2"",""time_class"":""time2""}" ++ ["010"%char] ++ s "{""h1_class"":""heading3"",""p_class"":""p3"",""time_class"":""time3""}" ++ ["010"%char] ++ s "{""h1_class"":""heading4"",""p_class"":""p4""}" ++ ["010"%char] ++ s "{""h1_class"":""heading5"",""p_class"":""p5"",""time_class"":""time5""}" ++ ["010"%char]).
Proof. vm_compute. auto. Qed.

Example page_match_trail_number : blackbox
  (s "<a href=~/post-\d+/ class:class />" ++ ["010"%char])
  (NDocument false [] [] [] [
    implied "html" [
      implied "head" [];
      implied "body" [
        k "a" [a "href" (s "post-1"); a "class" (s "yes1")] [];
        w ["010"%char];
        k "a" [a "href" (s "post-99"); a "class" (s "yes2")] [];
        w ["010"%char];
        k "a" [a "href" (s "outpost-23"); a "class" (s "yes3")] [];
        w ["010"%char];
        k "a" [a "href" (s "outpost-23/a"); a "class" (s "yes4")] [];
        w ["010"%char];
        k "a" [a "href" (s "post-a"); a "class" (s "no1")] [];
        w ["010"%char];
        k "a" [a "href" (s "post-"); a "class" (s "no2")] [];
        w ["010"%char];
        k "a" [a "href" []; a "class" (s "no3")] [];
        w ["010"%char];
        k "a" [a "class" (s "no4")] [];
        w ["010"%char]]]]) 0
  (s "{""class"":""yes1""}" ++ ["010"%char] ++ s "{""class"":""yes2""}" ++ ["010"%char] ++ s "{""class"":""yes3""}" ++ ["010"%char] ++ s "{""class"":""yes4""}" ++ ["010"%char]).
Proof. vm_compute. auto. Qed.

Example page_negate_has_attr : blackbox
  (s "<a href! class:class />" ++ ["010"%char])
  (NDocument false [] [] [] [
    implied "html" [
      implied "head" [];
      implied "body" [
        k "a" [a "href" []; a "class" (s "no1")] [];
        w ["010"%char];
        k "a" [a "href" (s "#a"); a "class" (s "no2")] [];
        w ["010"%char];
        k "a" [a "class" (s "yes")] [];
        w ["010"%char]]]]) 0
  (s "{""class"":""yes""}" ++ ["010"%char]).
Proof. vm_compute. auto. Qed.

Example page_negate_match : blackbox
  (s "<a href^=""https:""! class:class />" ++ ["010"%char])
  (NDocument false [] [] [] [
    implied "html" [
      implied "head" [];
      implied "body" [
        k "a" [a "class" (s "yes1")] [];
        w ["010"%char];
        k "a" [a "href" []; a "class" (s "yes2")] [];
        w ["010"%char];
        k "a" [a "href" (s "#a"); a "class" (s "yes5")] [];
        w ["010"%char];
        k "a" [a "href" (s "http"); a "class" (s "yes3")] [];
        w ["010"%char];
        k "a" [a "href" (s "https"); a "class" (s "yes4")] [];
        w ["010"%char];
        k "a" [a "href" (s "https:"); a "class" (s "no1")] [];
        w ["010"%char];
        k "a" [a "href" (s "https://asd"); a "class" (s "no2")] [];
        w ["010"%char]]]]) 0
  (s "{""class"":""yes1""}" ++ ["010"%char] ++ s "{""class"":""yes2""}" ++ ["010"%char] ++ s "{""class"":""yes3""}" ++ ["010"%char] ++ s "{""class"":""yes4""}" ++ ["010"%char] ++ s "{""class"":""yes5""}" ++ ["010"%char]).
Proof. vm_compute. auto. Qed.

Example page_rule_children : blackbox
  (s "<a class:class>" ++ ["010"%char] ++ s "  <img/>" ++ ["010"%char] ++ s "</a>" ++ ["010"%char])
  (NDocument false [] [] [] [
    implied "html" [
      implied "head" [];
      implied "body" [
        k "a" [a "class" (s "yes1")] [
          w (["010"%char] ++ s "  ");
          k "img" [] [];
          w ["010"%char]];
        w ["010"%char];
        k "a" [a "class" (s "yes2")] [
          t (["010"%char] ++ s "  Text" ++ ["010"%char] ++ s "  ");
          k "p" [] [];
          w (["010"%char] ++ s "  ");
          k "img" [] [];
          t (["010"%char] ++ s "  Text" ++ ["010"%char] ++ s "  ");
          k "p" [] [];
          w ["010"%char]];
        w ["010"%char];
        k "a" [a "class" (s "no1")] [
          w ["010"%char]];
        w ["010"%char]]]]) 0
  (s "{""class"":""yes1""}" ++ ["010"%char] ++ s "{""class"":""yes2""}" ++ ["010"%char]).
Proof. vm_compute. auto. Qed.

Example page_rule_children_two : blackbox
  (s "<div class:class>" ++ ["010"%char] ++ s "  <span>" ++ ["010"%char] ++ s "    <img />" ++ ["010"%char] ++ s "  </span>" ++ ["010"%char] ++ s "</div>" ++ ["010"%char])
  (NDocument false [] [] [] [
    implied "html" [
      implied "head" [];
      implied "body" [
        k "div" [a "class" (s "yes1")] [
          w (["010"%char] ++ s "  ");
          k "span" [] [
            w (["010"%char] ++ s "    ");
            k "img" [] [];
            w (["010"%char] ++ s "  ")];
          w ["010"%char]];
        w ["010"%char];
        k "div" [a "class" (s "yes2")] [
          w (["010"%char] ++ s "  ");
          k "span" [] [
            w (["010"%char] ++ s "    ");
            k "img" [] [];
            w (["010"%char] ++ s "  ")];
          w (["010"%char] ++ s "  ");
          k "span" [] [
            w (["010"%char] ++ s "    ");
            k "img" [] [];
            w (["010"%char] ++ s "  ")];
          w ["010"%char]];
        w ["010"%char];
        k "div" [a "class" (s "no1")] [
          w ["010"%char]];
        w ["010"%char];
        k "div" [a "class" (s "no2")] [
          w (["010"%char] ++ s "  ");
          k "span" [] [];
          w ["010"%char]];
        w ["010"%char];
        k "div" [a "class" (s "no3")] [
          w (["010"%char] ++ s "  ");
          k "span" [] [
            w (["010"%char] ++ s "    ");
            k "span" [] [
              k "img" [] []];
            w (["010"%char] ++ s "  ")];
          w ["010"%char]];
        w ["010"%char];
        k "div" [a "class" (s "no4")] [
          w (["010"%char] ++ s "  ");
          k "a" [] [
            w (["010"%char] ++ s "    ");
            k "img" [] [];
            w (["010"%char] ++ s "  ")];
          w ["010"%char]];
        w ["010"%char];
        k "div" [a "class" (s "no5")] [
          w (["010"%char] ++ s "  ");
          k "span" [] [
            w (["010"%char] ++ s "    ");
            k "span" [] [];
            w (["010"%char] ++ s "  ")];
          w ["010"%char]];
        w ["010"%char]]]]) 0
  (s "{""class"":""yes1""}" ++ ["010"%char] ++ s "{""class"":""yes2""}" ++ ["010"%char]).
Proof. vm_compute. auto. Qed.

Example page_sp_append : blackbox
  (s "<a title:append("" ..and foo!""):title />" ++ ["010"%char])
  (NDocument false [] [] [] [
    implied "html" [
      implied "head" [];
      implied "body" [
        k "a" [a "title" (s "This is a foo")] [
          t (s "-")];
        w ["010"%char];
        k "a" [a "title" (s "This is a foo and a bar")] [
          t (s "-")];
        w ["010"%char]]]]) 0
  (s "{""title"":""This is a foo ..and foo!""}" ++ ["010"%char] ++ s "{""title"":""This is a foo and a bar ..and foo!""}" ++ ["010"%char]).
Proof. vm_compute. auto. Qed.

Example page_sp_case : blackbox
  (s "<h1 @text:toupper:link_title />" ++ ["010"%char] ++ s "<h2 @text:tolower:link_title />" ++ ["010"%char])
  (NDocument false [] [] [] [
    implied "html" [
      implied "head" [];
      implied "body" [
        k "h1" [] [
          t (s "This should be uppercase")];
        w ["010"%char];
        k "h2" [] [
          t (s "This should be lowercase")];
        w ["010"%char];
        k "h1" [] [
          t (s "And This shouLd be uppercase")];
        w ["010"%char];
        k "h2" [] [
          t (s "And This shouLd be LOWERCASE")];
        w ["010"%char];
        k "h1" [] [
          t (s "upper")];
        w ["010"%char];
        k "h2" [] [
          t (s "LOWER")];
        w ["010"%char]]]]) 0
  (s "{""link_title"":[""THIS SHOULD BE UPPERCASE"",""this should be lowercase""]}" ++ ["010"%char] ++ s "{""link_title"":[""AND THIS SHOULD BE UPPERCASE"",""and this should be lowercase""]}" ++ ["010"%char] ++ s "{""link_title"":[""UPPER"",""lower""]}" ++ ["010"%char]).
Proof. vm_compute. auto. Qed.

Example page_sp_collapsews : blackbox
  (s "<* title:collapsews:name />" ++ ["010"%char])
  (NDocument false [] [] [] [
    implied "html" [
      implied "head" [];
      implied "body" [
        k "a" [a "title" (s "  Lots   of spaces in this   title")] [];
        w ["010"%char]]]]) 0
  (s "{""name"":""Lots of spaces in this title""}" ++ ["010"%char]).
Proof. vm_compute. auto. Qed.

Example page_sp_filter : blackbox
  (s "<a href:filter(/\d+$/):user_id />" ++ ["010"%char])
  (NDocument false [] [] [] [
    implied "html" [
      implied "head" [];
      implied "body" [
        k "a" [a "href" (s "user-123")] [
          t (s "user")];
        w ["010"%char];
        k "a" [a "href" (s "user-234")] [
          t (s "user")];
        w ["010"%char];
        k "a" [a "href" (s "user-345")] [
          t (s "user")];
        w ["010"%char];
        k "a" [a "href" (s "user-4567")] [
          t (s "user")];
        w ["010"%char]]]]) 0
  (s "{""user_id"":""123""}" ++ ["010"%char] ++ s "{""user_id"":""234""}" ++ ["010"%char] ++ s "{""user_id"":""345""}" ++ ["010"%char] ++ s "{""user_id"":""4567""}" ++ ["010"%char]).
Proof. vm_compute. auto. Qed.

Example page_sp_filter_post : blackbox
  (s "<a href:filter(/post-(\d+)/):post_id />" ++ ["010"%char])
  (NDocument false [] [] [] [
    implied "html" [
      implied "head" [];
      implied "body" [
        k "a" [a "href" (s "/post-123/post-title")] [
          t (s "post")];
        w ["010"%char];
        k "a" [a "href" (s "/post-234/post-title")] [
          t (s "post")];
        w ["010"%char];
        k "a" [a "href" (s "/post-345/post-title")] [
          t (s "post")];
        w ["010"%char];
        k "a" [a "href" (s "/post-4567/post-title")] [
          t (s "post")];
        w ["010"%char]]]]) 0
  (s "{""post_id"":""123""}" ++ ["010"%char] ++ s "{""post_id"":""234""}" ++ ["010"%char] ++ s "{""post_id"":""345""}" ++ ["010"%char] ++ s "{""post_id"":""4567""}" ++ ["010"%char]).
Proof. vm_compute. auto. Qed.

Example page_sp_prepend : blackbox
  (s "<a href:prepend(""https://example.com/""):video_url />" ++ ["010"%char])
  (NDocument false [] [] [] [
    implied "html" [
      implied "head" [];
      implied "body" [
        k "a" [a "href" (s "index.html")] [
          t (s "Home")];
        w ["010"%char];
        k "a" [a "href" (s "posts.html")] [
          t (s "Posts")];
        w ["010"%char];
        k "a" [a "href" (s "guestbook.html")] [
          t (s "Guestbook")];
        w ["010"%char]]]]) 0
  (s "{""video_url"":""https://example.com/index.html""}" ++ ["010"%char] ++ s "{""video_url"":""https://example.com/posts.html""}" ++ ["010"%char] ++ s "{""video_url"":""https://example.com/guestbook.html""}" ++ ["010"%char]).
Proof. vm_compute. auto. Qed.

Example page_sp_replace_backref : blackbox
  (s "<h1 @text:replace(/(\d+): (.*)/, ""$2 ($1)""):head />" ++ ["010"%char])
  (NDocument false [] [] [] [
    implied "html" [
      implied "head" [];
      implied "body" [
        k "h1" [] [
          t (s "1: First heading")];
        w ["010"%char];
        k "h1" [] [
          t (s "2: Second heading")];
        w ["010"%char];
        k "h1" [] [
          t (s "3: Third heading")];
        w ["010"%char];
        k "h1" [] [
          t (s "4: Fourth heading")];
        w ["010"%char];
        k "h1" [] [
          t (s "5: Fifth heading")];
        w ["010"%char]]]]) 0
  (s "{""head"":""First heading (1)""}" ++ ["010"%char] ++ s "{""head"":""Second heading (2)""}" ++ ["010"%char] ++ s "{""head"":""Third heading (3)""}" ++ ["010"%char] ++ s "{""head"":""Fourth heading (4)""}" ++ ["010"%char] ++ s "{""head"":""Fifth heading (5)""}" ++ ["010"%char]).
Proof. vm_compute. auto. Qed.

Example page_sp_replace_foo : blackbox
  (s "<p @text:replace(/foo/, ""bar""):bar_text />" ++ ["010"%char])
  (NDocument false [] [] [] [
    implied "html" [
      implied "head" [];
      implied "body" [
        k "p" [] [
          t (s "This is a foo containing foos")];
        w ["010"%char]]]]) 0
  (s "{""bar_text"":""This is a bar containing bars""}" ++ ["010"%char]).
Proof. vm_compute. auto. Qed.

Example page_sp_replace_remove : blackbox
  (s "<p @text:replace(/\d+/, """"):nonum />" ++ ["010"%char])
  (NDocument false [] [] [] [
    implied "html" [
      implied "head" [];
      implied "body" [
        k "p" [] [
          t (s "99 bottles of beer on the wall, 98 bottles of beer on the wall")];
        w ["010"%char]]]]) 0
  (s "{""nonum"":"" bottles of beer on the wall,  bottles of beer on the wall""}" ++ ["010"%char]).
Proof. vm_compute. auto. Qed.

Example page_sp_trim : blackbox
  (s "<a @inner-html:trim:link_text />" ++ ["010"%char])
  (NDocument false [] [] [] [
    implied "html" [
      implied "head" [];
      implied "body" [
        k "a" [] [
          t (s "    This is a text inside this anchor     ")];
        w ["010"%char]]]]) 0
  (s "{""link_text"":""This is a text inside this anchor""}" ++ ["010"%char]).
Proof. vm_compute. auto. Qed.

Example page_sp_trim_dashes : blackbox
  (s "<a @text:trim("" -""):title />" ++ ["010"%char])
  (NDocument false [] [] [] [
    implied "html" [
      implied "head" [];
      implied "body" [
        k "a" [] [
          t (s " - - - - - Word - - - - - - ")];
        w ["010"%char];
        k "a" [] [
          t (s "-Word-")];
        w ["010"%char];
        k "a" [] [
          t (s "- Word -")];
        w ["010"%char]]]]) 0
  (s "{""title"":""Word""}" ++ ["010"%char] ++ s "{""title"":""Word""}" ++ ["010"%char] ++ s "{""title"":""Word""}" ++ ["010"%char]).
Proof. vm_compute. auto. Qed.

Example page_teaser_h1_p : blackbox
  (s "<h1/><p @text:content />" ++ ["010"%char])
  (NDocument false [] [] [] [
    implied "html" [
      implied "head" [];
      implied "body" [
        k "h1" [] [
          t (s "Heading")];
        w ["010"%char];
        k "p" [] [
          t (s "First paragraph")];
        w ["010"%char];
        k "p" [] [
          t (s "Not included in result")];
        w ["010"%char];
        k "p" [] [
          t (s "Not included in result")];
        w ["010"%char];
        k "h1" [] [
          t (s "Heading")];
        w ["010"%char];
        k "p" [] [
          t (s "Second paragraph")];
        w ["010"%char];
        k "h1" [] [
          t (s "Heading")];
        w ["010"%char];
        k "p" [] [
          t (s "Third paragraph")];
        w ["010"%char];
        k "p" [] [
          t (s "Not included in result")];
        w ["010"%char];
        k "p" [] [
          t (s "Not included in result")];
        w ["010"%char];
        k "p" [] [
          t (s "Not included in result")];
        w ["010"%char];
        k "p" [] [
          t (s "Not included in result")];
        w ["010"%char]]]]) 0
  (s "{""content"":""First paragraph""}" ++ ["010"%char] ++ s "{""content"":""Second paragraph""}" ++ ["010"%char] ++ s "{""content"":""Third paragraph""}" ++ ["010"%char]).
Proof. vm_compute. auto. Qed.

Example page_teaser_prepend_post : blackbox
  (s "<a title:prepend(""Post: ""):post />" ++ ["010"%char])
  (NDocument false [] [] [] [
    implied "html" [
      implied "head" [];
      implied "body" [
        k "a" [a "title" (s "Foo")] [
          t (s "foo")];
        w ["010"%char];
        k "a" [a "title" (s "Bar")] [
          t (s "bar")];
        w ["010"%char];
        k "a" [a "title" (s "Foobar")] [
          t (s "foobar")];
        w ["010"%char];
        k "a" [a "title" (s "Barfoo")] [
          t (s "barfoo")];
        w ["010"%char]]]]) 0
  (s "{""post"":""Post: Foo""}" ++ ["010"%char] ++ s "{""post"":""Post: Bar""}" ++ ["010"%char] ++ s "{""post"":""Post: Foobar""}" ++ ["010"%char] ++ s "{""post"":""Post: Barfoo""}" ++ ["010"%char]).
Proof. vm_compute. auto. Qed.

Example page_teaser_td_odd_number : blackbox
  (s "<td:nth-child(odd) @text:filter(/\d+/):number />" ++ ["010"%char])
  (NDocument false [] [] [] [
    implied "html" [
      implied "head" [];
      implied "body" [
        k "table" [] [
          w (["010"%char] ++ s "  ");
          k "tbody" [] [
            w (["010"%char] ++ s "    ");
            k "tr" [] [
              w (["010"%char] ++ s "      ");
              k "td" [] [
                t (s "Number 1")];
              w (["010"%char] ++ s "      ");
              k "td" [] [
                t (s "Number 2")];
              w (["010"%char] ++ s "      ");
              k "td" [] [
                t (s "Number 3")];
              w (["010"%char] ++ s "      ");
              k "td" [] [
                t (s "Number 4")];
              w (["010"%char] ++ s "      ");
              k "td" [] [
                t (s "Number 5")];
              w (["010"%char] ++ s "    ")];
            w (["010"%char] ++ s "    ");
            k "tr" [] [
              w (["010"%char] ++ s "      ");
              k "td" [] [
                t (s "Number 1")];
              w (["010"%char] ++ s "      ");
              k "td" [] [
                t (s "Number 2")];
              w (["010"%char] ++ s "      ");
              k "td" [] [
                t (s "Number 3")];
              w (["010"%char] ++ s "      ");
              k "td" [] [
                t (s "Number 4")];
              w (["010"%char] ++ s "      ");
              k "td" [] [
                t (s "Number 5")];
              w (["010"%char] ++ s "    ")];
            w (["010"%char] ++ s "  ")];
          w ["010"%char]];
        w ["010"%char]]]]) 0
  (s "{""number"":""1""}" ++ ["010"%char] ++ s "{""number"":""3""}" ++ ["010"%char] ++ s "{""number"":""5""}" ++ ["010"%char] ++ s "{""number"":""1""}" ++ ["010"%char] ++ s "{""number"":""3""}" ++ ["010"%char] ++ s "{""number"":""5""}" ++ ["010"%char]).
Proof. vm_compute. auto. Qed.

Example page_teaser_thumbnail_src : blackbox
  (s "<div class=""thumbnail"">  <img src:image />  </div>" ++ ["010"%char])
  (NDocument false [] [] [] [
    implied "html" [
      implied "head" [];
      implied "body" [
        k "div" [a "class" (s "thumbnail")] [
          w (["010"%char] ++ s "  ");
          k "img" [a "src" (s "image.jpg")] [];
          w ["010"%char]];
        w ["010"%char];
        k "div" [a "class" (s "nope")] [
          w (["010"%char] ++ s "  ");
          k "img" [a "src" (s "nope.jpg")] [];
          w (["010"%char] ++ s "  ");
          k "div" [a "class" (s "thumbnail")] [
            w (["010"%char] ++ s "    ");
            k "img" [a "src" (s "inner-image.jpg")] [];
            w (["010"%char] ++ s "  ")];
          w ["010"%char]];
        w ["010"%char]]]]) 0
  (s "{""image"":""image.jpg""}" ++ ["010"%char] ++ s "{""image"":""inner-image.jpg""}" ++ ["010"%char]).
Proof. vm_compute. auto. Qed.

Example page_tryit_hatter : blackbox
  (s "<tr>" ++ ["010"%char] ++ s "  <td><span @text:rank /></td>" ++ ["010"%char] ++ s "  <td><a href:href @text:title /></td>" ++ ["010"%char] ++ s "</tr>" ++ ["010"%char] ++ s "<?tr>" ++ ["010"%char] ++ s "  <td>" ++ ["010"%char] ++ s "    <span @text:score />" ++ ["010"%char] ++ s "    <a @text:user />" ++ ["010"%char] ++ s "    <a:last-child @text:filter(/\d+/):comment_count />" ++ ["010"%char] ++ s "  </td>" ++ ["010"%char] ++ s "</tr>" ++ ["010"%char; "010"%char])
  (NDocument false [] [] [] [
    implied "html" [
      implied "head" [];
      implied "body" [
        k "table" [] [
          w (["010"%char] ++ s "  ");
          k "tbody" [] [
            w (["010"%char] ++ s "    ");
            k "tr" [] [
              w (["010"%char] ++ s "      ");
              k "td" [] [
                k "span" [] [
                  t (s "1.")]];
              w (["010"%char] ++ s "      ");
              k "td" [] [
                k "a" [a "href" (s "http://example.com/10-reasons")] [
                  t (["010"%char] ++ s "          10 Reasons why your startup is" ++ ["010"%char] ++ s "          worse than mine")]];
              w (["010"%char] ++ s "      ");
              k "td" [] [
                k "a" [a "href" (s "javascript:vote()")] [
                  t (s "Vote up")]];
              w (["010"%char] ++ s "    ")];
            w (["010"%char] ++ s "    ");
            k "tr" [] [
              w (["010"%char] ++ s "      ");
              k "td" [a "class" (s "spacer")] [];
              w (["010"%char] ++ s "      ");
              k "td" [a "class" (s "subtext")] [
                w (["010"%char] ++ s "        ");
                k "span" [a "class" (s "score")] [
                  t (s "23 points")];
                t (s " |" ++ ["010"%char] ++ s "        by ");
                k "a" [a "href" (s "/user/mr-robot-23")] [
                  t (s "MrRobot23")];
                t (["010"%char] ++ s "        some time ago |" ++ ["010"%char] ++ s "        ");
                k "a" [a "href" (s "/posts/1478923")] [
                  t (s "42 comments")];
                w (["010"%char] ++ s "      ")];
              w (["010"%char] ++ s "    ")];
            w (["010"%char] ++ s "    ");
            k "tr" [a "class" (s "spacer")] [];
            w (["010"%char] ++ s "    ");
            k "tr" [] [
              w (["010"%char] ++ s "      ");
              k "td" [] [
                k "span" [] [
                  t (s "2.")]];
              w (["010"%char] ++ s "      ");
              k "td" [] [
                w (["010"%char] ++ s "        ");
                k "a" [a "href" (s "https://www.example.com/cutting-onions")] [
                  t (["010"%char] ++ s "           The lost art of cutting onions:" ++ ["010"%char] ++ s "           How an outcast revolutionized food supply" ++ ["010"%char] ++ s "        ")];
                w (["010"%char] ++ s "      ")];
              w (["010"%char] ++ s "      ");
              k "td" [] [
                k "a" [a "href" (s "javascript:vote()")] [
                  t (s "Vote up")]];
              w (["010"%char] ++ s "    ")];
            w (["010"%char] ++ s "    ");
            k "tr" [] [
              w (["010"%char] ++ s "      ");
              k "td" [a "class" (s "spacer")] [];
              w (["010"%char] ++ s "      ");
              k "td" [a "class" (s "subtext")] [
                w (["010"%char] ++ s "        ");
                k "span" [a "class" (s "score")] [
                  t (s "99 points")];
                t (s " |" ++ ["010"%char] ++ s "        by ");
                k "a" [a "href" (s "/user/sillyvalley")] [
                  t (s "SillyValley")];
                t (["010"%char] ++ s "        some time ago |" ++ ["010"%char] ++ s "        ");
                k "a" [a "href" (s "/posts/1478930")] [
                  t (s "5 comments")];
                w (["010"%char] ++ s "      ")];
              w (["010"%char] ++ s "    ")];
            w (["010"%char] ++ s "    ");
            k "tr" [a "class" (s "spacer")] [];
            w (["010"%char] ++ s "    ");
            k "tr" [] [
              w (["010"%char] ++ s "      ");
              k "td" [] [
                k "span" [] [
                  t (s "3.")]];
              w (["010"%char] ++ s "      ");
              k "td" [] [
                w (["010"%char] ++ s "        ");
                k "a" [a "href" (s "https://www.example.com/cppcompjs")] [
                  t (["010"%char] ++ s "          cppcompjs: A non-blocking (web-scale) C++" ++ ["010"%char] ++ s "          compiler for node.js")]];
              w (["010"%char] ++ s "      ");
              k "td" [] [
                k "a" [a "href" (s "javascript:vote()")] [
                  t (s "Vote up")]];
              w (["010"%char] ++ s "    ")];
            w (["010"%char] ++ s "    ");
            k "tr" [] [
              w (["010"%char] ++ s "      ");
              k "td" [a "class" (s "spacer")] [];
              w (["010"%char] ++ s "      ");
              k "td" [a "class" (s "subtext")] [
                w (["010"%char] ++ s "        ");
                k "span" [a "class" (s "score")] [
                  t (s "235 points")];
                t (s " |" ++ ["010"%char] ++ s "        by ");
                k "a" [a "href" (s "/user/malicealice")] [
                  t (s "malicealice")];
                t (["010"%char] ++ s "        some time ago |" ++ ["010"%char] ++ s "        ");
                k "a" [a "href" (s "/posts/")] [
                  t (s "144 comments")];
                w (["010"%char] ++ s "      ")];
              w (["010"%char] ++ s "    ")];
            w (["010"%char] ++ s "    ");
            k "tr" [a "class" (s "spacer")] [];
            w (["010"%char] ++ s "  ")];
          w ["010"%char]];
        w ["010"%char; "010"%char]]]]) 0
  (s "{""comment_count"":""42"",""href"":""http://example.com/10-reasons"",""rank"":""1."",""score"":""23 points"",""title"":""10 Reasons why your startup is worse than mine"",""user"":""MrRobot23""}" ++ ["010"%char] ++ s "{""comment_count"":""5"",""href"":""https://www.example.com/cutting-onions"",""rank"":""2."",""score"":""99 points"",""title"":""The lost art of cutting onions: How an outcast revolutionized food supply"",""user"":""SillyValley""}" ++ ["010"%char] ++ s "{""comment_count"":""144"",""href"":""https://www.example.com/cppcompjs"",""rank"":""3."",""score"":""235 points"",""title"":""cppcompjs: A non-blocking (web-scale) C++ compiler for node.js"",""user"":""malicealice""}" ++ ["010"%char]).
Proof. vm_compute. auto. Qed.

Example page_tryit_posts : blackbox
  (s "<div class=""post"">" ++ ["010"%char] ++ s "  <div class=""username"" @text:username />" ++ ["010"%char] ++ s "  <div class=""date""" ++ ["010"%char] ++ s "       @text:filter(/published on (\d+.\d+.\d+)/i):date" ++ ["010"%char] ++ s "       @text:filter(/\d+:\d+/):time />" ++ ["010"%char] ++ s "  <a class=""permalink""" ++ ["010"%char] ++ s "     href:prepend(""http://www.example.com""):permalink" ++ ["010"%char] ++ s "     href:filter(/\d+$/):post_id />" ++ ["010"%char] ++ s "  <div class=""content"" @text:post />" ++ ["010"%char] ++ s "</div>" ++ ["010"%char; "010"%char])
  (NDocument false [] [] [] [
    implied "html" [
      implied "head" [];
      implied "body" [
        k "div" [a "class" (s "post")] [
          w (["010"%char] ++ s "  ");
          k "div" [a "class" (s "username")] [
            t (s "Alice")];
          w (["010"%char] ++ s "  ");
          k "div" [a "class" (s "date")] [
            t (["010"%char] ++ s "    Published on 20.12.2015, 15:45" ++ ["010"%char] ++ s "  ")];
          w (["010"%char] ++ s "  ");
          k "a" [a "class" (s "permalink"); a "href" (s "/posts/133045")] [
            t (["010"%char] ++ s "    Permalink to this post" ++ ["010"%char] ++ s "  ")];
          w (["010"%char] ++ s "  ");
          k "div" [a "class" (s "content")] [
            t (["010"%char] ++ s "    Tabs vs. spaces?" ++ ["010"%char] ++ s "  ")];
          w ["010"%char]];
        w ["010"%char];
        k "div" [a "class" (s "post")] [
          w (["010"%char] ++ s "  ");
          k "div" [a "class" (s "username")] [
            t (s "Bob")];
          w (["010"%char] ++ s "  ");
          k "div" [a "class" (s "date")] [
            t (["010"%char] ++ s "    Published on 20.12.2015, 16:23" ++ ["010"%char] ++ s "  ")];
          w (["010"%char] ++ s "  ");
          k "a" [a "class" (s "permalink"); a "href" (s "/posts/133046")] [
            t (["010"%char] ++ s "    Permalink to this post" ++ ["010"%char] ++ s "  ")];
          w (["010"%char] ++ s "  ");
          k "div" [a "class" (s "content")] [
            t (["010"%char] ++ s "    Both!" ++ ["010"%char] ++ s "  ")];
          w ["010"%char]];
        w ["010"%char];
        k "div" [a "class" (s "post")] [
          w (["010"%char] ++ s "  ");
          k "div" [a "class" (s "username")] [
            t (s "Richard")];
          w (["010"%char] ++ s "  ");
          k "div" [a "class" (s "date")] [
            t (["010"%char] ++ s "    Published on 27.12.2015, 03:19" ++ ["010"%char] ++ s "  ")];
          w (["010"%char] ++ s "  ");
          k "a" [a "class" (s "permalink"); a "href" (s "/posts/133048")] [
            t (["010"%char] ++ s "    Permalink to this post" ++ ["010"%char] ++ s "  ")];
          w (["010"%char] ++ s "  ");
          k "div" [a "class" (s "content")] [
            t (["010"%char] ++ s "    I like turtles" ++ ["010"%char] ++ s "  ")];
          w ["010"%char]];
        w ["010"%char; "010"%char; "010"%char]]]]) 0
  (s "{""date"":""20.12.2015"",""permalink"":""http://www.example.com/posts/133045"",""post"":""Tabs vs. spaces?"",""post_id"":""133045"",""time"":""15:45"",""username"":""Alice""}" ++ ["010"%char] ++ s "{""date"":""20.12.2015"",""permalink"":""http://www.example.com/posts/133046"",""post"":""Both!"",""post_id"":""133046"",""time"":""16:23"",""username"":""Bob""}" ++ ["010"%char] ++ s "{""date"":""27.12.2015"",""permalink"":""http://www.example.com/posts/133048"",""post"":""I like turtles"",""post_id"":""133048"",""time"":""03:19"",""username"":""Richard""}" ++ ["010"%char]).
Proof. vm_compute. auto. Qed.

Example page_tryit_staff : blackbox
  (s "# match <div> having class ""author""" ++ ["010"%char] ++ s "<div class=""author"">" ++ ["010"%char] ++ s "  # match <a> having attr. href, store it in ""author_href""" ++ ["010"%char] ++ s "  <a href:author_href>" ++ ["010"%char] ++ s "    # match <img> having attr. src, store it in ""author_img""" ++ ["010"%char] ++ s "    <img src:author_img />" ++ ["010"%char] ++ s "    # match <span> having class ""name"", store inner text" ++ ["010"%char] ++ s "    # into ""author_name""" ++ ["010"%char] ++ s "    <span class=""name"" @text:author_name />" ++ ["010"%char] ++ s "  </a>" ++ ["010"%char] ++ s "</div>" ++ ["010"%char; "010"%char])
  (NDocument false [] [] [] [
    implied "html" [
      implied "head" [];
      implied "body" [
        k "h1" [] [
          t (s "Staff")];
        w ["010"%char];
        k "div" [a "class" (s "staff-listing")] [
          w (["010"%char] ++ s "  ");
          k "div" [a "class" (s "author")] [
            w (["010"%char] ++ s "    ");
            k "a" [a "href" (s "/authors/bob.html")] [
              w (["010"%char] ++ s "      ");
              k "img" [a "src" (s "/images/authors/bob.jpg"); a "alt" (s "Bob")] [];
              w (["010"%char] ++ s "      ");
              k "span" [a "class" (s "name")] [
                t (s "Bob")];
              w (["010"%char] ++ s "    ")];
            w (["010"%char] ++ s "  ")];
          w ["010"%char]];
        w ["010"%char];
        k "div" [a "class" (s "staff-listing")] [
          w (["010"%char] ++ s "  ");
          k "div" [a "class" (s "author")] [
            w (["010"%char] ++ s "    ");
            k "a" [a "href" (s "/authors/alice.html")] [
              w (["010"%char] ++ s "      ");
              k "img" [a "src" (s "/images/authors/alice.jpg"); a "alt" (s "Alice")] [];
              w (["010"%char] ++ s "      ");
              k "span" [a "class" (s "name")] [
                t (s "Alice")];
              w (["010"%char] ++ s "    ")];
            w (["010"%char] ++ s "  ")];
          w ["010"%char]];
        w ["010"%char];
        k "div" [a "class" (s "staff-listing")] [
          w (["010"%char] ++ s "  ");
          k "div" [a "class" (s "author")] [
            w (["010"%char] ++ s "    ");
            k "a" [a "href" (s "/authors/carol.html")] [
              w (["010"%char] ++ s "      ");
              k "img" [a "src" (s "/images/authors/carol.jpg"); a "alt" (s "Carol")] [];
              w (["010"%char] ++ s "      ");
              k "span" [a "class" (s "name")] [
                t (s "Carol")];
              w (["010"%char] ++ s "    ")];
            w (["010"%char] ++ s "  ")];
          w ["010"%char]];
        w ["010"%char; "010"%char]]]]) 0
  (s "{""author_href"":""/authors/bob.html"",""author_img"":""/images/authors/bob.jpg"",""author_name"":""Bob""}" ++ ["010"%char] ++ s "{""author_href"":""/authors/alice.html"",""author_img"":""/images/authors/alice.jpg"",""author_name"":""Alice""}" ++ ["010"%char] ++ s "{""author_href"":""/authors/carol.html"",""author_img"":""/images/authors/carol.jpg"",""author_name"":""Carol""}" ++ ["010"%char]).
Proof. vm_compute. auto. Qed.

Example prepend_pipe : blackbox
  (s "<a class:trim:prepend(""This is the class: ""):'class' />" ++ ["010"%char])
  (NDocument false [] [] [] [
    implied "html" [
      implied "head" [];
      implied "body" [
        k "div" [] [
          w (["010"%char] ++ s "  ");
          k "a" [a "class" (s " spaces ")] [
            t (s " This is some content   ")];
          w (["010"%char] ++ s "  ");
          k "a" [a "class" (s "no spaces")] [
            t (s "   some more content")];
          w ["010"%char]];
        w ["010"%char]]]]) 0
  (s "{""class"":""This is the class: no spaces""}" ++ ["010"%char] ++ s "{""class"":""This is the class: spaces""}" ++ ["010"%char]).
Proof. vm_compute. auto. Qed.

Example quoted_regex_pipe : blackbox
  (s "<a href:filter(""^/user/[a-z]*-([0-9]+)""):user_id" ++ ["010"%char] ++ s "   @text:trim:user_name" ++ ["010"%char] ++ s "/>" ++ ["010"%char])
  (NDocument false [] [] [] [
    implied "html" [
      implied "head" [];
      implied "body" [
        k "div" [] [
          w (["010"%char] ++ s "  ");
          k "a" [a "href" (s "/user/bob-22")] [
            t (s " Bob ")];
          w (["010"%char] ++ s "  ");
          k "a" [a "href" (s "/user/alice-23")] [
            t (s " Alice ")];
          w (["010"%char] ++ s "  ");
          k "a" [a "href" (s "/user/tom-24")] [
            t (s " Tom ")];
          w ["010"%char]];
        w ["010"%char]]]]) 0
  (s "{""user_id"":""22"",""user_name"":""Bob""}" ++ ["010"%char] ++ s "{""user_id"":""23"",""user_name"":""Alice""}" ++ ["010"%char] ++ s "{""user_id"":""24"",""user_name"":""Tom""}" ++ ["010"%char]).
Proof. vm_compute. auto. Qed.

Example recursive_matching_no_text_nodes : blackbox
  (s "<div class:div_class>" ++ ["010"%char] ++ s "  <ul class:ul_class>" ++ ["010"%char] ++ s "    <li class:li1_class/>" ++ ["010"%char] ++ s "    <li class:li2_class/>" ++ ["010"%char] ++ s "  </ul>" ++ ["010"%char] ++ s "</div>" ++ ["010"%char])
  (NDocument false [] [] [] [
    k "html" [] [
      k "head" [] [];
      k "body" [a "class" (s "body")] [
        k "div" [a "class" (s "div")] [
          k "div" [a "class" (s "div")] [
            k "ul" [a "class" (s "ul")] [
              k "li" [a "class" (s "li")] [];
              k "li" [a "class" (s "li")] []]];
          k "div" [a "class" (s "div")] [
            k "ul" [a "class" (s "ul")] [
              k "li" [a "class" (s "li")] [];
              k "li" [a "class" (s "li")] []]]];
        k "div" [a "class" (s "div")] [
          k "div" [a "class" (s "div")] [
            k "ul" [a "class" (s "ul")] [
              k "li" [a "class" (s "li")] [];
              k "li" [a "class" (s "li")] []]];
          k "div" [a "class" (s "div")] [
            k "ul" [a "class" (s "ul")] [
              k "li" [a "class" (s "li")] [];
              k "li" [a "class" (s "li")] []]]];
        k "div" [a "class" (s "div")] [
          k "div" [a "class" (s "div")] [
            k "ul" [a "class" (s "ul")] [
              k "li" [a "class" (s "li")] [];
              k "li" [a "class" (s "li")] []]];
          k "div" [a "class" (s "div")] [
            k "ul" [a "class" (s "ul")] [
              k "li" [a "class" (s "li")] [];
              k "li" [a "class" (s "li")] []];
            k "div" [a "class" (s "div")] [
              k "ul" [a "class" (s "ul")] [
                k "li" [a "class" (s "li")] [];
                k "li" [a "class" (s "li")] []]]]];
        w ["010"%char]]]]) 0
  (s "{""div_class"":""div"",""li1_class"":""li"",""li2_class"":""li"",""ul_class"":""ul""}" ++ ["010"%char] ++ s "{""div_class"":""div"",""li1_class"":""li"",""li2_class"":""li"",""ul_class"":""ul""}" ++ ["010"%char] ++ s "{""div_class"":""div"",""li1_class"":""li"",""li2_class"":""li"",""ul_class"":""ul""}" ++ ["010"%char] ++ s "{""div_class"":""div"",""li1_class"":""li"",""li2_class"":""li"",""ul_class"":""ul""}" ++ ["010"%char] ++ s "{""div_class"":""div"",""li1_class"":""li"",""li2_class"":""li"",""ul_class"":""ul""}" ++ ["010"%char] ++ s "{""div_class"":""div"",""li1_class"":""li"",""li2_class"":""li"",""ul_class"":""ul""}" ++ ["010"%char] ++ s "{""div_class"":""div"",""li1_class"":""li"",""li2_class"":""li"",""ul_class"":""ul""}" ++ ["010"%char]).
Proof. vm_compute. auto. Qed.

Example recursive_text : blackbox
  (s "<div id=""target"" @text:sentence/>" ++ ["010"%char])
  (NDocument false [] [] [] [
    k "html" [] [
      implied "head" [];
      k "body" [] [
        w ["010"%char];
        k "div" [a "id" (s "target")] [
          t (["010"%char] ++ s "  So this" ++ ["010"%char] ++ s "  ");
          k "div" [] [
            t (["010"%char] ++ s "    is" ++ ["010"%char] ++ s "    ");
            k "div" [] [
              t (["010"%char] ++ s "      a" ++ ["010"%char] ++ s "    ")];
            t (["010"%char] ++ s "    sentence" ++ ["010"%char] ++ s "  ")];
          w (["010"%char] ++ s "  ");
          k "div" [] [
            t (["010"%char] ++ s "    all" ++ ["010"%char] ++ s "    ");
            k "div" [] [
              t (["010"%char] ++ s "      over" ++ ["010"%char] ++ s "    ")];
            t (["010"%char] ++ s "    the" ++ ["010"%char] ++ s "    ");
            k "span" [] [
              t (["010"%char] ++ s "      place" ++ ["010"%char] ++ s "    ")];
            w (["010"%char] ++ s "  ")];
          w ["010"%char]];
        w ["010"%char; "010"%char; "010"%char]]]]) 0
  (s "{""sentence"":""So this is a sentence all over the place""}" ++ ["010"%char]).
Proof. vm_compute. auto. Qed.

Example regex_pipe : blackbox
  (s "<a href:filter(/-([0-9]+)$/):user_id" ++ ["010"%char] ++ s "   @text:trim:user_name" ++ ["010"%char] ++ s "/>" ++ ["010"%char])
  (NDocument false [] [] [] [
    implied "html" [
      implied "head" [];
      implied "body" [
        k "div" [] [
          w (["010"%char] ++ s "  ");
          k "a" [a "href" (s "/user/bob-22")] [
            t (s " Bob ")];
          w (["010"%char] ++ s "  ");
          k "a" [a "href" (s "/user/alice-23")] [
            t (s " Alice ")];
          w (["010"%char] ++ s "  ");
          k "a" [a "href" (s "/user/tom-24")] [
            t (s " Tom ")];
          w ["010"%char]];
        w ["010"%char]]]]) 0
  (s "{""user_id"":""22"",""user_name"":""Bob""}" ++ ["010"%char] ++ s "{""user_id"":""23"",""user_name"":""Alice""}" ++ ["010"%char] ++ s "{""user_id"":""24"",""user_name"":""Tom""}" ++ ["010"%char]).
Proof. vm_compute. auto. Qed.

Example replace_pipe : blackbox
  (s "<a @text:trim:replace(/content/, ""potato""):""text"" />" ++ ["010"%char])
  (NDocument false [] [] [] [
    implied "html" [
      implied "head" [];
      implied "body" [
        k "div" [] [
          w (["010"%char] ++ s "  ");
          k "a" [a "class" (s "spaces")] [
            t (s " This is some content   ")];
          w (["010"%char] ++ s "  ");
          k "a" [a "class" (s "no spaces")] [
            t (s "   some more content")];
          w ["010"%char]];
        w ["010"%char]]]]) 0
  (s "{""text"":""some more potato""}" ++ ["010"%char] ++ s "{""text"":""This is some potato""}" ++ ["010"%char]).
Proof. vm_compute. auto. Qed.

Example replace_pipe_quoted_rx : blackbox
  (s "<a @text:trim:replace('content'i, ""\""strange\""/days/""):replace(""\""strange\""/days/""i, ""content""):replace(""content"", 'potato'):text />" ++ ["010"%char])
  (NDocument false [] [] [] [
    implied "html" [
      implied "head" [];
      implied "body" [
        k "div" [] [
          w (["010"%char] ++ s "  ");
          k "a" [a "class" (s "spaces")] [
            t (s " This is some content   ")];
          w (["010"%char] ++ s "  ");
          k "a" [a "class" (s "no spaces")] [
            t (s "   some more content")];
          w ["010"%char]];
        w ["010"%char]]]]) 0
  (s "{""text"":""some more potato""}" ++ ["010"%char] ++ s "{""text"":""This is some potato""}" ++ ["010"%char]).
Proof. vm_compute. auto. Qed.

Example single_greedy : blackbox
  (s "<+h1 class:x />" ++ ["010"%char])
  (NDocument false [] [] [] [
    implied "html" [
      implied "head" [];
      implied "body" [
        k "div" [a "class" (s "result-set")] [
          w (["010"%char] ++ s "  ");
          k "h1" [a "class" (s "1")] [
            t (s "Heading")];
          w (["010"%char] ++ s "  ");
          k "h1" [a "class" (s "2")] [
            t (s "Heading")];
          w (["010"%char] ++ s "  ");
          k "h1" [a "class" (s "3")] [
            t (s "Heading")];
          w (["010"%char] ++ s "  ");
          k "h1" [a "class" (s "4")] [
            t (s "Heading")];
          w ["010"%char]];
        w ["010"%char];
        k "div" [a "class" (s "result-set")] [
          w (["010"%char] ++ s "  ");
          k "h1" [a "class" (s "5")] [
            t (s "Heading")];
          w ["010"%char]];
        w ["010"%char];
        NComment (s " result-set ");
        w ["010"%char];
        k "h1" [a "class" (s "6")] [
          t (s "Heading")];
        w ["010"%char];
        k "h1" [a "class" (s "7")] [
          t (s "Heading")];
        w ["010"%char];
        k "h1" [a "class" (s "8")] [
          t (s "Heading")];
        w ["010"%char];
        k "h1" [a "class" (s "9")] [
          t (s "Heading")];
        w ["010"%char];
        k "h1" [a "class" (s "10")] [
          t (s "Heading")];
        w ["010"%char]]]]) 0
  (s "{""x"":[""6"",""7"",""8"",""9"",""10""]}" ++ ["010"%char] ++ s "{""x"":[""1"",""2"",""3"",""4""]}" ++ ["010"%char] ++ s "{""x"":""5""}" ++ ["010"%char]).
Proof. vm_compute. auto. Qed.

Example star_matches_text_nodes : blackbox
  (s "<a>" ++ ["010"%char] ++ s "  <* @text:txt />" ++ ["010"%char] ++ s "</a>" ++ ["010"%char])
  (NDocument true (s "html") [] [] [
    k "html" [a "lang" (s "en")] [
      k "head" [] [
        w (["010"%char] ++ s "    ");
        k "meta" [a "charset" (s "utf-8")] [];
        w (["010"%char] ++ s "    ");
        k "title" [] [
          t (s "Example")];
        w (["010"%char] ++ s "  ")];
      w (["010"%char] ++ s "  ");
      k "body" [] [
        w (["010"%char] ++ s "    ");
        k "a" [a "href" (s "one.html")] [
          t (s "  Page 1")];
        w (["010"%char] ++ s "    ");
        k "a" [a "href" (s "two.html")] [
          t (s "  Page 2")];
        w (["010"%char] ++ s "    ");
        k "a" [a "href" (s "three.html")] [
          t (s "Page 3")];
        w (["010"%char] ++ s "  " ++ ["010"%char; "010"%char])]]]) 0
  (s "{""txt"":""Page 1""}" ++ ["010"%char] ++ s "{""txt"":""Page 2""}" ++ ["010"%char] ++ s "{""txt"":""Page 3""}" ++ ["010"%char]).
Proof. vm_compute. auto. Qed.

Example tag_case : blackbox
  (s "<SPAN class:class />" ++ ["010"%char])
  (NDocument false [] [] [] [
    implied "html" [
      implied "head" [];
      implied "body" [
        k "div" [] [
          w (["010"%char] ++ s "  ");
          k "span" [a "class" (s "lower case tag")] [];
          w (["010"%char] ++ s "  ");
          k "span" [a "class" (s "mixed case tag")] [];
          w (["010"%char] ++ s "  ");
          k "span" [a "class" (s "upper case tag")] [];
          w ["010"%char]];
        w ["010"%char]]]]) 0
  (s "{""class"":""lower case tag""}" ++ ["010"%char] ++ s "{""class"":""mixed case tag""}" ++ ["010"%char] ++ s "{""class"":""upper case tag""}" ++ ["010"%char]).
Proof. vm_compute. auto. Qed.

Example trim_pipe : blackbox
  (s "<a class:trim("" ""):' class ' @text:trim:trim(""st""):""trimmed content"" />" ++ ["010"%char])
  (NDocument false [] [] [] [
    implied "html" [
      implied "head" [];
      implied "body" [
        k "div" [] [
          w (["010"%char] ++ s "  ");
          k "a" [a "class" (s " spaces ")] [
            t (s " This is some content   ")];
          w (["010"%char] ++ s "  ");
          k "a" [a "class" (s "no spaces")] [
            t (s "   some more content")];
          w ["010"%char]];
        w ["010"%char]]]]) 0
  (s "{"" class "":""no spaces"",""trimmed content"":""ome more conten""}" ++ ["010"%char] ++ s "{"" class "":""spaces"",""trimmed content"":""This is some conten""}" ++ ["010"%char]).
Proof. vm_compute. auto. Qed.

Example type_match : blackbox
  (s "<body>" ++ ["010"%char] ++ s "  { <*:type-matches(/^(p)$|^(h[1-6])$/) @text:content /> }" ++ ["010"%char] ++ s "</body>" ++ ["010"%char])
  (NDocument false [] [] [] [
    k "html" [] [
      k "head" [] [
        w (["010"%char] ++ s "  ")];
      w (["010"%char] ++ s "  ");
      k "body" [] [
        w (["010"%char] ++ s "    ");
        k "p" [] [
          t (s "match1")];
        w (["010"%char] ++ s "    ");
        k "div" [] [
          w (["010"%char] ++ s "      ");
          k "p" [] [
            t (s "match2")];
          w (["010"%char] ++ s "      ");
          k "p" [] [
            t (s "match3")];
          w (["010"%char] ++ s "      ");
          k "h1" [] [
            t (s "match4")];
          w (["010"%char] ++ s "      ");
          k "h2" [] [
            t (s "match5")];
          w (["010"%char] ++ s "      ");
          k "h3" [] [
            t (s "match6")];
          w (["010"%char] ++ s "      ");
          k "h4" [] [
            t (s "match7")];
          w (["010"%char] ++ s "      ");
          k "h5" [] [
            t (s "match8")];
          w (["010"%char] ++ s "      ");
          k "h6" [] [
            t (s "match9")];
          w (["010"%char] ++ s "      ");
          e (Some (s "<h7>")) "h7" [] [
            t (s "nope")];
          w (["010"%char] ++ s "    ")];
        w (["010"%char] ++ s "  " ++ ["010"%char; "010"%char])]]]) 0
  (s "{""content"":[""match1"",""match2"",""match3"",""match4"",""match5"",""match6"",""match7"",""match8"",""match9""]}" ++ ["010"%char]).
Proof. vm_compute. auto. Qed.

Example type_match_chained : blackbox
  (s "<body>" ++ ["010"%char] ++ s "  { <*:type-matches(/^(p)$|^(h[1-6])$/):type-matches(/^p|(h[1-3])$/) @text:content /> }" ++ ["010"%char] ++ s "</body>" ++ ["010"%char])
  (NDocument false [] [] [] [
    k "html" [] [
      k "head" [] [
        w (["010"%char] ++ s "  ")];
      w (["010"%char] ++ s "  ");
      k "body" [] [
        w (["010"%char] ++ s "    ");
        k "p" [] [
          t (s "match1")];
        w (["010"%char] ++ s "    ");
        k "div" [] [
          w (["010"%char] ++ s "      ");
          k "p" [] [
            t (s "match2")];
          w (["010"%char] ++ s "      ");
          k "p" [] [
            t (s "match3")];
          w (["010"%char] ++ s "      ");
          k "h1" [] [
            t (s "match4")];
          w (["010"%char] ++ s "      ");
          k "h2" [] [
            t (s "match5")];
          w (["010"%char] ++ s "      ");
          k "h3" [] [
            t (s "match6")];
          w (["010"%char] ++ s "      ");
          k "h4" [] [
            t (s "nope1")];
          w (["010"%char] ++ s "      ");
          k "h5" [] [
            t (s "nope2")];
          w (["010"%char] ++ s "      ");
          k "h6" [] [
            t (s "nope3")];
          w (["010"%char] ++ s "      ");
          e (Some (s "<h7>")) "h7" [] [
            t (s "nope4")];
          w (["010"%char] ++ s "    ")];
        w (["010"%char] ++ s "  " ++ ["010"%char; "010"%char])]]]) 0
  (s "{""content"":[""match1"",""match2"",""match3"",""match4"",""match5"",""match6""]}" ++ ["010"%char]).
Proof. vm_compute. auto. Qed.

Example type_match_custom_insensitive : blackbox
  (s "<body>" ++ ["010"%char] ++ s "  { <*:type-matches(/^CuStOmTaG$/i) @text:content /> }" ++ ["010"%char] ++ s "</body>" ++ ["010"%char])
  (NDocument false [] [] [] [
    k "html" [] [
      k "head" [] [
        w (["010"%char] ++ s "  ")];
      w (["010"%char] ++ s "  ");
      k "body" [] [
        w (["010"%char] ++ s "    ");
        k "p" [] [
          t (s "nope1")];
        w (["010"%char] ++ s "    ");
        k "div" [] [
          w (["010"%char] ++ s "      ");
          k "p" [] [
            t (s "nope2")];
          w (["010"%char] ++ s "      ");
          k "p" [] [
            t (s "nope3")];
          w (["010"%char] ++ s "      ");
          k "h1" [] [
            t (s "nope4")];
          w (["010"%char] ++ s "      ");
          k "h2" [] [
            t (s "nope5")];
          w (["010"%char] ++ s "      ");
          k "h3" [] [
            t (s "nope6")];
          w (["010"%char] ++ s "      ");
          k "h4" [] [
            t (s "nope7")];
          w (["010"%char] ++ s "      ");
          k "h5" [] [
            t (s "nope8")];
          w (["010"%char] ++ s "      ");
          k "h6" [] [
            t (s "nope9")];
          w (["010"%char] ++ s "      ");
          e (Some (s "<h7>")) "h7" [] [
            t (s "nope10" ++ ["010"%char] ++ s "        ");
            e (Some (s "<CuStOmTaG>")) "customtag" [] [
              t (s "match1")];
            w (["010"%char] ++ s "        ");
            e (Some (s "<CuStOmTag>")) "customtag" [] [
              t (s "match2")];
            w (["010"%char] ++ s "      ")];
          w (["010"%char] ++ s "    ")];
        w (["010"%char] ++ s "    ");
        e (Some (s "<customtag>")) "customtag" [] [
          t (s "match3")];
        w (["010"%char] ++ s "  " ++ ["010"%char; "010"%char])]]]) 0
  (s "{""content"":[""match3"",""match1"",""match2""]}" ++ ["010"%char]).
Proof. vm_compute. auto. Qed.

Example type_match_custom_tag : blackbox
  (s "<body>" ++ ["010"%char] ++ s "  { <*:type-matches(/^CuStOmTaG$/) @text:content /> }" ++ ["010"%char] ++ s "</body>" ++ ["010"%char])
  (NDocument false [] [] [] [
    k "html" [] [
      k "head" [] [
        w (["010"%char] ++ s "  ")];
      w (["010"%char] ++ s "  ");
      k "body" [] [
        w (["010"%char] ++ s "    ");
        k "p" [] [
          t (s "nope1")];
        w (["010"%char] ++ s "    ");
        k "div" [] [
          w (["010"%char] ++ s "      ");
          k "p" [] [
            t (s "nope2")];
          w (["010"%char] ++ s "      ");
          k "p" [] [
            t (s "nope3")];
          w (["010"%char] ++ s "      ");
          k "h1" [] [
            t (s "nope4")];
          w (["010"%char] ++ s "      ");
          k "h2" [] [
            t (s "nope5")];
          w (["010"%char] ++ s "      ");
          k "h3" [] [
            t (s "nope6")];
          w (["010"%char] ++ s "      ");
          k "h4" [] [
            t (s "nope7")];
          w (["010"%char] ++ s "      ");
          k "h5" [] [
            t (s "nope8")];
          w (["010"%char] ++ s "      ");
          k "h6" [] [
            t (s "nope9")];
          w (["010"%char] ++ s "      ");
          e (Some (s "<h7>")) "h7" [] [
            t (s "nope10" ++ ["010"%char] ++ s "        ");
            e (Some (s "<CuStOmTaG>")) "customtag" [] [
              t (s "match1")];
            w (["010"%char] ++ s "        ");
            e (Some (s "<CuStOmTag>")) "customtag" [] [
              t (s "nope11")];
            w (["010"%char] ++ s "      ")];
          w (["010"%char] ++ s "    ")];
        w (["010"%char] ++ s "  " ++ ["010"%char; "010"%char])]]]) 0
  (s "{""content"":""match1""}" ++ ["010"%char]).
Proof. vm_compute. auto. Qed.

Example type_match_not : blackbox
  (s "<body>" ++ ["010"%char] ++ s "  <div>" ++ ["010"%char] ++ s "    <*:not(:type-matches(/^$/):type-matches(/^(p)$|^(h[1-6])$/)) @text:content />" ++ ["010"%char] ++ s "  </div>" ++ ["010"%char] ++ s "</body>" ++ ["010"%char])
  (NDocument false [] [] [] [
    k "html" [] [
      k "head" [] [
        w (["010"%char] ++ s "  ")];
      w (["010"%char] ++ s "  ");
      k "body" [] [
        w (["010"%char] ++ s "    ");
        k "div" [] [
          w (["010"%char] ++ s "      ");
          k "h1" [] [
            t (s "nope1")];
          w (["010"%char] ++ s "      ");
          k "p" [] [
            t (s "nope2")];
          w (["010"%char] ++ s "      ");
          k "a" [] [
            t (s "match1")];
          w (["010"%char] ++ s "      ");
          k "p" [] [
            t (s "nope3")];
          w (["010"%char] ++ s "      ");
          k "h1" [] [
            t (s "nope4")];
          w (["010"%char] ++ s "      ");
          k "h2" [] [
            t (s "nope5")];
          w (["010"%char] ++ s "      ");
          k "b" [] [
            t (s "match2")];
          w (["010"%char] ++ s "      ");
          k "h3" [] [
            t (s "nope6")];
          w (["010"%char] ++ s "      ");
          k "h4" [] [
            t (s "nope7")];
          w (["010"%char] ++ s "      ");
          k "h5" [] [
            t (s "nope8")];
          w (["010"%char] ++ s "      ");
          e (Some (s "<C>")) "c" [] [
            t (s "match3")];
          w (["010"%char] ++ s "      ");
          k "h6" [] [
            t (s "nope9")];
          w (["010"%char] ++ s "      ");
          e (Some (s "<h7>")) "h7" [] [
            t (s "match4")];
          w (["010"%char] ++ s "    ")];
        w (["010"%char] ++ s "  " ++ ["010"%char; "010"%char])]]]) 0
  (s "{""content"":[""match1"",""match2"",""match3"",""match4""]}" ++ ["010"%char]).
Proof. vm_compute. auto. Qed.

Example unicode_input_output : blackbox
  (s "<div @text:txt />" ++ ["010"%char])
  (NDocument false [] [] [] [
    implied "html" [
      implied "head" [];
      implied "body" [
        k "div" [] [
          t (["010"%char] ++ s "  This is some " ++ ["240"%char; "159"%char; "146"%char; "169"%char; "240"%char; "159"%char; "146"%char; "169"%char; "240"%char; "159"%char; "146"%char; "169"%char] ++ s " content" ++ ["010"%char])];
        w ["010"%char]]]]) 0
  (s "{""txt"":""This is some " ++ ["240"%char; "159"%char; "146"%char; "169"%char; "240"%char; "159"%char; "146"%char; "169"%char; "240"%char; "159"%char; "146"%char; "169"%char] ++ s " content""}" ++ ["010"%char]).
Proof. vm_compute. auto. Qed.
