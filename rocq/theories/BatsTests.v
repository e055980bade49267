(** The project's tests of the command line (test/bats/htmlext.bats), run on the
    model of htmlext.

    Like Blackbox.v these are tests of the model. The scanning of the arguments
    is that of boost::program_options and not modelled, so the tests of single
    options without a value, --help and --version are not repeated. A file
    <(echo text) is called [text] here. *)

From Coq Require Import Ascii String NArith ZArith Bool List.
From Verif Require Import Base StringUtil Tags Dom NodeUtil Values Match Rule RuleMatching Parser Convert Cli JsonText TestRegex Blackbox.
Import ListNotations.

(** The document <b>x</b> with the line break of echo, or an empty a. *)
Definition b_document (x : string) : node :=
  NDocument false [] [] [] [implied "html" [implied "head" []; implied "body" [k "b" [] [t (s x)]; w ["010"%char]]]].
Definition echo : surroundings :=
  mk_surroundings (fun name => inl (name ++ ["010"%char]))
    (fun text => (match find (fun x => str_eqb text (s "<b>" ++ s x ++ s "</b>" ++ ["010"%char])) ["bla"; "aaa"; "bbb"; "ccc"]%string with
                  | Some x => b_document x
                  | None => NDocument false [] [] [] [implied "html" [implied "head" []; implied "body" [k "a" [] []]]]
                  end, Some [0])) test_engine rapidjson (fun _ => s "what").
Definition htmlext (hexts strings htmls : list string) (lint : bool) (filter : option string) (max : N) (pretty array : bool) : outcome ending :=
  main 3000 echo (mk_options (map s hexts) (map s strings) (map s htmls) lint (option_map s filter) max (mk_json_option pretty array)).
(** bats's $status and $output ([nl] after each line; bats removes the last) and
    the number of lines. *)
Definition status (o : outcome ending) : option nat := match o with Ok x => Some (if failed x then 1 else 0) | _ => None end.
Definition printed (o : outcome ending) (lines : list string) : Prop :=
  exists x, o = Ok x /\ failed x = false /\ out x = concat (map (fun l => s l ++ ["010"%char]) lines).
Definition line_count (o : outcome ending) : option nat :=
  match o with Ok x => Some (length (filter (Ascii.eqb "010") (out x))) | _ => None end.

Local Open Scope string_scope.

Example lint :
  status (htmlext [] ["<a />"] [] true None 10000 false false) = Some 0 /\
  status (htmlext [] ["<a @err />"] [] true None 10000 false false) = Some 1 /\
  status (htmlext ["<a />"] [] [] true None 10000 false false) = Some 0 /\
  status (htmlext ["<a />"] ["<b />"] [] true None 10000 false false) = Some 0 /\
  status (htmlext ["<a />"] ["<b @err />"] [] true None 10000 false false) = Some 1.
Proof. vm_compute. repeat split. Qed.

Example filter_prints : printed (htmlext [] ["<b @text:x />"] ["<b>bla</b>"] false (Some "x") 10000 false false) ["bla"].
Proof. eexists. vm_compute. repeat split. Qed.

Example pretty_lines :
  line_count (htmlext [] ["<b @text:x />"] ["<b>bla</b>"] false None 10000 true false) = Some 3 /\
  line_count (htmlext [] ["<b @text:x />"] ["<b>bla</b>"] false None 10000 true true) = Some 5.
Proof. vm_compute. repeat split. Qed.

Example compact_lines :
  line_count (htmlext [] ["<b @text:x />"] ["<b>bla</b>"] false None 10000 false false) = Some 1 /\
  line_count (htmlext [] ["<b @text:x />"] ["<b>bla</b>"] false None 10000 false true) = Some 1.
Proof. vm_compute. repeat split. Qed.

Example max_searches :
  status (htmlext [] ["<b @text:x />"] ["<b>bla</b>"] false None 1 false false) = Some 1 /\
  printed (htmlext [] ["<b @text:x />"] ["<b>bla</b>"] false (Some "x") 0 false false) ["bla"].
Proof. split; [|eexists]; vm_compute; repeat split. Qed.

Example array_of_one :
  printed (htmlext [] ["<b @text:x @text:y />"] ["<b>bla</b>"] false None 10000 false true) ["[{""x"":""bla"",""y"":""bla""}]"].
Proof. eexists. vm_compute. repeat split. Qed.

Example positional :
  status (htmlext ["<a />"] [] ["<a></a>"] false None 10000 false false) = Some 0 /\
  printed (htmlext ["<b @text:x />"] [] ["<b>aaa</b>"] false (Some "x") 10000 false false) ["aaa"] /\
  printed (htmlext ["<b @text:x />"] [] ["<b>aaa</b>"; "<b>bbb</b>"; "<b>ccc</b>"] false (Some "x") 10000 false false) ["aaa"; "bbb"; "ccc"].
Proof. split; [|split; eexists]; vm_compute; repeat split. Qed.

Example duplicate_capture :
  printed (htmlext [] ["<b @text:x @text:x />"] ["<b>bla</b>"] false None 10000 false false) ["{""x"":[""bla"",""bla""]}"] /\
  printed (htmlext [] ["<b @text:x @text:x @text:x />"] ["<b>bla</b>"] false None 10000 false false) ["{""x"":[""bla"",""bla"",""bla""]}"].
Proof. split; eexists; vm_compute; repeat split. Qed.
