(** Model of libhext/src/NodeUtil.cpp (except NextNode, see Dom.v). *)

From Coq Require Import Ascii String NArith ZArith Bool List.
From Verif Require Import Base Tags Dom StringUtil.
Import ListNotations.

Definition tag_in (t : tag) (l : list tag) : bool := existsb (N.eqb t) l.

(** TagIsSelfClosing, NodeUtil.cpp 216-249. *)
Definition TagIsSelfClosing (t : tag) : bool :=
  tag_in t [TAG_AREA; TAG_BASE; TAG_BR; TAG_COL; TAG_EMBED; TAG_HR; TAG_IMG;
            TAG_INPUT; TAG_KEYGEN; TAG_LINK; TAG_META; TAG_PARAM; TAG_SOURCE;
            TAG_TRACK; TAG_WBR].

(** TagWrapsText, NodeUtil.cpp 252-302. *)
Definition TagWrapsText (t : tag) : bool :=
  negb (tag_in t
    [TAG_A; TAG_ABBR; TAG_ACRONYM; TAG_B; TAG_BDO; TAG_BIG; TAG_CITE; TAG_CODE;
     TAG_DEL; TAG_DFN; TAG_EM; TAG_FIELDSET; TAG_FONT; TAG_I; TAG_IMG; TAG_INS;
     TAG_KBD; TAG_LABEL; TAG_LEGEND; TAG_MAP; TAG_OBJECT; TAG_Q; TAG_S; TAG_SAMP;
     TAG_SMALL; TAG_SPAN; TAG_STRIKE; TAG_STRONG; TAG_SUB; TAG_SUP; TAG_TT; TAG_U;
     TAG_VAR]).

(** StripTags, NodeUtil.cpp 32-69, on a non-null node. Text pointers are C
    strings, hence [c_str]. *)
Fixpoint StripTags (smart_wrap : bool) (n : node) : str :=
  match n with
  | NElement _ _ _ children =>
      (fix loop (l : list node) : str :=
         match l with
         | [] => []
         | c :: l' =>
             (match smart_wrap, c with
              | true, NElement t _ _ _ =>
                  if TagWrapsText t
                  then ["010"%char] ++ StripTags smart_wrap c ++ ["010"%char]
                  else StripTags smart_wrap c
              | _, _ => StripTags smart_wrap c
              end) ++ loop l'
         end) children
  | NText x | NWhitespace x => c_str x
  | _ => []
  end.

(** NodeText, NodeUtil.cpp 27-30. *)
Definition NodeText (n : node) : str := TrimAndCollapseWs (StripTags true n).

(** [std::quoted] with the default delimiter and escape characters. *)
Fixpoint quoted_body (x : str) : str :=
  match x with
  | [] => []
  | c :: x' =>
      if Ascii.eqb c """"%char || Ascii.eqb c "\"%char
      then "\"%char :: c :: quoted_body x'
      else c :: quoted_body x'
  end.
Definition std_quoted (x : str) : str := [""""%char] ++ quoted_body x ++ [""""%char].

(** SerializeAttribute, NodeUtil.cpp 141-167 (names are never null). *)
Definition SerializeAttribute (a : attr) : str :=
  s " " ++
  (match a_ns a with
   | NsNone => []
   | NsXlink => s "xlink:"
   | NsXml => s "xml:"
   | NsXmlns => s "xmlns:"
   end) ++
  c_str (a_name a) ++
  (match a_value a with
   | Some v => s "=" ++ std_quoted (c_str v)
   | None => []
   end).

(** SerializeElementTag, NodeUtil.cpp 202-214. *)
Definition SerializeElementTag (t : tag) (orig : option str) : str :=
  if (t =? TAG_UNKNOWN)%N then gumbo_tag_from_original_text orig
  else gumbo_normalized_tagname t.

(** SerializeDocument, NodeUtil.cpp 132-139 (the three strings are never null
    in a document with a doctype). *)
Definition SerializeDocument (dname pubid sysid : str) : str :=
  s "<!DOCTYPE" ++ s " " ++ c_str dname ++ s " " ++ c_str pubid ++ s " "
    ++ c_str sysid ++ s ">" ++ ["010"%char].

(** SerializeNode and SerializeElement, NodeUtil.cpp 87-130 and 169-200. *)
Fixpoint SerializeNode (n : node) : str :=
  match n with
  | NDocument has_doctype dname pubid sysid _ =>
      if has_doctype then SerializeDocument dname pubid sysid else []
  | NElement t orig attrs children | NTemplate t orig attrs children =>
      s "<" ++ SerializeElementTag t orig
        ++ concat (map SerializeAttribute attrs)
        ++ (if TagIsSelfClosing t then s "/>"
            else s ">"
                 ++ (fix loop (l : list node) : str :=
                       match l with [] => [] | c :: l' => SerializeNode c ++ loop l' end) children
                 ++ s "</" ++ SerializeElementTag t orig ++ s ">")
  | NCdata _ => []
  | NComment x => s "<!--" ++ c_str x ++ s "-->"
  | NText x | NWhitespace x => c_str x
  end.

(** NodeInnerHtml, NodeUtil.cpp 71-85. *)
Definition NodeInnerHtml (n : node) : str :=
  match n with
  | NElement _ _ _ children => concat (map SerializeNode children)
  | _ => []
  end.
