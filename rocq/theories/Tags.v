(** The HTML tags of libhext/include/hext/HtmlTag.h 30-337.

    A [GumboTag] (and its equal valued [HtmlTag]) is modelled by its position
    in the enumeration. The spelling of the names is that of
    [gumbo_normalized_tagname]: lower case, with '_' written as '-'. Gumbo itself
    is not part of the repository; its name functions are modelled from their
    documentation in gumbo.h. *)

From Coq Require Import Ascii String NArith Bool List.
From Verif Require Import Base.
Import ListNotations.

Definition tag := N.
Local Open Scope N_scope.

(** HtmlTag.h 32-331, in order. *)
Definition tag_names : list str := map s [
  "html"; "head"; "title"; "base"; "link"; "meta"; "style"; "script"; "noscript";
  "template"; "body"; "article"; "section"; "nav"; "aside"; "h1"; "h2"; "h3"; "h4"; "h5";
  "h6"; "hgroup"; "header"; "footer"; "address"; "p"; "hr"; "pre"; "blockquote"; "ol";
  "ul"; "li"; "dl"; "dt"; "dd"; "figure"; "figcaption"; "main"; "div"; "a"; "em";
  "strong"; "small"; "s"; "cite"; "q"; "dfn"; "abbr"; "data"; "time"; "code"; "var";
  "samp"; "kbd"; "sub"; "sup"; "i"; "b"; "u"; "mark"; "ruby"; "rt"; "rp"; "bdi"; "bdo";
  "span"; "br"; "wbr"; "ins"; "del"; "image"; "img"; "iframe"; "embed"; "object";
  "param"; "video"; "audio"; "source"; "track"; "canvas"; "map"; "area"; "math"; "mi";
  "mo"; "mn"; "ms"; "mtext"; "mglyph"; "malignmark"; "annotation-xml"; "svg";
  "foreignobject"; "desc"; "table"; "caption"; "colgroup"; "col"; "tbody"; "thead";
  "tfoot"; "tr"; "td"; "th"; "form"; "fieldset"; "legend"; "label"; "input"; "button";
  "select"; "datalist"; "optgroup"; "option"; "textarea"; "keygen"; "output"; "progress";
  "meter"; "details"; "summary"; "menu"; "menuitem"; "applet"; "acronym"; "bgsound";
  "dir"; "frame"; "frameset"; "noframes"; "isindex"; "listing"; "xmp"; "nextid";
  "noembed"; "plaintext"; "rb"; "strike"; "basefont"; "big"; "blink"; "center"; "font";
  "marquee"; "multicol"; "nobr"; "spacer"; "tt"; "rtc"
]%string.

Definition TAG_HTML : tag := 0.
Definition TAG_HEAD : tag := 1.
Definition TAG_TITLE : tag := 2.
Definition TAG_BASE : tag := 3.
Definition TAG_LINK : tag := 4.
Definition TAG_META : tag := 5.
Definition TAG_STYLE : tag := 6.
Definition TAG_SCRIPT : tag := 7.
Definition TAG_NOSCRIPT : tag := 8.
Definition TAG_TEMPLATE : tag := 9.
Definition TAG_BODY : tag := 10.
Definition TAG_ARTICLE : tag := 11.
Definition TAG_SECTION : tag := 12.
Definition TAG_NAV : tag := 13.
Definition TAG_ASIDE : tag := 14.
Definition TAG_H1 : tag := 15.
Definition TAG_H2 : tag := 16.
Definition TAG_H3 : tag := 17.
Definition TAG_H4 : tag := 18.
Definition TAG_H5 : tag := 19.
Definition TAG_H6 : tag := 20.
Definition TAG_HGROUP : tag := 21.
Definition TAG_HEADER : tag := 22.
Definition TAG_FOOTER : tag := 23.
Definition TAG_ADDRESS : tag := 24.
Definition TAG_P : tag := 25.
Definition TAG_HR : tag := 26.
Definition TAG_PRE : tag := 27.
Definition TAG_BLOCKQUOTE : tag := 28.
Definition TAG_OL : tag := 29.
Definition TAG_UL : tag := 30.
Definition TAG_LI : tag := 31.
Definition TAG_DL : tag := 32.
Definition TAG_DT : tag := 33.
Definition TAG_DD : tag := 34.
Definition TAG_FIGURE : tag := 35.
Definition TAG_FIGCAPTION : tag := 36.
Definition TAG_MAIN : tag := 37.
Definition TAG_DIV : tag := 38.
Definition TAG_A : tag := 39.
Definition TAG_EM : tag := 40.
Definition TAG_STRONG : tag := 41.
Definition TAG_SMALL : tag := 42.
Definition TAG_S : tag := 43.
Definition TAG_CITE : tag := 44.
Definition TAG_Q : tag := 45.
Definition TAG_DFN : tag := 46.
Definition TAG_ABBR : tag := 47.
Definition TAG_DATA : tag := 48.
Definition TAG_TIME : tag := 49.
Definition TAG_CODE : tag := 50.
Definition TAG_VAR : tag := 51.
Definition TAG_SAMP : tag := 52.
Definition TAG_KBD : tag := 53.
Definition TAG_SUB : tag := 54.
Definition TAG_SUP : tag := 55.
Definition TAG_I : tag := 56.
Definition TAG_B : tag := 57.
Definition TAG_U : tag := 58.
Definition TAG_MARK : tag := 59.
Definition TAG_RUBY : tag := 60.
Definition TAG_RT : tag := 61.
Definition TAG_RP : tag := 62.
Definition TAG_BDI : tag := 63.
Definition TAG_BDO : tag := 64.
Definition TAG_SPAN : tag := 65.
Definition TAG_BR : tag := 66.
Definition TAG_WBR : tag := 67.
Definition TAG_INS : tag := 68.
Definition TAG_DEL : tag := 69.
Definition TAG_IMAGE : tag := 70.
Definition TAG_IMG : tag := 71.
Definition TAG_IFRAME : tag := 72.
Definition TAG_EMBED : tag := 73.
Definition TAG_OBJECT : tag := 74.
Definition TAG_PARAM : tag := 75.
Definition TAG_VIDEO : tag := 76.
Definition TAG_AUDIO : tag := 77.
Definition TAG_SOURCE : tag := 78.
Definition TAG_TRACK : tag := 79.
Definition TAG_CANVAS : tag := 80.
Definition TAG_MAP : tag := 81.
Definition TAG_AREA : tag := 82.
Definition TAG_MATH : tag := 83.
Definition TAG_MI : tag := 84.
Definition TAG_MO : tag := 85.
Definition TAG_MN : tag := 86.
Definition TAG_MS : tag := 87.
Definition TAG_MTEXT : tag := 88.
Definition TAG_MGLYPH : tag := 89.
Definition TAG_MALIGNMARK : tag := 90.
Definition TAG_ANNOTATION_XML : tag := 91.
Definition TAG_SVG : tag := 92.
Definition TAG_FOREIGNOBJECT : tag := 93.
Definition TAG_DESC : tag := 94.
Definition TAG_TABLE : tag := 95.
Definition TAG_CAPTION : tag := 96.
Definition TAG_COLGROUP : tag := 97.
Definition TAG_COL : tag := 98.
Definition TAG_TBODY : tag := 99.
Definition TAG_THEAD : tag := 100.
Definition TAG_TFOOT : tag := 101.
Definition TAG_TR : tag := 102.
Definition TAG_TD : tag := 103.
Definition TAG_TH : tag := 104.
Definition TAG_FORM : tag := 105.
Definition TAG_FIELDSET : tag := 106.
Definition TAG_LEGEND : tag := 107.
Definition TAG_LABEL : tag := 108.
Definition TAG_INPUT : tag := 109.
Definition TAG_BUTTON : tag := 110.
Definition TAG_SELECT : tag := 111.
Definition TAG_DATALIST : tag := 112.
Definition TAG_OPTGROUP : tag := 113.
Definition TAG_OPTION : tag := 114.
Definition TAG_TEXTAREA : tag := 115.
Definition TAG_KEYGEN : tag := 116.
Definition TAG_OUTPUT : tag := 117.
Definition TAG_PROGRESS : tag := 118.
Definition TAG_METER : tag := 119.
Definition TAG_DETAILS : tag := 120.
Definition TAG_SUMMARY : tag := 121.
Definition TAG_MENU : tag := 122.
Definition TAG_MENUITEM : tag := 123.
Definition TAG_APPLET : tag := 124.
Definition TAG_ACRONYM : tag := 125.
Definition TAG_BGSOUND : tag := 126.
Definition TAG_DIR : tag := 127.
Definition TAG_FRAME : tag := 128.
Definition TAG_FRAMESET : tag := 129.
Definition TAG_NOFRAMES : tag := 130.
Definition TAG_ISINDEX : tag := 131.
Definition TAG_LISTING : tag := 132.
Definition TAG_XMP : tag := 133.
Definition TAG_NEXTID : tag := 134.
Definition TAG_NOEMBED : tag := 135.
Definition TAG_PLAINTEXT : tag := 136.
Definition TAG_RB : tag := 137.
Definition TAG_STRIKE : tag := 138.
Definition TAG_BASEFONT : tag := 139.
Definition TAG_BIG : tag := 140.
Definition TAG_BLINK : tag := 141.
Definition TAG_CENTER : tag := 142.
Definition TAG_FONT : tag := 143.
Definition TAG_MARQUEE : tag := 144.
Definition TAG_MULTICOL : tag := 145.
Definition TAG_NOBR : tag := 146.
Definition TAG_SPACER : tag := 147.
Definition TAG_TT : tag := 148.
Definition TAG_RTC : tag := 149.

(** HtmlTag.h 333: any tag name that is not in the list. *)
Definition TAG_UNKNOWN : tag := 150.
(** HtmlTag.h 336: only used in rules, never for nodes. *)
Definition TAG_ANY : tag := 512.

(** [gumbo_normalized_tagname]: the empty string for unknown tags. *)
Definition gumbo_normalized_tagname (t : tag) : str :=
  nth (N.to_nat t) tag_names [].

Fixpoint index_nocase (name : str) (l : list str) (i : N) : N :=
  match l with
  | [] => i
  | x :: l' => if str_eqb_nocase x name then i else index_nocase name l' (i + 1)
  end.

(** [gumbo_tag_enum]: look a name up ignoring ASCII case. *)
Definition gumbo_tag_enum (name : str) : tag := index_nocase name tag_names 0.
