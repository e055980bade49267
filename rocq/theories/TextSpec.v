(** Vocabulary for the statements about the text and the serialisation of nodes
    and about error positions. *)

From Coq Require Import Ascii String NArith ZArith Bool List.
From Verif Require Import Base Tags Dom StringSpec.
Import ListNotations.

Definition newline : ascii := "010"%char.

(** ** Text *)

(** The node and all nodes below it that are reached through elements, in
    document order. *)
Fixpoint reached (n : node) : list node :=
  n :: match n with
       | NElement _ _ _ children => flat_map reached children
       | _ => []
       end.

(** The text of a text or whitespace node itself. *)
Definition own_text (n : node) : str :=
  match n with NText x | NWhitespace x => c_str x | _ => [] end.

(** [m] stands below [n] at [p], and all nodes from [n] to the parent of [m] are
    elements. *)
Inductive below (n : node) : npath -> node -> Prop :=
| below_self : below n [] n
| below_child i p t orig attrs cs m :
    below n p (NElement t orig attrs cs) -> nth_error cs i = Some m -> below n (i :: p) m.

(** The concatenated text of a node. *)
Definition full_text (n : node) : str := concat (map own_text (reached n)).

(** [y] is [x] with newlines inserted. *)
Inductive newlines_added : str -> str -> Prop :=
| added_nil : newlines_added [] []
| added_same c x y : newlines_added x y -> newlines_added (c :: x) (c :: y)
| added_newline x y : newlines_added x y -> newlines_added x (newline :: y).

(** [y] is [x] without its blanks. *)
Inductive without_blanks : str -> str -> Prop :=
| without_nil : without_blanks [] []
| without_blank c x y : blank c -> without_blanks x y -> without_blanks (c :: x) y
| without_other c x y : ~ blank c -> without_blanks x y -> without_blanks (c :: x) (c :: y).

(** Elements that break lines: all but those that are part of running text. *)
Definition inline_names : list str :=
  map s ["a"; "abbr"; "acronym"; "b"; "bdo"; "big"; "cite"; "code"; "del"; "dfn"; "em"; "fieldset"; "font"; "i"; "img"; "ins";
         "kbd"; "label"; "legend"; "map"; "object"; "q"; "s"; "samp"; "small"; "span"; "strike"; "strong"; "sub"; "sup"; "tt";
         "u"; "var"]%string.
Definition block (n : node) : Prop :=
  exists t orig attrs cs, n = NElement t orig attrs cs /\ ~ In (gumbo_normalized_tagname t) inline_names.

(** ** Serialisation *)

(** What inner HTML shows of a node. *)
Inductive view :=
| VText (x : str)
| VComment (x : str)
| VElement (name : str) (attrs : list (str * option str)) (children : list view).

Definition void_names : list str :=
  map s ["area"; "base"; "br"; "col"; "embed"; "hr"; "img"; "input"; "keygen"; "link"; "meta"; "param"; "source"; "track"; "wbr"]%string.

Definition attr_view (a : attr) : str * option str :=
  (match a_ns a with NsNone => s "" | NsXlink => s "xlink:" | NsXml => s "xml:" | NsXmlns => s "xmlns:" end ++ a_name a,
   a_value a).

Fixpoint view_of (n : node) : view :=
  match n with
  | NElement t orig attrs cs | NTemplate t orig attrs cs =>
      VElement (if (t =? TAG_UNKNOWN)%N then gumbo_tag_from_original_text orig else gumbo_normalized_tagname t)
               (map attr_view attrs) (map view_of cs)
  | NText x | NWhitespace x => VText x
  | NComment x => VComment x
  | _ => VText []
  end.

(** The trees whose serialisation is unambiguous. Names have none of the
    characters that separate them. *)
Definition name_ok (x : str) : Prop :=
  x <> [] /\ Forall (fun c => ~ In c [" "; "="; "/"; ">"; """"; "!"]%char) x.
Definition attr_ok (a : str * option str) : Prop :=
  name_ok (fst a) /\ ~ In NUL (fst a) /\ (forall v, snd a = Some v -> ~ In NUL v).
Definition is_text (v : view) : Prop := exists x, v = VText x.

Inductive view_ok : view -> Prop :=
| ok_text x : x <> [] -> ~ In "<"%char x -> ~ In NUL x -> view_ok (VText x)
| ok_comment x : ~ occurs_in (s "-->") x -> ~ In NUL x -> view_ok (VComment x)
| ok_element name attrs cs :
    name_ok name -> Forall attr_ok attrs -> views_ok cs ->
    (In name void_names -> cs = []) ->
    view_ok (VElement name attrs cs)
with views_ok : list view -> Prop :=
| ok_nil : views_ok []
| ok_cons v l : view_ok v -> views_ok l ->
    (* no two adjacent texts *)
    (is_text v -> match l with [] => True | w :: _ => ~ is_text w end) ->
    views_ok (v :: l).

(** The node is a comment, text, or element or template with a proper name, and so
    are those below it. *)
Fixpoint node_ok (n : node) : Prop :=
  match n with
  | NElement t orig attrs cs | NTemplate t orig attrs cs =>
      ((t < TAG_UNKNOWN)%N \/ (t = TAG_UNKNOWN /\ ~ In (gumbo_tag_from_original_text orig) tag_names)) /\
      (fix all (l : list node) : Prop := match l with [] => True | c :: l' => node_ok c /\ all l' end) cs
  | NText _ | NWhitespace _ | NComment _ => True
  | _ => False
  end.

(** ** Error positions *)

(** [x] is [before], which is empty or ends with a newline, and the last line. *)
Definition last_line (x before line : str) : Prop :=
  x = before ++ line /\ ~ In newline line /\ (before = [] \/ exists b, before = b ++ [newline]).

Definition newlines (x : str) : nat := count_occ ascii_dec x newline.

(** The digits of a number. *)
Definition digit_of (d : N) : ascii := ascii_of_N (48 + d).

(** [x] is the decimal representation of [n]: digits without leading zeros. *)
Inductive decimal_of : N -> str -> Prop :=
| decimal_digit d : (d < 10)%N -> decimal_of d [digit_of d]
| decimal_more n d x : (0 < n)%N -> (d < 10)%N -> decimal_of n x -> decimal_of (10 * n + d) (x ++ [digit_of d]).

(** [out] shows the lines of [text], all of which end with a newline, with
    numbers from [k] on that are padded to [w] characters. *)
Inductive listing (w : nat) : N -> str -> str -> Prop :=
| listing_nil k : listing w k [] []
| listing_line k line text pad number out :
    ~ In newline line -> decimal_of k number -> Forall (eq " "%char) pad -> length pad + length number = w ->
    listing w (k + 1) text out ->
    listing w k (line ++ [newline] ++ text) (pad ++ number ++ s ": " ++ line ++ [newline] ++ out).

(** The part of [rest] that is shown: its first character, unless it is a
    newline. *)
Definition shown_of (rest : str) : str :=
  match rest with
  | [] => []
  | c :: _ => if ascii_dec c newline then [] else [c]
  end.

(** The message about an error at the end of [before ++ line] in
    [before ++ line ++ rest], where [line] is the text of the last line, with
    [mark] offending characters. *)
Definition location_message (before line rest : str) (mark : nat) (msg : str) : Prop :=
  exists head earlier number marker,
    msg = head ++ earlier ++ number ++ s ": " ++ line ++ shown_of rest ++ [newline] ++ marker /\
    (* the head *)
    (rest = [] /\ head = s "at end of input:" ++ [newline; newline] \/
     rest <> [] /\ exists column, decimal_of (N.of_nat (length line + 1)) column /\
       head = s "at line " ++ number ++ s ", char " ++ column ++ s ":" ++ [newline; newline]) /\
    (* the numbered lines *)
    decimal_of (N.of_nat (newlines before + 1)) number /\
    listing (length number) 1 before earlier /\
    (* the marker ends under the offending character *)
    (mark = 0 \/ (exists c, In c (before ++ line ++ rest) /\ (128 <= N_of_ascii c)%N) -> marker = []) /\
    (mark <> 0 -> (forall c, In c (before ++ line ++ rest) -> (N_of_ascii c < 128)%N) ->
     exists indent carets,
       marker = repeat " "%char indent ++ repeat "^"%char carets ++ s " here" ++ [newline] /\
       carets = Nat.min (length line + 1) mark /\
       indent + carets = length (number ++ s ": " ++ line) + 1).
