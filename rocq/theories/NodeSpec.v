(** Vocabulary for the statements about tags, conditions and captures of a
    single node. *)

From Coq Require Import Ascii String NArith ZArith Bool List.
From Verif Require Import Base Tags Dom Values Match Rule StringSpec.
Import ListNotations.

(** C20. The tag of rule [r] accepts node [n]. *)
Definition tag_accepts (r : rule) (n : node) : Prop :=
  r_tag r = TAG_ANY \/
  exists orig attrs cs, n = NElement (r_tag r) orig attrs cs /\
    (r_tag r <> TAG_UNKNOWN \/
     exists name source, r_tagname r = Some name /\ orig = Some source /\ source <> [] /\
       equal_ignoring_case name (gumbo_tag_from_original_text orig)).

(** The tag name of the rule or that in the source has no NUL byte. (The
    comparison is strncasecmp, which stops at a NUL in both.) *)
Definition names_ok (r : rule) (n : node) : Prop :=
  (forall name, r_tagname r = Some name -> ~ In NUL name) \/
  (forall t orig attrs cs, n = NElement t orig attrs cs -> ~ In NUL (gumbo_tag_from_original_text orig)).

(** An element that counts: any, or one with tag [t]. *)
Definition kind (of_type : bool) (t : tag) (n : node) : bool :=
  match n with
  | NElement t' _ _ _ => negb of_type || (t' =? t)%N
  | _ => false
  end.

(** C21. The position of child [i] among the children that count, from the start
    or from the end. *)
Definition position (o : nth_option) (t : tag) (children : list node) (i : nat) : Z :=
  Z.of_nat (length (filter (kind (opt_of_type o) t)
                      (if opt_first o then firstn (S i) children else skipn i children))).

(** [pos] is of the form [a*m + b]. *)
Definition of_form (a b pos : Z) : Prop := exists m, (0 <= m)%Z /\ pos = (a * m + b)%Z.

(** C27. The first attribute of this name. *)
Definition first_attribute (name : str) (attrs : list attr) (a : attr) : Prop :=
  exists l1 l2, attrs = l1 ++ a :: l2 /\ equal_ignoring_case (a_name a) name /\
    Forall (fun a' => ~ equal_ignoring_case (a_name a') name) l1.
Definition no_attribute (name : str) (attrs : list attr) : Prop :=
  Forall (fun a' => ~ equal_ignoring_case (a_name a') name) attrs.

(** C31. The name that an element has in the document. *)
Definition element_name (n : node) (name : str) : Prop :=
  exists t orig attrs cs, n = NElement t orig attrs cs /\
    name = if (t =? TAG_UNKNOWN)%N then str_lower (gumbo_tag_from_original_text orig) else gumbo_normalized_tagname t.
