(** Model of the Gumbo DOM that hext works on (gumbo.h), and of
    NextNode (libhext/src/NodeUtil.cpp).

    A parsed document is a tree. A [GumboNode*] is a path into this tree: the
    list of child indices from the node up to the root, so the head is
    [index_within_parent] and the tail is the path of [parent]. The empty path
    is the document node; its [parent] is the null pointer. [None] is the null
    pointer. That the [parent] and [index_within_parent] fields written by Gumbo
    agree with the child vectors is part of Gumbo's contract and built into
    this representation. *)

From Coq Require Import Ascii String NArith ZArith Bool List.
From Verif Require Import Base Tags.
Import ListNotations.

(** GumboAttributeNamespaceEnum *)
Inductive attr_ns := NsNone | NsXlink | NsXml | NsXmlns.

(** GumboAttribute: [value] is [None] for a null pointer. *)
Record attr := mk_attr { a_ns : attr_ns; a_name : str; a_value : option str }.

(** GumboNode. [orig] is GumboElement::original_tag, [None] if its data pointer
    is null. CDATA, comment, text and whitespace nodes carry a GumboText. *)
Inductive node : Type :=
| NDocument (has_doctype : bool) (dname pubid sysid : str) (children : list node)
| NElement (t : tag) (orig : option str) (attrs : list attr) (children : list node)
| NTemplate (t : tag) (orig : option str) (attrs : list attr) (children : list node)
| NText (text : str)
| NCdata (text : str)
| NComment (text : str)
| NWhitespace (text : str).

Definition is_element (n : node) : bool :=
  match n with NElement _ _ _ _ => true | _ => false end.

Definition children_of (n : node) : list node :=
  match n with
  | NDocument _ _ _ _ c | NElement _ _ _ c | NTemplate _ _ _ c => c
  | _ => []
  end.

(** A non-null node pointer. *)
Definition npath := list nat.
(** A possibly null node pointer. *)
Definition nptr := option npath.

(** Dereferencing a pointer into the document [d]. *)
Fixpoint nget (d : node) (p : npath) : option node :=
  match p with
  | [] => Some d
  | i :: pp =>
      match nget d pp with
      | Some par => nth_error (children_of par) i
      | None => None
      end
  end.

Definition deref (d : node) (p : npath) : outcome node :=
  match nget d p with Some n => Ok n | None => UB BadPointer end.

Definition npath_eqb (a b : npath) : bool :=
  if list_eq_dec PeanoNat.Nat.eq_dec a b then true else false.

(** Comparison of possibly null node pointers. *)
Definition nptr_eqb (a b : nptr) : bool :=
  match a, b with
  | None, None => true
  | Some x, Some y => npath_eqb x y
  | _, _ => false
  end.

Open Scope outcome_scope.

(** NextNode, NodeUtil.cpp 305-317. *)
Definition NextNode (d : node) (p : nptr) : outcome nptr :=
  match p with
  | None => Ok None
  | Some q =>
      let! _ := deref d q in
      match q with
      | [] => UB NullDeref                (* node->parent->type, parent == nullptr *)
      | i :: pp =>
          let! par := deref d pp in
          if is_element par then
            if Nat.ltb (S i) (length (children_of par)) then Ok (Some (S i :: pp))
            else Ok None
          else Ok None
      end
  end.

(** [gumbo_get_attribute]: the first attribute with this name, ignoring case. *)
Fixpoint gumbo_get_attribute (l : list attr) (name : str) : option attr :=
  match l with
  | [] => None
  | a :: l' => if str_eqb_nocase (a_name a) name then Some a
               else gumbo_get_attribute l' name
  end.

(** The part of [gumbo_tag_from_original_text] that ends a start tag's name at
    the first whitespace or slash. *)
Fixpoint cut_tag_name (x : str) : str :=
  match x with
  | [] => []
  | c :: x' =>
      match c with
      | " "%char | "009"%char | "010"%char | "011"%char | "012"%char | "013"%char
      | "/"%char => []
      | _ => c :: cut_tag_name x'
      end
  end.

(** [gumbo_tag_from_original_text]: strip the delimiters of a tag's source
    text. A null text stays empty. *)
Definition gumbo_tag_from_original_text (orig : option str) : str :=
  match orig with
  | None => []
  | Some ("<"%char :: "/"%char :: x) => removelast x
  | Some (_ :: x) => cut_tag_name (removelast x)
  | Some [] => []
  end.
