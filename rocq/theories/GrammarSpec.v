(** What it means that the generated tables implement the grammar (C41). *)

From Coq Require Import Ascii String NArith Bool List.
From Verif Require Import Base Regular ParserTables Parser Grammar.
Import ListNotations.

(** The machine reads [x] from state [cs] without a lexical error: the lists of
    actions it runs, one for every character, and the state it ends in. *)
Fixpoint walk (cs : N) (x : str) : option (list (list N) * N) :=
  match x with
  | [] => Some ([], cs)
  | c :: x' =>
      match machine_step cs c with
      | Ok (cs', acts) =>
          if (cs' =? hext_error)%N then None
          else match walk cs' x' with
               | Some (tr, q) => Some (acts :: tr, q)
               | None => None
               end
      | _ => None
      end
  end.

(** The texts of a grammar, and their prefixes. *)
Definition text_of (r : re) (x : str) : Prop := exists w, L r w /\ chars w = x.
Definition prefix_of (r : re) (x : str) : Prop := exists y, text_of r (x ++ y).

(** The actions of a word after its last character. *)
Fixpoint last_marks (w : list item) : list N :=
  match w with
  | [] => []
  | IAct a :: w' => if existsb (fun i => match i with IChr _ => true | _ => false end) w'
                    then last_marks w' else a :: last_marks w'
  | IChr _ :: w' => last_marks w'
  end.

(** Grammar [r] embeds action [a] before the last character of [x]. *)
Definition embeds_before (r : re) (x : str) (a : N) : Prop :=
  exists u c v, L r (u ++ IChr c :: v) /\ chars u ++ [c] = x /\ In a (last_marks u).

(** Grammar [r] embeds action [a] after the complete text [x]. *)
Definition embeds_after (r : re) (x : str) (a : N) : Prop :=
  exists w, L r w /\ chars w = x /\ In a (last_marks w).

(** In the order of their numbers, without repetition. *)
Fixpoint ascending_acts (l : list N) : Prop :=
  match l with
  | [] => True
  | a :: l' => (forall b, In b l' -> (a < b)%N) /\ ascending_acts l'
  end.
