(** The work of the conditions: the matches of Match.v again, with the number of
    characters that StripTags appends and of children that the loops of the
    matches look at. Not counted: attributes, inner HTML, the value tests and the
    functions of users. *)

From Coq Require Import Ascii String NArith ZArith Bool List.
From Verif Require Import Base StringUtil Tags Dom NodeUtil Values Match Rule RuleMatching CaptureState CondState TextCost.
Import ListNotations.

(** Calling a CaptureFunction, Builtins.cpp 30-49. *)
Definition function_work (f : capture_function) (n : node) : nat :=
  match f with
  | TextBuiltin => snd (StripTags_c true n)
  | StripTagsBuiltin => snd (StripTags_c false n)
  | InnerHtmlBuiltin | UserFunction _ => 0
  end.

(** The loop of count_preceding_siblings, NthChildMatch.cpp 100-112. *)
Fixpoint looks_up (l : list node) (i index : nat) : nat :=
  match l with
  | [] => 0
  | _ :: l' => S (if Nat.eqb i index then 0 else looks_up l' (S i) index)
  end.

(** The loop of count_following_siblings, NthChildMatch.cpp 137-150. *)
Fixpoint looks_down (l : list node) (index : nat) : nat :=
  match l with
  | [] => 0
  | _ :: l' =>
      if Nat.ltb (length l') index then 0
      else S (if Nat.eqb (length l') index then 0 else looks_down l' index)
  end.

(** The loop of OnlyChildMatch::matches, OnlyChildMatch.cpp 41-48. *)
Fixpoint only_child_looks (of_type : bool) (count_tag : tag) (l : list node) (i index : nat) : nat :=
  match l with
  | [] => 0
  | child :: l' =>
      S (if (match child with
             | NElement t _ _ _ => negb (Nat.eqb i index) && (negb of_type || (t =? count_tag)%N)
             | _ => false
             end)
         then 0
         else only_child_looks of_type count_tag l' (S i) index)
  end.

(** Match::matches. A NegateMatch asks its matches up to the first one that does
    not say no, NegateMatch.cpp 58-69. *)
Fixpoint condition_work (E : engine) (d : node) (m : mtch) (p : npath) : nat :=
  match nget d p with
  | None => 0
  | Some n =>
      match m with
      | ChildCountMatch _ => match n with NElement _ _ _ children => length children | _ => 0 end
      | FunctionValueMatch (Some f) (Some _) => function_work f n
      | NegateMatch ms =>
          (fix loop (l : list (option mtch)) : nat :=
             match l with
             | [] => 0
             | None :: l' => loop l'
             | Some m' :: l' =>
                 condition_work E d m' p +
                 match mtch_matches E d m' p with Ok false => loop l' | _ => 0 end
             end) ms
      | NthChildMatch _ _ o =>
          match n, p with
          | NElement _ _ _ _, i :: pp =>
              match nget d pp with
              | Some (NElement _ _ _ cs) => if opt_first o then looks_up cs 0 i else looks_down (rev cs) i
              | _ => 0
              end
          | _, _ => 0
          end
      | OnlyChildMatch of_type =>
          match n, p with
          | NElement t _ _ _, i :: pp =>
              match nget d pp with
              | Some (NElement _ _ _ cs) => only_child_looks of_type t cs 0 i
              | _ => 0
              end
          | _, _ => 0
          end
      | _ => 0
      end
  end.

(** What a call of a match does. *)
Definition reply_of (o : outcome bool) : reply :=
  match o with Ok b => Says b | Throw e => Raises e | UB u => Breaks u | OutOfFuel => Says false end.

(** The matches of the rule [R], with the work done so far as the state. *)
Definition working (E : engine) (R : rule) (D : node) : match_action nat :=
  fun rp k p w =>
    match rget R rp with
    | Some r =>
        match nth_error (r_matches r) k with
        | Some (Some m) => (w + condition_work E D m p, reply_of (mtch_matches E D m p))
        | _ => (w, Says false)
        end
    | None => (w, Says false)
    end.
