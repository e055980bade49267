(** Regex libraries that give up less often (C96). *)

From Coq Require Import Ascii String NArith ZArith Bool List.
From Verif Require Import Base Values RegexSpec.
Import ListNotations.

(** Where [E] answers, [E'] gives the same answer, on the regexes [l]. *)
Definition extends (E E' : engine) (l : list use) : Prop :=
  (forall rx, In (Searches rx) l -> forall x a, eng_search E rx x = Some a -> eng_search E' rx x = Some a) /\
  (forall rx format, In (Replaces rx format) l -> forall x y, eng_replace E rx x format = Some y -> eng_replace E' rx x format = Some y).

(** The library gives up on a regex of [l]. *)
Inductive gives_up (E : engine) (l : list use) : Prop :=
| up_search rx x : In (Searches rx) l -> eng_search E rx x = None -> gives_up E l
| up_replace rx format x : In (Replaces rx format) l -> eng_replace E rx x format = None -> gives_up E l.
