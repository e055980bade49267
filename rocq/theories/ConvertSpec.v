(** Vocabulary for the statements about converted results. *)

From Coq Require Import Ascii String NArith ZArith Bool List Sorted.
From Verif Require Import Base Match RuleMatching ExtractSpec Convert.
Import ListNotations.

(** A member stands for the values of a name. *)
Definition stands_for (v : member) (values : list str) : Prop :=
  match v with
  | One x => values = [x]
  | Many xs => values = xs /\ 2 <= length xs
  end.

(** One member per name, in name order, that stands for all values of the
    name. *)
Definition converted (m : ResultMap) (o : object) : Prop :=
  StronglySorted (fun a b => str_ltb (fst a) (fst b) = true) o /\
  (forall name v, In (name, v) o -> stands_for v (values_of name m)) /\
  (forall name value, In (name, value) m -> exists v, In (name, v) o).

(** No name and no value has a NUL byte. *)
Definition no_nul (m : ResultMap) : Prop :=
  forall name value, In (name, value) m -> ~ In NUL name /\ ~ In NUL value.

(** A map with every name and value cut at the first NUL byte. *)
Definition cut_map (m : ResultMap) : ResultMap :=
  map (fun x => (c_str (fst x), c_str (snd x))) m.

(** The members of [o] written into a new object one after the other, under
    changed names and with changed values: of the names that become equal the
    last one remains. *)
Definition written (key : str -> str) (value : member -> member) (o o' : object) : Prop :=
  NoDup (map fst o') /\
  forall k v, In (k, v) o' <->
    exists before name w after, o = before ++ (name, w) :: after /\ k = key name /\ v = value w /\
      forall name' w', In (name', w') after -> key name' <> k.

(** The whole part of the number m * 2^e: its fraction is left out. *)
Definition whole_part (m e w : Z) : Prop :=
  ((0 <= e /\ w = m * 2 ^ e) \/
   (e < 0 /\ 0 <= w * m /\ Z.abs w * 2 ^ (- e) <= Z.abs m < (Z.abs w + 1) * 2 ^ (- e)))%Z.
