(** What is expected of the memory behind parsed documents (C72). *)

From Coq Require Import Ascii String NArith ZArith Bool List.
From Verif Require Import Base Buffers.
Import ListNotations.

Definition all_released (m : memory) : Prop := Forall (eq Freed) m.

(** The sources can be read and parsed; these are their texts. *)
Definition sources_are (parses : str -> bool) (sources : list source) (rules : list str) : Prop :=
  Forall2 (fun src x => (src = HextFile (Some x) \/ src = HextInput x) /\ parses x = true) sources rules.

(** Every rule is applied to every document until one throws. Both the document
    and the names in it come from the text of the file. *)
Definition seen_of (p : str * str) : str * str * str := (fst p, snd p, snd p).
Definition works (extracts : str -> str -> str -> bool) (p : str * str) : Prop :=
  extracts (fst p) (snd p) (snd p) = true.
Definition visit (extracts : str -> str -> str -> bool) (rules docs : list str)
    (done : bool) (seen : list (str * str * str)) : Prop :=
  match done with
  | true => Forall (works extracts) (list_prod rules docs) /\ seen = map seen_of (list_prod rules docs)
  | false => exists before p rest, list_prod rules docs = before ++ p :: rest /\
      Forall (works extracts) before /\ ~ works extracts p /\ seen = map seen_of (before ++ [p])
  end.

(** What main does. *)
Inductive main_does (parses : str -> bool) (extracts : str -> str -> str -> bool)
  : list source -> bool -> list (option str) -> bool -> list (str * str * str) -> Prop :=
| does_no_rules sources lint files :
    (forall rules, ~ sources_are parses sources rules) ->
    main_does parses extracts sources lint files false []
| does_lint sources rules files :
    sources_are parses sources rules ->
    main_does parses extracts sources true files true []
| does_no_file sources rules files :
    sources_are parses sources rules -> In None files ->
    main_does parses extracts sources false files false []
| does_search sources rules docs done seen :
    sources_are parses sources rules -> visit extracts rules docs done seen ->
    main_does parses extracts sources false (map Some docs) done seen.

(** The use of objects of the bindings: only living objects are used and deleted,
    and none is moved. Living objects are described by the text they were made
    of. *)
Inductive history : list (option (option str)) -> list step -> list (str * str) -> list (option (option str)) -> Prop :=
| history_end objs : history objs [] [] objs
| history_create objs x es seen objs' :
    history (objs ++ [Some x]) es seen objs' -> history objs (Create x :: es) seen objs'
| history_look objs i x es seen objs' :
    nth_error objs i = Some (Some (Some x)) ->
    history objs es seen objs' -> history objs (Look i :: es) ((x, x) :: seen) objs'
| history_look_null objs i es seen objs' :
    nth_error objs i = Some (Some None) ->
    history objs es seen objs' -> history objs (Look i :: es) seen objs'
| history_delete l x r es seen objs' :
    history (l ++ None :: r) es seen objs' -> history (l ++ Some x :: r) (Delete (length l) :: es) seen objs'.
