(** Chains of pipes that do the same (C84). *)

From Coq Require Import Ascii String NArith ZArith Bool List.
From Verif Require Import Base Dom Values Match Rule RuleMatching StringSpec ValueSpec TextSpec ExtractSpec SelectSpec.
Import ListNotations.

Definition all_blank (x : str) : Prop := Forall blank x.
Definition no_letters (x : str) : Prop := Forall (fun c => ~ In c lower_letters /\ ~ In c upper_letters) x.

(** The text in lower or in upper case. *)
Definition in_case (lower : bool) (x y : str) : Prop :=
  Forall2 (if lower then letter_mapped upper_letters lower_letters else letter_mapped lower_letters upper_letters) x y.

(** Two chains of pipes, in the order in which the text goes through them, that
    do the same. *)
Inductive pipes_equal : list transform -> list transform -> Prop :=
(** adding texts *)
| equal_append_append a b : pipes_equal [AppendPipe a; AppendPipe b] [AppendPipe (a ++ b)]
| equal_prepend_prepend a b : pipes_equal [PrependPipe a; PrependPipe b] [PrependPipe (b ++ a)]
| equal_append_prepend a b : pipes_equal [AppendPipe a; PrependPipe b] [PrependPipe b; AppendPipe a]
| equal_append_nothing : pipes_equal [AppendPipe []] []
| equal_prepend_nothing : pipes_equal [PrependPipe []] []
(** trimming *)
| equal_trim_set x y : incl x y -> incl y x -> pipes_equal [TrimPipe x] [TrimPipe y]
| equal_trim_nothing : pipes_equal [TrimPipe []] []
| equal_trim_less x y : incl y x -> pipes_equal [TrimPipe x; TrimPipe y] [TrimPipe x]
| equal_trim_more x y : incl y x -> pipes_equal [TrimPipe y; TrimPipe x] [TrimPipe x]
| equal_append_trim a x : incl a x -> pipes_equal [AppendPipe a; TrimPipe x] [TrimPipe x]
| equal_prepend_trim a x : incl a x -> pipes_equal [PrependPipe a; TrimPipe x] [TrimPipe x]
(** white space *)
| equal_collapse : pipes_equal [CollapseWsPipe; CollapseWsPipe] [CollapseWsPipe]
| equal_trim_collapse x : all_blank x -> pipes_equal [TrimPipe x; CollapseWsPipe] [CollapseWsPipe]
| equal_collapse_trim x : all_blank x -> pipes_equal [CollapseWsPipe; TrimPipe x] [CollapseWsPipe]
| equal_collapse_commutes x : (forall c, blank c -> In c x) -> pipes_equal [TrimPipe x; CollapseWsPipe] [CollapseWsPipe; TrimPipe x]
| equal_append_collapse a : all_blank a -> pipes_equal [AppendPipe a; CollapseWsPipe] [CollapseWsPipe]
| equal_prepend_collapse a : all_blank a -> pipes_equal [PrependPipe a; CollapseWsPipe] [CollapseWsPipe]
(** letters *)
| equal_case l l' : pipes_equal [CasePipe l; CasePipe l'] [CasePipe l']
| equal_case_collapse l : pipes_equal [CasePipe l; CollapseWsPipe] [CollapseWsPipe; CasePipe l]
| equal_case_trim l x : no_letters x -> pipes_equal [CasePipe l; TrimPipe x] [TrimPipe x; CasePipe l]
| equal_append_case l a b : in_case l a b -> pipes_equal [AppendPipe a; CasePipe l] [CasePipe l; AppendPipe b]
| equal_prepend_case l a b : in_case l a b -> pipes_equal [PrependPipe a; CasePipe l] [CasePipe l; PrependPipe b]
(** anywhere in a chain *)
| equal_within before after ts ts' : pipes_equal ts ts' -> pipes_equal (before ++ ts ++ after) (before ++ ts' ++ after)
| equal_same ts : pipes_equal ts ts
| equal_sym ts ts' : pipes_equal ts ts' -> pipes_equal ts' ts
| equal_trans ts ts' ts'' : pipes_equal ts ts' -> pipes_equal ts' ts'' -> pipes_equal ts ts''.

(** The transformations that add text or change letters. *)
Definition adds_or_cases (t : transform) : Prop :=
  match t with AppendPipe _ | PrependPipe _ | CasePipe _ => True | _ => False end.

(** What a text becomes in a chain. *)
Fixpoint run_pipes (E : engine) (ts : list transform) (x : str) : outcome str :=
  match ts with
  | [] => Ok x
  | t :: ts' => obind (transform_str E t x) (run_pipes E ts')
  end.

(** The pipes of a capture. *)
Definition capture_chain (p : option pipe) : list transform :=
  match p with Some q => pipes_of q | None => [] end.

(** Captures that differ only in such chains. The text of a node has no white
    space to collapse. *)
Inductive captures_alike : capture -> capture -> Prop :=
| alike_attribute a x p p' : pipes_equal (capture_chain p) (capture_chain p') ->
    captures_alike (AttributeCapture a x p) (AttributeCapture a x p')
| alike_function f x p p' : pipes_equal (capture_chain p) (capture_chain p') ->
    captures_alike (FunctionCapture f x p) (FunctionCapture f x p')
| alike_text x p p' : pipes_equal (CollapseWsPipe :: capture_chain p) (CollapseWsPipe :: capture_chain p') ->
    captures_alike (FunctionCapture (Some TextBuiltin) x p) (FunctionCapture (Some TextBuiltin) x p').

Definition rules_alike (R R' : rule) : Prop :=
  bare R = bare R' /\
  forall rp r r', rget R rp = Some r -> rget R' rp = Some r' ->
    Forall2 captures_alike (present (r_captures r)) (present (r_captures r')).

(** Nothing below the node breaks lines. *)
Definition running_text (n : node) : Prop := forall p m, below n p m -> p <> [] -> ~ block m.
