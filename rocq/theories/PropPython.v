(** C53: the reference counts of the Python binding. *)

From Coq Require Import Ascii String NArith ZArith Bool List Sorted Lia.
From Verif Require Import Base Tags Dom Values Match Rule RuleMatching ExtractSpec Parser Convert ConvertSpec
  PyRefs PySpec PyProofs ExtractProofs Samples.
Import ListNotations.

(** As stated it does not hold. The destructor of ScopedPyObject passes null to
    Py_DECREF if the object could not be made, and a text that is valid UTF-8
    suffices for that: the pipe "trim" removes single bytes. Here the Hext
    snippet, the document and all of their strings are valid UTF-8. *)
Definition trim_text : str := s "<p @text:trim('" ++ ["195"%char; "169"%char] ++ s "'):x/>".
Definition accent_page : node := page [el TAG_P [NText ["195"%char; "160"%char]]].
Definition cut_result : list ResultMap := [[(s "x", ["160"%char])]].
Theorem C53_null_refuted : exists text R D result,
  utf8 text = true /\ ParseHext sample_engine text = Ok R /\
  extract_yields sample_engine R D (Some [0]) 0 (Ok result) /\
  forall refuses, never_refuses refuses -> py_convert refuses result py_start = UB NullDeref.
Proof.
  exists trim_text. eexists. exists accent_page, cut_result. split; [reflexivity|]. split; [vm_compute; reflexivity|].
  split; [run_extract|]. intros refuses H.
  unfold py_convert, py_maps, scoped, py_then, PyList_New, PyDict_New, py_new. cbn. rewrite !H. cbn. now rewrite ?H.
Qed.
Print Assumptions C53_null_refuted.

(** If a call fails otherwise, the list made so far is never given up: it is
    still there after the exception, and no one has a pointer to it. *)
Theorem C53_leak_refuted : exists refuses maps h,
  Forall (StronglySorted name_le) maps /\
  py_convert refuses maps py_start = Ok (h, None) /\ cells h <> [].
Proof.
  exists (fun n => Nat.eqb n 3), [[(s "a", s "1")]; [(s "b", s "2")]]. eexists.
  split; [repeat constructor|]. split; [vm_compute; reflexivity|]. discriminate.
Qed.
Print Assumptions C53_leak_refuted.

(** Whatever calls fail: either the function returns a list with the converted
    maps, and dropping that one reference frees every object; or it raises an
    exception, and what is left is freed by dropping the one reference that
    nobody has any more; or null is dereferenced. No living object is ever freed,
    no dead one is ever used, and the exception needs a failed call, too. *)
Theorem C53_outcomes_partial : forall refuses maps,
  Forall (StronglySorted name_le) maps ->
  match py_convert refuses maps py_start with
  | Ok (h, Some r) =>
      (exists objs, Forall2 (fun m o => convert_map python_handover m = Ok o) maps objs /\ is_list_of_dicts h r objs) /\
      sole_owner h r /\ names_utf8 maps /\ values_utf8 maps
  | Ok (h, None) => (cells h = [] \/ sole_owner h 0) /\ ~ (never_refuses refuses /\ names_utf8 maps)
  | UB NullDeref => ~ (never_refuses refuses /\ values_utf8 maps)
  | _ => False
  end.
Proof. exact py_convert_outcome. Qed.
Print Assumptions C53_outcomes_partial.

(** With valid UTF-8 everywhere and enough memory it does what it should. *)
Theorem C53_success_partial : forall refuses maps,
  Forall (StronglySorted name_le) maps -> never_refuses refuses -> names_utf8 maps -> values_utf8 maps ->
  exists h r objs,
    py_convert refuses maps py_start = Ok (h, Some r) /\
    Forall2 (fun m o => convert_map python_handover m = Ok o) maps objs /\
    is_list_of_dicts h r objs /\ sole_owner h r.
Proof. exact py_convert_success. Qed.
Print Assumptions C53_success_partial.

(** With enough memory, a single value that is not UTF-8 crashes it. *)
Theorem C53_crash : forall refuses maps,
  Forall (StronglySorted name_le) maps -> never_refuses refuses -> names_utf8 maps ->
  (py_convert refuses maps py_start = UB NullDeref <-> ~ values_utf8 maps).
Proof. exact py_convert_crash. Qed.
Print Assumptions C53_crash.

Definition two_maps : list ResultMap :=
  [[(s "a", s "1"); (s "a", s "2"); (s "b", ["195"%char; "169"%char])]; [(s "c", [])]].
Example C53_case :
  Forall (StronglySorted name_le) two_maps /\ never_refuses (fun _ => false) /\
  names_utf8 two_maps /\ values_utf8 two_maps /\
  Forall2 (fun m o => convert_map python_handover m = Ok o) two_maps
    [[(s "a", Many [s "1"; s "2"]); (s "b", One ["195"%char; "169"%char])]; [(s "c", One [])]] /\
  (exists h, py_convert (fun _ => false) two_maps py_start = Ok (h, Some 0) /\ length (cells h) = 8) /\
  (exists h, py_convert (fun n => Nat.eqb n 4) two_maps py_start = Ok (h, None) /\ cells h = [(0, (1, PyList []))]) /\
  Forall (StronglySorted name_le) cut_result /\ names_utf8 cut_result /\ ~ values_utf8 cut_result.
Proof.
  split; [repeat constructor; reflexivity|]. split; [intros n; reflexivity|].
  split; [intros m p [<-|[<-|[]]] Hp; simpl in Hp; repeat (destruct Hp as [<-|Hp]; [reflexivity|]); contradiction|].
  split; [intros m p [<-|[<-|[]]] Hp; simpl in Hp; repeat (destruct Hp as [<-|Hp]; [reflexivity|]); contradiction|].
  split; [repeat constructor|].
  split; [eexists; split; vm_compute; reflexivity|].
  split; [eexists; split; vm_compute; reflexivity|].
  split; [repeat constructor|].
  split; [intros m p [<-|[]] Hp; simpl in Hp; repeat (destruct Hp as [<-|Hp]; [reflexivity|]); contradiction|].
  intros H. specialize (H _ (s "x", ["160"%char]) (or_introl eq_refl) (or_introl eq_refl)). discriminate.
Qed.
