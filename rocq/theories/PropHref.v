(** C64: the example program extract-href; C10 for results. *)

From Coq Require Import Ascii String NArith ZArith Bool List Sorted Lia.
From Verif Require Import Base StringUtil Tags Dom Values Match Rule RuleMatching MatchSpec ExtractSpec SearchSpec
  StringSpec NodeSpec NodeProofs Convert CliSpec Href HrefSpec HrefProofs ExtractMain ExtractProofs Samples.
Import ListNotations.

(** C10. A rule without other rules that has one capture: one map per matching
    node with a value, each node once, in the order of the search. *)
Theorem C10_single_capture : forall E R D c i pp t,
  r_child R = None /\ r_next R = None /\ r_nested R = [] /\ r_optional R = false /\ r_greedy R = false ->
  r_captures R = [Some c] -> nget D (i :: pp) = Some t ->
  forall n res, extract_yields E R D (Some (i :: pp)) n (Ok res) ->
  exists nodes outs, in_search_order D i pp (node_satisfies E D R) nodes /\
    Forall2 (fun p o => capture_capture E D c p = Ok o) nodes outs /\ res = map (fun x => [x]) (present outs).
Proof. exact alone_extract. Qed.
Print Assumptions C10_single_capture.

(** C64. What the program prints: the useful links, each one once. *)
Theorem C64_output : forall E U arg D i pp t,
  engine_total E -> (exists size, small_document size D) -> nget D (i :: pp) = Some t ->
  forall out, href_yields E U arg D (Some (i :: pp)) (Ok out) ->
  exists b u nodes vs texts, base_choice arg D i pp b /\ parse_uri U b = FReturn u /\
    in_search_order D i pp (fun p => exists v, useful_link D p v) nodes /\
    Forall2 (useful_link D) nodes vs /\ Forall2 (fun v x => resolve_uri U u v = FReturn x) vs texts /\
    out = lines texts.
Proof. exact href_prints. Qed.
Print Assumptions C64_output.

(** It prints something or ends with an exception of the URI library. *)
Theorem C64_finishes : forall E U arg D i pp t,
  engine_total E -> (exists size, small_document size D) -> nget D (i :: pp) = Some t ->
  exists o, href_yields E U arg D (Some (i :: pp)) o /\
  ((exists out, o = Ok out) \/
   o = Throw UserException /\ exists b, base_choice arg D i pp b /\
     (parse_uri U b = FThrow \/ exists u, parse_uri U b = FReturn u /\ ~ forall v, resolve_uri U u v <> FThrow)).
Proof. exact href_finishes. Qed.
Print Assumptions C64_finishes.

(** A page with a base, and URIs that are joined by appending. *)
Definition link (v : str) (cs : list node) : node := NElement TAG_A (Some []) [mk_attr NsNone (s "HREF") (Some v)] cs.
Definition base_el (v : str) : node := NElement TAG_BASE (Some []) [mk_attr NsNone (s "href") (Some v)] [].
Definition appending : uri_library := mk_uris str (fun x => FReturn x) (fun b x => if str_eqb x (s "bad") then FThrow else FReturn (b ++ x)).
Definition links_page (last : str) : node :=
  page [el TAG_BASE []; base_el (s "b/"); el TAG_P [link (s "1") []; link (s "#top") []; link [] []];
        link (s "2") []; link (s "javascript:x") []; link (s "JavaScript:y") []; link last []].

Example C64_case :
  engine_total sample_engine /\ nget (links_page []) [0] <> None /\ (exists size, small_document size (links_page [])) /\
  href_main 50 sample_engine appending None (links_page []) (Some [0]) = Ok (lines [s "b/2"; s "b/JavaScript:y"; s "b/1"]) /\
  href_main 50 sample_engine appending (Some (s "c:")) (links_page []) (Some [0]) = Ok (lines [s "c:2"; s "c:JavaScript:y"; s "c:1"]) /\
  href_main 50 sample_engine appending None (links_page (s "bad")) (Some [0]) = Throw UserException.
Proof.
  split; [exact sample_engine_total|]. split; [discriminate|].
  split.
  { exists (Z.of_nat 10). apply width_small; [vm_compute; reflexivity|vm_compute; discriminate]. }
  repeat split; vm_compute; reflexivity.
Qed.

(** "Returns the first base tag's href value" is not so: the order of the search
    is not that of the document. *)
Theorem C64_base_refuted : exists E D f, engine_total E /\
  BaseUri f E D (Some [0]) = Ok (Some (s "second")) /\
  has_href TAG_BASE D [0; 0; 1; 0] (s "first") /\ has_href TAG_BASE D [1; 1; 0] (s "second").
Proof.
  exists sample_engine, (page [el TAG_DIV [base_el (s "first")]; base_el (s "second")]), 50.
  assert (HB : BaseUri 50 sample_engine (page [el TAG_DIV [base_el (s "first")]; base_el (s "second")]) (Some [0]) = Ok (Some (s "second")))
    by (vm_compute; reflexivity).
  split; [exact sample_engine_total|]. split; [exact HB|]. split.
  - exists (Some []), [mk_attr NsNone (s "href") (Some (s "first"))], [], (mk_attr NsNone (s "href") (Some (s "first"))), (s "first").
    split; [reflexivity|]. split; [apply get_attribute_some; reflexivity|split; reflexivity].
  - exists (Some []), [mk_attr NsNone (s "href") (Some (s "second"))], [], (mk_attr NsNone (s "href") (Some (s "second"))), (s "second").
    split; [reflexivity|]. split; [apply get_attribute_some; reflexivity|split; reflexivity].
Qed.
Print Assumptions C64_base_refuted.
