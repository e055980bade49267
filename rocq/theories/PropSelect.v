(** C83: captures only report. *)

From Coq Require Import Ascii String NArith ZArith Bool List.
From Verif Require Import Base Tags Dom Values Match Rule RuleMatching ExtractSpec Samples SearchSpec RewriteSpec PathCases
  SelectSpec SelectProofs SelectCases.
Import ListNotations.

(** The search has the same outcome for rules that differ only in their captures,
    for every document, node and limit, whatever fails. *)
Theorem C83_search : forall E R R' D p limit o, bare R = bare R' ->
  search_yields E R D p limit o -> search_yields E R' D p limit o.
Proof. exact search_bare. Qed.
Print Assumptions C83_search.

(** Without some captures the other values are the same, and maps without a
    value disappear. *)
Theorem C83_select : forall E R D keep p limit res, extract_yields E R D p limit (Ok res) ->
  extract_yields E (select keep R) D p limit (Ok (filter nonempty_list (map (filter (fun x => keep (fst x))) res))).
Proof. exact extract_select. Qed.
Print Assumptions C83_select.

(** Other names give the same values under these names. *)
Theorem C83_rename : forall E R D f p limit res, (forall a b, f a = f b -> a = b) -> extract_yields E R D p limit (Ok res) ->
  exists res', extract_yields E (rename f R) D p limit (Ok res') /\ Forall2 (renamed f) res res'.
Proof. exact extract_rename. Qed.
Print Assumptions C83_rename.

(** Another pipe at the end changes the values of its captures and nothing else. *)
Theorem C83_pipe : forall E R D names q g p limit res,
  (forall m x, In m res -> In x m -> names (fst x) = true -> pipe_pipe E q (snd x) = Ok (g (snd x))) ->
  extract_yields E R D p limit (Ok res) ->
  extract_yields E (piped names q R) D p limit (Ok (map (map (through names g)) res)).
Proof. exact extract_piped. Qed.
Print Assumptions C83_pipe.

Example C83_case :
  extract_yields sample_engine path_rule path_page (Some [0]) 0
    (Ok [[(s "x", s "1"); (s "x", s "2"); (s "y", s "3"); (s "y", s "5")]; [(s "x", s "7")]]) /\
  extract_yields sample_engine (select only_y path_rule) path_page (Some [0]) 0 (Ok [[(s "y", s "3"); (s "y", s "5")]]) /\
  ((forall a b, exchange a = exchange b -> a = b) /\
   extract_yields sample_engine (rename exchange path_rule) path_page (Some [0]) 0
    (Ok [[(s "x", s "3"); (s "x", s "5"); (s "y", s "1"); (s "y", s "2")]; [(s "y", s "7")]])) /\
  ((forall x, pipe_pipe sample_engine hash x = Ok (s "#" ++ x)) /\
   extract_yields sample_engine (piped only_y hash path_rule) path_page (Some [0]) 0
    (Ok [[(s "x", s "1"); (s "x", s "2"); (s "y", s "#3"); (s "y", s "#5")]; [(s "x", s "7")]])).
Proof. exact select_case. Qed.

(** If two names become one then the old result does not say in which order the
    values are. *)
Theorem C83_merge_refuted : exists E R R' D f res r r',
  extract_yields E R D (Some [0]) 0 (Ok res) /\ extract_yields E R' D (Some [0]) 0 (Ok res) /\
  extract_yields E (rename f R) D (Some [0]) 0 (Ok r) /\ extract_yields E (rename f R') D (Some [0]) 0 (Ok r') /\ r <> r'.
Proof. exact merged_differ. Qed.
Print Assumptions C83_merge_refuted.
