(** C82: how often a node and a value are reported. *)

From Coq Require Import Ascii String Arith NArith ZArith Bool List.
From Verif Require Import Base Tags Dom Values Match Rule RuleMatching MatchSpec ExtractSpec SearchSpec
  Samples CostSpec RepeatSpec RepeatProofs RepeatCases.
Import ListNotations.

(** The pairs are below the parent of the start node, and a pair is there at most
    as often as its depth to the power of the number of braces around its rule. *)
Theorem C82_occurrences : forall E R D i pp t n gs,
  nget D (i :: pp) = Some t -> search_yields E R D (Some (i :: pp)) n (Ok gs) ->
  (forall rp p, In (rp, p) (concat gs) -> exists ks, p = ks ++ pp /\ ks <> []) /\
  forall rp ks, occurrences gs rp (ks ++ pp) <= length ks ^ braces rp.
Proof. exact search_occurrences. Qed.
Print Assumptions C82_occurrences.

(** Without braces no rule gets a node twice, in whatever groups. *)
Theorem C82_once : forall E R D i pp t n gs, without_nested R ->
  nget D (i :: pp) = Some t -> search_yields E R D (Some (i :: pp)) n (Ok gs) -> NoDup (concat gs).
Proof. exact search_once. Qed.
Print Assumptions C82_once.

(** So the size of a result is polynomial in that of the document. *)
Theorem C82_size : forall E R D i pp t n res,
  nget D (i :: pp) = Some t -> extract_yields E R D (Some (i :: pp)) n (Ok res) ->
  value_count res <= capture_count R * document_size D * document_levels D ^ nestings R.
Proof. exact size_bound. Qed.
Print Assumptions C82_size.

Example C82_case :
  nget (nest_page 1) [0] <> None /\
  extract_yields sample_engine outer_div (nest_page 1) (Some [0]) 0
    (Ok [[(s "x", s "v"); (s "x", s "v")]; [(s "x", s "v")]]) /\
  capture_count outer_div * document_size (nest_page 1) * document_levels (nest_page 1) ^ nestings outer_div = 20.
Proof. exact nest_case. Qed.

Example C82_once_case : exists R, without_nested R /\ nget once_page [0] <> None /\
  search_yields sample_engine R once_page (Some [0]) 0
    (Ok [[([RChild], [0; 0; 1; 0]); ([RNext; RChild], [1; 0; 1; 0]); ([], [0; 1; 0])];
         [([RChild], [0; 1; 1; 0]); ([RNext; RChild], [1; 1; 1; 0]); ([], [1; 1; 0])]]).
Proof. exact once_case. Qed.

(** With braces a pair can be there twice. *)
Theorem C82_braces_refuted : exists E R D i pp gs, nget D (i :: pp) <> None /\
  search_yields E R D (Some (i :: pp)) 0 (Ok gs) /\ ~ NoDup (concat gs) /\
  occurrences gs [RNested 0] [0; 1; 0] = 2 /\ occurrences gs [RNested 0] [0; 0] = 1.
Proof. exact twice. Qed.
Print Assumptions C82_braces_refuted.

(** With braces there is no bound that is linear in the size of the document. *)
Theorem C82_linear_refuted : forall E C, engine_total E -> exists D res, nget D [0] <> None /\
  extract_yields E outer_div D (Some [0]) 0 (Ok res) /\ C * document_size D < value_count res.
Proof. exact not_linear. Qed.
Print Assumptions C82_linear_refuted.
