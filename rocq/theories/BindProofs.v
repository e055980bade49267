(** Proofs about the bindings. *)

From Coq Require Import Ascii String NArith ZArith Bool List Sorted Lia.
From Verif Require Import Base Dom Values Match Rule RuleMatching ExtractSpec ExtractProofs ExtractMain LimitProofs Convert ConvertSpec ConvertProofs
  ParserSpec ParserSafety Parser ParsedProofs CliProofs Bindings BindSpec.
Import ListNotations.

Lemma swig_rule_made E text : rule_made E text ValueError [] (swig_new_rule E text).
Proof.
  unfold swig_new_rule. destruct (parse_total E text) as [[r H]|[[e H]|[H HL]]]; rewrite H; cbn [rule_made]; auto.
  destruct (parse_exceptions E text e H) as [[m ->]|[-> Hb]]; cbn [rule_made]; eauto.
Qed.

Lemma node_rule_made E args : match args with
  | JsString x :: _ => rule_made E (c_str x) PlainError (s "Hext syntax error: ") (node_new_rule E args)
  | _ => exists m, node_new_rule E args = Ok (Raises TypeError m)
  end.
Proof.
  destruct args as [|[x|x|h| |] args]; cbn [node_new_rule]; try (eexists; reflexivity).
  destruct (parse_total E (c_str x)) as [[r H]|[[e H]|[H HL]]]; rewrite H; cbn [rule_made]; auto.
  destruct (parse_exceptions E (c_str x) e H) as [[m ->]|[-> Hb]]; cbn [rule_made]; eauto.
Qed.

(** All outcomes of extract for a parsed rule and a proper root. *)
Lemma parsed_extract E text R html limit : ParseHext E text = Ok R -> proper_root html ->
  exists o, extract_yields E R (fst html) (snd html) limit o /\
    match o with
    | Ok res => Forall (StronglySorted name_le) res
    | Throw MaxSearchError => True
    | Throw RegexRuntimeError => ~ engine_total E
    | UB IntOverflow => forall size, small_document size (fst html) -> ~ rule_params_safe size R
    | _ => False
    end.
Proof.
  intros HP HR. destruct html as [D [p|]]; cbn [proper_root fst snd] in *.
  - destruct HR as [Hp Hn]. destruct p as [|i pp]; [congruence|]. destruct (nget D (i :: pp)) as [t|] eqn:Et; [|congruence].
    destruct (extract_total E R D i pp t limit Et) as [o [Ho Hok]]. exists o. split; [exact Ho|].
    destruct o as [res|[]|[]|]; cbn [extract_outcome_ok] in Hok; try contradiction; auto.
    + eapply extract_sorted; eauto.
    + apply Hok. eapply parsed_calls_return; eauto.
  - exists (Ok []). split; [|constructor]. exists 1. intros [|f] Hf; [lia|]. reflexivity.
Qed.

Lemma swig_extracted E text R html limit : ParseHext E text = Ok R -> proper_root html ->
  exists o, eventually (fun f => swig_extract E f R html limit) o /\
    extracted E R html limit RuntimeError limit_text eq o.
Proof.
  intros HP HR. destruct (parsed_extract E text R html limit HP HR) as [o [[f0 Ho] Hok]].
  exists (match o with
    | Ok result => Ok (Returns result)
    | Throw MaxSearchError => Ok (Raises RuntimeError limit_text)
    | Throw e => Ok (Escapes e)
    | UB u => UB u
    | OutOfFuel => OutOfFuel
    end). split.
  - exists f0. intros f Hf. unfold swig_extract. rewrite (Ho f Hf). reflexivity.
  - destruct o as [res|[]|[]|]; cbn [extracted]; try contradiction; auto.
    + exists res. split; [now exists f0|reflexivity].
    + split; [reflexivity|]. split; [reflexivity|]. now exists f0.
Qed.

Lemma node_objects_spec res : Forall (StronglySorted name_le) res ->
  exists os, node_objects res = Ok os /\ Forall2 converted res os.
Proof.
  induction 1 as [|m res Hm _ [os [IH1 IH2]]]; [exists []; split; [reflexivity|constructor]|].
  destruct (convert_map_spec node_handover m Hm) as [o [Ho Hc]]; [intros n v _; repeat split|].
  exists (o :: os). cbn [node_objects]. rewrite Ho. cbn [obind]. rewrite IH1. split; [reflexivity|now constructor].
Qed.

Lemma node_extracted E text R rule_ args html limit : ParseHext E text = Ok R -> proper_root html ->
  proper_call rule_ args R html limit ->
  exists o, eventually (fun f => node_extract E f rule_ args) o /\
    extracted E R html limit PlainError (s "Error: " ++ limit_text) (Forall2 converted) o.
Proof.
  intros HP HR HC. destruct (parsed_extract E text R html limit HP HR) as [o [[f0 Ho] Hok]].
  assert (Hrun : forall f, node_extract E f rule_ args = node_run E f rule_ (Some html) limit).
  { intros f. inversion HC; subst; reflexivity. }
  assert (Hr : rule_ = Some R) by (inversion HC; assumption). subst rule_.
  destruct o as [res|[]|[]|]; try contradiction.
  - destruct (node_objects_spec res Hok) as [os [H1 H2]]. exists (Ok (Returns os)). split.
    + exists f0. intros f Hf. rewrite Hrun. unfold node_run, at_pointer. rewrite (Ho f Hf), H1. reflexivity.
    + exists res. split; [now exists f0|exact H2].
  - exists (Ok (Raises PlainError (s "Error: " ++ limit_text))). split.
    + exists f0. intros f Hf. rewrite Hrun. unfold node_run, at_pointer. now rewrite (Ho f Hf).
    + split; [reflexivity|]. split; [reflexivity|]. now exists f0.
  - exists (Ok (Escapes RegexRuntimeError)). split.
    + exists f0. intros f Hf. rewrite Hrun. unfold node_run, at_pointer. now rewrite (Ho f Hf).
    + split; [reflexivity|exact Hok].
  - exists (UB IntOverflow). split.
    + exists f0. intros f Hf. rewrite Hrun. unfold node_run, at_pointer. now rewrite (Ho f Hf).
    + split; [reflexivity|exact Hok].
Qed.

Lemma node_improper E rule_ args : (forall R html limit, ~ proper_call rule_ args R html limit) ->
  exists k m, forall f, node_extract E f rule_ args = Ok (Raises k m).
Proof.
  intros H. destruct rule_ as [R|]; [|eexists; eexists; reflexivity].
  destruct args as [|a [|b rest]]; [eexists; eexists; reflexivity| |].
  - destruct a as [x|x|[[D [p|]]|]| |]; try (eexists; eexists; reflexivity).
    exfalso. eapply H. eapply call_without; reflexivity.
  - destruct b as [x|x|h| |]; try (eexists; eexists; reflexivity).
    destruct a as [y|y|[[D [p|]]|]| |]; try (eexists; eexists; reflexivity).
    exfalso. eapply H. eapply call_limited; reflexivity.
Qed.
