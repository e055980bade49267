(** A rule with a filter, and all that it asks on a page. *)

From Coq Require Import Ascii String NArith ZArith Bool List.
From Verif Require Import Base StringUtil Tags Dom NodeUtil Values Match Rule RuleMatching StringSpec ValueSpec NodeSpec NodeProofs MeaningSpec MeaningProofs
  ExtractSpec Samples AskSpec.
Import ListNotations.

(** A library that only searches texts of up to two characters. *)
Definition two_engine : engine :=
  mk_engine (fun _ => None)
            (fun rx x => if Nat.leb (length x) 2 then eng_search sample_engine rx x else None)
            (fun _ _ _ => None).
Definition one : regex := mk_regex (s "1") false false.
(** <li id:trim:filter(/1/):i/> *)
Definition trim_rule : rule :=
  mk_rule None None [] []
    [Some (AttributeCapture (s "id") (s "i") (Some (Pipe (TrimPipe (s " ")) (Some (Pipe (RegexPipe one) None)))))] TAG_LI false false None.
Definition trim_page : node := page [el_id TAG_LI (s "  12 ") []; el_id TAG_LI (s "   1") []].
Definition wide_page : node := page [el_id TAG_LI (s " 12") []; el_id TAG_LI (s "123 ") []].

(** The filter gets the trimmed values and nothing else. *)
Lemma trim_asks E q : asked E trim_rule trim_page q -> q = Find one (s "12") \/ q = Find one (s "1").
Proof.
  assert (HR : forall rp r, rget trim_rule rp = Some r -> r = trim_rule).
  { induction rp as [|st rp IH]; intros r H; [now injection H as <-|]. cbn [rget] in H. destruct (rget trim_rule rp) as [r'|]; [|discriminate].
    rewrite (IH r' eq_refl) in H. destruct st as [| |k]; cbn in H; try discriminate H; destruct k; discriminate H. }
  assert (HD : forall p n, nget trim_page p = Some n ->
    In n [trim_page; el TAG_HTML (children_of (el TAG_HTML [el TAG_HEAD []; el TAG_BODY [el_id TAG_LI (s "  12 ") []; el_id TAG_LI (s "   1") []]]));
          el TAG_HEAD []; el TAG_BODY [el_id TAG_LI (s "  12 ") []; el_id TAG_LI (s "   1") []];
          el_id TAG_LI (s "  12 ") []; el_id TAG_LI (s "   1") []]).
  { induction p as [|i p IH]; intros n H; [injection H as <-; now left|]. cbn [nget] in H. destruct (nget trim_page p) as [par|]; [|discriminate].
    specialize (IH par eq_refl). cbn [In] in IH.
    destruct IH as [<-|[<-|[<-|[<-|[<-|[<-|[]]]]]]]; cbn in H;
      (destruct i as [|[|[|i]]]; cbn in H; try discriminate H; injection H as <-; cbn [In]; tauto). }
  intros H. inversion H as [rp r p n m q' Hr _ _ Hi _|rp r p c q' Hr Hi Hc]; subst; rewrite (HR _ _ Hr) in Hi; [destruct Hi|].
  destruct Hi as [Hi|[]]. injection Hi as <-. inversion Hc as [t orig attrs cs name result a v o q0 Hn Ha Hv Hp|]; subst.
  apply HD in Hn. destruct Ha as [l1 [l2 [Ha _]]].
  assert (Hva : v = s "  12 " \/ v = s "   1").
  { cbn [In] in Hn. destruct Hn as [Hn|[Hn|[Hn|[Hn|[Hn|[Hn|[]]]]]]]; try discriminate Hn; injection Hn as <- <- <- <-;
      destruct l1 as [|b [|b' l1]]; try discriminate Ha; injection Ha as <- <-; injection Hv as <-; auto. }
  destruct Hp as [pp [ts [t' [ts' [y [He [Hts [Hth Hq]]]]]]]]. injection He as <-. cbn [pipes_of] in Hts.
  destruct ts as [|t1 [|t2 ts]]; cbn [app] in Hts; inversion Hts; subst.
  - inversion Hq.
  - inversion Hth as [|? ? ? z ? Htu Hth']; subst. inversion Hth'; subst. apply turned_iff in Htu.
    inversion Hq; subst. destruct Hva as [-> | ->]; vm_compute in Htu; injection Htu as <-; [left|right]; reflexivity.
  - destruct ts; discriminate.
Qed.
