(** C42 - C46: the language that ParseHext accepts. *)

From Coq Require Import Ascii String NArith ZArith Bool List Lia.
From Verif Require Import Samples Base StringUtil StringSpec Tags Dom NodeUtil Values Match Rule Parser
  SyntaxSpec ExpressSpec SyntaxTree SyntaxProofs ExpressProofs.
Import ListNotations.

(** C42. ParseHext returns a rule for exactly the texts that denote it. See
    SyntaxSpec for the texts and what they denote. *)
Theorem C42_parse : forall E x r, ParseHext E x = Ok r <-> denotes E x r.
Proof. exact parse_denotes. Qed.
Print Assumptions C42_parse.

(** If a text can be read in several ways, they all denote its rule. *)
Theorem C42_reading : forall E ps x r, spells ps x ->
  ParseHext E x = Ok r <-> text_meaning (regex_meaning E) ps = Some r.
Proof. exact parse_given_pieces. Qed.
Print Assumptions C42_reading.

(** <ul>{<?li:nth-child(2n-1) class:c?/>} #c
    </UL> *)
Definition sample_pieces : list piece :=
  [Opened (mk_head [] (s "ul") [] [] [])
     [Nested [Closed (mk_head [OptOptional] (s "li") [Is (TrNth true false (NthStepShift false (s "2") true (s "1")))]
        [(s " ", PAttrCapture (s "class") [] (CPlain (s "c")) true)] [])]; Space " "; Comment (s "c")]
     (s "UL")].
Definition sample_text : str := s "<ul>{<?li:nth-child(2n-1) class:c?/>} #c" ++ [newline] ++ s "</UL>".
Definition sample_rule : rule :=
  mk_rule None None
    [mk_rule None None [] [Some (NthChildMatch 2 (-1) (mk_nth_option true false))]
       [Some (AttributeCapture (s "class") (s "c") None)] TAG_LI true false None]
    [] [] TAG_UL false false None.

Example C42_case : spells sample_pieces sample_text /\ ParseHext sample_engine sample_text = Ok sample_rule.
Proof.
  split; [|vm_compute; reflexivity]. split; [|reflexivity].
  constructor; [|constructor]. apply opened_ok. cbn [h_name].
  assert (Hul : is_tag_name (s "ul")) by (right; now apply name_by).
  assert (HUL : is_tag_name (s "UL")) by (right; now apply name_by).
  split; [|split; [exact HUL|split]].
  - split; [exact Hul|]. split; [constructor|]. split; [constructor|intros c []].
  - right. split.
    + exists (s "ul"). split; [vm_compute; tauto|]. constructor; [now left|constructor; [now left|constructor]].
    + constructor; [right; left; exists 20%nat; split; reflexivity|]. constructor; [right; left; exists 11%nat; split; reflexivity|constructor].
  - constructor; [|constructor; [reflexivity|constructor; [|constructor]]].
    + apply nested_ok. split; [reflexivity|]. split; [eexists; split; [now left|reflexivity]|]. constructor; [|constructor].
      split; [right; now apply name_by|]. split; [|split].
      * constructor; [|constructor]. split; (split; [discriminate|now apply all_in_forallb]).
      * constructor; [|constructor]. split; [discriminate|]. split; [now apply all_in_forallb|]. split; [now apply name_by|]. split; [constructor|].
        split; [discriminate|now apply all_in_forallb].
      * intros c [].
    + intros [H|[]]. discriminate.
Qed.

(** C43. There is a text for every rule that the language can express. What
    these rules are is stated in ExpressSpec without reference to texts. *)
Theorem C43_image : forall E r, (exists x, ParseHext E x = Ok r) <-> expressible E r.
Proof. exact parse_image. Qed.
Print Assumptions C43_image.

Example C43_case : expressible sample_engine sample_rule.
Proof. apply parse_image. exists sample_text. vm_compute. reflexivity. Qed.

(** <ul:nth-child(-5n+7) class/> from the description of the rule only. *)
Definition nth_rule : rule :=
  mk_rule None None [] [Some (NthChildMatch (-5) 7 (mk_nth_option true false)); Some (AttributeMatch (s "class") None)] [] TAG_UL false false None.
Example C43_rule : exists x, ParseHext sample_engine x = Ok nth_rule.
Proof.
  apply parse_image. exists [nth_rule], no_flags. split; [eapply elements_cons; [|apply elements_nil]|reflexivity].
  apply (element_intro sample_engine no_flags [NthChildMatch (-5) 7 (mk_nth_option true false)] no_flags
    [AttributeMatch (s "class") None] [] no_flags [] no_flags (s "ul") false false).
  - eapply seq_cons; [|apply seq_nil]. apply condition_is. now apply trait_nth.
  - constructor; [|constructor|].
    + constructor; [|constructor]. apply (match_has _ _ _ false). now apply name_by.
    + left. eexists _, _. split; [reflexivity|]. apply (match_has _ _ _ false). now apply name_by.
  - constructor.
  - right. now apply name_by.
Qed.

(** A rule that no text gives: both kinds of quotes in a literal. *)
Example C43_not : forall E x,
  ParseHext E x <> Ok (mk_rule None None [] [Some (AttributeMatch (s "a") (Some (EqualsTest [quote; apostrophe])))] [] TAG_ANY false false None).
Proof.
  intros E x H. assert (HE : expressible E (mk_rule None None [] [Some (AttributeMatch (s "a") (Some (EqualsTest [quote; apostrophe])))] [] TAG_ANY false false None))
    by (apply parse_image; eauto).
  destruct HE as [rs [fl [HR Hrow]]]. destruct rs as [|r rs]; [discriminate|]. injection Hrow as Hrow. inversion HR as [|? ? fl1 ? ? Hel _]; subst.
  inversion Hel as [? conds ? ms cs ? parts ? name o g Hc Hp _ _]; subst. cbn [with_next] in Hrow. injection Hrow as _ _ _ Hm _ _ _ _ _.
  assert (HL : ~ literal [quote; apostrophe]).
  { intros [[H1 _]|[H1 _]].
    - destruct (H1 [] [apostrophe] eq_refl) as [u' Hu]. destruct u'; discriminate.
    - destruct (H1 [quote] [] eq_refl) as [u' Hu]. destruct u' as [|a [|b u']]; discriminate. }
  destruct conds as [|m conds].
  - cbn [app] in Hm. inversion Hp as [|ms' cs' Hms Hcs Hf]; subst; [discriminate|]. destruct ms as [|m ms]; [discriminate|].
    injection Hm as -> _. inversion Hms as [|? ? Hm' _]; subst. inversion Hm' as [a ng Ha Heq|a t ng Ha Ht Heq|]; subst.
    + destruct ng; discriminate.
    + destruct ng; [discriminate|]. match goal with Hx : negated_test false _ = _ |- _ => injection Hx as -> end. inversion Ht; subst. contradiction.
  - cbn [app map] in Hm. injection Hm as -> _. inversion Hc as [|? ? ? ? ? Hx _]; subst. inversion Hx as [? ? Ht|]; subst. inversion Ht.
Qed.

(** C44. The flags of a regex also apply to a regex in the next element, and to
    one in a later pipe. *)
Definition rl (x : str) (flags : list flag) : regex_lit := mk_rl "/" x flags.
Definition type_is (name : str) (r : regex_lit) : piece := Closed (mk_head [] name [Is (TrTypeMatches r)] [] []).

Theorem C44_refuted : exists ps x r, spells ps x /\ x = s "<a:type-matches(/x/i)/><b:type-matches(/y/)/>" /\
  ParseHext sample_engine x = Ok r /\
  text_meaning (own_regex_meaning sample_engine) ps <> Some r /\
  exists n, r_next r = Some n /\ r_matches n = [Some (TypeRegexMatch (mk_regex (s "y") true false))].
Proof.
  exists [type_is (s "a") (rl (s "x") [FlagI]); type_is (s "b") (rl (s "y") [])].
  exists (s "<a:type-matches(/x/i)/><b:type-matches(/y/)/>"). eexists. split.
  - split; [|reflexivity]. constructor; [|constructor; [|constructor]]; (split; [right; now apply name_by|]); (split; [|split; [constructor|intros c []]]);
      (constructor; [|constructor]); (split; [now left|now apply enclosed_by]).
  - split; [reflexivity|]. split; [vm_compute; reflexivity|]. split; [vm_compute; intros H; discriminate|]. eexists. split; reflexivity.
Qed.
Print Assumptions C44_refuted.

Theorem C44_pipe_refuted : exists ps x r, spells ps x /\ x = s "<a @text:filter(/x/i):filter(/y/):z/>" /\
  ParseHext sample_engine x = Ok r /\
  text_meaning (own_regex_meaning sample_engine) ps <> Some r /\
  r_captures r = [Some (FunctionCapture (Some TextBuiltin) (s "z")
    (Some (Pipe (RegexPipe (mk_regex (s "x") true false)) (Some (Pipe (RegexPipe (mk_regex (s "y") true false)) None)))))].
Proof.
  exists [Closed (mk_head [] (s "a") [] [(s " ", PBuiltinCapture BText [PlFilter (rl (s "x") [FlagI]); PlFilter (rl (s "y") [])] (CPlain (s "z")))] [])].
  exists (s "<a @text:filter(/x/i):filter(/y/):z/>"). eexists. split.
  - split; [|reflexivity]. constructor; [|constructor]. split; [right; now apply name_by|]. split; [constructor|]. split; [|intros c []].
    constructor; [|constructor]. split; [discriminate|]. split; [now apply all_in_forallb|]. split.
    + constructor; [split; [now left|now apply enclosed_by]|]. constructor; [split; [now left|now apply enclosed_by]|constructor].
    + split; [discriminate|now apply all_in_forallb].
  - split; [reflexivity|]. split; [vm_compute; reflexivity|]. split; [vm_compute; intros H; discriminate|]. reflexivity.
Qed.
Print Assumptions C44_pipe_refuted.

(** In a text without flags on type-matches, and without flags on a regex pipe
    that another regex pipe of its capture follows, flags apply to their own
    regex only. *)
Theorem C44_own_partial : forall E ps x r, Forall piece_unflagged ps -> spells ps x ->
  ParseHext E x = Ok r <-> text_meaning (own_regex_meaning E) ps = Some r.
Proof. exact flags_own. Qed.
Print Assumptions C44_own_partial.

Example C44_case : let ps := [Closed (mk_head [] (s "a") [] [(s " ", PAttrMatch (s "b") (VRegex (rl (s "x") [FlagI])) false); (s " ", PAttrMatch (s "c") (VRegex (rl (s "y") [])) true)] [])] in
  Forall piece_unflagged ps /\ spells ps (s "<a b=~/x/i c=~/y/!/>").
Proof.
  split.
  - repeat constructor.
  - split; [|reflexivity]. constructor; [|constructor]. split; [right; now apply name_by|]. split; [constructor|]. split; [|intros c []].
    constructor; [|constructor; [|constructor]]; (split; [discriminate|]); (split; [now apply all_in_forallb|]);
      (split; [now apply name_by|]); (split; [now left|now apply enclosed_by]).
Qed.

(** C45. Tags and braces pair up in every accepted text, however it is read as
    tokens. See [balanced] and [closes] in SyntaxSpec. *)
Theorem C45_tokens : forall E x r, ParseHext E x = Ok r -> exists ts, Forall token_ok ts /\ tokens_text ts = x.
Proof. exact parsed_has_tokens. Qed.
Print Assumptions C45_tokens.

Theorem C45_balanced : forall E ts r, Forall token_ok ts -> ParseHext E (tokens_text ts) = Ok r -> balanced false ts.
Proof. exact parsed_balanced. Qed.
Print Assumptions C45_balanced.

Example C45_case : Forall token_ok [TOpen (mk_head [] (s "x-y") [] [] []) false; TClose (s "x-y")] /\
  ParseHext sample_engine (s "<x-y></x-y>") = Ok (mk_rule None None [] [] [] TAG_UNKNOWN false false (Some (s "x-y"))) /\
  (exists m, ParseHext sample_engine (s "<x-y></X-Y>") = Throw (SyntaxError m)).
Proof.
  split; [|split; [vm_compute; reflexivity|eexists; vm_compute; reflexivity]].
  assert (H : is_tag_name (s "x-y")) by (right; now apply name_by).
  constructor; [|constructor; [exact H|constructor]]. split; [exact H|]. split; [constructor|]. split; [constructor|intros c []].
Qed.

(** C46. Whitespace and comments between tokens do not matter. *)
Theorem C46_blanks : forall E u g v r, Forall token_ok u -> Forall token_ok v -> token_ok g -> is_blank g ->
  ParseHext E (tokens_text u ++ token_text g ++ tokens_text v) = Ok r <-> ParseHext E (tokens_text u ++ tokens_text v) = Ok r.
Proof. exact blank_ignored. Qed.
Print Assumptions C46_blanks.

Example C46_case : token_ok (TComment (s " <b>")) /\ is_blank (TComment (s " <b>")) /\
  ParseHext sample_engine (s "<x-y>" ++ token_text (TComment (s " <b>")) ++ s "</x-y>") = ParseHext sample_engine (s "<x-y></x-y>").
Proof. split; [|split; [exact I|vm_compute; reflexivity]]. intros H. cbn in H. decompose [or] H; try discriminate. contradiction. Qed.
