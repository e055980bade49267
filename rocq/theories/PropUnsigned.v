(** C93: the parser where char is unsigned. *)

From Coq Require Import Ascii String NArith ZArith Bool List Lia.
From Verif Require Import Samples Base StringUtil Values Match Rule Parser Grammar GrammarSpec TextSpec ParserSpec
  UnsignedChar UnsignedSpec UnsignedProofs.
Import ListNotations.

(** C93. ParseHext does the same whether char is signed or not, unless the first
    byte that does not continue a text is above 127. Then the parser with an
    unsigned char reports it, by its number. See UnsignedSpec for the meaning of
    [with_unsigned]. *)
Theorem C93_outcomes : forall E x, with_unsigned x (ParseHext E x) (ParseHext_u E x).
Proof. exact parse_unsigned. Qed.
Print Assumptions C93_outcomes.

(** So there is no undefined behaviour where char is unsigned. *)
Theorem C93_defined : forall E x, (exists r, ParseHext_u E x = Ok r) \/ (exists e, ParseHext_u E x = Throw e).
Proof. exact unsigned_total. Qed.
Print Assumptions C93_defined.

(** The same texts are accepted, with the same rules. *)
Theorem C93_accepts : forall E x r, ParseHext_u E x = Ok r <-> ParseHext E x = Ok r.
Proof. exact unsigned_accepts. Qed.
Print Assumptions C93_accepts.

(** A text of ASCII characters gets the same rule or the same message. *)
Theorem C93_ascii : forall E x, (forall c, In c x -> (N_of_ascii c < 128)%N) -> ParseHext_u E x = ParseHext E x.
Proof. exact unsigned_ascii. Qed.
Print Assumptions C93_ascii.

(** In general the messages are not the same, even where both are defined. *)
Theorem C93_messages_refuted : exists x m m', m <> m' /\
  (forall E, ParseHext E x = Throw (SyntaxError m)) /\ (forall E, ParseHext_u E x = Throw (SyntaxError m')).
Proof. exact messages_differ. Qed.
Print Assumptions C93_messages_refuted.

Example C93_case :
  let x := s "<a b=" ++ quote :: "195"%char :: "169"%char :: quote :: s "/>" in
  let y := s "<a " ++ "195"%char :: s "/>" in
  (exists r, ParseHext_u sample_engine x = Ok r) /\
  ParseHext sample_engine y = UB BadCtypeArgument /\
  ParseHext_u sample_engine y = Throw (SyntaxError (s "Unexpected character '[ascii: 195]' at line 1, char 4:" ++ [newline; newline] ++
    s "1: <a " ++ "195"%char :: [newline])) /\
  ParseHext_u sample_engine (s "<a") = ParseHext sample_engine (s "<a").
Proof. split; [eexists; vm_compute; reflexivity|]. repeat split; vm_compute; reflexivity. Qed.
