(** Cases for C83. *)

From Coq Require Import Ascii String NArith ZArith Bool List.
From Verif Require Import Base Tags Dom Values Match Rule RuleMatching ExtractSpec Samples SearchSpec RewriteSpec PathSpec PathCases SelectSpec SelectProofs.
Import ListNotations.

(** Exchanges the letters x and y. *)
Definition exchange (v : str) : str :=
  map (fun c => if ascii_dec c "x" then "y" else if ascii_dec c "y" then "x" else c)%char v.
Lemma exchange_twice v : exchange (exchange v) = v.
Proof.
  unfold exchange. rewrite map_map. induction v as [|c v IH]; [reflexivity|]. cbn [map]. rewrite IH. f_equal.
  destruct (ascii_dec c "x") as [-> |H]; [reflexivity|]. destruct (ascii_dec c "y") as [-> |H']; [reflexivity|].
  destruct (ascii_dec c "x"); [contradiction|]. destruct (ascii_dec c "y"); [contradiction|reflexivity].
Qed.
Lemma exchange_injective a b : exchange a = exchange b -> a = b.
Proof. intros H. rewrite <- (exchange_twice a), <- (exchange_twice b). now rewrite H. Qed.

Definition only_y (name : str) : bool := str_eqb name (s "y").
Definition hash : pipe := Pipe (PrependPipe (s "#")) None.

Lemma select_case :
  extract_yields sample_engine path_rule path_page (Some [0]) 0
    (Ok [[(s "x", s "1"); (s "x", s "2"); (s "y", s "3"); (s "y", s "5")]; [(s "x", s "7")]]) /\
  extract_yields sample_engine (select only_y path_rule) path_page (Some [0]) 0 (Ok [[(s "y", s "3"); (s "y", s "5")]]) /\
  ((forall a b, exchange a = exchange b -> a = b) /\
   extract_yields sample_engine (rename exchange path_rule) path_page (Some [0]) 0
    (Ok [[(s "x", s "3"); (s "x", s "5"); (s "y", s "1"); (s "y", s "2")]; [(s "y", s "7")]])) /\
  ((forall x, pipe_pipe sample_engine hash x = Ok (s "#" ++ x)) /\
   extract_yields sample_engine (piped only_y hash path_rule) path_page (Some [0]) 0
    (Ok [[(s "x", s "1"); (s "x", s "2"); (s "y", s "#3"); (s "y", s "#5")]; [(s "x", s "7")]])).
Proof.
  split; [run_extract|]. split; [run_extract|]. split; [split; [exact exchange_injective|run_extract]|].
  split; [reflexivity|run_extract].
Qed.

(** <a @href:b @id:a /> and <a @id:a @href:b /> *)
Definition two_captures (first : bool) : rule :=
  mk_rule None None [] [] (if first then [take (s "href") (s "b"); take (s "id") (s "a")] else [take (s "id") (s "a"); take (s "href") (s "b")])
    TAG_A false false None.
Definition two_page : node :=
  page [NElement TAG_A (Some []) [mk_attr NsNone (s "href") (Some (s "1")); mk_attr NsNone (s "id") (Some (s "2"))] []].

Lemma merged_differ : exists E R R' D f res r r',
  extract_yields E R D (Some [0]) 0 (Ok res) /\ extract_yields E R' D (Some [0]) 0 (Ok res) /\
  extract_yields E (rename f R) D (Some [0]) 0 (Ok r) /\ extract_yields E (rename f R') D (Some [0]) 0 (Ok r') /\ r <> r'.
Proof.
  exists sample_engine, (two_captures true), (two_captures false), two_page, (fun _ => s "n"), [[(s "a", s "2"); (s "b", s "1")]],
    [[(s "n", s "1"); (s "n", s "2")]], [[(s "n", s "2"); (s "n", s "1")]].
  split; [run_extract|]. split; [run_extract|]. split; [run_extract|]. split; [run_extract|discriminate].
Qed.
