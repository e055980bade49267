(** What is known about the variables of Parser::parse in every state of the
    machine, and the check that the actions preserve it. *)

From Coq Require Import Ascii String NArith ZArith Bool List Lia.
From Verif Require Import Base Regular RegularProofs Arrays ParserTables Parser MachineRows Grammar GrammarCheck.
Import ListNotations.

(** [x_lt]: the character read last is <; [x_close]: the last two are </;
    [x_delim]: the last is the delimiter of a regex; [x_tag], [x_regex]: this
    was so when the token started. *)
Record context := mk_ctx { x_lt : bool; x_close : bool; x_delim : bool; x_tag : bool; x_regex : bool }.

(** [a_open]: there is a current rule. [a_tok]: a token was started. [a_rx],
    [a_neg]: pv.regex and pv.negate are set. [a_pos]: some input was read.
    [a_nl]: the character read last is not a newline. [a_num]: the token read so
    far is empty, a sign, a number, or something that is not empty. *)
Inductive number : Type := NUnknown | NStart | NSign | NDigits | NMore.
Record abs := mk_abs {
  a_open : bool; a_tok : bool; a_rx : bool; a_neg : bool; a_pos : bool; a_nl : bool; a_num : number;
  a_ctx : context }.

Definition abs_open (A : abs) (b : bool) : abs := mk_abs b (a_tok A) (a_rx A) (a_neg A) (a_pos A) (a_nl A) (a_num A) (a_ctx A).
Definition abs_rx (A : abs) (b : bool) : abs := mk_abs (a_open A) (a_tok A) b (a_neg A) (a_pos A) (a_nl A) (a_num A) (a_ctx A).
Definition abs_neg (A : abs) (b : bool) : abs := mk_abs (a_open A) (a_tok A) (a_rx A) b (a_pos A) (a_nl A) (a_num A) (a_ctx A).
Definition abs_start (A : abs) : abs :=
  mk_abs (a_open A) true (a_rx A) (a_neg A) (a_pos A) (a_nl A) NStart
    (mk_ctx (x_lt (a_ctx A)) (x_close (a_ctx A)) (x_delim (a_ctx A)) (x_close (a_ctx A)) (x_delim (a_ctx A))).

Definition need (b : bool) (A : abs) : option abs := if b then Some A else None.

Definition is_digits (n : number) : bool := match n with NDigits => true | _ => false end.
Definition is_more (n : number) : bool := match n with NSign | NDigits | NMore => true | _ => false end.

Definition abs_action (a : N) (A : abs) : option abs :=
  match a with
  | 2 | 4 | 6 | 8 | 10 | 14 | 17 | 19 | 21 | 23 | 30 | 32 | 60 | 79 | 84 => Some (abs_start A)
  | 3 | 5 | 7 | 9 | 11 | 20 | 22 | 24 | 61 | 80 => need (a_tok A) A
  | 15 | 18 | 31 | 33 => need (a_tok A && is_digits (a_num A)) A
  | 27 => need (a_tok A && a_nl A && x_regex (a_ctx A)) (abs_rx A true)
  | 28 | 44 | 57 | 58 => need (a_rx A) A
  | 45 => Some (abs_neg A true)
  | 46 => need (a_neg A) A
  | 67 | 68 | 69 | 70 | 71 | 72 | 74 | 77 | 78 | 82 => need (a_open A) A
  | 75 => Some (abs_neg (abs_rx A false) false)
  | 76 => Some (abs_open A true)
  | 81 => need (a_open A) (abs_neg A false)
  | 83 => need (a_open A) (abs_open A false)
  | 85 => need (a_tok A && a_nl A && is_more (a_num A) && x_tag (a_ctx A)) (abs_open A false)
  | 86 | 87 => need (a_nl A) (abs_open A false)
  | 88 => None
  | _ => Some A
  end%N.

Fixpoint abs_actions (l : list N) (A : abs) : option abs :=
  match l with
  | [] => Some A
  | a :: l' =>
      if (a <? 88)%N then match abs_action a A with Some A' => abs_actions l' A' | None => None end
      else None
  end.

Definition subset (m m' : N) : bool := (N.ldiff m m' =? 0)%N.
Definition m_delim : N := N.lor (cls "/") (N.lor (cls "'") (cls quote)).
Definition m_sign : N := N.lor (cls "+") (cls "-").

(** After a character out of [m]. *)
Definition abs_char (m : N) (A : abs) : abs :=
  mk_abs (a_open A) (a_tok A) (a_rx A) (a_neg A) true (negb (has m newline))
    (match a_num A with
     | NUnknown => NUnknown
     | NStart => if subset m m_digit then NDigits else if subset m m_sign then NSign else NMore
     | NSign | NDigits => if subset m m_digit then NDigits else NMore
     | NMore => NMore
     end)
    (mk_ctx (subset m (cls "<")) (subset m (cls "/") && x_lt (a_ctx A)) (subset m m_delim)
      (x_tag (a_ctx A)) (x_regex (a_ctx A))).

Definition meet_num (n n' : number) : number :=
  match n, n' with
  | NStart, NStart => NStart | NSign, NSign => NSign | NDigits, NDigits => NDigits
  | _, _ => if is_more n && is_more n' then NMore else NUnknown
  end.
Definition meet_ctx (x y : context) : context :=
  mk_ctx (x_lt x && x_lt y) (x_close x && x_close y) (x_delim x && x_delim y) (x_tag x && x_tag y) (x_regex x && x_regex y).
Definition meet (A B : abs) : abs :=
  mk_abs (a_open A && a_open B) (a_tok A && a_tok B) (a_rx A && a_rx B) (a_neg A && a_neg B)
    (a_pos A && a_pos B) (a_nl A && a_nl B) (meet_num (a_num A) (a_num B))
    (meet_ctx (a_ctx A) (a_ctx B)).

Definition num_eqb (n n' : number) : bool :=
  match n, n' with
  | NUnknown, NUnknown | NStart, NStart | NSign, NSign | NDigits, NDigits | NMore, NMore => true
  | _, _ => false
  end.
Definition ctx_eqb (x y : context) : bool :=
  eqb (x_lt x) (x_lt y) && eqb (x_close x) (x_close y) && eqb (x_delim x) (x_delim y) && eqb (x_tag x) (x_tag y) && eqb (x_regex x) (x_regex y).
Definition abs_eqb (A B : abs) : bool :=
  eqb (a_open A) (a_open B) && eqb (a_tok A) (a_tok B) && eqb (a_rx A) (a_rx B) && eqb (a_neg A) (a_neg B)
  && eqb (a_pos A) (a_pos B) && eqb (a_nl A) (a_nl B) && num_eqb (a_num A) (a_num B) && ctx_eqb (a_ctx A) (a_ctx B).

(** [A] tells at least as much as [B]. *)
Definition num_le (n n' : number) : bool := match n' with NUnknown => true | NMore => is_more n | _ => num_eqb n n' end.
Definition ctx_le (x y : context) : bool :=
  implb (x_lt y) (x_lt x) && implb (x_close y) (x_close x) && implb (x_delim y) (x_delim x) && implb (x_tag y) (x_tag x) && implb (x_regex y) (x_regex x).
Definition abs_le (A B : abs) : bool :=
  implb (a_open B) (a_open A) && implb (a_tok B) (a_tok A) && implb (a_rx B) (a_rx A) && implb (a_neg B) (a_neg A)
  && implb (a_pos B) (a_pos A) && implb (a_nl B) (a_nl A) && num_le (a_num A) (a_num B) && ctx_le (a_ctx A) (a_ctx B).

Definition abs_initial : abs := mk_abs false false false false false false NUnknown (mk_ctx false false false false false).

(** ** Computing what is known *)

Fixpoint spread (fuel : nat) (work : list N) (inv : ptrie abs) : ptrie abs :=
  match fuel, work with
  | S f, q :: work' =>
      match nget inv q with
      | None => inv
      | Some A =>
          let '(w, c) :=
            fold_left (fun wc e =>
              let '(w, c) := wc in
              if (e_to e =? hext_error)%N || (e_mask e =? 0)%N then (w, c)
              else match abs_actions (e_acts e) A with
                   | None => (w, c)
                   | Some A1 =>
                       let B := abs_char (e_mask e) A1 in
                       match nget c (e_to e) with
                       | None => (e_to e :: w, pset c (N.succ_pos (e_to e)) B)
                       | Some B0 =>
                           let B1 := meet B0 B in
                           if abs_eqb B0 B1 then (w, c) else (e_to e :: w, pset c (N.succ_pos (e_to e)) B1)
                       end
                   end) (row q) (work', inv) in
          spread f w c
      end
  | _, _ => inv
  end.

Definition invariants : ptrie abs := Eval vm_compute in
  spread 5000 [hext_start] (pset PLeaf (N.succ_pos hext_start) abs_initial).

(** ** Checking it *)

Definition at_state (q : N) : abs := match nget invariants q with Some A => A | None => abs_initial end.

Definition safe_entry (A : abs) (e : entry) : bool :=
  (e_mask e =? 0)%N ||
  (if (e_to e =? hext_error)%N
   then thread_eqb (e_acts e) [88%N] && (a_pos A || negb (has (e_mask e) newline))
   else match abs_actions (e_acts e) A with
        | None => false
        | Some A1 => abs_le (abs_char (e_mask e) A1) (at_state (e_to e))
        end).

Definition is_eof_action (a : N) : bool := existsb (N.eqb a) [83; 86; 87]%N.

Definition safe_state (q : N) : bool :=
  let A := at_state q in
  forallb (safe_entry A) (row q) &&
  match machine_eof q with
  | Ok acts =>
      (thread_eqb acts [88%N] && a_pos A) ||
      (forallb is_eof_action acts && match abs_actions acts A with Some _ => true | None => false end)
  | _ => false
  end.

Definition safe_all : bool :=
  forallb (fun q => (q =? hext_error)%N || safe_state q) (below state_count).

Lemma safe_all_states : safe_all = true.
Proof. vm_compute. reflexivity. Qed.
