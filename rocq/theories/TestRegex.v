(** A small regex library for running the model on concrete inputs.

    It implements the part of the Perl syntax that the project's own test cases
    use: characters, ".", classes, the escapes \d \w \s, "^", "$", groups,
    alternatives, "*", "+", "?" and "{n}". The theorems hold for every [engine]; none of
    them is about this one. *)

From Coq Require Import Ascii String NArith Bool List.
From Verif Require Import Base StringUtil Values.
Import ListNotations.

Inductive re :=
| RChar (p : ascii -> bool)
| RNone
| RSeq (a b : re)
| RAlt (a b : re)
| RStar (a : re)
| RGroup (k : nat) (a : re)
| RBegin
| REnd.

Definition between (lo hi c : ascii) : bool := (N_of_ascii lo <=? N_of_ascii c)%N && (N_of_ascii c <=? N_of_ascii hi)%N.
Definition digit (c : ascii) : bool := between "0" "9" c.
Definition word (c : ascii) : bool := digit c || between "a" "z" c || between "A" "Z" c || Ascii.eqb c "_".
Definition blank (c : ascii) : bool := between "009" "013" c || Ascii.eqb c " ".
Definition lower (c : ascii) : ascii := if between "A" "Z" c then ascii_of_N (N_of_ascii c + 32) else c.
Definition same (icase : bool) (a b : ascii) : bool :=
  if icase then Ascii.eqb (lower a) (lower b) else Ascii.eqb a b.
Definition escaped (icase : bool) (c : ascii) : ascii -> bool :=
  match c with
  | "d"%char => digit | "w"%char => word | "s"%char => blank
  | _ => same icase c
  end.

(** The members of a class, up to the bracket. *)
Fixpoint class (fuel : nat) (icase : bool) (x : str) (p : ascii -> bool) : (ascii -> bool) * str :=
  match fuel, x with
  | S f, "]"%char :: x' => (p, x')
  | S f, "\"%char :: c :: x' => class f icase x' (fun a => p a || escaped icase c a)
  | S f, a :: "-"%char :: b :: x' =>
      if Ascii.eqb b "]" then class f icase ("-"%char :: b :: x') (fun c => p c || same icase a c)
      else class f icase x' (fun c => p c || between a b c || (icase && between a b (lower c)))
  | S f, a :: x' => class f icase x' (fun c => p c || same icase a c)
  | _, _ => (p, [])
  end.

Fixpoint times (n : nat) (a : re) : re := match n with O => RNone | S m => RSeq a (times m a) end.

(** Parsing: alternatives, a sequence, one piece with its repetition. [k] is the
    number of the next group. *)
Fixpoint parse_alt (fuel : nat) (icase : bool) (k : nat) (x : str) : re * nat * str :=
  match fuel with
  | O => (RNone, k, [])
  | S f =>
      let '(a, k1, x1) := parse_seq f icase k x in
      match x1 with
      | "|"%char :: x2 => let '(b, k2, x3) := parse_alt f icase k1 x2 in (RAlt a b, k2, x3)
      | _ => (a, k1, x1)
      end
  end
with parse_seq (fuel : nat) (icase : bool) (k : nat) (x : str) : re * nat * str :=
  match fuel with
  | O => (RNone, k, [])
  | S f =>
      match x with
      | [] => (RNone, k, [])
      | "|"%char :: _ | ")"%char :: _ => (RNone, k, x)
      | c :: x' =>
          let '(a, k1, x1) :=
            match c, x' with
            | "("%char, _ =>
                let '(a, k1, x1) := parse_alt f icase (S k) x' in
                (RGroup k a, k1, match x1 with ")"%char :: x2 => x2 | _ => x1 end)
            | "["%char, "^"%char :: x2 => let (p, x3) := class f icase x2 (fun _ => false) in (RChar (fun a => negb (p a)), k, x3)
            | "["%char, _ => let (p, x2) := class f icase x' (fun _ => false) in (RChar p, k, x2)
            | "\"%char, d :: x2 => (RChar (escaped icase d), k, x2)
            | "."%char, _ => (RChar (fun _ => true), k, x')
            | "^"%char, _ => (RBegin, k, x')
            | "$"%char, _ => (REnd, k, x')
            | _, _ => (RChar (same icase c), k, x')
            end in
          let (b, x2) :=
            match x1 with
            | "*"%char :: x2 => (RStar a, x2)
            | "+"%char :: x2 => (RSeq a (RStar a), x2)
            | "?"%char :: x2 => (RAlt a RNone, x2)
            | "{"%char :: d :: "}"%char :: x2 => (times (N.to_nat (N_of_ascii d - 48)) a, x2)
            | _ => (a, x1)
            end in
          let '(rest, k2, x3) := parse_seq f icase k1 x2 in
          (RSeq b rest, k2, x3)
      end
  end.

(** Where a match has got to: the character before, the rest of the text, and
    the groups so far. *)
Definition place := (option ascii * str * list (nat * str))%type.

Definition line_end (c : ascii) : bool := Ascii.eqb c "010".

(** Backtracking in the order of Perl. *)
Fixpoint run (fuel : nat) (r : re) (at_ : place) (next : place -> option place) : option place :=
  match fuel with
  | O => None
  | S f =>
      let '(before, rest, groups) := at_ in
      match r with
      | RChar p => match rest with c :: rest' => if p c then next (Some c, rest', groups) else None | [] => None end
      | RNone => next at_
      | RSeq a b => run f a at_ (fun at1 => run f b at1 next)
      | RAlt a b => match run f a at_ next with Some x => Some x | None => run f b at_ next end
      | RStar a =>
          match run f a at_ (fun at1 =>
                  let '(_, rest1, _) := at1 in
                  if Nat.ltb (length rest1) (length rest) then run f (RStar a) at1 next else None) with
          | Some x => Some x
          | None => next at_
          end
      | RGroup k a =>
          run f a at_ (fun '(before1, rest1, groups1) =>
            next (before1, rest1, (k, firstn (length rest - length rest1) rest) :: groups1))
      | RBegin => match before with None => next at_ | Some c => if line_end c then next at_ else None end
      | REnd => match rest with [] => next at_ | c :: _ => if line_end c then next at_ else None end
      end
  end.

Definition group_text (groups : list (nat * str)) (k : nat) : str :=
  match find (fun g => Nat.eqb (fst g) k) groups with Some g => snd g | None => [] end.

(** The first match at or after a place: the text before it, the match, its
    groups, the rest. *)
Fixpoint first_match (r : re) (n : nat) (before : option ascii) (x skipped : str) : option (str * str * list str * str) :=
  match run (10 + 20 * length x) r (before, x, []) Some with
  | Some (_, rest, groups) => Some (rev skipped, firstn (length x - length rest) x, map (group_text groups) (seq 1 n), rest)
  | None => match x with c :: x' => first_match r n (Some c) x' (c :: skipped) | [] => None end
  end.

Definition compiled (rx : regex) : re * nat :=
  let '(r, k, _) := parse_alt (2 + 2 * length (rx_source rx)) (rx_icase rx) 1 (rx_source rx) in (r, k - 1).

Fixpoint format (fmt : str) (match_ : str) (subs : list str) : str :=
  match fmt with
  | "$"%char :: "&"%char :: fmt' => match_ ++ format fmt' match_ subs
  | "$"%char :: c :: fmt' =>
      if digit c then nth (N.to_nat (N_of_ascii c - 48)) (match_ :: subs) [] ++ format fmt' match_ subs
      else "$"%char :: c :: format fmt' match_ subs
  | "\"%char :: c :: fmt' => c :: format fmt' match_ subs
  | c :: fmt' => c :: format fmt' match_ subs
  | [] => []
  end.

Fixpoint replace_all (fuel : nat) (r : re) (n : nat) (before : option ascii) (x fmt : str) : str :=
  match fuel with
  | O => x
  | S f =>
      match first_match r n before x [] with
      | Some (skipped, match_, subs, rest) =>
          match match_ with
          | [] =>
              match rest with
              | [] => skipped ++ format fmt match_ subs
              | c :: rest' => skipped ++ format fmt match_ subs ++ c :: replace_all f r n (Some c) rest' fmt
              end
          | _ => skipped ++ format fmt match_ subs ++ replace_all f r n (Some (last match_ " "%char)) rest fmt
          end
      | None => x
      end
  end.

Definition test_engine : engine :=
  mk_engine (fun _ => None)
    (fun rx x => let (r, n) := compiled rx in
                 Some (match first_match r n None x [] with Some (_, m, subs, _) => Some (m, subs) | None => None end))
    (fun rx x fmt => let (r, n) := compiled rx in Some (replace_all (S (length x)) r n None x fmt)).
