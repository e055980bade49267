(** Model of libhext/src/StringUtil.cpp. *)

From Coq Require Import Ascii String NArith ZArith Bool List.
From Verif Require Import Base.
Import ListNotations.

(** IsSpace, StringUtil.cpp 63-82. *)
Definition IsSpace (c : ascii) : bool :=
  match c with
  | " "%char | "009"%char | "010"%char | "012"%char | "013"%char => true
  | _ => false
  end.

(** Buffer access [str[i]] with bounds. *)
Definition buf_get (b : str) (i : nat) : outcome ascii :=
  match nth_error b i with Some c => Ok c | None => UB OutOfBounds end.

Fixpoint buf_set (b : str) (i : nat) (c : ascii) : outcome str :=
  match b, i with
  | [], _ => UB OutOfBounds
  | _ :: b', O => Ok (c :: b')
  | x :: b', S i' => obind (buf_set b' i' c) (fun b'' => Ok (x :: b''))
  end.

Open Scope outcome_scope.

(** The loop of TrimAndCollapseWs, StringUtil.cpp 35-56, working in place on
    [buf]. [todo] counts the remaining iterations (the loop runs while
    [c < str.size()], and the size is constant), so the recursion is the loop
    itself and needs no fuel outcome. *)
Fixpoint collapse_loop (todo : nat) (buf : str) (c e : nat) (need_space : bool)
  : outcome (str * nat) :=
  match todo with
  | O => Ok (buf, e)
  | S todo' =>
      let! x := buf_get buf c in
      if IsSpace x then
        collapse_loop todo' buf (S c) e
          (if Nat.ltb 0 e then true else need_space)
      else if need_space then
        let! buf1 := buf_set buf e " "%char in
        let! x' := buf_get buf1 c in
        let! buf2 := buf_set buf1 (S e) x' in
        collapse_loop todo' buf2 (S c) (S (S e)) false
      else
        let! x' := buf_get buf c in
        let! buf2 := buf_set buf e x' in
        collapse_loop todo' buf2 (S c) (S e) false
  end.

(** TrimAndCollapseWs, StringUtil.cpp 21-61; [str.erase(end)] keeps the first
    [end] bytes. *)
Definition TrimAndCollapseWs_run (x : str) : outcome str :=
  let! (buf, e) := collapse_loop (length x) x 0 0 false in
  Ok (firstn e buf).

(** The value of TrimAndCollapseWs. The theorem [TrimAndCollapseWs_run_ok]
    shows that the in-place run never leaves the buffer and returns this
    value. *)
Definition TrimAndCollapseWs (x : str) : str :=
  match TrimAndCollapseWs_run x with Ok y => y | _ => [] end.

(** Decimal digits as printed by iostreams and [std::to_string]. *)
Fixpoint digits_loop (fuel : nat) (n : N) (acc : str) : str :=
  match fuel with
  | O => acc
  | S f =>
      let d := ascii_of_N (48 + N.modulo n 10) in
      if (n / 10 =? 0)%N then d :: acc else digits_loop f (n / 10) (d :: acc)
  end.
Definition decimal (n : N) : str := digits_loop (S (N.to_nat (N.log2 n))) n [].
Definition decimal_Z (z : Z) : str :=
  if (z <? 0)%Z then "-"%char :: decimal (Z.to_N (- z)) else decimal (Z.to_N z).

(** The value of a (signed) [char] converted to [int]. *)
Definition char_to_int (c : ascii) : Z :=
  let n := Z.of_N (N_of_ascii c) in if (n <? 128)%Z then n else (n - 256)%Z.

(** [std::isprint] in the "C" locale; its argument must be representable as
    [unsigned char] or be EOF, which is -1, anything else is undefined
    behaviour. *)
Definition isprint (ci : Z) : outcome bool :=
  if (ci =? -1)%Z then Ok false
  else if (ci <? 0)%Z then UB BadCtypeArgument
  else Ok ((32 <=? ci)%Z && (ci <=? 126)%Z).

(** CharName, StringUtil.cpp 84-107. *)
Definition CharName (c : ascii) : outcome str :=
  match c with
  | "010"%char => Ok (s "[newline]")
  | "009"%char => Ok (s "[tab]")
  | "013"%char => Ok (s "[carriage-return]")
  | " "%char => Ok (s "[space]")
  | "000"%char => Ok (s "[nullbyte]")
  | _ =>
      let ci := char_to_int c in
      let! p := isprint ci in
      if p then Ok [c] else Ok (s "[ascii: " ++ decimal_Z ci ++ s "]")
  end.

(** [std::count(begin, c, '\n')] *)
Definition count_newlines (x : str) : nat :=
  length (filter (fun c => Ascii.eqb c "010"%char) x).

(** [std::find] over reverse iterators: the length of [x] up to and including
    its last newline (0 if there is none), which is [last_line.base()]. *)
Fixpoint after_last_newline (x : str) (pos best : nat) : nat :=
  match x with
  | [] => best
  | c :: x' => after_last_newline x' (S pos) (if Ascii.eqb c "010"%char then S pos else best)
  end.

(** CharPosition, StringUtil.cpp 109-137, for [begin] the start of the buffer
    and [c = begin + length prefix]: [prefix] is the text before [c]. Null and
    misordered pointers (lines 112-113) do not occur: the callers pass pointers
    into the buffer (theorem parse_error_location). *)
Definition CharPosition (prefix : str) : nat * nat :=
  let line_count := count_newlines prefix in
  let line_offset := if Nat.eqb line_count 0 then 0 else after_last_newline prefix 0 0 in
  let char_offset := length prefix in
  (line_count, char_offset - line_offset).

(** DecimalWidth, StringUtil.cpp 139-146. The loop divides by ten, so a number
    of at most [fuel] bits needs at most [fuel] iterations. *)
Fixpoint decimal_width_loop (fuel : nat) (number : N) (width : nat) : nat :=
  match fuel with
  | O => width
  | S f =>
      let number' := (number / 10)%N in
      if (number' =? 0)%N then width else decimal_width_loop f number' (S width)
  end.
Definition DecimalWidth (number : N) : nat :=
  decimal_width_loop (S (N.to_nat (N.log2 number))) number 1.

(** [subject.find(word, begin)]: the first position [>= begin] at which [word]
    occurs ([None] = npos). [pos] is the position of the head of [x]. *)
Fixpoint is_prefix (w x : str) : bool :=
  match w, x with
  | [], _ => true
  | _ :: _, [] => false
  | a :: w', b :: x' => Ascii.eqb a b && is_prefix w' x'
  end.
Fixpoint find_from (w x : str) (pos : nat) : option nat :=
  if is_prefix w x then Some pos
  else match x with
       | [] => None
       | _ :: x' => find_from w x' (S pos)
       end.
Definition str_find (subject w : str) (begin_ : nat) : option nat :=
  if Nat.ltb (length subject) begin_ then None
  else find_from w (skipn begin_ subject) begin_.

(** The loop of ContainsWord, StringUtil.cpp 153-170. Each iteration advances
    [begin] by at least [word.size() >= 1], so [length subject + 1] iterations
    suffice; running out of [fuel] yields [None]. *)
Fixpoint contains_word_loop (fuel : nat) (subject word : str) (begin_ : nat) : option bool :=
  match fuel with
  | O => None
  | S f =>
      match str_find subject word begin_ with
      | None => Some false
      | Some b =>
          let e := b + length word in
          let start_is_bound :=
            Nat.eqb b 0 || (match nth_error subject (b - 1) with Some c => Ascii.eqb c " "%char | None => false end) in
          let end_is_bound :=
            Nat.eqb e (length subject) || (match nth_error subject e with Some c => Ascii.eqb c " "%char | None => false end) in
          if start_is_bound && end_is_bound then Some true
          else contains_word_loop f subject word e
      end
  end.

(** ContainsWord, StringUtil.cpp 148-171. *)
Definition ContainsWord (subject word : str) : bool :=
  if (Nat.eqb (length subject) 0) || (Nat.eqb (length word) 0)
     || (Nat.ltb (length subject) (length word)) then false
  else match contains_word_loop (S (length subject)) subject word 0 with
       | Some b => b
       | None => false
       end.

(** boost::tokenizer with a newline char_separator and keep_empty_tokens:
    nothing for an empty range, otherwise the pieces between newlines. *)
Fixpoint split_newlines (cur x : str) : list str :=
  match x with
  | [] => [rev cur]
  | c :: x' =>
      if Ascii.eqb c "010"%char then rev cur :: split_newlines [] x'
      else split_newlines (c :: cur) x'
  end.
Definition tokenize_lines (x : str) : list str :=
  match x with [] => [] | _ => split_newlines [] x end.

(** [std::setw(w) << text]: right aligned, padded with spaces. *)
Definition setw (w : nat) (x : str) : str := repeat " "%char (w - length x) ++ x.

Fixpoint numbered (width : nat) (line_num : N) (lines : list str) : str :=
  match lines with
  | [] => []
  | l :: ls =>
      setw width (decimal line_num) ++ s ": " ++ l ++ ["010"%char]
        ++ numbered width (line_num + 1) ls
  end.

(** PrintNumberedLines, StringUtil.cpp 173-202: the text appended to [out]. *)
Definition PrintNumberedLines (x : str) : str :=
  let line_count := N.of_nat (1 + count_newlines x) in
  numbered (DecimalWidth line_count) 1 (tokenize_lines x).
