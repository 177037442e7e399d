(** Model of how string literals are printed, tokenised and evaluated. *)
From Verif Require Import Base StringsModel.

Definition backslash : ascii := ascii_of_N 92.

(** PlanPrinterVisitor.cpp 34-44 stringEscape: only the double quote is escaped. *)
Fixpoint stringEscape (s : str) : str :=
  match s with
  | [] => []
  | c :: r => if ceq c dquote then backslash :: c :: stringEscape r else c :: stringEscape r
  end.

(** PlanPrinterVisitor.cpp 607-608: the text of a string literal without its type suffix. *)
Definition printQuoted (s : str) : str := dquote :: stringEscape s ++ [dquote].

(** SubstraitPlanLexer.g4 112-113, rule STRING: a quote, then any sequence of ESCAPEDQUOTE (backslash, quote) or
    non-quote characters, then a quote.
    ANTLR takes the longest prefix of the input that matches.  The body of a match after the opening quote can be
    continued past a quote only when that quote follows a backslash (which then is
    read as ESCAPEDQUOTE).  [best] is the length of the longest match found so far, [pos] the number of characters read,
    [esc] whether the previous character was a backslash that may start an ESCAPEDQUOTE.
    Simplification: the input is bytes, not code points. *)
Fixpoint lex_body (esc : bool) (pos : nat) (best : option nat) (s : str) : option nat :=
  match s with
  | [] => best
  | c :: r =>
      if ceq c dquote then
        if esc then lex_body false (S pos) (Some (S pos)) r else Some (S pos)
      else lex_body (ceq c backslash) (S pos) best r
  end.
(** Length of the STRING token at the start of the input. *)
Definition lex_string (s : str) : option nat :=
  match s with
  | c :: r => if ceq c dquote then lex_body false 1 None r else None
  | [] => None
  end.

(** Hexadecimal digits. *)
Definition hex_digit (c : ascii) : option N :=
  if is_digit c then Some (code c - 48)%N
  else if ((97 <=? code (lower c)) && (code (lower c) <=? 102))%N then Some (code (lower c) - 87)%N
  else None.
Fixpoint hex_val (acc : N) (s : str) : option N :=
  match s with
  | [] => Some acc
  | c :: r => match hex_digit c with Some d => hex_val (acc * 16 + d) r | None => None end
  end.

(** [absl::SimpleHexAtoi] (external; from its contract): surrounding whitespace, a sign and a 0x prefix are allowed,
    then at least one hexadecimal digit and nothing else; false when out of range. *)
Definition simpleHexAtoi (lo hi : Z) (s : str) : option Z :=
  let t := trim s in
  let '(neg, body) :=
    match t with
    | c :: r => if ceq c "-"%char then (true, r) else if ceq c "+"%char then (false, r) else (false, t)
    | [] => (false, [])
    end in
  let body :=
    match body with
    | z :: x :: r => if ceq z "0"%char && ceq (lower x) "x"%char then r else body
    | _ => body
    end in
  match body with
  | [] => None
  | _ => match hex_val 0 body with
         | None => None
         | Some v => let z := if neg then (- Z.of_N v)%Z else Z.of_N v in
                     if (lo <=? z)%Z && (z <=? hi)%Z then Some z else None
         end
  end.
Definition simpleHexAtoi32 := simpleHexAtoi (-2147483648) 2147483647.
Definition simpleHexAtoi64 := simpleHexAtoi (-9223372036854775808) 9223372036854775807.

(** [static_cast<char>(hex >> k & 0xff)]. *)
Definition byte_at (k : Z) (h : Z) : ascii := ascii_of_N (Z.to_N (Z.land (Z.shiftr h k) 255)).

(** [str.find(c)]. *)
Fixpoint find_char (c : ascii) (s : str) : option nat :=
  match s with
  | [] => None
  | d :: r => if ceq c d then Some 0 else option_map S (find_char c r)
  end.

(** The nine simple escapes, SubstraitPlanRelationVisitor.cpp 1571-1594. *)
Definition simple_escape (c : ascii) : option ascii :=
  if ceq c backslash then Some backslash
  else if ceq c "'"%char then Some "'"%char
  else if ceq c dquote then Some dquote
  else if ceq c "b"%char then Some (ascii_of_N 8)
  else if ceq c "f"%char then Some (ascii_of_N 12)
  else if ceq c "n"%char then Some (ascii_of_N 10)
  else if ceq c "r"%char then Some (ascii_of_N 13)
  else if ceq c "t"%char then Some (ascii_of_N 9)
  else None.

(** SubstraitPlanRelationVisitor.cpp 1563-1649 escapeText.
    [i] is the loop index; [str[n]] with [n = size] is NUL (std::string), larger never happens (proved for [i+2]).
    [i < str.length() - 3] is evaluated on size_t and is true for all small [i] when the length is below 3.
    Returns the text produced and the offsets of reported errors (newest last); None = out of fuel. *)
Definition char_at (s : str) (i : nat) : ascii := nth i s zero.

Fixpoint escape_loop (fuel : nat) (s : str) (i : nat) : option (str * list nat) :=
  match fuel with
  | O => None
  | S f =>
    let len := length s in
    let emit (out : str) (errs : list nat) (next : nat) :=
      match escape_loop f s next with
      | None => None
      | Some (o, e) => Some (out ++ o, errs ++ e)
      end in
    if i <? len then
      if ceq (char_at s i) backslash && (i <? len - 1) then
        let c := char_at s (i + 1) in
        match simple_escape c with
        | Some d => emit [d] [] (i + 2)
        | None =>
          if ceq c "x"%char then
            if (len <? 3) || (i <? len - 3) then
              match simpleHexAtoi32 (substr (i + 2) 2 s) with
              | Some h => emit [byte_at 0 h] [] (i + 4)
              | None => emit [char_at s i; c] [] (i + 2)
              end
            else emit [char_at s i; c] [] (i + 2)
          else if ceq c "u"%char && ((len <? 3) || (i <? len - 3)) then
            if negb (ceq (char_at s (i + 2)) "{"%char) then emit [] [] (i + 2)
            else
              let sub := substr_from (i + 3) s in
              match find_char "}"%char sub with
              | Some x =>
                  match (if 0 <? x then simpleHexAtoi64 (substr 0 x sub) else None) with
                  | Some h =>
                      let out := if x <=? 2 then [byte_at 0 h]
                                 else if x <=? 4 then [byte_at 8 h; byte_at 0 h]
                                 else if x <=? 6 then [byte_at 16 h; byte_at 8 h; byte_at 0 h]
                                 else [] in
                      emit out [] (i + x + 4)
                  | None => emit [char_at s i; c] [i + 1] (i + 2)
                  end
              | None => (* x = npos: i += npos + 3 wraps to i + 2, then ++i *)
                  match simpleHexAtoi64 sub with
                  | Some _ => emit [] [] (i + 3)
                  | None => emit [char_at s i; c] [i + 1] (i + 2)
                  end
              end
          else emit [char_at s i; c] [i + 1] (i + 2)
        end
      else emit [char_at s i] [] (i + 1)
    else Some ([], [])
  end.

Definition escapeText (s : str) : option (str * list nat) := escape_loop (S (length s)) s 0.

(** SubstraitPlanRelationVisitor.cpp 1467-1491: the value of a STRING token. *)
Definition evalString (input : str) : option (str * list nat) :=
  let s := unquote input in
  if startsWith input [backtick] then Some (s, []) else escapeText s.
