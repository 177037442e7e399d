(** Model of floating point literals: how the C++ library prints them (operator<< on a stream, PlanPrinterVisitor.cpp 594-599; as %g with
    precision 6) and reads them (std::stof, std::stod; SubstraitPlanSubqueryRelationVisitor.cpp 1841-1856), both external, from their contracts. *)
From Verif Require Import Base.
From Coq Require Import ZArith.
Local Open Scope Z_scope.

(** A floating point number by its exact decimal value [d * 10^e]; every float and double has one.  Normal: no trailing zeros in [d]; zero is [0 * 10^0]. *)
Inductive fl := FFin (neg : bool) (d : N) (e : Z) | FInf (neg : bool) | FNan.
(** The two formats: bits of the significand, exponent of the smallest number, exponent above the largest significand. *)
Record format := { bits : Z; e_min : Z; e_max : Z }.
Definition single := {| bits := 24; e_min := -149; e_max := 104 |}.
Definition double := {| bits := 53; e_min := -1074; e_max := 971 |}.

(** Trailing zeros out of the digits; [fuel] bounds how many. *)
Fixpoint normal (fuel : nat) (d : N) (e : Z) : N * Z :=
  match fuel with
  | O => (d, e)
  | S fuel => if (d =? 0)%N then (0%N, 0) else if (d mod 10 =? 0)%N then normal fuel (d / 10) (e + 1) else (d, e)
  end.
Definition fin (neg : bool) (d : N) (e : Z) : fl := let '(d, e) := normal (S (N.size_nat d)) d e in FFin neg d e.

(** * Printing *)
(** Nearest integer to [d / 10^k], ties to even *)
Definition round_div (n d : N) : N :=
  let q := (n / d)%N in let r := (n mod d)%N in
  match (2 * r ?= d)%N with Lt => q | Gt => (q + 1)%N | Eq => if N.even q then q else (q + 1)%N end.
(** The value with six digits: digits without trailing zeros, and the exponent of the first digit. *)
Definition six (d : N) (e : Z) : str * Z :=
  let n := length (print_N d) in
  let r := if (6 <? n)%nat then round_div d (10 ^ N.of_nat (n - 6)) else (d * 10 ^ N.of_nat (6 - n))%N in
  let x := e + Z.of_nat n - 1 in
  let '(r, x) := if (r =? 1000000)%N then (100000%N, x + 1) else (r, x) in
  (print_N (fst (normal 6 r 0)), x).
Definition two_digits (n : N) : str := if (n <? 10)%N then "0"%char :: print_N n else print_N n.
Definition g_text (ds : str) (x : Z) : str :=
  if (x <? -4) || (6 <=? x) then
    match ds with
    | [] => []
    | c :: r => c :: (match r with [] => [] | _ => "."%char :: r end) ++ $"e" ++ (if x <? 0 then $"-" else $"+") ++ two_digits (Z.to_N (Z.abs x))
    end
  else if x <? 0 then $"0." ++ repeat "0"%char (Z.to_nat (- x - 1)) ++ ds
  else let i := S (Z.to_nat x) in
    if (length ds <=? i)%nat then ds ++ repeat "0"%char (i - length ds) else firstn i ds ++ $"." ++ skipn i ds.
Definition sign (neg : bool) : str := if neg then $"-" else [].
Definition fp_text (v : fl) : str :=
  match v with
  | FFin neg d e => if (d =? 0)%N then sign neg ++ $"0" else let '(ds, x) := six d e in sign neg ++ g_text ds x
  | FInf neg => sign neg ++ $"inf"
  | FNan => $"nan"
  end.

(** * Reading *)
(** The text of a NUMBER token: sign, digits, fraction, exponent *)
Fixpoint split_digits (s : str) : str * str :=
  match s with c :: r => if is_digit c then let '(a, b) := split_digits r in (c :: a, b) else ([], s) | [] => ([], []) end.
Definition decimal_value (s : str) : option (bool * N * Z) :=
  let '(neg, s) := match s with c :: r => if ceq c "-" then (true, r) else (false, s) | [] => (false, []) end in
  let '(i, s) := split_digits s in
  match i with [] => None | _ =>
    let '(f, s) := match s with c :: r => if ceq c "." then split_digits r else ([], s) | [] => ([], []) end in
    let e := match s with
      | c :: d :: r => if ceq (lower c) "e" then
          let '(ds, _) := split_digits r in
          if ceq d "+" then Z.of_N (digits_val 0 ds) else if ceq d "-" then - Z.of_N (digits_val 0 ds) else 0
          else 0
      | _ => 0
      end in
    Some (neg, digits_val 0 (i ++ f), e - Z.of_nat (length f))
  end.
(** The nearest number of the format, ties to even, to [n / d] (both positive): significand and exponent; the exponent for [bits] bits *)
Definition exponent_of (f : format) (n d : N) : Z :=
  let k := Z.log2 (Z.of_N n) - Z.log2 (Z.of_N d) - bits f + 1 in
  (* 2^(bits-1) <= n/d / 2^k may fail by one *)
  let lower_ok := if k <=? 0 then (2 ^ Z.to_N (bits f - 1) * d <=? n * 2 ^ Z.to_N (- k))%N else (2 ^ Z.to_N (bits f - 1) * d * 2 ^ Z.to_N k <=? n)%N in
  Z.max (e_min f) (if lower_ok then k else k - 1).
Definition round_to (f : format) (n d : N) : N * Z :=
  let k := exponent_of f n d in
  (if k <=? 0 then round_div (n * 2 ^ Z.to_N (- k)) d else round_div n (d * 2 ^ Z.to_N k), k).
Definition binary (neg : bool) (m : N) (k : Z) : fl :=
  if k <=? 0 then fin neg (m * 5 ^ Z.to_N (- k)) k else fin neg (m * 2 ^ Z.to_N k) 0.
Definition nearest (f : format) (neg : bool) (d : N) (e : Z) : option fl :=
  if (d =? 0)%N then Some (FFin neg 0 0)
  else let '(m, k) := if e <=? 0 then round_to f d (10 ^ Z.to_N (- e)) else round_to f (d * 10 ^ Z.to_N e) 1 in
    if e_max f <? (if (m =? 2 ^ Z.to_N (bits f))%N then k + 1 else k) then None else Some (binary neg m k).
(** [std::stof] and [std::stod] throw when there is no number or it is too large (the result of numbers that are too small is not modelled: they give the
    nearest number here, an exception with some libraries). *)
Definition stod (f : format) (s : str) : outcome fl :=
  match decimal_value s with
  | None => Throw EStdInvalid
  | Some (neg, d, e) => match nearest f neg d e with Some v => Ok v | None => Throw EStdOutOfRange end
  end.
