(** Model of date literals: the parts of the date library (Howard Hinnant's date.h, external, from its documentation) that
    PlanPrinterVisitor.cpp 600-605 prints dates with and SubstraitPlanSubqueryRelationVisitor.cpp 2042-2062
    (SubstraitPlanRelationVisitor.cpp 1894-1914) reads them with. *)
From Verif Require Import Base.
From Coq Require Import ZArith.
Local Open Scope Z_scope.

(** Not modelled: reading years before 0, and years that do not fit in 16 bits (date.h keeps no more). *)
Record civil := Civil { y_of : Z; m_of : Z; d_of : Z }.
(** [year_month_day{sys_days}]: the documented algorithm civil_from_days *)
Definition civil_from_days (day : Z) : civil :=
  let z := day + 719468 in
  let era := z / 146097 in
  let doe := z - era * 146097 in
  let yoe := (doe - doe / 1460 + doe / 36524 - doe / 146096) / 365 in
  let y := yoe + era * 400 in
  let doy := doe - (365 * yoe + yoe / 4 - yoe / 100) in
  let mp := (5 * doy + 2) / 153 in
  let d := doy - (153 * mp + 2) / 5 + 1 in
  let m := if mp <? 10 then mp + 3 else mp - 9 in
  Civil (if m <=? 2 then y + 1 else y) m d.
(** [sys_days{year_month_day}]: days_from_civil *)
Definition days_from_civil (c : civil) : Z :=
  let y := if m_of c <=? 2 then y_of c - 1 else y_of c in
  let era := y / 400 in
  let yoe := y - era * 400 in
  let doy := (153 * (if 2 <? m_of c then m_of c - 3 else m_of c + 9) + 2) / 5 + d_of c - 1 in
  let doe := yoe * 365 + yoe / 4 - yoe / 100 + doy in
  era * 146097 + doe - 719468.
(** [year_month_day::ok] *)
Definition is_leap (y : Z) : bool := (y mod 4 =? 0) && (negb (y mod 100 =? 0) || (y mod 400 =? 0)).
Definition last_day (y m : Z) : Z :=
  if m =? 2 then if is_leap y then 29 else 28 else if (m =? 4) || (m =? 6) || (m =? 9) || (m =? 11) then 30 else 31.
Definition civil_ok (c : civil) : bool := (1 <=? m_of c) && (m_of c <=? 12) && (1 <=? d_of c) && (d_of c <=? last_day (y_of c) (m_of c)).

(** Numbers filled with zeros to a width *)
Definition pad (w : nat) (n : N) : str := let s := print_N n in repeat "0"%char (w - length s) ++ s.
(** [operator<<] of year_month_day: year with at least four digits, month and day with two *)
Definition civil_text (c : civil) : str :=
  (if y_of c <? 0 then ["-"%char] else []) ++ pad 4 (Z.to_N (Z.abs (y_of c))) ++ $"-" ++ pad 2 (Z.to_N (m_of c)) ++ $"-" ++ pad 2 (Z.to_N (d_of c)).
Definition date_text (day : Z) : str := civil_text (civil_from_days day).

(** At least one and at most [n] digits *)
Fixpoint upto_digits (n : nat) (s : str) : str * str :=
  match n, s with
  | S n, c :: r => if is_digit c then let '(a, b) := upto_digits n r in (c :: a, b) else ([], s)
  | _, _ => ([], s)
  end.
Definition read_digits (n : nat) (s : str) : option (Z * str) :=
  match upto_digits n s with ([], _) => None | (ds, r) => Some (Z.of_N (digits_val 0 ds), r) end.
Definition read_char (c : ascii) (s : str) : option str := match s with d :: r => if ceq c d then Some r else None | [] => None end.
(** [>> date::parse("%Y-%m-%d", ...)]: the year has at most four digits, what follows the day is ignored; the date has to exist. *)
Definition read_date (s : str) : option (civil * str) :=
  match read_digits 4 s with None => None | Some (y, s) =>
  match read_char "-" s with None => None | Some s =>
  match read_digits 2 s with None => None | Some (m, s) =>
  match read_char "-" s with None => None | Some s =>
  match read_digits 2 s with None => None | Some (d, s) => Some (Civil y m d, s) end end end end end.
Definition parse_date (s : str) : option Z :=
  match read_date s with Some (c, _) => if civil_ok c then Some (days_from_civil c) else None | None => None end.
