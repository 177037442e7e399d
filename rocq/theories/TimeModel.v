(** Model of timestamps and times of day in literals: SubstraitPlanSubqueryRelationVisitor.cpp 1990-2040 visitTimestamp and visitTimestampTz and 2064-2089 visitTime
    (the same functions of SubstraitPlanRelationVisitor.cpp are the same text), with the parts of the date library 3.0.1 (external, from its documentation) they use.
    Not modelled ([PUnknown]): times of day beyond 23:59:59 in time literals, seconds that begin with a period or have more than two digits, and more than six digits of
    fractions after one digit. *)
From Verif Require Import Base StringsModel CalendarModel.
From Coq Require Import ZArith.
Local Open Scope Z_scope.

(** What [stream >> date::parse(format, value)] does; what follows in the stream is ignored. *)
Inductive parsed := PFail | PValue (z : Z) | PUnknown.
(** [%H:%M:] and what follows *)
Definition read_hours (s : str) : option (Z * Z * str) :=
  match read_digits 2 s with None => None | Some (h, s) =>
  match read_char ":" s with None => None | Some s =>
  match read_digits 2 s with None => None | Some (m, s) => Some (h, m, s) end end end.
(** [%S] for whole seconds: at most two digits *)
Inductive seconds := SFail | SValue (z : Z) (rest : str) | SUnknown.
Definition read_seconds (s : str) : seconds :=
  match read_digits 2 s with
  | Some (z, r) => SValue z r
  | None => match read_char "." s with Some _ => SUnknown | None => SFail end
  end.
(** [%S] for microseconds: at most nine characters, of which one may be a period; in microseconds *)
Definition starts_digit (s : str) : bool := match s with c :: _ => is_digit c | [] => false end.
Definition read_micros (s : str) : seconds :=
  match read_digits 2 s with
  | None => match read_char "." s with Some _ => SUnknown | None => SFail end
  | Some (z, r) =>
    if starts_digit r then SUnknown
    else match read_char "." r with
         | None => SValue (z * 1000000) r
         | Some r' =>
           let '(ds, rest) := upto_digits 6 r' in
           if starts_digit rest && (length s - length r <? 2)%nat then SUnknown else SValue (z * 1000000 + Z.of_N (digits_val 0 ds) * 10 ^ Z.of_nat (6 - length ds)) rest
         end
  end.
(** The time of day is in its range. *)
Definition in_day (h m s limit : Z) : bool := (h <? 24) && (m <? 60) && (s <? limit).
(** [%Y-%m-%d %H:%M:] and what follows; the space in the format stands for any white space. *)
Definition read_stamp (s : str) : option (civil * Z * Z * str) :=
  match read_date s with None => None | Some (c, s) =>
  match read_hours (ltrim s) with None => None | Some (h, m, s) =>
  match read_char ":" s with None => None | Some s => Some (c, h, m, s) end end end.
(** [parse("%Y-%m-%d %H:%M:%S", sys_seconds)]: seconds since 1970 *)
Definition parse_timestamp (s : str) : parsed :=
  match read_stamp s with
  | None => PFail
  | Some (c, h, m, s) =>
    match read_seconds s with
    | SFail => PFail
    | SUnknown => PUnknown
    | SValue x _ => if civil_ok c && in_day h m x 60 then PValue (((days_from_civil c * 24 + h) * 60 + m) * 60 + x) else PFail
    end
  end.
(** 2064-2089: first [parse("%H:%M:%S", microseconds)], then [parse("%H:%M", microseconds)] *)
Definition parse_seconds (s : str) : parsed :=
  match read_hours s with
  | None => PFail
  | Some (h, m, s) =>
    match read_char ":" s with
    | None => PFail
    | Some s =>
      match read_micros s with
      | SFail => PFail
      | SUnknown => PUnknown
      | SValue x _ => if in_day h m x 60000000 then PValue ((h * 60 + m) * 60000000 + x) else PUnknown
      end
    end
  end.
Definition parse_minutes (s : str) : parsed :=
  match read_hours s with
  | None => PFail
  | Some (h, m, _) => if in_day h m 0 1 then PValue ((h * 60 + m) * 60000000) else PUnknown
  end.
Definition parse_time (s : str) : parsed := match parse_seconds s with PFail => parse_minutes s | p => p end.

(** [std::chrono::system_clock::to_time_t]: the time point is first converted to the clock's own, which counts nanoseconds in 64 bits (libstdc++); the conversion multiplies
    and overflows without a check. *)
Definition clock_ticks : Z := 1000000000.
Definition to_time_t (s : Z) : outcome Z :=
  let t := s * clock_ticks in if (- 2 ^ 63 <=? t) && (t <? 2 ^ 63) then Ok s else UB.

(** 2012-2040 with [parse("%Y-%m-%d %H:%M:%S %Z", local_time<microseconds>, name)]: [zone] is [locate_zone(name)->to_sys(local)] in microseconds, None when it throws.
    The result: the value or a message. *)
Definition is_zone (c : ascii) : bool := is_alpha c || is_digit c || ceq c "_" || ceq c "/" || ceq c "-" || ceq c "+".
Fixpoint zone_name (s : str) : str := match s with c :: r => if is_zone c then c :: zone_name r else [] | [] => [] end.
Inductive zoned := ZValue (z : Z) | ZFail | ZNoZone | ZUnknown.
Definition timestamp_tz (zone : str -> Z -> option Z) (s : str) : outcome zoned :=
  match read_stamp s with
  | None => Ok ZFail
  | Some (c, h, m, s) =>
    match read_micros s with
    | SFail => Ok ZFail
    | SUnknown => Ok ZUnknown
    | SValue x r =>
      match zone_name (ltrim r) with
      | [] => Ok ZFail
      | name =>
        if civil_ok c && in_day h m x 60000000 then
          match zone name (((days_from_civil c * 24 + h) * 60 + m) * 60000000 + x) with
          | None => Ok ZNoZone
          | Some t => if (- 2 ^ 63 <=? t * 1000) && (t * 1000 <? 2 ^ 63) then Ok (ZValue (Z.quot t 1000000)) else UB
          end
        else Ok ZFail
      end
    end
  end.
