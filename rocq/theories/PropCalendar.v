(** Theorems about dates. *)
From Verif Require Import Base BaseFacts CalendarModel CalendarFacts.
From Coq Require Import ZArith Lia.
Local Open Scope Z_scope.

(** * C71: dates *)
(** The converter's reading of a day number is the Gregorian calendar: day 0 is 1 January 1970 and each number is the day after the one before,
    with months of the right lengths and leap years. *)
Theorem C71_calendar : civil_from_days 0 = Civil 1970 1 1 /\ forall day, civil_from_days (day + 1) = tomorrow (civil_from_days day) /\ is_date (civil_from_days day).
Proof. split; [exact calendar_start|]. intros day. split; [apply calendar_next|apply calendar_date]. Qed.
(** The day numbers and the dates correspond to each other one to one, without bounds. *)
Theorem C71_one_to_one : (forall day, days_from_civil (civil_from_days day) = day) /\ (forall c, is_date c -> civil_from_days (days_from_civil c) = c).
Proof. split; [exact calendar_days|exact calendar_civil]. Qed.
(** A date literal from the year 0 to the year 9999 is printed as a text that reads back as the same day.  Missing: other years. *)
Theorem C71_round_trip_partial day : 0 <= y_of (civil_from_days day) <= 9999 -> parse_date (date_text day) = Some day.
Proof. intros H. apply date_roundtrip. apply year_range. auto. Qed.
(** Finding: dates after the year 9999 are printed but not read. *)
Theorem C71_late_refuted day : 9999 < y_of (civil_from_days day) -> parse_date (date_text day) = None.
Proof. intros H. apply late_unread. destruct (Z.le_gt_cases day 2932896) as [L|L]; [|lia]. exfalso. destruct (Z.le_gt_cases (-719528) day) as [M|M].
  - assert (0 <= y_of (civil_from_days day) <= 9999) by (apply year_range; lia). lia.
  - pose proof (year_early day M). lia.
Qed.
Print Assumptions C71_calendar. Print Assumptions C71_one_to_one. Print Assumptions C71_round_trip_partial. Print Assumptions C71_late_refuted.
Example C71_case : civil_from_days 11016 = Civil 2000 2 29 /\ date_text 11016 = $"2000-02-29" /\ parse_date $"2000-02-29" = Some 11016 /\ parse_date $"1900-02-29" = None /\ parse_date (date_text (-719528)) = Some (-719528).
Proof. vm_compute. repeat split; reflexivity. Qed.
Example C71_late_case : date_text 2932897 = $"10000-01-01" /\ 9999 < y_of (civil_from_days 2932897).
Proof. vm_compute. split; reflexivity. Qed.
