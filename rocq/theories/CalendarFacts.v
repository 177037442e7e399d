From Verif Require Import Base BaseFacts CalendarModel.
From Coq Require Import ZArith Lia ZifyBool ZifyNat ZifyN.
Local Open Scope Z_scope.

(** * Specification: the Gregorian calendar, day by day *)
Definition leap (y : Z) : bool := if y mod 400 =? 0 then true else if y mod 100 =? 0 then false else y mod 4 =? 0.
Definition month_days (y m : Z) : Z := nth (Z.to_nat (m - 1)) [31; if leap y then 29 else 28; 31; 30; 31; 30; 31; 31; 30; 31; 30; 31] 0.
Definition tomorrow (c : civil) : civil :=
  let 'Civil y m d := c in
  if d <? month_days y m then Civil y m (d + 1) else if m <? 12 then Civil y (m + 1) 1 else Civil (y + 1) 1 1.
Definition is_date (c : civil) : Prop := 1 <= m_of c <= 12 /\ 1 <= d_of c <= month_days (y_of c) (m_of c).

Lemma last_day_spec y m : 1 <= m <= 12 -> last_day y m = month_days y m.
Proof.
  intros H. assert (L : is_leap y = leap y).
  { unfold is_leap, leap. destruct (y mod 400 =? 0) eqn:E4.
    - assert (y mod 4 = 0 /\ y mod 100 = 0) as [-> ->]; [|reflexivity].
      split; apply Z.mod_divide; try lia; apply Z.divide_trans with 400; [exists 100; reflexivity|apply Z.mod_divide; lia|exists 4; reflexivity|apply Z.mod_divide; lia].
    - destruct (y mod 100 =? 0); cbn [negb orb]; [apply andb_false_r|apply andb_true_r]. }
  unfold last_day, month_days. rewrite L.
  assert (M : m = 1 \/ m = 2 \/ m = 3 \/ m = 4 \/ m = 5 \/ m = 6 \/ m = 7 \/ m = 8 \/ m = 9 \/ m = 10 \/ m = 11 \/ m = 12) by lia.
  repeat (destruct M as [-> | M]; [reflexivity|]). subst m. reflexivity.
Qed.
Lemma month_days_31 y m : 1 <= m <= 12 -> month_days y m <= 31.
Proof.
  intros H. rewrite <- last_day_spec by exact H. unfold last_day. destruct (m =? 2); [destruct (is_leap y); lia|]. destruct ((m =? 4) || (m =? 6) || (m =? 9) || (m =? 11)); lia.
Qed.
(** * One era of 400 years *)
Fixpoint zs (n : nat) (z : Z) : list Z := match n with O => [] | S n => z :: zs n (z + 1) end.
Lemma zs_in n : forall a z, a <= z < a + Z.of_nat n -> In z (zs n a).
Proof.
  induction n as [|n IH]; intros a z H; [lia|]. cbn [zs]. destruct (Z.eq_dec a z) as [->|Hne]; [left; reflexivity|]. right. apply IH. lia.
Qed.
Lemma each (P : Z -> bool) n z : forallb P (zs n 0) = true -> 0 <= z < Z.of_nat n -> P z = true.
Proof. intros H Hz. rewrite forallb_forall in H. apply H, zs_in. lia. Qed.
(** The years start in March: the first day of a year, counted from the start of the era, and its length. *)
Definition year_start (y : Z) : Z := 365 * y + y / 4 - y / 100.
Definition year_len (y : Z) : Z := if leap (y + 1) then 366 else 365.
Definition year_of (doe : Z) : Z := (doe - doe / 1460 + doe / 36524 - doe / 146096) / 365.
Lemma year_step y : 0 <= y < 399 -> year_start (y + 1) = year_start y + year_len y.
Proof.
  intros H. assert (T : forallb (fun y => if y <? 399 then year_start (y + 1) =? year_start y + year_len y else true) (zs 400 0) = true) by (vm_compute; reflexivity).
  pose proof (each _ 400 y T ltac:(lia)) as X. cbv beta in X. replace (y <? 399) with true in X by lia. lia.
Qed.
Lemma year_mono a b : 0 <= a <= b -> year_of a <= year_of b.
Proof.
  intros H. unfold year_of. apply Z.div_le_mono; [lia|].
  assert (a - a / 1460 <= b - b / 1460) by (Z.to_euclidean_division_equations; lia).
  assert (E : forall c, c / 146096 = c / 36524 / 4) by (intros c; rewrite Z.div_div by lia; reflexivity). rewrite !E.
  assert (a / 36524 <= b / 36524) by (apply Z.div_le_mono; lia). set (p := a / 36524) in *. set (q := b / 36524) in *. assert (p - p / 4 <= q - q / 4) by (Z.to_euclidean_division_equations; lia). lia.
Qed.
Lemma year_found y doy : 0 <= y < 400 -> 0 <= doy < year_len y -> year_of (year_start y + doy) = y.
Proof.
  intros Hy Hd. assert (T : forallb (fun y => (0 <=? year_start y) && (year_of (year_start y) =? y) && (year_of (year_start y + (year_len y - 1)) =? y)) (zs 400 0) = true) by (vm_compute; reflexivity).
  pose proof (each _ 400 y T ltac:(lia)) as X. cbv beta in X. rewrite !andb_true_iff in X. destruct X as [[X0 X1] X2].
  pose proof (year_mono (year_start y) (year_start y + doy) ltac:(lia)). pose proof (year_mono (year_start y + doy) (year_start y + (year_len y - 1)) ltac:(lia)). lia.
Qed.
Lemma year_exists (n : nat) : forall z, (n <= 399)%nat -> 0 <= z < year_start (Z.of_nat n) + year_len (Z.of_nat n) -> exists y doy, 0 <= y < 400 /\ 0 <= doy < year_len y /\ z = year_start y + doy.
Proof.
  induction n as [|n IH]; intros z Hn Hz.
  - exists 0, z. change (year_start (Z.of_nat 0)) with 0 in Hz. change (year_len (Z.of_nat 0)) with (year_len 0) in Hz. change (year_start 0) with 0. lia.
  - destruct (Z.lt_ge_cases z (year_start (Z.of_nat (S n)))) as [L|L].
    + apply IH; [lia|]. replace (Z.of_nat (S n)) with (Z.of_nat n + 1) in L by lia. rewrite year_step in L by lia. lia.
    + exists (Z.of_nat (S n)), (z - year_start (Z.of_nat (S n))). lia.
Qed.
Lemma year_split z : 0 <= z < 146097 -> exists y doy, 0 <= y < 400 /\ 0 <= doy < year_len y /\ z = year_start y + doy.
Proof. intros H. apply (year_exists 399); [lia|exact H]. Qed.
(** Months and days of a year that starts in March *)
Definition mp_of (doy : Z) : Z := (5 * doy + 2) / 153.
Definition month_of (doy : Z) : Z := if mp_of doy <? 10 then mp_of doy + 3 else mp_of doy - 9.
Definition day_of (doy : Z) : Z := doy - (153 * mp_of doy + 2) / 5 + 1.
Definition in_year (y doy : Z) : civil := Civil (if mp_of doy <? 10 then y else y + 1) (month_of doy) (day_of doy).
Lemma len_cases y : year_len y = 365 \/ year_len y = 366.
Proof. unfold year_len. destruct (leap (y + 1)); [right|left]; reflexivity. Qed.
Lemma mp_range doy : 0 <= doy < 366 -> 0 <= mp_of doy <= 11.
Proof. unfold mp_of. intros H. Z.to_euclidean_division_equations. lia. Qed.
Lemma civil_in_year y doy : 0 <= y < 400 -> 0 <= doy < year_len y -> civil_from_days (year_start y + doy - 719468) = in_year y doy.
Proof.
  intros Hy Hd. pose proof (year_found y doy Hy Hd) as F. unfold civil_from_days. cbv zeta. replace (year_start y + doy - 719468 + 719468) with (year_start y + doy) by ring.
  assert (R : 0 <= year_start y + doy < 146097).
  { assert (T : forallb (fun y => (0 <=? year_start y) && (year_start y + year_len y <=? 146097)) (zs 400 0) = true) by (vm_compute; reflexivity).
    pose proof (each _ 400 y T ltac:(lia)) as X. cbv beta in X. lia. }
  rewrite (Z.div_small _ 146097 R). rewrite Z.mul_0_l, !Z.sub_0_r. fold (year_of (year_start y + doy)). rewrite F. fold (year_start y). replace (year_start y + doy - year_start y) with doy by ring.
  fold (mp_of doy). fold (month_of doy). fold (day_of doy). unfold in_year. rewrite Z.mul_0_l, Z.add_0_r. f_equal. unfold month_of.
  pose proof (mp_range doy ltac:(destruct (len_cases y); lia)) as M. destruct (mp_of doy <? 10) eqn:E.
  - replace (mp_of doy + 3 <=? 2) with false by lia. reflexivity.
  - replace (mp_of doy - 9 <=? 2) with true by lia. reflexivity.
Qed.
(** The lengths of months by whether the February of the year has a day more *)
Definition mdays (b : bool) (m : Z) : Z := nth (Z.to_nat (m - 1)) [31; if b then 29 else 28; 31; 30; 31; 30; 31; 31; 30; 31; 30; 31] 0.
Lemma mdays_other b b' m : m <> 2 -> mdays b m = mdays b' m.
Proof.
  intros H. unfold mdays. destruct (Z.to_nat (m - 1)) as [|[|k]] eqn:E; [reflexivity|lia|reflexivity].
Qed.
Lemma in_year_days y doy : 0 <= doy < 366 -> month_days (y_of (in_year y doy)) (month_of doy) = mdays (leap (y + 1)) (month_of doy).
Proof.
  intros H. unfold month_days. fold (mdays (leap (y_of (in_year y doy))) (month_of doy)). pose proof (mp_range doy H) as M. unfold in_year, month_of. cbn [y_of].
  destruct (mp_of doy <? 10) eqn:E; [apply mdays_other; lia|reflexivity].
Qed.
Definition bound (b : bool) : Z := if b then 366 else 365.
Definition doy_ok (b : bool) (doy : Z) : bool :=
  if doy <? bound b then
    (1 <=? month_of doy) && (month_of doy <=? 12) && (1 <=? day_of doy) && (day_of doy <=? mdays b (month_of doy)) &&
    (if doy + 1 <? bound b then
       if day_of doy <? mdays b (month_of doy) then (month_of (doy + 1) =? month_of doy) && (day_of (doy + 1) =? day_of doy + 1) && Bool.eqb (mp_of (doy + 1) <? 10) (mp_of doy <? 10)
       else if month_of doy <? 12 then (month_of (doy + 1) =? month_of doy + 1) && (day_of (doy + 1) =? 1) && Bool.eqb (mp_of (doy + 1) <? 10) (mp_of doy <? 10)
       else (month_of (doy + 1) =? 1) && (day_of (doy + 1) =? 1) && (mp_of doy <? 10) && negb (mp_of (doy + 1) <? 10)
     else (month_of doy =? 2) && (day_of doy =? mdays b 2) && negb (mp_of doy <? 10))
  else true.
Lemma doy_all b doy : 0 <= doy < 366 -> doy_ok b doy = true.
Proof. intros H. assert (T : forallb (doy_ok b) (zs 366 0) = true) by (destruct b; vm_compute; reflexivity). exact (each _ 366 doy T H). Qed.
Lemma in_year_date y doy : 0 <= doy < year_len y -> is_date (in_year y doy).
Proof.
  intros H. assert (H6 : 0 <= doy < 366) by (destruct (len_cases y); lia). pose proof (doy_all (leap (y + 1)) doy H6) as X. unfold doy_ok in X.
  replace (doy <? bound (leap (y + 1))) with true in X by (unfold bound; unfold year_len in H; destruct (leap (y + 1)); lia). rewrite !andb_true_iff in X. destruct X as [[[[X1 X2] X3] X4] _].
  unfold is_date. change (m_of (in_year y doy)) with (month_of doy). change (d_of (in_year y doy)) with (day_of doy). rewrite (in_year_days y doy H6). lia.
Qed.
Lemma in_year_next y doy : 0 <= doy -> doy + 1 < year_len y -> tomorrow (in_year y doy) = in_year y (doy + 1).
Proof.
  intros H H1. assert (H6 : 0 <= doy < 366) by (destruct (len_cases y); lia). pose proof (doy_all (leap (y + 1)) doy H6) as X. unfold doy_ok in X.
  assert (B : bound (leap (y + 1)) = year_len y) by reflexivity. rewrite B in X. replace (doy <? year_len y) with true in X by lia. replace (doy + 1 <? year_len y) with true in X by lia.
  apply andb_true_iff in X as [_ X]. pose proof (in_year_days y doy H6) as D. unfold in_year in *. cbn [y_of] in D. unfold tomorrow. rewrite D.
  destruct (day_of doy <? mdays (leap (y + 1)) (month_of doy)).
  - rewrite !andb_true_iff in X. destruct X as [[X1 X2] X3]. apply Bool.eqb_prop in X3. rewrite X3. f_equal; lia.
  - destruct (month_of doy <? 12).
    + rewrite !andb_true_iff in X. destruct X as [[X1 X2] X3]. apply Bool.eqb_prop in X3. rewrite X3. f_equal; lia.
    + rewrite !andb_true_iff, negb_true_iff in X. destruct X as [[[X1 X2] X3] X4]. rewrite X3, X4. f_equal; lia.
Qed.
Lemma in_year_last y : tomorrow (in_year y (year_len y - 1)) = in_year (y + 1) 0.
Proof.
  pose proof (len_cases y) as L. pose proof (doy_all (leap (y + 1)) (year_len y - 1) ltac:(lia)) as X. unfold doy_ok in X.
  assert (B : bound (leap (y + 1)) = year_len y) by reflexivity. rewrite B in X. replace (year_len y - 1 <? year_len y) with true in X by lia. replace (year_len y - 1 + 1 <? year_len y) with false in X by lia.
  apply andb_true_iff in X as [_ X]. rewrite !andb_true_iff, negb_true_iff in X. destruct X as [[X1 X2] X3]. pose proof (in_year_days y (year_len y - 1) ltac:(lia)) as D.
  unfold in_year in *. cbn [y_of] in D. unfold tomorrow. rewrite D, X3. replace (month_of (year_len y - 1)) with 2 in * by lia. replace (day_of (year_len y - 1)) with (mdays (leap (y + 1)) 2) by lia.
  rewrite Z.ltb_irrefl. reflexivity.
Qed.
Lemma in_year_back y doy : 0 <= y < 400 -> 0 <= doy < 366 -> days_from_civil (in_year y doy) = year_start y + doy - 719468.
Proof.
  intros Hy H. pose proof (mp_range doy H) as M. unfold days_from_civil, in_year, month_of. cbv zeta. cbn [y_of m_of d_of].
  replace (if (if mp_of doy <? 10 then mp_of doy + 3 else mp_of doy - 9) <=? 2 then (if mp_of doy <? 10 then y else y + 1) - 1 else if mp_of doy <? 10 then y else y + 1) with y
    by (destruct (mp_of doy <? 10) eqn:E; [replace (mp_of doy + 3 <=? 2) with false by lia; reflexivity|replace (mp_of doy - 9 <=? 2) with true by lia; ring]).
  replace (if 2 <? (if mp_of doy <? 10 then mp_of doy + 3 else mp_of doy - 9) then (if mp_of doy <? 10 then mp_of doy + 3 else mp_of doy - 9) - 3 else (if mp_of doy <? 10 then mp_of doy + 3 else mp_of doy - 9) + 9) with (mp_of doy)
    by (destruct (mp_of doy <? 10) eqn:E; [replace (2 <? mp_of doy + 3) with true by lia; ring|replace (2 <? mp_of doy - 9) with false by lia; ring]).
  rewrite (Z.div_small y 400 ltac:(lia)). rewrite !Z.mul_0_l, !Z.sub_0_r. unfold year_start, day_of. ring.
Qed.
(** Every era is alike. *)
Definition shift (k : Z) (c : civil) : civil := Civil (y_of c + 400 * k) (m_of c) (d_of c).
Lemma civil_shift z k : civil_from_days (z + 146097 * k) = shift k (civil_from_days z).
Proof.
  unfold civil_from_days, shift. cbv zeta. replace (z + 146097 * k + 719468) with (z + 719468 + k * 146097) by ring.
  rewrite Z.div_add by lia. set (era := (z + 719468) / 146097).
  replace (z + 719468 + k * 146097 - (era + k) * 146097) with (z + 719468 - era * 146097) by ring. set (doe := z + 719468 - era * 146097).
  set (yoe := (doe - doe / 1460 + doe / 36524 - doe / 146096) / 365). cbn [y_of m_of d_of].
  set (doy := doe - (365 * yoe + yoe / 4 - yoe / 100)). set (mp := (5 * doy + 2) / 153).
  destruct ((if mp <? 10 then mp + 3 else mp - 9) <=? 2); f_equal; ring.
Qed.
Lemma days_shift c k : days_from_civil (shift k c) = days_from_civil c + 146097 * k.
Proof.
  unfold days_from_civil, shift. cbv zeta. cbn [y_of m_of d_of]. set (doy := (153 * _ + 2) / 5 + d_of c - 1).
  replace (if m_of c <=? 2 then y_of c + 400 * k - 1 else y_of c + 400 * k) with ((if m_of c <=? 2 then y_of c - 1 else y_of c) + k * 400) by (destruct (m_of c <=? 2); ring).
  set (y := if m_of c <=? 2 then _ else _). rewrite Z.div_add by lia. replace (y + k * 400 - (y / 400 + k) * 400) with (y - y / 400 * 400) by ring. ring.
Qed.
Lemma leap_shift y k : leap (y + 400 * k) = leap y.
Proof.
  unfold leap. replace (y + 400 * k) with (y + k * 400) at 1 by ring. rewrite Z.mod_add by lia.
  replace (y + 400 * k) with (y + (k * 4) * 100) at 1 by ring. rewrite Z.mod_add by lia. replace (y + 400 * k) with (y + (k * 100) * 4) by ring. rewrite Z.mod_add by lia. reflexivity.
Qed.
Lemma month_days_shift y k m : month_days (y + 400 * k) m = month_days y m.
Proof. unfold month_days. rewrite leap_shift. reflexivity. Qed.
Lemma tomorrow_shift k c : tomorrow (shift k c) = shift k (tomorrow c).
Proof.
  destruct c as [y m d]. unfold tomorrow, shift. cbn [y_of m_of d_of]. rewrite month_days_shift.
  destruct (d <? month_days y m); [reflexivity|]. destruct (m <? 12); [reflexivity|]. cbn [y_of m_of d_of]. f_equal. ring.
Qed.
Lemma era_split day : exists z k, 0 <= z < 146097 /\ day = z - 719468 + 146097 * k.
Proof.
  exists ((day + 719468) mod 146097), ((day + 719468) / 146097). split; [apply Z.mod_pos_bound; lia|]. pose proof (Z.div_mod (day + 719468) 146097). lia.
Qed.
Lemma era_facts z : 0 <= z < 146097 -> let c := civil_from_days (z - 719468) in
  civil_from_days (z - 719468 + 1) = tomorrow c /\ is_date c /\ days_from_civil c = z - 719468 /\ 0 <= y_of c <= 400 /\ (146037 <= z <-> y_of c = 400).
Proof.
  intros H c. destruct (year_split z H) as (y & doy & Hy & Hd & ->). assert (H6 : 0 <= doy < 366) by (destruct (len_cases y); lia).
  assert (Ec : c = in_year y doy) by (apply civil_in_year; assumption). rewrite Ec. repeat split.
  - destruct (Z.eq_dec (doy + 1) (year_len y)) as [E|N].
    + replace doy with (year_len y - 1) by lia. rewrite in_year_last. destruct (Z.eq_dec y 399) as [-> | N9]; [reflexivity|].
      replace (year_start y + (year_len y - 1) - 719468 + 1) with (year_start (y + 1) + 0 - 719468) by (rewrite year_step by lia; ring). apply civil_in_year; [lia|]. destruct (len_cases (y + 1)); lia.
    + rewrite in_year_next by lia. replace (year_start y + doy - 719468 + 1) with (year_start y + (doy + 1) - 719468) by ring. apply civil_in_year; lia.
  - apply (in_year_date y doy Hd).
  - apply (in_year_date y doy Hd).
  - apply (in_year_date y doy Hd).
  - apply (in_year_date y doy Hd).
  - apply in_year_back; assumption.
  - unfold in_year. cbn [y_of]. destruct (mp_of doy <? 10); lia.
  - unfold in_year. cbn [y_of]. destruct (mp_of doy <? 10); lia.
  - unfold in_year. cbn [y_of]. intros L. assert (year_start y <= 365 * y + y / 4 - y / 100) by (unfold year_start; lia).
    assert (y = 399) as -> by (destruct (len_cases y); Z.to_euclidean_division_equations; lia). change (year_start 399) with 145731 in L. unfold mp_of. replace ((5 * doy + 2) / 153 <? 10) with false; [reflexivity|].
    symmetry. apply Z.ltb_ge. Z.to_euclidean_division_equations. lia.
  - unfold in_year. cbn [y_of]. unfold mp_of. destruct ((5 * doy + 2) / 153 <? 10) eqn:E; [lia|]. intros L. assert (y = 399) as -> by lia. change (year_start 399) with 145731. apply Z.ltb_ge in E. Z.to_euclidean_division_equations. lia.
Qed.

(** * All days *)
Lemma calendar_start : civil_from_days 0 = Civil 1970 1 1.
Proof. reflexivity. Qed.
Lemma calendar_next day : civil_from_days (day + 1) = tomorrow (civil_from_days day).
Proof.
  destruct (era_split day) as (z & k & Hz & ->). replace (z - 719468 + 146097 * k + 1) with (z - 719468 + 1 + 146097 * k) by ring.
  rewrite !civil_shift, (proj1 (era_facts z Hz)), tomorrow_shift. reflexivity.
Qed.
Lemma calendar_date day : is_date (civil_from_days day).
Proof.
  destruct (era_split day) as (z & k & Hz & ->). rewrite civil_shift. destruct (era_facts z Hz) as (_ & [H1 H2] & _). split; cbn [shift y_of m_of d_of]; [exact H1|].
  rewrite month_days_shift. exact H2.
Qed.
Lemma calendar_days day : days_from_civil (civil_from_days day) = day.
Proof.
  destruct (era_split day) as (z & k & Hz & ->). rewrite civil_shift, days_shift. destruct (era_facts z Hz) as (_ & _ & -> & _). reflexivity.
Qed.
(** Dates that exist *)
Definition date_ok (b : bool) (mp d : Z) : bool :=
  let m := if mp <? 10 then mp + 3 else mp - 9 in let doy := (153 * mp + 2) / 5 + d - 1 in
  if (1 <=? d) && (d <=? mdays b m) then (mp_of doy =? mp) && (0 <=? doy) && (doy <? bound b) else true.
Lemma date_all b mp d : 0 <= mp < 12 -> 0 <= d < 32 -> date_ok b mp d = true.
Proof.
  intros Hm Hd. assert (T : forallb (fun mp => forallb (date_ok b mp) (zs 32 0)) (zs 12 0) = true) by (destruct b; vm_compute; reflexivity).
  pose proof (each _ 12 mp T Hm) as X. exact (each _ 32 d X Hd).
Qed.
Lemma calendar_civil c : is_date c -> civil_from_days (days_from_civil c) = c.
Proof.
  destruct c as [y m d]. intros [Hm Hd]. cbn [y_of m_of d_of] in *. pose proof (month_days_31 y m Hm) as H31.
  set (mp := if 2 <? m then m - 3 else m + 9). set (Y := if m <=? 2 then y - 1 else y). set (doy := (153 * mp + 2) / 5 + d - 1).
  assert (Em : m = if mp <? 10 then mp + 3 else mp - 9) by (unfold mp; destruct (2 <? m) eqn:E; [replace (m - 3 <? 10) with true by lia; ring|replace (m + 9 <? 10) with false by lia; ring]).
  assert (Ey : y = if mp <? 10 then Y else Y + 1) by (unfold mp, Y; destruct (2 <? m) eqn:E; [replace (m - 3 <? 10) with true by lia; replace (m <=? 2) with false by lia; reflexivity|replace (m + 9 <? 10) with false by lia; replace (m <=? 2) with true by lia; ring]).
  assert (Hmp : 0 <= mp < 12) by (unfold mp; destruct (2 <? m) eqn:E; lia).
  set (k := Y / 400). set (y0 := Y mod 400). assert (Yk : Y = y0 + 400 * k) by (pose proof (Z.div_mod Y 400); lia). assert (Hy0 : 0 <= y0 < 400) by (apply Z.mod_pos_bound; lia).
  assert (Ed : month_days y m = mdays (leap (y0 + 1)) m).
  { unfold month_days. fold (mdays (leap y) m). destruct (mp <? 10) eqn:E; [apply mdays_other; lia|]. rewrite Ey, Yk. replace (y0 + 400 * k + 1) with (y0 + 1 + 400 * k) by ring. rewrite leap_shift. reflexivity. }
  pose proof (date_all (leap (y0 + 1)) mp d Hmp ltac:(lia)) as X. unfold date_ok in X. cbv zeta in X. rewrite <- Em in X. fold doy in X.
  replace ((1 <=? d) && (d <=? mdays (leap (y0 + 1)) m)) with true in X by lia. rewrite !andb_true_iff in X. destruct X as [[X1 X2] X3]. assert (X4 : mp_of doy = mp) by lia.
  assert (H6 : 0 <= doy < year_len y0) by (change (bound (leap (y0 + 1))) with (year_len y0) in X3; lia).
  assert (E0 : Civil y m d = shift k (in_year y0 doy)).
  { unfold shift, in_year, month_of, day_of. cbn [y_of m_of d_of]. rewrite X4. f_equal; [rewrite Ey, Yk; destruct (mp <? 10); ring|exact Em|unfold doy; ring]. }
  rewrite E0, days_shift, civil_shift. rewrite in_year_back by (try assumption; destruct (len_cases y0); lia). rewrite civil_in_year by assumption. reflexivity.
Qed.
(** The model's test of dates agrees. *)
Lemma civil_ok_iff c : civil_ok c = true <-> is_date c.
Proof.
  unfold civil_ok, is_date. split.
  - rewrite !andb_true_iff. intros [[[H1 H2] H3] H4]. rewrite last_day_spec in H4 by lia. lia.
  - intros [H1 H2]. rewrite last_day_spec by exact H1. lia.
Qed.
Lemma year_range day : -719528 <= day <= 2932896 <-> 0 <= y_of (civil_from_days day) <= 9999.
Proof.
  destruct (era_split day) as (z & k & Hz & ->). rewrite civil_shift. cbn [shift y_of]. destruct (era_facts z Hz) as (_ & _ & _ & Hy & H4). lia.
Qed.
Lemma year_early day : day < -719528 -> y_of (civil_from_days day) < 0.
Proof.
  intros H. destruct (era_split day) as (z & k & Hz & ->). rewrite civil_shift. cbn [shift y_of]. destruct (era_facts z Hz) as (_ & _ & _ & Hy & H4). lia.
Qed.

(** * Text *)
Lemma digits_zeros k s : digits_val 0 (repeat "0"%char k ++ s) = digits_val 0 s.
Proof. induction k as [|k IH]; [reflexivity|]. cbn [repeat app digits_val]. exact IH. Qed.
Lemma pad_length w n : (length (print_N n) <= w)%nat -> length (pad w n) = w.
Proof. intros H. unfold pad. rewrite app_length, repeat_length. lia. Qed.
Lemma pad_digits w n : forallb is_digit (pad w n) = true.
Proof. unfold pad. rewrite forallb_app, print_N_digits, andb_true_r. induction (w - length (print_N n))%nat as [|k IH]; [reflexivity|exact IH]. Qed.
Lemma pad_value w n : digits_val 0 (pad w n) = n.
Proof. unfold pad. rewrite digits_zeros. apply print_N_val. Qed.
Lemma upto_all w ds r : length ds = w -> forallb is_digit ds = true -> upto_digits w (ds ++ r) = (ds, r).
Proof.
  revert w. induction ds as [|c ds IH]; intros w Hl Hd; [cbn in Hl; subst w; reflexivity|]. destruct w as [|w]; [discriminate|]. injection Hl as Hl.
  cbn [forallb] in Hd. apply andb_true_iff in Hd as [Hc Hd]. cbn [app upto_digits]. rewrite Hc, (IH w Hl Hd). reflexivity.
Qed.
Lemma read_pad w n r : (0 < w)%nat -> (length (print_N n) <= w)%nat -> read_digits w (pad w n ++ r) = Some (Z.of_N n, r).
Proof.
  intros Hw Hn. unfold read_digits. rewrite (upto_all w _ r (pad_length w n Hn) (pad_digits w n)). destruct (pad w n) as [|c l] eqn:E.
  - pose proof (pad_length w n Hn) as X. rewrite E in X. cbn in X. lia.
  - rewrite <- E, pad_value. reflexivity.
Qed.
Lemma print_length n w : (n < 10 ^ N.of_nat (S w))%N -> (length (print_N n) <= S w)%nat.
Proof.
  intros H. destruct (print_N_ok n) as (V & D & c & r & E & Z0). rewrite E in *. cbn [forallb] in D. apply andb_true_iff in D as [Dc D]. apply is_digit_code in Dc. cbn [digits_val] in V. cbn [length].
  destruct (N.eq_dec (code c) 48) as [C|C]; [destruct (Z0 C) as [-> _]; cbn [length]; lia|].
  pose proof (digits_val_lower r (0 * 10 + (code c - 48))%N D) as B. rewrite V in B. destruct (le_lt_dec (S (length r)) (S w)) as [|L]; [assumption|]. exfalso.
  assert (10 ^ N.of_nat (S w) <= 10 ^ N.of_nat (length r))%N by (apply N.pow_le_mono_r; lia). nia.
Qed.
Lemma four n : (n <= 9999)%N -> (length (print_N n) <= 4)%nat.
Proof. intros H. apply print_length. change (10 ^ N.of_nat 4)%N with 10000%N. lia. Qed.
Lemma two n : (n <= 31)%N -> (length (print_N n) <= 2)%nat.
Proof. intros H. apply print_length. change (10 ^ N.of_nat 2)%N with 100%N. lia. Qed.
Lemma read_dash r : read_char "-" ($"-" ++ r) = Some r.
Proof. reflexivity. Qed.
Lemma parse_text c : is_date c -> 0 <= y_of c <= 9999 -> parse_date (civil_text c) = Some (days_from_civil c).
Proof.
  destruct c as [y m d]. intros [Hm Hd] Hy. cbn [y_of m_of d_of] in *. pose proof (month_days_31 y m Hm). unfold parse_date, read_date, civil_text. cbn [y_of m_of d_of].
  replace (y <? 0) with false by lia. cbn [app].
  rewrite read_pad; [|lia|apply four; lia]. rewrite read_dash.
  rewrite read_pad; [|lia|apply two; lia]. rewrite read_dash.
  rewrite <- (app_nil_r (pad 2 (Z.to_N d))). rewrite read_pad; [|lia|apply two; lia].
  cbv zeta. replace (Z.of_N (Z.to_N (Z.abs y))) with y by lia. replace (Z.of_N (Z.to_N m)) with m by lia. replace (Z.of_N (Z.to_N d)) with d by lia.
  replace (civil_ok (Civil y m d)) with true; [reflexivity|]. symmetry. apply civil_ok_iff. split; assumption.
Qed.
Lemma date_roundtrip day : -719528 <= day <= 2932896 -> parse_date (date_text day) = Some day.
Proof.
  intros H. unfold date_text. rewrite parse_text; [rewrite calendar_days; reflexivity|apply calendar_date|apply year_range, H].
Qed.
(** Years of more digits are not read. *)
Lemma upto_more w ds r : (w <= length ds)%nat -> forallb is_digit ds = true -> upto_digits w (ds ++ r) = (firstn w ds, skipn w ds ++ r).
Proof.
  revert w. induction ds as [|c ds IH]; intros w Hl Hd; [destruct w; [reflexivity|cbn in Hl; lia]|]. destruct w as [|w]; [reflexivity|]. cbn in Hl.
  cbn [forallb] in Hd. apply andb_true_iff in Hd as [Hc Hd]. cbn [app upto_digits firstn skipn]. rewrite Hc, (IH w ltac:(lia) Hd). reflexivity.
Qed.
Lemma digits_bound s : forall acc, forallb is_digit s = true -> (digits_val acc s < (acc + 1) * 10 ^ N.of_nat (length s))%N.
Proof.
  induction s as [|c s IH]; intros acc H; [cbn [length digits_val]; change (10 ^ N.of_nat 0)%N with 1%N; lia|]. cbn [forallb] in H. apply andb_true_iff in H as [Hc H].
  cbn [digits_val length]. specialize (IH (acc * 10 + (code c - 48))%N H). rewrite Nat2N.inj_succ, N.pow_succ_r'. apply is_digit_code in Hc. nia.
Qed.
Lemma five n : (9999 < n)%N -> (5 <= length (print_N n))%nat.
Proof.
  intros H. destruct (le_lt_dec 5 (length (print_N n))) as [|Hlt]; [assumption|]. exfalso. pose proof (digits_bound (print_N n) 0 (print_N_digits n)) as B. rewrite print_N_val in B.
  assert (10 ^ N.of_nat (length (print_N n)) <= 10 ^ 4)%N by (apply N.pow_le_mono_r; lia). change (10 ^ 4)%N with 10000%N in *. lia.
Qed.
Lemma late_unread day : 2932896 < day -> parse_date (date_text day) = None.
Proof.
  intros H. assert (Hy : 9999 < y_of (civil_from_days day)).
  { destruct (era_split day) as (z & k & Hz & ->). rewrite civil_shift. cbn [shift y_of]. destruct (era_facts z Hz) as (_ & _ & _ & Hy & H4). lia. }
  unfold date_text, civil_text, parse_date, read_date. destruct (civil_from_days day) as [y m d]. cbn [y_of m_of d_of] in *. replace (y <? 0) with false by lia. cbn [app].
  set (n := Z.to_N (Z.abs y)). assert (Hn : (5 <= length (print_N n))%nat) by (apply five; lia).
  assert (El : pad 4 n = print_N n) by (unfold pad; replace (4 - length (print_N n))%nat with 0%nat by lia; reflexivity). rewrite El.
  unfold read_digits. rewrite upto_more by (try lia; apply print_N_digits).
  pose proof (print_N_digits n) as Hd. rewrite <- (firstn_skipn 4 (print_N n)), forallb_app in Hd. apply andb_true_iff in Hd as [_ Hd].
  destruct (firstn 4 (print_N n)) as [|c l] eqn:E4; [reflexivity|]. destruct (skipn 4 (print_N n)) as [|c' l'] eqn:E5; [apply (f_equal (@length _)) in E5; rewrite skipn_length in E5; cbn [length] in E5; lia|].
  cbn [forallb] in Hd. apply andb_true_iff in Hd as [Hd _]. cbn [app read_char]. destruct (ceq "-" c') eqn:E; [|reflexivity]. apply ceq_true in E. subst c'. discriminate.
Qed.
