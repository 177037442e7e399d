(** What timestamps and times of day in literals mean. *)
From Verif Require Import Base BaseFacts StringsModel StringsFacts EscapeModel EscapeFacts CalendarModel CalendarFacts TimeModel.
From Coq Require Import ZArith Lia ZifyBool ZifyNat ZifyN.
Local Open Scope Z_scope.

(** * Specification *)
(** The days, counted from 1 January 1970 in both directions *)
Inductive Day : Z -> civil -> Prop :=
| Day_epoch : Day 0 (Civil 1970 1 1)
| Day_next n c : Day n c -> Day (n + 1) (tomorrow c)
| Day_before n c : Day (n + 1) (tomorrow c) -> is_date c -> Day n c.
(** A text begins with a number of at most [w] digits: as many as there are, up to [w]. *)
Definition no_digit (s : str) : Prop := match s with c :: _ => is_digit c = false | [] => True end.
Definition Field (w : nat) (v : Z) (t rest : str) : Prop :=
  exists ds, t = ds ++ rest /\ ds <> [] /\ forallb is_digit ds = true /\ (length ds <= w)%nat /\ v = Z.of_N (digits_val 0 ds) /\ (length ds = w \/ no_digit rest).
(** year-month-day *)
Definition DateText (c : civil) (t rest : str) : Prop :=
  exists a b, Field 4 (y_of c) t ("-"%char :: a) /\ Field 2 (m_of c) a ("-"%char :: b) /\ Field 2 (d_of c) b rest.
(** hours:minutes *)
Definition HoursText (h m : Z) (t rest : str) : Prop := exists a, Field 2 h t (":"%char :: a) /\ Field 2 m a rest.
(** White space, and what does not begin with it *)
Definition Spaced (t rest : str) : Prop := exists w, t = w ++ rest /\ Forall ws w /\ match rest with c :: _ => ~ ws c | [] => True end.
Definition StampText (c : civil) (h m : Z) (t rest : str) : Prop :=
  exists a b, DateText c t a /\ Spaced a b /\ HoursText h m b (":"%char :: rest).
(** Seconds with up to six digits after a period, in microseconds *)
Inductive MicrosText : Z -> str -> str -> Prop :=
| MT_whole x t rest : Field 2 x t rest -> no_digit rest -> (forall r, rest <> "."%char :: r) -> MicrosText (x * 1000000) t rest
| MT_parts x t ds rest : Field 2 x t ("."%char :: ds ++ rest) -> forallb is_digit ds = true -> (length ds <= 6)%nat ->
    no_digit rest \/ length ds = 6%nat /\ length t = (length (ds ++ rest) + 3)%nat ->
    MicrosText (x * 1000000 + Z.of_N (digits_val 0 ds) * 10 ^ Z.of_nat (6 - length ds)) t rest.
(** A text begins with a date, white space and a time of day (hours, minutes and seconds), which is this number of seconds after the start of 1970. *)
Inductive Stamp : str -> Z -> Prop :=
| ST day c h m s t a b : StampText c h m t a -> Field 2 s a b -> Day day c -> h < 24 -> m < 60 -> s < 60 -> Stamp t (((day * 24 + h) * 60 + m) * 60 + s).
(** A text begins with a time of day, of this number of microseconds *)
Inductive Clock : str -> Z -> Prop :=
| CL_seconds h m x t a b : HoursText h m t (":"%char :: a) -> MicrosText x a b -> h < 24 -> m < 60 -> x < 60000000 -> Clock t ((h * 60 + m) * 60000000 + x)
| CL_minutes h m t a : HoursText h m t a -> (forall r, a <> ":"%char :: r) -> h < 24 -> m < 60 -> Clock t ((h * 60 + m) * 60000000).
(** The instants a 64 bit count of nanoseconds can express: from 21 September 1677 to 11 April 2262 *)
Definition clock_range (z : Z) : Prop := -9223372036 <= z <= 9223372036.

(** * Proofs *)
Lemma tomorrow_inj c d : is_date c -> is_date d -> tomorrow c = tomorrow d -> c = d.
Proof.
  intros Hc Hd E. pose proof (calendar_civil c Hc) as Ec. pose proof (calendar_civil d Hd) as Ed.
  assert (X : civil_from_days (days_from_civil c + 1) = civil_from_days (days_from_civil d + 1)) by (rewrite !calendar_next, Ec, Ed; exact E).
  apply (f_equal days_from_civil) in X. rewrite !calendar_days in X. rewrite <- Ec, <- Ed. f_equal. lia.
Qed.
Lemma day_iff n c : Day n c <-> c = civil_from_days n.
Proof.
  split.
  - induction 1 as [|n c H IH|n c H IH D]; [symmetry; exact calendar_start|rewrite calendar_next, IH; reflexivity|].
    apply tomorrow_inj; [exact D|apply calendar_date|]. rewrite IH. apply calendar_next.
  - intros ->. assert (P : forall k, Day (Z.of_nat k) (civil_from_days (Z.of_nat k)) /\ Day (- Z.of_nat k) (civil_from_days (- Z.of_nat k))).
    { induction k as [|k [IH1 IH2]]; [rewrite calendar_start at 1; split; [constructor|change (- Z.of_nat 0) with 0; rewrite calendar_start; constructor]|]. split.
      - replace (Z.of_nat (S k)) with (Z.of_nat k + 1) by lia. rewrite calendar_next. constructor. exact IH1.
      - apply Day_before; [|apply calendar_date]. rewrite <- calendar_next. replace (- Z.of_nat (S k) + 1) with (- Z.of_nat k) by lia. exact IH2. }
    destruct (Z.le_gt_cases 0 n) as [L|L]; [specialize (P (Z.to_nat n)); replace (Z.of_nat (Z.to_nat n)) with n in P by lia; apply P|].
    specialize (P (Z.to_nat (- n))). replace (- Z.of_nat (Z.to_nat (- n))) with n in P by lia. apply P.
Qed.
Lemma day_date n c : Day n c -> is_date c.
Proof. intros H. apply day_iff in H as ->. apply calendar_date. Qed.
Lemma day_of_date c : is_date c -> Day (days_from_civil c) c.
Proof. intros H. apply day_iff. symmetry. apply calendar_civil, H. Qed.
Lemma day_unique n c : Day n c -> n = days_from_civil c.
Proof. intros H. apply day_iff in H as ->. symmetry. apply calendar_days. Qed.

(** Fields *)
Lemma upto_spec w : forall s, let '(ds, r) := upto_digits w s in s = ds ++ r /\ forallb is_digit ds = true /\ (length ds <= w)%nat /\ (length ds = w \/ no_digit r).
Proof.
  induction w as [|w IH]; intros s; [cbn; auto|]. destruct s as [|c s]; [cbn; repeat split; auto; lia|]. cbn [upto_digits]. destruct (is_digit c) eqn:E; [|cbn; rewrite E; repeat split; auto; lia].
  specialize (IH s). destruct (upto_digits w s) as [ds r]. destruct IH as (-> & H1 & H2 & H3). cbn [forallb length app]. rewrite E, H1. repeat split; [lia|]. destruct H3; [left; lia|right; assumption].
Qed.
Lemma upto_unique w ds : forall r, forallb is_digit ds = true -> (length ds <= w)%nat -> (length ds = w \/ no_digit r) -> upto_digits w (ds ++ r) = (ds, r).
Proof.
  revert w. induction ds as [|c ds IH]; intros w r Hd Hl He.
  - cbn [app]. destruct w as [|w]; [reflexivity|]. destruct He as [He|He]; [discriminate|]. destruct r as [|c r]; [reflexivity|]. cbn in *. rewrite He. reflexivity.
  - cbn [forallb] in Hd. apply andb_true_iff in Hd as [Hc Hd]. destruct w as [|w]; [cbn in Hl; lia|]. cbn [app upto_digits]. rewrite Hc, (IH w r); auto; [cbn in Hl; lia|]. cbn in He. destruct He; [left; lia|right; assumption].
Qed.
Lemma field_iff w v t rest : read_digits w t = Some (v, rest) <-> Field w v t rest.
Proof.
  unfold read_digits, Field. split.
  - pose proof (upto_spec w t) as S. destruct (upto_digits w t) as [ds r]. destruct S as (-> & H1 & H2 & H3). destruct ds as [|c ds]; [discriminate|]. intros E. injection E as <- <-.
    exists (c :: ds). repeat split; auto. discriminate.
  - intros (ds & -> & H1 & H2 & H3 & -> & H4). rewrite upto_unique by assumption. destruct ds; [congruence|reflexivity].
Qed.
Lemma field_none w t : read_digits w t = None -> forall v rest, ~ Field w v t rest.
Proof. intros H v rest F. apply field_iff in F. congruence. Qed.
Lemma char_iff c t rest : read_char c t = Some rest <-> t = c :: rest.
Proof.
  unfold read_char. split.
  - destruct t as [|d t]; [discriminate|]. destruct (ceq c d) eqn:C; [|discriminate]. apply ceq_true in C as <-. intros E. injection E as ->. reflexivity.
  - intros ->. rewrite ceq_refl. reflexivity.
Qed.
Lemma field_unique w t v r v' r' : Field w v t r -> Field w v' t r' -> v = v' /\ r = r'.
Proof. intros H H'. apply field_iff in H, H'. rewrite H in H'. injection H' as -> ->. split; reflexivity. Qed.
Lemma date_iff c t rest : read_date t = Some (c, rest) <-> DateText c t rest.
Proof.
  unfold read_date, DateText. split.
  - destruct (read_digits 4 t) as [[y a]|] eqn:E1; [|discriminate]. destruct (read_char "-" a) as [a'|] eqn:E2; [|discriminate]. destruct (read_digits 2 a') as [[m b]|] eqn:E3; [|discriminate].
    destruct (read_char "-" b) as [b'|] eqn:E4; [|discriminate]. destruct (read_digits 2 b') as [[d r]|] eqn:E5; [|discriminate]. intros E. injection E as <- <-.
    apply char_iff in E2, E4. subst a b. apply field_iff in E1, E3, E5. exists a', b'. cbn [y_of m_of d_of]. auto.
  - intros (a & b & H1 & H2 & H3). destruct c as [y m d]. cbn [y_of m_of d_of] in *. apply field_iff in H1, H2, H3. rewrite H1.
    replace (read_char "-" ("-"%char :: a)) with (Some a) by reflexivity. rewrite H2. replace (read_char "-" ("-"%char :: b)) with (Some b) by reflexivity. rewrite H3. reflexivity.
Qed.
Lemma hours_iff h m t rest : read_hours t = Some (h, m, rest) <-> HoursText h m t rest.
Proof.
  unfold read_hours, HoursText. split.
  - destruct (read_digits 2 t) as [[x a]|] eqn:E1; [|discriminate]. destruct (read_char ":" a) as [a'|] eqn:E2; [|discriminate]. destruct (read_digits 2 a') as [[y b]|] eqn:E3; [|discriminate].
    intros E. injection E as <- <- <-. apply char_iff in E2. subst a. apply field_iff in E1, E3. exists a'. auto.
  - intros (a & H1 & H2). apply field_iff in H1, H2. rewrite H1. replace (read_char ":" (":"%char :: a)) with (Some a) by reflexivity. rewrite H2. reflexivity.
Qed.
Lemma spaced_iff t rest : ltrim t = rest <-> Spaced t rest.
Proof.
  unfold Spaced. split.
  - intros <-. destruct (ltrim_spec t) as (a & E & Ha & Hf). exists a. split; [exact E|]. split; [exact Ha|]. destruct (ltrim t) as [|c r] eqn:L; [exact I|exact (Hf c r eq_refl)].
  - intros (w & -> & Hw & Hr). rewrite ltrim_ws_app by exact Hw. destruct rest as [|c r]; [reflexivity|]. rewrite ltrim_cons. apply wsb_false in Hr. rewrite Hr. reflexivity.
Qed.
Lemma stamp_iff c h m t rest : read_stamp t = Some (c, h, m, rest) <-> StampText c h m t rest.
Proof.
  unfold read_stamp, StampText. split.
  - destruct (read_date t) as [[c' a]|] eqn:E1; [|discriminate]. destruct (read_hours (ltrim a)) as [[[h' m'] b]|] eqn:E2; [|discriminate]. destruct (read_char ":" b) as [b'|] eqn:E3; [|discriminate].
    intros E. injection E as <- <- <- <-. apply char_iff in E3. subst b. apply date_iff in E1. apply hours_iff in E2. exists a, (ltrim a). split; [exact E1|]. split; [apply spaced_iff; reflexivity|exact E2].
  - intros (a & b & H1 & H2 & H3). apply date_iff in H1. apply spaced_iff in H2. apply hours_iff in H3. rewrite H1, H2, H3. replace (read_char ":" (":"%char :: rest)) with (Some rest) by reflexivity. reflexivity.
Qed.
Lemma starts_digit_iff s : starts_digit s = false <-> no_digit s.
Proof. destruct s; cbn; split; auto. Qed.
Lemma micros_iff x t rest : read_micros t = SValue x rest <-> MicrosText x t rest.
Proof.
  unfold read_micros. split.
  - destruct (read_digits 2 t) as [[z r]|] eqn:E1; [|destruct (read_char "." t); discriminate]. apply field_iff in E1. destruct (starts_digit r) eqn:E2; [discriminate|]. apply starts_digit_iff in E2.
    destruct (read_char "." r) as [r'|] eqn:E3.
    + apply char_iff in E3. subst r. pose proof (upto_spec 6 r') as S. destruct (upto_digits 6 r') as [ds q]. destruct S as (-> & H1 & H2 & H3).
      destruct (_ && _) eqn:E4; [discriminate|]. intros E. injection E as <- <-. apply MT_parts; auto. destruct H3 as [H3|H3]; [|left; exact H3]. apply andb_false_iff in E4 as [E4|E4]; [left; apply starts_digit_iff; exact E4|].
      right. split; [exact H3|]. destruct E1 as (d & -> & N & D & L & _ & _). rewrite app_length in *. cbn [length] in *. lia.
    + intros E. injection E as <- <-. apply MT_whole; auto. intros q ->. cbn in E3. discriminate.
  - intros [z t' r F N P | z t' ds r F D L P].
    + pose proof F as F'. apply field_iff in F'. rewrite F'. apply starts_digit_iff in N. rewrite N. destruct (read_char "." r) as [r'|] eqn:E; [|reflexivity]. apply char_iff in E. exfalso. exact (P r' E).
    + pose proof F as F'. apply field_iff in F'. rewrite F'. cbn [starts_digit]. change (is_digit ".") with false. cbv iota. replace (read_char "." ("."%char :: ds ++ r)) with (Some (ds ++ r)) by reflexivity.
      rewrite upto_unique; [|assumption|assumption|destruct P as [P|[P _]]; auto]. destruct P as [P|[P Q]].
      * apply starts_digit_iff in P. rewrite P. reflexivity.
      * replace (_ <? 2)%nat with false by (cbn [length]; lia). rewrite andb_false_r. reflexivity.
Qed.
Lemma stamp_unique c h m t r c' h' m' r' : StampText c h m t r -> StampText c' h' m' t r' -> c = c' /\ h = h' /\ m = m' /\ r = r'.
Proof. intros H H'. apply stamp_iff in H, H'. rewrite H in H'. injection H' as -> -> -> ->. auto. Qed.
Lemma hours_unique h m t r h' m' r' : HoursText h m t r -> HoursText h' m' t r' -> h = h' /\ m = m' /\ r = r'.
Proof. intros H H'. apply hours_iff in H, H'. rewrite H in H'. injection H' as -> -> ->. auto. Qed.
Lemma field_range w v t r : Field w v t r -> 0 <= v.
Proof. intros (ds & _ & _ & _ & _ & -> & _). lia. Qed.
Lemma timestamp_iff t z : parse_timestamp t = PValue z <-> Stamp t z.
Proof.
  unfold parse_timestamp. split.
  - destruct (read_stamp t) as [[[[c h] m] a]|] eqn:E; [|discriminate]. apply stamp_iff in E. unfold read_seconds. destruct (read_digits 2 a) as [[s b]|] eqn:F; [|destruct (read_char "." a); discriminate].
    apply field_iff in F. destruct (civil_ok c && in_day h m s 60) eqn:G; [|discriminate]. apply andb_true_iff in G as [G1 G2]. apply civil_ok_iff in G1. unfold in_day in G2. intros X. injection X as <-.
    eapply ST; [exact E|exact F|apply day_of_date, G1| | |]; lia.
  - intros [day c h m s t' a b E F D Hh Hm Hs]. apply stamp_iff in E. rewrite E. unfold read_seconds. apply field_iff in F. rewrite F. pose proof (day_date _ _ D) as G. apply civil_ok_iff in G. rewrite G.
    unfold in_day. replace ((h <? 24) && (m <? 60) && (s <? 60)) with true by lia. cbn [andb]. rewrite (day_unique _ _ D). reflexivity.
Qed.
Lemma hours_positive h m t r : HoursText h m t r -> 0 <= h /\ 0 <= m.
Proof. intros (a & F & G). split; eapply field_range; eassumption. Qed.
Lemma micros_positive x t r : MicrosText x t r -> 0 <= x.
Proof. intros [z t' q F _ _|z t' ds q F _ _ _]; pose proof (field_range _ _ _ _ F); [lia|]. pose proof (Z.pow_nonneg 10 (Z.of_nat (6 - length ds)) ltac:(lia)). nia. Qed.

Lemma clock_value t z : Clock t z -> parse_time t = PValue z.
Proof.
  intros [h m x t' a b H M Hh Hm Hx | h m t' a H N Hh Hm]; pose proof (hours_positive _ _ _ _ H) as [P1 P2]; unfold parse_time, parse_seconds.
  - apply hours_iff in H. rewrite H. replace (read_char ":" (":"%char :: a)) with (Some a) by reflexivity. apply micros_iff in M. rewrite M. unfold in_day. replace ((h <? 24) && (m <? 60) && (x <? 60000000)) with true by lia. reflexivity.
  - apply hours_iff in H. rewrite H. destruct (read_char ":" a) as [r|] eqn:E; [apply char_iff in E; destruct (N r E)|]. unfold parse_minutes. rewrite H. unfold in_day. replace ((h <? 24) && (m <? 60) && (0 <? 1)) with true by lia. reflexivity.
Qed.
Lemma date_value t day : parse_date t = Some day <-> exists c rest, DateText c t rest /\ Day day c.
Proof.
  unfold parse_date. split.
  - destruct (read_date t) as [[c r]|] eqn:E; [|discriminate]. destruct (civil_ok c) eqn:G; [|discriminate]. intros X. injection X as <-. exists c, r. split; [apply date_iff, E|apply day_of_date, civil_ok_iff, G].
  - intros (c & r & E & D). apply date_iff in E. rewrite E. pose proof (day_date _ _ D) as G. apply civil_ok_iff in G. rewrite G. rewrite (day_unique _ _ D). reflexivity.
Qed.
Lemma time_value t x : parse_time t = PValue x -> Clock t x \/ exists h m a, HoursText h m t (":"%char :: a) /\ no_digit a /\ h < 24 /\ m < 60 /\ x = (h * 60 + m) * 60000000.
Proof.
  intros E. unfold parse_time, parse_seconds, parse_minutes in E. destruct (read_hours t) as [[[h m] a]|] eqn:F; [|discriminate]. apply hours_iff in F.
  destruct (read_char ":" a) as [r|] eqn:G.
  - apply char_iff in G. subst a. destruct (read_micros r) as [|y b|] eqn:M; [| |discriminate].
    + right. destruct (in_day h m 0 1) eqn:D; [|discriminate]. injection E as <-. unfold in_day in D. exists h, m, r. split; [exact F|]. split; [|lia]. unfold read_micros in M. destruct (read_digits 2 r) as [[u v]|] eqn:Q.
      * destruct (starts_digit v); [discriminate|]. destruct (read_char "." v); [|discriminate]. destruct (upto_digits 6 s). destruct (_ && _); discriminate.
      * unfold read_digits in Q. pose proof (upto_spec 2 r) as S. destruct (upto_digits 2 r) as [ds q]. destruct ds; [|discriminate]. destruct S as (-> & _ & _ & [S|S]); [discriminate|exact S].
    + left. apply micros_iff in M. destruct (in_day h m y 60000000) eqn:D; [|discriminate]. injection E as <-. unfold in_day in D. eapply CL_seconds; [exact F|exact M|lia..].
  - left. destruct (in_day h m 0 1) eqn:D; [|discriminate]. injection E as <-. unfold in_day in D. eapply CL_minutes; [exact F| |lia|lia]. intros r ->. cbn in G. discriminate.
Qed.
