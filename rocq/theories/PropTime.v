(** Theorems about timestamps and times of day in text plans. *)
From Verif Require Import Base BaseFacts StringsModel StringsFacts EscapeModel EscapeFacts TypeModel LexModel LexFacts NameFacts CutFacts CalendarModel CalendarFacts TimeModel TimeFacts ExprModel TypeTokenFacts LiteralFacts ExprFacts.
From Coq Require Import ZArith Lia ZifyBool ZifyNat ZifyN.
Local Open Scope Z_scope.

(** * C88: timestamps and times of day *)
(** A quoted text with the name of a type after it *)
Lemma quoted_reads t w tts find_function find_relation find_field : no_backslash t -> TypeText w tts ->
  readExpr find_function find_relation find_field (printQuoted t ++ $"_" ++ w) = Some (visitExpr find_function find_relation find_field (NConst (CString (printQuoted t) (Some w)))).
Proof.
  intros Ht T. pose (ts := ((STRING, printQuoted t) :: (UNDERSCORE, $"_") :: tts) : list token).
  assert (Hc : Cuts ends (printQuoted t ++ $"_" ++ w) ts) by (apply (suffix_cuts (printQuoted t) (STRING, printQuoted t) _ tts any); [apply cuts_printed, Ht| |exact T]; intros r; exact I).
  unfold readExpr. rewrite (cuts_tokens _ _ _ Hc I).
  assert (P : forall fuel, (1 <= fuel)%nat -> p_constant fuel ts = Some (CString (printQuoted t) (Some w), [])).
  { intros fuel Hf. destruct fuel as [|fuel]; [lia|]. unfold ts. cbn [p_constant c_start]. pose proof (suffix_reads p_basic (CString (printQuoted t)) w tts [] (tt_parse _ _ T [] I)) as X. rewrite app_nil_r in X. exact X. }
  destruct (const_head ts [] I) as [Ec Es]. rewrite app_nil_r in *. assert (L : (2 <= 2 * length ts)%nat) by (unfold ts; cbn [length]; lia). change (length ts) with (@length token ts) in *. remember (2 * @length token ts)%nat as n eqn:En.
  cbn [p_expr]. rewrite Ec. unfold p_constant_expr. rewrite (P n) by lia.
  destruct n as [|n]; [lia|]. unfold ts at 1. cbn [c_start p_casts t_as t_compare]. reflexivity.
Qed.
Lemma stamp_type : exists tts, TypeText $"timestamp" tts.
Proof. exists (type_tokens $"timestamp" false []). assert (E : $"timestamp" = type_text $"timestamp" false []) by reflexivity. rewrite E at 1. apply type_is; [small_name|discriminate|constructor]. Qed.
Lemma time_type : exists tts, TypeText $"time" tts.
Proof. exists (type_tokens $"time" false []). assert (E : $"time" = type_text $"time" false []) by reflexivity. rewrite E at 1. apply type_is; [small_name|discriminate|constructor]. Qed.
Lemma stamp_literal t find_function find_relation find_field : no_backslash t ->
  readExpr find_function find_relation find_field (printQuoted t ++ $"_timestamp") = Some (bindE (visitTimestamp (printQuoted t)) (fun l => good (ELit l))).
Proof.
  intros H. destruct stamp_type as (tts & T). change ($"_timestamp") with ($"_" ++ $"timestamp"). rewrite (quoted_reads t _ tts _ _ _ H T). cbn [visitExpr]. unfold visitConstant. cbn [visitConst type_of].
  unfold read_type. replace (textToTypeProto (false || false) $"timestamp") with (Ok (PtScalar STimestamp NRequired, @nil terr)) by (vm_compute; reflexivity). cbn [obind fst snd map]. unfold bindE at 2. cbn [obind fst snd].
  destruct (visitTimestamp (printQuoted t)) as [[l e]| |]; reflexivity.
Qed.
Lemma time_literal t find_function find_relation find_field : no_backslash t ->
  readExpr find_function find_relation find_field (printQuoted t ++ $"_time") = Some (bindE (visitTime (printQuoted t)) (fun l => good (ELit l))).
Proof.
  intros H. destruct time_type as (tts & T). change ($"_time") with ($"_" ++ $"time"). rewrite (quoted_reads t _ tts _ _ _ H T). cbn [visitExpr]. unfold visitConstant. cbn [visitConst type_of].
  unfold read_type. replace (textToTypeProto (false || false) $"time") with (Ok (PtScalar STime NRequired, @nil terr)) by (vm_compute; reflexivity). cbn [obind fst snd map]. unfold bindE at 2. cbn [obind fst snd].
  destruct (visitTime (printQuoted t)) as [[l e]| |]; reflexivity.
Qed.
(** A timestamp is read as its number of seconds since 1970. *)
Theorem C88_timestamp t z find_function find_relation find_field : no_backslash t -> Stamp t z -> clock_range z ->
  readExpr find_function find_relation find_field (printQuoted t ++ $"_timestamp") = Some (Ok (ELit (Lit (LTimestamp z) false), [])).
Proof.
  intros Ht S R. rewrite stamp_literal by exact Ht. unfold visitTimestamp. rewrite evalString_printed by exact Ht. apply timestamp_iff in S. rewrite S. unfold to_time_t, clock_ticks, clock_range in *.
  replace ((- 2 ^ 63 <=? z * 1000000000) && (z * 1000000000 <? 2 ^ 63)) with true by lia. reflexivity.
Qed.
(** Nothing else is read as a timestamp, *)
Theorem C88_timestamp_only t z find_function find_relation find_field errs n : no_backslash t ->
  readExpr find_function find_relation find_field (printQuoted t ++ $"_timestamp") = Some (Ok (ELit (Lit (LTimestamp z) n), errs)) -> Stamp t z /\ clock_range z /\ n = false /\ errs = [].
Proof.
  intros Ht H. rewrite stamp_literal in H by exact Ht. unfold visitTimestamp in H. rewrite evalString_printed in H by exact Ht. destruct (parse_timestamp t) as [|x|] eqn:E; try discriminate.
  apply timestamp_iff in E. unfold to_time_t, clock_ticks in H. destruct (_ && _) eqn:R in H; [|discriminate]. cbn in H. injection H as <- <- <-. split; [exact E|]. split; [unfold clock_range; lia|auto].
Qed.
(** and what is not a timestamp is reported, unless its seconds begin with a period (that case is not modelled). *)
Theorem C88_timestamp_reported t find_function find_relation find_field : no_backslash t -> (forall z, ~ Stamp t z) -> (forall c h m a, ~ StampText c h m t ("."%char :: a)) ->
  readExpr find_function find_relation find_field (printQuoted t ++ $"_timestamp") = Some (Ok (ELit (Lit LUnset false), [XTimestamp])).
Proof.
  intros Ht H U. rewrite stamp_literal by exact Ht. unfold visitTimestamp. rewrite evalString_printed by exact Ht. destruct (parse_timestamp t) as [|x|] eqn:E; [reflexivity|exfalso; apply (H x), timestamp_iff, E|].
  exfalso. unfold parse_timestamp in E. destruct (read_stamp t) as [[[[c h] m] a]|] eqn:F; [|discriminate]. unfold read_seconds in E. destruct (read_digits 2 a) as [[s b]|] eqn:G; [destruct (_ && _); discriminate|].
  destruct (read_char "." a) as [r|] eqn:Q; [|discriminate]. apply char_iff in Q. subst a. apply stamp_iff in F. exact (U c h m r F).
Qed.
(** Finding: the number is in seconds, but timestamps of Substrait are in microseconds: only the start of 1970 is read as what it is. *)
Theorem C88_unit_refuted t z find_function find_relation find_field : no_backslash t -> Stamp t z -> clock_range z -> z <> 0 ->
  exists v, readExpr find_function find_relation find_field (printQuoted t ++ $"_timestamp") = Some (Ok (ELit (Lit (LTimestamp v) false), [])) /\ v <> z * 1000000.
Proof. intros Ht S R N. exists z. split; [apply C88_timestamp; assumption|lia]. Qed.
(** Finding: a timestamp outside of the range of the clock is undefined behaviour. *)
Theorem C88_range_refuted t z find_function find_relation find_field : no_backslash t -> Stamp t z -> ~ clock_range z ->
  readExpr find_function find_relation find_field (printQuoted t ++ $"_timestamp") = Some UB.
Proof.
  intros Ht S R. rewrite stamp_literal by exact Ht. unfold visitTimestamp. rewrite evalString_printed by exact Ht. apply timestamp_iff in S. rewrite S. unfold to_time_t, clock_ticks, clock_range in *.
  replace ((- 2 ^ 63 <=? z * 1000000000) && (z * 1000000000 <? 2 ^ 63)) with false by lia. reflexivity.
Qed.
(** Finding: what follows the seconds is ignored, be it a fraction or anything else. *)
Lemma field_app w v t r x : Field w v t r -> match r with [] => no_digit x | _ => True end -> Field w v (t ++ x) (r ++ x).
Proof.
  intros (ds & -> & N & D & L & E & S) H. exists ds. rewrite <- app_assoc. repeat split; auto. destruct S as [S|S]; [left; exact S|right]. destruct r; [exact H|exact S].
Qed.
Lemma stamp_app c h m t r x : StampText c h m t r -> StampText c h m (t ++ x) (r ++ x).
Proof.
  intros (a & b & (a1 & b1 & D1 & D2 & D3) & (w & -> & Hw & Hb) & (q & H1 & H2)). exists ((w ++ b) ++ x), (b ++ x). split; [|split].
  - exists (a1 ++ x), (b1 ++ x). split; [apply (field_app _ _ _ _ x D1); exact I|]. split; [apply (field_app _ _ _ _ x D2); exact I|]. apply (field_app _ _ _ _ x D3).
    destruct H1 as (ds & -> & N & _). destruct w; [|exact I]. destruct ds; [congruence|exact I].
  - exists w. rewrite <- app_assoc. split; [reflexivity|]. split; [exact Hw|]. destruct b as [|y b]; [|exact Hb]. destruct H1 as (ds & E & N & _). destruct ds; [congruence|discriminate].
  - exists (q ++ x). split; [apply (field_app _ _ _ _ x H1); exact I|apply (field_app _ _ _ _ x H2); exact I].
Qed.
Theorem C88_rest_refuted t z x find_function find_relation find_field : no_backslash (t ++ x) -> Stamp t z -> clock_range z -> no_digit x ->
  readExpr find_function find_relation find_field (printQuoted (t ++ x) ++ $"_timestamp") = Some (Ok (ELit (Lit (LTimestamp z) false), [])).
Proof.
  intros Ht S R N. apply C88_timestamp; [exact Ht| |exact R]. destruct S as [day c h m s t' a b H F D Hh Hm Hs]. eapply ST; [apply stamp_app; exact H|apply field_app; [exact F|destruct b; [exact N|exact I]]|exact D|..]; assumption.
Qed.
(** A time of day is read as its number of microseconds. *)
Theorem C88_time t z find_function find_relation find_field : no_backslash t -> Clock t z ->
  readExpr find_function find_relation find_field (printQuoted t ++ $"_time") = Some (Ok (ELit (Lit (LTime z) false), [])).
Proof. intros Ht C. rewrite time_literal by exact Ht. unfold visitTime. rewrite evalString_printed by exact Ht. rewrite (clock_value _ _ C). reflexivity. Qed.
(** Nothing else is read as a time of day, except (finding) that seconds that cannot be read are ignored if there is a colon before them; *)
Theorem C88_time_only t z find_function find_relation find_field n errs : no_backslash t ->
  readExpr find_function find_relation find_field (printQuoted t ++ $"_time") = Some (Ok (ELit (Lit (LTime z) n), errs)) ->
  n = false /\ errs = [] /\ (Clock t z \/ exists h m a, HoursText h m t (":"%char :: a) /\ no_digit a /\ h < 24 /\ m < 60 /\ z = (h * 60 + m) * 60000000).
Proof.
  intros Ht H. rewrite time_literal in H by exact Ht. unfold visitTime in H. rewrite evalString_printed in H by exact Ht. destruct (parse_time t) as [|x|] eqn:E; try discriminate.
  cbn in H. injection H as <- <- <-. split; [reflexivity|]. split; [reflexivity|]. apply time_value, E.
Qed.
Theorem C88_seconds_refuted t h m c a find_function find_relation find_field : no_backslash t -> HoursText h m t (":"%char :: c :: a) -> is_digit c = false -> c <> "."%char -> h < 24 -> m < 60 ->
  readExpr find_function find_relation find_field (printQuoted t ++ $"_time") = Some (Ok (ELit (Lit (LTime ((h * 60 + m) * 60000000)) false), [])).
Proof.
  intros Ht H D P Hh Hm. rewrite time_literal by exact Ht. unfold visitTime. rewrite evalString_printed by exact Ht. unfold parse_time, parse_seconds, parse_minutes. apply hours_iff in H. rewrite H.
  replace (read_char ":" (":"%char :: c :: a)) with (Some (c :: a)) by reflexivity. unfold read_micros, read_digits. cbn [upto_digits]. rewrite D. destruct (read_char "." (c :: a)) as [r|] eqn:E; [apply char_iff in E; congruence|].
  unfold in_day. replace ((h <? 24) && (m <? 60) && (0 <? 1)) with true by lia. reflexivity.
Qed.
(** and what does not begin with hours and minutes is reported. *)
Theorem C88_time_reported t find_function find_relation find_field : no_backslash t -> (forall h m a, ~ HoursText h m t a) ->
  readExpr find_function find_relation find_field (printQuoted t ++ $"_time") = Some (Ok (ELit (Lit LUnset false), [XTime])).
Proof.
  intros Ht H. rewrite time_literal by exact Ht. unfold visitTime. rewrite evalString_printed by exact Ht. unfold parse_time, parse_seconds, parse_minutes. destruct (read_hours t) as [[[h m] a]|] eqn:E; [|reflexivity].
  apply hours_iff in E. destruct (H h m a E).
Qed.
(** With a time zone: the word after the seconds is the name of the zone, and the zone database gives the instant of the local time; its whole seconds are the result. *)
Definition zone_characters : str := $"ABCDEFGHIJKLMNOPQRSTUVWXYZabcdefghijklmnopqrstuvwxyz0123456789_/-+".
Definition ZoneName (n t : str) : Prop := exists rest, t = n ++ rest /\ n <> [] /\ Forall (fun c => In c zone_characters) n /\ match rest with c :: _ => ~ In c zone_characters | [] => True end.
Inductive Zoned (zone : str -> Z -> option Z) : str -> Z -> Prop :=
| ZN day c h m x t a b d n utc : StampText c h m t a -> MicrosText x a b -> Spaced b d -> ZoneName n d -> Day day c -> h < 24 -> m < 60 -> x < 60000000 ->
    zone n (((day * 24 + h) * 60 + m) * 60000000 + x) = Some utc -> Zoned zone t utc.
Lemma zone_char c : is_zone c = true <-> In c zone_characters.
Proof.
  split.
  - intros H. assert (X : forallb (fun n => implb (is_zone (ascii_of_nat n)) (existsb (ceq (ascii_of_nat n)) zone_characters)) (seq 0 256) = true) by (vm_compute; reflexivity).
    rewrite forallb_forall in X. specialize (X (nat_of_ascii c)). rewrite ascii_nat_embedding in X. rewrite H in X. cbn [implb] in X.
    assert (Y : existsb (ceq c) zone_characters = true) by (apply X, in_seq; pose proof (nat_ascii_bounded c); lia). apply existsb_exists in Y as (d & I & E). apply ceq_true in E as <-. exact I.
  - intros H. assert (X : forallb is_zone zone_characters = true) by (vm_compute; reflexivity). rewrite forallb_forall in X. apply X, H.
Qed.
Lemma zone_name_spec t : t = zone_name t ++ skipn (length (zone_name t)) t /\ Forall (fun c => In c zone_characters) (zone_name t) /\ match skipn (length (zone_name t)) t with c :: _ => ~ In c zone_characters | [] => True end.
Proof.
  induction t as [|c t IH]; [cbn; auto|]. cbn [zone_name]. destruct (is_zone c) eqn:E.
  - cbn [length skipn app]. destruct IH as (IH1 & IH2 & IH3). split; [congruence|]. split; [constructor; [apply zone_char, E|exact IH2]|exact IH3].
  - cbn. repeat split; auto. intros I. apply zone_char in I. congruence.
Qed.
Lemma zone_name_unique n rest : Forall (fun c => In c zone_characters) n -> match rest with c :: _ => ~ In c zone_characters | [] => True end -> zone_name (n ++ rest) = n.
Proof.
  intros H R. induction H as [|c n Hc H IH].
  - cbn [app]. destruct rest as [|c r]; [reflexivity|]. cbn [zone_name]. destruct (is_zone c) eqn:E; [|reflexivity]. apply zone_char in E. contradiction.
  - cbn [app zone_name]. apply zone_char in Hc. rewrite Hc, IH. reflexivity.
Qed.
Theorem C88_zoned zone t utc : Zoned zone t utc -> - 2 ^ 63 <= utc * 1000 < 2 ^ 63 -> timestamp_tz zone t = Ok (ZValue (Z.quot utc 1000000)).
Proof.
  intros [day c h m x t' a b d n u S M W (rest & -> & Hn & Hz & Hr) D Hh Hm Hx Z] R. unfold timestamp_tz. apply stamp_iff in S. rewrite S. apply micros_iff in M. rewrite M. apply spaced_iff in W. rewrite W.
  rewrite zone_name_unique by assumption. pose proof (day_date _ _ D) as G. apply civil_ok_iff in G. rewrite G. unfold in_day. replace ((h <? 24) && (m <? 60) && (x <? 60000000)) with true by lia.
  rewrite <- (day_unique _ _ D). destruct n as [|y n]; [congruence|]. cbn [andb]. rewrite Z. replace ((- 2 ^ 63 <=? u * 1000) && (u * 1000 <? 2 ^ 63)) with true by lia. reflexivity.
Qed.
Theorem C88_zoned_only zone t z : timestamp_tz zone t = Ok (ZValue z) -> exists utc, Zoned zone t utc /\ z = Z.quot utc 1000000.
Proof.
  unfold timestamp_tz. destruct (read_stamp t) as [[[[c h] m] a]|] eqn:S; [|discriminate]. destruct (read_micros a) as [|x b|] eqn:M; try discriminate. destruct (zone_name (ltrim b)) as [|y n] eqn:E; [discriminate|].
  destruct (civil_ok c && in_day h m x 60000000) eqn:G; [|discriminate]. apply andb_true_iff in G as [G1 G2]. apply civil_ok_iff in G1. unfold in_day in G2. destruct (zone _ _) as [u|] eqn:Q; [|discriminate].
  destruct ((- 2 ^ 63 <=? u * 1000) && (u * 1000 <? 2 ^ 63)); [|discriminate]. intros X. injection X as <-. exists u. split; [|reflexivity]. apply stamp_iff in S. apply micros_iff in M.
  destruct (zone_name_spec (ltrim b)) as (H1 & H2 & H3). rewrite E in *.
  eapply ZN; [exact S|exact M|apply spaced_iff; reflexivity| |apply day_of_date, G1|lia|lia|lia|exact Q]. exists (skipn (length (y :: n)) (ltrim b)). repeat split; auto. discriminate.
Qed.
(** A zone the database does not know is reported; what has no date, time of day or zone is reported. *)
Theorem C88_zone_reported zone t : (forall z, timestamp_tz zone t <> Ok (ZValue z)) -> (forall c h m a, StampText c h m t a -> exists x b, MicrosText x a b) ->
  (forall utc, Zoned zone t utc -> - 2 ^ 63 <= utc * 1000 < 2 ^ 63) -> timestamp_tz zone t = Ok ZFail \/ timestamp_tz zone t = Ok ZNoZone.
Proof.
  intros H M R. unfold timestamp_tz in *. destruct (read_stamp t) as [[[[c h] m] a]|] eqn:S; [|auto]. apply stamp_iff in S. destruct (M c h m a S) as (x & b & X). pose proof X as X'. apply micros_iff in X'. rewrite X' in *.
  destruct (zone_name (ltrim b)) as [|y n] eqn:E; [auto|]. destruct (civil_ok c && in_day h m x 60000000) eqn:G; [|auto]. destruct (zone _ _) as [u|] eqn:Q; [|auto]. exfalso.
  apply andb_true_iff in G as [G1 G2]. apply civil_ok_iff in G1. unfold in_day in G2. destruct (zone_name_spec (ltrim b)) as (H1 & H2 & H3). rewrite E in *.
  assert (Z : Zoned zone t u) by (eapply ZN; [exact S|exact X|apply spaced_iff; reflexivity| |apply day_of_date, G1|lia|lia|lia|exact Q]; exists (skipn (length (y :: n)) (ltrim b)); repeat split; auto; discriminate).
  specialize (R u Z). replace ((- 2 ^ 63 <=? u * 1000) && (u * 1000 <? 2 ^ 63)) with true in H by lia. exact (H _ eq_refl).
Qed.
Print Assumptions C88_timestamp. Print Assumptions C88_timestamp_only. Print Assumptions C88_timestamp_reported. Print Assumptions C88_unit_refuted. Print Assumptions C88_range_refuted.
Print Assumptions C88_rest_refuted. Print Assumptions C88_time. Print Assumptions C88_time_only. Print Assumptions C88_seconds_refuted. Print Assumptions C88_time_reported.
Print Assumptions C88_zoned. Print Assumptions C88_zoned_only. Print Assumptions C88_zone_reported.
Example C88_case : Stamp $"2000-02-29 23:59:59" 951868799 /\ Stamp $"9999-12-31 00:00:00" 253402214400 /\ ~ clock_range 253402214400 /\ Clock $"13:21:12.012345" 48072012345 /\ Clock $"13:21" 48060000000.
Proof.
  split; [apply timestamp_iff; vm_compute; reflexivity|]. split; [apply timestamp_iff; vm_compute; reflexivity|]. split; [unfold clock_range; lia|]. split.
  - apply (CL_seconds 13 21 12012345 _ $"12.012345" []); [apply hours_iff; vm_compute; reflexivity|apply micros_iff; vm_compute; reflexivity|lia..].
  - apply (CL_minutes 13 21 _ []); [apply hours_iff; vm_compute; reflexivity|discriminate|lia..].
Qed.
Example C88_text_case : readExpr (fun _ => None) (fun _ => None) (fun _ => None) $"""2000-01-01 00:00:00.75 or so""_timestamp" = Some (Ok (ELit (Lit (LTimestamp 946684800) false), [])) /\
  readExpr (fun _ => None) (fun _ => None) (fun _ => None) $"""13:21:zz""_time" = Some (Ok (ELit (Lit (LTime 48060000000) false), [])) /\
  readExpr (fun _ => None) (fun _ => None) (fun _ => None) $"""2001-02-29 00:00:00""_timestamp" = Some (Ok (ELit (Lit LUnset false), [XTimestamp])).
Proof. vm_compute. repeat split; reflexivity. Qed.
Definition ex_zone (n : str) (local : Z) : option Z := if n =s $"UTC" then Some local else if n =s $"US/Central" then Some (local + 6 * 3600000000) else None.
Example C88_zone_case : Zoned ex_zone $"2000-01-01 00:00:00 US/Central" (946706400 * 1000000) /\ timestamp_tz ex_zone $"2000-01-01 00:00:00 US/Central" = Ok (ZValue 946706400) /\ timestamp_tz ex_zone $"2000-01-01 00:00:00 Mars" = Ok ZNoZone /\ timestamp_tz ex_zone $"2000-01-01 00:00:00" = Ok ZFail.
Proof.
  split; [|vm_compute; repeat split; reflexivity]. apply (ZN ex_zone 10957 (Civil 2000 1 1) 0 0 0 _ $"00 US/Central" $" US/Central" $"US/Central" $"US/Central"); [apply stamp_iff; vm_compute; reflexivity|apply micros_iff; vm_compute; reflexivity|apply spaced_iff; vm_compute; reflexivity|
    |apply day_iff; vm_compute; reflexivity|lia|lia|lia|vm_compute; reflexivity].
  exists []. split; [reflexivity|]. split; [discriminate|]. split; [|exact I]. apply Forall_forall. intros c H. apply zone_char. assert (X : forallb is_zone $"US/Central" = true) by reflexivity. rewrite forallb_forall in X. apply X, H.
Qed.

(** * C71: dates, as they are read *)
Lemma date_type : exists tts, TypeText $"date" tts.
Proof. exists (type_tokens $"date" false []). assert (E : $"date" = type_text $"date" false []) by reflexivity. rewrite E at 1. apply type_is; [small_name|discriminate|constructor]. Qed.
Lemma date_literal t find_function find_relation find_field : no_backslash t ->
  readExpr find_function find_relation find_field (printQuoted t ++ $"_date") = Some (bindE (visitDate (printQuoted t)) (fun l => good (ELit l))).
Proof.
  intros H. destruct date_type as (tts & T). change ($"_date") with ($"_" ++ $"date"). rewrite (quoted_reads t _ tts _ _ _ H T). cbn [visitExpr]. unfold visitConstant. cbn [visitConst type_of].
  unfold read_type. replace (textToTypeProto (false || false) $"date") with (Ok (PtScalar SDate NRequired, @nil terr)) by (vm_compute; reflexivity). cbn [obind fst snd map]. unfold bindE at 2. cbn [obind fst snd].
  destruct (visitDate (printQuoted t)) as [[l e]| |]; reflexivity.
Qed.
(** A text that begins with a date of the calendar is read as its day; any other text is reported. *)
Theorem C71_read t find_function find_relation find_field : no_backslash t ->
  (forall c rest day, DateText c t rest -> Day day c -> readExpr find_function find_relation find_field (printQuoted t ++ $"_date") = Some (Ok (ELit (Lit (LDate day) false), []))) /\
  ((forall c rest day, DateText c t rest -> ~ Day day c) -> readExpr find_function find_relation find_field (printQuoted t ++ $"_date") = Some (Ok (ELit (Lit LUnset false), [XDate]))).
Proof.
  intros Ht. rewrite date_literal by exact Ht. unfold visitDate. rewrite evalString_printed by exact Ht. split.
  - intros c rest day D E. replace (parse_date t) with (Some day); [reflexivity|]. symmetry. apply date_value. exists c, rest. auto.
  - intros H. destruct (parse_date t) as [day|] eqn:E; [|reflexivity]. apply date_value in E as (c & r & D & Y). destruct (H c r day D Y).
Qed.
(** Finding: what follows the date is ignored. *)
Theorem C71_rest_refuted t c rest day x find_function find_relation find_field : no_backslash (t ++ x) -> DateText c t rest -> Day day c -> no_digit x ->
  readExpr find_function find_relation find_field (printQuoted (t ++ x) ++ $"_date") = Some (Ok (ELit (Lit (LDate day) false), [])).
Proof.
  intros Ht (a & b & D1 & D2 & D3) D N. apply (proj1 (C71_read (t ++ x) find_function find_relation find_field Ht) c (rest ++ x)); [|exact D]. exists (a ++ x), (b ++ x).
  split; [apply (field_app _ _ _ _ x D1); exact I|]. split; [apply (field_app _ _ _ _ x D2); exact I|]. apply (field_app _ _ _ _ x D3). destruct rest; [exact N|exact I].
Qed.
Print Assumptions C71_read. Print Assumptions C71_rest_refuted.
Example C71_read_case : DateText (Civil 2020 2 29) $"2020-2-29" [] /\ Day 18321 (Civil 2020 2 29) /\ readExpr (fun _ => None) (fun _ => None) (fun _ => None) $"""2020-2-29 or later""_date" = Some (Ok (ELit (Lit (LDate 18321) false), [])) /\
  readExpr (fun _ => None) (fun _ => None) (fun _ => None) $"""2021-02-29""_date" = Some (Ok (ELit (Lit LUnset false), [XDate])).
Proof. split; [apply date_iff; vm_compute; reflexivity|]. split; [apply day_iff; vm_compute; reflexivity|]. vm_compute. split; reflexivity. Qed.
