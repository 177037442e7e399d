(** Theorems about floating point numbers in text plans. *)
From Verif Require Import Base BaseFacts LexModel LexFacts FloatModel FloatFacts TypeModel ExprModel ExprFacts LiteralFacts PropExpr.
From Coq Require Import ZArith QArith Qabs Qpower Lqa Lia.
Local Open Scope Q_scope.

(** * C70: floating point numbers *)
(** The finite numbers of a format, by sign and exact value *)
Inductive Number (f : format) : fl -> Prop :=
| NUM neg d e : Normal d e -> Representable f (scaled 10 d e) -> Number f (FFin neg d e).
Definition magnitude (v : fl) : Q := match v with FFin _ d e => scaled 10 d e | _ => 0 end.
Definition negative (v : fl) : bool := match v with FFin neg _ _ => neg | FInf neg => neg | FNan => false end.

(** The printed text has the sign of the number and denotes the number with six digits that is nearest to it; of two that are as near, the one whose sixth digit is even. *)
Theorem C70_printed f v : Number f v -> exists p, Denotes (fp_text v) (negative v) p /\ SixDigits p /\ (forall p', SixDigits p' -> Qabs (p - magnitude v) <= Qabs (p' - magnitude v)) /\
  (magnitude v == 0 /\ p == 0 \/ SixRound (magnitude v) p).
Proof.
  intros [neg d e HN HR]. cbn [negative magnitude]. destruct (N.eq_dec d 0) as [-> | Hd].
  - exists 0. assert (Z : scaled 10 0 e == 0) by (apply scaled_zero; reflexivity). split; [apply fp_zero|]. split; [exists 0%N, 0%Z; split; reflexivity|]. split; [|left; split; [exact Z|reflexivity]].
    intros p' _. rewrite Z. apply Qabs_nonneg.
  - destruct (fp_denotes neg d e ltac:(lia)) as (p & S & D & Six & _). exists p. split; [exact D|]. split; [exact Six|]. split; [exact (six_nearest _ _ S)|right; exact S].
Qed.
(** A text that denotes a number is read as the nearest number of the format (of two that are as near the one with an even significand), with its sign; from [limit] on it is too
    large, and that is an exception. *)
Theorem C70_read f t neg q : proper f -> Denotes t neg q -> 0 <= q ->
  match stod f t with
  | Ok v => Number f v /\ negative v = neg /\ q < limit f /\ (forall p', Representable f p' -> Qabs (magnitude v - q) <= Qabs (p' - q)) /\ (q == 0 /\ magnitude v == 0 \/ Rounded f q (magnitude v))
  | Throw x => x = EStdOutOfRange /\ limit f <= q
  | UB => False
  end.
Proof.
  intros Hf Ht Hq. destruct (Qlt_le_dec 0 q) as [Hp | Hz].
  - pose proof (read_spec f t neg q Hf Ht Hp) as X. destruct (stod f t) as [v|x|]; [|exact X|exact X]. destruct X as (d & e & -> & HN & R & HR & L). split; [constructor; assumption|].
    split; [reflexivity|]. split; [exact L|]. split; [exact (rounded_nearest f _ _ Hf R)|right; exact R].
  - assert (E : q == 0) by lra. rewrite (read_zero f t neg q Ht E). cbn [magnitude negative]. assert (Z : scaled 10 0 0 == 0) by reflexivity.
    assert (HR : Representable f (scaled 10 0 0)) by (exists 0%N, (e_min f); split; [apply N.neq_0_lt_0, N.pow_nonzero; lia|]; split; [destruct Hf; lia|unfold scaled; change (Qn 0) with 0; ring]).
    split; [constructor; [left; auto|exact HR]|]. split; [reflexivity|]. split; [rewrite E, <- Z; apply below_limit; assumption|]. split; [|left; split; [exact E|exact Z]].
    intros p' _. rewrite Z, E. apply Qabs_nonneg.
Qed.
(** Every number of a format is printed as a text that is read as a number of the format with the same sign. *)
Theorem C70_always_read f v : f = single \/ f = double -> Number f v -> exists w, stod f (fp_text v) = Ok w /\ Number f w /\ negative w = negative v.
Proof.
  intros Hf Hv. assert (P : proper f) by (destruct Hf as [-> | ->]; [apply single_proper|apply double_proper]). destruct (C70_printed f v Hv) as (p & D & _ & _ & S).
  assert (p0 : 0 <= p) by (destruct S as [[_ S] | S]; [rewrite S; discriminate|apply Qlt_le_weak, (six_positive _ _ S)]).
  assert (pl : p < limit f).
  { destruct S as [[Z S] | S].
    - rewrite S. change 0 with (scaled 10 0 0). apply below_limit; [exact P|]. exists 0%N, (e_min f). split; [apply N.neq_0_lt_0, N.pow_nonzero; lia|]. split; [destruct P; lia|unfold scaled; change (Qn 0) with 0; ring].
    - destruct Hv as [neg d e _ HR]. cbn [magnitude] in S. destruct Hf as [-> | ->]; [apply (six_below single 340282 33 _ _ P single_roomy HR S)|apply (six_below double 179769 303 _ _ P double_roomy HR S)]; lia. }
  pose proof (C70_read f _ _ p P D p0) as X. destruct (stod f (fp_text v)) as [w|x|]; [exists w; tauto| |destruct X]. destruct X as [_ X]. exfalso. apply (Qlt_not_le _ _ pl X).
Qed.
(** A number with at most six digits is read back as it is. *)
Theorem C70_exact f neg d e : proper f -> Number f (FFin neg d e) -> (d < 1000000)%N -> stod f (fp_text (FFin neg d e)) = Ok (FFin neg d e).
Proof.
  intros Hf HN Hd. inversion HN as [? ? ? HNo HR]; subst. destruct (N.eq_dec d 0) as [-> | H0].
  - rewrite (read_zero f _ neg 0 (fp_zero neg e) (Qeq_refl 0)). destruct HNo as [[_ ->] | HNo]; [reflexivity|exfalso; apply HNo; reflexivity].
  - destruct (fp_denotes neg d e ltac:(lia)) as (p & S & D & _ & E). specialize (E Hd). pose proof (six_positive _ _ S) as Hp. pose proof (read_spec f _ neg p Hf D Hp) as X.
    destruct (stod f _) as [w|x|]; [| |destruct X].
    + destruct X as (d' & e' & -> & HNo' & R & HR' & _). assert (V : scaled 10 d' e' == scaled 10 d e).
      { pose proof (rounded_nearest f p (scaled 10 d' e') Hf R (scaled 10 d e) HR) as Y. assert (Z : Qabs (scaled 10 d e - p) == 0) by (rewrite E; transitivity (Qabs 0); [apply Qabs_wd; ring|reflexivity]).
        rewrite Z in Y. rewrite E in Y. apply Qabs_Qle_condition in Y. lra. }
      destruct (normal_unique _ _ _ _ HNo' HNo V) as [-> ->]. reflexivity.
    + destruct X as [_ X]. exfalso. rewrite E in X. apply (Qlt_not_le _ _ (below_limit f _ Hf HR) X).
Qed.
(** What is read is printed as the same text again, except for numbers below the normal range of the format. *)
Theorem C70_again f v w : f = single \/ f = double -> Number f v -> magnitude v == 0 \/ 2 ^ (bits f - 1 + e_min f) <= magnitude v -> stod f (fp_text v) = Ok w -> fp_text w = fp_text v.
Proof.
  intros Hf Hv Hn Hw. assert (P : proper f) by (destruct Hf as [-> | ->]; [apply single_proper|apply double_proper]). assert (B : (24 <= bits f)%Z) by (destruct Hf as [-> | ->]; cbn; lia).
  destruct Hv as [neg d e HNo HR]. cbn [magnitude] in Hn. destruct (N.eq_dec d 0) as [-> | Hd].
  - rewrite (read_zero f _ neg 0 (fp_zero neg e) (Qeq_refl 0)) in Hw. injection Hw as <-. destruct HNo as [[_ ->] | HNo]; [reflexivity|exfalso; apply HNo; reflexivity].
  - assert (Hn' : 2 ^ (bits f - 1 + e_min f) <= scaled 10 d e) by (destruct Hn as [Hn | Hn]; [apply scaled_zero in Hn; [congruence|reflexivity]|exact Hn]).
    destruct (fp_denotes neg d e ltac:(lia)) as (p & S & D & _ & _). pose proof (six_positive _ _ S) as Hp. pose proof (read_spec f _ neg p P D Hp) as X. rewrite Hw in X.
    destruct X as (d' & e' & -> & _ & R & _ & _). pose proof (six_again f _ _ _ B P Hn' S R) as S'.
    assert (Hd' : (d' <> 0)%N).
    { intros ->. destruct S' as (r & y & [D1 _] & _). assert (Z : scaled 10 0 e' == 0) by (apply scaled_zero; reflexivity). rewrite Z in D1. unfold scaled in D1. change (Qn 100000) with (100000 # 1) in D1. pose proof (pow10 y). lra. }
    cbn [fp_text]. destruct (N.eqb_spec d 0); [congruence|]. destruct (N.eqb_spec d' 0); [congruence|]. rewrite (six_same d e d' e' p ltac:(lia) ltac:(lia) S S'). reflexivity.
Qed.
(** As a literal in an expression *)
Theorem C70_literal v n find_function find_relation find_field : Number double v -> exists w, stod double (fp_text v) = Ok w /\ Number double w /\ negative w = negative v /\
  snd (printLiteral (Lit (LFp64 v) n)) = 0%nat /\ readExpr find_function find_relation find_field (fst (printLiteral (Lit (LFp64 v) n))) = Some (Ok (ELit (Lit (LFp64 w) n), [])).
Proof.
  intros Hv. destruct (C70_always_read double v (or_intror eq_refl) Hv) as (w & E & Hw & Hs). exists w. split; [exact E|]. split; [exact Hw|]. split; [exact Hs|]. apply C72_round_trip_partial. constructor; [|exact E].
  destruct Hv. exact I.
Qed.
Theorem C70_literal_single v n find_function find_relation find_field : Number single v -> exists w, stod single (fp_text v) = Ok w /\ Number single w /\ negative w = negative v /\
  snd (printLiteral (Lit (LFp32 v) n)) = 0%nat /\ readExpr find_function find_relation find_field (fst (printLiteral (Lit (LFp32 v) n))) = Some (Ok (ELit (Lit (LFp32 w) n), [])).
Proof.
  intros Hv. destruct (C70_always_read single v (or_introl eq_refl) Hv) as (w & E & Hw & Hs). exists w. split; [exact E|]. split; [exact Hw|]. split; [exact Hs|]. apply C72_round_trip_partial. constructor; [|exact E].
  destruct Hv. exact I.
Qed.
Print Assumptions C70_printed. Print Assumptions C70_read. Print Assumptions C70_always_read. Print Assumptions C70_exact. Print Assumptions C70_again. Print Assumptions C70_literal. Print Assumptions C70_literal_single.
(** The single-precision number nearest to 0.1 is printed as 0.1 and read back as it was; a large double. *)
Example C70_case : fp_text (FFin false 100000001490116119384765625 (-27)) = $"0.1" /\ stod single $"0.1" = Ok (FFin false 100000001490116119384765625 (-27)) /\
  Number single (FFin false 100000001490116119384765625 (-27)) /\ fp_text (FFin true 16777217 0) = $"-1.67772e+07" /\ Number double (FFin true 16777217 0).
Proof.
  split; [vm_compute; reflexivity|]. split; [vm_compute; reflexivity|]. split; [|split; [vm_compute; reflexivity|]].
  - constructor; [right; discriminate|]. exists 13421773%N, (-27)%Z. split; [reflexivity|]. split; [cbn; lia|reflexivity].
  - constructor; [right; discriminate|]. exists 16777217%N, 0%Z. split; [reflexivity|]. split; [cbn; lia|reflexivity].
Qed.
(** Finding: only six digits are printed: numbers that differ in the seventh are printed as the same text and read back as one number, without a report. *)
Theorem C70_precision_refuted : exists v w, v <> w /\ Number double v /\ Number double w /\ fp_text v = fp_text w /\ exists u, stod double (fp_text v) = Ok u /\ u <> v /\ u <> w.
Proof.
  exists (FFin false 16777216 0), (FFin false 16777217 0). split; [discriminate|]. split; [constructor; [right; discriminate|exists 16777216%N, 0%Z; split; [reflexivity|]; split; [cbn; lia|reflexivity]]|].
  split; [constructor; [right; discriminate|exists 16777217%N, 0%Z; split; [reflexivity|]; split; [cbn; lia|reflexivity]]|]. split; [vm_compute; reflexivity|].
  exists (FFin false 167772 2). split; [vm_compute; reflexivity|]. split; discriminate.
Qed.
(** Finding: any number with more than six digits whose nearest six-digit number is itself a number of the format is changed. *)
Theorem C70_changed_refuted f neg d e p : proper f -> Number f (FFin neg d e) -> (0 < d)%N -> SixRound (scaled 10 d e) p -> Representable f p -> ~ p == scaled 10 d e ->
  exists w, stod f (fp_text (FFin neg d e)) = Ok w /\ magnitude w == p /\ w <> FFin neg d e.
Proof.
  intros Hf _ Hd S HR Hne. destruct (fp_denotes neg d e Hd) as (p0 & S0 & D & _ & _). pose proof (six_unique _ _ _ S S0) as E. pose proof (six_positive _ _ S0) as Hp.
  pose proof (read_spec f _ neg p0 Hf D Hp) as X. destruct (stod f _) as [w|x|]; [| |destruct X].
  - destruct X as (d' & e' & -> & _ & R & _ & _). exists (FFin neg d' e'). split; [reflexivity|]. assert (V : scaled 10 d' e' == p).
    { pose proof (rounded_nearest f p0 (scaled 10 d' e') Hf R p HR) as Y. assert (Z : Qabs (p - p0) == 0) by (rewrite E; transitivity (Qabs 0); [apply Qabs_wd; ring|reflexivity]).
      rewrite Z in Y. apply Qabs_Qle_condition in Y. rewrite E. lra. }
    split; [exact V|]. intros F. injection F as -> ->. apply Hne. symmetry. exact V.
  - destruct X as [_ X]. exfalso. rewrite <- E in X. apply (Qlt_not_le _ _ (below_limit f _ Hf HR) X).
Qed.
(** Finding: infinities and NaN are printed as words, without a report; -inf and nullable ones are syntax errors, the others are read as names of columns. *)
Theorem C70_infinite_refuted find_function find_relation : 
  (forall v, v = FInf false \/ v = FInf true \/ v = FNan -> snd (printLiteral (Lit (LFp64 v) false)) = 0%nat /\ readExpr find_function find_relation (fun _ => None) (fst (printLiteral (Lit (LFp64 v) true))) = None /\
     forall l errs, readExpr find_function find_relation (fun _ => None) (fst (printLiteral (Lit (LFp64 v) false))) <> Some (Ok (ELit l, errs))) /\
  readExpr find_function find_relation (fun _ => None) (fst (printLiteral (Lit (LFp64 (FInf true)) false))) = None /\
  readExpr find_function find_relation (fun _ => None) (fst (printLiteral (Lit (LFp64 (FInf false)) false))) = Some (Ok (EUnset, [XNoField $"inf_fp64"])) /\
  readExpr find_function find_relation (fun _ => None) (fst (printLiteral (Lit (LFp64 FNan) false))) = Some (Ok (EUnset, [XNoField $"nan_fp64"])).
Proof.
  split; [|repeat split; vm_compute; reflexivity]. intros v [-> | [-> | ->]]; (split; [reflexivity|]; split; [vm_compute; reflexivity|]; intros l errs H; vm_compute in H; discriminate H).
Qed.
(** Finding: below the normal range the text can change with a trip (where the library reads such numbers at all, see [stod]): the double that is printed as 1e-318 is read as one that is printed as 9.99999e-319. *)
Theorem C70_subnormal_refuted : exists v w, Number double v /\ stod double (fp_text v) = Ok w /\ fp_text v = $"1e-318" /\ fp_text w = $"9.99999e-319".
Proof.
  destruct (binary_spec false 202403 (-1074)) as (d & e & E & HN & V). destruct (binary_spec false 202402 (-1074)) as (d' & e' & E' & _ & _).
  exists (binary false 202403 (-1074)), (binary false 202402 (-1074)). split; [|split; [vm_compute; reflexivity|split; vm_compute; reflexivity]].
  rewrite E. constructor; [exact HN|]. exists 202403%N, (-1074)%Z. split; [reflexivity|]. split; [cbn; lia|exact V].
Qed.
Print Assumptions C70_precision_refuted. Print Assumptions C70_changed_refuted. Print Assumptions C70_infinite_refuted. Print Assumptions C70_subnormal_refuted.
Example C70_changed_case : SixRound (scaled 10 16777217 0) (scaled 10 167772 2) /\ Representable double (scaled 10 167772 2) /\ ~ scaled 10 167772 2 == scaled 10 16777217 0.
Proof.
  split; [exists 167772%N, 2%Z; split; [split; [vm_compute; discriminate|reflexivity]|]; split; [reflexivity|split; [vm_compute; discriminate|vm_compute; discriminate]]|].
  split; [exists 16777200%N, 0%Z; split; [reflexivity|]; split; [cbn; lia|reflexivity]|vm_compute; discriminate].
Qed.
