From Verif Require Import Base BaseFacts StringsModel StringsFacts DecimalModel.
From Coq Require Import Lia ZifyBool ZifyNat ZifyN.
Ltac Zify.zify_post_hook ::= Z.div_mod_to_equations.

(** * Specifications *)

(** The unsigned integer a little-endian byte sequence denotes. *)
Fixpoint le_value (bytes : str) : N :=
  match bytes with [] => 0 | b :: r => code b + 256 * le_value r end.

(** The signed (two's complement) integer of [n] bytes: subtract 256^n in the upper half. *)
Definition twos (bytes : str) : Z :=
  let u := Z.of_N (le_value bytes) in
  let m := (256 ^ Z.of_nat (length bytes))%Z in
  if (2 * u <? m)%Z then u else (u - m)%Z.

(** [s] is the canonical base-10 numeral of [z]. *)
Definition numeral_of (s : str) (z : Z) : Prop :=
  exists ds, canonical ds /\
    ((0 <= z)%Z /\ s = ds /\ Z.of_N (digits_val 0 ds) = z \/
     (z < 0)%Z /\ s = "-"%char :: ds /\ Z.of_N (digits_val 0 ds) = (- z)%Z).

Lemma numeral_of_unique s t z : numeral_of s z -> numeral_of t z -> s = t.
Proof.
  intros (a & Ca & Ha) (b & Cb & Hb).
  destruct Ha as [(? & -> & Va)|(? & -> & Va)], Hb as [(? & -> & Vb)|(? & -> & Vb)]; try lia.
  - apply canonical_unique; auto; lia.
  - f_equal. apply canonical_unique; auto; lia.
Qed.
Lemma numeral_of_inj s y z : numeral_of s y -> numeral_of s z -> y = z.
Proof.
  intros (a & Ca & Ha) (b & Cb & Hb).
  destruct Ha as [(? & -> & Va)|(? & -> & Va)], Hb as [(? & Eb & Vb)|(? & Eb & Vb)].
  - subst b. lia.
  - subst a. destruct Ca as (_ & D & _). discriminate D.
  - subst b. destruct Cb as (_ & D & _). discriminate D.
  - injection Eb as ->. lia.
Qed.
Lemma print_Z_numeral z : numeral_of (print_Z z) z.
Proof.
  destruct z as [|p|p]; (eexists; split; [apply print_N_canonical|]).
  - left. split; [lia|]. split; [reflexivity|]. rewrite print_N_val. lia.
  - left. split; [lia|]. split; [reflexivity|]. rewrite print_N_val. lia.
  - right. split; [lia|]. split; [reflexivity|]. rewrite print_N_val. lia.
Qed.

(** What [SimpleAtoi] accepts. *)
Definition unsigned_text (s : str) (v : N) : Prop :=
  exists a sign ds b, s = a ++ sign ++ ds ++ b /\ Forall ws a /\ Forall ws b /\
    (sign = [] \/ sign = ["+"%char]) /\ Numeral ds /\ digits_val 0 ds = v.

(** * Byte arithmetic *)
Lemma le_value_bound b : (le_value b < 256 ^ N.of_nat (length b))%N.
Proof.
  induction b as [|x b IH]; cbn [le_value length]; [cbv; reflexivity|].
  rewrite Nat2N.inj_succ, N.pow_succ_r'. pose proof (code_lt x). lia.
Qed.
Lemma le_value_app a b : le_value (a ++ b) = (le_value a + 256 ^ N.of_nat (length a) * le_value b)%N.
Proof.
  induction a as [|x a IH]; cbn [le_value app length].
  - change (256 ^ N.of_nat 0)%N with 1%N. lia.
  - rewrite IH, Nat2N.inj_succ, N.pow_succ_r'. lia.
Qed.

Lemma negate_loop_length c b : length (negate_loop c b) = length b.
Proof. revert c. induction b as [|x b IH]; intros c; cbn [negate_loop length]; auto. Qed.

Lemma negate_loop_value b : forall c,
  le_value (negate_loop c b) =
  if c then ((256 ^ N.of_nat (length b) - le_value b) mod 256 ^ N.of_nat (length b))%N
  else (256 ^ N.of_nat (length b) - 1 - le_value b)%N.
Proof.
  induction b as [|x b IH]; intros c; cbn [negate_loop le_value length].
  - destruct c; reflexivity.
  - pose proof (code_lt x) as Hx. pose proof (le_value_bound b) as Hb.
    rewrite IH, Nat2N.inj_succ, N.pow_succ_r'.
    set (P := (256 ^ N.of_nat (length b))%N) in *.
    assert (HP : (0 < P)%N) by (subst P; apply N.neq_0_lt_0, N.pow_nonzero; lia).
    destruct c; cbn [andb].
    + destruct (N.eqb_spec ((255 - code x + 1) mod 256) 0) as [E|E].
      * assert (code x = 0)%N by lia.
        rewrite E, code_of_N by lia. rewrite H.
        destruct (N.eq_dec (le_value b) 0) as [Z0|NZ].
        -- rewrite Z0. rewrite !N.sub_0_r. rewrite N.mod_same by lia.
           replace (256 * P - (0 + 256 * 0))%N with (256 * P)%N by lia. rewrite N.mod_same by lia. lia.
        -- rewrite (N.mod_small (P - le_value b)) by lia. rewrite N.mod_small by lia. lia.
      * assert (code x <> 0)%N by lia.
        rewrite (N.mod_small (255 - code x + 1)) by lia. rewrite code_of_N by lia.
        rewrite N.mod_small by lia. lia.
    + rewrite code_of_N by lia. lia.
Qed.

Lemma negate_length b : length (negate b) = length b.
Proof. apply negate_loop_length. Qed.
Lemma negate_value b :
  le_value (negate b) = ((256 ^ N.of_nat (length b) - le_value b) mod 256 ^ N.of_nat (length b))%N.
Proof. apply negate_loop_value. Qed.

Lemma lor_disjoint v b : (b < 256)%N -> N.lor (N.shiftl v 8) b = (256 * v + b)%N.
Proof.
  intros H. rewrite N.shiftl_mul_pow2. change (2 ^ 8)%N with 256%N.
  rewrite <- N.lxor_lor, <- N.add_nocarry_lxor.
  - lia.
  - apply N.bits_inj_iff. intros n. rewrite N.land_spec, N.bits_0.
    destruct (N.ltb_spec n 8) as [L|L].
    + change 256%N with (2 ^ 8)%N. rewrite N.mul_pow2_bits_low by lia. reflexivity.
    + replace (N.testbit b n) with false; [apply andb_false_r|].
      symmetry. apply N.bits_above_log2.
      destruct (N.eq_dec b 0) as [->|Hb]; [simpl; lia|].
      assert (N.log2 b < 8)%N by (apply N.log2_lt_pow2; [lia|exact H]). lia.
  - apply N.bits_inj_iff. intros n. rewrite N.land_spec, N.bits_0.
    destruct (N.ltb_spec n 8) as [L|L].
    + change 256%N with (2 ^ 8)%N. rewrite N.mul_pow2_bits_low by lia. reflexivity.
    + replace (N.testbit b n) with false; [apply andb_false_r|].
      symmetry. apply N.bits_above_log2.
      destruct (N.eq_dec b 0) as [->|Hb]; [simpl; lia|].
      assert (N.log2 b < 8)%N by (apply N.log2_lt_pow2; [lia|exact H]). lia.
Qed.

Lemma lor_step v b : (b < 256)%N ->
  N.lor (N.shiftl v 8 mod two128) b = ((256 * v + b) mod two128)%N.
Proof.
  intros H.
  assert (E : (N.shiftl v 8 mod two128 = N.shiftl (v mod 2 ^ 120) 8)%N).
  { rewrite !N.shiftl_mul_pow2. change two128 with (2 ^ 120 * 2 ^ 8)%N.
    rewrite N.mul_mod_distr_r by (cbv; discriminate). reflexivity. }
  rewrite E, lor_disjoint by exact H.
  change two128 with (2 ^ 120 * 2 ^ 8)%N. change (2 ^ 8)%N with 256%N.
  set (Q := (2 ^ 120)%N). assert (HQ : (0 < Q)%N) by (cbv; reflexivity). clearbody Q. clear E.
  pose proof (N.div_mod v Q) as D. pose proof (N.mod_lt v Q) as L.
  set (q := (v / Q)%N) in *. set (r := (v mod Q)%N) in *. clearbody q r.
  apply (N.mod_unique _ _ q); nia.
Qed.

Lemma collect_bytes_value b : collect_bytes b = (le_value b mod two128)%N.
Proof.
  unfold collect_bytes. rewrite <- fold_left_rev_right, rev_involutive.
  induction b as [|x b IH]; [reflexivity|].
  cbn [fold_right le_value]. rewrite IH, lor_step by apply code_lt.
  set (m := two128). assert (m <> 0)%N by (cbv; discriminate).
  rewrite <- (N.add_mod_idemp_l (256 * _)), N.mul_mod_idemp_r, N.add_mod_idemp_l by assumption.
  f_equal. lia.
Qed.

(** * The digit loop *)
Lemma digit_loop_ok fuel : forall v, (v < 10 ^ N.of_nat fuel)%N -> fuel <> O ->
  digit_loop fuel v = Some (rev (print_N v)).
Proof.
  induction fuel as [|f IH]; intros v Hv Hf; [congruence|].
  cbn [digit_loop]. destruct (N.leb_spec 10 v) as [Hge|Hlt].
  - rewrite Nat2N.inj_succ, N.pow_succ_r' in Hv.
    destruct f as [|f']; [simpl in Hv; change (10 ^ 0)%N with 1%N in Hv; lia|].
    rewrite IH by (try congruence; lia). cbn [option_map]. f_equal.
    assert (E : print_N v = print_N (v / 10) ++ [ascii_of_N (48 + v mod 10)]).
    { assert (Hm : (v mod 10 < 10)%N) by (apply N.mod_lt; lia).
      apply canonical_unique.
      - apply print_N_canonical.
      - destruct (print_N_ok (v / 10)) as (Pv & Pd & c & r & Pe & Pz). split; [|split].
        + destruct (print_N (v / 10)); discriminate.
        + rewrite forallb_app, Pd. cbn [forallb]. rewrite andb_true_r. apply is_digit_code.
          rewrite digit_char by exact Hm. lia.
        + intros r' Hr. rewrite Pe in Hr. cbn [app] in Hr. injection Hr as -> Hr.
          destruct (Pz eq_refl) as [_ Z0]. lia.
      - rewrite digits_val_app, !print_N_val. cbn [digits_val]. rewrite digit_char by exact Hm. lia. }
    rewrite E, rev_app_distr. reflexivity.
  - f_equal. assert (E : print_N v = [ascii_of_N (48 + v)]).
    { apply canonical_unique.
      - apply print_N_canonical.
      - split; [discriminate|]. split.
        + cbn [forallb]. rewrite andb_true_r. apply is_digit_code. rewrite digit_char; lia.
        + intros r Hr. injection Hr as _ Hr. auto.
      - rewrite print_N_val. cbn [digits_val]. rewrite digit_char; lia. }
    rewrite E. reflexivity.
Qed.

Lemma testbit7 n : (n < 256)%N -> N.testbit n 7 = (128 <=? n)%N.
Proof.
  intros H. rewrite N.testbit_eqb. change (2 ^ 7)%N with 128%N.
  destruct (N.leb_spec 128 n); destruct (N.eqb_spec ((n / 128) mod 2) 1); lia.
Qed.

Lemma le_value_last b : b <> [] ->
  (128 <=? code (last b zero))%N = negb (2 * le_value b <? 256 ^ N.of_nat (length b))%N.
Proof.
  intros Hb. destruct b as [|x b] using rev_ind; [congruence|]. clear IHb Hb.
  rewrite last_last, le_value_app, app_length. cbn [length le_value].
  replace (N.of_nat (length b + 1)) with (N.succ (N.of_nat (length b))) by lia.
  rewrite N.pow_succ_r'.
  pose proof (le_value_bound b) as Bb. pose proof (code_lt x).
  set (P := (256 ^ N.of_nat (length b))%N) in *.
  destruct (N.leb_spec 128 (code x)); destruct (N.ltb_spec (2 * (le_value b + P * (code x + 256 * 0))) (256 * P)); try reflexivity; exfalso; nia.
Qed.

Lemma toBase_eq b p s : b <> [] ->
  toBaseString (mkDecimal b p s) =
  let m := (256 ^ N.of_nat (length b))%N in
  if (2 * le_value b <? m)%N then Some (print_N (le_value b mod two128))
  else Some ("-"%char :: print_N ((m - le_value b) mod two128)).
Proof.
  intros Hb. unfold toBaseString. cbn [d_value]. destruct b as [|x b]; [congruence|].
  set (v := x :: b) in *. clearbody v. cbv zeta.
  rewrite testbit7 by apply code_lt. rewrite le_value_last by exact Hb.
  pose proof (le_value_bound v) as Bv.
  assert (F : forall k, digit_loop 40 (k mod two128) = Some (rev (print_N (k mod two128)))).
  { intros k. apply digit_loop_ok; [|discriminate].
    eapply N.lt_trans; [apply N.mod_lt; cbv; discriminate|]. cbv; reflexivity. }
  rewrite collect_bytes_value.
  destruct (N.ltb_spec (2 * le_value v) (256 ^ N.of_nat (length v))) as [L|L]; cbn [negb].
  - rewrite F, rev_involutive. reflexivity.
  - rewrite F, rev_involutive, negate_value.
    assert (0 < le_value v)%N.
    { assert (0 < 256 ^ N.of_nat (length v))%N by (apply N.neq_0_lt_0, N.pow_nonzero; lia). lia. }
    rewrite (N.mod_small (_ - _) (256 ^ _)) by lia. reflexivity.
Qed.

Lemma pow_le_16 (b : str) : length b <= 16 -> (256 ^ N.of_nat (length b) <= two128)%N.
Proof.
  intros H. change two128 with (256 ^ 16)%N. apply N.pow_le_mono_r; lia.
Qed.
Lemma twos_N b : twos b = let m := (256 ^ N.of_nat (length b))%N in
  if (2 * le_value b <? m)%N then Z.of_N (le_value b) else (Z.of_N (le_value b) - Z.of_N m)%Z.
Proof.
  unfold twos. replace (256 ^ Z.of_nat (length b))%Z with (Z.of_N (256 ^ N.of_nat (length b))%N).
  2:{ rewrite N2Z.inj_pow. f_equal. lia. }
  cbv zeta. set (m := (256 ^ N.of_nat (length b))%N). clearbody m.
  destruct (Z.ltb_spec (2 * Z.of_N (le_value b)) (Z.of_N m)); destruct (N.ltb_spec (2 * le_value b) m); try lia.
Qed.

Lemma toBaseString_numeral d : 1 <= length (d_value d) <= 16 ->
  exists s, toBaseString d = Some s /\ numeral_of s (twos (d_value d)).
Proof.
  destruct d as [b p sc]. cbn [d_value]. intros [H1 H2].
  assert (Hb : b <> []) by (destruct b; [simpl in H1; lia|discriminate]).
  rewrite toBase_eq by exact Hb. rewrite twos_N. cbv zeta.
  pose proof (le_value_bound b) as B. pose proof (pow_le_16 b H2) as P.
  destruct (N.ltb_spec (2 * le_value b) (256 ^ N.of_nat (length b))) as [L|L].
  - rewrite N.mod_small by lia. eexists. split; [reflexivity|].
    exists (print_N (le_value b)). split; [apply print_N_canonical|]. left.
    rewrite print_N_val. split; [lia|]. auto.
  - assert (0 < 256 ^ N.of_nat (length b))%N by (apply N.neq_0_lt_0, N.pow_nonzero; lia).
    rewrite N.mod_small by lia. eexists. split; [reflexivity|].
    exists (print_N (256 ^ N.of_nat (length b) - le_value b)). split; [apply print_N_canonical|]. right.
    rewrite print_N_val. split; [lia|]. split; [reflexivity|]. lia.
Qed.

Lemma toBaseString_empty p s : toBaseString (mkDecimal [] p s) = Some $"0".
Proof. reflexivity. Qed.

Lemma toBaseString_total d : toBaseString d <> None.
Proof.
  destruct d as [b p s]. destruct b as [|x b]; [discriminate|].
  rewrite toBase_eq by discriminate. cbv zeta. destruct (_ <? _)%N; discriminate.
Qed.

(** * Parsing *)
Lemma simpleAtoi_iff s v : simpleAtoi_u128 s = Some v <-> unsigned_text s v /\ (v < two128)%N.
Proof.
  unfold simpleAtoi_u128. split.
  - intros H.
    destruct (trim_trimmed s) as (a & b & E & Ha & Hb & _ & _).
    set (t := trim s) in *. clearbody t.
    set (body := match t with c :: r => if ceq c "+"%char then r else t | [] => t end) in *.
    destruct (isNonNegativeInteger body) eqn:I; [|discriminate].
    cbv zeta in H. destruct (N.ltb_spec (digits_val 0 body) two128); [|discriminate].
    injection H as <-. split; [|assumption].
    apply isNonNegativeInteger_iff in I.
    destruct t as [|c t].
    + apply numeral_iff in I. destruct I. subst body. congruence.
    + destruct (ceq c "+"%char) eqn:C.
      * apply ceq_true in C. subst c body.
        exists a, ["+"%char], t, b. rewrite E. cbn [app]. repeat split; auto.
      * exists a, [], (c :: t), b. rewrite E. cbn [app]. repeat split; auto.
  - intros ((a & sign & ds & b & -> & Ha & Hb & Hs & Hd & Hv) & Hlt).
    assert (T : trim (a ++ sign ++ ds ++ b) = sign ++ ds).
    { apply trimmed_unique. exists a, b. rewrite !app_assoc. split; [reflexivity|].
      apply numeral_iff in Hd as [Hn Hd].
      assert (ND : forall c, is_digit c = true -> ~ ws c).
      { intros c D W. apply is_digit_code in D. unfold ws in W. simpl in W. lia. }
      repeat split; auto.
      - intros c r H. destruct Hs as [-> | ->]; cbn [app] in H.
        + destruct ds; [congruence|]. injection H as -> ->. apply ND.
          cbn [forallb] in Hd. now apply andb_true_iff in Hd.
        + injection H as <- _. apply wsb_false. reflexivity.
      - intros c r H. apply ND. rewrite forallb_forall in Hd. apply Hd.
        destruct ds as [|x ds] using rev_ind; [congruence|].
        rewrite app_assoc in H. apply app_inj_tail in H as [_ ->]. apply in_or_app. right. left. reflexivity. }
    cbv zeta. rewrite T.
    assert (B : match sign ++ ds with c :: r => if ceq c "+"%char then r else sign ++ ds | [] => sign ++ ds end = ds).
    { apply numeral_iff in Hd as [Hn Hd]. destruct Hs as [-> | ->]; cbn [app].
      - destruct ds as [|c r]; [congruence|]. destruct (ceq c "+"%char) eqn:C; [|reflexivity].
        apply ceq_true in C. subst c. discriminate Hd.
      - reflexivity. }
    match goal with |- context[isNonNegativeInteger ?X] => replace X with ds by (symmetry; exact B) end.
    apply isNonNegativeInteger_iff in Hd. rewrite Hd.
    rewrite Hv. destruct (N.ltb_spec v two128); [reflexivity|lia].
Qed.

Lemma le_bytes_length n : forall v, length (le_bytes n v) = n.
Proof. induction n; intros v; cbn [le_bytes length]; auto. Qed.
Lemma le_bytes_value n : forall v, le_value (le_bytes n v) = (v mod 256 ^ N.of_nat n)%N.
Proof.
  induction n as [|n IH]; intros v; cbn [le_bytes le_value].
  - change (256 ^ N.of_nat 0)%N with 1%N. now rewrite N.mod_1_r.
  - rewrite IH, code_of_N by (apply N.mod_lt; lia).
    rewrite Nat2N.inj_succ, N.pow_succ_r'.
    assert (256 ^ N.of_nat n <> 0)%N by (apply N.pow_nonzero; lia).
    rewrite N.mod_mul_r by lia. reflexivity.
Qed.
Lemma uint128ToBytes_length v : length (uint128ToBytes v) = 16.
Proof. unfold uint128ToBytes. rewrite app_length, !le_bytes_length. reflexivity. Qed.
Lemma uint128ToBytes_value v : (v < two128)%N -> le_value (uint128ToBytes v) = v.
Proof.
  intros H. unfold uint128ToBytes. rewrite le_value_app, !le_bytes_value, le_bytes_length.
  change (256 ^ N.of_nat 8)%N with two64.
  rewrite N.mod_mod by (cbv; discriminate).
  rewrite (N.mod_small (v / two64)).
  2:{ apply N.div_lt_upper_bound; [cbv; discriminate|]. exact H. }
  rewrite (N.div_mod v two64) at 3 by (cbv; discriminate). lia.
Qed.

Lemma fromString_valid s p sc v : unsigned_text s v -> (v < two128)%N ->
  isValid (fromString s p sc) = true <-> (1 <= p <= 38)%Z.
Proof.
  intros H L. assert (E : simpleAtoi_u128 s = Some v) by (apply simpleAtoi_iff; auto).
  unfold fromString. rewrite E. unfold isValid. cbn [d_value d_precision].
  rewrite uint128ToBytes_length. lia.
Qed.
Lemma fromString_reject s p sc : (forall v, unsigned_text s v -> (two128 <= v)%N) ->
  isValid (fromString s p sc) = false.
Proof.
  intros H. unfold fromString. destruct (simpleAtoi_u128 s) as [v|] eqn:E; [|reflexivity].
  apply simpleAtoi_iff in E as [T L]. specialize (H v T). lia.
Qed.
Lemma fromString_value s p sc v : unsigned_text s v -> (v < two128)%N ->
  fromString s p sc = mkDecimal (uint128ToBytes v) p sc.
Proof.
  intros H L. assert (E : simpleAtoi_u128 s = Some v) by (apply simpleAtoi_iff; auto).
  unfold fromString. now rewrite E.
Qed.

Lemma two127 : (2 * 2 ^ 127 = two128)%N. Proof. reflexivity. Qed.

Lemma roundtrip_text s p sc v : unsigned_text s v -> (v < 2 ^ 127)%N ->
  toBaseString (fromString s p sc) = Some (print_N v).
Proof.
  intros H L. pose proof two127 as T2. assert (Hl : (v < two128)%N) by lia.
  rewrite (fromString_value s p sc v) by assumption.
  rewrite toBase_eq by (intros C; apply (f_equal (@length _)) in C; rewrite uint128ToBytes_length in C; discriminate).
  cbv zeta. rewrite uint128ToBytes_length, uint128ToBytes_value by assumption.
  change (256 ^ N.of_nat 16)%N with two128.
  destruct (N.ltb_spec (2 * v) two128); [|lia]. now rewrite N.mod_small.
Qed.
Lemma roundtrip_high s p sc v : unsigned_text s v -> (2 ^ 127 <= v < two128)%N ->
  toBaseString (fromString s p sc) = Some ("-"%char :: print_N (two128 - v)).
Proof.
  intros H L. pose proof two127 as T2. assert (Hl : (v < two128)%N) by lia.
  rewrite (fromString_value s p sc v) by assumption.
  rewrite toBase_eq by (intros C; apply (f_equal (@length _)) in C; rewrite uint128ToBytes_length in C; discriminate).
  cbv zeta. rewrite uint128ToBytes_length, uint128ToBytes_value by assumption.
  change (256 ^ N.of_nat 16)%N with two128.
  destruct (N.ltb_spec (2 * v) two128); [lia|]. rewrite N.mod_small by lia. reflexivity.
Qed.
Lemma print_N_text v : unsigned_text (print_N v) v.
Proof.
  exists [], [], (print_N v), []. rewrite app_nil_r. repeat split; auto.
  - apply numeral_iff. split; [apply print_N_nonempty|apply print_N_digits].
  - apply print_N_val.
Qed.
Lemma negative_rejected r p sc : isValid (fromString ("-"%char :: r) p sc) = false.
Proof.
  apply fromString_reject. intros v (a & sign & ds & b & E & Ha & Hb & Hs & Hd & Hv). exfalso.
  destruct a as [|x a].
  - destruct Hs as [-> | ->]; cbn [app] in E; [|discriminate E].
    apply numeral_iff in Hd as [Hn Hd]. destruct ds as [|y ds]; [congruence|].
    cbn [app] in E. injection E as <- _. discriminate Hd.
  - injection E as <- _. inversion Ha as [|? ? W _]; subst. apply wsb_ws in W. discriminate W.
Qed.

(** * Negation and injectivity of the full rendering *)
Lemma le_value_inj a : forall b, length a = length b -> le_value a = le_value b -> a = b.
Proof.
  induction a as [|x a IH]; intros [|y b] L E; try discriminate; auto.
  cbn [le_value] in E. pose proof (code_lt x). pose proof (code_lt y).
  assert (code x = code y) by lia. apply code_inj in H1. subst y.
  f_equal. apply IH; [now injection L|lia].
Qed.
Lemma negate_involutive b : negate (negate b) = b.
Proof.
  apply le_value_inj; [now rewrite !negate_length|].
  rewrite !negate_value, negate_length. pose proof (le_value_bound b).
  set (P := (256 ^ N.of_nat (length b))%N) in *.
  destruct (N.eq_dec (le_value b) 0) as [Z0|NZ].
  - rewrite Z0, N.sub_0_r, N.mod_same by lia. rewrite N.sub_0_r, N.mod_same by lia. reflexivity.
  - rewrite (N.mod_small (P - le_value b)) by lia. rewrite N.mod_small by lia. lia.
Qed.
Lemma negate_twos b : twos b <> (- (256 ^ Z.of_nat (length b)) / 2)%Z \/ b = [] -> twos (negate b) = (- twos b)%Z.
Proof.
  intros H. rewrite !twos_N, negate_value, negate_length. cbv zeta.
  destruct b as [|x b0]; [reflexivity|].
  destruct H as [H|H]; [|discriminate].
  set (b := x :: b0) in *.
  replace (256 ^ Z.of_nat (length b))%Z with (Z.of_N (256 ^ N.of_nat (length b))%N) in H
    by (rewrite N2Z.inj_pow; f_equal; lia).
  rewrite twos_N in H. cbv zeta in H.
  pose proof (le_value_bound b) as B.
  assert (E : exists Q, (256 ^ N.of_nat (length b) = 2 * Q)%N).
  { exists (128 * 256 ^ N.of_nat (length b0))%N. subst b. cbn [length].
    rewrite Nat2N.inj_succ, N.pow_succ_r'. lia. }
  destruct E as [Q EQ].
  set (P := (256 ^ N.of_nat (length b))%N) in *. set (v := le_value b) in *. clearbody P v.
  destruct (N.eq_dec v 0) as [->|NZ].
  - rewrite N.sub_0_r, N.mod_same by lia.
    destruct (N.ltb_spec (2 * 0) P); lia.
  - rewrite (N.mod_small (P - v)) by lia.
    destruct (N.ltb_spec (2 * v) P); destruct (N.ltb_spec (2 * (P - v)) P); lia.
Qed.

Definition num_char (c : ascii) : bool := is_digit c || ceq c "-"%char.
Lemma numeral_num_char s z : numeral_of s z -> forallb num_char s = true.
Proof.
  intros (ds & (_ & D & _) & H).
  assert (D' : forallb num_char ds = true).
  { rewrite forallb_forall in *. intros c Hc. unfold num_char. rewrite D by auto. reflexivity. }
  destruct H as [(_ & -> & _)|(_ & -> & _)]; auto.
Qed.
Lemma split_num a : forall b c d u v,
  forallb num_char a = true -> forallb num_char b = true ->
  num_char c = false -> num_char d = false ->
  a ++ c :: u = b ++ d :: v -> a = b /\ c = d /\ u = v.
Proof.
  induction a as [|x a IH]; intros [|y b] c d u v Ha Hb Hc Hd E; cbn [forallb app] in *.
  - injection E as -> ->. auto.
  - injection E as <- _. rewrite Hc in Hb. discriminate.
  - injection E as -> _. rewrite Hd in Ha. discriminate.
  - apply andb_true_iff in Ha as [_ Ha]. apply andb_true_iff in Hb as [_ Hb].
    injection E as -> E. destruct (IH b c d u v Ha Hb Hc Hd E) as (-> & -> & ->). auto.
Qed.

Lemma print_Z_num z : forallb num_char (print_Z z) = true.
Proof. eapply numeral_num_char. apply print_Z_numeral. Qed.
Lemma print_Z_inj y z : print_Z y = print_Z z -> y = z.
Proof.
  intros H. eapply numeral_of_inj; [apply print_Z_numeral|]. rewrite H. apply print_Z_numeral.
Qed.

(** The rendering, as one shape. *)
Definition exponent (scale : Z) : str :=
  if (0 <? scale)%Z then $"E-" ++ print_Z scale
  else if (scale <? 0)%Z then $"E+" ++ print_Z (- scale) else [].
Lemma toString_shape d s : toString d = Ok s ->
  exists base, toBaseString d = Some base /\ d_scale d <> int32_min /\
    s = base ++ exponent (d_scale d) ++ $"@precision=" ++ print_Z (d_precision d).
Proof.
  unfold toString, exponent. destruct (toBaseString d) as [base|]; [|discriminate].
  destruct (0 <? d_scale d)%Z eqn:P.
  - intros H. injection H as <-. exists base. split; [reflexivity|]. split; [unfold int32_min; lia|].
    now rewrite <- !app_assoc.
  - destruct (d_scale d <? 0)%Z eqn:Q.
    + destruct (Z.eqb_spec (d_scale d) int32_min); [discriminate|].
      intros H. injection H as <-. exists base. split; [reflexivity|]. split; [assumption|].
      now rewrite <- !app_assoc.
    + intros H. injection H as <-. exists base. split; [reflexivity|]. split; [unfold int32_min; lia|]. reflexivity.
Qed.

Lemma base_numeral d s : length (d_value d) <= 16 -> toBaseString d = Some s ->
  numeral_of s (twos (d_value d)).
Proof.
  intros L E. destruct d as [v p sc]. cbn [d_value] in *. destruct v as [|x v].
  - injection E as <-. change (twos []) with 0%Z. apply (print_Z_numeral 0).
  - destruct (toBaseString_numeral (mkDecimal (x :: v) p sc)) as (s' & E' & N'); [cbn [d_value length] in *; lia|].
    rewrite E in E'. injection E' as <-. exact N'.
Qed.

Lemma toString_inj d e s : length (d_value d) <= 16 -> length (d_value e) <= 16 ->
  toString d = Ok s -> toString e = Ok s ->
  twos (d_value d) = twos (d_value e) /\ d_scale d = d_scale e /\ d_precision d = d_precision e.
Proof.
  intros Ld Le Hd He.
  apply toString_shape in Hd as (bd & Bd & _ & Sd).
  apply toString_shape in He as (be & Be & _ & Se).
  pose proof (base_numeral _ _ Ld Bd) as Nd. pose proof (base_numeral _ _ Le Be) as Ne.
  rewrite Sd in Se. clear Sd s Bd Be.
  set (prd := print_Z (d_precision d)) in *. set (pre := print_Z (d_precision e)) in *.
  assert (Shape : forall sc pr, exists c u, exponent sc ++ $"@precision=" ++ pr = c :: u /\ num_char c = false).
  { intros sc pr. unfold exponent. destruct (0 <? sc)%Z; [|destruct (sc <? 0)%Z];
      (eexists; eexists; split; [reflexivity|reflexivity]). }
  assert (Q : bd = be /\ exponent (d_scale d) ++ $"@precision=" ++ prd = exponent (d_scale e) ++ $"@precision=" ++ pre).
  { destruct (Shape (d_scale d) prd) as (c & u & E1 & C1). destruct (Shape (d_scale e) pre) as (c' & u' & E2 & C2).
    rewrite E1, E2 in Se.
    destruct (split_num bd be c c' u u') as (-> & -> & ->); auto.
    - eapply numeral_num_char; eauto.
    - eapply numeral_num_char; eauto.
    - split; [reflexivity|]. now rewrite E1, E2. }
  destruct Q as [-> Q]. split; [eapply numeral_of_inj; eauto|].
  unfold exponent in Q. cbn [lit String.list_ascii_of_string app] in Q.
  assert (Fin : forall a b (x y : str), a ++ "@"%char :: x = b ++ "@"%char :: y ->
    forallb num_char a = true -> forallb num_char b = true -> a = b /\ x = y).
  { intros a b x y E Ha Hb. destruct (split_num a b "@"%char "@"%char x y Ha Hb eq_refl eq_refl E) as (-> & _ & ->). auto. }
  destruct (0 <? d_scale d)%Z eqn:P1; destruct (0 <? d_scale e)%Z eqn:P2;
    [|destruct (d_scale e <? 0)%Z eqn:P3|destruct (d_scale d <? 0)%Z eqn:P3|
     destruct (d_scale d <? 0)%Z eqn:P3; destruct (d_scale e <? 0)%Z eqn:P4];
    cbn [app] in Q; try discriminate Q.
  - injection Q as Q. rewrite <- ?app_assoc in Q. cbn [app] in Q.
    apply Fin in Q as [Q1 Q2]; try apply print_Z_num. injection Q2 as Q2.
    apply print_Z_inj in Q1, Q2. auto.
  - injection Q as Q. rewrite <- ?app_assoc in Q. cbn [app] in Q.
    apply Fin in Q as [Q1 Q2]; try apply print_Z_num. injection Q2 as Q2.
    apply print_Z_inj in Q1, Q2. split; [lia|auto].
  - injection Q as Q. apply print_Z_inj in Q. split; [lia|auto].
Qed.

Lemma toString_ub d : toString d = UB <-> d_scale d = int32_min.
Proof.
  unfold toString. pose proof (toBaseString_total d) as T. destruct (toBaseString d); [|congruence].
  unfold int32_min in *.
  destruct (0 <? d_scale d)%Z eqn:P; [split; [discriminate|lia]|].
  destruct (d_scale d <? 0)%Z eqn:Q; [|split; [discriminate|lia]].
  destruct (Z.eqb_spec (d_scale d) (-2147483648)); split; auto; try discriminate; lia.
Qed.
Lemma toString_no_throw d e : toString d <> Throw e.
Proof.
  unfold toString. destruct (toBaseString d); [|discriminate].
  destruct (0 <? d_scale d)%Z; [discriminate|]. destruct (d_scale d <? 0)%Z; [|discriminate].
  destruct (_ =? _)%Z; discriminate.
Qed.
