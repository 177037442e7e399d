(** Properties C01-C04. *)
From Verif Require Import Base BaseFacts StringsModel StringsFacts DecimalModel DecimalFacts.
From Coq Require Import Lia ZifyN.

(** C01. *)
Theorem C01_base_string d : 1 <= length (d_value d) <= 16 ->
  exists s, toBaseString d = Some s /\ numeral_of s (twos (d_value d)).
Proof. exact (toBaseString_numeral d). Qed.
Print Assumptions C01_base_string.

Theorem C01_numeral_unique s t z : numeral_of s z -> numeral_of t z -> s = t.
Proof. exact (numeral_of_unique s t z). Qed.
Print Assumptions C01_numeral_unique.

Theorem C01_empty p sc : toBaseString (mkDecimal [] p sc) = Some $"0".
Proof. reflexivity. Qed.
Print Assumptions C01_empty.

(** Rendering ends for every value, also oversized ones. *)
Theorem C01_total d : toBaseString d <> None.
Proof. exact (toBaseString_total d). Qed.
Print Assumptions C01_total.

Example C01_ex : toBaseString (mkDecimal [ascii_of_N 0; ascii_of_N 255] 5 0) = Some $"-256" /\
  twos [ascii_of_N 0; ascii_of_N 255] = (-256)%Z.
Proof. split; reflexivity. Qed.
(** The most negative 16-byte value. *)
Example C01_ex_min : toBaseString (mkDecimal (repeat zero 15 ++ [ascii_of_N 128]) 38 0)
  = Some $"-170141183460469231731687303715884105728".
Proof. vm_compute. reflexivity. Qed.

(** Beyond 16 bytes the statement is false: 17 bytes denoting 2^128 print as 0. *)
Theorem C01_oversized_refuted : exists d s, toBaseString d = Some s /\ ~ numeral_of s (twos (d_value d)).
Proof.
  exists (mkDecimal (repeat zero 16 ++ [ascii_of_N 1]) 38 0), $"0". split; [vm_compute; reflexivity|].
  intros H. pose proof (numeral_of_inj _ _ _ H (print_Z_numeral 0)) as E. vm_compute in E. discriminate E.
Qed.
Print Assumptions C01_oversized_refuted.

(** C02. *)
Theorem C02_roundtrip v p sc : (v < 2 ^ 127)%N -> toBaseString (fromString (print_N v) p sc) = Some (print_N v).
Proof. exact (fun H => roundtrip_text (print_N v) p sc v (print_N_text v) H). Qed.
Print Assumptions C02_roundtrip.

Theorem C02_spelling s p sc v : unsigned_text s v -> (v < 2 ^ 127)%N ->
  toBaseString (fromString s p sc) = Some (print_N v).
Proof. exact (roundtrip_text s p sc v). Qed.
Print Assumptions C02_spelling.

Theorem C02_valid s p sc v : unsigned_text s v -> (v < two128)%N ->
  isValid (fromString s p sc) = true <-> (1 <= p <= 38)%Z.
Proof. exact (fromString_valid s p sc v). Qed.
Print Assumptions C02_valid.

Theorem C02_reject s p sc : (forall v, unsigned_text s v -> (two128 <= v)%N) -> isValid (fromString s p sc) = false.
Proof. exact (fromString_reject s p sc). Qed.
Print Assumptions C02_reject.

Example C02_ex : toBaseString (fromString $" +00120 " 5 0) = Some $"120" /\ isValid (fromString $"12x" 5 0) = false.
Proof. split; reflexivity. Qed.

(** Finding: values from 2^127 to 2^128-1 are accepted as valid but print as a negative number. *)
Theorem C02_high_refuted : exists s v, unsigned_text s v /\ (v < two128)%N /\ isValid (fromString s 38 0) = true /\
  toBaseString (fromString s 38 0) <> Some (print_N v).
Proof.
  exists (print_N (2 ^ 127)), (2 ^ 127)%N. split; [apply print_N_text|]. split; [reflexivity|].
  split; [vm_compute; reflexivity|]. rewrite (roundtrip_high _ 38 0 _ (print_N_text _)) by (split; [apply N.le_refl|reflexivity]).
  vm_compute. discriminate.
Qed.
Print Assumptions C02_high_refuted.

Theorem C02_high s p sc v : unsigned_text s v -> (2 ^ 127 <= v < two128)%N ->
  toBaseString (fromString s p sc) = Some ("-"%char :: print_N (two128 - v)).
Proof. exact (roundtrip_high s p sc v). Qed.
Print Assumptions C02_high.

(** Finding: no text starting with a minus sign is accepted, although the README documents negative
    decimal literals; hence no negative decimal printed by the plan printer can be read back. *)
Theorem C02_negative_rejected r p sc : isValid (fromString ("-"%char :: r) p sc) = false.
Proof. exact (negative_rejected r p sc). Qed.
Print Assumptions C02_negative_rejected.

(** C03.  [toProto] and [fromProto] are mutually inverse. *)
Theorem C03_proto_roundtrip p : toProto (fromProto p) = p.
Proof. destruct p; reflexivity. Qed.
Print Assumptions C03_proto_roundtrip.
Theorem C03_literal_roundtrip d : fromProto (toProto d) = d.
Proof. destruct d; reflexivity. Qed.
Print Assumptions C03_literal_roundtrip.
Example C03_ex : toProto (fromProto (mkDecimalProto $"abc" 99 (-5))) = mkDecimalProto $"abc" 99 (-5).
Proof. reflexivity. Qed.

(** C04. *)
Theorem C04_injective d e s : length (d_value d) <= 16 -> length (d_value e) <= 16 ->
  toString d = Ok s -> toString e = Ok s ->
  twos (d_value d) = twos (d_value e) /\ d_scale d = d_scale e /\ d_precision d = d_precision e.
Proof. exact (toString_inj d e s). Qed.
Print Assumptions C04_injective.

Theorem C04_defined d : d_scale d <> int32_min -> exists s, toString d = Ok s.
Proof.
  exact (fun H => match toString d as o return toString d = o -> exists s, o = Ok s with
    | Ok s => fun _ => ex_intro _ s eq_refl
    | Throw e => fun E => False_ind _ (toString_no_throw d e E)
    | UB => fun E => False_ind _ (H (proj1 (toString_ub d) E))
    end eq_refl).
Qed.
Print Assumptions C04_defined.

(** Finding: for the scale -2^31 the negation overflows (undefined behaviour). *)
Theorem C04_total_refuted : exists d, toString d = UB.
Proof. exists (mkDecimal [] 1 int32_min). reflexivity. Qed.
Print Assumptions C04_total_refuted.

Example C04_ex : toString (mkDecimal [ascii_of_N 123] 5 2) = Ok $"123E-2@precision=5" /\
  toString (mkDecimal [ascii_of_N 123] 5 (-4)) = Ok $"123E+4@precision=5".
Proof. split; reflexivity. Qed.
