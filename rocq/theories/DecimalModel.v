(** Model of src/substrait/expression/DecimalLiteral.cpp. *)
From Verif Require Import Base StringsModel.

Definition two128 : N := 340282366920938463463374607431768211456. (* 2^128 *)
Definition two64 : N := 18446744073709551616.                      (* 2^64 *)

(** DecimalLiteral.h 46-54: value_, precision_, scale_ (the last two are int32_t). *)
Record decimal := mkDecimal { d_value : str; d_precision : Z; d_scale : Z }.

(** Expression_Literal_Decimal protobuf message: value, precision, scale. *)
Record decimal_proto := mkDecimalProto { dp_value : str; dp_precision : Z; dp_scale : Z }.

(** DecimalLiteral.cpp 16-29 negate: the loop body; [carry] is [carryover]. *)
Fixpoint negate_loop (carry : bool) (bytes : str) : str :=
  match bytes with
  | [] => []
  | b :: r =>
      let newB := (255 - code b)%N in                              (* ~(uint8_t)b *)
      let newB := if carry then ((newB + 1) mod 256)%N else newB in (* newB++ on uint8_t *)
      ascii_of_N newB :: negate_loop (carry && (newB =? 0)%N) r
  end.
Definition negate (value : str) : str := negate_loop true value.

(** Bytes of an unsigned integer in memory order on a little-endian machine (the only
    kind the code works on: it memcpy's the integer). *)
Fixpoint le_bytes (n : nat) (v : N) : str :=
  match n with
  | O => []
  | S n' => ascii_of_N (v mod 256) :: le_bytes n' (v / 256)
  end.

(** DecimalLiteral.cpp 31-39 uint128ToBytes: low 64 bits then high 64 bits. *)
Definition uint128ToBytes (value : N) : str :=
  le_bytes 8 (value mod two64) ++ le_bytes 8 (value / two64).

(** [absl::SimpleAtoi] into a uint128 (external; modelled from its contract): surrounding ASCII whitespace is
    ignored, one '+' is allowed, '-' is not allowed for an unsigned result, then
    one or more decimal digits and nothing else; false when the value does not fit. *)
Definition simpleAtoi_u128 (s : str) : option N :=
  let t := trim s in
  let body := match t with c :: r => if ceq c "+"%char then r else t | [] => t end in
  if isNonNegativeInteger body
  then let v := digits_val 0 body in if (v <? two128)%N then Some v else None
  else None.

(** DecimalLiteral.cpp 43-46. *)
Definition fromProto (p : decimal_proto) : decimal :=
  mkDecimal (dp_value p) (dp_precision p) (dp_scale p).

(** DecimalLiteral.cpp 48-60. *)
Definition fromString (s : str) (precision scale : Z) : decimal :=
  match simpleAtoi_u128 s with
  | None => mkDecimal [] 0 0
  | Some v => mkDecimal (uint128ToBytes v) precision scale
  end.

(** DecimalLiteral.cpp 62-64. *)
Definition isValid (d : decimal) : bool :=
  (length (d_value d) =? 16) && (1 <=? d_precision d)%Z && (d_precision d <=? 38)%Z.

(** DecimalLiteral.cpp 82-86: the byte loop runs from the last byte to the first;
    absl::uint128 shifts drop bits beyond 2^128. *)
Definition collect_bytes (bytes : str) : N :=
  fold_left (fun v b => N.lor (N.shiftl v 8 mod two128) (code b)) (rev bytes) 0%N.

(** DecimalLiteral.cpp 88-94: digits are produced least significant first. *)
Fixpoint digit_loop (fuel : nat) (value : N) : option str :=
  match fuel with
  | O => None
  | S f => if (10 <=? value)%N
           then option_map (cons (ascii_of_N (48 + value mod 10))) (digit_loop f (value / 10))
           else Some [ascii_of_N (48 + value)]
  end.

(** DecimalLiteral.cpp 66-103.  40 iterations always suffice (proved); None is the out-of-fuel value. *)
Definition toBaseString (d : decimal) : option str :=
  match d_value d with
  | [] => Some ["0"%char]
  | v =>
      let isNegative := N.testbit (code (last v zero)) 7 in
      let processing := if isNegative then negate v else v in
      match digit_loop 40 (collect_bytes processing) with
      | None => None
      | Some ds => Some ((if isNegative then ["-"%char] else []) ++ rev ds)
      end
  end.

Definition int32_min : Z := -2147483648.

(** DecimalLiteral.cpp 105-118; [-scale_] overflows a signed int for the minimum value. *)
Definition toString (d : decimal) : outcome str :=
  match toBaseString d with
  | None => UB
  | Some base =>
      if (0 <? d_scale d)%Z then
        Ok (base ++ $"E-" ++ print_Z (d_scale d) ++ $"@precision=" ++ print_Z (d_precision d))
      else if (d_scale d <? 0)%Z then
        if (d_scale d =? int32_min)%Z then UB
        else Ok (base ++ $"E+" ++ print_Z (- d_scale d) ++ $"@precision=" ++ print_Z (d_precision d))
      else Ok (base ++ $"@precision=" ++ print_Z (d_precision d))
  end.

(** DecimalLiteral.cpp 120-126. *)
Definition toProto (d : decimal) : decimal_proto :=
  mkDecimalProto (d_value d) (d_precision d) (d_scale d).
