(** Model of include/substrait/type/Type.h, src/substrait/type/Type.cpp, and of the type parts of
    SubstraitPlanTypeVisitor.cpp and PlanPrinterVisitor.cpp. *)
From Verif Require Import Base StringsModel.

(** Type.h 14-39: the sixteen kinds without parameters ... *)
Inductive skind :=
| SBool | SI8 | SI16 | SI32 | SI64 | SFp32 | SFp64 | SString | SBinary | STimestamp
| SDate | STime | SIntervalYear | SIntervalDay | STimestampTz | SUuid.
(** ... and all of them. *)
Inductive kind :=
| KNotSet | KScalar (k : skind) | KFixedChar | KVarchar | KFixedBinary | KDecimal | KStruct | KList | KMap.

Definition skind_eq_dec (a b : skind) : {a = b} + {a <> b}.
Proof. decide equality. Defined.
Definition skind_eqb (a b : skind) : bool := if skind_eq_dec a b then true else false.
Definition kind_eqb (a b : kind) : bool :=
  match a, b with
  | KScalar x, KScalar y => skind_eqb x y
  | KNotSet, KNotSet | KFixedChar, KFixedChar | KVarchar, KVarchar | KFixedBinary, KFixedBinary
  | KDecimal, KDecimal | KStruct, KStruct | KList, KList | KMap, KMap => true
  | _, _ => false
  end.

(** Type.h 43-179 TypeTraits::kSignature. *)
Definition scalar_signature (k : skind) : str :=
  match k with
  | SBool => $"bool" | SI8 => $"i8" | SI16 => $"i16" | SI32 => $"i32" | SI64 => $"i64"
  | SFp32 => $"fp32" | SFp64 => $"fp64" | SString => $"str" | SBinary => $"vbin" | STimestamp => $"ts"
  | SDate => $"date" | STime => $"time" | SIntervalYear => $"iyear" | SIntervalDay => $"iday"
  | STimestampTz => $"tstz" | SUuid => $"uuid"
  end.
(** Type.h 43-179 TypeTraits::kTypeString. *)
Definition scalar_typestring (k : skind) : str :=
  match k with
  | SBool => $"boolean" | SI8 => $"i8" | SI16 => $"i16" | SI32 => $"i32" | SI64 => $"i64"
  | SFp32 => $"fp32" | SFp64 => $"fp64" | SString => $"string" | SBinary => $"binary" | STimestamp => $"timestamp"
  | SDate => $"date" | STime => $"time" | SIntervalYear => $"interval_year" | SIntervalDay => $"interval_day"
  | STimestampTz => $"timestamp_tz" | SUuid => $"uuid"
  end.

(** Objects of the class hierarchy Type.h 180-700; [TNull] is a null shared_ptr.
    The payloads of TStrLit are value_, wildcard_, placeholder_ (its nullable_ is always false).
    The parameters of P* length/decimal types are shared_ptr<StringLiteral>: TStrLit or TNull. *)
Inductive ty :=
| TNull
| TScalar (k : skind) (n : bool)
| TDecimal (p s : Z) (n : bool)
| TFixedBinary (len : Z) (n : bool)
| TFixedChar (len : Z) (n : bool)
| TVarchar (len : Z) (n : bool)
| TList (e : ty) (n : bool)
| TStruct (l : list ty) (n : bool)
| TMap (k v : ty) (n : bool)
| TStrLit (value : str) (wildcard placeholder : bool)
| PDecimal (p s : ty) (n : bool)
| PFixedBinary (len : ty) (n : bool)
| PFixedChar (len : ty) (n : bool)
| PVarchar (len : ty) (n : bool)
| PList (e : ty) (n : bool)
| PStruct (l : list ty) (n : bool)
| PMap (k v : ty) (n : bool).

(** kind(): Type.h 247, 425, 471, 500, 530, 560, 585, 615, 645; not called on null. *)
Definition kind_of (t : ty) : kind :=
  match t with
  | TNull => KNotSet
  | TScalar k _ => KScalar k
  | TDecimal _ _ _ | PDecimal _ _ _ => KDecimal
  | TFixedBinary _ _ | PFixedBinary _ _ => KFixedBinary
  | TFixedChar _ _ | PFixedChar _ _ => KFixedChar
  | TVarchar _ _ | PVarchar _ _ => KVarchar
  | TList _ _ | PList _ _ => KList
  | TStruct _ _ | PStruct _ _ => KStruct
  | TMap _ _ _ | PMap _ _ _ => KMap
  | TStrLit _ _ _ => KNotSet
  end.
(** nullable(): Type.h 200-202. *)
Definition nullable_of (t : ty) : bool :=
  match t with
  | TNull | TStrLit _ _ _ => false
  | TScalar _ n | TDecimal _ _ n | TFixedBinary _ n | TFixedChar _ n | TVarchar _ n | TList _ n | TStruct _ n
  | TMap _ _ n | PDecimal _ _ n | PFixedBinary _ n | PFixedChar _ n | PVarchar _ n | PList _ n | PStruct _ n
  | PMap _ _ n => n
  end.
(** Type.h 204-207 nullMatch, on the two flags. *)
Definition nullMatch (own other : bool) : bool := own || Bool.eqb own other.

(** dynamic_pointer_cast<const Type> and dynamic_pointer_cast<const StringLiteral>. *)
Definition cast_type (t : ty) : ty :=
  match t with
  | TScalar _ _ | TDecimal _ _ _ | TFixedBinary _ _ | TFixedChar _ _ | TVarchar _ _
  | TList _ _ | TStruct _ _ | TMap _ _ _ => t
  | _ => TNull
  end.
Definition cast_strlit (t : ty) : ty := match t with TStrLit _ _ _ => t | _ => TNull end.

(** [std::stoi] (external, from its contract): skips white space, takes an optional sign and as many digits as
    there are, ignores the rest; throws when there is no digit or the value does not fit an int. *)
Fixpoint take_digits (s : str) : str :=
  match s with c :: r => if is_digit c then c :: take_digits r else [] | [] => [] end.
Definition stoi (s : str) : outcome Z :=
  let t := ltrim s in
  let '(neg, r) := match t with
    | c :: r => if ceq c "-"%char then (true, r) else if ceq c "+"%char then (false, r) else (false, t)
    | [] => (false, []) end in
  match take_digits r with
  | [] => Throw EStdInvalid
  | ds => let z := Z.of_N (digits_val 0 ds) in let z := if neg then (- z)%Z else z in
          if (-2147483648 <=? z)%Z && (z <=? 2147483647)%Z then Ok z else Throw EStdOutOfRange
  end.

(** Type.cpp 17-30 findNextComma; the position is relative to [start]. *)
Fixpoint findNextComma (cnt : Z) (s : str) : option nat :=
  match s with
  | [] => None
  | c :: r =>
      if ceq c "<"%char then option_map S (findNextComma (cnt + 1) r)
      else if ceq c ">"%char then option_map S (findNextComma (cnt - 1) r)
      else if (cnt =? 0)%Z && ceq c ","%char then Some 0
      else option_map S (findNextComma cnt r)
  end.

(** Type.cpp 263-271: the loop that cuts the text after the left angle bracket at every comma found
    by findNextComma, written as one pass: the first piece and the following ones
    (the depth counter is 0 whenever a comma is found, so restarting it changes nothing; [split_tokens_loop]
    in TypeFacts.v shows that this is that loop). *)
Fixpoint split_tokens (cnt : Z) (s : str) : str * list str :=
  match s with
  | [] => ([], [])
  | c :: r =>
      if ceq c "<"%char then let '(t, ts) := split_tokens (cnt + 1) r in (c :: t, ts)
      else if ceq c ">"%char then let '(t, ts) := split_tokens (cnt - 1) r in (c :: t, ts)
      else if (cnt =? 0)%Z && ceq c ","%char then let '(t, ts) := split_tokens 0 r in ([], t :: ts)
      else let '(t, ts) := split_tokens cnt r in (c :: t, ts)
  end.

(** [s.rfind(c)] / [s.find_last_of(c)]. *)
Fixpoint rfind_char (c : ascii) (s : str) : option nat :=
  match s with
  | [] => None
  | d :: r => match rfind_char c r with
              | Some i => Some (S i)
              | None => if ceq c d then Some 0 else None
              end
  end.
(** [s.find(c)]. *)
Fixpoint find_first (c : ascii) (s : str) : option nat :=
  match s with
  | [] => None
  | d :: r => if ceq c d then Some 0 else option_map S (find_first c r)
  end.

(** Type.cpp 272 [rawType.substr(prevPos, rightAngleBracketPos - prevPos)] on the text [last] from prevPos on:
    if the last right angle bracket lies before prevPos or does not exist the subtraction wraps and the
    whole remainder is taken. *)
Definition cut_last (last : str) : str :=
  match rfind_char ">"%char last with Some j => firstn j last | None => last end.
Fixpoint tokens_of (t : str) (ts : list str) : list str :=
  match ts with [] => [cut_last t] | u :: us => t :: tokens_of u us end.

(** The message of SUBSTRAIT_UNSUPPORTED("Unsupported type: " + rawType) is used as a format string
    (Exceptions.h 101-109): an unpaired brace or a replacement field makes fmt::vformat throw. *)
Fixpoint fmt_ok (s : str) : bool :=
  match s with
  | [] => true
  | c :: r =>
      if ceq c "{"%char then match r with d :: r' => ceq d "{"%char && fmt_ok r' | [] => false end
      else if ceq c "}"%char then match r with d :: r' => ceq d "}"%char && fmt_ok r' | [] => false end
      else fmt_ok r
  end.

(** Type.cpp 206-245: the comparisons against the scalar type names, in order. *)
Definition scalar_of (base : str) : option skind :=
  if (base =s $"boolean") || (base =s $"bool") then Some SBool
  else if base =s $"i8" then Some SI8
  else if base =s $"i16" then Some SI16
  else if base =s $"i32" then Some SI32
  else if base =s $"i64" then Some SI64
  else if base =s $"fp32" then Some SFp32
  else if base =s $"fp64" then Some SFp64
  else if (base =s $"string") || (base =s $"str") then Some SString
  else if base =s $"binary" then Some SBinary
  else if base =s $"uuid" then Some SUuid
  else if base =s $"interval_year" then Some SIntervalYear
  else if base =s $"interval_day" then Some SIntervalDay
  else if base =s $"timestamp" then Some STimestamp
  else if base =s $"timestamp_tz" then Some STimestampTz
  else if base =s $"date" then Some SDate
  else if base =s $"time" then Some STime
  else None.

(** Type.cpp 130-148 decodeLengthBaseType; [P] and [T] are the two constructors. *)
Definition decodeLength (P : ty -> bool -> ty) (T : Z -> bool -> ty) (m nullable : bool) (nested : list ty) : outcome ty :=
  match nested with
  | [] => UB
  | p0 :: _ =>
      let len := cast_strlit p0 in
      if m then Ok (P len nullable)
      else match len with
           | TStrLit v _ _ => if isNonNegativeInteger v then z <- stoi v ;; Ok (T z nullable) else Throw EInvalidState
           | _ => UB
           end
  end.

(** Type.cpp 47-183 and 275-298: construction from the base name and the decoded parameters.
    [m] is isParameterized. *)
Definition build (m nullable : bool) (raw base : str) (nested : list ty) : outcome ty :=
  if base =s $"list" then
    match nested with
    | [] => UB
    | p0 :: _ => if m then Ok (PList p0 nullable) else Ok (TList (cast_type p0) nullable)
    end
  else if base =s $"map" then
    if m then
      match nested with
      | p0 :: p1 :: _ => Ok (PMap p0 p1 nullable)
      | [p0] => Ok (PMap p0 TNull nullable)
      | [] => Ok (PMap TNull TNull nullable)
      end
    else
      match nested with
      | p0 :: p1 :: _ => Ok (TMap (cast_type p0) (cast_type p1) nullable)
      | _ => UB
      end
  else if base =s $"struct" then
    if m then Ok (PStruct nested nullable) else Ok (TStruct (map cast_type nested) nullable)
  else if base =s $"decimal" then
    match nested with
    | [p0; p1] =>
        let p := cast_strlit p0 in let s := cast_strlit p1 in
        if m then Ok (PDecimal p s nullable)
        else match p with
             | TStrLit pv _ _ =>
                 if isNonNegativeInteger pv then
                   match s with
                   | TStrLit sv _ _ =>
                       if isNonNegativeInteger sv
                       then zs <- stoi sv ;; zp <- stoi pv ;; Ok (TDecimal zp zs nullable)
                       else Throw EInvalidState
                   | _ => UB
                   end
                 else Throw EInvalidState
             | _ => UB
             end
    | _ => Throw EInvalidState
    end
  else if base =s $"varchar" then decodeLength PVarchar TVarchar m nullable nested
  else if base =s $"fixedchar" then decodeLength PFixedChar TFixedChar m nullable nested
  else if base =s $"fixedbinary" then decodeLength PFixedBinary TFixedBinary m nullable nested
  else Throw (if fmt_ok raw then EUnsupported else EFmt).

(** Type.cpp 185-299 ParameterizedType::decode. *)
Fixpoint decode_fuel (fuel : nat) (m : bool) (value : str) : outcome ty :=
  match fuel with
  | O => Throw EFuel
  | S f =>
    let raw := trim value in
    let matching := to_lower raw in
    let qpos := rfind_char "?"%char matching in
    match find_first "<"%char matching with
    | None =>
        let nullable := match matching with [] => false | _ => ceq (last matching zero) "?"%char end in
        let base := if nullable then match qpos with Some q => substr 0 q matching | None => matching end else matching in
        match scalar_of base with
        | Some k => Ok (TScalar k nullable)
        | None => let wildcard := (substr 0 3 base =s $"any") in
                  Ok (TStrLit raw wildcard (negb wildcard && negb (isInteger raw)))
        end
    | Some l =>
        let nullable := (1 <? l) && ceq (nth (l - 1) matching zero) "?"%char in
        let basePos := if nullable then match qpos with Some q => Nat.min l q | None => l end else l in
        let base := substr 0 basePos matching in
        let '(t, ts) := split_tokens 0 (substr_from (l + 1) raw) in
        nested <- omap (decode_fuel f m) (tokens_of t ts) ;;
        build m nullable raw base nested
    end
  end.
Definition decode (m : bool) (value : str) : outcome ty := decode_fuel (S (length value)) m value.

(** signature(): Type.cpp 301-307, 318-323, 334-339, 349-354, 364-369, 379-392, 411-420, 430-435, 448-453,
    464-469, 480-485, 496-501, 512-525, 544-556, Type.h 241-243, 419-421; UB = null pointer dereferenced. *)
Fixpoint signature (t : ty) : outcome str :=
  let joined := (fix joined (l : list ty) : outcome str :=
    match l with
    | [] => Ok []
    | [x] => signature x
    | x :: r => a <- signature x ;; b <- joined r ;; Ok (a ++ $"," ++ b)
    end) in
  let len_value := (fun l : ty => match l with TStrLit v _ _ => Ok v | _ => UB end) in
  let opt := (fun t : ty => match t with TNull => Ok [] | _ => signature t end) in
  match t with
  | TNull => UB
  | TScalar k _ => Ok (scalar_signature k)
  | TDecimal p s _ => Ok ($"dec<" ++ print_Z p ++ $"," ++ print_Z s ++ $">")
  | TFixedBinary n _ => Ok ($"fbin<" ++ print_Z n ++ $">")
  | TFixedChar n _ => Ok ($"fchar<" ++ print_Z n ++ $">")
  | TVarchar n _ => Ok ($"vchar<" ++ print_Z n ++ $">")
  | TList e _ | PList e _ => a <- signature e ;; Ok ($"list<" ++ a ++ $">")
  | TStruct l _ | PStruct l _ => a <- joined l ;; Ok ($"struct<" ++ a ++ $">")
  | TMap k v _ => a <- signature k ;; b <- signature v ;; Ok ($"map<" ++ a ++ $"," ++ b ++ $">")
  | TStrLit v _ _ => Ok v
  | PDecimal p s _ => a <- len_value p ;; b <- len_value s ;; Ok ($"dec<" ++ a ++ $"," ++ b ++ $">")
  | PFixedBinary n _ => a <- len_value n ;; Ok ($"fbin<" ++ a ++ $">")
  | PFixedChar n _ => a <- len_value n ;; Ok ($"fchar<" ++ a ++ $">")
  | PVarchar n _ => a <- len_value n ;; Ok ($"vchar<" ++ a ++ $">")
  | PMap k v _ => a <- opt k ;; b <- opt v ;; Ok ($"map<" ++ a ++ $"," ++ b ++ $">")
  end.

(** isMatch(): Type.h 251-254, Type.cpp 308-316, 325-332, 341-347, 356-362, 371-377, 394-409, 422-428, 437-446, 455-462,
    471-478, 487-494, 503-510, 527-542, 558-566, 666-677.  [d] is the declared type, [a] the actual one.
    In the concrete compound types the call TypeBase::isMatch reduces to nullMatch, the kinds being equal. *)
Fixpoint isMatch (d a : ty) : outcome bool :=
  let all2 := (fix all2 (l l' : list ty) : outcome bool :=
    match l, l' with
    | x :: r, y :: r' => b <- isMatch x y ;; if b then all2 r r' else Ok false
    | _, _ => Ok true
    end) in
  match d with
  | TNull => UB
  | TScalar k n =>
      match a with TNull => UB | _ => Ok (kind_eqb (KScalar k) (kind_of a) && nullMatch n (nullable_of a)) end
  | TDecimal p s n =>
      match a with TDecimal p' s' n' => Ok (nullMatch n n' && (p =? p')%Z && (s =? s')%Z) | _ => Ok false end
  | TFixedBinary l n => match a with TFixedBinary l' n' => Ok (nullMatch n n' && (l =? l')%Z) | _ => Ok false end
  | TFixedChar l n => match a with TFixedChar l' n' => Ok (nullMatch n n' && (l =? l')%Z) | _ => Ok false end
  | TVarchar l n => match a with TVarchar l' n' => Ok (nullMatch n n' && (l =? l')%Z) | _ => Ok false end
  | TList e n => match a with TList e' n' => if nullMatch n n' then isMatch e e' else Ok false | _ => Ok false end
  | TStruct l n =>
      match a with TStruct l' _ => if length l' =? length l then all2 l l' else Ok false | _ => Ok false end
  | TMap k v n =>
      match a with
      | TMap k' v' n' => if nullMatch n n' then b <- isMatch k k' ;; if b then isMatch v v' else Ok false else Ok false
      | _ => Ok false
      end
  | TStrLit v w _ => if w then Ok true else match a with TStrLit v' _ _ => Ok (v =s v') | _ => Ok false end
  | PFixedBinary l n =>
      match a with
      | PFixedBinary l' n' => b <- isMatch l l' ;; if b then Ok (nullMatch n n') else Ok false
      | _ => Ok false
      end
  | PDecimal _ _ n => match a with TDecimal _ _ n' => Ok (nullMatch n n') | _ => Ok false end
  | PFixedChar _ n => match a with TFixedChar _ n' => Ok (nullMatch n n') | _ => Ok false end
  | PVarchar _ n => match a with TVarchar _ n' => Ok (nullMatch n n') | _ => Ok false end
  | PList e n => match a with TList e' n' => b <- isMatch e e' ;; if b then Ok (nullMatch n n') else Ok false | _ => Ok false end
  | PStruct l n =>
      match a with
      | TStruct l' n' => if length l' =? length l then b <- all2 l l' ;; if b then Ok (nullMatch n n') else Ok false else Ok false
      | _ => Ok false
      end
  | PMap k v n =>
      match a with
      | TMap k' v' n' => b <- isMatch k k' ;; if b then c <- isMatch v v' ;; if c then Ok (nullMatch n n') else Ok false else Ok false
      | _ => Ok false
      end
  end.

(** * The protobuf Type message (substrait/type.proto), as far as the two visitors below use it. *)
Inductive pnull := NUnspecified | NNullable | NRequired.
Inductive ptype :=
| PtNone
| PtScalar (k : skind) (n : pnull)
| PtFixedChar (len : Z) (n : pnull)
| PtVarchar (len : Z) (n : pnull)
| PtFixedBinary (len : Z) (n : pnull)
| PtDecimal (p s : Z) (n : pnull)
| PtStruct (l : list ptype) (n : pnull)
| PtList (e : ptype) (n : pnull)
| PtMap (k v : ptype) (n : pnull)
| PtUserDefined (ref : Z).

(** PlanPrinterVisitor.cpp 452-563 visitType: the text and the number of errors reported. *)
Definition qmark (n : pnull) : str := match n with NNullable => $"?" | _ => [] end.
Definition printType (t : ptype) : str * nat :=
  match t with
  | PtNone => ($"MISSING_TYPE", 1)
  | PtScalar SBool n => ($"bool" ++ qmark n, 0)
  | PtScalar SI8 n => ($"i8" ++ qmark n, 0)
  | PtScalar SI16 n => ($"i16" ++ qmark n, 0)
  | PtScalar SI32 n => ($"i32" ++ qmark n, 0)
  | PtScalar SI64 n => ($"i64" ++ qmark n, 0)
  | PtScalar SFp32 n => ($"fp32" ++ qmark n, 0)
  | PtScalar SFp64 n => ($"fp64" ++ qmark n, 0)
  | PtScalar SString n => ($"string" ++ qmark n, 0)
  | PtScalar SDate n => ($"date" ++ qmark n, 0)
  | PtDecimal p s n => ($"decimal" ++ qmark n ++ $"<" ++ print_Z p ++ $"," ++ print_Z s ++ $">", 0)
  | PtVarchar l n => ($"varchar" ++ qmark n ++ $"<" ++ print_Z l ++ $">", 0)
  | PtFixedChar l n => ($"fixedchar" ++ qmark n ++ $"<" ++ print_Z l ++ $">", 0)
  | _ => ($"UNSUPPORTED_TYPE", 1)
  end.

Inductive terr := FailedDecode | FixedCharLength | VarcharMissing | VarcharLength | DecimalParams | MapTypes | Unrecognised.

(** SubstraitPlanTypeVisitor.cpp 37-187 typeToProto; [inside] is insideStructLiteralWithExternalType(ctx).
    The reinterpret_casts are only meaningful on parameterized types: anything else is UB.
    isInteger() of a StringLiteral: Type.cpp 679-681. *)
Fixpoint typeToProto (inside : bool) (t : ty) : outcome (ptype * list terr) :=
  let null := if nullable_of t then NNullable else NRequired in
  let each := (fix each (l : list ty) : outcome (list ptype * list terr) :=
    match l with
    | [] => Ok ([], [])
    | x :: r => a <- typeToProto inside x ;; b <- each r ;; Ok (fst a :: fst b, snd a ++ snd b)
    end) in
  match t with
  | TNull => UB
  | TScalar k _ => Ok (PtScalar k null, [])
  | PFixedChar (TStrLit v _ _) _ =>
      match stoi v with Ok z => Ok (PtFixedChar z null, []) | _ => Ok (PtFixedChar 0 null, [FixedCharLength]) end
  | PVarchar (TStrLit v _ _) _ =>
      if negb (isInteger v) then Ok (PtNone, [VarcharMissing])
      else match stoi v with Ok z => Ok (PtVarchar z null, []) | _ => Ok (PtVarchar 0 null, [VarcharLength]) end
  | TFixedBinary _ _ | PFixedBinary _ _ => Ok (PtFixedBinary 0 null, [])
  | PDecimal (TStrLit p _ _) s _ =>
      match stoi p with
      | Ok zp => match s with
                 | TStrLit s _ _ =>
                     match stoi s with Ok zs => Ok (PtDecimal zp zs null, []) | _ => Ok (PtDecimal 0 0 null, [DecimalParams]) end
                 | _ => UB
                 end
      | _ => Ok (PtDecimal 0 0 null, [DecimalParams])
      end
  | PStruct l _ => r <- each l ;; Ok (PtStruct (fst r) null, snd r)
  | PList e _ => r <- typeToProto inside e ;; Ok (PtList (fst r) null, snd r)
  | PMap TNull _ _ | PMap _ TNull _ => Ok (PtNone, [MapTypes])
  | PMap k v _ => a <- typeToProto inside k ;; b <- typeToProto inside v ;; Ok (PtMap (fst a) (fst b) null, snd a ++ snd b)
  | TStrLit _ _ _ => Ok (PtNone, if inside then [] else [Unrecognised])
  | _ => UB
  end.

(** SubstraitPlanTypeVisitor.cpp 24-35 textToTypeProto. *)
Definition textToTypeProto (inside : bool) (text : str) : outcome (ptype * list terr) :=
  match decode true text with
  | Ok t => typeToProto inside t
  | Throw _ => Ok (PtNone, [FailedDecode])
  | UB => UB
  end.
