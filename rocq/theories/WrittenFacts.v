(** What literals in texts mean. *)
From Verif Require Import Base BaseFacts StringsModel StringsFacts EscapeModel EscapeFacts DecimalModel DecimalFacts TypeModel TypeFacts TypeTextFacts TypeProtoFacts LexModel LexFacts NameModel NameFacts
  CutFacts FloatModel CalendarModel CalendarFacts TimeModel TimeFacts ExprModel TypeTokenFacts LiteralFacts ExprFacts FirstFacts.
From Coq Require Import Lia ZifyBool ZifyNat ZifyN.

(** * Specification *)
(** Digits with or without a minus sign, and the integer *)
Inductive IntText : str -> Z -> Prop :=
| IT_plus ds : ds <> [] -> forallb is_digit ds = true -> IntText ds (Z.of_N (digits_val 0 ds))
| IT_minus ds : ds <> [] -> forallb is_digit ds = true -> IntText ("-"%char :: ds) (- Z.of_N (digits_val 0 ds)).
Definition within (bits : Z) (z : Z) : Prop := (- 2 ^ (bits - 1) <= z < 2 ^ (bits - 1))%Z.
Definition optional (n : pnull) : bool := match n with NNullable => true | _ => false end.
(** The nullability of a type, and the type with another one *)
Definition null_of (t : ptype) : pnull :=
  match t with
  | PtScalar _ n | PtFixedChar _ n | PtVarchar _ n | PtFixedBinary _ n | PtDecimal _ _ n | PtStruct _ n | PtList _ n | PtMap _ _ n => n
  | PtNone | PtUserDefined _ => NUnspecified
  end.
Definition SameBase (t u : ptype) : Prop :=
  match t, u with
  | PtScalar k _, PtScalar k' _ => k = k'
  | PtFixedChar a _, PtFixedChar b _ | PtVarchar a _, PtVarchar b _ | PtFixedBinary a _, PtFixedBinary b _ => a = b
  | PtDecimal p s _, PtDecimal p' s' _ => p = p' /\ s = s'
  | PtStruct l _, PtStruct l' _ => l = l'
  | PtList e _, PtList e' _ => e = e'
  | PtMap k v _, PtMap k' v' _ => k = k' /\ v = v'
  | PtUserDefined a, PtUserDefined b => a = b
  | PtNone, PtNone => True
  | _, _ => False
  end.
Definition has_null (t : ptype) : Prop := match t with PtNone | PtUserDefined _ => False | _ => True end.
(** Thirty-two hexadecimal digits, with dashes anywhere *)
Definition hexadecimal : str := $"0123456789abcdefABCDEF".
Definition dash : ascii := "-"%char.
Inductive Undashed : str -> str -> Prop :=
| UD_nil : Undashed [] []
| UD_dash s u : Undashed s u -> Undashed (dash :: s) u
| UD_digit c s u : In c hexadecimal -> Undashed s u -> Undashed (c :: s) (c :: u).
Definition i32 : ptype := PtScalar SI32 NUnspecified.

(** What a constant of a given type means.  The texts of strings are those of EscapeModel, the values of floating point numbers those of C70, the values of decimals those of
    DecimalModel. *)
Inductive Means : cnode -> ptype -> literal -> Prop :=
| ME_i8 s ty n z : IntText s z -> within 8 z -> Means (CNumber s ty) (PtScalar SI8 n) (Lit (LI8 z) (optional n))
| ME_i16 s ty n z : IntText s z -> within 16 z -> Means (CNumber s ty) (PtScalar SI16 n) (Lit (LI16 z) (optional n))
| ME_i32 s ty n z : IntText s z -> within 32 z -> Means (CNumber s ty) (PtScalar SI32 n) (Lit (LI32 z) (optional n))
| ME_i64 s ty n z : IntText s z -> within 64 z -> Means (CNumber s ty) (PtScalar SI64 n) (Lit (LI64 z) (optional n))
| ME_fp32 s ty n v : stod single s = Ok v -> Means (CNumber s ty) (PtScalar SFp32 n) (Lit (LFp32 v) (optional n))
| ME_fp64 s ty n v : stod double s = Ok v -> Means (CNumber s ty) (PtScalar SFp64 n) (Lit (LFp64 v) (optional n))
| ME_decimal s ty p sc n : isValid (fromString s p sc) = true -> Means (CNumber s ty) (PtDecimal p sc n) (Lit (LDecimal (toProto (fromString s p sc))) (optional n))
| ME_string q ty n s : n <> NNullable -> evalString q = Some (s, []) -> Means (CString q ty) (PtScalar SString n) (Lit (LString s) false)
| ME_binary q ty n s : n <> NNullable -> evalString q = Some (s, []) -> Means (CString q ty) (PtScalar SBinary n) (Lit (LBinary s) false)
| ME_fixedchar q ty n s : n <> NNullable -> evalString q = Some (s, []) -> Means (CString q ty) (PtFixedChar (Z.of_nat (length s)) n) (Lit (LFixedChar s) false)
| ME_fixedbinary q ty n s : n <> NNullable -> evalString q = Some (s, []) -> Means (CString q ty) (PtFixedBinary (Z.of_nat (length s)) n) (Lit (LFixedBinary s) false)
| ME_varchar q ty n s len : n <> NNullable -> evalString q = Some (s, []) -> (Z.of_nat (length s) <= len)%Z -> Means (CString q ty) (PtVarchar len n) (Lit (LVarChar s len) false)
| ME_uuid q ty n s u : n <> NNullable -> evalString q = Some (s, []) -> Undashed s u -> length u = 32 -> Means (CString q ty) (PtScalar SUuid n) (Lit (LUuid u) false)
| ME_date q ty n s c rest day : n <> NNullable -> evalString q = Some (s, []) -> DateText c s rest -> Day day c -> Means (CString q ty) (PtScalar SDate n) (Lit (LDate day) false)
| ME_timestamp q ty n s z : n <> NNullable -> evalString q = Some (s, []) -> Stamp s z -> clock_range z -> Means (CString q ty) (PtScalar STimestamp n) (Lit (LTimestamp z) false)
| ME_time q ty n s z : n <> NNullable -> evalString q = Some (s, []) -> Clock s z -> Means (CString q ty) (PtScalar STime n) (Lit (LTime z) false)
| ME_true ty n : n <> NNullable -> Means (CTrue ty) (PtScalar SBool n) (Lit (LBool true) false)
| ME_false ty n : n <> NNullable -> Means (CFalse ty) (PtScalar SBool n) (Lit (LBool false) false)
| ME_null ty t u : has_null t -> SameBase t u -> null_of u = NNullable -> Means (CNull ty) t (Lit (LNull u) false)
| ME_no_elements ty e n : n <> NNullable -> Means (CMap [] ty) (PtList e n) (Lit (LEmptyList e n) false)
| ME_no_entries ty k v n : n <> NNullable -> Means (CMap [] ty) (PtMap k v n) (Lit (LEmptyMap (PtMap k v n)) false)
| ME_map l ty k v n r : n <> NNullable -> l <> [] -> Entries l k v r -> Means (CMap l ty) (PtMap k v n) (Lit (LMap r) false)
| ME_list l ty e n r : n <> NNullable -> l <> [] -> Members l (repeat e (length l)) r -> Means (CStruct l ty) (PtList e n) (Lit (LList r) false)
| ME_struct l ty ts n r : n <> NNullable -> l <> [] -> Members l ts r -> Means (CStruct l ty) (PtStruct ts n) (Lit (LStruct r) false)
| ME_interval_year a b ty n x y : n <> NNullable -> Means a i32 (Lit (LI32 x) false) -> Means b i32 (Lit (LI32 y) false) -> Means (CStruct [a; b] ty) (PtScalar SIntervalYear n) (Lit (LIntervalYear x y) false)
| ME_interval_day a b c ty n x y z : n <> NNullable -> Means a i32 (Lit (LI32 x) false) -> Means b i32 (Lit (LI32 y) false) -> Means c i32 (Lit (LI32 z) false) ->
    Means (CStruct [a; b; c] ty) (PtScalar SIntervalDay n) (Lit (LIntervalDay x y z) false)
with Members : list cnode -> list ptype -> list literal -> Prop :=
| MB_nil : Members [] [] []
| MB_cons c t v l ts r : Means c t v -> Members l ts r -> Members (c :: l) (t :: ts) (v :: r)
with Entries : list (cnode * cnode) -> ptype -> ptype -> list (literal * literal) -> Prop :=
| EN_nil k v : Entries [] k v []
| EN_cons a b l k v x y r : Means a k x -> Means b v y -> Entries l k v r -> Entries ((a, b) :: l) k v ((x, y) :: r).

(** What is read although it has no meaning of its own (findings), and what is not modelled *)
Inductive Odd : cnode -> ptype -> Prop :=
(* a number with a type that is none of numbers: read as a literal without a value *)
| OD_number_type s ty t : (forall n, ~ In t [PtScalar SI8 n; PtScalar SI16 n; PtScalar SI32 n; PtScalar SI64 n; PtScalar SFp32 n; PtScalar SFp64 n]) -> (forall p sc n, t <> PtDecimal p sc n) -> Odd (CNumber s ty) t
(* a fraction or an exponent: ignored *)
| OD_fraction s ty k n : In k [SI8; SI16; SI32; SI64] -> (forall z, ~ IntText s z) -> Odd (CNumber s ty) (PtScalar k n)
(* beyond the range of the type *)
| OD_range8 s ty n z : IntText s z -> ~ within 8 z -> Odd (CNumber s ty) (PtScalar SI8 n)
| OD_range16 s ty n z : IntText s z -> ~ within 16 z -> Odd (CNumber s ty) (PtScalar SI16 n)
(* strings of the wrong length *)
| OD_fixedchar q ty n s len : evalString q = Some (s, []) -> Z.of_nat (length s) <> len -> Odd (CString q ty) (PtFixedChar len n)
| OD_fixedbinary q ty n s len : evalString q = Some (s, []) -> Z.of_nat (length s) <> len -> Odd (CString q ty) (PtFixedBinary len n)
| OD_varchar q ty n s len : evalString q = Some (s, []) -> (len < Z.of_nat (length s))%Z -> Odd (CString q ty) (PtVarchar len n)
(* a type that has no kind; also for null *)
| OD_no_type q ty : Odd (CString q ty) PtNone
| OD_null_type ty t : ~ has_null t -> Odd (CNull ty) t
(* seconds that cannot be read *)
| OD_seconds q ty n s h m a : evalString q = Some (s, []) -> HoursText h m s (":"%char :: a) -> no_digit a -> Odd (CString q ty) (PtScalar STime n)
(* nullable types of literals other than numbers *)
| OD_nullable c t : match c with CNumber _ _ | CNull _ => False | _ => True end -> null_of t = NNullable -> Odd c t
(* key and value pairs with a struct type: ignored *)
| OD_pairs l ty ts n : Odd (CMap l ty) (PtStruct ts n)
(* null in an interval is zero *)
| OD_interval l ty k n m : In k [SIntervalYear; SIntervalDay] -> In (CNull m) l -> Odd (CStruct l ty) (PtScalar k n)
(* no members: the parser does not produce it *)
| OD_empty ty t : Odd (CStruct [] ty) t
(* not modelled *)
| OD_zone q ty n : Odd (CString q ty) (PtScalar STimestampTz n)
| OD_time q ty n s : evalString q = Some (s, []) -> parse_time s = PUnknown -> Odd (CString q ty) (PtScalar STime n)
| OD_timestamp q ty n s : evalString q = Some (s, []) -> parse_timestamp s = PUnknown -> Odd (CString q ty) (PtScalar STimestamp n)
(* something of these inside *)
| OD_member l ty ts n i c t : nth_error l i = Some c -> nth_error ts i = Some t -> Odd c t -> Odd (CStruct l ty) (PtStruct ts n)
| OD_element l ty e n c : In c l -> Odd c e -> Odd (CStruct l ty) (PtList e n)
| OD_part l ty k n c : In k [SIntervalYear; SIntervalDay] -> In c l -> Odd c i32 -> Odd (CStruct l ty) (PtScalar k n)
| OD_key l ty k v n a b : In (a, b) l -> Odd a k -> Odd (CMap l ty) (PtMap k v n)
| OD_entry l ty k v n a b : In (a, b) l -> Odd b v -> Odd (CMap l ty) (PtMap k v n).

(** * Proofs *)
Section Induction.
  Variable P : cnode -> Prop.
  Hypothesis (HN : forall t ty, P (CNumber t ty)) (HS : forall t ty, P (CString t ty)) (HT : forall ty, P (CTrue ty)) (HF : forall ty, P (CFalse ty)) (HU : forall ty, P (CNull ty)).
  Hypothesis HM : forall l ty, Forall (fun p => P (fst p) /\ P (snd p)) l -> P (CMap l ty).
  Hypothesis HL : forall l ty, Forall P l -> P (CStruct l ty).
  Fixpoint cnode_ind2 (c : cnode) : P c.
  Proof.
    destruct c as [t ty|t ty|ty|ty|ty|l ty|l ty]; [apply HN|apply HS|apply HT|apply HF|apply HU|apply HM|apply HL].
    - induction l as [|[a b] l IH]; constructor; [split; apply cnode_ind2|exact IH].
    - induction l as [|a l IH]; constructor; [apply cnode_ind2|exact IH].
  Qed.
End Induction.
Scheme Means_mind := Induction for Means Sort Prop
with Members_mind := Induction for Members Sort Prop
with Entries_mind := Induction for Entries Sort Prop.

(** ** Numbers *)
Lemma head_sign c r : is_digit c = true -> ltrim (c :: r) = c :: r /\ ceq c "-" = false /\ ceq c "+" = false.
Proof.
  intros D. apply digit_cases in D. split; [|split]; [|cbn in D; repeat (destruct D as [<- | D]; [reflexivity|]); destruct D..].
  apply ltrim_head. cbn in D. repeat (destruct D as [<- | D]; [intros I; cbv in I; intuition discriminate|]). destruct D.
Qed.
Definition sto (bits : Z) (s : str) : outcome Z :=
  let t := ltrim s in
  let '(neg, r) := match t with c :: r => if ceq c "-"%char then (true, r) else if ceq c "+"%char then (false, r) else (false, t) | [] => (false, []) end in
  match take_digits r with
  | [] => Throw EStdInvalid
  | ds => let z := Z.of_N (digits_val 0 ds) in let z := if neg then (- z)%Z else z in if (- 2 ^ (bits - 1) <=? z)%Z && (z <=? 2 ^ (bits - 1) - 1)%Z then Ok z else Throw EStdOutOfRange
  end.
Lemma stoi_sto s : stoi s = sto 32 s. Proof. reflexivity. Qed.
Lemma stol_sto s : stol s = sto 64 s. Proof. reflexivity. Qed.
Lemma sto_text bits s z : IntText s z -> sto bits s = if (- 2 ^ (bits - 1) <=? z)%Z && (z <=? 2 ^ (bits - 1) - 1)%Z then Ok z else Throw EStdOutOfRange.
Proof.
  intros [ds Hn Hd|ds Hn Hd]; unfold sto.
  - destruct ds as [|c r]; [congruence|]. pose proof Hd as Hd'. cbn [forallb] in Hd'. apply andb_true_iff in Hd' as [Hc _]. destruct (head_sign c r Hc) as (-> & -> & ->). rewrite take_digits_all by exact Hd. reflexivity.
  - rewrite ltrim_head by (intros I; cbv in I; intuition discriminate). change (ceq "-" "-") with true. cbv beta iota. rewrite take_digits_all by exact Hd. destruct ds; [congruence|reflexivity].
Qed.
Lemma int_unique s z z' : IntText s z -> IntText s z' -> z = z'.
Proof.
  intros [ds Hn Hd|ds Hn Hd] H; inversion H as [ds' Hn' Hd' E|ds' Hn' Hd' E]; subst; auto; cbn [forallb] in *; discriminate.
Qed.
Lemma int_decides s : (exists z, IntText s z) \/ (forall z, ~ IntText s z).
Proof.
  destruct s as [|c r]; [right; intros z H; inversion H; congruence|]. destruct (forallb is_digit (c :: r)) eqn:D; [left; eexists; apply IT_plus; [discriminate|exact D]|].
  destruct (ceq c "-") eqn:E.
  - apply ceq_true in E. subst c. destruct r as [|d r]; [right; intros z H; inversion H; subst; [discriminate|congruence]|]. destruct (forallb is_digit (d :: r)) eqn:D'; [left; eexists; apply IT_minus; [discriminate|exact D']|].
    right. intros z H. inversion H; subst; [discriminate|congruence].
  - right. intros z H. inversion H; subst; [congruence|]. rewrite ceq_refl in E. discriminate.
Qed.
Lemma sto_within bits s z z' : IntText s z -> sto bits s = Ok z' -> z' = z /\ within bits z.
Proof. intros H. rewrite (sto_text bits s z H). destruct (_ && _) eqn:B; [|discriminate]. intros E. injection E as <-. split; [reflexivity|unfold within; lia]. Qed.
Lemma within_sto bits s z : IntText s z -> within bits z -> sto bits s = Ok z.
Proof. intros H R. rewrite (sto_text bits s z H). unfold within in R. replace (_ && _) with true by lia. reflexivity. Qed.
Lemma caught_ok (o : outcome Z) f l : caught o (fun z => good (Lit (f z) false)) = Ok (l, []) -> exists z, o = Ok z /\ l = Lit (f z) false.
Proof. destruct o as [z| |]; cbn; try discriminate. intros E. injection E as <-. eauto. Qed.
Lemma caught_good {A} (o : outcome A) (f : A -> literal) l : caught o (fun z => good (f z)) = Ok (l, []) -> exists z, o = Ok z /\ l = f z.
Proof. destruct o as [z| |]; cbn; try discriminate. intros E. injection E as <-. eauto. Qed.
Lemma is_optional n : is_null n = optional n.
Proof. reflexivity. Qed.
Lemma number_sound s ty t l : visitNumber s t = Ok (l, []) -> Means (CNumber s ty) t l \/ Odd (CNumber s ty) t.
Proof.
  intros H. destruct t as [|k n| | | |p sc n| | | |]; try (right; apply OD_number_type; [intros n' I; cbn in I; intuition discriminate|discriminate]).
  - destruct k; try (right; apply OD_number_type; [intros n' I; cbn in I; intuition discriminate|discriminate]); cbn [visitNumber] in H; apply caught_good in H as (z & E & ->);
      try (destruct (int_decides s) as [(z0 & I)|N]; [|right; apply OD_fraction; [cbn; tauto|exact N]]).
    + rewrite stoi_sto in E. destruct (sto_within 32 s z0 z I E) as [-> R]. destruct (Z.le_gt_cases (-128) z0) as [L|L]; [destruct (Z.le_gt_cases z0 127) as [M|M]; [left; apply ME_i8; [exact I|unfold within; lia]|]|]; right; apply (OD_range8 s ty n z0 I); unfold within; lia.
    + rewrite stoi_sto in E. destruct (sto_within 32 s z0 z I E) as [-> R]. destruct (Z.le_gt_cases (-32768) z0) as [L|L]; [destruct (Z.le_gt_cases z0 32767) as [M|M]; [left; apply ME_i16; [exact I|unfold within; lia]|]|]; right; apply (OD_range16 s ty n z0 I); unfold within; lia.
    + rewrite stoi_sto in E. destruct (sto_within 32 s z0 z I E) as [-> R]. left. apply ME_i32; assumption.
    + rewrite stol_sto in E. destruct (sto_within 64 s z0 z I E) as [-> R]. left. apply ME_i64; assumption.
    + left. apply ME_fp32. exact E.
    + left. apply ME_fp64. exact E.
  - cbn [visitNumber] in H. destruct (isValid _) eqn:V; [|discriminate]. injection H as <-. left. apply ME_decimal, V.
Qed.
(** ** Strings *)
Lemma hex_iff c : is_hex c = true <-> In c hexadecimal.
Proof.
  split.
  - intros H. assert (X : forallb (fun n => implb (is_hex (ascii_of_nat n)) (existsb (ceq (ascii_of_nat n)) hexadecimal)) (seq 0 256) = true) by (vm_compute; reflexivity).
    rewrite forallb_forall in X. specialize (X (nat_of_ascii c)). rewrite ascii_nat_embedding in X. rewrite H in X. cbn [implb] in X.
    assert (Y : existsb (ceq c) hexadecimal = true) by (apply X, in_seq; pose proof (nat_ascii_bounded c); lia). apply existsb_exists in Y as (d & I & E). apply ceq_true in E as <-. exact I.
  - intros H. assert (X : forallb is_hex hexadecimal = true) by (vm_compute; reflexivity). rewrite forallb_forall in X. apply X, H.
Qed.
Lemma undash_sound s : forallb is_hex (filter (fun c => negb (ceq c "-")) s) = true -> Undashed s (filter (fun c => negb (ceq c "-")) s).
Proof.
  induction s as [|c s IH]; [constructor|]. cbn [filter]. destruct (ceq c "-") eqn:E; cbn [negb].
  - intros H. apply ceq_true in E as ->. apply UD_dash, IH, H.
  - cbn [forallb]. rewrite andb_true_iff. intros [Hc H]. apply UD_digit; [apply hex_iff, Hc|apply IH, H].
Qed.
Lemma undash_complete s u : Undashed s u -> filter (fun c => negb (ceq c "-")) s = u /\ forallb is_hex u = true.
Proof.
  induction 1 as [|s u H [IH1 IH2]|c s u Hc H [IH1 IH2]]; [auto|cbn [filter]; unfold dash; change (ceq "-" "-") with true; auto|]. cbn [filter forallb]. apply hex_iff in Hc.
  destruct (ceq c "-") eqn:E; [apply ceq_true in E; subst c; discriminate|]. cbn [negb]. rewrite IH1, Hc, IH2. auto.
Qed.
Lemma not_null n : n <> NNullable \/ n = NNullable.
Proof. destruct n; [left; discriminate|right; reflexivity|left; discriminate]. Qed.
Lemma escapes_nil (l : list nat) : map XEscape l = [] -> l = [].
Proof. destruct l; [auto|discriminate]. Qed.
Lemma string_sound q ty t l : (match t with PtScalar SDate _ => visitDate q | PtScalar STimestamp _ => visitTimestamp q | PtScalar STime _ => visitTime q | PtScalar STimestampTz _ => good (Lit (LNotModelled q) false) | _ => visitString q t end) = Ok (l, []) ->
  Means (CString q ty) t l \/ Odd (CString q ty) t.
Proof.
  intros H. destruct (not_null (null_of t)) as [N|N]; [|right; apply OD_nullable; [exact I|exact N]].
  assert (V : forall u, visitString q u = Ok (l, []) -> exists s, evalString q = Some (s, [])).
  { intros u E. unfold visitString in E. destruct (evalString q) as [[s errs]|]; [|discriminate]. exists s. f_equal. f_equal. apply escapes_nil.
    destruct u as [|[] | | | | | | | |]; cbn in E; try (injection E as _ E; try (apply app_eq_nil in E as [E _]); exact E).
    destruct (negb (forallb is_hex _)); [injection E as _ E; apply app_eq_nil in E as [E _]; exact E|]. destruct (negb (_ =? 32)); injection E as _ E; [apply app_eq_nil in E as [E _]|]; exact E. }
  destruct t as [|k n|len n|len n|len n|p sc n|ts n|e n|a b n|r]; cbn [null_of] in N.
  - right. apply OD_no_type.
  - destruct k; try (destruct (V _ H) as (s & E); unfold visitString in H; rewrite E in H; cbn [map app] in H; try discriminate).
    + injection H as <-. left. apply ME_string; assumption.
    + injection H as <-. left. apply ME_binary; assumption.
    + clear V. unfold visitTimestamp in H. destruct (evalString q) as [[s errs]|] eqn:E; [|discriminate]. destruct (parse_timestamp s) as [|z|] eqn:P.
      * exfalso. injection H as _ H. apply app_eq_nil in H as [_ H]. discriminate.
      * destruct (to_time_t z) as [v| |] eqn:T; cbn in H; try discriminate. injection H as <- H. apply escapes_nil in H as ->. unfold to_time_t, clock_ticks in T. destruct (_ && _) eqn:B in T; [|discriminate]. injection T as <-.
        left. eapply ME_timestamp; [exact N|exact E|apply timestamp_iff; exact P|unfold clock_range; lia].
      * injection H as _ H. apply escapes_nil in H as ->. right. eapply OD_timestamp; eassumption.
    + clear V. unfold visitDate in H. destruct (evalString q) as [[s errs]|] eqn:E; [|discriminate]. destruct (parse_date s) as [z|] eqn:P.
      * injection H as <- H. apply escapes_nil in H as ->. apply date_value in P as (c & r & D & Y). left. eapply ME_date; eassumption.
      * exfalso. injection H as _ H. apply app_eq_nil in H as [_ H]. discriminate.
    + clear V. unfold visitTime in H. destruct (evalString q) as [[s errs]|] eqn:E; [|discriminate]. destruct (parse_time s) as [|z|] eqn:P.
      * exfalso. injection H as _ H. apply app_eq_nil in H as [_ H]. discriminate.
      * injection H as <- H. apply escapes_nil in H as ->. destruct (time_value s z P) as [C|(h & m & a & C & D & _)]; [left; eapply ME_time; eassumption|right; eapply OD_seconds; eassumption].
      * injection H as _ H. apply escapes_nil in H as ->. right. eapply OD_time; eassumption.
    + right. apply OD_zone.
    + destruct (negb (forallb is_hex (filter (fun c => negb (ceq c "-")) s))) eqn:X; [discriminate|]. destruct (negb (_ =? 32)) eqn:Y; [discriminate|]. injection H as <-. apply negb_false_iff in X, Y. apply Nat.eqb_eq in Y.
      left. eapply ME_uuid; [exact N|exact E|apply undash_sound, X|exact Y].
  - destruct (V _ H) as (s & E). unfold visitString in H. rewrite E in H. injection H as <-. destruct (Z.eq_dec (Z.of_nat (length s)) len) as [<- | D]; [left; apply ME_fixedchar; assumption|right; eapply OD_fixedchar; eassumption].
  - destruct (V _ H) as (s & E). unfold visitString in H. rewrite E in H. injection H as <-. destruct (Z.le_gt_cases (Z.of_nat (length s)) len) as [D|D]; [left; apply ME_varchar; assumption|right; eapply OD_varchar; eassumption].
  - destruct (V _ H) as (s & E). unfold visitString in H. rewrite E in H. injection H as <-. destruct (Z.eq_dec (Z.of_nat (length s)) len) as [<- | D]; [left; apply ME_fixedbinary; assumption|right; eapply OD_fixedbinary; eassumption].
  - destruct (V _ H) as (s & E). unfold visitString in H. rewrite E in H. discriminate.
  - destruct (V _ H) as (s & E). unfold visitString in H. rewrite E in H. discriminate.
  - destruct (V _ H) as (s & E). unfold visitString in H. rewrite E in H. discriminate.
  - destruct (V _ H) as (s & E). unfold visitString in H. rewrite E in H. discriminate.
  - destruct (V _ H) as (s & E). unfold visitString in H. rewrite E in H. discriminate.
Qed.
(** ** Members and entries *)
Section Loops.
  Variable f : cnode -> option ptype -> evaluated literal.
  Fixpoint each2 (l : list cnode) (ts : list ptype) : evaluated (list literal) :=
    match l, ts with
    | c :: l, t :: ts => bindE (f c (Some t)) (fun v => bindE (each2 l ts) (fun vs => good (v :: vs)))
    | _, _ => good []
    end.
  Definition each1 (e : ptype) : list cnode -> evaluated (list literal) :=
    fix each1 (l : list cnode) : evaluated (list literal) := match l with [] => good [] | c :: l => bindE (f c (Some e)) (fun x => bindE (each1 l) (fun r => good (x :: r))) end.
  Definition entries (k v : option ptype) : list (cnode * cnode) -> evaluated (list (literal * literal)) :=
    fix entries (l : list (cnode * cnode)) : evaluated (list (literal * literal)) :=
    match l with
    | [] => good []
    | (a, b) :: l => bindE (f a k) (fun x => bindE (f b v) (fun y => bindE (entries l) (fun r => good ((x, y) :: r))))
    end.
  Definition structure (l : list cnode) (ts : list ptype) : evaluated literal :=
    bindE (each2 l ts) (fun vs => Ok (match vs with [] => Lit LUnset false | _ => Lit (LStruct vs) false end, if length l =? length ts then [] else [XFieldCount])).
End Loops.
Lemma visit_struct inside l ty ts n : visitConst inside (CStruct l ty) (Some (PtStruct ts n)) = structure (visitConst true) l ts.
Proof. cbn [visitConst]. rewrite orb_true_r. reflexivity. Qed.
Lemma visit_list inside l ty e n : visitConst inside (CStruct l ty) (Some (PtList e n)) = bindE (each1 (visitConst true) e l) (fun l => good (Lit (LList l) false)).
Proof. cbn [visitConst]. rewrite orb_true_r. reflexivity. Qed.
Lemma visit_year inside l ty n : visitConst inside (CStruct l ty) (Some (PtScalar SIntervalYear n)) = bindE (structure (visitConst true) l [i32; i32]) (fun s => match fields_of s with
  | a :: b :: _ => good (Lit (LIntervalYear (i32_of a) (i32_of b)) false) | _ => UB end).
Proof. cbn [visitConst]. rewrite orb_true_r. reflexivity. Qed.
Lemma visit_day inside l ty n : visitConst inside (CStruct l ty) (Some (PtScalar SIntervalDay n)) = bindE (structure (visitConst true) l [i32; i32; i32]) (fun s => match fields_of s with
  | a :: b :: c :: _ => good (Lit (LIntervalDay (i32_of a) (i32_of b) (i32_of c)) false) | _ => UB end).
Proof. cbn [visitConst]. rewrite orb_true_r. reflexivity. Qed.
Lemma visit_map inside p l ty k v n : visitConst inside (CMap (p :: l) ty) (Some (PtMap k v n)) = bindE (entries (visitConst inside) (Some k) (Some v) (p :: l)) (fun l => good (Lit (LMap l) false)).
Proof. cbn [visitConst]. rewrite orb_false_r. reflexivity. Qed.
Lemma visit_empty_list inside l ty e n : visitConst inside (CMap l ty) (Some (PtList e n)) = bindE (entries (visitConst inside) None None l) (fun _ => Ok (Lit (LEmptyList e n) false, match l with [] => [] | _ => [XListPairs] end)).
Proof. cbn [visitConst]. rewrite orb_false_r. reflexivity. Qed.

Definition sound (c : cnode) : Prop := forall inside t l, visitConst inside c (Some t) = Ok (l, []) -> Means c t l \/ Odd c t.
Lemma each2_sound inside l : Forall sound l -> forall ts vs, each2 (visitConst inside) l ts = Ok (vs, []) -> length l = length ts ->
  Members l ts vs \/ exists i c t, nth_error l i = Some c /\ nth_error ts i = Some t /\ Odd c t.
Proof.
  induction 1 as [|c l Hc _ IH]; intros ts vs H L; destruct ts as [|t ts]; try discriminate.
  - injection H as <-. left. constructor.
  - cbn [each2] in H. apply bindE_ok in H as (v & Hv & H). apply bindE_ok in H as (r & Hr & H). injection H as <-. injection L as L. destruct (Hc _ _ _ Hv) as [M|O]; [|right; exists 0, c, t; auto].
    destruct (IH ts r Hr L) as [M'|(i & c' & t' & E1 & E2 & O)]; [left; constructor; assumption|right; exists (S i), c', t'; auto].
Qed.
Lemma each1_sound inside e l : Forall sound l -> forall vs, each1 (visitConst inside) e l = Ok (vs, []) -> Members l (repeat e (length l)) vs \/ exists c, In c l /\ Odd c e.
Proof.
  induction 1 as [|c l Hc _ IH]; intros vs H; cbn [each1] in H.
  - injection H as <-. left. constructor.
  - apply bindE_ok in H as (v & Hv & H). apply bindE_ok in H as (r & Hr & H). injection H as <-. destruct (Hc _ _ _ Hv) as [M|O]; [|right; exists c; split; [left; reflexivity|exact O]].
    destruct (IH r Hr) as [M'|(c' & I & O)]; [left; cbn [length repeat]; constructor; assumption|right; exists c'; split; [right; exact I|exact O]].
Qed.
Lemma entries_sound inside k v l : Forall (fun p => sound (fst p) /\ sound (snd p)) l -> forall r, entries (visitConst inside) (Some k) (Some v) l = Ok (r, []) ->
  Entries l k v r \/ exists a b, In (a, b) l /\ (Odd a k \/ Odd b v).
Proof.
  induction 1 as [|[a b] l [Ha Hb] _ IH]; intros r H; cbn [entries fst snd] in *.
  - injection H as <-. left. constructor.
  - apply bindE_ok in H as (x & Hx & H). apply bindE_ok in H as (y & Hy & H). apply bindE_ok in H as (q & Hq & H). injection H as <-.
    destruct (Ha _ _ _ Hx) as [M|O]; [|right; exists a, b; split; [left; reflexivity|left; exact O]]. destruct (Hb _ _ _ Hy) as [M'|O]; [|right; exists a, b; split; [left; reflexivity|right; exact O]].
    destruct (IH q Hq) as [E|(a' & b' & I & O)]; [left; constructor; assumption|right; exists a', b'; split; [right; exact I|exact O]].
Qed.
Lemma structure_ok inside l ts s : structure (visitConst inside) l ts = Ok (s, []) -> exists vs, each2 (visitConst inside) l ts = Ok (vs, []) /\ length l = length ts /\ s = match vs with [] => Lit LUnset false | _ => Lit (LStruct vs) false end.
Proof.
  unfold structure. intros H. apply bindE_ok in H as (vs & Hv & H). destruct (length l =? length ts) eqn:E; [|discriminate]. injection H as <-. exists vs. split; [exact Hv|]. split; [apply Nat.eqb_eq, E|reflexivity].
Qed.
Lemma i32_means c v : Means c i32 v -> (exists z, v = Lit (LI32 z) false) \/ exists m, c = CNull m.
Proof. intros H. inversion H; subst; [left; eexists; reflexivity|right; eexists; reflexivity]. Qed.
Lemma members_length l ts r : Members l ts r -> length l = length ts /\ length r = length l.
Proof. induction 1 as [|c t v l ts r _ _ [IH1 IH2]]; cbn [length]; auto. Qed.
Lemma const_sound : forall c, sound c.
Proof.
  induction c as [s ty|q ty|ty|ty|ty|l ty IH|l ty IH] using cnode_ind2; intros inside t x H.
  - apply number_sound. exact H.
  - apply string_sound. exact H.
  - cbn [visitConst] in H. destruct t as [|k n| | | | | | | |]; try discriminate. destruct k; try discriminate. injection H as <-. destruct (not_null n) as [N| ->]; [left; apply ME_true, N|right; apply OD_nullable; [exact I|reflexivity]].
  - cbn [visitConst] in H. destruct t as [|k n| | | | | | | |]; try discriminate. destruct k; try discriminate. injection H as <-. destruct (not_null n) as [N| ->]; [left; apply ME_false, N|right; apply OD_nullable; [exact I|reflexivity]].
  - cbn [visitConst] in H. injection H as <-. destruct t; try (left; apply ME_null; cbn; auto; fail); right; apply OD_null_type; intros [].
  - destruct (not_null (null_of t)) as [N|N]; [|right; apply OD_nullable; [exact I|exact N]].
    destruct t as [|k n|len n|len n|len n|p sc n|ts n|e n|a b n|r]; try (cbn [visitConst] in H; discriminate H).
    + cbn [visitConst] in H. destruct k; discriminate H.
    + right. apply OD_pairs.
    + rewrite visit_empty_list in H. apply bindE_ok in H as (vs & _ & H). destruct l; [|discriminate]. injection H as <-. left. apply ME_no_elements, N.
    + destruct l as [|p l]; [injection H as <-; left; apply ME_no_entries, N|]. rewrite visit_map in H. apply bindE_ok in H as (vs & Hv & H). injection H as <-.
      destruct (entries_sound inside a b (p :: l) IH vs Hv) as [E|(x & y & J & [O|O])]; [left; apply ME_map; [exact N|discriminate|exact E]|right; eapply OD_key; eassumption|right; eapply OD_entry; eassumption].
  - destruct l as [|c0 l0] eqn:El; [right; apply OD_empty|]. rewrite <- El in *. assert (Ne : l <> []) by (rewrite El; discriminate). clear El.
    destruct (not_null (null_of t)) as [N|N]; [|right; apply OD_nullable; [exact I|exact N]].
    destruct t as [|k n|len n|len n|len n|p sc n|ts n|e n|a b n|r]; try (cbn [visitConst] in H; discriminate H).
    + destruct k; try (cbn [visitConst] in H; discriminate H).
      * rewrite visit_year in H. apply bindE_ok in H as (s & Hs & H). apply structure_ok in Hs as (vs & Hv & L & ->). destruct (each2_sound true l IH _ _ Hv L) as [M|(i & c & t & E1 & E2 & O)].
        -- inversion M as [|c1 t1 v1 l1 ts1 r1 M1 Q1]; subst. inversion Q1 as [|c2 t2 v2 l2 ts2 r2 M2 Q2]; subst. inversion Q2; subst.
           destruct (i32_means _ _ M1) as [(z1 & ->)|(m & ->)]; [|right; eapply OD_interval; [cbn; tauto|left; reflexivity]]. destruct (i32_means _ _ M2) as [(z2 & ->)|(m & ->)]; [|right; eapply OD_interval; [cbn; tauto|right; left; reflexivity]].
           injection H as <-. left. apply ME_interval_year; assumption.
        -- right. eapply OD_part; [cbn; tauto|eapply nth_error_In; exact E1|]. apply nth_error_In in E2. cbn in E2. destruct E2 as [<- | [<- | []]]; exact O.
      * rewrite visit_day in H. apply bindE_ok in H as (s & Hs & H). apply structure_ok in Hs as (vs & Hv & L & ->). destruct (each2_sound true l IH _ _ Hv L) as [M|(i & c & t & E1 & E2 & O)].
        -- inversion M as [|c1 t1 v1 l1 ts1 r1 M1 Q1]; subst. inversion Q1 as [|c2 t2 v2 l2 ts2 r2 M2 Q2]; subst. inversion Q2 as [|c3 t3 v3 l3 ts3 r3 M3 Q3]; subst. inversion Q3; subst.
           destruct (i32_means _ _ M1) as [(z1 & ->)|(m & ->)]; [|right; eapply OD_interval; [cbn; tauto|left; reflexivity]]. destruct (i32_means _ _ M2) as [(z2 & ->)|(m & ->)]; [|right; eapply OD_interval; [cbn; tauto|right; left; reflexivity]].
           destruct (i32_means _ _ M3) as [(z3 & ->)|(m & ->)]; [|right; eapply OD_interval; [cbn; tauto|right; right; left; reflexivity]].
           injection H as <-. left. apply ME_interval_day; assumption.
        -- right. eapply OD_part; [cbn; tauto|eapply nth_error_In; exact E1|]. apply nth_error_In in E2. cbn in E2. destruct E2 as [<- | [<- | [<- | []]]]; exact O.
    + rewrite visit_struct in H. apply structure_ok in H as (vs & Hv & L & ->). destruct (each2_sound true l IH _ _ Hv L) as [M|(i & c & t & E1 & E2 & O)]; [|right; eapply OD_member; eassumption].
      left. destruct vs as [|v vs]; [destruct (members_length _ _ _ M) as [_ X]; destruct l; [congruence|discriminate]|]. apply ME_struct; assumption.
    + rewrite visit_list in H. apply bindE_ok in H as (vs & Hv & H). injection H as <-. destruct (each1_sound true e l IH vs Hv) as [M|(c & J & O)]; [left; apply ME_list; assumption|right; eapply OD_element; eassumption].
Qed.
(** ** What has a meaning is read as that *)
Definition complete (c : cnode) (t : ptype) (l : literal) : Prop := forall inside, visitConst inside c (Some t) = Ok (l, []).
Lemma const_complete c t l : Means c t l -> complete c t l.
Proof.
  intros H. induction H using Means_mind with
    (P0 := fun l ts r _ => forall inside, each2 (visitConst inside) l ts = Ok (r, []) /\ (forall e, ts = repeat e (length l) -> each1 (visitConst inside) e l = Ok (r, [])))
    (P1 := fun l k v r _ => forall inside, entries (visitConst inside) (Some k) (Some v) l = Ok (r, [])); intros inside; unfold complete in *.
  - cbn [visitConst visitNumber]. rewrite stoi_sto, (within_sto 32 s z) by (try assumption; unfold within in *; lia). reflexivity.
  - cbn [visitConst visitNumber]. rewrite stoi_sto, (within_sto 32 s z) by (try assumption; unfold within in *; lia). reflexivity.
  - cbn [visitConst visitNumber]. rewrite stoi_sto, (within_sto 32 s z) by assumption. reflexivity.
  - cbn [visitConst visitNumber]. rewrite stol_sto, (within_sto 64 s z) by assumption. reflexivity.
  - cbn [visitConst visitNumber]. rewrite e. reflexivity.
  - cbn [visitConst visitNumber]. rewrite e. reflexivity.
  - cbn [visitConst visitNumber]. rewrite e. reflexivity.
  - cbn [visitConst]. unfold visitString. rewrite e. reflexivity.
  - cbn [visitConst]. unfold visitString. rewrite e. reflexivity.
  - cbn [visitConst]. unfold visitString. rewrite e. reflexivity.
  - cbn [visitConst]. unfold visitString. rewrite e. reflexivity.
  - cbn [visitConst]. unfold visitString. rewrite e. reflexivity.
  - cbn [visitConst]. unfold visitString. rewrite e. destruct (undash_complete _ _ u0) as [-> ->]. rewrite e0. reflexivity.
  - cbn [visitConst]. unfold visitDate. rewrite e. replace (parse_date s) with (Some day); [reflexivity|]. symmetry. apply date_value. eauto.
  - cbn [visitConst]. unfold visitTimestamp. rewrite e. apply timestamp_iff in s0. rewrite s0. unfold to_time_t, clock_ticks, clock_range in *. replace ((- 2 ^ 63 <=? z * 1000000000) && (z * 1000000000 <? 2 ^ 63))%Z with true by lia. reflexivity.
  - cbn [visitConst]. unfold visitTime. rewrite e. rewrite (clock_value _ _ c). reflexivity.
  - reflexivity.
  - reflexivity.
  - cbn [visitConst]. destruct t; cbn in h, s, e; destruct u; cbn in *; try contradiction; repeat match goal with X : _ /\ _ |- _ => destruct X end; subst; reflexivity.
  - reflexivity.
  - reflexivity.
  - destruct l as [|p l]; [congruence|]. rewrite visit_map, IHMeans. reflexivity.
  - rewrite visit_list. rewrite (proj2 (IHMeans true) e eq_refl). reflexivity.
  - rewrite visit_struct. unfold structure. rewrite (proj1 (IHMeans true)). destruct (members_length _ _ _ m) as [L1 L2]. rewrite L1, Nat.eqb_refl. destruct r as [|x r]; [destruct l; [congruence|discriminate]|]. reflexivity.
  - rewrite visit_year. unfold structure. cbn [each2]. rewrite (IHMeans1 true), (IHMeans2 true). reflexivity.
  - rewrite visit_day. unfold structure. cbn [each2]. rewrite (IHMeans1 true), (IHMeans2 true), (IHMeans3 true). reflexivity.
  - split; [reflexivity|]. reflexivity.
  - destruct (IHMeans0 inside) as [E1 E2]. split; [cbn [each2]; rewrite (IHMeans inside), E1; reflexivity|]. intros e He. cbn [length repeat] in He. injection He as -> ->. cbn [each1]. fold (each1 (visitConst inside) e).
    rewrite (IHMeans inside), (E2 e eq_refl). reflexivity.
  - reflexivity.
  - cbn [entries]. fold (entries (visitConst inside) (Some k) (Some v)). rewrite (IHMeans1 inside), (IHMeans2 inside), (IHMeans3 inside). reflexivity.
Qed.

(** * Constants as tokens *)
Definition mark (b : bool) : list token := if b then [(QUESTIONMARK, $"?")] else [].
Definition open_ : token := (LEFTANGLEBRACKET, $"<").
Definition close_ : token := (RIGHTANGLEBRACKET, $">").
Definition comma_ : token := (COMMA, $",").
(** Types: the text and the tokens *)
Inductive TypeTokens : list token -> Prop :=
| TW_basic s ts : TypeText s ts -> TypeTokens ts
| TW_list w b ts : TypeTokens ts -> TypeTokens ((LIST, w) :: mark b ++ [open_] ++ ts ++ [close_])
| TW_map w b k ks ts : TypeText k ks -> TypeTokens ts -> TypeTokens ((MAP, w) :: mark b ++ [open_] ++ ks ++ [comma_] ++ ts ++ [close_])
| TW_struct w b ts rest : TypeTokens ts -> MoreTypes rest -> TypeTokens ((STRUCT, w) :: mark b ++ [open_] ++ ts ++ rest ++ [close_])
with MoreTypes : list token -> Prop :=
| MW_nil : MoreTypes []
| MW_cons ts rest : TypeTokens ts -> MoreTypes rest -> MoreTypes ([comma_] ++ ts ++ rest).
Scheme TypeTokens_mind := Induction for TypeTokens Sort Prop
with MoreTypes_mind := Induction for MoreTypes Sort Prop.
(** The type of a constant, after an underscore *)
Definition Suffix (T : list token -> Prop) (ty : option str) (ts : list token) : Prop :=
  match ty with None => ts = [] | Some s => exists tts, ts = (UNDERSCORE, $"_") :: tts /\ T tts /\ text_of tts = s end.
Definition Basic (ts : list token) : Prop := exists s, TypeText s ts.
(** Constants *)
Inductive Written : cnode -> list token -> Prop :=
| WR_number t ty sx : Suffix Basic ty sx -> Written (CNumber t ty) ((NUMBER, t) :: sx)
| WR_string t ty sx : Suffix Basic ty sx -> Written (CString t ty) ((STRING, t) :: sx)
| WR_true w ty sx : Suffix Basic ty sx -> Written (CTrue ty) ((TRUEVAL, w) :: sx)
| WR_false w ty sx : Suffix Basic ty sx -> Written (CFalse ty) ((FALSEVAL, w) :: sx)
| WR_null w ty sx : Suffix TypeTokens ty sx -> Written (CNull ty) ((NULLVAL, w) :: sx)
| WR_empty ty sx : Suffix TypeTokens ty sx -> Written (CMap [] ty) ([(LEFTBRACE, $"{"); (RIGHTBRACE, $"}")] ++ sx)
| WR_map a b l ta tb tl ty sx : Written a ta -> Written b tb -> MorePairs l tl -> Suffix TypeTokens ty sx ->
    Written (CMap ((a, b) :: l) ty) ([(LEFTBRACE, $"{")] ++ ta ++ [(COLON, $":")] ++ tb ++ tl ++ [(RIGHTBRACE, $"}")] ++ sx)
| WR_struct a l ta tl ty sx : Written a ta -> MoreConstants l tl -> Suffix TypeTokens ty sx -> Written (CStruct (a :: l) ty) ([(LEFTBRACE, $"{")] ++ ta ++ tl ++ [(RIGHTBRACE, $"}")] ++ sx)
with MorePairs : list (cnode * cnode) -> list token -> Prop :=
| MP_nil : MorePairs [] []
| MP_cons a b l ta tb tl : Written a ta -> Written b tb -> MorePairs l tl -> MorePairs ((a, b) :: l) ([comma_] ++ ta ++ [(COLON, $":")] ++ tb ++ tl)
with MoreConstants : list cnode -> list token -> Prop :=
| MC_nil : MoreConstants [] []
| MC_cons a l ta tl : Written a ta -> MoreConstants l tl -> MoreConstants (a :: l) ([comma_] ++ ta ++ tl).
Scheme Written_mind := Induction for Written Sort Prop
with MorePairs_mind := Induction for MorePairs Sort Prop
with MoreConstants_mind := Induction for MoreConstants Sort Prop.

Lemma type_starts ts : TypeTokens ts -> forall k, t_start (ts ++ k) <> TNo.
Proof. intros [s q T|w b q _|w b k ks q _ _|w b q r _ _] k'; [rewrite (tt_start _ _ T)|..]; discriminate. Qed.
Lemma start_optional fuel ts : t_start ts <> TNo -> match t_start ts with TNo => Some ([], ts) | _ => p_complex fuel ts end = p_complex fuel ts.
Proof. destruct (t_start ts); congruence. Qed.
Lemma opened_reads (w : str) b k : (let '(q, r) := maybe (t_question (mark b ++ open_ :: k)) (mark b ++ open_ :: k) in match t_langle r with Some (l, r) => Some (w ++ q ++ l, r) | None => None end) =
  Some (w ++ text_of (mark b ++ [open_]), k).
Proof. destruct b; reflexivity. Qed.
Definition struct_more (fuel : nat) : nat -> str -> list token -> option (str * list token) :=
  fix more (n : nat) (acc : str) (ts : list token) : option (str * list token) :=
    match n, t_comma ts with
    | S n, Some (c, r) => match p_complex fuel r with Some (b, r) => more n (acc ++ c ++ b) r | None => None end
    | _, _ => match t_rangle ts with Some (t, r) => Some (acc ++ t, r) | _ => None end
    end.
Lemma complex_list fuel w b ts : p_complex (S fuel) ((LIST, w) :: mark b ++ open_ :: ts) =
  match (match t_start ts with TNo => Some ([], ts) | _ => p_complex fuel ts end) with
  | Some (e, r) => match t_rangle r with Some (t, r) => Some (((w ++ text_of (mark b ++ [open_])) ++ e) ++ t, r) | _ => None end
  | None => None
  end.
Proof. cbn [p_complex t_start]. rewrite (opened_reads w b ts). reflexivity. Qed.
Lemma complex_map fuel w b ts : p_complex (S fuel) ((MAP, w) :: mark b ++ open_ :: ts) =
  match (match t_start ts with TBasic => p_basic ts | _ => Some ([], ts) end) with
  | Some (a, r) =>
      let '(c, r) := maybe (t_comma r) r in
      match (match t_start r with TNo => Some ([], r) | _ => p_complex fuel r end) with
      | Some (e, r) => match t_rangle r with Some (t, r) => Some (((w ++ text_of (mark b ++ [open_])) ++ a ++ c ++ e) ++ t, r) | _ => None end
      | None => None
      end
  | None => None
  end.
Proof. cbn [p_complex t_start]. rewrite (opened_reads w b ts). reflexivity. Qed.
Lemma complex_struct fuel w b ts : p_complex (S fuel) ((STRUCT, w) :: mark b ++ open_ :: ts) =
  match (match t_start ts with TNo => Some ([], ts) | _ => p_complex fuel ts end) with
  | Some (a, r) => struct_more fuel (length r) ((w ++ text_of (mark b ++ [open_])) ++ a) r
  | None => None
  end.
Proof. cbn [p_complex t_start]. rewrite (opened_reads w b ts). reflexivity. Qed.
Lemma text_cons kd (w : str) (ts : list token) : text_of ((kd, w) :: ts) = w ++ text_of ts.
Proof. reflexivity. Qed.
Ltac texts := unfold open_, close_, comma_; repeat progress rewrite ?text_of_app, ?text_cons; change (text_of []) with (@nil ascii); rewrite ?app_nil_r, <- ?app_assoc; try reflexivity.
Ltac lens H := repeat progress (rewrite ?app_length in H; cbn [length app] in H).
Lemma types_parse ts : TypeTokens ts -> forall fuel k, length ts < fuel -> follow k -> p_complex fuel (ts ++ k) = Some (text_of ts, k).
Proof.
  intros H. induction H as [s ts T|w b ts H IH|w b key ks ts T H IH|w b ts rest H IH M IHM| |ts rest H IH M IHM] using TypeTokens_mind with
    (P0 := fun rest _ => forall fuel acc k n, length rest < fuel -> length rest <= n -> struct_more fuel n acc (rest ++ close_ :: k) = Some (acc ++ text_of rest ++ $">", k) /\ follow (rest ++ close_ :: k)); intros fuel.
  - intros k Hf Hk. destruct fuel as [|fuel]; [lia|]. rewrite (tt_complex s ts fuel k T Hk). rewrite (tt_text _ _ T). reflexivity.
  - intros k Hf Hk. destruct fuel as [|fuel]; [lia|]. cbn [app]. rewrite <- !app_assoc. cbn [app]. rewrite <- ?app_assoc. cbn [app]. rewrite complex_list, start_optional by (apply type_starts, H). lens Hf.
    rewrite (IH fuel) by (try lia; reflexivity). cbn [t_rangle close_]. f_equal. f_equal. texts.
  - intros k Hf Hk. destruct fuel as [|fuel]; [lia|]. cbn [app]. rewrite <- !app_assoc. cbn [app]. rewrite <- ?app_assoc. cbn [app]. rewrite <- ?app_assoc. cbn [app]. rewrite complex_map. rewrite (tt_start _ _ T). rewrite (tt_parse _ _ T) by reflexivity. cbn [t_comma maybe comma_].
    rewrite start_optional by (apply type_starts, H). lens Hf.
    rewrite (IH fuel) by (try lia; reflexivity). cbn [t_rangle close_]. f_equal. f_equal. rewrite <- (tt_text _ _ T). texts.
  - intros k Hf Hk. destruct fuel as [|fuel]; [lia|]. cbn [app]. rewrite <- !app_assoc. cbn [app]. rewrite <- ?app_assoc. cbn [app]. rewrite complex_struct, start_optional by (apply type_starts, H). lens Hf.
    destruct (IHM fuel ((w ++ text_of (mark b ++ [open_])) ++ text_of ts) k (length (rest ++ close_ :: k)) ltac:(lia) ltac:(rewrite app_length; lia)) as [E F].
    rewrite <- ?app_assoc. cbn [app]. rewrite (IH fuel) by (try lia; exact F). rewrite E. f_equal. f_equal. texts.
  - intros acc k n _ _. split; [|reflexivity]. destruct n; reflexivity.
  - intros acc k n Hf Hn. split; [|reflexivity]. cbn [app] in *. cbn [length] in Hf, Hn. rewrite app_length in Hf, Hn. destruct n as [|n]; [lia|]. cbn [struct_more t_comma comma_]. fold (struct_more fuel).
    destruct (IHM fuel (acc ++ $"," ++ text_of ts) k n ltac:(lia) ltac:(lia)) as [E F]. rewrite <- app_assoc. rewrite (IH fuel) by (try lia; exact F). rewrite E. f_equal. f_equal. texts.
Qed.

Lemma basic_parse ts : Basic ts -> forall k, follow k -> p_basic (ts ++ k) = Some (text_of ts, k).
Proof. intros (s & T) k Hk. rewrite (tt_parse _ _ T k Hk), (tt_text _ _ T). reflexivity. Qed.
Lemma suffix_parse A T p (f : option str -> A) ty ts k : Suffix T ty ts -> (forall q, T q -> length q < length ts -> p (q ++ k) = Some (text_of q, k)) -> follow k ->
  p_suffix p f (ts ++ k) = Some (f ty, k).
Proof.
  intros S P Hk. destruct ty as [s|]; cbn in S.
  - destruct S as (q & -> & Hq & <-). unfold p_suffix. cbn [app t_under]. rewrite (P q Hq) by (cbn; lia). reflexivity.
  - subst ts. unfold p_suffix. cbn [app]. destruct k as [|[x w] k]; [reflexivity|]. cbn in Hk. destruct x; try discriminate Hk; reflexivity.
Qed.
Definition brace_more {A : Type} (p : list token -> option (A * list token)) : nat -> list token -> option (list A * list token) :=
  fix more (n : nat) (ts : list token) : option (list A * list token) :=
    match t_rbrace ts with
    | Some (_, r) => Some ([], r)
    | None => match n, t_comma ts with
              | S n, Some (_, r) => match p r with Some (x, r) => match more n r with Some (l, r) => Some (x :: l, r) | None => None end | None => None end
              | _, _ => None
              end
    end.
Definition brace_listed {A : Type} fuel (p : list token -> option (A * list token)) (f : list A -> option str -> cnode) (ts : list token) : option (cnode * list token) :=
  match p ts with
  | Some (x, r) => match brace_more p (length r) r with Some (l, r) => p_suffix (p_complex fuel) (f (x :: l)) r | None => None end
  | None => None
  end.
Definition brace_pair fuel (ts : list token) : option ((cnode * cnode) * list token) :=
  match p_constant fuel ts with
  | Some (k, r) => match t_colon r with
                   | Some (_, r) => match p_constant fuel r with Some (v, r) => Some ((k, v), r) | None => None end
                   | None => None
                   end
  | None => None
  end.
Lemma brace_parse fuel w r : p_constant (S fuel) ((LEFTBRACE, w) :: r) =
  match t_rbrace r with
  | Some (_, r) => p_suffix (p_complex fuel) (CMap []) r
  | None => match p_constant fuel r with
            | Some (_, r') => match t_colon r' with Some _ => brace_listed fuel (brace_pair fuel) CMap r | None => brace_listed fuel (p_constant fuel) CStruct r end
            | None => None
            end
  end.
Proof. reflexivity. Qed.
Lemma written_start c ts : Written c ts -> forall k, t_rbrace (ts ++ k) = None.
Proof. intros [] k; reflexivity. Qed.
Ltac tlia := unfold token in *; lia.
Ltac by_eq E := match type of E with _ = ?v => match goal with |- context [brace_more ?p ?n ?t] => replace (brace_more p n t) with v by (symmetry; exact E) end end.
Lemma written_parse c ts : Written c ts -> forall fuel k, length ts < fuel -> follow k -> p_constant fuel (ts ++ k) = Some (c, k).
Proof.
  intros H. induction H as [t ty sx S|t ty sx S|w ty sx S|w ty sx S|w ty sx S|ty sx S|a b l ta tb tl ty sx Ha IHa Hb IHb Hl IHl S|a l ta tl ty sx Ha IHa Hl IHl S| |a b l ta tb tl Ha IHa Hb IHb Hl IHl| |a l ta tl Ha IHa Hl IHl]
    using Written_mind with
    (P0 := fun l tl _ => forall fuel k n, length tl < fuel -> length tl <= n -> brace_more (brace_pair fuel) n (tl ++ (RIGHTBRACE, $"}") :: k) = Some (l, k) /\ follow (tl ++ (RIGHTBRACE, $"}") :: k))
    (P1 := fun l tl _ => forall fuel k n, length tl < fuel -> length tl <= n -> brace_more (p_constant fuel) n (tl ++ (RIGHTBRACE, $"}") :: k) = Some (l, k) /\ follow (tl ++ (RIGHTBRACE, $"}") :: k) /\
          t_colon (tl ++ (RIGHTBRACE, $"}") :: k) = None); intros fuel k.
  1-8: intros Hf Hk; destruct fuel as [|fuel]; [tlia|]; cbn [length] in Hf.
  1-4: cbn [p_constant c_start app]; apply (suffix_parse _ Basic); [exact S|intros q Hq _; apply basic_parse; assumption|exact Hk].
  - cbn [p_constant c_start app]. apply (suffix_parse _ TypeTokens); [exact S|intros q Hq Hl; apply types_parse; [exact Hq|tlia|exact Hk]|exact Hk].
  - cbn [app]. rewrite brace_parse. cbn [t_rbrace]. lens Hf. apply (suffix_parse _ TypeTokens); [exact S|intros q Hq Hl; apply types_parse; [exact Hq|tlia|exact Hk]|exact Hk].
  - lens Hf. cbn [app]. rewrite brace_parse. rewrite <- !app_assoc. cbn [app]. rewrite (written_start a ta Ha), (IHa fuel) by (try tlia; reflexivity). cbn [t_colon]. unfold brace_listed, brace_pair at 1.
    rewrite (IHa fuel) by (try tlia; reflexivity). cbn [t_colon]. rewrite <- !app_assoc. cbn [app].
    destruct (IHl fuel (sx ++ k) (length (tl ++ (RIGHTBRACE, $"}") :: sx ++ k)) ltac:(tlia) ltac:(rewrite app_length; tlia)) as [E F].
    rewrite (IHb fuel) by (try tlia; exact F). by_eq E. apply (suffix_parse _ TypeTokens); [exact S|intros q Hq Hx; apply types_parse; [exact Hq|tlia|exact Hk]|exact Hk].
  - lens Hf. cbn [app]. rewrite brace_parse. rewrite <- !app_assoc. cbn [app].
    destruct (IHl fuel (sx ++ k) (length (tl ++ (RIGHTBRACE, $"}") :: sx ++ k)) ltac:(tlia) ltac:(rewrite app_length; tlia)) as (E & F & C).
    rewrite (written_start a ta Ha), (IHa fuel) by (try tlia; exact F). match goal with |- context [t_colon ?t] => replace (t_colon t) with (@None (str * list token)) by (symmetry; exact C) end. unfold brace_listed. rewrite (IHa fuel) by (try tlia; exact F). by_eq E.
    apply (suffix_parse _ TypeTokens); [exact S|intros q Hq Hx; apply types_parse; [exact Hq|tlia|exact Hk]|exact Hk].
  - intros n _ _. split; [|reflexivity]. destruct n; reflexivity.
  - intros n Hf Hn. split; [|reflexivity]. lens Hf. lens Hn. destruct n as [|n]; [tlia|]. cbn [app]. rewrite <- !app_assoc. cbn [brace_more t_rbrace t_comma comma_]. fold (brace_more (brace_pair fuel)). cbn [app]. rewrite <- !app_assoc. unfold brace_pair at 1.
    rewrite (IHa fuel) by (try tlia; reflexivity). cbn [t_colon]. destruct (IHl fuel k n ltac:(tlia) ltac:(tlia)) as [E F]. rewrite (IHb fuel) by (try tlia; exact F). by_eq E. reflexivity.
  - intros n _ _. split; [|split; reflexivity]. destruct n; reflexivity.
  - intros n Hf Hn. split; [|split; reflexivity]. lens Hf. lens Hn. destruct n as [|n]; [tlia|]. cbn [app]. rewrite <- !app_assoc. cbn [brace_more t_rbrace t_comma comma_]. fold (brace_more (p_constant fuel)).
    destruct (IHl fuel k n ltac:(tlia) ltac:(tlia)) as (E & F & _). rewrite (IHa fuel) by (try tlia; exact F). by_eq E. reflexivity.
Qed.

(** * Texts that are constants *)
(** A whole text whose parse tree is [node] *)
Definition ParsedAs (s : str) (node : enode) : Prop := exists ts, tokens s = Some ts /\ p_expr (S (2 * length ts)) ts = Some (node, []).
Lemma id_rest ts : forall need acc n r, id_from need acc ts = Some (n, r) -> incl r ts.
Proof.
  induction ts as [|[k t] ts IH]; intros need acc n r H; cbn [id_from] in H.
  - destruct need; [discriminate|]. injection H as _ <-. intros x Hx. exact Hx.
  - destruct k; cbn [simple_id] in H; destruct need; try discriminate H; try (injection H as _ <-; intros x Hx; exact Hx); apply IH in H; intros x Hx; right; apply H, Hx.
Qed.
Lemma not_call ts : (forall t, ~ In (LEFTPAREN, t) ts) -> t_call ts = None.
Proof.
  intros H. unfold t_call. destruct (p_id ts) as [[n r]|] eqn:E; [|reflexivity]. unfold p_id in E. destruct ts as [|[k t] ts]; [discriminate|]. destruct (simple_id k); [|discriminate].
  apply id_rest in E. destruct r as [|[x w] r]; [reflexivity|]. destruct x; try reflexivity. destruct (H w). right. apply E. left. reflexivity.
Qed.
Lemma written_long c ts : Written c ts -> 1 <= length ts.
Proof. intros []; cbn [length app]; lia. Qed.
Lemma written_expr c ts : Written c ts -> (forall t, ~ In (LEFTPAREN, t) ts) -> p_expr (S (2 * length ts)) ts = Some (NConst c, []).
Proof.
  intros H N. pose proof (written_long _ _ H) as L. pose proof (written_parse c ts H (2 * length ts) [] ltac:(lia) I) as P. rewrite app_nil_r in P.
  remember (2 * length ts) as n. cbn [p_expr]. rewrite (not_call ts N). unfold p_null_expr, p_constant_expr. rewrite P. destruct n as [|n]; [lia|].
  assert (X : p_casts (S n) (NConst c) [] = Some (NConst c, [])) by reflexivity. destruct H; exact X.
Qed.
Lemma visit_literal ff fr fd node l : visitExpr ff fr fd node = Ok (ELit l, []) -> exists c, node = NConst c /\ visitConst false c None = Ok (l, []).
Proof.
  destruct node as [n args ty|c|t|e t|n|l0 n|b n|e op any_ n]; cbn [visitExpr]; intros H.
  - exfalso. destruct (to_lower n =s $"ifthen").
    + apply bindE_ok in H as (vs & _ & H). destruct vs as [|v vs]; [discriminate|]. destruct (pairs_of (v :: vs)); discriminate.
    + apply bindE_ok in H as (f & _ & H). apply bindE_ok in H as (vs & _ & H). apply bindE_ok in H as (y & _ & H). discriminate.
  - apply bindE_ok in H as (x & H & E). injection E as <-. exists c. split; [reflexivity|exact H].
  - exfalso. destruct (fd t) as [[st f]|]; discriminate.
  - exfalso. apply bindE_ok in H as (x & _ & H). apply bindE_ok in H as (y & _ & H). discriminate.
  - exfalso. unfold subquery in H. destruct (fr n) as [[]|]; discriminate.
  - exfalso. destruct (fr n) eqn:F; [|discriminate]. apply bindE_ok in H as (x & _ & H). unfold subquery in H. rewrite F in H. destruct b; discriminate.
  - exfalso. unfold subquery in H. destruct (fr n) as [[]|]; discriminate.
  - exfalso. apply bindE_ok in H as (x & _ & H). unfold subquery in H. destruct (fr n) as [[]|]; discriminate.
Qed.
(** Types written next to constants in braces *)
Definition in_braces (c : cnode) : bool := match c with CStruct _ _ => true | _ => false end.
Lemma typed_const c w : type_of c = Some w -> visitConst false c None = bindE (read_type (in_braces c) w) (fun t => visitConst false c (Some t)).
Proof. intros H. destruct c; cbn [type_of] in H; subst; reflexivity. Qed.
