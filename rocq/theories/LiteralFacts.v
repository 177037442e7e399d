(** Literals: printed, cut into tokens, parsed and evaluated. *)
From Verif Require Import Base BaseFacts StringsModel StringsFacts EscapeModel EscapeFacts DecimalModel DecimalFacts TypeModel TypeFacts TypeCaseFacts TypeTextFacts TypeProtoFacts LexModel LexFacts NameModel NameFacts
  CutFacts FloatModel CalendarModel CalendarFacts ExprModel TypeTokenFacts.
From Coq Require Import Lia ZifyBool ZifyNat ZifyN.

(** * Specification *)
Definition int64 (z : Z) : Prop := (-9223372036854775808 <= z <= 9223372036854775807)%Z.
Definition finite (v : fl) : Prop := match v with FFin _ _ _ => True | _ => False end.
(** The literals that are printed as a text that can be read, and what they are read as.  Strings, dates and intervals lose their nullability. *)
Inductive ReadsAs : literal -> literal -> Prop :=
| RL_i8 z n : int32 z -> ReadsAs (Lit (LI8 z) n) (Lit (LI8 z) n)
| RL_i16 z n : int32 z -> ReadsAs (Lit (LI16 z) n) (Lit (LI16 z) n)
| RL_i32 z n : int32 z -> ReadsAs (Lit (LI32 z) n) (Lit (LI32 z) n)
| RL_i64 z n : int64 z -> ReadsAs (Lit (LI64 z) n) (Lit (LI64 z) n)
| RL_fp32 v v' n : finite v -> stod single (fp_text v) = Ok v' -> ReadsAs (Lit (LFp32 v) n) (Lit (LFp32 v') n)
| RL_fp64 v v' n : finite v -> stod double (fp_text v) = Ok v' -> ReadsAs (Lit (LFp64 v) n) (Lit (LFp64 v') n)
| RL_string s n : no_backslash s -> ReadsAs (Lit (LString s) n) (Lit (LString s) false)
| RL_date z n : (-719528 <= z <= 2932896)%Z -> ReadsAs (Lit (LDate z) n) (Lit (LDate z) false)
| RL_interval_year y m n : int32 y -> int32 m -> ReadsAs (Lit (LIntervalYear y m) n) (Lit (LIntervalYear y m) false)
| RL_interval_day d s u n : int32 d -> int32 s -> int32 u -> ReadsAs (Lit (LIntervalDay d s u) n) (Lit (LIntervalDay d s u) false)
| RL_fixedchar s : no_backslash s -> int32 (Z.of_nat (length s)) -> ReadsAs (Lit (LFixedChar s) false) (Lit (LFixedChar s) false)
| RL_varchar s len : no_backslash s -> int32 len -> ReadsAs (Lit (LVarChar s len) false) (Lit (LVarChar s len) false)
| RL_decimal v w : 1 <= length (dp_value v) <= 16 -> (0 <= twos (dp_value v))%Z -> (1 <= dp_precision v <= 38)%Z -> int32 (dp_scale v) ->
    length (dp_value w) = 16 -> twos (dp_value w) = twos (dp_value v) -> dp_precision w = dp_precision v -> dp_scale w = dp_scale v ->
    ReadsAs (Lit (LDecimal v) false) (Lit (LDecimal w) false).

(** * Numbers *)
Lemma stol_print z : int64 z -> stol (print_Z z) = Ok z.
Proof.
  intros R. unfold int64 in R.
  assert (P : forall n, (Z.of_N n <= 9223372036854775807)%Z -> stol (print_N n) = Ok (Z.of_N n)).
  { intros n Hn. unfold stol. pose proof (print_N_nonempty n) as Ne. pose proof (print_N_digits n) as D. pose proof (print_N_val n) as V. destruct (print_N n) as [|c r]; [congruence|].
    cbn [forallb] in D. apply andb_true_iff in D as [Dc D]. assert (Dc' := Dc). apply digit_cases in Dc'.
    assert (W : ~ ws c) by (cbn in Dc'; repeat (destruct Dc' as [<- | Dc']; [intros I; cbv in I; intuition discriminate|]); destruct Dc').
    assert (S1 : ceq c "-" = false) by (cbn in Dc'; repeat (destruct Dc' as [<- | Dc']; [reflexivity|]); destruct Dc').
    assert (S2 : ceq c "+" = false) by (cbn in Dc'; repeat (destruct Dc' as [<- | Dc']; [reflexivity|]); destruct Dc').
    rewrite ltrim_head by exact W. rewrite S1, S2. rewrite take_digits_all by (cbn [forallb]; rewrite Dc, D; reflexivity). rewrite V.
    replace ((-9223372036854775808 <=? Z.of_N n) && (Z.of_N n <=? 9223372036854775807))%Z with true by lia. reflexivity. }
  destruct z as [|p|p]; cbn [print_Z].
  - apply (P 0%N). lia.
  - apply (P (N.pos p)). lia.
  - unfold stol. rewrite ltrim_head by (intros I; cbv in I; intuition discriminate). change (ceq "-"%char "-"%char) with true. cbv zeta beta iota.
    rewrite take_digits_all by apply print_N_digits. pose proof (print_N_nonempty (Npos p)) as Ne. pose proof (print_N_val (Npos p)) as V.
    destruct (print_N (N.pos p)) as [|c r]; [congruence|]. rewrite V.
    replace ((-9223372036854775808 <=? - Z.of_N (N.pos p)) && (- Z.of_N (N.pos p) <=? 9223372036854775807))%Z with true by lia. reflexivity.
Qed.
(** The text of a finite number *)
Lemma all_repeat k : forallb is_digit (repeat "0"%char k) = true.
Proof. induction k; [reflexivity|assumption]. Qed.
Lemma forallb_firstn {A} (f : A -> bool) n l : forallb f l = true -> forallb f (firstn n l) = true.
Proof. revert n. induction l as [|x l IH]; intros [|n] H; auto. cbn in *. apply andb_true_iff in H as [-> H]. cbn. auto. Qed.
Lemma forallb_skipn {A} (f : A -> bool) n l : forallb f l = true -> forallb f (skipn n l) = true.
Proof. revert n. induction l as [|x l IH]; intros [|n] H; auto. cbn in *. apply andb_true_iff in H as [_ H]. auto. Qed.
Lemma exponent_text x : LExponent ($"e" ++ (if (x <? 0)%Z then $"-" else $"+") ++ two_digits (Z.to_N (Z.abs x))).
Proof.
  assert (D : some_ is_digit (two_digits (Z.to_N (Z.abs x)))).
  { unfold two_digits. destruct (_ <? 10)%N; (split; [|unfold all_; cbn [forallb]; rewrite ?print_N_digits; reflexivity]); [discriminate|apply print_N_nonempty]. }
  change ($"e" ++ (if (x <? 0)%Z then $"-" else $"+") ++ two_digits (Z.to_N (Z.abs x))) with ("e"%char :: (if (x <? 0)%Z then $"-" else $"+") ++ two_digits (Z.to_N (Z.abs x))).
  destruct (x <? 0)%Z; constructor; auto.
Qed.
Lemma g_number m ds x : m = [] \/ m = ["-"%char] -> ds <> [] -> forallb is_digit ds = true -> LNumber (m ++ g_text ds x).
Proof.
  intros Hm Hne Hd. unfold g_text. destruct ds as [|c r]; [congruence|].
  destruct ((x <? -4) || (6 <=? x))%Z.
  - cbn [forallb] in Hd. apply andb_true_iff in Hd as [Hc Hr].
    change (m ++ c :: match r with [] => [] | _ :: _ => "."%char :: r end ++ $"e" ++ (if (x <? 0)%Z then $"-" else $"+") ++ two_digits (Z.to_N (Z.abs x)))
      with (m ++ [c] ++ match r with [] => [] | _ :: _ => "."%char :: r end ++ ($"e" ++ (if (x <? 0)%Z then $"-" else $"+") ++ two_digits (Z.to_N (Z.abs x)))).
    apply LN; [exact Hm|split; [discriminate|unfold all_; cbn; rewrite Hc; reflexivity]| |right; apply exponent_text].
    destruct r as [|c' r]; [left; reflexivity|right]. constructor. split; [discriminate|exact Hr].
  - destruct (x <? 0)%Z eqn:Ex.
    + change (m ++ $"0." ++ repeat "0"%char (Z.to_nat (- x - 1)) ++ c :: r) with (m ++ $"0" ++ ("."%char :: repeat "0"%char (Z.to_nat (- x - 1)) ++ c :: r)).
      rewrite <- (app_nil_r ("."%char :: _)). apply LN; [exact Hm|split; [discriminate|reflexivity]|right; constructor|left; reflexivity].
      split; [destruct (repeat _ _); discriminate|]. unfold all_. rewrite forallb_app, all_repeat. exact Hd.
    + destruct (length (c :: r) <=? S (Z.to_nat x)) eqn:El.
      * assert (X := LN m ((c :: r) ++ repeat "0"%char (S (Z.to_nat x) - length (c :: r))) [] []). rewrite !app_nil_r in X. apply X; auto. split; [discriminate|].
        unfold all_. rewrite forallb_app, all_repeat, Hd. reflexivity.
      * assert (X := LN m (firstn (S (Z.to_nat x)) (c :: r)) ($"." ++ skipn (S (Z.to_nat x)) (c :: r)) []). rewrite app_nil_r in X. apply X; auto.
        { split; [discriminate|]. apply forallb_firstn, Hd. }
        { right. constructor. split; [|apply forallb_skipn, Hd]. intros E. apply (f_equal (@length _)) in E. rewrite skipn_length in E. cbn [length] in *. lia. }
Qed.
Lemma fp_number v : finite v -> LNumber (fp_text v).
Proof.
  destruct v as [neg d e| |]; [|intros []|intros []]. intros _. cbn [fp_text].
  assert (Hm : sign neg = [] \/ sign neg = ["-"%char]) by (destruct neg; auto). destruct (d =? 0)%N.
  - assert (X := LN (sign neg) $"0" [] []). rewrite !app_nil_r in X. apply X; auto. split; [discriminate|reflexivity].
  - unfold six. destruct (_ =? 1000000)%N; apply g_number; auto using print_N_nonempty, print_N_digits.
Qed.

(** * Literals *)
Definition const_start (ts : list token) : Prop := match ts with (NUMBER, _) :: _ | (STRING, _) :: _ | (LEFTBRACE, _) :: _ => True | _ => False end.
Record LitText (l' : literal) (p : printed) : Prop := {
  lt_errors : snd p = 0;
  lt_reads : exists ts c, Cuts ends (fst p) ts /\ const_start ts /\ (forall fuel k, 2 <= fuel -> follow k -> p_constant fuel (ts ++ k) = Some (c, k)) /\
    visitConstant c = Ok (l', []) /\ last_char (text_of ts) <> "m"%char /\ 1 <= length ts }.
(** A token followed by an underscore and a type *)
Lemma suffix_reads {A} p (f : option str -> A) ty tts k : p (tts ++ k) = Some (ty, k) -> p_suffix p f ((UNDERSCORE, $"_") :: tts ++ k) = Some (f (Some ty), k).
Proof. intros H. unfold p_suffix. cbn [t_under]. rewrite H. reflexivity. Qed.
Lemma suffix_cuts t (x : token) ty tts (F : str -> Prop) : Cuts F t [x] -> (forall r, F ($"_" ++ r)) -> TypeText ty tts -> Cuts ends (t ++ $"_" ++ ty) (x :: (UNDERSCORE, $"_") :: tts).
Proof.
  intros Ht HF Hty. change (x :: (UNDERSCORE, $"_") :: tts) with ([x] ++ [(UNDERSCORE, $"_")] ++ tts).
  eapply cuts_app; [exact Ht|apply (cuts_any ends $"_" ty [(UNDERSCORE, $"_")] tts); [exact cuts_under|apply Hty]|]. intros r _. rewrite <- app_assoc. apply HF.
Qed.
Lemma number_literal l' t ty t' n s : LNumber t -> Printable ty t' -> s = t ++ $"_" ++ fst (printType ty) -> visitNumber t t' = Ok (l', []) -> n = 0 ->
  LitText l' (s, n).
Proof.
  intros Ht Hty -> Hv ->. destruct (printable_text ty t' Hty) as (tts & T). split; [reflexivity|].
  exists ((NUMBER, t) :: (UNDERSCORE, $"_") :: tts), (CNumber t (Some (fst (printType ty)))).
  split; [apply (suffix_cuts t (NUMBER, t) _ tts no_number); [apply cuts_number, Ht| |exact T]; intros r; cbn; repeat split; discriminate|].
  split; [exact I|]. split.
  { intros fuel k Hf Hk. destruct fuel as [|fuel]; [lia|]. cbn [p_constant app c_start]. apply suffix_reads, (tt_parse _ _ T), Hk. }
  split.
  { unfold visitConstant. cbn [visitConst type_of]. unfold read_type. rewrite (proj2 (print_roundtrip _ _ _ Hty)). cbn [obind fst snd map bindE orb]. rewrite Hv. reflexivity. }
  split; [|cbn; lia]. change (text_of ((NUMBER, t) :: (UNDERSCORE, $"_") :: tts)) with (t ++ $"_" ++ text_of tts). rewrite (tt_text _ _ T). rewrite !last_app; [apply T|apply T|discriminate].
Qed.
Lemma string_literal l' v ty t' n s : no_backslash v -> Printable ty t' -> s = printQuoted v ++ $"_" ++ fst (printType ty) ->
  (match t' with PtScalar SDate _ => visitDate (printQuoted v) | PtScalar STimestamp _ => visitTimestamp (printQuoted v) | PtScalar STime _ => visitTime (printQuoted v) | PtScalar STimestampTz _ => good (Lit (LNotModelled (printQuoted v)) false) | _ => visitString (printQuoted v) t' end) = Ok (l', []) ->
  n = 0 -> LitText l' (s, n).
Proof.
  intros Ht Hty -> Hv ->. destruct (printable_text ty t' Hty) as (tts & T). split; [reflexivity|].
  exists ((STRING, printQuoted v) :: (UNDERSCORE, $"_") :: tts), (CString (printQuoted v) (Some (fst (printType ty)))).
  split; [apply (suffix_cuts (printQuoted v) (STRING, printQuoted v) _ tts any); [apply cuts_printed, Ht| |exact T]; intros r; exact I|].
  split; [exact I|]. split.
  { intros fuel k Hf Hk. destruct fuel as [|fuel]; [lia|]. cbn [p_constant app c_start]. apply suffix_reads, (tt_parse _ _ T), Hk. }
  split.
  { unfold visitConstant. cbn [visitConst type_of]. unfold read_type. rewrite (proj2 (print_roundtrip _ _ _ Hty)). cbn [obind fst snd map bindE orb]. rewrite Hv. reflexivity. }
  split; [|cbn [length]; lia]. change (text_of ((STRING, printQuoted v) :: (UNDERSCORE, $"_") :: tts)) with (printQuoted v ++ $"_" ++ text_of tts).
  rewrite (tt_text _ _ T). rewrite !last_app; [apply T|apply T|discriminate].
Qed.
Definition nn (n : bool) : pnull := if n then NNullable else NRequired.
Lemma with_null_text (n : bool) (a : str) ty (w : str) : fst (printType ty) = w ++ (if n then $"?" else []) -> with_null n (a ++ $"_" ++ w) = (a ++ $"_" ++ fst (printType ty), 0).
Proof. intros ->. unfold with_null. rewrite <- !app_assoc. reflexivity. Qed.
Ltac scalar := constructor; cbn; tauto.
Lemma int_literal l' z k (n : bool) (w : str) : In k [SBool; SI8; SI16; SI32; SI64; SFp32; SFp64; SString; SDate] -> fst (printType (PtScalar k (nn n))) = w ++ (if n then $"?" else []) ->
  visitNumber (print_Z z) (PtScalar k (read_null (nn n))) = Ok (l', []) -> LitText l' (with_null n (print_Z z ++ $"_" ++ w)).
Proof.
  intros Hk Hw Hv. rewrite (with_null_text n _ _ w Hw). eapply number_literal; [apply print_Z_number|constructor; exact Hk|reflexivity|exact Hv|reflexivity].
Qed.
(** Intervals *)
Lemma name_two a b : Name a -> Name b -> no_compound (a ++ $"_" ++ b) -> existsb (ceq under) a = false -> Name (a ++ $"_" ++ b).
Proof.
  intros Ha Hb Hc Hu. destruct Ha as [w Hw Hr | w k n Hw Hr _ _]; [apply (Name_more w 0 b Hw Hr Hc Hb)|].
  exfalso. rewrite existsb_app in Hu. apply orb_false_iff in Hu as [_ Hu]. cbn in Hu. discriminate.
Qed.
Lemma interval_type w : In w [$"interval_year"; $"interval_day"] -> exists ts, TypeText w ts.
Proof.
  intros H. assert (N : Name w /\ last_char w <> "m"%char).
  { assert (C : forall c r, In c compounds -> forall x, In x [$"interval_year"; $"interval_day"] -> to_lower x <> c ++ r).
    { intros c r Hc x Hx E. assert (X : forallb (fun c => match c with d :: _ => negb (ceq d "i") | [] => false end) compounds = true) by reflexivity. rewrite forallb_forall in X. specialize (X c Hc).
      destruct c as [|d c]; [discriminate|]. cbn in Hx. destruct Hx as [<- | [<- | []]]; injection E as <- _; discriminate. }
    cbn in H. destruct H as [<- | [<- | []]]; (split; [|discriminate]).
    - apply (name_two $"interval" $"year"); [small_name|small_name| |reflexivity]. intros c r Hc. apply (C c r Hc). left. reflexivity.
    - apply (name_two $"interval" $"day"); [small_name|small_name| |reflexivity]. intros c r Hc. apply (C c r Hc). right. left. reflexivity. }
  destruct N as [N L]. exists (type_tokens w false []). assert (E : w = type_text w false []) by (unfold type_text; rewrite !app_nil_r; reflexivity). rewrite E at 1. apply type_is; auto.
Qed.
(** a number with a unit, as part of an interval *)
Definition unit_tokens (z : Z) (w : str) : list token := [(NUMBER, print_Z z); (UNDERSCORE, $"_"); (IDENTIFIER, w)].
Definition units : list str := [$"years"; $"months"; $"days"; $"seconds"; $"microseconds"].
Lemma unit_cuts z w : In w units -> Cuts ends (print_Z z ++ $"_" ++ w) (unit_tokens z w).
Proof.
  intros H. unfold unit_tokens. change [(NUMBER, print_Z z); (UNDERSCORE, $"_"); (IDENTIFIER, w)] with ([(NUMBER, print_Z z)] ++ [(UNDERSCORE, $"_")] ++ [(IDENTIFIER, w)]).
  eapply cuts_app; [apply cuts_number, print_Z_number|apply (cuts_any ends $"_" w [(UNDERSCORE, $"_")]); [exact cuts_under|]|intros r _; cbn; repeat split; discriminate].
  assert (K : word_kind w = IDENTIFIER /\ LIdentifier w).
  { cbn in H. repeat (destruct H as [<- | H]; [split; [reflexivity|constructor; reflexivity]|]). destruct H. }
  destruct K as [K L]. rewrite <- K. apply cuts_word; [exact L|rewrite K; reflexivity|rewrite K; reflexivity].
Qed.
Definition unit_end (k : list token) : Prop := match k with (COMMA, _) :: _ | (RIGHTBRACE, _) :: _ => True | _ => False end.
Lemma unit_parse z w fuel k : unit_end k -> p_constant (S fuel) (unit_tokens z w ++ k) = Some (CNumber (print_Z z) (Some w), k).
Proof.
  intros H. destruct k as [|[x t] k]; [destruct H|]. cbn [unit_tokens app p_constant c_start p_suffix t_under p_basic p_id simple_id id_from]. destruct x; try destruct H; unfold p_basic; cbn [p_id simple_id id_from t_question maybe t_langle]; rewrite app_nil_r; reflexivity.
Qed.
Lemma last_any s : last_char (s ++ $"}") = "}"%char.
Proof. rewrite last_app by discriminate. reflexivity. Qed.
Lemma interval_year_literal y m n : int32 y -> int32 m -> LitText (Lit (LIntervalYear y m) false) (printLiteral (Lit (LIntervalYear y m) n)).
Proof.
  intros Hy Hm. split; [reflexivity|]. destruct (interval_type $"interval_year") as (tts0 & T0); [cbn; tauto|].
  assert (T : exists w tts, TypeText w tts /\ w = $"interval_year" ++ (if n then $"?" else []) /\ read_type true w = Ok (PtScalar SIntervalYear (nn n), [])).
  { destruct n; [|exists $"interval_year", tts0; split; [exact T0|]; split; [reflexivity|vm_compute; reflexivity]].
    exists $"interval_year?", (type_tokens $"interval_year" true []). split; [|split; [reflexivity|vm_compute; reflexivity]].
    apply (type_is $"interval_year" true []); [|discriminate|constructor]. apply (name_two $"interval" $"year"); [small_name|small_name| |reflexivity].
    intros c r Hc E. assert (X : forallb (fun c => match c with d :: _ => negb (ceq d "i") | [] => false end) compounds = true) by reflexivity. rewrite forallb_forall in X. specialize (X c Hc).
    destruct c as [|d c]; [discriminate|]. injection E as <- _. discriminate. }
  destruct T as (w & tts & T & Ew & Hr).
  exists ([(LEFTBRACE, $"{")] ++ unit_tokens y $"years" ++ [(COMMA, $",")] ++ unit_tokens m $"months" ++ [(RIGHTBRACE, $"}")] ++ [(UNDERSCORE, $"_")] ++ tts),
    (CStruct [CNumber (print_Z y) (Some $"years"); CNumber (print_Z m) (Some $"months")] (Some w)).
  split.
  { cbn [printLiteral with_null fst]. replace (($"{" ++ print_Z y ++ $"_years, " ++ print_Z m ++ $"_months}_interval_year") ++ (if n then $"?" else []))
      with ($"{" ++ (print_Z y ++ $"_" ++ $"years") ++ $", " ++ (print_Z m ++ $"_" ++ $"months") ++ $"}" ++ $"_" ++ w) by (rewrite Ew, <- !app_assoc; reflexivity).
    apply (cuts_any ends _ _ [(LEFTBRACE, $"{")] _ cuts_lbrace). eapply cuts_app; [apply unit_cuts; cbn; tauto| |intros r _; split; [reflexivity|discriminate]].
    apply (cuts_any ends _ _ [(COMMA, $",")] _ cuts_comma_space). eapply cuts_app; [apply unit_cuts; cbn; tauto| |intros r _; split; [reflexivity|discriminate]].
    apply (cuts_any ends _ _ [(RIGHTBRACE, $"}")] _ cuts_rbrace). apply (cuts_any ends _ _ [(UNDERSCORE, $"_")] _ cuts_under). apply T. }
  split; [exact I|]. split.
  { intros fuel k Hf Hk. destruct fuel as [|[|fuel]]; [lia|lia|]. rewrite <- !app_assoc. remember (S fuel) as f1 eqn:E1. cbn [app p_constant c_start]. cbn [app unit_tokens t_rbrace].
    change ((NUMBER, print_Z y) :: (UNDERSCORE, $"_") :: (IDENTIFIER, $"years") :: (COMMA, $",") :: (NUMBER, print_Z m) :: (UNDERSCORE, $"_") :: (IDENTIFIER, $"months") :: (RIGHTBRACE, $"}") :: (UNDERSCORE, $"_") :: tts ++ k)
      with (unit_tokens y $"years" ++ (COMMA, $",") :: unit_tokens m $"months" ++ (RIGHTBRACE, $"}") :: (UNDERSCORE, $"_") :: tts ++ k).
    subst f1. rewrite (unit_parse y $"years" fuel) by exact I. cbn [t_colon]. 
    set (U := unit_tokens m $"months"). cbn [length]. cbn [t_rbrace t_comma]. unfold U. rewrite (unit_parse m $"months" fuel) by exact I.
    rewrite app_length. cbn [unit_tokens length Nat.add t_rbrace]. apply suffix_reads, tt_complex; [exact T|exact Hk]. }
  split.
  { unfold visitConstant. cbn [visitConst type_of orb]. rewrite Hr. unfold bindE at 1. cbn [obind fst snd visitNumber]. rewrite (stoi_print y Hy), (stoi_print m Hm). reflexivity. }
  split; [|cbn [app length unit_tokens]; lia]. rewrite !app_assoc, text_of_app, (tt_text _ _ T). rewrite last_app; apply T.
Qed.
Lemma interval_day_type n : exists w tts, TypeText w tts /\ w = $"interval_day" ++ (if n : bool then $"?" else []) /\ read_type true w = Ok (PtScalar SIntervalDay (nn n), []).
Proof.
  destruct (interval_type $"interval_day") as (tts0 & T0); [cbn; tauto|].
  destruct n; [|exists $"interval_day", tts0; split; [exact T0|]; split; [reflexivity|vm_compute; reflexivity]].
  exists $"interval_day?", (type_tokens $"interval_day" true []). split; [|split; [reflexivity|vm_compute; reflexivity]].
  apply (type_is $"interval_day" true []); [|discriminate|constructor]. apply (name_two $"interval" $"day"); [small_name|small_name| |reflexivity].
  intros c r Hc E. assert (X : forallb (fun c => match c with d :: _ => negb (ceq d "i") | [] => false end) compounds = true) by reflexivity. rewrite forallb_forall in X. specialize (X c Hc).
  destruct c as [|d c]; [discriminate|]. injection E as <- _. discriminate.
Qed.
Lemma interval_day_literal d s u n : int32 d -> int32 s -> int32 u -> LitText (Lit (LIntervalDay d s u) false) (printLiteral (Lit (LIntervalDay d s u) n)).
Proof.
  intros Hd Hs Hu. split; [reflexivity|]. destruct (interval_day_type n) as (w & tts & T & Ew & Hr).
  exists ([(LEFTBRACE, $"{")] ++ unit_tokens d $"days" ++ [(COMMA, $",")] ++ unit_tokens s $"seconds" ++ [(COMMA, $",")] ++ unit_tokens u $"microseconds" ++ [(RIGHTBRACE, $"}")] ++ [(UNDERSCORE, $"_")] ++ tts),
    (CStruct [CNumber (print_Z d) (Some $"days"); CNumber (print_Z s) (Some $"seconds"); CNumber (print_Z u) (Some $"microseconds")] (Some w)).
  split.
  { cbn [printLiteral with_null fst]. replace (($"{" ++ print_Z d ++ $"_days, " ++ print_Z s ++ $"_seconds, " ++ print_Z u ++ $"_microseconds}_interval_day") ++ (if n then $"?" else []))
      with ($"{" ++ (print_Z d ++ $"_" ++ $"days") ++ $", " ++ (print_Z s ++ $"_" ++ $"seconds") ++ $", " ++ (print_Z u ++ $"_" ++ $"microseconds") ++ $"}" ++ $"_" ++ w) by (rewrite Ew, <- !app_assoc; reflexivity).
    apply (cuts_any ends _ _ [(LEFTBRACE, $"{")] _ cuts_lbrace). eapply cuts_app; [apply unit_cuts; cbn; tauto| |intros r _; split; [reflexivity|discriminate]].
    apply (cuts_any ends _ _ [(COMMA, $",")] _ cuts_comma_space). eapply cuts_app; [apply unit_cuts; cbn; tauto| |intros r _; split; [reflexivity|discriminate]].
    apply (cuts_any ends _ _ [(COMMA, $",")] _ cuts_comma_space). eapply cuts_app; [apply unit_cuts; cbn; tauto| |intros r _; split; [reflexivity|discriminate]].
    apply (cuts_any ends _ _ [(RIGHTBRACE, $"}")] _ cuts_rbrace). apply (cuts_any ends _ _ [(UNDERSCORE, $"_")] _ cuts_under). apply T. }
  split; [exact I|]. split.
  { intros fuel k Hf Hk. destruct fuel as [|[|fuel]]; [lia|lia|]. rewrite <- !app_assoc. remember (S fuel) as f1 eqn:E1. cbn [app p_constant c_start]. cbn [app unit_tokens t_rbrace].
    change ((NUMBER, print_Z d) :: (UNDERSCORE, $"_") :: (IDENTIFIER, $"days") :: (COMMA, $",") :: (NUMBER, print_Z s) :: (UNDERSCORE, $"_") :: (IDENTIFIER, $"seconds") :: (COMMA, $",") ::
      (NUMBER, print_Z u) :: (UNDERSCORE, $"_") :: (IDENTIFIER, $"microseconds") :: (RIGHTBRACE, $"}") :: (UNDERSCORE, $"_") :: tts ++ k)
      with (unit_tokens d $"days" ++ (COMMA, $",") :: unit_tokens s $"seconds" ++ (COMMA, $",") :: unit_tokens u $"microseconds" ++ (RIGHTBRACE, $"}") :: (UNDERSCORE, $"_") :: tts ++ k).
    subst f1. rewrite (unit_parse d $"days" fuel) by exact I. cbn [t_colon].
    set (U := unit_tokens s $"seconds"). cbn [length]. cbn [t_rbrace t_comma]. unfold U. rewrite (unit_parse s $"seconds" fuel) by exact I.
    rewrite app_length. change (length (unit_tokens s $"seconds")) with 3. cbn [Nat.add t_rbrace t_comma]. rewrite (unit_parse u $"microseconds" fuel) by exact I.
    cbn [t_rbrace]. apply suffix_reads, tt_complex; [exact T|exact Hk]. }
  split.
  { unfold visitConstant. cbn [visitConst type_of orb]. rewrite Hr. unfold bindE at 1. cbn [obind fst snd visitNumber]. rewrite (stoi_print d Hd), (stoi_print s Hs), (stoi_print u Hu). reflexivity. }
  split; [|cbn [app length unit_tokens]; lia]. rewrite !app_assoc, text_of_app, (tt_text _ _ T). rewrite last_app; apply T.
Qed.
(** Decimals *)
Lemma twos_bound b : length b <= 16 -> (twos b < 2 ^ 127)%Z.
Proof.
  intros L. unfold twos. assert (B : (Z.of_N (le_value b) < 256 ^ Z.of_nat (length b))%Z).
  { pose proof (le_value_bound b) as X. apply N2Z.inj_lt in X. rewrite N2Z.inj_pow, nat_N_Z in X. exact X. }
  assert (P : (256 ^ Z.of_nat (length b) <= 2 ^ 128)%Z).
  { change 256%Z with (2 ^ 8)%Z. rewrite <- Z.pow_mul_r by lia. apply Z.pow_le_mono_r; lia. }
  change (2 ^ 128)%Z with (2 * 2 ^ 127)%Z in P. cbv zeta. destruct (_ <? _)%Z eqn:E; lia.
Qed.
Lemma bytes16 b : length b = 16 -> (0 <= twos b)%Z -> b = uint128ToBytes (Z.to_N (twos b)) /\ (Z.to_N (twos b) < two128)%N.
Proof.
  intros L P. pose proof (twos_bound b ltac:(lia)) as U. assert (V : (Z.to_N (twos b) < two128)%N) by (change two128 with (2 * 2 ^ 127)%N; lia). split; [|exact V].
  apply le_value_inj; [rewrite uint128ToBytes_length; exact L|]. rewrite uint128ToBytes_value by exact V.
  unfold twos in *. rewrite L in *. cbv zeta in *. pose proof (le_value_bound b) as B. rewrite L in B. change (256 ^ N.of_nat 16)%N with (N.pos (2 ^ 128)) in B. change (256 ^ Z.of_nat 16)%Z with (2 ^ 128)%Z in *.
  destruct (_ <? _)%Z eqn:E; lia.
Qed.
Lemma decimal_literal v w : 1 <= length (dp_value v) <= 16 -> (0 <= twos (dp_value v))%Z -> (1 <= dp_precision v <= 38)%Z -> int32 (dp_scale v) ->
    length (dp_value w) = 16 -> twos (dp_value w) = twos (dp_value v) -> dp_precision w = dp_precision v -> dp_scale w = dp_scale v ->
    LitText (Lit (LDecimal w) false) (printLiteral (Lit (LDecimal v) false)).
Proof.
  intros L P Hp Hs Lw Ew Ep Es. cbn [printLiteral]. destruct (toBaseString_numeral (fromProto v) L) as (s & -> & Hn). cbn [fromProto d_value d_precision d_scale] in *.
  assert (X : s = print_N (Z.to_N (twos (dp_value v)))).
  { apply (numeral_of_unique _ _ (twos (dp_value v)) Hn). pose proof (print_Z_numeral (twos (dp_value v))) as Y. destruct (twos (dp_value v)); [exact Y|exact Y|lia]. }
  subst s. unfold with_null. rewrite app_nil_r.
  assert (Pr : Printable (PtDecimal (dp_precision v) (dp_scale v) NRequired) (PtDecimal (dp_precision v) (dp_scale v) NRequired)) by (apply (PR_decimal _ _ NRequired); [unfold int32; lia|exact Hs]).
  eapply number_literal; [apply print_N_number|exact Pr|reflexivity| |reflexivity].
  cbn [visitNumber]. destruct (bytes16 (dp_value w) Lw ltac:(lia)) as [Eb Lb]. rewrite Ew in Eb, Lb.
  rewrite (proj2 (fromString_valid _ _ _ _ (DecimalFacts.print_N_text _) Lb) Hp). rewrite (fromString_value _ _ _ _ (DecimalFacts.print_N_text _) Lb). rewrite <- Eb.
  unfold toProto. cbn [d_value d_precision d_scale]. rewrite <- Ep, <- Es. destruct w. reflexivity.
Qed.
Lemma date_quoted z : no_backslash (date_text z) /\ printQuoted (date_text z) = [dquote] ++ date_text z ++ [dquote].
Proof.
  assert (A : forallb (fun c => is_digit c || ceq c "-") (date_text z) = true).
  { unfold date_text, civil_text. assert (D : forall w n, forallb (fun c => is_digit c || ceq c "-") (pad w n) = true).
    { intros w n. pose proof (pad_digits w n) as H. rewrite forallb_forall in *. intros c Hc. rewrite (H c Hc). reflexivity. }
    rewrite !forallb_app, !D. destruct (_ <? 0)%Z; reflexivity. }
  rewrite forallb_forall in A. assert (B : forall c, In c (date_text z) -> In c $"0123456789-").
  { intros c Hc. specialize (A c Hc). apply orb_prop in A as [A | A]; [apply digit_cases in A; cbn in *; tauto|apply ceq_true in A; subst; cbn; tauto]. }
  split.
  - unfold no_backslash. intros Hc. apply B in Hc. cbn in Hc. intuition discriminate.
  - unfold printQuoted. cbn [app]. f_equal. f_equal. clear A. induction (date_text z) as [|c s IH]; [reflexivity|]. cbn [stringEscape]. rewrite IH by (intros; apply B; right; assumption).
    specialize (B c (or_introl eq_refl)). cbn in B. repeat (destruct B as [<- | B]; [reflexivity|]). destruct B.
Qed.
Lemma literal_text l l' : ReadsAs l l' -> LitText l' (printLiteral l).
Proof.
  intros H. destruct H.
  - cbn [printLiteral]. apply (int_literal _ z SI8 n $"i8"); [cbn; tauto|destruct n; reflexivity|cbn [visitNumber]; rewrite stoi_print by assumption; destruct n; reflexivity].
  - cbn [printLiteral]. apply (int_literal _ z SI16 n $"i16"); [cbn; tauto|destruct n; reflexivity|cbn [visitNumber]; rewrite stoi_print by assumption; destruct n; reflexivity].
  - cbn [printLiteral]. apply (int_literal _ z SI32 n $"i32"); [cbn; tauto|destruct n; reflexivity|cbn [visitNumber]; rewrite stoi_print by assumption; destruct n; reflexivity].
  - cbn [printLiteral]. apply (int_literal _ z SI64 n $"i64"); [cbn; tauto|destruct n; reflexivity|cbn [visitNumber]; rewrite stol_print by assumption; destruct n; reflexivity].
  - cbn [printLiteral]. change ($"_fp32") with ($"_" ++ $"fp32"). rewrite (with_null_text n (fp_text v) (PtScalar SFp32 (nn n)) $"fp32") by (destruct n; reflexivity).
    eapply (number_literal _ (fp_text v) (PtScalar SFp32 (nn n))); [apply (fp_number v); assumption|constructor; cbn; tauto|reflexivity|cbn [visitNumber]; rewrite H0; destruct n; reflexivity|reflexivity].
  - cbn [printLiteral]. change ($"_fp64") with ($"_" ++ $"fp64"). rewrite (with_null_text n (fp_text v) (PtScalar SFp64 (nn n)) $"fp64") by (destruct n; reflexivity).
    eapply (number_literal _ (fp_text v) (PtScalar SFp64 (nn n))); [apply (fp_number v); assumption|constructor; cbn; tauto|reflexivity|cbn [visitNumber]; rewrite H0; destruct n; reflexivity|reflexivity].
  - cbn [printLiteral]. change ($"_string") with ($"_" ++ $"string"). rewrite (with_null_text n (printQuoted s) (PtScalar SString (nn n)) $"string") by (destruct n; reflexivity).
    eapply (string_literal _ s (PtScalar SString (nn n))); [eassumption|constructor; cbn; tauto|reflexivity| |reflexivity]. cbn [visitString]. unfold visitString. rewrite evalString_printed by assumption. reflexivity.
  - cbn [printLiteral]. destruct (date_quoted z) as [Nb Q]. replace ([dquote] ++ date_text z ++ [dquote] ++ $"_date") with (printQuoted (date_text z) ++ $"_" ++ $"date") by (rewrite Q, <- !app_assoc; reflexivity).
    rewrite (with_null_text n (printQuoted (date_text z)) (PtScalar SDate (nn n)) $"date") by (destruct n; reflexivity).
    eapply (string_literal _ (date_text z) (PtScalar SDate (nn n))); [eassumption|constructor; cbn; tauto|reflexivity| |reflexivity]. unfold visitDate. rewrite evalString_printed by assumption. rewrite date_roundtrip by assumption. reflexivity.
  - apply interval_year_literal; assumption.
  - apply interval_day_literal; assumption.
  - cbn [printLiteral]. unfold with_null. rewrite app_nil_r.
    assert (E : print_N (N.of_nat (length s)) = print_Z (Z.of_nat (length s))) by (rewrite <- nat_N_Z; destruct (N.of_nat (length s)); reflexivity). rewrite E.
    eapply (string_literal _ s (PtFixedChar (Z.of_nat (length s)) NRequired)); [eassumption|apply (PR_fixedchar _ NRequired); eassumption|reflexivity| |reflexivity]. unfold visitString. rewrite evalString_printed by assumption. reflexivity.
  - cbn [printLiteral]. unfold with_null. rewrite app_nil_r.
    eapply (string_literal _ s (PtVarchar len NRequired)); [eassumption|apply (PR_varchar _ NRequired); eassumption|reflexivity| |reflexivity]. unfold visitString. rewrite evalString_printed by assumption. reflexivity.
  - apply decimal_literal; assumption.
Qed.
