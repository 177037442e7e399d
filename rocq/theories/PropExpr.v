(** Theorems about expressions and literals in text plans. *)
From Verif Require Import Base BaseFacts StringsModel StringsFacts EscapeModel EscapeFacts DecimalModel DecimalFacts TypeModel TypeProtoFacts LexModel LexFacts NameModel NameFacts CutFacts FloatModel
  CalendarModel ExprModel TypeTokenFacts LiteralFacts ExprFacts.
From Coq Require Import Lia ZifyBool ZifyNat ZifyN.

(** * C64: expressions *)
(** Every readable expression -- literals, columns, function calls with enum arguments, conditions and casts, nested without bounds -- is printed without
    errors as a text that reads back, without errors, as the expression it stands for. *)
Theorem C64_round_trip function_name field_name find_function find_relation find_field e e' : Readable function_name field_name find_function find_relation find_field e e' ->
  exists t, printExpr function_name field_name 0 e = Ok (t, 0) /\ readExpr find_function find_relation find_field t = Some (Ok (e', [])).
Proof. exact (readable_read function_name field_name find_function find_relation find_field e e'). Qed.
(** The same inside other text: however deep in other calls it is printed, the tokens do not depend on what follows, as long as that cannot continue a word;
    and the parser stops at the first token that cannot continue an expression. *)
Theorem C64_in_context function_name field_name find_function find_relation find_field e e' depth : Readable function_name field_name find_function find_relation find_field e e' ->
  exists t ts node, printExpr function_name field_name depth e = Ok (t, 0) /\ Cuts ends t ts /\ visitExpr find_function find_relation find_field node = Ok (e', []) /\
    forall fuel k, 2 * length ts < fuel -> follow k -> stop k -> p_expr fuel (ts ++ k) = Some (node, k).
Proof.
  intros H. destruct (readable_reads _ _ _ _ _ e e' H depth) as [(t & ts & node & E & Hc & Hp & _ & Hv & _)]. exists t, ts, node. split; [exact E|]. split; [exact Hc|]. split; [exact Hv|].
  intros fuel k Hf Hk Ha. exact (parses_whole ts node fuel k Hp Hf Hk Ha).
Qed.
(** Expressions that are printed alike are read alike: two expressions that read back as themselves and have the same text are the same. *)
Theorem C64_injective function_name field_name find_function find_relation find_field e f : Readable function_name field_name find_function find_relation find_field e e -> Readable function_name field_name find_function find_relation find_field f f ->
  printExpr function_name field_name 0 e = printExpr function_name field_name 0 f -> e = f.
Proof.
  intros He Hf E. destruct (readable_read _ _ _ _ _ e e He) as (t & P & R). destruct (readable_read _ _ _ _ _ f f Hf) as (t' & P' & R'). rewrite E, P' in P. injection P as ->. rewrite R in R'. congruence.
Qed.
(** Findings.  Function options and the failure behaviour of casts are lost without a report. *)
Theorem C64_options_refuted function_name field_name find_function find_relation find_field f args options ty e' : Readable function_name field_name find_function find_relation find_field (EFun f args [] options ty) e' ->
  exists t n f' args' ty', function_name f = Some n /\ find_function n = Some f' /\
    printExpr function_name field_name 0 (EFun f args [] options ty) = Ok (t, 0) /\ readExpr find_function find_relation find_field t = Some (Ok (EFun f' args' [] [] ty', [])).
Proof.
  intros H. destruct (readable_read _ _ _ _ _ _ _ H) as (t & P & R). inversion H; subst. eexists _, _, _, _, _. split; [eassumption|]. split; [eassumption|]. split; [exact P|exact R].
Qed.
Theorem C64_failure_refuted function_name field_name find_function find_relation find_field e ty failure e' : Readable function_name field_name find_function find_relation find_field (ECast e ty failure) e' ->
  exists t x ty', printExpr function_name field_name 0 (ECast e ty failure) = Ok (t, 0) /\ readExpr find_function find_relation find_field t = Some (Ok (ECast x ty' 0, [])).
Proof.
  intros H. destruct (readable_read _ _ _ _ _ _ _ H) as (t & P & R). inversion H; subst. eexists _, _, _. split; [exact P|exact R].
Qed.
(** An element of a list, a value of a map and a field of a field are printed as the whole column (the first one for lists and maps). *)
Theorem C64_inner_refuted function_name field_name depth s r : printExpr function_name field_name depth (ESel s r) =
  printExpr function_name field_name depth (ESel (SegField (match s with SegField f _ => f | _ => 0%Z end) None) r).
Proof. destruct s; reflexivity. Qed.
(** A field of the result of an expression is printed as a column of the input. *)
Theorem C64_root_refuted function_name field_name depth s : printExpr function_name field_name depth (ESel s RootExpression) = printExpr function_name field_name depth (ESel s RootRef).
Proof. reflexivity. Qed.
(** A masked reference stops the whole conversion: inside any call, with whatever other arguments before it that are printed. *)
Theorem C64_masked_refuted function_name field_name depth r f args rest deprecated options ty :
  Forall (fun a => match a with AValue e => exists p, printExpr function_name field_name (S depth) e = Ok p | _ => True end) args ->
  printExpr function_name field_name depth (EFun f (args ++ AValue (EMasked r) :: rest) deprecated options ty) = Throw EBadAnyCast.
Proof.
  intros H. cbn [printExpr]. rewrite map_app, <- app_assoc. cbn [map app]. change commas with (go true).
  match goal with |- obind (go _ (?l ++ ?x :: ?m)) _ = _ => assert (X : forall b, go b (l ++ x :: m) = Throw EBadAnyCast) end; [|rewrite X; reflexivity].
  generalize (map (fun a : arg expr => match a with AValue e => printExpr function_name field_name (S depth) e | AEnum s => Ok (s ++ $"_enum", 0) | AType t => Ok (printType t)
    | AUnset => Ok ($"SCALAR_FUNCTION_ARGUMENT_TYPE_MISSING", 1) end) rest ++ map (printExpr function_name field_name (S depth)) deprecated). intros m.
  induction H as [|a args Ha _ IH]; intros b; cbn [map app go]; [reflexivity|].
  destruct a as [e|w|t|]; [destruct Ha as (p & ->)| | |]; cbn [obind]; rewrite IH; reflexivity.
Qed.
(** A call of a function named ifthen is read as a condition, whatever the table of functions says. *)
Theorem C64_ifthen_refuted find_function find_relation find_field n args ty e' errs : to_lower n = $"ifthen" -> visitExpr find_function find_relation find_field (NFun n args ty) = Ok (e', errs) -> forall f a d o t, e' <> EFun f a d o t.
Proof.
  intros Hn H. cbn [visitExpr] in H. rewrite Hn in H. change ($"ifthen" =s $"ifthen") with true in H. cbv iota in H. unfold bindE in H.
  destruct (eachE _ args) as [[l x]| |]; cbn in H; try discriminate. destruct l; cbn in H; [injection H as <- _; discriminate|]. destruct (match l with [] => _ | _ => _ end) as [p o]. cbn in H. injection H as <- _. discriminate.
Qed.
Print Assumptions C64_round_trip. Print Assumptions C64_in_context. Print Assumptions C64_injective. Print Assumptions C64_options_refuted. Print Assumptions C64_failure_refuted.
Print Assumptions C64_inner_refuted. Print Assumptions C64_root_refuted. Print Assumptions C64_masked_refuted. Print Assumptions C64_ifthen_refuted.
Definition ex_fn (f : N) : option str := nth_error [$"add"; $"lt"; $"extract"] (N.to_nat f).
Definition ex_find (n : str) : option N := if n =s $"add" then Some 0%N else if n =s $"lt" then Some 1%N else if n =s $"extract" then Some 2%N else None.
Definition ex_field (steps : N) (f : Z) : option str := if (steps =? 0)%N then nth_error [$"orders.price"; $"due"; $"kind_enum"] (Z.to_nat f) else if (steps =? 1)%N then Some $"outer.key" else None.
Definition ex_find_field (n : str) : option (N * Z) :=
  if n =s $"orders.price" then Some (0%N, 0%Z) else if n =s $"due" then Some (0%N, 1%Z) else if n =s $"kind_enum" then Some (0%N, 2%Z) else if n =s $"outer.key" then Some (1%N, 4%Z) else None.
Definition ex_rel (n : str) : option bool := if n =s $"totals" then Some true else if n =s $"prices" then Some true else if n =s $"picks_enum" then Some true else None.
Definition ex_i32 : ptype := PtScalar SI32 NRequired.
Definition ex_col (f : Z) : expr := ESel (SegField f None) RootRef.
(** IFTHEN(lt(orders.price, outer.key)->bool?, extract(YEAR_enum, due AS date)->i64, -5_i32) *)
Definition ex_expr : expr :=
  EIfThen [(Some (EFun 1 [AValue (ex_col 0); AValue (ESel (SegField 4 None) (RootOuter 1))] [] [] (PtScalar SBool NNullable)),
            Some (EFun 2 [AEnum $"YEAR"; AValue (ECast (ex_col 1) (PtScalar SDate NRequired) 0)] [] [] (PtScalar SI64 NRequired)))]
          (Some (ELit (Lit (LI32 (-5)) false))).
Ltac name := apply (proj1 (read_name_iff _)); vm_compute; reflexivity.
Ltac notnull := split; [vm_compute; discriminate|intros ?; vm_compute; discriminate].
Ltac column := apply Column_plain; [name|notnull].
Example C64_case : Readable ex_fn ex_field ex_find ex_rel ex_find_field ex_expr ex_expr /\
  printExpr ex_fn ex_field 0 ex_expr = Ok ($"IFTHEN(lt(orders.price, outer.key)->bool?, extract(YEAR_enum, due AS date)->i64, -5_i32)", 0).
Proof.
  split; [|vm_compute; reflexivity]. unfold ex_expr. apply RD_if; [repeat constructor| |left; discriminate].
  - apply (RD_function ex_fn ex_field ex_find ex_rel ex_find_field 1 1 $"lt" _ [AValue (ex_col 0); AValue (ESel (SegField 4 None) (RootOuter 1))] [] [] []); try reflexivity; try discriminate; [name| |constructor|apply (PR_scalar SBool NNullable); cbn; tauto].
    constructor; [|constructor; [|constructor]]; constructor; try reflexivity.
    + apply (RD_column ex_fn ex_field ex_find ex_rel ex_find_field (SegField 0 None) RootRef $"orders.price" 0 0); [reflexivity|apply (Column_schema $"orders" $"price"); [name|notnull|name]|reflexivity].
    + apply (RD_column ex_fn ex_field ex_find ex_rel ex_find_field (SegField 4 None) (RootOuter 1) $"outer.key" 1 4); [reflexivity|apply (Column_schema $"outer" $"key"); [name|notnull|name]|reflexivity].
  - apply (RD_function ex_fn ex_field ex_find ex_rel ex_find_field 2 2 $"extract" _ [AEnum $"YEAR"; AValue (ECast (ex_col 1) (PtScalar SDate NRequired) 0)] [] [] []); try reflexivity; try discriminate; [name| |constructor|apply (PR_scalar SI64 NRequired); cbn; tauto].
    constructor; [apply AR_enum; [name|notnull]|constructor; [|constructor]]. constructor; [|reflexivity]. apply RD_cast; [|apply (PR_scalar SDate NRequired); cbn; tauto].
    apply (RD_column ex_fn ex_field ex_find ex_rel ex_find_field (SegField 1 None) RootRef $"due" 0 1); [reflexivity|column|reflexivity].
  - constructor. apply RD_literal. constructor. split; lia.
Qed.
Example C64_options_case : exists t, printExpr ex_fn ex_field 0 (EFun 0 [AValue (ex_col 1); AValue (ex_col 1)] [] [($"overflow", [$"SATURATE"])] ex_i32) = Ok (t, 0) /\
  readExpr ex_find ex_rel ex_find_field t = Some (Ok (EFun 0 [AValue (ex_col 1); AValue (ex_col 1)] [] [] ex_i32, [])).
Proof. exists $"add(due, due)->i32". split; vm_compute; reflexivity. Qed.
Example C64_failure_case : exists t, printExpr ex_fn ex_field 0 (ECast (ex_col 1) ex_i32 2) = Ok (t, 0) /\ readExpr ex_find ex_rel ex_find_field t = Some (Ok (ECast (ex_col 1) ex_i32 0, [])).
Proof. exists $"due AS i32". split; vm_compute; reflexivity. Qed.

(** * C68: arguments *)
(** Finding: a column whose name ends in _enum is printed, as an argument of a function, exactly like an enum argument, among whatever other arguments; *)
Theorem C68_enum_refuted function_name field_name depth f s seg r args rest deprecated options ty : field_name (steps_of r) (field_of seg) = Some (s ++ $"_enum") ->
  printExpr function_name field_name depth (EFun f (args ++ AValue (ESel seg r) :: rest) deprecated options ty) = printExpr function_name field_name depth (EFun f (args ++ AEnum s :: rest) deprecated options ty).
Proof.
  intros H. cbn [printExpr]. rewrite !map_app. cbn [map printExpr]. unfold lookupFieldReference. rewrite H. destruct args; reflexivity.
Qed.
(** and is read as one, without a report. *)
Theorem C68_read_refuted function_name field_name find_function find_relation find_field f f' n s seg r options ty ty' : field_name (steps_of r) (field_of seg) = Some (s ++ $"_enum") ->
  function_name f = Some n -> Name n -> to_lower n <> $"ifthen" -> find_function n = Some f' -> Name (s ++ $"_enum") -> not_null (s ++ $"_enum") -> Printable ty ty' ->
  exists t, printExpr function_name field_name 0 (EFun f [AValue (ESel seg r)] [] options ty) = Ok (t, 0) /\ readExpr find_function find_relation find_field t = Some (Ok (EFun f' [AEnum s] [] [] ty', [])).
Proof.
  intros H H1 H2 H3 H4 H5 H6 H7. pose proof (C68_enum_refuted function_name field_name 0 f s seg r [] [] [] options ty H) as E. cbn [app] in E. rewrite E. apply readable_read.
  apply (RD_function _ _ _ _ _ f f' n [AEnum s] [AEnum s] [] [] options ty ty'); auto; [|discriminate]. constructor; [apply AR_enum; assumption|constructor].
Qed.
(** A type as an argument is printed as its name, and is then read as a column: reported as unknown if there is no column of that name. *)
Theorem C68_type_refuted : exists t, printExpr ex_fn ex_field 0 (EFun 0 [AType ex_i32] [] [] ex_i32) = Ok (t, 0) /\ forall find_field, find_field $"i32" = None ->
  readExpr ex_find ex_rel find_field t = Some (Ok (EFun 0 [AValue EUnset] [] [] ex_i32, [XNoField $"i32"])).
Proof.
  exists $"add(i32)->i32". split; [vm_compute; reflexivity|]. intros find_field H. unfold readExpr. replace (tokens $"add(i32)->i32") with (Some [(IDENTIFIER, $"add"); (LEFTPAREN, $"("); (IDENTIFIER, $"i32"); (RIGHTPAREN, $")"); (ARROW, $"->"); (IDENTIFIER, $"i32")]) by (vm_compute; reflexivity).
  match goal with |- match ?p with _ => _ end = _ => replace p with (Some (NFun $"add" [($"i32", NCol $"i32")] (Some $"i32"), @nil token)) by (vm_compute; reflexivity) end.
  cbn [visitExpr eachE]. replace (endsWith $"i32" enum_suffix) with false by (vm_compute; reflexivity). replace (to_lower $"add" =s $"ifthen") with false by (vm_compute; reflexivity). rewrite H.
  unfold read_type. replace (textToTypeProto false $"i32") with (Ok (ex_i32, @nil terr)) by (vm_compute; reflexivity). vm_compute. reflexivity.
Qed.
(** An enum argument that no column hides is kept, beside any other arguments. *)
Theorem C68_kept function_name field_name find_function find_relation find_field f f' n args args' deprecated deprecated' options ty ty' :
  function_name f = Some n -> Name n -> to_lower n <> $"ifthen" -> find_function n = Some f' ->
  Forall2 (ArgReads field_name (Readable function_name field_name find_function find_relation find_field)) args args' ->
  Forall2 (DeprecatedReads field_name (Readable function_name field_name find_function find_relation find_field)) deprecated deprecated' -> args' ++ deprecated' <> [] -> Printable ty ty' ->
  exists t, printExpr function_name field_name 0 (EFun f args deprecated options ty) = Ok (t, 0) /\ readExpr find_function find_relation find_field t = Some (Ok (EFun f' (args' ++ deprecated') [] [] ty', [])).
Proof. intros. apply readable_read. eapply RD_function; eassumption. Qed.
Print Assumptions C68_enum_refuted. Print Assumptions C68_read_refuted. Print Assumptions C68_type_refuted. Print Assumptions C68_kept.
Example C68_case : exists t, printExpr ex_fn ex_field 0 (EFun 0 [AValue (ex_col 1); AValue (ex_col 2)] [] [] ex_i32) = Ok (t, 0) /\
  readExpr ex_find ex_rel ex_find_field t = Some (Ok (EFun 0 [AValue (ex_col 1); AEnum $"kind"] [] [] ex_i32, [])).
Proof. exists $"add(due, kind_enum)->i32". split; vm_compute; reflexivity. Qed.

(** * C49: integer literals *)
(** Every integer of the right size is printed as a text that reads back as the same literal, nullable or not, wherever it stands. *)
Inductive Integer : literal -> Prop :=
| I_i8 z n : (-128 <= z <= 127)%Z -> Integer (Lit (LI8 z) n)
| I_i16 z n : (-32768 <= z <= 32767)%Z -> Integer (Lit (LI16 z) n)
| I_i32 z n : (-2147483648 <= z <= 2147483647)%Z -> Integer (Lit (LI32 z) n)
| I_i64 z n : (-9223372036854775808 <= z <= 9223372036854775807)%Z -> Integer (Lit (LI64 z) n).
Theorem C49_round_trip l find_function find_relation find_field : Integer l -> snd (printLiteral l) = 0 /\ readExpr find_function find_relation find_field (fst (printLiteral l)) = Some (Ok (ELit l, [])).
Proof.
  intros H. assert (R : ReadsAs l l) by (destruct H; constructor; unfold int32, int64; lia).
  destruct (readable_read (fun _ => None) (fun _ _ => None) find_function find_relation find_field _ _ (RD_literal _ _ _ _ _ l l R)) as (t & P & Q). cbn [printExpr] in P. injection P as P. rewrite P. split; [reflexivity|exact Q].
Qed.
Print Assumptions C49_round_trip.
Example C49_case : printLiteral (Lit (LI64 (-9223372036854775808)) true) = ($"-9223372036854775808_i64?", 0) /\ Integer (Lit (LI64 (-9223372036854775808)) true).
Proof. split; [vm_compute; reflexivity|constructor; lia]. Qed.

(** * C72: other literals *)
(** Strings, dates, intervals, decimals and finite floating point numbers are printed as texts that read back as literals of the same kind and value (for floating
    point numbers: the value of the printed text).  Missing: nullability, negative decimals and the kinds below. *)
Theorem C72_round_trip_partial l l' find_function find_relation find_field : ReadsAs l l' -> snd (printLiteral l) = 0 /\ readExpr find_function find_relation find_field (fst (printLiteral l)) = Some (Ok (ELit l', [])).
Proof.
  intros R. destruct (readable_read (fun _ => None) (fun _ _ => None) find_function find_relation find_field _ _ (RD_literal _ _ _ _ _ l l' R)) as (t & P & Q). cbn [printExpr] in P. injection P as P. rewrite P. split; [reflexivity|exact Q].
Qed.
(** Finding: nullable strings, dates and intervals are read as literals that are not nullable, without a report. *)
Theorem C72_nullable_refuted v l' find_function find_relation find_field : ReadsAs (Lit v true) l' -> match v with LString _ | LDate _ | LIntervalYear _ _ | LIntervalDay _ _ _ => True | _ => False end ->
  snd (printLiteral (Lit v true)) = 0 /\ readExpr find_function find_relation find_field (fst (printLiteral (Lit v true))) = Some (Ok (ELit (Lit v false), [])).
Proof. intros R H. replace (Lit v false) with l'; [apply C72_round_trip_partial, R|]. inversion R; subst; try reflexivity; destruct H. Qed.
(** Finding: booleans are printed as numbers without a type, which is reported when the text is read: no boolean in a binary plan survives. *)
Theorem C72_boolean_refuted b find_function find_relation find_field : snd (printLiteral (Lit (LBool b) false)) = 0 /\ readExpr find_function find_relation find_field (fst (printLiteral (Lit (LBool b) false))) = Some (Ok (ELit (Lit LUnset false), [XNoType])) /\
  readExpr find_function find_relation find_field (fst (printLiteral (Lit (LBool b) true))) = None.
Proof. destruct b; vm_compute; repeat split; reflexivity. Qed.
(** Finding: the other kinds of literals cannot be printed; that is reported. *)
Theorem C72_unprinted v n : match v with LBinary _ | LTimestamp _ | LTime _ | LFixedBinary _ | LStruct _ | LMap _ | LTimestampTz _ | LUuid _ | LNull _ | LList _ | LEmptyList _ _ | LEmptyMap _ | LUserDefined | LUnset => True | _ => False end ->
  snd (printLiteral (Lit v n)) = 1.
Proof. destruct v; intros []; reflexivity. Qed.
Print Assumptions C72_round_trip_partial. Print Assumptions C72_nullable_refuted. Print Assumptions C72_boolean_refuted. Print Assumptions C72_unprinted.
Example C72_case : ReadsAs (Lit (LString $"it's ""so""") true) (Lit (LString $"it's ""so""") false) /\ ReadsAs (Lit (LIntervalDay (-3) 4 5) false) (Lit (LIntervalDay (-3) 4 5) false) /\
  fst (printLiteral (Lit (LIntervalDay (-3) 4 5) false)) = $"{-3_days, 4_seconds, 5_microseconds}_interval_day".
Proof. split; [constructor; vm_compute; intuition discriminate|]. split; [constructor; split; lia|vm_compute; reflexivity]. Qed.

(** * C73: numbers outside their types *)
(** A number written with an integer type is read as exactly that number, or something is reported.  Finding: an i8 or an i16 is not checked, *)
Theorem C73_range_refuted z find_function find_relation find_field : int32 z -> readExpr find_function find_relation find_field (print_Z z ++ $"_i8") = Some (Ok (ELit (Lit (LI8 z) false), [])) /\
  readExpr find_function find_relation find_field (print_Z z ++ $"_i16") = Some (Ok (ELit (Lit (LI16 z) false), [])).
Proof.
  intros H. split.
  - assert (R : ReadsAs (Lit (LI8 z) false) (Lit (LI8 z) false)) by (constructor; exact H). destruct (C72_round_trip_partial _ _ find_function find_relation find_field R) as [_ E]. cbn [printLiteral with_null fst] in E. rewrite app_nil_r in E. exact E.
  - assert (R : ReadsAs (Lit (LI16 z) false) (Lit (LI16 z) false)) by (constructor; exact H). destruct (C72_round_trip_partial _ _ find_function find_relation find_field R) as [_ E]. cbn [printLiteral with_null fst] in E. rewrite app_nil_r in E. exact E.
Qed.
(** and what follows the whole part of a number is ignored: 1.5e9_i32 is 1. *)
Theorem C73_fraction_refuted z d f e find_function find_relation find_field : z = Z.of_N d -> int32 z -> f = [] \/ LFraction f -> e = [] \/ LExponent e ->
  readExpr find_function find_relation find_field ((print_N d ++ f ++ e) ++ $"_i32") = Some (Ok (ELit (Lit (LI32 z) false), [])).
Proof. intros -> R Hf He. change ($"_i32") with ($"_" ++ $"i32"). apply (text_reads _ (_, 0)). exact (truncated_literal d f e R Hf He). Qed.
Print Assumptions C73_range_refuted. Print Assumptions C73_fraction_refuted.
Example C73_case : readExpr (fun _ => None) (fun _ => None) (fun _ => None) $"1.5e+9_i32" = Some (Ok (ELit (Lit (LI32 1) false), [])) /\ readExpr (fun _ => None) (fun _ => None) (fun _ => None) $"300_i8" = Some (Ok (ELit (Lit (LI8 300) false), [])) /\ LExponent $"e+9".
Proof. split; [vm_compute; reflexivity|]. split; [vm_compute; reflexivity|]. constructor; [reflexivity|left; reflexivity|split; [discriminate|reflexivity]]. Qed.
