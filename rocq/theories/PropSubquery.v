(** Theorems about subqueries in text plans. *)
From Verif Require Import Base BaseFacts StringsModel StringsFacts EnumModel EnumFacts TypeModel TypeProtoFacts LexModel LexFacts NameModel NameFacts CutFacts FloatModel
  CalendarModel ExprModel TypeTokenFacts LiteralFacts ExprFacts FirstFacts ResolveFacts RelModel RelFacts SubqueryFacts PropExpr PropRel.
From Coq Require Import Lia ZifyBool ZifyNat ZifyN.

(** * C86: subqueries *)
(** The text is read in two passes, because the relations of subqueries are put together between them.  An expression without subqueries means the same in both, errors included, except
    that columns that are not there are reported by the last pass only. *)
Theorem C86_passes_agree find_function find_relation find_field node : has_subquery node = false ->
  visitFirst find_function find_field false node = but_columns (bindE (visitExpr find_function find_relation find_field node) (fun x => good (FExpr x))).
Proof. exact (passes_agree find_function find_relation find_field node). Qed.
(** Whatever is read without errors by the last pass is read without errors by the first pass exactly if it is [direct]: otherwise the first pass has no expression for it. *)
Theorem C86_first_pass find_function find_relation find_field inner node e : visitExpr find_function find_relation find_field node = Ok (e, []) ->
  (direct e = true <-> exists x, visitFirst find_function find_field inner node = Ok (FExpr x, [])) /\
  (direct e = false -> forall x, as_expr (visitFirst find_function find_field inner node) <> Ok x).
Proof.
  intros H. pose proof (first_verdict find_function find_relation find_field inner node e H) as V. unfold verdict in V. split; [split|].
  - intros D. rewrite D in V. exact V.
  - intros (x & E). destruct (direct e); [reflexivity|]. rewrite E in V. destruct V as [V | [(l & V) | V]]; discriminate V.
  - intros D x. rewrite D in V. rewrite (as_refused _ V). discriminate.
Qed.
(** A subquery of any kind as an argument of a function survives as the condition of a filter: a relation named like an enum argument is the one exception. *)
Theorem C86_argument function_name field_name emit_name measure_name alternative alias find_function find_relation find_field find_emit columns known_source known_schema name f f' n e e' ty ty' :
  Name name -> function_name f = Some n -> Name n -> to_lower n <> $"ifthen" -> find_function n = Some f' -> Printable ty ty' ->
  Readable function_name field_name find_function find_relation (find_field 0 0) e e' -> looks_enum field_name e = false ->
  exists t, printRelation function_name field_name emit_name measure_name alternative alias name (Relation (BFilter (Some (EFun f [AValue e] [] [] ty))) []) = Ok (t, 0) /\
    readRelation find_function find_relation find_field find_emit columns known_source known_schema t = Some (name, Ok (Some (Relation (BFilter (Some (EFun f' [AValue e'] [] [] ty'))) []), [])).
Proof.
  intros Hn H1 H2 H3 H4 Ht He Hl. apply relation_roundtrip; [exact Hn|]. apply RR_filter. constructor. split; [|reflexivity].
  apply (RD_function _ _ _ _ _ f f' n [AValue e] [AValue e'] [] [] [] ty ty'); auto; [|discriminate]. constructor; [constructor; assumption|constructor].
Qed.
(** A comparison with the rows of a relation survives by itself. *)
Theorem C86_comparison function_name field_name emit_name measure_name alternative alias find_function find_relation find_field find_emit columns known_source known_schema name op red e e' rel :
  Name name -> op <> CUnspecified -> Name rel -> find_relation rel = Some true -> Readable function_name field_name find_function find_relation (find_field 0 0) e e' -> direct e = true ->
  exists t, printRelation function_name field_name emit_name measure_name alternative alias name (Relation (BFilter (Some (ECompare op (Some red) (Some e) (Some rel)))) []) = Ok (t, 0) /\
    readRelation find_function find_relation find_field find_emit columns known_source known_schema t = Some (name, Ok (Some (Relation (BFilter (Some (ECompare op (Some red) (Some e') (Some rel)))) []), [])).
Proof.
  intros Hn Hop Hr Hf He D. apply relation_roundtrip; [exact Hn|]. apply RR_filter. constructor. split; [|exact D]. apply RD_compare; [exact Hop|exact He|split; assumption].
Qed.
(** Findings.  A scalar subquery, a membership or a predicate by itself, in a cast, on the left of a comparison or in a condition is printed without an error, but the text is refused:
    in a filter with an error or an exception, *)
Theorem C86_filter_refuted function_name field_name emit_name measure_name alternative alias find_function find_relation find_field find_emit columns known_source known_schema name e e' emit :
  Name name -> Readable function_name field_name find_function find_relation (find_field 0 0) e e' -> direct e = false ->
  exists t o, printRelation function_name field_name emit_name measure_name alternative alias name (Relation (BFilter (Some e)) emit) = Ok (t, 0) /\
    readRelation find_function find_relation find_field find_emit columns known_source known_schema t = Some (name, o) /\
    (o = Ok (Some (Relation (BFilter None) []), [RNotExpression]) \/ o = Throw EBadAnyCast).
Proof. exact (filter_refused function_name field_name emit_name measure_name alternative alias find_function find_relation find_field find_emit columns known_source known_schema name e e' emit). Qed.
(** as an expression of a project relation, whatever other expressions there are, *)
Theorem C86_project_refuted function_name field_name emit_name measure_name alternative alias find_function find_relation find_field find_emit columns known_source known_schema name e e' rest rest' emit emit' :
  Name name -> alternative 0 = None -> optional_name (alias 0) -> Readable function_name field_name find_function find_relation (find_field 0 0) e e' -> direct e = false ->
  ForallAt (ExpressionReads function_name field_name alternative alias find_function find_relation find_field) 1 rest rest' -> Forall2 (EmitReads emit_name find_emit) emit emit' ->
  exists t, printRelation function_name field_name emit_name measure_name alternative alias name (Relation (BProject (e :: rest)) emit) = Ok (t, 0) /\
    readRelation find_function find_relation find_field find_emit columns known_source known_schema t = Some (name, Throw EBadAnyCast).
Proof. exact (project_refused function_name field_name emit_name measure_name alternative alias find_function find_relation find_field find_emit columns known_source known_schema name e e' rest rest' emit emit'). Qed.
(** in a grouping and as the condition of a join. *)
Theorem C86_grouping_refuted function_name field_name emit_name measure_name alternative alias find_function find_relation find_field find_emit columns known_source known_schema name e e' :
  Name name -> Readable function_name field_name find_function find_relation (find_field 0 0) e e' -> direct e = false ->
  exists t, printRelation function_name field_name emit_name measure_name alternative alias name (Relation (BAggregate [[e]] []) []) = Ok (t, 0) /\
    readRelation find_function find_relation find_field find_emit columns known_source known_schema t = Some (name, Throw EBadAnyCast).
Proof. exact (grouping_refused function_name field_name emit_name measure_name alternative alias find_function find_relation find_field find_emit columns known_source known_schema name e e'). Qed.
Theorem C86_join_refuted function_name field_name emit_name measure_name alternative alias find_function find_relation find_field find_emit columns known_source known_schema name j e e' :
  Name name -> j <> JUnspecified -> Readable function_name field_name find_function find_relation (find_field 1 0) e e' -> direct e = false ->
  exists t, printRelation function_name field_name emit_name measure_name alternative alias name (Relation (BJoin j (Some e) None) []) = Ok (t, 0) /\
    readRelation find_function find_relation find_field find_emit columns known_source known_schema t = Some (name, Throw EBadAnyCast).
Proof. exact (join_refused function_name field_name emit_name measure_name alternative alias find_function find_relation find_field find_emit columns known_source known_schema name j e e'). Qed.
(** As an argument of a function, among whatever other arguments, a subquery of a relation whose name ends in _enum (or a column with such a name) is read as an enum argument, without a report. *)
Theorem C86_enum_refuted function_name field_name find_function find_relation find_field f f' n before before' e e' after after' options ty ty' :
  function_name f = Some n -> Name n -> to_lower n <> $"ifthen" -> find_function n = Some f' -> Printable ty ty' ->
  Forall2 (ArgReads field_name (Readable function_name field_name find_function find_relation find_field)) before before' ->
  Readable function_name field_name find_function find_relation find_field e e' -> looks_enum field_name e = true ->
  Forall2 (ArgReads field_name (Readable function_name field_name find_function find_relation find_field)) after after' ->
  exists t s, printExpr function_name field_name 0 (EFun f (before ++ AValue e :: after) [] options ty) = Ok (t, 0) /\
    readExpr find_function find_relation find_field t = Some (Ok (EFun f' (before' ++ AEnum s :: after') [] [] ty', [])).
Proof. exact (enum_call function_name field_name find_function find_relation find_field f f' n before before' e e' after after' options ty ty'). Qed.
(** What cannot be written -- no relation, no left side, an operation that is not specified -- is reported when it is printed, wherever it stands. *)
Theorem C86_reported function_name field_name depth e t errors : match e with EScalar None | EIn _ None | ESet _ None | ESet QUnspecified _ | ECompare _ _ _ None | ECompare _ _ None _ | ECompare CUnspecified _ _ _ | ECompare _ None _ _ => True | _ => False end ->
  printExpr function_name field_name depth e = Ok (t, errors) -> 0 < errors.
Proof.
  intros H. destruct e as [| | | | | | | |[n|]|l [n|]|q [n|]|op red lhs rel|]; try destruct H; cbn [printExpr].
  - intros E. injection E as _ <-. cbn. lia.
  - destruct (commas _) as [[a k]|x|]; cbn [obind]; try discriminate. intros E. injection E as _ <-. cbn. lia.
  - destruct q; try destruct H. intros E. injection E as _ <-. lia.
  - destruct (print_predicate q); intros E; injection E as _ <-; cbn; lia.
  - destruct lhs as [x|]; cbn [obind].
    + destruct (printExpr function_name field_name depth x) as [[a k]|y|]; cbn [obind fst snd]; try discriminate. destruct op, red as [[]|], rel as [n|]; try destruct H; cbn; intros E; injection E as _ <-; lia.
    + destruct (print_comparison op), (print_reduction red); intros E; injection E as _ <-; cbn; lia.
Qed.
Print Assumptions C86_passes_agree. Print Assumptions C86_first_pass. Print Assumptions C86_argument. Print Assumptions C86_comparison. Print Assumptions C86_filter_refuted. Print Assumptions C86_project_refuted.
Print Assumptions C86_grouping_refuted. Print Assumptions C86_join_refuted. Print Assumptions C86_enum_refuted. Print Assumptions C86_reported.
Definition exq_price : expr := ESel (SegField 0 None) RootRef.
Definition exq_all : expr := ECompare CLe (Some RedAll) (Some exq_price) (Some $"totals").
Lemma exq_reads e : Readable exr_fn exr_field exr_find exr_rel (exr_find_field 0 0) e e -> Readable exr_fn exr_field exr_find exr_rel (exr_find_field 0 0) (EIn [e; exq_price] (Some $"totals")) (EIn [e; exq_price] (Some $"totals")).
Proof. intros H. apply RD_in; [constructor; [exact H|constructor; [exact exr_col0|constructor]]|discriminate|split; [name|reflexivity]]. Qed.
Example C86_comparison_case : exr_print $"f" (Relation (BFilter (Some exq_all)) []) = Ok ($"filter relation f {" ++ [lf] ++ $"  filter orders.price LE ALL SUBQUERY totals;" ++ [lf] ++ $"}" ++ [lf], 0) /\
  exr_read ($"filter relation f { filter orders.price LE ALL SUBQUERY totals; }") = Some ($"f", Ok (Some (Relation (BFilter (Some exq_all)) []), [])) /\ direct exq_price = true.
Proof. split; [vm_compute; reflexivity|]. split; [vm_compute; reflexivity|reflexivity]. Qed.
Example C86_passes_case : exists c, p_expr 20 [(IDENTIFIER, $"missing"); (UNDERSCORE, $"_"); (IDENTIFIER, $"i32")] = Some (c, []) /\
  visitFirst ex_find ex_find_field false c = Ok (FExpr EUnset, []) /\ visitExpr ex_find ex_rel ex_find_field c = Ok (EUnset, [XNoField $"missing_i32"]).
Proof. eexists. split; [vm_compute; reflexivity|]. split; vm_compute; reflexivity. Qed.
Example C86_argument_case : exr_read ($"filter relation f { filter lt(orders.price, SUBQUERY totals)->bool?; }") =
  Some ($"f", Ok (Some (Relation (BFilter (Some (EFun 1 [AValue exq_price; AValue (EScalar (Some $"totals"))] [] [] (PtScalar SBool NNullable)))) []), [])).
Proof. vm_compute. reflexivity. Qed.
Example C86_filter_case : exr_print $"f" (Relation (BFilter (Some (EIn [ex_col 1; exq_price] (Some $"totals")))) []) = Ok ($"filter relation f {" ++ [lf] ++ $"  filter (due, orders.price) IN SUBQUERY totals;" ++ [lf] ++ $"}" ++ [lf], 0) /\
  exr_read ($"filter relation f { filter (due, orders.price) IN SUBQUERY totals; }") = Some ($"f", Ok (Some (Relation (BFilter None) []), [RNotExpression])) /\
  exr_read ($"filter relation f { filter EXISTS IN SUBQUERY totals AS bool; }") = Some ($"f", Throw EBadAnyCast) /\
  Readable exr_fn exr_field exr_find exr_rel (exr_find_field 0 0) (EIn [ex_col 1; exq_price] (Some $"totals")) (EIn [ex_col 1; exq_price] (Some $"totals")).
Proof. split; [vm_compute; reflexivity|]. split; [vm_compute; reflexivity|]. split; [vm_compute; reflexivity|]. exact (exq_reads _ exr_col1). Qed.
Example C86_project_case : exr_read ($"project relation p { expression SUBQUERY totals; expression due; }") = Some ($"p", Throw EBadAnyCast) /\ exr_read ($"aggregate relation p { grouping SUBQUERY totals; }") = Some ($"p", Throw EBadAnyCast) /\
  exr_read ($"join relation p { type INNER; expression UNIQUE IN SUBQUERY totals; }") = Some ($"p", Throw EBadAnyCast).
Proof. split; [vm_compute; reflexivity|]. split; vm_compute; reflexivity. Qed.
Example C86_enum_case : readExpr ex_find ex_rel ex_find_field $"lt(due, SUBQUERY picks_enum)->bool" = Some (Ok (EFun 1 [AValue (ex_col 1); AEnum $"SUBQUERYpicks"] [] [] (PtScalar SBool NRequired), [])).
Proof. vm_compute. reflexivity. Qed.
Example C86_reported_case : printExpr ex_fn ex_field 0 (EFun 1 [AValue (ECompare CUnspecified (Some RedAny) (Some (ex_col 1)) (Some $"totals"))] [] [] ex_i32) = Ok ($"lt(UNSUPPORTED SUBQUERY)->i32", 1).
Proof. vm_compute. reflexivity. Qed.

(** * C87: everything that is referred to is there *)
(** Whatever text is read as an expression without a report: every function, column and relation in it, however deep, was found under some name, and no argument or operation is missing. *)
Theorem C87_resolved find_function find_relation find_field s e : readExpr find_function find_relation find_field s = Some (Ok (e, [])) -> Resolved find_function find_relation find_field e.
Proof.
  unfold readExpr. destruct (tokens s) as [ts|]; [|discriminate]. destruct (p_expr _ ts) as [[node [|]]|]; try discriminate. intros H. injection H as H. exact (read_resolved find_function find_relation find_field node e H).
Qed.
(** Finding: a condition without parts is read as an expression that is nothing, without a report; it cannot be printed. *)
Theorem C87_empty_condition_refuted find_function find_relation find_field function_name field_name depth n : Name n -> to_lower n = $"ifthen" ->
  readExpr find_function find_relation find_field (n ++ $"()") = Some (Ok (EUnset, [])) /\ printExpr function_name field_name depth EUnset = Throw EUnsupported.
Proof.
  intros Hn H. split; [|reflexivity]. destruct (call_text find_function find_relation find_field n [] [] None [] Hn) as [Hp _]; [intros k [|fuel] Hf; [cbn in Hf; lia|reflexivity]|reflexivity|].
  assert (Hc : Cuts ends (n ++ $"(" ++ $")") (name_tokens n ++ [(LEFTPAREN, $"("); rp])).
  { eapply cuts_app; [apply cuts_name, Hn| |].
    - apply (cuts_any ends $"(" _ [(LEFTPAREN, $"(")]); [exact cuts_lparen|]. destruct cuts_rparen as (ps & H1 & H2 & H3). exists ps. split; [exact H1|]. split; [exact H2|]. intros r _. exact (H3 r I).
    - intros r _. apply ends_char; [reflexivity|discriminate]. }
  unfold readExpr. change (n ++ $"()") with (n ++ $"(" ++ $")"). rewrite (cuts_tokens _ _ _ Hc I).
  set (all := name_tokens n ++ [(LEFTPAREN, $"("); rp]) in *. pose proof (parses_whole all _ (S (2 * length all)) [] Hp ltac:(lia) I (conj eq_refl eq_refl)) as P. rewrite app_nil_r in P. rewrite P. cbn [visitExpr eachE]. rewrite H. reflexivity.
Qed.
Print Assumptions C87_resolved. Print Assumptions C87_empty_condition_refuted.
Example C87_case : readExpr ex_find ex_rel ex_find_field $"lt(due, (orders.price, SUBQUERY totals) IN SUBQUERY prices)->bool" =
    Some (Ok (EFun 1 [AValue (ex_col 1); AValue (EIn [ex_col 0; EScalar (Some $"totals")] (Some $"prices"))] [] [] (PtScalar SBool NRequired), [])) /\
  readExpr ex_find ex_rel ex_find_field $"lt(due, SUBQUERY totals2)->bool" = Some (Ok (EFun 1 [AValue (ex_col 1); AValue EUnset] [] [] (PtScalar SBool NRequired), [XNoRelation $"totals2"])).
Proof. split; vm_compute; reflexivity. Qed.
Example C87_empty_condition_case : readExpr ex_find ex_rel ex_find_field $"IfThen()" = Some (Ok (EUnset, [])).
Proof. vm_compute. reflexivity. Qed.
