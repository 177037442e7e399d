(** Theorems about relations in text plans. *)
From Verif Require Import Base BaseFacts StringsModel StringsFacts EnumModel EnumFacts TypeModel TypeProtoFacts LexModel LexFacts NameModel NameFacts CutFacts FloatModel
  CalendarModel ExprModel TypeTokenFacts LiteralFacts ExprFacts FirstFacts RelModel RelFacts PropExpr.
From Coq Require Import Lia ZifyBool ZifyNat ZifyN.

(** * C74: relations *)
(** Every relation of the readable kinds -- reads, filters, fetches, aggregates, sorts, projects, joins and cross products with any number of details -- is
    printed without errors as a text that reads back, without errors, under the same name as the relation it stands for.  [RelReads] says what that is. *)
Theorem C74_round_trip_partial function_name field_name emit_name measure_name alternative alias find_function find_relation find_field find_emit columns known_source known_schema name r r' :
  Name name -> RelReads function_name field_name emit_name measure_name alternative alias find_function find_relation find_field find_emit columns known_source known_schema r r' ->
  exists t, printRelation function_name field_name emit_name measure_name alternative alias name r = Ok (t, 0) /\
    readRelation find_function find_relation find_field find_emit columns known_source known_schema t = Some (name, Ok (Some r', [])).
Proof. exact (relation_roundtrip function_name field_name emit_name measure_name alternative alias find_function find_relation find_field find_emit columns known_source known_schema name r r'). Qed.
(** The same with anything before and after it: the tokens do not depend on what follows, and the parser stops right after the relation. *)
Theorem C74_in_context function_name field_name emit_name measure_name alternative alias find_function find_relation find_field find_emit columns known_source known_schema name r r' :
  Name name -> RelReads function_name field_name emit_name measure_name alternative alias find_function find_relation find_field find_emit columns known_source known_schema r r' ->
  exists t ts node, printRelation function_name field_name emit_name measure_name alternative alias name r = Ok (t, 0) /\ Cuts any t ts /\ (forall k, p_relation (ts ++ k) = Some (node, k)) /\
    n_kind node = kind_name (r_body r) /\ n_name node = name /\ visitRelation find_function find_relation find_field find_emit columns known_source known_schema node = Ok (Some r', []).
Proof. exact (relation_reads function_name field_name emit_name measure_name alternative alias find_function find_relation find_field find_emit columns known_source known_schema name r r'). Qed.
(** Relations that read back as themselves and are printed alike are the same, and so are their names. *)
Theorem C74_injective function_name field_name emit_name measure_name alternative alias find_function find_relation find_field find_emit columns known_source known_schema n m r s :
  Name n -> Name m -> RelReads function_name field_name emit_name measure_name alternative alias find_function find_relation find_field find_emit columns known_source known_schema r r ->
  RelReads function_name field_name emit_name measure_name alternative alias find_function find_relation find_field find_emit columns known_source known_schema s s ->
  printRelation function_name field_name emit_name measure_name alternative alias n r = printRelation function_name field_name emit_name measure_name alternative alias m s -> n = m /\ r = s.
Proof.
  intros Hn Hm Hr Hs E. destruct (relation_roundtrip _ _ _ _ _ _ _ _ _ _ _ _ _ n r r Hn Hr) as (t & P & R). destruct (relation_roundtrip _ _ _ _ _ _ _ _ _ _ _ _ _ m s s Hm Hs) as (t' & P' & R').
  rewrite E, P' in P. injection P as ->. rewrite R in R'. injection R' as -> ->. auto.
Qed.
Print Assumptions C74_round_trip_partial. Print Assumptions C74_in_context. Print Assumptions C74_injective.

Definition exr_fn (f : N) : option str := nth_error [$"add"; $"lt"; $"sum"] (N.to_nat f).
Definition exr_find (n : str) : option N := if n =s $"add" then Some 0%N else if n =s $"lt" then Some 1%N else if n =s $"sum" then Some 2%N else None.
Definition exr_rel (n : str) : option bool := if n =s $"totals" then Some true else None.
Definition exr_field (steps : N) (f : Z) : option str := if (steps =? 0)%N then nth_error [$"orders.price"; $"due"] (Z.to_nat f) else if (steps =? 1)%N then Some $"outer.key" else None.
Definition exr_find_field (_ _ : nat) (n : str) : option (N * Z) := if n =s $"orders.price" then Some (0%N, 0%Z) else if n =s $"due" then Some (0%N, 1%Z) else if n =s $"outer.key" then Some (1%N, 4%Z) else None.
Definition exr_emit (z : Z) : option str := nth_error [$"due"; $"orders.total"] (Z.to_nat z).
Definition exr_find_emit (n : str) : N * Z * bool := if n =s $"due" then (0%N, 0%Z, false) else if n =s $"orders.total" then (0%N, 1%Z, false) else (0%N, (-1)%Z, true).
Definition exr_measure (i : nat) : option str := match i with 0 => Some $"total" | _ => None end.
Definition exr_none (i : nat) : option str := None.
Definition exr_print := printRelation exr_fn exr_field exr_emit exr_measure exr_none exr_none.
Definition exr_read := readRelation exr_find exr_rel exr_find_field exr_find_emit 2 (fun n => n =s $"db") (fun n => n =s $"s1").
Definition exr_reads := RelReads exr_fn exr_field exr_emit exr_measure exr_none exr_none exr_find exr_rel exr_find_field exr_find_emit 2 (fun n => n =s $"db") (fun n => n =s $"s1").
Definition exr_sum : aggregate_function := AF 2 [AValue (ex_col 0)] [] [] (PtScalar SI64 NNullable) PInitialToResult IAll [].
Definition exr_lt : expr := EFun 1 [AValue (ex_col 0); AValue (ex_col 1)] [] [] (PtScalar SBool NNullable).
Definition exr_aggregate : relation := Relation (BAggregate [[ex_col 1]] [Measure (Some exr_sum) (Some exr_lt)]) [0; 1]%Z.
Lemma exr_col0 : Readable exr_fn exr_field exr_find exr_rel (exr_find_field 0 0) (ex_col 0) (ex_col 0).
Proof. apply (RD_column exr_fn exr_field exr_find exr_rel (exr_find_field 0 0) (SegField 0 None) RootRef $"orders.price" 0 0); [reflexivity|apply (Column_schema $"orders" $"price"); [name|notnull|name]|reflexivity]. Qed.
Lemma exr_col1 : Readable exr_fn exr_field exr_find exr_rel (exr_find_field 0 0) (ex_col 1) (ex_col 1).
Proof. apply (RD_column exr_fn exr_field exr_find exr_rel (exr_find_field 0 0) (SegField 1 None) RootRef $"due" 0 1); [reflexivity|column|reflexivity]. Qed.
Lemma exr_lt_read : Readable exr_fn exr_field exr_find exr_rel (exr_find_field 0 0) exr_lt exr_lt.
Proof.
  apply (RD_function exr_fn exr_field exr_find exr_rel (exr_find_field 0 0) 1 1 $"lt" _ [AValue (ex_col 0); AValue (ex_col 1)] [] [] []); try reflexivity; try discriminate; [name| |constructor|apply (PR_scalar SBool NNullable); cbn; tauto].
  constructor; [|constructor; [|constructor]]; constructor; try reflexivity; [exact exr_col0|exact exr_col1].
Qed.
Lemma exr_at e : Readable exr_fn exr_field exr_find exr_rel (exr_find_field 0 0) e e -> direct e = true -> At exr_fn exr_field exr_find exr_rel exr_find_field 0 0 e e.
Proof. split; assumption. Qed.
Example C74_case : exr_reads exr_aggregate exr_aggregate /\
  exr_print $"sums" exr_aggregate = Ok ($"aggregate relation sums {" ++ [lf] ++ $"  grouping due;" ++ [lf] ++ $"  measure {" ++ [lf] ++
    $"    measure sum(orders.price)->i64?@AGGREGATION_PHASE_INITIAL_TO_RESULT NAMED total;" ++ [lf] ++ $"    filter lt(orders.price, due)->bool?;" ++ [lf] ++ $"    invocation all;" ++ [lf] ++ $"  }" ++ [lf] ++
    [lf] ++ $"  emit due;" ++ [lf] ++ $"  emit orders.total;" ++ [lf] ++ $"}" ++ [lf], 0).
Proof.
  split; [|vm_compute; reflexivity]. apply (RR_aggregate _ _ _ _ _ _ _ _ _ _ _ _ _ [[ex_col 1]] [ex_col 1]).
  - constructor; [|constructor]. apply (GD _ _ _ _ _ _ _ _ (ex_col 1)); [exact (exr_at _ exr_col1 eq_refl)|constructor; lia].
  - constructor; [|constructor]. apply (MR exr_fn exr_field exr_measure exr_find exr_rel exr_find_field 1 2 2 $"sum" [AValue (ex_col 0)] [AValue (ex_col 0)] [] []); try reflexivity; try discriminate; [name| |constructor|apply (PR_scalar SI64 NNullable); cbn; tauto|cbn; name|constructor; exact (exr_at _ exr_lt_read eq_refl)].
    constructor; [|constructor]. constructor; [exact exr_col0|reflexivity].
  - constructor; [apply (ER exr_emit exr_find_emit $"due"); [reflexivity|constructor; name|reflexivity]|]. constructor; [|constructor].
    apply (ER exr_emit exr_find_emit $"orders.total"); [reflexivity|apply (Emit_schema $"orders" $"total"); name|reflexivity].
Qed.

(** * C75: nothing about a relation is lost without a report *)
(** Findings.  The columns that are emitted are not printed for relations other than projects and aggregates. *)
Theorem C75_emit_refuted function_name field_name emit_name measure_name alternative alias name b e e' : match b with BProject _ | BAggregate _ _ => False | _ => True end ->
  printRelation function_name field_name emit_name measure_name alternative alias name (Relation b e) = printRelation function_name field_name emit_name measure_name alternative alias name (Relation b e').
Proof. intros H. destruct b; try reflexivity; destruct H. Qed.
(** Grouping sets become one group: the text is that of all expressions in one group, and that is what is read. *)
Theorem C75_grouping_sets_refuted function_name field_name emit_name measure_name alternative alias name gs ms e :
  printRelation function_name field_name emit_name measure_name alternative alias name (Relation (BAggregate gs ms) e) =
  printRelation function_name field_name emit_name measure_name alternative alias name (Relation (BAggregate [concat gs] ms) e).
Proof. unfold printRelation, printBody. cbn [r_body concat]. rewrite app_nil_r. reflexivity. Qed.
(** A best effort filter is printed like a filter that has to be applied. *)
Theorem C75_best_effort_refuted function_name field_name emit_name measure_name alternative alias name s sc f p e :
  printRelation function_name field_name emit_name measure_name alternative alias name (Relation (BRead s sc None (Some f) p) e) =
  printRelation function_name field_name emit_name measure_name alternative alias name (Relation (BRead s sc (Some f) None p) e).
Proof.
  unfold printRelation, printBody. cbn [r_body]. destruct s; [reflexivity|]. assert (X : forall a b c, together [a; b; c] = both a (both b (both c (text [])))) by reflexivity.
  cbn [optional]. rewrite !X. unfold text at 2. rewrite both_nil. replace (both (line _ _) (both (text []) _)) with (both (line $"filter" (printE function_name field_name f)) (both (if p then line $"projection" (Ok ($"MASKEXPR-NOT-YET-IMPLEMENTED", 1)) else text []) (text []))); [reflexivity|].
  f_equal. unfold text at 3. rewrite both_nil. reflexivity.
Qed.
(** How the rows of a measure are sorted is not printed. *)
Definition without_sorts (m : measure) : measure :=
  Measure (option_map (fun f => AF (af_ref f) (af_args f) (af_deprecated f) (af_options f) (af_type f) (af_phase f) (af_invocation f) []) (m_function m)) (m_filter m).
Theorem C75_measure_sorts_refuted function_name field_name emit_name measure_name alternative alias name gs ms e :
  printRelation function_name field_name emit_name measure_name alternative alias name (Relation (BAggregate gs ms) e) =
  printRelation function_name field_name emit_name measure_name alternative alias name (Relation (BAggregate gs (map without_sorts ms)) e).
Proof.
  unfold printRelation, printBody. cbn [r_body r_emit sources_of schemas_of kind_name]. replace (printMeasures function_name field_name measure_name 0 (map without_sorts ms)) with (printMeasures function_name field_name measure_name 0 ms); [reflexivity|].
  generalize 0. induction ms as [|m ms IH]; intros i; [reflexivity|]. cbn [map printMeasures]. rewrite IH. destruct m as [[f|] flt]; reflexivity.
Qed.
(** A comparison function as the kind of a sort replaces the text of all sorts before and after it. *)
Theorem C75_sort_function_refuted function_name field_name emit_name measure_name alternative alias name l e f n rest emit : function_name f = Some n ->
  Forall (fun s => (exists t, printE function_name field_name (fst s) = Ok (t, 0)) /\ exists d, snd s = SortDirection d) l -> (exists t, printE function_name field_name e = Ok (t, 0)) ->
  printRelation function_name field_name emit_name measure_name alternative alias name (Relation (BSort (l ++ (e, SortFunction f) :: rest)) emit) =
  Ok (($"sort relation " ++ name ++ $" {" ++ [lf]) ++ n ++ $"}" ++ [lf], 0).
Proof.
  intros Hf Hl (t & Ht). unfold printRelation, printBody. cbn [r_body sources_of schemas_of kind_name map].
  assert (X : forall before, printSorts function_name field_name before (l ++ (e, SortFunction f) :: rest) = Ok (n, 0)).
  { induction Hl as [|[x k] l [(u & Hu) (d & Hd)] _ IH]; intros before; cbn [app printSorts].
    - rewrite Ht. cbn [obind fst snd]. unfold lookupFunctionReference. rewrite Hf. reflexivity.
    - cbn [fst snd] in *. rewrite Hu, Hd. cbn [obind fst snd]. rewrite IH. reflexivity. }
  rewrite X. unfold together, both, text. cbn [fold_right obind fst snd]. reflexivity.
Qed.
(** An outer column that is grouped by becomes a column of the input with the same number. *)
Theorem C75_outer_refuted function_name field_name emit_name measure_name alternative alias find_function find_relation find_field find_emit columns known_source known_schema name e f steps : Name name ->
  Readable function_name field_name find_function find_relation (find_field 0 0) e (ESel (SegField f None) (RootOuter steps)) -> (0 <= f < Z.of_nat columns)%Z ->
  exists t, printRelation function_name field_name emit_name measure_name alternative alias name (Relation (BAggregate [[e]] []) []) = Ok (t, 0) /\
    readRelation find_function find_relation find_field find_emit columns known_source known_schema t = Some (name, Ok (Some (Relation (BAggregate [[ESel (SegField f None) RootRef]] []) []), [])).
Proof.
  intros Hn He Hf. apply relation_roundtrip; [exact Hn|]. apply (RR_aggregate _ _ _ _ _ _ _ _ _ _ _ _ _ [[e]] [ESel (SegField f None) RootRef]); [|constructor|constructor].
  constructor; [|constructor]. eapply GD; [split; [exact He|rewrite (readable_direct _ _ _ _ _ _ _ He); reflexivity]|]. constructor. exact Hf.
Qed.
(** Sources and schemas that are not known are left out without a report. *)
Theorem C75_unknown_refuted function_name field_name emit_name measure_name alternative alias find_function find_relation find_field find_emit columns known_source known_schema name sources schemas emit :
  Name name -> sources <> [] -> Forall Name sources -> Forall Name schemas ->
  exists t, printRelation function_name field_name emit_name measure_name alternative alias name (Relation (BRead sources schemas None None false) emit) = Ok (t, 0) /\
    readRelation find_function find_relation find_field find_emit columns known_source known_schema t =
      Some (name, Ok (Some (Relation (BRead (filter known_source sources) (filter known_schema schemas) None None false) []), [])).
Proof. exact (unknown_read function_name field_name emit_name measure_name alternative alias find_function find_relation find_field find_emit columns known_source known_schema name sources schemas emit). Qed.
(** A sort of unspecified direction is read as a sort without a kind, which is printed with an error the next time. *)
Theorem C75_unspecified_refuted function_name field_name emit_name measure_name alternative alias find_function find_relation find_field find_emit columns known_source known_schema name e e' : Name name ->
  Readable function_name field_name find_function find_relation (find_field 0 0) e e' -> direct e = true -> (exists u, printE function_name field_name e' = Ok (u, 0)) ->
  (exists t, printRelation function_name field_name emit_name measure_name alternative alias name (Relation (BSort [(e, SortDirection DUnspecified)]) []) = Ok (t, 0) /\
    readRelation find_function find_relation find_field find_emit columns known_source known_schema t = Some (name, Ok (Some (Relation (BSort [(e', SortUnset)]) []), []))) /\
  exists t, printRelation function_name field_name emit_name measure_name alternative alias name (Relation (BSort [(e', SortUnset)]) []) = Ok (t, 1).
Proof.
  intros Hn He Hd (u & Hu). split.
  - apply relation_roundtrip; [exact Hn|]. apply RR_sort. constructor; [|constructor]. apply (SR _ _ _ _ _ 0 e e' DUnspecified); split; assumption.
  - unfold printRelation, printBody. cbn [r_body sources_of schemas_of kind_name map printSorts]. rewrite Hu. eexists. reflexivity.
Qed.
Print Assumptions C75_emit_refuted. Print Assumptions C75_grouping_sets_refuted. Print Assumptions C75_best_effort_refuted. Print Assumptions C75_measure_sorts_refuted. Print Assumptions C75_sort_function_refuted.
Print Assumptions C75_outer_refuted. Print Assumptions C75_unknown_refuted. Print Assumptions C75_unspecified_refuted.
Example C75_emit_case : exr_print $"f" (Relation (BFilter (Some exr_lt)) [1]%Z) = Ok ($"filter relation f {" ++ [lf] ++ $"  filter lt(orders.price, due)->bool?;" ++ [lf] ++ $"}" ++ [lf], 0) /\
  exr_read (fst (match exr_print $"f" (Relation (BFilter (Some exr_lt)) [1]%Z) with Ok p => p | _ => ([], 0) end)) = Some ($"f", Ok (Some (Relation (BFilter (Some exr_lt)) []), [])).
Proof. split; vm_compute; reflexivity. Qed.
Example C75_grouping_sets_case : exr_read (fst (match exr_print $"g" (Relation (BAggregate [[ex_col 0]; [ex_col 0; ex_col 1]; []] []) []) with Ok p => p | _ => ([], 0) end)) =
  Some ($"g", Ok (Some (Relation (BAggregate [[ex_col 0; ex_col 0; ex_col 1]] []) []), [])).
Proof. vm_compute. reflexivity. Qed.
Example C75_sort_function_case : exr_print $"s" (Relation (BSort [(ex_col 0, SortDirection DAscNullsFirst); (ex_col 1, SortFunction 1)]) []) = Ok ($"sort relation s {" ++ [lf] ++ $"lt}" ++ [lf], 0) /\
  exr_read ($"sort relation s {" ++ [lf] ++ $"lt}" ++ [lf]) = None.
Proof. split; vm_compute; reflexivity. Qed.
Example C75_unknown_case : exr_read ($"read relation r { source dbb; base_schema s1; }") = Some ($"r", Ok (Some (Relation (BRead [] [$"s1"] None None false) []), [])).
Proof. vm_compute. reflexivity. Qed.
Example C75_outer_case : exists t, exr_print $"g" (Relation (BAggregate [[ESel (SegField 4 None) (RootOuter 1)]] []) []) = Ok (t, 0) /\
  readRelation exr_find exr_rel exr_find_field exr_find_emit 5 (fun n => n =s $"db") (fun n => n =s $"s1") t = Some ($"g", Ok (Some (Relation (BAggregate [[ESel (SegField 4 None) RootRef]] []) []), [])).
Proof. exists ($"aggregate relation g {" ++ [lf] ++ $"  grouping outer.key;" ++ [lf] ++ $"}" ++ [lf]). split; vm_compute; reflexivity. Qed.
Example C75_unspecified_case : exr_print $"s" (Relation (BSort [(ex_col 0, SortUnset)]) []) = Ok ($"sort relation s {" ++ [lf] ++ $"  sort orders.price;" ++ [lf] ++ $"}" ++ [lf], 1).
Proof. vm_compute. reflexivity. Qed.

(** * C76: what is printed without an error can be read without one *)
(** Findings.  A fetch with an offset cannot be read at all. *)
Theorem C76_offset_refuted function_name field_name emit_name measure_name alternative alias find_function find_relation find_field find_emit columns known_source known_schema name offset count emit :
  Name name -> offset <> 0%Z ->
  exists t, printRelation function_name field_name emit_name measure_name alternative alias name (Relation (BFetch offset count) emit) = Ok (t, 0) /\
    readRelation find_function find_relation find_field find_emit columns known_source known_schema t = None.
Proof. exact (offset_unread function_name field_name emit_name measure_name alternative alias find_function find_relation find_field find_emit columns known_source known_schema name offset count emit). Qed.
(** A read with both kinds of filters is refused, and only the first filter is kept. *)
Theorem C76_two_filters_refuted function_name field_name emit_name measure_name alternative alias find_function find_relation find_field find_emit columns known_source known_schema name sources schemas e1 e1' e2 e2' emit :
  Name name -> sources <> [] -> Forall (fun n => Name n /\ known_source n = true) sources -> Forall (fun n => Name n /\ known_schema n = true) schemas ->
  Readable function_name field_name find_function find_relation (find_field (length sources + length schemas) 0) e1 e1' -> direct e1 = true ->
  Readable function_name field_name find_function find_relation (find_field (S (length sources + length schemas)) 0) e2 e2' -> direct e2 = true ->
  exists t, printRelation function_name field_name emit_name measure_name alternative alias name (Relation (BRead sources schemas (Some e1) (Some e2) false) emit) = Ok (t, 0) /\
    readRelation find_function find_relation find_field find_emit columns known_source known_schema t = Some (name, Ok (Some (Relation (BRead sources schemas (Some e1') None false) []), [RFilterTwice])).
Proof. intros Hn Hs H1 H2 R1 D1 R2 D2. apply (two_filters _ _ _ _ _ _ _ _ _ _ _ _ _ name sources schemas e1 e1' e2 e2' emit); try assumption; split; assumption. Qed.
(** The filter of a join after the join and the options of a measure are printed in a way the grammar does not have. *)
Theorem C76_post_join_refuted : exists t, exr_print $"j" (Relation (BJoin JInner (Some exr_lt) (Some exr_lt)) []) = Ok (t, 0) /\ exr_read t = None.
Proof.
  exists ($"join relation j {" ++ [lf] ++ $"  type JOIN_TYPE_INNER;" ++ [lf] ++ $"  expression lt(orders.price, due)->bool?;" ++ [lf] ++ $"  post_join lt(orders.price, due)->bool?;" ++ [lf] ++ $"}" ++ [lf]).
  split; vm_compute; reflexivity.
Qed.
Theorem C76_measure_options_refuted : exists t, exr_print $"a" (Relation (BAggregate [] [Measure (Some (AF 2 [AValue (ex_col 0)] [] [($"overflow", [$"ERROR"])] (PtScalar SI64 NNullable) PInitialToResult IUnspecified [])) None]) []) = Ok (t, 0) /\
  tokens t = None /\ exr_read t = None.
Proof.
  exists ($"aggregate relation a {" ++ [lf] ++ $"  measure {" ++ [lf] ++ $"    measure sum(orders.price)#overflow;ERROR->i64?@AGGREGATION_PHASE_INITIAL_TO_RESULT NAMED total;" ++ [lf] ++ $"  }" ++ [lf] ++ $"}" ++ [lf]).
  split; [vm_compute; reflexivity|split; vm_compute; reflexivity].
Qed.
(** Kinds that the printer does not know, and reads without a source, are left out with an error: there is never a text. *)
Theorem C76_unprinted function_name field_name emit_name measure_name alternative alias name b e : match b with BOther _ | BRead [] _ _ _ _ => True | _ => False end ->
  printRelation function_name field_name emit_name measure_name alternative alias name (Relation b e) = Ok ([], 1).
Proof. intros H. destruct b as [[|s l] sc f g p| | | | | | | |]; try destruct H; reflexivity. Qed.
Print Assumptions C76_offset_refuted. Print Assumptions C76_two_filters_refuted. Print Assumptions C76_post_join_refuted. Print Assumptions C76_measure_options_refuted. Print Assumptions C76_unprinted.
Example C76_offset_case : exr_print $"f" (Relation (BFetch 10 5) []) = Ok ($"fetch relation f {" ++ [lf] ++ $"  offset 10;" ++ [lf] ++ $"  count 5;" ++ [lf] ++ $"}" ++ [lf], 0) /\
  exr_read ($"fetch relation f {" ++ [lf] ++ $"  offset 10;" ++ [lf] ++ $"  count 5;" ++ [lf] ++ $"}" ++ [lf]) = None.
Proof. split; vm_compute; reflexivity. Qed.
Example C76_two_filters_case : exists t, exr_print $"r" (Relation (BRead [$"db"] [$"s1"] (Some exr_lt) (Some (ex_col 1)) false) []) = Ok (t, 0) /\
  exr_read t = Some ($"r", Ok (Some (Relation (BRead [$"db"] [$"s1"] (Some exr_lt) None false) []), [RFilterTwice])).
Proof.
  exists ($"read relation r {" ++ [lf] ++ $"  source db;" ++ [lf] ++ $"  base_schema s1;" ++ [lf] ++ $"  filter lt(orders.price, due)->bool?;" ++ [lf] ++ $"  filter due;" ++ [lf] ++ $"}" ++ [lf]). split; vm_compute; reflexivity.
Qed.
Example C76_unprinted_case : exr_print $"m" (Relation (BOther $"mergejoin") [1]%Z) = Ok ([], 1).
Proof. reflexivity. Qed.

(** * C77: reading a relation never leaves defined behaviour *)
(** Findings.  Grouping by a column whose number is not that of an input column reads outside of a list. *)
Theorem C77_grouping_refuted function_name field_name emit_name measure_name alternative alias find_function find_relation find_field find_emit columns known_source known_schema name e f c root : Name name ->
  Readable function_name field_name find_function find_relation (find_field 0 0) e (ESel (SegField f c) root) -> (f < 0 \/ Z.of_nat columns <= f)%Z ->
  exists t, printRelation function_name field_name emit_name measure_name alternative alias name (Relation (BAggregate [[e]] []) []) = Ok (t, 0) /\
    readRelation find_function find_relation find_field find_emit columns known_source known_schema t = Some (name, UB).
Proof. intros Hn He Hf. exact (group_out_of_bounds function_name field_name emit_name measure_name alternative alias find_function find_relation find_field find_emit columns known_source known_schema name e f c root [] Hn (conj He (eq_trans (readable_direct _ _ _ _ _ _ _ He) eq_refl)) Hf eq_refl). Qed.
(** A measure that is not a call of a function, without a phase and a name, dereferences a null pointer. *)
Theorem C77_measure_refuted find_function find_relation find_field i j e ty x errs : visitE find_function find_relation find_field i j e = Ok (x, errs) -> match x with EFun _ _ _ _ _ => False | _ => True end ->
  visitMeasure find_function find_relation find_field i j e ty [] = UB.
Proof. intros H Hx. unfold visitMeasure, bindR. rewrite H. cbn [obind fst snd]. destruct x; try reflexivity. destruct Hx. Qed.
Print Assumptions C77_grouping_refuted. Print Assumptions C77_measure_refuted.
Example C77_grouping_case : exr_read ($"aggregate relation g { grouping outer.key; }") = Some ($"g", UB).
Proof. vm_compute. reflexivity. Qed.
Example C77_measure_case : exr_read ($"aggregate relation g { measure { measure due; } }") = Some ($"g", UB).
Proof. vm_compute. reflexivity. Qed.
(** With a name but no phase, the name is taken for the phase. *)
Example C77_phase_case : exr_read ($"aggregate relation g { measure { measure sum(due)->i64 NAMED total; } }") =
  Some ($"g", Ok (Some (Relation (BAggregate [[]] [Measure (Some (AF 2 [AValue (ex_col 1)] [] [] (PtScalar SI64 NRequired) PUnspecified IUnspecified [])) None]) []), [RPhase])).
Proof. vm_compute. reflexivity. Qed.
