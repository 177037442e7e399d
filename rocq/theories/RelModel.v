(** Model of relations in text plans: how PlanPrinterVisitor.cpp prints a relation with all its details, how the parser rules relation,
    relation_detail and measure_detail of src/substrait/textplan/parser/grammar/SubstraitPlanParser.g4 read the text, and what
    SubstraitPlanSubqueryRelationVisitor.cpp (the last pass over the text; SubstraitPlanRelationVisitor.cpp has the same code) makes of it.
    Expressions are those of ExprModel.  How a column is found by its name, and the name of a column, is FieldModel; here both are parameters.
    Not modelled: subqueries as expressions, advanced extensions, hints, and the symbols that are defined on the way. *)
From Verif Require Import Base StringsModel EnumModel TypeModel LexModel NameModel ExprModel.

(** * The protobuf messages, as far as the functions below use them *)
Inductive sort_kind := SortDirection (d : direction) | SortFunction (f : N) | SortUnset.
Definition sort : Type := (expr * sort_kind)%type.
(** AggregateFunction *)
Record aggregate_function := AF {
  af_ref : N; af_args : list (arg expr); af_deprecated : list expr; af_options : list (str * list str); af_type : ptype; af_phase : phase;
  af_invocation : invocation; af_sorts : list sort }.
(** AggregateRel.Measure *)
Record measure := Measure { m_function : option aggregate_function; m_filter : option expr }.
(** A read relation has the names of its source and of its schema in place of what they stand for; no source stands for READ_TYPE_NOT_SET.
    [BOther] are the kinds that the printer does not know, with the name of the kind. *)
Inductive body :=
| BRead (sources schemas : list str) (filter best : option expr) (projection : bool)
| BFilter (condition : option expr)
| BFetch (offset count : Z)
| BAggregate (groupings : list (list expr)) (measures : list measure)
| BSort (sorts : list sort)
| BProject (expressions : list expr)
| BJoin (type : join_type) (expression post : option expr)
| BCross
| BOther (name : str).
Record relation := Relation { r_body : body; r_emit : list Z }.
(** ProtoUtils.cpp 21-45 relTypeCaseName *)
Definition kind_name (b : body) : str :=
  match b with
  | BRead _ _ _ _ _ => $"read" | BFilter _ => $"filter" | BFetch _ _ => $"fetch" | BAggregate _ _ => $"aggregate" | BSort _ => $"sort" | BProject _ => $"project"
  | BJoin _ _ _ => $"join" | BCross => $"cross" | BOther n => n
  end.

(** * Printing *)
Definition both (a b : outcome printed) : outcome printed := x <- a ;; y <- b ;; Ok (fst x ++ fst y, snd x + snd y).
Definition together (l : list (outcome printed)) : outcome printed := fold_right both (Ok ([], 0)) l.
Definition text (s : str) : outcome printed := Ok (s, 0).
Definition optional {A} (f : A -> outcome printed) (x : option A) : outcome printed := match x with Some a => f a | None => text [] end.
Definition semicolon_line : str := $";" ++ [lf].
(** a line of a relation, and one in a measure *)
Definition line (key : str) (e : outcome printed) : outcome printed := together [text ($"  " ++ key ++ $" "); e; text semicolon_line].
Definition inner_line (key : str) (e : outcome printed) : outcome printed := together [text ($"    " ++ key ++ $" "); e; text semicolon_line].

Section Print.
  (** The names of functions and of columns (as in ExprModel), the names of columns for an emit, the names of the measures by their position,
      and for the expressions of a project relation by their position the text that replaces them (generatedFieldReferenceAlternativeExpression)
      and the alias *)
  Variable function_name : N -> option str.
  Variable field_name : N -> Z -> option str.
  Variable emit_name : Z -> option str.
  Variable measure_name : nat -> option str.
  Variable alternative : nat -> option str.
  Variable alias : nat -> option str.
  Definition printE (e : expr) : outcome printed := printExpr function_name field_name 0 e.
  (** PlanPrinterVisitor.cpp 885-898 visitRelationCommon; 191-253 lookupFieldReferenceForEmit gives an error and a number without a name *)
  Definition lookupEmit (z : Z) : printed := match emit_name z with Some n => (n, 0) | None => ($"field#" ++ print_Z (z mod 2 ^ 32), 1) end.
  Definition printEmit (l : list Z) : outcome printed :=
    match l with [] => text [] | _ => both (text [lf]) (together (map (fun z => line $"emit" (Ok (lookupEmit z))) l)) end.
  (** 900-955 visitAggregateFunction; it is never nested, so it is not indented *)
  Definition option_text (o : str * list str) : str := $"#" ++ fst o ++ concat (map (fun p => $";" ++ p) (snd o)).
  Definition printAggregateFunction (f : aggregate_function) : outcome printed :=
    together [
      Ok (lookupFunctionReference function_name (af_ref f)); text $"(";
      commas (map (fun a => match a with
        | AValue e => printExpr function_name field_name 1 e
        | AEnum s => Ok (s ++ $"_enum", 0)
        | AType t => Ok (printType t)
        | AUnset => text $"UNKNOWN_AGGREGATE_FUNCTION_ARGUMENT_TYPE"
        end) (af_args f) ++ map (printExpr function_name field_name 1) (af_deprecated f));
      text $")"; text (concat (map option_text (af_options f))); text $"->"; Ok (printType (af_type f)); text ($"@" ++ phase_name (af_phase f)) ].
  Definition named (n : option str) : outcome printed := optional (fun n => text ($" NAMED " ++ n)) n.
  (** 1081-1108 *)
  Definition printMeasure (i : nat) (m : measure) : outcome printed :=
    match m_function m with
    | None => Ok ([], 1)
    | Some f =>
      together [
        text ($"  measure {" ++ [lf]);
        inner_line $"measure" (both (printAggregateFunction f) (named (measure_name i)));
        optional (fun e => inner_line $"filter" (printE e)) (m_filter m);
        optional (fun n => inner_line $"invocation" (text n)) (print_invocation (af_invocation f));
        text ($"  }" ++ [lf]) ]
    end.
  Fixpoint printMeasures (i : nat) (l : list measure) : outcome printed :=
    match l with [] => text [] | m :: l => both (printMeasure i m) (printMeasures (S i) l) end.
  (** 1112-1157 visitSortRelation: a comparison function is the whole text that is returned. *)
  Fixpoint printSorts (before : str) (l : list sort) : outcome printed :=
    match l with
    | [] => text before
    | (e, k) :: l =>
      x <- printE e ;;
      let start := before ++ $"  sort " ++ fst x in
      let more (s : str) (errors : nat) := y <- printSorts (start ++ s ++ semicolon_line) l ;; Ok (fst y, snd x + errors + snd y) in
      match k with
      | SortFunction f => let n := lookupFunctionReference function_name f in Ok (fst n, snd x + snd n)
      | SortDirection d => more (match print_direction (Some d) with Some w => $" by " ++ w | None => [] end) 0
      | SortUnset => more [] 1
      end
    end.
  (** 1159-1187 visitProjectRelation *)
  Fixpoint printExpressions (i : nat) (l : list expr) : outcome printed :=
    match l with
    | [] => text []
    | e :: l =>
      both (line $"expression" (match alternative i with
                                | Some t => text t
                                | None => both (printE e) (named (alias i))
                                end))
           (printExpressions (S i) l)
    end.
  (** 997-1049 visitReadRelation (its own lookups of source and schema find nothing, because the relation is a copy), 1051-1060
      visitFilterRelation, 1062-1070 visitFetchRelation, 1072-1110 visitAggregateRelation, 1189-1206 visitJoinRelation, 1208-1212
      visitCrossRelation.  [None]: no text is returned. *)
  Definition printBody (r : relation) : option (outcome printed) :=
    match r_body r with
    | BRead [] _ _ _ _ => None
    | BRead _ _ filter best projection => Some (together [
        optional (fun e => line $"filter" (printE e)) filter; optional (fun e => line $"filter" (printE e)) best;
        if projection then line $"projection" (Ok ($"MASKEXPR-NOT-YET-IMPLEMENTED", 1)) else text [] ])
    | BFilter c => Some (optional (fun e => line $"filter" (printE e)) c)
    | BFetch offset count => Some (both (if (offset =? 0)%Z then text [] else line $"offset" (text (print_Z offset))) (line $"count" (text (print_Z count))))
    | BAggregate groupings measures => Some (together [
        together (map (fun e => line $"grouping" (printE e)) (concat groupings)); printMeasures 0 measures; printEmit (r_emit r) ])
    | BSort l => Some (printSorts [] l)
    | BProject l => Some (both (printExpressions 0 l) (printEmit (r_emit r)))
    | BJoin t e p => Some (together [
        line $"type" (text (join_name t)); optional (fun e => line $"expression" (printE e)) e; optional (fun e => line $"post_join" (printE e)) p ])
    | BCross => Some (text [])
    | BOther _ => None
    end.
  Definition sources_of (b : body) : list str := match b with BRead l _ _ _ _ => l | _ => [] end.
  Definition schemas_of (b : body) : list str := match b with BRead _ l _ _ _ => l | _ => [] end.
  (** 88-115 printRelation.  The visitor is called before it is known that nothing is returned. *)
  Definition printRelation (name : str) (r : relation) : outcome printed :=
    match printBody r with
    | None => Ok ([], 1)
    | Some b => together [
        text (kind_name (r_body r) ++ $" relation " ++ name ++ $" {" ++ [lf]);
        together (map (fun s => line $"source" (text s)) (sources_of (r_body r)));
        together (map (fun s => line $"base_schema" (text s)) (schemas_of (r_body r)));
        b; text ($"}" ++ [lf]) ]
    end.
End Print.

(** * Parsing *)
Definition t_semicolon (ts : list token) := match ts with (SEMICOLON, t) :: r => Some (t, r) | _ => None end.
Definition t_lbrace (ts : list token) := match ts with (LEFTBRACE, t) :: r => Some (t, r) | _ => None end.
Definition t_minus (ts : list token) := match ts with (MINUS, t) :: r => Some (t, r) | _ => None end.
Definition t_at (ts : list token) := match ts with (ATSIGN, t) :: r => Some (t, r) | _ => None end.
Definition t_named (ts : list token) := match ts with (NAMED, t) :: r => Some (t, r) | _ => None end.
Definition t_by (ts : list token) := match ts with (BY, t) :: r => Some (t, r) | _ => None end.
Definition t_filter (ts : list token) := match ts with (FILTER, t) :: r => Some (t, r) | _ => None end.
Definition t_relation (ts : list token) := match ts with (RELATION, t) :: r => Some (t, r) | _ => None end.
(** measure_detail: the ids are those after @ and NAMED, as far as they are there. *)
Inductive mdetail := MMeasure (e : enode) (ty : option str) (ids : list str) | MFilter (e : enode) | MInvocation (n : str) | MSort (e : enode) (by_ : option str).
(** relation_detail *)
Inductive detail :=
| OnCommon | OnSchema (n : str) | OnFilter (behavior : option str) (e : enode) | OnExpression (e : enode) (name : option str) | OnAdvanced | OnSource (n : str) | OnGrouping (e : enode)
| OnMeasure (l : list mdetail) | OnSort (e : enode) (by_ : option str) | OnCount (t : str) | OnType (n : str) | OnEmit (column : str).
(** SubstraitPlanSubqueryRelationVisitor.cpp 978-994: the columns a measure adds, one for every MEASURE with two ids *)
Definition measure_given (l : list mdetail) : list str := flat_map (fun d => match d with MMeasure _ _ (_ :: n :: _) => [n] | _ => [] end) l.
Definition p_e (ts : list token) : option (enode * list token) := p_expr (S (2 * length ts)) ts.
Definition p_semi {A} (a : A) (ts : list token) : option (A * list token) := match t_semicolon ts with Some (_, r) => Some (a, r) | None => None end.
(** an id after a keyword that need not be there *)
Definition p_after (t : list token -> option (str * list token)) (ts : list token) : option (option str * list token) :=
  match t ts with
  | Some (_, r) => match p_id r with Some (n, r) => Some (Some n, r) | None => None end
  | None => Some (None, ts)
  end.
Definition p_line {A B} (p : list token -> option (A * list token)) (f : A -> B) (ts : list token) : option (B * list token) :=
  match p ts with Some (a, r) => p_semi (f a) r | None => None end.
Definition p_sort {B} (f : enode -> option str -> B) (ts : list token) : option (B * list token) :=
  match p_e ts with Some (e, r) => match p_after t_by r with Some (b, r) => p_semi (f e b) r | None => None end | None => None end.
Definition listed (a : option str) : list str := match a with Some n => [n] | None => [] end.
Inductive mstart := HmMeasure (r : list token) | HmFilter (r : list token) | HmInvocation (r : list token) | HmSort (r : list token) | HmNo.
Definition m_start (ts : list token) : mstart :=
  match ts with
  | [] => HmNo
  | (k, _) :: r => match k with MEASURE => HmMeasure r | FILTER => HmFilter r | INVOCATION => HmInvocation r | SORT => HmSort r | _ => HmNo end
  end.
Definition p_mdetail (ts : list token) : option (mdetail * list token) :=
  match m_start ts with
  | HmMeasure r =>
    match p_e r with
    | Some (e, r) =>
      match (match t_arrow r with
             | Some (_, r) => match p_complex (S (length r)) r with Some (t, r) => Some (Some t, r) | None => None end
             | None => Some (None, r)
             end) with
      | Some (ty, r) =>
        match p_after t_at r with
        | Some (a, r) => match p_after t_named r with Some (n, r) => p_semi (MMeasure e ty (listed a ++ listed n)) r | None => None end
        | None => None
        end
      | None => None
      end
    | None => None
    end
  | HmFilter r => p_line p_e MFilter r
  | HmInvocation r => p_line p_id MInvocation r
  | HmSort r => p_sort MSort r
  | HmNo => None
  end.
(** what is in braces; the fuel is a bound of the number of the details *)
Section Many.
  Context {A : Type}.
  Variable p : list token -> option (A * list token).
  Fixpoint p_many (fuel : nat) (ts : list token) : option (list A * list token) :=
    match t_rbrace ts with
    | Some (_, r) => Some ([], r)
    | None => match fuel with
              | O => None
              | S fuel => match p ts with
                          | Some (a, r) => match p_many fuel r with Some (l, r) => Some (a :: l, r) | None => None end
                          | None => None
                          end
              end
    end.
End Many.
Inductive dstart :=
| HCommon (r : list token) | HSchema (r : list token) | HFilter (r : list token) | HExpression (r : list token) | HAdvanced (r : list token) | HSource (r : list token) | HGrouping (r : list token)
| HMeasure (r : list token) | HSort (r : list token) | HCount (r : list token) | HType (r : list token) | HEmit (r : list token) | HOther.
Definition d_start (ts : list token) : dstart :=
  match ts with
  | [] => HOther
  | (k, _) :: r =>
    match k with
    | COMMON => HCommon r | BASE_SCHEMA => HSchema r | FILTER => HFilter r | EXPRESSION => HExpression r | ADVANCED_EXTENSION => HAdvanced r | SOURCE => HSource r | GROUPING => HGrouping r
    | MEASURE => HMeasure r | SORT => HSort r | COUNT => HCount r | TYPE => HType r | EMIT => HEmit r | _ => HOther
    end
  end.
(** relation_filter_behavior and FILTER.  Simplification: a behavior is looked for only if the first token starts no other detail. *)
Definition p_behavior (ts : list token) : option (str * list token) :=
  match p_id ts with
  | None => None
  | Some (a, r) =>
    match t_filter r with
    | Some (_, r) => Some (a, r)
    | None =>
      let '(m, r) := maybe (t_minus r) r in
      match p_id r with
      | Some (b, r) => match t_filter r with Some (_, r) => Some (a ++ m ++ b, r) | None => None end
      | None => None
      end
    end
  end.
Definition column_of (e : enode) : str := match e with NCol t => t | _ => [] end.
Definition p_detail (ts : list token) : option (detail * list token) :=
  match d_start ts with
  | HCommon r => p_semi OnCommon r
  | HSchema r => p_line p_id OnSchema r
  | HFilter r => p_line p_e (OnFilter None) r
  | HExpression r => match p_e r with Some (e, r) => match p_after t_named r with Some (n, r) => p_semi (OnExpression e n) r | None => None end | None => None end
  | HAdvanced r => p_semi OnAdvanced r
  | HSource r => p_line p_id OnSource r
  | HGrouping r => p_line p_e OnGrouping r
  | HMeasure r => match t_lbrace r with
                  | Some (_, r) => match p_many p_mdetail (length r) r with Some (l, r) => Some (OnMeasure l, r) | None => None end
                  | None => None
                  end
  | HSort r => p_sort OnSort r
  | HCount r => match t_number r with Some (n, r) => p_semi (OnCount n) r | None => None end
  | HType r => p_line p_id OnType r
  | HEmit r => p_line p_column (fun e => OnEmit (column_of e)) r
  | HOther => match p_behavior ts with Some (b, r) => p_line p_e (OnFilter (Some b)) r | None => None end
  end.
(** relation; the kind, the name, and the details.  The schema in the reference is not used. *)
Record rnode := RNode { n_kind : str; n_name : str; n_details : list detail }.
Definition p_relation (ts : list token) : option (rnode * list token) :=
  match p_id ts with
  | Some (k, r) =>
    match t_relation r with
    | Some (_, r) =>
      match p_ref r with
      | Some (n, r) =>
        match t_lbrace r with
        | Some (_, r) => match p_many p_detail (length r) r with Some (l, r) => Some (RNode k n l, r) | None => None end
        | None => None
        end
      | None => None
      end
    | None => None
    end
  | None => None
  end.

(** * Evaluation *)
Inductive rerr :=
| RExpr (e : eerr) | RBehavior | RFilterTwice | RBestTwice | RReadFilter | RPostTwice | RJoinFilter | RConditionTwice | RFilterBehavior | RNoFilter | RNoSchema | RExpressionTwice
| RNoExpression | RNoGrouping | RMeasureTwice | RMeasureFilterTwice | RNoMeasure | RNoFunction | RPhase | RInvocation | RDirection | RNoSource | RNoSort | RNoCount | RJoinType | RNoJoinType
| RNoEmit | REmitOuter | REmitMissing | RNotExpression | RKind (k : str).
Definition visited (A : Type) := outcome (A * list rerr).
Definition fine {A} (a : A) : visited A := Ok (a, []).
Definition bindR {A B} (x : visited A) (f : A -> visited B) : visited B := a <- x ;; b <- f (fst a) ;; Ok (fst b, snd a ++ snd b).
Definition lift {A} (x : evaluated A) : visited A := a <- x ;; Ok (fst a, map RExpr (snd a)).
(** a value that was read, with the error to be reported *)
Definition said {A} (e : rerr) (x : outcome (parsed A)) : visited A := a <- x ;; Ok (fst a, if snd a then [e] else []).
(** SubstraitPlanVisitor.cpp 302-325 visitRelation_type, SubstraitPlanSubqueryRelationVisitor.cpp 155-210 setRelationType *)
Definition empty_body (k : str) : option body :=
  let k := to_lower k in
  if k =s $"read" then Some (BRead [] [] None None false) else if k =s $"project" then Some (BProject []) else if k =s $"join" then Some (BJoin JUnspecified None None)
  else if k =s $"cross" then Some BCross else if k =s $"fetch" then Some (BFetch 0 0) else if k =s $"aggregate" then Some (BAggregate [] [])
  else if k =s $"sort" then Some (BSort []) else if k =s $"filter" then Some (BFilter None) else if k =s $"set" then Some (BOther $"set") else None.
(** 521-544 visitRelation_filter_behavior: only letters and digits count ([std::isalnum] on a negative char is undefined). *)
Inductive behavior := KDefault | KBestEffort | KPostJoin.
Definition visitBehavior (s : str) : visited behavior :=
  if forallb ascii7 s then
    let t := filter (fun c => is_alpha c || is_digit c) (to_lower s) in
    if t =s $"besteffort" then fine KBestEffort else if t =s $"postjoin" then fine KPostJoin else Ok (KDefault, [RBehavior])
  else UB.

Section Visit.
  Variable find_function : str -> option N.
  Variable find_relation : str -> option bool.
  (** findFieldReferenceByName at the detail and, in a measure, at the detail of the measure with these positions; for emits the steps out,
      the number, and whether nothing was found *)
  Variable find_field : nat -> nat -> str -> option (N * Z).
  Variable find_emit : str -> N * Z * bool.
  (** the number of input columns *)
  Variable columns : nat.
  (** whether there is a source or a schema of this name *)
  Variable known_source known_schema : str -> bool.
  (** What the last pass (SubstraitPlanSubqueryRelationVisitor.cpp) makes of an expression, if the pass before got one: it casts what it got to an
      expression.  (The other errors of the pass before are those of the last one and not repeated here; it looks up no columns that this one does not.) *)
  Definition known (i j : nat) (e : enode) : outcome bool :=
    a <- visitFirst find_function (find_field i j) true e ;; Ok (match fst a with FExpr _ => true | _ => false end).
  Definition visitE (i j : nat) (e : enode) : visited expr :=
    k <- known i j e ;; if k then lift (visitExpr find_function find_relation (find_field i j) e) else Throw EBadAnyCast.
  (** 547-643 visitRelationFilter; a behavior is visited twice, by itself and with all children *)
  Definition visitFilter (b : body) (behavior : option str) (e : visited expr) : visited body :=
    let k := match behavior with Some s => visitBehavior s | None => fine KDefault end in
    bindR k (fun k => bindR (match behavior with Some s => visitBehavior s | None => fine KDefault end) (fun _ => bindR e (fun x =>
      match b with
      | BRead s sc filter best p =>
          match k with
          | KDefault => match filter with Some _ => Ok (b, [RFilterTwice]) | None => fine (BRead s sc (Some x) best p) end
          | KBestEffort => match best with Some _ => Ok (b, [RBestTwice]) | None => fine (BRead s sc filter (Some x) p) end
          | KPostJoin => Ok (b, [RReadFilter])
          end
      | BJoin t e p =>
          match k with
          | KPostJoin => match p with Some _ => Ok (b, [RPostTwice]) | None => fine (BJoin t e (Some x)) end
          | _ => Ok (b, [RJoinFilter])
          end
      | BFilter c =>
          match k with
          | KDefault => match c with Some _ => Ok (b, [RConditionTwice]) | None => fine (BFilter (Some x)) end
          | _ => Ok (b, [RFilterBehavior])
          end
      | _ => Ok (b, [RNoFilter])
      end))).
  (** 720-757 visitRelationGrouping: every expression goes to the first group; the root of a selection becomes the root reference; the column
      grouped by is looked up without a check of the number *)
  Definition grouped (x : expr) : outcome expr :=
    match x with
    | ESel s _ => match s with
                  | SegField f _ => if (0 <=? f)%Z && (f <? Z.of_nat columns)%Z then Ok (ESel s RootRef) else UB
                  | _ => Ok (ESel s RootRef)
                  end
    | EMasked _ => Ok (EMasked RootRef)
    | ESelNone _ => Ok (ESelNone RootRef)
    | _ => Ok x
    end.
  Definition add_group (gs : list (list expr)) (x : expr) : list (list expr) := match gs with [] => [[x]] | g :: gs => (g ++ [x]) :: gs end.
  (** 2088-2100 visitSort_field *)
  Definition visitSort (i j : nat) (e : enode) (by_ : option str) : visited sort :=
    bindR (visitE i j e) (fun x => bindR (said RDirection (EnumModel.visitSort_field by_)) (fun d =>
      fine (x, match d with Some d => SortDirection d | None => SortUnset end))).
  (** 954-1015 visitMeasure_detail for MEASURE.  The error for what is no function is reported at the first id: without one this is a null pointer. *)
  Definition no_function : aggregate_function := AF 0 [] [] [] PtNone PUnspecified IUnspecified [].
  Definition visitMeasure (i j : nat) (e : enode) (ty : option str) (ids : list str) : visited aggregate_function :=
    bindR (visitE i j e) (fun x =>
      match x with
      | EFun f args _ options t =>
          bindR (match ty with Some s => lift (read_type false s) | None => fine t end) (fun t =>
          bindR (match ids with n :: _ => said RPhase (visitAggregationPhase n) | [] => fine PUnspecified end) (fun p =>
          fine (AF f args [] options t p IUnspecified [])))
      | _ => match ids with [] => UB | _ => Ok (no_function, [RNoFunction]) end
      end).
  (** 759-798: what a measure has so far; a second measure or filter ends the loop *)
  Record building := Building { b_function : option aggregate_function; b_filter : option expr; b_invocation : invocation; b_sorts : list sort }.
  Fixpoint visitMeasureDetails (i j : nat) (s : building) (l : list mdetail) : visited building :=
    match l with
    | [] => fine s
    | MMeasure e ty ids :: l =>
        bindR (visitMeasure i j e ty ids) (fun f =>
          match b_function s with
          | Some _ => Ok (s, [RMeasureTwice])
          | None => visitMeasureDetails i (S j) (Building (Some f) (b_filter s) (b_invocation s) (b_sorts s)) l
          end)
    | MFilter e :: l =>
        bindR (visitE i j e) (fun x =>
          match b_filter s with
          | Some _ => Ok (s, [RMeasureFilterTwice])
          | None => visitMeasureDetails i (S j) (Building (b_function s) (Some x) (b_invocation s) (b_sorts s)) l
          end)
    | MInvocation n :: l =>
        bindR (said RInvocation (visitAggregationInvocation n)) (fun v => visitMeasureDetails i (S j) (Building (b_function s) (b_filter s) v (b_sorts s)) l)
    | MSort e by_ :: l =>
        bindR (visitSort i j e by_) (fun x => visitMeasureDetails i (S j) (Building (b_function s) (b_filter s) (b_invocation s) (b_sorts s ++ [x])) l)
    end.
  (** 799-806: invocation and sorts go to the function, which comes to be if it was not there *)
  Definition with_invocation (v : invocation) (f : option aggregate_function) : option aggregate_function :=
    match v with
    | IUnspecified => f
    | _ => let f := match f with Some f => f | None => no_function end in
           Some (AF (af_ref f) (af_args f) (af_deprecated f) (af_options f) (af_type f) (af_phase f) v (af_sorts f))
    end.
  Definition with_sorts (l : list sort) (f : option aggregate_function) : option aggregate_function :=
    match l with
    | [] => f
    | _ => let f := match f with Some f => f | None => no_function end in
           Some (AF (af_ref f) (af_args f) (af_deprecated f) (af_options f) (af_type f) (af_phase f) (af_invocation f) (af_sorts f ++ l))
    end.
  Definition built (s : building) : measure := Measure (with_sorts (b_sorts s) (with_invocation (b_invocation s) (b_function s))) (b_filter s).
  Definition start_building : building := Building None None IUnspecified [].

  (** 466-519 visitRelationDetail *)
  Definition visitDetail (i : nat) (b : body) (d : detail) : visited body :=
    match d with
    | OnCommon | OnAdvanced | OnEmit _ => fine b
    | OnSchema n => match b with BRead s sc f g p => fine (if known_schema n then BRead s (sc ++ [n]) f g p else b) | _ => Ok (b, [RNoSchema]) end
    | OnSource n => match b with BRead s sc f g p => fine (if known_source n then BRead (s ++ [n]) sc f g p else b) | _ => Ok (b, [RNoSource]) end
    | OnFilter k e =>
        ok <- known i 0 e ;;
        match ok, b with
        | false, BFilter _ => Ok (b, [RNotExpression])           (* SubstraitPlanRelationVisitor.cpp 551-557 *)
        | _, _ => visitFilter b k (visitE i 0 e)
        end
    | OnExpression e _ =>
        bindR (visitE i 0 e) (fun x =>
          match b with
          | BJoin t None p => fine (BJoin t (Some x) p)
          | BJoin _ (Some _) _ => Ok (b, [RExpressionTwice])
          | BProject l => fine (BProject (l ++ [x]))
          | _ => Ok (b, [RNoExpression])
          end)
    | OnGrouping e =>
        bindR (visitE i 0 e) (fun x => match b with BAggregate gs ms => y <- grouped x ;; fine (BAggregate (add_group gs y) ms) | _ => Ok (b, [RNoGrouping]) end)
    | OnMeasure l =>
        bindR (visitMeasureDetails i 0 start_building l) (fun s => match b with BAggregate gs ms => fine (BAggregate gs (ms ++ [built s])) | _ => Ok (b, [RNoMeasure]) end)
    | OnSort e by_ => match b with BSort l => bindR (visitSort i 0 e by_) (fun x => fine (BSort (l ++ [x]))) | _ => Ok (b, [RNoSort]) end
    | OnCount t =>
        match b with
        | BFetch o _ => bindR (lift (visitNumber t (PtScalar SI64 NRequired))) (fun l => fine (BFetch o (match l with Lit (LI64 z) _ => z | _ => 0%Z end)))
        | _ => Ok (b, [RNoCount])
        end
    | OnType n => match b with BJoin _ e p => bindR (said RJoinType (visitRelationJoinType n)) (fun t => fine (BJoin t e p)) | _ => Ok (b, [RNoJoinType]) end
    end.
  Fixpoint visitDetails (i : nat) (b : body) (l : list detail) : visited body :=
    match l with [] => fine b | d :: l => bindR (visitDetail i b d) (fun b => visitDetails (S i) b l) end.
  (** 877-905 visitRelationEmit.  Every kind that can be written has a common part. *)
  Fixpoint visitEmits (l : list detail) : visited (list Z) :=
    match l with
    | [] => fine []
    | OnEmit c :: l =>
        let '(steps, z, missing) := find_emit c in
        let e := if missing then [REmitMissing] else [] in
        if (0 <? steps)%N then bindR (Ok (tt, e ++ [REmitOuter])) (fun _ => visitEmits l)
        else bindR (Ok (tt, e)) (fun _ => bindR (visitEmits l) (fun r => fine (z :: r)))
    | _ :: l => visitEmits l
    end.
  (** 447-451 *)
  Definition finish (b : body) : body := match b with BAggregate [] ms => BAggregate [[]] ms | _ => b end.
  (** 395-463 visitRelation.  Simplification: the details of a relation of an unknown kind are not visited (each of them would add an error). *)
  Definition visitRelation (n : rnode) : visited (option relation) :=
    match empty_body (n_kind n) with
    | None => Ok (None, [RKind (n_kind n)])
    | Some b =>
        bindR (visitDetails 0 b (n_details n)) (fun b => bindR (visitEmits (n_details n)) (fun e => fine (Some (Relation (finish b) e))))
    end.
  (** A whole text that is one relation: its name and what it is *)
  Definition readRelation (s : str) : option (str * visited (option relation)) :=
    match tokens s with
    | Some ts => match p_relation ts with Some (n, []) => Some (n_name n, visitRelation n) | _ => None end
    | None => None
    end.
End Visit.
