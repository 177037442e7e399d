(** Model of how enumeration values are written to and read from text plans. *)
From Verif Require Import Base StringsModel.

(** [normalizeProtoEnum], SubstraitPlanRelationVisitor.cpp 253-272 (same code in SubstraitPlanSubqueryRelationVisitor.cpp 251-270).
    [std::isalpha] on a negative [char] is undefined. *)
Definition ascii7 (c : ascii) : bool := (code c <? 128)%N.
Definition normalizeProtoEnum (text prefix : str) : outcome str :=
  if forallb ascii7 text then
    let result := to_lower (filter is_alpha text) in
    Ok (if startsWith result prefix then skipn (length prefix) result else result)
  else UB.

(** The enumerations of algebra.proto as far as the code names their values. *)
Inductive join_type := JUnspecified | JInner | JOuter | JLeft | JRight | JSemi | JAnti | JSingle.
Inductive invocation := IUnspecified | IAll | IDistinct.
Inductive phase := PUnspecified | PInitialToIntermediate | PIntermediateToIntermediate | PInitialToResult | PIntermediateToResult.
Inductive direction := DUnspecified | DAscNullsFirst | DAscNullsLast | DDescNullsFirst | DDescNullsLast | DClustered.
Inductive comparison := CUnspecified | CEq | CNe | CLt | CGt | CLe | CGe.
Inductive reduction := RedAny | RedAll.

(** A parsed value and whether an error was reported. *)
Definition parsed (A : Type) : Type := (A * bool)%type.

(** SubstraitPlanRelationVisitor.cpp 774-821 (join relations only) *)
Definition join_of (text : str) : join_type :=
  if text =s $"unspecified" then JUnspecified else if text =s $"inner" then JInner else if text =s $"outer" then JOuter
  else if text =s $"left" then JLeft else if text =s $"right" then JRight else if text =s $"semi" then JSemi
  else if text =s $"anti" then JAnti else if text =s $"single" then JSingle else JUnspecified.
Definition visitRelationJoinType (text : str) : outcome (parsed join_type) :=
  t <- normalizeProtoEnum text $"jointype" ;;
  let j := join_of t in Ok (j, match j with JUnspecified => true | _ => false end).
(** 852-870 *)
Definition visitAggregationInvocation (text : str) : outcome (parsed invocation) :=
  t <- normalizeProtoEnum text $"aggregationinvocation" ;;
  Ok (if t =s $"unspecified" then (IUnspecified, false) else if t =s $"all" then (IAll, false)
      else if t =s $"distinct" then (IDistinct, false) else (IUnspecified, true)).
(** 872-890 *)
Definition visitAggregationPhase (text : str) : outcome (parsed phase) :=
  t <- normalizeProtoEnum text $"aggregationphase" ;;
  Ok (if t =s $"unspecified" then (PUnspecified, false) else if t =s $"initialtointermediate" then (PInitialToIntermediate, false)
      else if t =s $"intermediatetointermediate" then (PIntermediateToIntermediate, false)
      else if t =s $"initialtoresult" then (PInitialToResult, false)
      else if t =s $"intermediatetoresult" then (PIntermediateToResult, false) else (PUnspecified, true)).
(** 1952-1971 *)
Definition visitSortDirection (text : str) : outcome (parsed direction) :=
  t <- normalizeProtoEnum text $"sortdirection" ;;
  Ok (if t =s $"unspecified" then (DUnspecified, false) else if t =s $"ascnullsfirst" then (DAscNullsFirst, false)
      else if t =s $"ascnullslast" then (DAscNullsLast, false) else if t =s $"descnullsfirst" then (DDescNullsFirst, false)
      else if t =s $"descnullslast" then (DDescNullsLast, false) else if t =s $"clustered" then (DClustered, false) else (DUnspecified, true)).
(** 1940-1950: the direction is set only if the text has one ([SORT expression (BY id)? SEMICOLON]). *)
Definition visitSort_field (by_ : option str) : outcome (parsed (option direction)) :=
  match by_ with None => Ok (None, false) | Some t => d <- visitSortDirection t ;; Ok (Some (fst d), snd d) end.
(** [comparisonToProto], SubstraitPlanSubqueryRelationVisitor.cpp 342-373; no error is reported. *)
Definition comparisonToProto (text : str) : comparison :=
  let t := to_lower text in
  if t =s $"le" then CLe else if t =s $"ge" then CGe else if t =s $"eq" then CEq else if t =s $"ne" then CNe
  else if t =s $"lt" then CLt else if t =s $"gt" then CGt else CUnspecified.

(** Printing. [JoinRel_JoinType_Name] and [AggregationPhase_Name] are generated from algebra.proto: the names of the values. *)
Definition join_name (j : join_type) : str :=                                    (* PlanPrinterVisitor.cpp 1193-1194 *)
  match j with JUnspecified => $"JOIN_TYPE_UNSPECIFIED" | JInner => $"JOIN_TYPE_INNER" | JOuter => $"JOIN_TYPE_OUTER" | JLeft => $"JOIN_TYPE_LEFT"
  | JRight => $"JOIN_TYPE_RIGHT" | JSemi => $"JOIN_TYPE_SEMI" | JAnti => $"JOIN_TYPE_ANTI" | JSingle => $"JOIN_TYPE_SINGLE" end.
Definition phase_name (p : phase) : str :=                                       (* 951 *)
  match p with PUnspecified => $"AGGREGATION_PHASE_UNSPECIFIED" | PInitialToIntermediate => $"AGGREGATION_PHASE_INITIAL_TO_INTERMEDIATE"
  | PIntermediateToIntermediate => $"AGGREGATION_PHASE_INTERMEDIATE_TO_INTERMEDIATE" | PInitialToResult => $"AGGREGATION_PHASE_INITIAL_TO_RESULT"
  | PIntermediateToResult => $"AGGREGATION_PHASE_INTERMEDIATE_TO_RESULT" end.
Definition invocationToString (i : invocation) : str :=                          (* 46-66 *)
  match i with IAll => $"all" | IDistinct => $"distinct" | IUnspecified => $"unspecified" end.
(** 1099-1106: an unspecified invocation is not printed (and then stays at its default). *)
Definition print_invocation (i : invocation) : option str := match i with IUnspecified => None | _ => Some (invocationToString i) end.
Definition parse_invocation (t : option str) : outcome (parsed invocation) :=
  match t with None => Ok (IUnspecified, false) | Some t => visitAggregationInvocation t end.
(** 1115-1153: [None] is SORT_KIND_NOT_SET (an error is reported); comparison functions are not modelled. *)
Definition print_direction (d : option direction) : option str :=
  match d with Some DAscNullsFirst => Some $"ASC_NULLS_FIRST" | Some DAscNullsLast => Some $"ASC_NULLS_LAST"
  | Some DDescNullsFirst => Some $"DESC_NULLS_FIRST" | Some DDescNullsLast => Some $"DESC_NULLS_LAST" | Some DClustered => Some $"CLUSTERED"
  | Some DUnspecified | None => None end.
(** 375-408: [None] is an error. *)
Definition print_comparison (c : comparison) : option str :=
  match c with CLe => Some $"LE" | CGe => Some $"GE" | CEq => Some $"EQ" | CNe => Some $"NE" | CLt => Some $"LT" | CGt => Some $"GT" | CUnspecified => None end.
