(** Model of the traversal of a binary plan: BasePlanProtoVisitor.cpp 21-1252 as InitialPlanProtoVisitor.cpp and PipelineVisitor.cpp inherit it, which is how
    parseBinaryPlan (ParseBinary.cpp 12-17) first goes through a plan.  Only whether the traversal gets to its end is modelled here, not what it notes down
    (that is in DeclModel, TreeModel, FieldModel, KindModel and WholeModel): a message in which nothing is set ends it with an exception, and a subquery without
    a relation with the dereference of a null pointer. *)
From Verif Require Import Base VisitMessages.
Definition walk := outcome unit.
Definition fine : walk := Ok tt.
Definition unsupported : walk := Throw EUnsupported.
Notation "a ;;; b" := (obind a (fun _ => b)) (at level 61, right associativity).
Definition each {A} (f : A -> walk) : list A -> walk := fix go l := match l with [] => fine | x :: l => f x ;;; go l end.
Definition if_set {A} (f : A -> walk) (o : option A) : walk := match o with Some x => f x | None => fine end.

(** 146-186 visitType, 188-194 visitTypeUserDefined, 196-214 visitTypeParameter, 243-260 visitTypeList and visitTypeMap, 322-328 visitStruct *)
Fixpoint visitType (t : ty) : walk :=
  match t with
  | TNone | TOld _ => unsupported
  | TPlain _ => fine
  | TStruct ts => each visitType ts
  | TList e => if_set visitType e
  | TMap k v => if_set visitType k ;;; if_set visitType v
  | TUser ps => each visitTypeParameter ps
  end
with visitTypeParameter (p : tparam) : walk :=
  match p with TPNone => unsupported | TPPlain _ => fine | TPType t => visitType t end.
(** 330-375 visitLiteral, 216-241 visitMap, visitMapKeyValue and visitList, 262-268 visitUserDefined, 573-579 visitExpressionLiteralStruct *)
Fixpoint visitLiteral (l : lit) : walk :=
  match l with
  | LNone => unsupported
  | LPlain _ => fine
  | LStruct fs => each visitLiteral fs
  | LMap kvs => each visitMapKeyValue kvs
  | LNull t => visitType t
  | LList vs => each visitLiteral vs
  | LEmptyList e => if_set visitType e
  | LEmptyMap k v => if_set visitType k ;;; if_set visitType v
  | LUser ps => each visitTypeParameter ps
  end
with visitMapKeyValue (kv : litkv) : walk :=
  match kv with LKV k v => if_set visitLiteral k ;;; if_set visitLiteral v end.
(** 606-622 visitReferenceSegment, 100-127 for each kind *)
Fixpoint visitReferenceSegment (s : seg) : walk :=
  match s with
  | GNone => unsupported
  | GKey k c => if_set visitLiteral k ;;; if_set visitReferenceSegment c
  | GField _ c | GElement _ c => if_set visitReferenceSegment c
  end.
(** 129-144 visitSelect, 92-98 visitStructItem, 528-571 visitStructSelect, visitListSelect and visitMapSelect *)
Fixpoint visitSelect (s : sel) : walk :=
  match s with
  | SNone => unsupported
  | SStruct items => each (if_set visitSelect) items
  | SList c => if_set visitSelect c
  | SMap c set => if_set visitSelect c ;;; (if set then fine else unsupported)
  end.
(** 672-678 visitMaskExpression *)
Definition visitMaskExpression (items : list (option sel)) : walk := each (if_set visitSelect) items.

Section Relations.
  (** What the derived visitors override: a schema of a table that is written, and one of a table that is read *)
  Variable visitNamedStruct : schema -> walk.
  Variable visitBaseSchema : schema -> walk.
  (** 772-805: the read type, 680-710 visitVirtualTable and the others *)
  Definition visitReadType (d : datasource) : walk :=
    match d with
    | DNone => unsupported
    | DVirtual rows => each (each visitLiteral) rows
    | DFiles _ | DNamed _ | DExtension _ => fine
    end.
  (** InitialPlanProtoVisitor.cpp 161-201 and PipelineVisitor.cpp 12-60 visitExpression: after the subquery the symbol of its relation is looked up and used.
      There is none if there was no relation to visit. *)
  Definition relation_of_subquery (r : option rel) : walk := match r with Some _ => fine | None => UB end.
  (** 637-670 visitExpression, 377-485 functions, conditions, lists and casts, 487-526 visitSubquery, visitNested and visitEnum, 22-79 for each kind of these *)
  Fixpoint visitExpression (e : expr) : walk :=
    match e with
    | XNone | XNestedNone | XSubNone => unsupported
    | XEnum _ => fine
    | XLiteral l => visitLiteral l
    | XSelection v => visitFieldReference v
    | XScalar args out old => each visitFunctionArgument args ;;; if_set visitType out ;;; each visitExpression old
    | XWindow args out sorts parts => each visitFunctionArgument args ;;; if_set visitType out ;;; each visitSortField sorts ;;; each visitExpression parts
    | XIf ifs els => each visitIfClause ifs ;;; if_set visitExpression els
    | XSwitch m ifs els => if_set visitExpression m ;;; each visitIfValue ifs ;;; if_set visitExpression els
    | XOr v opts => if_set visitExpression v ;;; each visitExpression opts
    | XMulti vs opts => each visitExpression vs ;;; each (each visitExpression) opts
    | XCast i t => if_set visitExpression i ;;; if_set visitType t
    | XNested es => each visitExpression es
    | XNestedMap kvs => each visitIfClause kvs
    | XSubScalar i => if_set visitRelation i ;;; relation_of_subquery i
    | XSubIn _ h => if_set visitRelation h ;;; relation_of_subquery h      (* 30-36: the needles are not visited *)
    | XSubSet t => if_set visitRelation t ;;; relation_of_subquery t
    | XSubComp l r => if_set visitExpression l ;;; if_set visitRelation r ;;; relation_of_subquery r
    end
  (** 270-285 visitFunctionArgument *)
  with visitFunctionArgument (a : farg) : walk :=
    match a with ANone => unsupported | AEnum _ => fine | AType t => visitType t | AValue e => visitExpression e end
  (** 300-309 visitIfClause, 81-90 visitNestedKeyValue *)
  with visitIfClause (c : clause) : walk := match c with Clause i t => if_set visitExpression i ;;; if_set visitExpression t end
  (** 311-320 visitIfValue *)
  with visitIfValue (c : ifvalue) : walk := match c with IfValue i t => if_set visitLiteral i ;;; if_set visitExpression t end
  (** 739-751 visitFieldReference *)
  with visitFieldReference (v : fieldref) : walk :=
    match v with Ref d m root => if_set visitReferenceSegment d ;;; if_set visitMaskExpression m ;;; if_set visitExpression root end
  (** 731-737 visitSortField *)
  with visitSortField (s : sortf) : walk := match s with Sort e => if_set visitExpression e end
  (** 586-604 visitAggregateFunction *)
  with visitAggregateFunction (g : afun) : walk :=
    match g with AFun args out sorts old => each visitFunctionArgument args ;;; if_set visitType out ;;; each visitSortField sorts ;;; each visitExpression old end
  (** 414-427 visitWindowRelFunction *)
  with visitWindowRelFunction (f : wfun) : walk := match f with WFun args out => each visitFunctionArgument args ;;; if_set visitType out end
  (** 720-729 visitMeasure, 712-718 visitGrouping *)
  with visitMeasure (m : measure) : walk := match m with Measure g filter => if_set visitAggregateFunction g ;;; if_set visitExpression filter end
  (** 753-770 visitExpandField *)
  with visitExpandField (f : expand) : walk := match f with ENone => fine | ESwitching es => each visitExpression es | EConsistent e => visitExpression e end
  (** 1137-1188 visitRelation and the functions for each kind, 772-1135 *)
  with visitRelation (r : rel) : walk :=
    match r with
    | RNone => unsupported
    | RRead schema filter best proj src =>
        if_set visitBaseSchema schema ;;; if_set visitExpression filter ;;; if_set visitExpression best ;;; if_set visitMaskExpression proj ;;; visitReadType src
    | RFilter i c => if_set visitExpression c ;;; if_set visitRelation i
    | RFetch i => if_set visitRelation i
    | RAggregate i groups ms => each (each visitExpression) groups ;;; each visitMeasure ms ;;; if_set visitRelation i
    | RSort i sorts => each visitSortField sorts ;;; if_set visitRelation i
    | RJoin l r c post => if_set visitRelation l ;;; if_set visitRelation r ;;; if_set visitExpression c ;;; if_set visitExpression post
    | RProject i es => if_set visitRelation i ;;; each visitExpression es
    | RSet ins | RExtMulti ins => each visitRelation ins
    | RExtSingle i | RExchange i => if_set visitRelation i
    | RExtLeaf | RReference => fine
    | RCross l r => if_set visitRelation l ;;; if_set visitRelation r
    | RWrite schema i => if_set visitNamedStruct schema ;;; if_set visitRelation i
    | RDdl schema defaults v => if_set visitNamedStruct schema ;;; if_set (each visitLiteral) defaults ;;; if_set visitRelation v
    | RHashJoin l r lk rk post | RMergeJoin l r lk rk post =>
        if_set visitRelation l ;;; if_set visitRelation r ;;; each visitFieldReference lk ;;; each visitFieldReference rk ;;; if_set visitExpression post
    | RNestedLoop l r c => if_set visitRelation l ;;; if_set visitRelation r ;;; if_set visitExpression c
    | RWindowRel i fs parts sorts => if_set visitRelation i ;;; each visitWindowRelFunction fs ;;; each visitExpression parts ;;; each visitSortField sorts
    | RExpand i fs => if_set visitRelation i ;;; each visitExpandField fs
    end.
  (** 1206-1219 visitPlanRelation, 1190-1193 visitRelationRoot: the input of a root is visited even if there is none *)
  Definition visitPlanRelation (p : prel) : walk :=
    match p with PNone => unsupported | PRel r => visitRelation r | PRoot _ i => visitRelation (match i with Some r => r | None => RNone end) end.
  Definition visitRelations (p : plan) : walk := each visitPlanRelation (p_rels p).
End Relations.

(** 632-635 visitNamedStruct *)
Definition base_NamedStruct (s : schema) : walk := each visitType (h_types s).
(** InitialPlanProtoVisitor.cpp 389-414 visitNamedStruct: the types are not visited if there are fewer types than names that are new.  Which names are new when a schema
    is visited for the first or second time depends on all symbols: [taken] says it, by message and position. *)
Fixpoint enough_types (taken : nat -> bool) (i : nat) (names : list str) (types : nat) : bool :=
  match names with
  | [] => true
  | _ :: names => if taken i then enough_types taken (S i) names types else match types with O => false | S types => enough_types taken (S i) names types end
  end.
Definition initial_NamedStruct (taken : N -> nat -> bool) (s : schema) : walk :=
  if enough_types (taken (h_id s)) 0 (h_names s) (length (h_types s)) then base_NamedStruct s else fine.
(** 203-225 visitExtension *)
Definition visitExtension (d : decl) : walk := match d with DFun _ => fine | DOther _ => Throw EInvalidState end.
(** 312-327 visitReadRelation: the schema is visited before and in the inherited function *)
Definition initial (first second : N -> nat -> bool) (p : plan) : walk :=
  each visitExtension (p_decls p) ;;; visitRelations (initial_NamedStruct second) (fun s => initial_NamedStruct first s ;;; initial_NamedStruct second s) p.
Definition pipeline (p : plan) : walk := visitRelations base_NamedStruct base_NamedStruct p.
(** ParseBinary.cpp 12-17 *)
Definition read_binary (first second : N -> nat -> bool) (p : plan) : walk := initial first second p ;;; pipeline p.
