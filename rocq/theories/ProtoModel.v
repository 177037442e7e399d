(** The messages of a Substrait plan as far as any modelled function looks at them
    (substrait/algebra.proto and plan.proto; the .proto sources are not part of /repo,
    the fields are those used in src/substrait/textplan/converter/BasePlanProtoVisitor.cpp 21-1252).

    An optional or singular message field is an [option], a repeated field a list.
    A field [p] of type [N] stands for everything else in the message
    (names, types, constants, options, emit, ...), which the modelled functions copy without looking at it.
    Written by tools/gen_proto.py. *)
From Verif Require Import Base.

(** An expression (Expression). *)
Inductive expr :=
| XNone (* no rex_type set *)
| XLeaf (p : N) (* literal or enum *)
| XField (root : option expr) (p : N) (* selection (field reference) with an optional expression it starts from *)
| XScalar (f : N) (args : list farg) (old : list expr) (p : N) (* scalar_function: function_reference, arguments, deprecated args *)
| XWindow (f : N) (args : list farg) (sorts : list sortf) (parts : list expr) (p : N) (* window_function: function_reference, arguments, sorts, partitions *)
| XIf (ifs : list clause) (els : option expr) (* if_then *)
| XSwitch (m : option expr) (ifs : list (option expr)) (els : option expr) (p : N) (* switch_expression: match, the thens of ifs, else *)
| XOr (v : option expr) (opts : list expr) (* singular_or_list *)
| XMulti (v : list expr) (opts : list (list expr)) (* multi_or_list *)
| XCast (i : option expr) (p : N) (* cast *)
| XNested (es : list expr) (p : N) (* nested struct, list or map *)
| XSubNone (* subquery without subquery_type *)
| XSubScalar (i : option rel) (* subquery.scalar: input *)
| XSubIn (needles : list expr) (h : option rel) (* subquery.in_predicate: needles, haystack *)
| XSubSet (t : option rel) (p : N) (* subquery.set_predicate: tuples *)
| XSubComp (l : option expr) (r : option rel) (p : N) (* subquery.set_comparison: left, right *)
(** A function argument (FunctionArgument). *)
with farg :=
| ANone (* no arg_type set *)
| AEnum (p : N) (* enum *)
| AType (p : N) (* type *)
| AValue (e : expr) (* value *)
(** One alternative of an if_then (IfClause). *)
with clause :=
| Clause (i : option expr) (t : option expr) (* if, then *)
(** A sort field (SortField). *)
with sortf :=
| Sort (e : option expr) (p : N) (* expr, direction *)
(** An aggregate function call (AggregateFunction), also used for WindowRelFunction. *)
with afun :=
| AFun (f : N) (args : list farg) (sorts : list sortf) (old : list expr) (p : N) (* function_reference, arguments, sorts, deprecated args *)
(** A measure of an aggregate relation (AggregateRel.Measure). *)
with measure :=
| Measure (g : option afun) (filter : option expr) (* measure, filter *)
(** A relation (Rel). *)
with rel :=
| RNone (* no rel_type set *)
| RRead (filter : option expr) (best : option expr) (p : N) (* read: filter, best_effort_filter *)
| RFilter (i : option rel) (c : option expr) (p : N) (* filter: input, condition *)
| RFetch (i : option rel) (p : N) (* fetch *)
| RAggregate (i : option rel) (groups : list (list expr)) (ms : list measure) (p : N) (* aggregate: input, grouping_expressions of groupings, measures *)
| RSort (i : option rel) (sorts : list sortf) (p : N) (* sort *)
| RJoin (l : option rel) (r : option rel) (c : option expr) (post : option expr) (p : N) (* join: left, right, expression, post_join_filter *)
| RProject (i : option rel) (es : list expr) (p : N) (* project: input, expressions *)
| RSet (ins : list rel) (p : N) (* set: inputs *)
| RExtSingle (i : option rel) (p : N) (* extension_single *)
| RExtMulti (ins : list rel) (p : N) (* extension_multi *)
| RExtLeaf (p : N) (* extension_leaf *)
| RCross (l : option rel) (r : option rel) (p : N) (* cross *)
| RHashJoin (l : option rel) (r : option rel) (post : option expr) (p : N) (* hash_join: left, right, post_join_filter *)
| RMergeJoin (l : option rel) (r : option rel) (post : option expr) (p : N) (* merge_join: left, right, post_join_filter *)
| RNestedLoop (l : option rel) (r : option rel) (c : option expr) (p : N) (* nested_loop_join: left, right, expression *)
| RWindowRel (i : option rel) (fs : list afun) (parts : list expr) (sorts : list sortf) (p : N) (* window: input, window_functions, partition_expressions, sorts *)
| RExchange (i : option rel) (p : N) (* exchange *)
| RExpand (i : option rel) (es : list expr) (p : N) (* expand: input, expressions of fields *)
| RWrite (i : option rel) (p : N) (* write *)
| RDdl (v : option rel) (p : N) (* ddl: view_definition *)
| RReference (p : N). (* reference *)

(** ** Induction over all of them at once *)
Definition OAll {A} (P : A -> Prop) (o : option A) : Prop := match o with Some x => P x | None => True end.
Definition OAll_build {A} {P : A -> Prop} (f : forall x, P x) (o : option A) : OAll P o :=
  match o with Some x => f x | None => I end.
Definition Forall_build {A} {P : A -> Prop} (f : forall x, P x) : forall l, Forall P l :=
  fix go l := match l with [] => Forall_nil P | x :: r => Forall_cons x (f x) (go r) end.
Section Induction.
  Variables (Px : expr -> Prop) (Pa : farg -> Prop) (Pc : clause -> Prop) (Po : sortf -> Prop) (Pg : afun -> Prop) (Pm : measure -> Prop) (Pr : rel -> Prop).
  Hypothesis HXNone : Px XNone.
  Hypothesis HXLeaf : forall p, Px (XLeaf p).
  Hypothesis HXField : forall root p, OAll Px root -> Px (XField root p).
  Hypothesis HXScalar : forall f args old p, Forall Pa args -> Forall Px old -> Px (XScalar f args old p).
  Hypothesis HXWindow : forall f args sorts parts p, Forall Pa args -> Forall Po sorts -> Forall Px parts -> Px (XWindow f args sorts parts p).
  Hypothesis HXIf : forall ifs els, Forall Pc ifs -> OAll Px els -> Px (XIf ifs els).
  Hypothesis HXSwitch : forall m ifs els p, OAll Px m -> Forall (OAll Px) ifs -> OAll Px els -> Px (XSwitch m ifs els p).
  Hypothesis HXOr : forall v opts, OAll Px v -> Forall Px opts -> Px (XOr v opts).
  Hypothesis HXMulti : forall v opts, Forall Px v -> Forall (Forall Px) opts -> Px (XMulti v opts).
  Hypothesis HXCast : forall i p, OAll Px i -> Px (XCast i p).
  Hypothesis HXNested : forall es p, Forall Px es -> Px (XNested es p).
  Hypothesis HXSubNone : Px XSubNone.
  Hypothesis HXSubScalar : forall i, OAll Pr i -> Px (XSubScalar i).
  Hypothesis HXSubIn : forall needles h, Forall Px needles -> OAll Pr h -> Px (XSubIn needles h).
  Hypothesis HXSubSet : forall t p, OAll Pr t -> Px (XSubSet t p).
  Hypothesis HXSubComp : forall l r p, OAll Px l -> OAll Pr r -> Px (XSubComp l r p).
  Hypothesis HANone : Pa ANone.
  Hypothesis HAEnum : forall p, Pa (AEnum p).
  Hypothesis HAType : forall p, Pa (AType p).
  Hypothesis HAValue : forall e, Px e -> Pa (AValue e).
  Hypothesis HClause : forall i t, OAll Px i -> OAll Px t -> Pc (Clause i t).
  Hypothesis HSort : forall e p, OAll Px e -> Po (Sort e p).
  Hypothesis HAFun : forall f args sorts old p, Forall Pa args -> Forall Po sorts -> Forall Px old -> Pg (AFun f args sorts old p).
  Hypothesis HMeasure : forall g filter, OAll Pg g -> OAll Px filter -> Pm (Measure g filter).
  Hypothesis HRNone : Pr RNone.
  Hypothesis HRRead : forall filter best p, OAll Px filter -> OAll Px best -> Pr (RRead filter best p).
  Hypothesis HRFilter : forall i c p, OAll Pr i -> OAll Px c -> Pr (RFilter i c p).
  Hypothesis HRFetch : forall i p, OAll Pr i -> Pr (RFetch i p).
  Hypothesis HRAggregate : forall i groups ms p, OAll Pr i -> Forall (Forall Px) groups -> Forall Pm ms -> Pr (RAggregate i groups ms p).
  Hypothesis HRSort : forall i sorts p, OAll Pr i -> Forall Po sorts -> Pr (RSort i sorts p).
  Hypothesis HRJoin : forall l r c post p, OAll Pr l -> OAll Pr r -> OAll Px c -> OAll Px post -> Pr (RJoin l r c post p).
  Hypothesis HRProject : forall i es p, OAll Pr i -> Forall Px es -> Pr (RProject i es p).
  Hypothesis HRSet : forall ins p, Forall Pr ins -> Pr (RSet ins p).
  Hypothesis HRExtSingle : forall i p, OAll Pr i -> Pr (RExtSingle i p).
  Hypothesis HRExtMulti : forall ins p, Forall Pr ins -> Pr (RExtMulti ins p).
  Hypothesis HRExtLeaf : forall p, Pr (RExtLeaf p).
  Hypothesis HRCross : forall l r p, OAll Pr l -> OAll Pr r -> Pr (RCross l r p).
  Hypothesis HRHashJoin : forall l r post p, OAll Pr l -> OAll Pr r -> OAll Px post -> Pr (RHashJoin l r post p).
  Hypothesis HRMergeJoin : forall l r post p, OAll Pr l -> OAll Pr r -> OAll Px post -> Pr (RMergeJoin l r post p).
  Hypothesis HRNestedLoop : forall l r c p, OAll Pr l -> OAll Pr r -> OAll Px c -> Pr (RNestedLoop l r c p).
  Hypothesis HRWindowRel : forall i fs parts sorts p, OAll Pr i -> Forall Pg fs -> Forall Px parts -> Forall Po sorts -> Pr (RWindowRel i fs parts sorts p).
  Hypothesis HRExchange : forall i p, OAll Pr i -> Pr (RExchange i p).
  Hypothesis HRExpand : forall i es p, OAll Pr i -> Forall Px es -> Pr (RExpand i es p).
  Hypothesis HRWrite : forall i p, OAll Pr i -> Pr (RWrite i p).
  Hypothesis HRDdl : forall v p, OAll Pr v -> Pr (RDdl v p).
  Hypothesis HRReference : forall p, Pr (RReference p).
  Fixpoint ix (z : expr) : Px z :=
    match z with
    | XNone => HXNone
    | XLeaf p => HXLeaf p
    | XField root p => HXField root p ((OAll_build ix) root)
    | XScalar f args old p => HXScalar f args old p ((Forall_build ia) args) ((Forall_build ix) old)
    | XWindow f args sorts parts p => HXWindow f args sorts parts p ((Forall_build ia) args) ((Forall_build io) sorts) ((Forall_build ix) parts)
    | XIf ifs els => HXIf ifs els ((Forall_build ic) ifs) ((OAll_build ix) els)
    | XSwitch m ifs els p => HXSwitch m ifs els p ((OAll_build ix) m) ((Forall_build (OAll_build ix)) ifs) ((OAll_build ix) els)
    | XOr v opts => HXOr v opts ((OAll_build ix) v) ((Forall_build ix) opts)
    | XMulti v opts => HXMulti v opts ((Forall_build ix) v) ((Forall_build (Forall_build ix)) opts)
    | XCast i p => HXCast i p ((OAll_build ix) i)
    | XNested es p => HXNested es p ((Forall_build ix) es)
    | XSubNone => HXSubNone
    | XSubScalar i => HXSubScalar i ((OAll_build ir) i)
    | XSubIn needles h => HXSubIn needles h ((Forall_build ix) needles) ((OAll_build ir) h)
    | XSubSet t p => HXSubSet t p ((OAll_build ir) t)
    | XSubComp l r p => HXSubComp l r p ((OAll_build ix) l) ((OAll_build ir) r)
    end
  with ia (z : farg) : Pa z :=
    match z with
    | ANone => HANone
    | AEnum p => HAEnum p
    | AType p => HAType p
    | AValue e => HAValue e (ix e)
    end
  with ic (z : clause) : Pc z :=
    match z with
    | Clause i t => HClause i t ((OAll_build ix) i) ((OAll_build ix) t)
    end
  with io (z : sortf) : Po z :=
    match z with
    | Sort e p => HSort e p ((OAll_build ix) e)
    end
  with ig (z : afun) : Pg z :=
    match z with
    | AFun f args sorts old p => HAFun f args sorts old p ((Forall_build ia) args) ((Forall_build io) sorts) ((Forall_build ix) old)
    end
  with im (z : measure) : Pm z :=
    match z with
    | Measure g filter => HMeasure g filter ((OAll_build ig) g) ((OAll_build ix) filter)
    end
  with ir (z : rel) : Pr z :=
    match z with
    | RNone => HRNone
    | RRead filter best p => HRRead filter best p ((OAll_build ix) filter) ((OAll_build ix) best)
    | RFilter i c p => HRFilter i c p ((OAll_build ir) i) ((OAll_build ix) c)
    | RFetch i p => HRFetch i p ((OAll_build ir) i)
    | RAggregate i groups ms p => HRAggregate i groups ms p ((OAll_build ir) i) ((Forall_build (Forall_build ix)) groups) ((Forall_build im) ms)
    | RSort i sorts p => HRSort i sorts p ((OAll_build ir) i) ((Forall_build io) sorts)
    | RJoin l r c post p => HRJoin l r c post p ((OAll_build ir) l) ((OAll_build ir) r) ((OAll_build ix) c) ((OAll_build ix) post)
    | RProject i es p => HRProject i es p ((OAll_build ir) i) ((Forall_build ix) es)
    | RSet ins p => HRSet ins p ((Forall_build ir) ins)
    | RExtSingle i p => HRExtSingle i p ((OAll_build ir) i)
    | RExtMulti ins p => HRExtMulti ins p ((Forall_build ir) ins)
    | RExtLeaf p => HRExtLeaf p
    | RCross l r p => HRCross l r p ((OAll_build ir) l) ((OAll_build ir) r)
    | RHashJoin l r post p => HRHashJoin l r post p ((OAll_build ir) l) ((OAll_build ir) r) ((OAll_build ix) post)
    | RMergeJoin l r post p => HRMergeJoin l r post p ((OAll_build ir) l) ((OAll_build ir) r) ((OAll_build ix) post)
    | RNestedLoop l r c p => HRNestedLoop l r c p ((OAll_build ir) l) ((OAll_build ir) r) ((OAll_build ix) c)
    | RWindowRel i fs parts sorts p => HRWindowRel i fs parts sorts p ((OAll_build ir) i) ((Forall_build ig) fs) ((Forall_build ix) parts) ((Forall_build io) sorts)
    | RExchange i p => HRExchange i p ((OAll_build ir) i)
    | RExpand i es p => HRExpand i es p ((OAll_build ir) i) ((Forall_build ix) es)
    | RWrite i p => HRWrite i p ((OAll_build ir) i)
    | RDdl v p => HRDdl v p ((OAll_build ir) v)
    | RReference p => HRReference p
    end.
  Definition plan_ind : (forall z, Px z) /\ (forall z, Pa z) /\ (forall z, Pc z) /\ (forall z, Po z) /\ (forall z, Pg z) /\ (forall z, Pm z) /\ (forall z, Pr z) :=
    conj ix (conj ia (conj ic (conj io (conj ig (conj im (ir)))))).
End Induction.

(** A plan (Plan): extension spaces, extension declarations, relations. *)
Record space := { sp_anchor : N; sp_uri : str }.                   (* SimpleExtensionURI *)
Inductive decl :=                                                  (* SimpleExtensionDeclaration *)
| DFun (space anchor : N) (name : str)                             (* extension_function *)
| DOther (p : N).                                                  (* extension_type, extension_type_variation or not set *)
Inductive prel :=                                                  (* PlanRel *)
| PNone
| PRel (r : rel)                                                   (* rel *)
| PRoot (i : option rel) (p : N).                                  (* root: input; the names are in p *)
Record plan := { p_spaces : list space; p_decls : list decl; p_rels : list prel; p_rest : N }.
