(** The messages of a Substrait plan that src/substrait/textplan/converter/BasePlanProtoVisitor.cpp looks at (21-1252), all of them, down to types and literals.
    (The .proto sources are not part of /repo: the fields are those the visitor uses.)

    An optional or singular message field is an [option], a repeated field a list.  A field [p] of type [N] stands for a value that is not a message.
    Written by tools/gen_visit.py. *)
From Verif Require Import Base.
Definition OAll {A} (P : A -> Prop) (o : option A) : Prop := match o with Some x => P x | None => True end.
Definition OAll_build {A} {P : A -> Prop} (f : forall x, P x) (o : option A) : OAll P o := match o with Some x => f x | None => I end.
Definition Forall_build {A} {P : A -> Prop} (f : forall x, P x) : forall l, Forall P l := fix go l := match l with [] => Forall_nil P | x :: r => Forall_cons x (f x) (go r) end.

(** A type (Type). *)
Inductive ty :=
| TNone (* no kind set *)
| TOld (p : N) (* user_defined_type_reference *)
| TPlain (p : N) (* bool, i8, ..., decimal *)
| TStruct (ts : list ty) (* struct *)
| TList (e : option ty) (* list *)
| TMap (k : option ty) (v : option ty) (* map: key, value *)
| TUser (ps : list tparam) (* user_defined: type_parameters *)
(** A parameter of a user defined type (Type.Parameter). *)
with tparam :=
| TPNone (* no parameter set *)
| TPPlain (p : N) (* null, boolean, integer, enum or string *)
| TPType (t : ty). (* data_type *)
Section Induction_type.
  Variables (Pt : ty -> Prop) (Pp : tparam -> Prop).
  Hypothesis HTNone : Pt TNone.
  Hypothesis HTOld : forall p, Pt (TOld p).
  Hypothesis HTPlain : forall p, Pt (TPlain p).
  Hypothesis HTStruct : forall ts, Forall Pt ts -> Pt (TStruct ts).
  Hypothesis HTList : forall e, OAll Pt e -> Pt (TList e).
  Hypothesis HTMap : forall k v, OAll Pt k -> OAll Pt v -> Pt (TMap k v).
  Hypothesis HTUser : forall ps, Forall Pp ps -> Pt (TUser ps).
  Hypothesis HTPNone : Pp TPNone.
  Hypothesis HTPPlain : forall p, Pp (TPPlain p).
  Hypothesis HTPType : forall t, Pt t -> Pp (TPType t).
  Fixpoint ind_t (z : ty) : Pt z :=
    match z with
    | TNone => HTNone
    | TOld p => HTOld p
    | TPlain p => HTPlain p
    | TStruct ts => HTStruct ts (Forall_build ind_t ts)
    | TList e => HTList e (OAll_build ind_t e)
    | TMap k v => HTMap k v (OAll_build ind_t k) (OAll_build ind_t v)
    | TUser ps => HTUser ps (Forall_build ind_p ps)
    end
  with ind_p (z : tparam) : Pp z :=
    match z with
    | TPNone => HTPNone
    | TPPlain p => HTPPlain p
    | TPType t => HTPType t (ind_t t)
    end.
  Definition type_all : (forall z, Pt z) /\ (forall z, Pp z) :=
    conj ind_t (ind_p).
End Induction_type.

(** A literal (Expression.Literal). *)
Inductive lit :=
| LNone (* no literal_type set *)
| LPlain (p : N) (* boolean, i8, ..., uuid *)
| LStruct (fs : list lit) (* struct *)
| LMap (kvs : list litkv) (* map *)
| LNull (t : ty) (* null *)
| LList (vs : list lit) (* list *)
| LEmptyList (e : option ty) (* empty_list *)
| LEmptyMap (k : option ty) (v : option ty) (* empty_map *)
| LUser (ps : list tparam) (* user_defined: type_parameters *)
(** An entry of a map (Expression.Literal.Map.KeyValue). *)
with litkv :=
| LKV (k : option lit) (v : option lit). (* key, value *)
Section Induction_literal.
  Variables (Pl : lit -> Prop) (Pk : litkv -> Prop).
  Hypothesis HLNone : Pl LNone.
  Hypothesis HLPlain : forall p, Pl (LPlain p).
  Hypothesis HLStruct : forall fs, Forall Pl fs -> Pl (LStruct fs).
  Hypothesis HLMap : forall kvs, Forall Pk kvs -> Pl (LMap kvs).
  Hypothesis HLNull : forall t, Pl (LNull t).
  Hypothesis HLList : forall vs, Forall Pl vs -> Pl (LList vs).
  Hypothesis HLEmptyList : forall e, Pl (LEmptyList e).
  Hypothesis HLEmptyMap : forall k v, Pl (LEmptyMap k v).
  Hypothesis HLUser : forall ps, Pl (LUser ps).
  Hypothesis HLKV : forall k v, OAll Pl k -> OAll Pl v -> Pk (LKV k v).
  Fixpoint ind_l (z : lit) : Pl z :=
    match z with
    | LNone => HLNone
    | LPlain p => HLPlain p
    | LStruct fs => HLStruct fs (Forall_build ind_l fs)
    | LMap kvs => HLMap kvs (Forall_build ind_k kvs)
    | LNull t => HLNull t
    | LList vs => HLList vs (Forall_build ind_l vs)
    | LEmptyList e => HLEmptyList e
    | LEmptyMap k v => HLEmptyMap k v
    | LUser ps => HLUser ps
    end
  with ind_k (z : litkv) : Pk z :=
    match z with
    | LKV k v => HLKV k v (OAll_build ind_l k) (OAll_build ind_l v)
    end.
  Definition literal_all : (forall z, Pl z) /\ (forall z, Pk z) :=
    conj ind_l (ind_k).
End Induction_literal.

(** A reference segment (Expression.ReferenceSegment). *)
Inductive seg :=
| GNone (* no reference_type set *)
| GKey (k : option lit) (c : option seg) (* map_key: map_key, child *)
| GField (p : N) (c : option seg) (* struct_field: child *)
| GElement (p : N) (c : option seg). (* list_element: child *)
Section Induction_segment.
  Variables (Ps : seg -> Prop).
  Hypothesis HGNone : Ps GNone.
  Hypothesis HGKey : forall k c, OAll Ps c -> Ps (GKey k c).
  Hypothesis HGField : forall p c, OAll Ps c -> Ps (GField p c).
  Hypothesis HGElement : forall p c, OAll Ps c -> Ps (GElement p c).
  Fixpoint ind_s (z : seg) : Ps z :=
    match z with
    | GNone => HGNone
    | GKey k c => HGKey k c (OAll_build ind_s c)
    | GField p c => HGField p c (OAll_build ind_s c)
    | GElement p c => HGElement p c (OAll_build ind_s c)
    end.
  Definition segment_all : (forall z, Ps z) :=
    ind_s.
End Induction_segment.

(** What a mask selects (Expression.MaskExpression.Select). *)
Inductive sel :=
| SNone (* no type set *)
| SStruct (items : list (option sel)) (* struct: the children of struct_items *)
| SList (c : option sel) (* list: child *)
| SMap (c : option sel) (set : bool). (* map: child, whether key or expression is set *)
Section Induction_select.
  Variables (Pn : sel -> Prop).
  Hypothesis HSNone : Pn SNone.
  Hypothesis HSStruct : forall items, Forall (OAll Pn) items -> Pn (SStruct items).
  Hypothesis HSList : forall c, OAll Pn c -> Pn (SList c).
  Hypothesis HSMap : forall c set, OAll Pn c -> Pn (SMap c set).
  Fixpoint ind_n (z : sel) : Pn z :=
    match z with
    | SNone => HSNone
    | SStruct items => HSStruct items (Forall_build (OAll_build ind_n) items)
    | SList c => HSList c (OAll_build ind_n c)
    | SMap c set => HSMap c set (OAll_build ind_n c)
    end.
  Definition select_all : (forall z, Pn z) :=
    ind_n.
End Induction_select.

(** The schema of a read or written table (NamedStruct): which message it is, its names and types *)
Record schema := Schema { h_id : N; h_names : list str; h_types : list ty }.
(** The source of a read relation (its read_type); the rows of a virtual table are lists of literals *)
Inductive datasource := DNone | DVirtual (rows : list (list lit)) | DFiles (p : N) | DNamed (names : list str) | DExtension (p : N).

(** An expression (Expression). *)
Inductive expr :=
| XNone (* no rex_type set *)
| XEnum (p : N) (* enum *)
| XLiteral (l : lit) (* literal *)
| XSelection (v : fieldref) (* selection *)
| XScalar (args : list farg) (out : option ty) (old : list expr) (* scalar_function: arguments, output_type, args *)
| XWindow (args : list farg) (out : option ty) (sorts : list sortf) (parts : list expr) (* window_function: arguments, output_type, sorts, partitions *)
| XIf (ifs : list clause) (els : option expr) (* if_then: ifs, else *)
| XSwitch (m : option expr) (ifs : list ifvalue) (els : option expr) (* switch_expression: match, ifs, else *)
| XOr (v : option expr) (opts : list expr) (* singular_or_list: value, options *)
| XMulti (vs : list expr) (opts : list (list expr)) (* multi_or_list: value, fields of the options *)
| XCast (i : option expr) (t : option ty) (* cast: input, type *)
| XNestedNone (* nested without nested_type *)
| XNested (es : list expr) (* nested.struct or nested.list *)
| XNestedMap (kvs : list clause) (* nested.map: key_values *)
| XSubNone (* subquery without subquery_type *)
| XSubScalar (i : option rel) (* subquery.scalar: input *)
| XSubIn (needles : list expr) (h : option rel) (* subquery.in_predicate: needles, haystack *)
| XSubSet (t : option rel) (* subquery.set_predicate: tuples *)
| XSubComp (l : option expr) (r : option rel) (* subquery.set_comparison: left, right *)
(** A function argument (FunctionArgument). *)
with farg :=
| ANone (* no arg_type set *)
| AEnum (p : N) (* enum *)
| AType (t : ty) (* type *)
| AValue (e : expr) (* value *)
(** Two expressions: an IfClause (if, then) or an entry of a nested map (key, value). *)
with clause :=
| Clause (i : option expr) (t : option expr)
(** An alternative of a switch_expression (IfValue). *)
with ifvalue :=
| IfValue (i : option lit) (t : option expr) (* if, then *)
(** A field reference (Expression.FieldReference). *)
with fieldref :=
| Ref (d : option seg) (m : option (list (option sel))) (root : option expr) (* direct_reference; the struct_items of masked_reference.select; expression *)
(** A sort field (SortField). *)
with sortf :=
| Sort (e : option expr) (* expr *)
(** An aggregate function call (AggregateFunction). *)
with afun :=
| AFun (args : list farg) (out : option ty) (sorts : list sortf) (old : list expr) (* arguments, output_type, sorts, args *)
(** A function of a window relation (WindowRelFunction). *)
with wfun :=
| WFun (args : list farg) (out : option ty) (* arguments, output_type *)
(** A measure (AggregateRel.Measure). *)
with measure :=
| Measure (g : option afun) (filter : option expr) (* measure, filter *)
(** A field of an expand relation (ExpandRel.ExpandField). *)
with expand :=
| ENone (* no field_type set *)
| ESwitching (es : list expr) (* switching_field: duplicates *)
| EConsistent (e : expr) (* consistent_field *)
(** A relation (Rel). *)
with rel :=
| RNone (* no rel_type set *)
| RRead (schema : option schema) (filter : option expr) (best : option expr) (proj : option (list (option sel))) (src : datasource) (* read: base_schema, filter, best_effort_filter, projection, read_type *)
| RFilter (i : option rel) (c : option expr) (* filter: input, condition *)
| RFetch (i : option rel) (* fetch: input *)
| RAggregate (i : option rel) (groups : list (list expr)) (ms : list measure) (* aggregate: input, grouping_expressions of groupings, measures *)
| RSort (i : option rel) (sorts : list sortf) (* sort: input, sorts *)
| RJoin (l : option rel) (r : option rel) (c : option expr) (post : option expr) (* join: left, right, expression, post_join_filter *)
| RProject (i : option rel) (es : list expr) (* project: input, expressions *)
| RSet (ins : list rel) (* set: inputs *)
| RExtSingle (i : option rel) (* extension_single: input *)
| RExtMulti (ins : list rel) (* extension_multi: inputs *)
| RExtLeaf (* extension_leaf *)
| RCross (l : option rel) (r : option rel) (* cross: left, right *)
| RReference (* reference *)
| RWrite (schema : option schema) (i : option rel) (* write: table_schema, input *)
| RDdl (schema : option schema) (defaults : option (list lit)) (v : option rel) (* ddl: table_schema, table_defaults, view_definition *)
| RHashJoin (l : option rel) (r : option rel) (lk : list fieldref) (rk : list fieldref) (post : option expr) (* hash_join: left, right, left_keys, right_keys, post_join_filter *)
| RMergeJoin (l : option rel) (r : option rel) (lk : list fieldref) (rk : list fieldref) (post : option expr) (* merge_join: left, right, left_keys, right_keys, post_join_filter *)
| RNestedLoop (l : option rel) (r : option rel) (c : option expr) (* nested_loop_join: left, right, expression *)
| RWindowRel (i : option rel) (fs : list wfun) (parts : list expr) (sorts : list sortf) (* window: input, window_functions, partition_expressions, sorts *)
| RExchange (i : option rel) (* exchange: input *)
| RExpand (i : option rel) (fs : list expand). (* expand: input, fields *)
Section Induction_plan.
  Variables (Px : expr -> Prop) (Pa : farg -> Prop) (Pc : clause -> Prop) (Pw : ifvalue -> Prop) (Pv : fieldref -> Prop) (Po : sortf -> Prop) (Pg : afun -> Prop) (Pf : wfun -> Prop) (Pm : measure -> Prop) (Pe : expand -> Prop) (Pr : rel -> Prop).
  Hypothesis HXNone : Px XNone.
  Hypothesis HXEnum : forall p, Px (XEnum p).
  Hypothesis HXLiteral : forall l, Px (XLiteral l).
  Hypothesis HXSelection : forall v, Pv v -> Px (XSelection v).
  Hypothesis HXScalar : forall args out old, Forall Pa args -> Forall Px old -> Px (XScalar args out old).
  Hypothesis HXWindow : forall args out sorts parts, Forall Pa args -> Forall Po sorts -> Forall Px parts -> Px (XWindow args out sorts parts).
  Hypothesis HXIf : forall ifs els, Forall Pc ifs -> OAll Px els -> Px (XIf ifs els).
  Hypothesis HXSwitch : forall m ifs els, OAll Px m -> Forall Pw ifs -> OAll Px els -> Px (XSwitch m ifs els).
  Hypothesis HXOr : forall v opts, OAll Px v -> Forall Px opts -> Px (XOr v opts).
  Hypothesis HXMulti : forall vs opts, Forall Px vs -> Forall (Forall Px) opts -> Px (XMulti vs opts).
  Hypothesis HXCast : forall i t, OAll Px i -> Px (XCast i t).
  Hypothesis HXNestedNone : Px XNestedNone.
  Hypothesis HXNested : forall es, Forall Px es -> Px (XNested es).
  Hypothesis HXNestedMap : forall kvs, Forall Pc kvs -> Px (XNestedMap kvs).
  Hypothesis HXSubNone : Px XSubNone.
  Hypothesis HXSubScalar : forall i, OAll Pr i -> Px (XSubScalar i).
  Hypothesis HXSubIn : forall needles h, Forall Px needles -> OAll Pr h -> Px (XSubIn needles h).
  Hypothesis HXSubSet : forall t, OAll Pr t -> Px (XSubSet t).
  Hypothesis HXSubComp : forall l r, OAll Px l -> OAll Pr r -> Px (XSubComp l r).
  Hypothesis HANone : Pa ANone.
  Hypothesis HAEnum : forall p, Pa (AEnum p).
  Hypothesis HAType : forall t, Pa (AType t).
  Hypothesis HAValue : forall e, Px e -> Pa (AValue e).
  Hypothesis HClause : forall i t, OAll Px i -> OAll Px t -> Pc (Clause i t).
  Hypothesis HIfValue : forall i t, OAll Px t -> Pw (IfValue i t).
  Hypothesis HRef : forall d m root, OAll Px root -> Pv (Ref d m root).
  Hypothesis HSort : forall e, OAll Px e -> Po (Sort e).
  Hypothesis HAFun : forall args out sorts old, Forall Pa args -> Forall Po sorts -> Forall Px old -> Pg (AFun args out sorts old).
  Hypothesis HWFun : forall args out, Forall Pa args -> Pf (WFun args out).
  Hypothesis HMeasure : forall g filter, OAll Pg g -> OAll Px filter -> Pm (Measure g filter).
  Hypothesis HENone : Pe ENone.
  Hypothesis HESwitching : forall es, Forall Px es -> Pe (ESwitching es).
  Hypothesis HEConsistent : forall e, Px e -> Pe (EConsistent e).
  Hypothesis HRNone : Pr RNone.
  Hypothesis HRRead : forall schema filter best proj src, OAll Px filter -> OAll Px best -> Pr (RRead schema filter best proj src).
  Hypothesis HRFilter : forall i c, OAll Pr i -> OAll Px c -> Pr (RFilter i c).
  Hypothesis HRFetch : forall i, OAll Pr i -> Pr (RFetch i).
  Hypothesis HRAggregate : forall i groups ms, OAll Pr i -> Forall (Forall Px) groups -> Forall Pm ms -> Pr (RAggregate i groups ms).
  Hypothesis HRSort : forall i sorts, OAll Pr i -> Forall Po sorts -> Pr (RSort i sorts).
  Hypothesis HRJoin : forall l r c post, OAll Pr l -> OAll Pr r -> OAll Px c -> OAll Px post -> Pr (RJoin l r c post).
  Hypothesis HRProject : forall i es, OAll Pr i -> Forall Px es -> Pr (RProject i es).
  Hypothesis HRSet : forall ins, Forall Pr ins -> Pr (RSet ins).
  Hypothesis HRExtSingle : forall i, OAll Pr i -> Pr (RExtSingle i).
  Hypothesis HRExtMulti : forall ins, Forall Pr ins -> Pr (RExtMulti ins).
  Hypothesis HRExtLeaf : Pr RExtLeaf.
  Hypothesis HRCross : forall l r, OAll Pr l -> OAll Pr r -> Pr (RCross l r).
  Hypothesis HRReference : Pr RReference.
  Hypothesis HRWrite : forall schema i, OAll Pr i -> Pr (RWrite schema i).
  Hypothesis HRDdl : forall schema defaults v, OAll Pr v -> Pr (RDdl schema defaults v).
  Hypothesis HRHashJoin : forall l r lk rk post, OAll Pr l -> OAll Pr r -> Forall Pv lk -> Forall Pv rk -> OAll Px post -> Pr (RHashJoin l r lk rk post).
  Hypothesis HRMergeJoin : forall l r lk rk post, OAll Pr l -> OAll Pr r -> Forall Pv lk -> Forall Pv rk -> OAll Px post -> Pr (RMergeJoin l r lk rk post).
  Hypothesis HRNestedLoop : forall l r c, OAll Pr l -> OAll Pr r -> OAll Px c -> Pr (RNestedLoop l r c).
  Hypothesis HRWindowRel : forall i fs parts sorts, OAll Pr i -> Forall Pf fs -> Forall Px parts -> Forall Po sorts -> Pr (RWindowRel i fs parts sorts).
  Hypothesis HRExchange : forall i, OAll Pr i -> Pr (RExchange i).
  Hypothesis HRExpand : forall i fs, OAll Pr i -> Forall Pe fs -> Pr (RExpand i fs).
  Fixpoint ind_x (z : expr) : Px z :=
    match z with
    | XNone => HXNone
    | XEnum p => HXEnum p
    | XLiteral l => HXLiteral l
    | XSelection v => HXSelection v (ind_v v)
    | XScalar args out old => HXScalar args out old (Forall_build ind_a args) (Forall_build ind_x old)
    | XWindow args out sorts parts => HXWindow args out sorts parts (Forall_build ind_a args) (Forall_build ind_o sorts) (Forall_build ind_x parts)
    | XIf ifs els => HXIf ifs els (Forall_build ind_c ifs) (OAll_build ind_x els)
    | XSwitch m ifs els => HXSwitch m ifs els (OAll_build ind_x m) (Forall_build ind_w ifs) (OAll_build ind_x els)
    | XOr v opts => HXOr v opts (OAll_build ind_x v) (Forall_build ind_x opts)
    | XMulti vs opts => HXMulti vs opts (Forall_build ind_x vs) (Forall_build (Forall_build ind_x) opts)
    | XCast i t => HXCast i t (OAll_build ind_x i)
    | XNestedNone => HXNestedNone
    | XNested es => HXNested es (Forall_build ind_x es)
    | XNestedMap kvs => HXNestedMap kvs (Forall_build ind_c kvs)
    | XSubNone => HXSubNone
    | XSubScalar i => HXSubScalar i (OAll_build ind_r i)
    | XSubIn needles h => HXSubIn needles h (Forall_build ind_x needles) (OAll_build ind_r h)
    | XSubSet t => HXSubSet t (OAll_build ind_r t)
    | XSubComp l r => HXSubComp l r (OAll_build ind_x l) (OAll_build ind_r r)
    end
  with ind_a (z : farg) : Pa z :=
    match z with
    | ANone => HANone
    | AEnum p => HAEnum p
    | AType t => HAType t
    | AValue e => HAValue e (ind_x e)
    end
  with ind_c (z : clause) : Pc z :=
    match z with
    | Clause i t => HClause i t (OAll_build ind_x i) (OAll_build ind_x t)
    end
  with ind_w (z : ifvalue) : Pw z :=
    match z with
    | IfValue i t => HIfValue i t (OAll_build ind_x t)
    end
  with ind_v (z : fieldref) : Pv z :=
    match z with
    | Ref d m root => HRef d m root (OAll_build ind_x root)
    end
  with ind_o (z : sortf) : Po z :=
    match z with
    | Sort e => HSort e (OAll_build ind_x e)
    end
  with ind_g (z : afun) : Pg z :=
    match z with
    | AFun args out sorts old => HAFun args out sorts old (Forall_build ind_a args) (Forall_build ind_o sorts) (Forall_build ind_x old)
    end
  with ind_f (z : wfun) : Pf z :=
    match z with
    | WFun args out => HWFun args out (Forall_build ind_a args)
    end
  with ind_m (z : measure) : Pm z :=
    match z with
    | Measure g filter => HMeasure g filter (OAll_build ind_g g) (OAll_build ind_x filter)
    end
  with ind_e (z : expand) : Pe z :=
    match z with
    | ENone => HENone
    | ESwitching es => HESwitching es (Forall_build ind_x es)
    | EConsistent e => HEConsistent e (ind_x e)
    end
  with ind_r (z : rel) : Pr z :=
    match z with
    | RNone => HRNone
    | RRead schema filter best proj src => HRRead schema filter best proj src (OAll_build ind_x filter) (OAll_build ind_x best)
    | RFilter i c => HRFilter i c (OAll_build ind_r i) (OAll_build ind_x c)
    | RFetch i => HRFetch i (OAll_build ind_r i)
    | RAggregate i groups ms => HRAggregate i groups ms (OAll_build ind_r i) (Forall_build (Forall_build ind_x) groups) (Forall_build ind_m ms)
    | RSort i sorts => HRSort i sorts (OAll_build ind_r i) (Forall_build ind_o sorts)
    | RJoin l r c post => HRJoin l r c post (OAll_build ind_r l) (OAll_build ind_r r) (OAll_build ind_x c) (OAll_build ind_x post)
    | RProject i es => HRProject i es (OAll_build ind_r i) (Forall_build ind_x es)
    | RSet ins => HRSet ins (Forall_build ind_r ins)
    | RExtSingle i => HRExtSingle i (OAll_build ind_r i)
    | RExtMulti ins => HRExtMulti ins (Forall_build ind_r ins)
    | RExtLeaf => HRExtLeaf
    | RCross l r => HRCross l r (OAll_build ind_r l) (OAll_build ind_r r)
    | RReference => HRReference
    | RWrite schema i => HRWrite schema i (OAll_build ind_r i)
    | RDdl schema defaults v => HRDdl schema defaults v (OAll_build ind_r v)
    | RHashJoin l r lk rk post => HRHashJoin l r lk rk post (OAll_build ind_r l) (OAll_build ind_r r) (Forall_build ind_v lk) (Forall_build ind_v rk) (OAll_build ind_x post)
    | RMergeJoin l r lk rk post => HRMergeJoin l r lk rk post (OAll_build ind_r l) (OAll_build ind_r r) (Forall_build ind_v lk) (Forall_build ind_v rk) (OAll_build ind_x post)
    | RNestedLoop l r c => HRNestedLoop l r c (OAll_build ind_r l) (OAll_build ind_r r) (OAll_build ind_x c)
    | RWindowRel i fs parts sorts => HRWindowRel i fs parts sorts (OAll_build ind_r i) (Forall_build ind_f fs) (Forall_build ind_x parts) (Forall_build ind_o sorts)
    | RExchange i => HRExchange i (OAll_build ind_r i)
    | RExpand i fs => HRExpand i fs (OAll_build ind_r i) (Forall_build ind_e fs)
    end.
  Definition plan_all : (forall z, Px z) /\ (forall z, Pa z) /\ (forall z, Pc z) /\ (forall z, Pw z) /\ (forall z, Pv z) /\ (forall z, Po z) /\ (forall z, Pg z) /\ (forall z, Pf z) /\ (forall z, Pm z) /\ (forall z, Pe z) /\ (forall z, Pr z) :=
    conj ind_x (conj ind_a (conj ind_c (conj ind_w (conj ind_v (conj ind_o (conj ind_g (conj ind_f (conj ind_m (conj ind_e (ind_r)))))))))).
End Induction_plan.

(** A declaration of an extension (SimpleExtensionDeclaration): a function, or anything else *)
Inductive decl := DFun (name : str) | DOther (p : N).
(** A relation of the plan (PlanRel) *)
Inductive prel := PNone (* no rel_type set *) | PRel (r : rel) | PRoot (names : list str) (i : option rel).
Record plan := Plan { p_uris : list str; p_decls : list decl; p_rels : list prel }.
