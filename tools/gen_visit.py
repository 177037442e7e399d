# Writes rocq/theories/VisitMessages.v: all messages that BasePlanProtoVisitor.cpp looks at, and induction principles for them.
import os
root = os.path.join(os.path.dirname(os.path.abspath(__file__)), '..')
G = [
 ('type', [
  ("ty", "t", "A type (Type).", [
   ("TNone", "", "no kind set"), ("TOld", "p:N", "user_defined_type_reference"), ("TPlain", "p:N", "bool, i8, ..., decimal"),
   ("TStruct", "ts:lt", "struct"), ("TList", "e:ot", "list"), ("TMap", "k:ot v:ot", "map: key, value"), ("TUser", "ps:lp", "user_defined: type_parameters")]),
  ("tparam", "p", "A parameter of a user defined type (Type.Parameter).", [
   ("TPNone", "", "no parameter set"), ("TPPlain", "p:N", "null, boolean, integer, enum or string"), ("TPType", "t:t", "data_type")]),
 ]),
 ('literal', [
  ("lit", "l", "A literal (Expression.Literal).", [
   ("LNone", "", "no literal_type set"), ("LPlain", "p:N", "boolean, i8, ..., uuid"), ("LStruct", "fs:ll", "struct"), ("LMap", "kvs:lk", "map"), ("LNull", "t:t", "null"),
   ("LList", "vs:ll", "list"), ("LEmptyList", "e:ot", "empty_list"), ("LEmptyMap", "k:ot v:ot", "empty_map"), ("LUser", "ps:lp", "user_defined: type_parameters")]),
  ("litkv", "k", "An entry of a map (Expression.Literal.Map.KeyValue).", [("LKV", "k:ol v:ol", "key, value")]),
 ]),
 ('segment', [
  ("seg", "s", "A reference segment (Expression.ReferenceSegment).", [
   ("GNone", "", "no reference_type set"), ("GKey", "k:ol c:os", "map_key: map_key, child"), ("GField", "p:N c:os", "struct_field: child"), ("GElement", "p:N c:os", "list_element: child")]),
 ]),
 ('select', [
  ("sel", "n", "What a mask selects (Expression.MaskExpression.Select).", [
   ("SNone", "", "no type set"), ("SStruct", "items:lon", "struct: the children of struct_items"), ("SList", "c:on", "list: child"), ("SMap", "c:on set:B", "map: child, whether key or expression is set")]),
 ]),
 ('plan', [
  ("expr", "x", "An expression (Expression).", [
   ("XNone", "", "no rex_type set"), ("XEnum", "p:N", "enum"), ("XLiteral", "l:l", "literal"), ("XSelection", "v:v", "selection"),
   ("XScalar", "args:la out:ot old:lx", "scalar_function: arguments, output_type, args"),
   ("XWindow", "args:la out:ot sorts:lo parts:lx", "window_function: arguments, output_type, sorts, partitions"),
   ("XIf", "ifs:lc els:ox", "if_then: ifs, else"), ("XSwitch", "m:ox ifs:lw els:ox", "switch_expression: match, ifs, else"),
   ("XOr", "v:ox opts:lx", "singular_or_list: value, options"), ("XMulti", "vs:lx opts:llx", "multi_or_list: value, fields of the options"),
   ("XCast", "i:ox t:ot", "cast: input, type"),
   ("XNestedNone", "", "nested without nested_type"), ("XNested", "es:lx", "nested.struct or nested.list"), ("XNestedMap", "kvs:lc", "nested.map: key_values"),
   ("XSubNone", "", "subquery without subquery_type"), ("XSubScalar", "i:or", "subquery.scalar: input"), ("XSubIn", "needles:lx h:or", "subquery.in_predicate: needles, haystack"),
   ("XSubSet", "t:or", "subquery.set_predicate: tuples"), ("XSubComp", "l:ox r:or", "subquery.set_comparison: left, right")]),
  ("farg", "a", "A function argument (FunctionArgument).", [("ANone", "", "no arg_type set"), ("AEnum", "p:N", "enum"), ("AType", "t:t", "type"), ("AValue", "e:x", "value")]),
  ("clause", "c", "Two expressions: an IfClause (if, then) or an entry of a nested map (key, value).", [("Clause", "i:ox t:ox", "")]),
  ("ifvalue", "w", "An alternative of a switch_expression (IfValue).", [("IfValue", "i:ol t:ox", "if, then")]),
  ("fieldref", "v", "A field reference (Expression.FieldReference).", [("Ref", "d:os m:olon root:ox", "direct_reference; the struct_items of masked_reference.select; expression")]),
  ("sortf", "o", "A sort field (SortField).", [("Sort", "e:ox", "expr")]),
  ("afun", "g", "An aggregate function call (AggregateFunction).", [("AFun", "args:la out:ot sorts:lo old:lx", "arguments, output_type, sorts, args")]),
  ("wfun", "f", "A function of a window relation (WindowRelFunction).", [("WFun", "args:la out:ot", "arguments, output_type")]),
  ("measure", "m", "A measure (AggregateRel.Measure).", [("Measure", "g:og filter:ox", "measure, filter")]),
  ("expand", "e", "A field of an expand relation (ExpandRel.ExpandField).", [("ENone", "", "no field_type set"), ("ESwitching", "es:lx", "switching_field: duplicates"), ("EConsistent", "e:x", "consistent_field")]),
  ("rel", "r", "A relation (Rel).", [
   ("RNone", "", "no rel_type set"),
   ("RRead", "schema:H filter:ox best:ox proj:olon src:D", "read: base_schema, filter, best_effort_filter, projection, read_type"),
   ("RFilter", "i:or c:ox", "filter: input, condition"), ("RFetch", "i:or", "fetch: input"), ("RAggregate", "i:or groups:llx ms:lm", "aggregate: input, grouping_expressions of groupings, measures"),
   ("RSort", "i:or sorts:lo", "sort: input, sorts"), ("RJoin", "l:or r:or c:ox post:ox", "join: left, right, expression, post_join_filter"), ("RProject", "i:or es:lx", "project: input, expressions"),
   ("RSet", "ins:lr", "set: inputs"), ("RExtSingle", "i:or", "extension_single: input"), ("RExtMulti", "ins:lr", "extension_multi: inputs"), ("RExtLeaf", "", "extension_leaf"), ("RCross", "l:or r:or", "cross: left, right"),
   ("RReference", "", "reference"), ("RWrite", "schema:H i:or", "write: table_schema, input"), ("RDdl", "schema:H defaults:oll v:or", "ddl: table_schema, table_defaults, view_definition"),
   ("RHashJoin", "l:or r:or lk:lv rk:lv post:ox", "hash_join: left, right, left_keys, right_keys, post_join_filter"),
   ("RMergeJoin", "l:or r:or lk:lv rk:lv post:ox", "merge_join: left, right, left_keys, right_keys, post_join_filter"),
   ("RNestedLoop", "l:or r:or c:ox", "nested_loop_join: left, right, expression"),
   ("RWindowRel", "i:or fs:lf parts:lx sorts:lo", "window: input, window_functions, partition_expressions, sorts"), ("RExchange", "i:or", "exchange: input"), ("RExpand", "i:or fs:le", "expand: input, fields")]),
 ]),
]
names = {s: n for _, T in G for n, s, _, _ in T}
base = {'N': 'N', 'B': 'bool', 'H': 'option schema', 'D': 'datasource'}
def ty(k):
    if k in base: return base[k]
    if k in names: return names[k]
    i = ty(k[1:]); i = '(' + i + ')' if ' ' in i else i
    return {'l': 'list ', 'o': 'option '}[k[0]] + i
def core(k):
    return k if k in base or k in names else core(k[1:])
def lift(k, leaf, wrap):
    if k in names: return leaf + k
    i = lift(k[1:], leaf, wrap); i = '(' + i + ')' if ' ' in i else i
    return wrap[k[0]] + i
def fields(s): return [tuple(f.split(':')) for f in s.split()]
out = ['''(** The messages of a Substrait plan that src/substrait/textplan/converter/BasePlanProtoVisitor.cpp looks at (21-1252), all of them, down to types and literals.
    (The .proto sources are not part of /repo: the fields are those the visitor uses.)

    An optional or singular message field is an [option], a repeated field a list.  A field [p] of type [N] stands for a value that is not a message.
    Written by tools/gen_visit.py. *)
From Verif Require Import Base.
Definition OAll {A} (P : A -> Prop) (o : option A) : Prop := match o with Some x => P x | None => True end.
Definition OAll_build {A} {P : A -> Prop} (f : forall x, P x) (o : option A) : OAll P o := match o with Some x => f x | None => I end.
Definition Forall_build {A} {P : A -> Prop} (f : forall x, P x) : forall l, Forall P l := fix go l := match l with [] => Forall_nil P | x :: r => Forall_cons x (f x) (go r) end.
''']
for gname, T in G:
    mine = {s for _, s, _, _ in T}
    rec = lambda k: core(k) in mine
    if gname == 'plan':
        out.append('''(** The schema of a read or written table (NamedStruct): which message it is, its names and types *)
Record schema := Schema { h_id : N; h_names : list str; h_types : list ty }.
(** The source of a read relation (its read_type); the rows of a virtual table are lists of literals *)
Inductive datasource := DNone | DVirtual (rows : list (list lit)) | DFiles (p : N) | DNamed (names : list str) | DExtension (p : N).
''')
    for i, (n, s, doc, cs) in enumerate(T):
        out.append('(** %s *)' % doc)
        out.append(('Inductive ' if i == 0 else 'with ') + n + ' :=')
        for c, f, d in cs:
            out.append('| %s%s%s' % (c, ''.join(' (%s : %s)' % (v, ty(k)) for v, k in fields(f)), ' (* %s *)' % d if d else ''))
    out[-1] = out[-1].replace(' (*', '. (*') if '(*' in out[-1] else out[-1] + '.'
    out.append('Section Induction_%s.' % gname)
    out.append('  Variables %s.' % ' '.join('(P%s : %s -> Prop)' % (s, n) for n, s, _, _ in T))
    for n, s, doc, cs in T:
        for c, f, d in cs:
            fs = fields(f)
            ps = [lift(k, 'P', {'l': 'Forall ', 'o': 'OAll '}) + ' ' + v for v, k in fs if rec(k)]
            body = ' -> '.join(ps + ['P%s %s' % (s, '(%s %s)' % (c, ' '.join(v for v, _ in fs)) if fs else c)])
            out.append('  Hypothesis H%s : %s%s.' % (c, 'forall %s, ' % ' '.join(v for v, _ in fs) if fs else '', body))
    for i, (n, s, doc, cs) in enumerate(T):
        out.append('  %s ind_%s (z : %s) : P%s z :=\n    match z with' % ('Fixpoint' if i == 0 else 'with', s, n, s))
        for c, f, d in cs:
            fs = fields(f)
            vs = ' '.join(v for v, _ in fs)
            args = ' '.join([v for v, _ in fs] + ['(%s %s)' % (lift(k, 'ind_', {'l': 'Forall_build ', 'o': 'OAll_build '}), v) for v, k in fs if rec(k)])
            out.append('    | %s => H%s' % ((c + ' ' + vs).strip(), (c + ' ' + args).strip()))
        out.append('    end')
    out[-1] += '.'
    out.append('  Definition %s_all : %s :=\n    %s.' % (gname, ' /\\ '.join('(forall z, P%s z)' % s for _, s, _, _ in T),
       ''.join('conj ind_%s (' % s for _, s, _, _ in T[:-1]) + 'ind_' + T[-1][1] + ')' * (len(T) - 1)))
    out.append('End Induction_%s.\n' % gname)
out.append('''(** A declaration of an extension (SimpleExtensionDeclaration): a function, or anything else *)
Inductive decl := DFun (name : str) | DOther (p : N).
(** A relation of the plan (PlanRel) *)
Inductive prel := PNone (* no rel_type set *) | PRel (r : rel) | PRoot (names : list str) (i : option rel).
Record plan := Plan { p_uris : list str; p_decls : list decl; p_rels : list prel }.''')
import sys
open(sys.argv[1] if len(sys.argv) > 1 else os.path.join(root, 'rocq/theories/VisitMessages.v'), 'w').write('\n'.join(out) + '\n')
