# Writes rocq/theories/ProtoModel.v: the message types of a plan and their joint induction principle.
import os
root = os.path.join(os.path.dirname(os.path.abspath(__file__)), '..')
T = [
 ("expr", "x", "An expression (Expression).", [
  ("XNone", "", "no rex_type set"),
  ("XLeaf", "p:N", "literal or enum"),
  ("XField", "root:ox p:N", "selection (field reference) with an optional expression it starts from"),
  ("XScalar", "f:N args:la old:lx p:N", "scalar_function: function_reference, arguments, deprecated args"),
  ("XWindow", "f:N args:la sorts:lo parts:lx p:N", "window_function: function_reference, arguments, sorts, partitions"),
  ("XIf", "ifs:lc els:ox", "if_then"),
  ("XSwitch", "m:ox ifs:lox els:ox p:N", "switch_expression: match, the thens of ifs, else"),
  ("XOr", "v:ox opts:lx", "singular_or_list"),
  ("XMulti", "v:lx opts:llx", "multi_or_list"),
  ("XCast", "i:ox p:N", "cast"),
  ("XNested", "es:lx p:N", "nested struct, list or map"),
  ("XSubNone", "", "subquery without subquery_type"),
  ("XSubScalar", "i:or", "subquery.scalar: input"),
  ("XSubIn", "needles:lx h:or", "subquery.in_predicate: needles, haystack"),
  ("XSubSet", "t:or p:N", "subquery.set_predicate: tuples"),
  ("XSubComp", "l:ox r:or p:N", "subquery.set_comparison: left, right"),
 ]),
 ("farg", "a", "A function argument (FunctionArgument).", [
  ("ANone", "", "no arg_type set"), ("AEnum", "p:N", "enum"), ("AType", "p:N", "type"), ("AValue", "e:x", "value")]),
 ("clause", "c", "One alternative of an if_then (IfClause).", [("Clause", "i:ox t:ox", "if, then")]),
 ("sortf", "o", "A sort field (SortField).", [("Sort", "e:ox p:N", "expr, direction")]),
 ("afun", "g", "An aggregate function call (AggregateFunction), also used for WindowRelFunction.", [
  ("AFun", "f:N args:la sorts:lo old:lx p:N", "function_reference, arguments, sorts, deprecated args")]),
 ("measure", "m", "A measure of an aggregate relation (AggregateRel.Measure).", [("Measure", "g:og filter:ox", "measure, filter")]),
 ("rel", "r", "A relation (Rel).", [
  ("RNone", "", "no rel_type set"),
  ("RRead", "filter:ox best:ox p:N", "read: filter, best_effort_filter"),
  ("RFilter", "i:or c:ox p:N", "filter: input, condition"),
  ("RFetch", "i:or p:N", "fetch"),
  ("RAggregate", "i:or groups:llx ms:lm p:N", "aggregate: input, grouping_expressions of groupings, measures"),
  ("RSort", "i:or sorts:lo p:N", "sort"),
  ("RJoin", "l:or r:or c:ox post:ox p:N", "join: left, right, expression, post_join_filter"),
  ("RProject", "i:or es:lx p:N", "project: input, expressions"),
  ("RSet", "ins:lr p:N", "set: inputs"),
  ("RExtSingle", "i:or p:N", "extension_single"),
  ("RExtMulti", "ins:lr p:N", "extension_multi"),
  ("RExtLeaf", "p:N", "extension_leaf"),
  ("RCross", "l:or r:or p:N", "cross"),
  ("RHashJoin", "l:or r:or post:ox p:N", "hash_join: left, right, post_join_filter"),
  ("RMergeJoin", "l:or r:or post:ox p:N", "merge_join: left, right, post_join_filter"),
  ("RNestedLoop", "l:or r:or c:ox p:N", "nested_loop_join: left, right, expression"),
  ("RWindowRel", "i:or fs:lg parts:lx sorts:lo p:N", "window: input, window_functions, partition_expressions, sorts"),
  ("RExchange", "i:or p:N", "exchange"),
  ("RExpand", "i:or es:lx p:N", "expand: input, expressions of fields"),
  ("RWrite", "i:or p:N", "write"),
  ("RDdl", "v:or p:N", "ddl: view_definition"),
  ("RReference", "p:N", "reference"),
 ]),
]
sort = {s: n for n, s, _, _ in T}
def ty(k):
    if k == 'N': return 'N'
    if k in sort: return sort[k]
    h, t = k[0], k[1:]
    # 'o' alone is a sort field; with a suffix it means option
    inner = ty(t)
    inner = '(' + inner + ')' if ' ' in inner else inner
    return {'l': 'list ', 'o': 'option '}[h] + inner
def prem(k, v):
    if k == 'N': return None
    if k in sort: return 'P%s %s' % (k, v)
    def lift(k):
        if k in sort: return 'P' + k
        i = lift(k[1:]); i = '(' + i + ')' if ' ' in i else i
        return {'l': 'Forall ', 'o': 'OAll '}[k[0]] + i
    return lift(k) + ' ' + v
def build(k, v):
    def lift(k):
        if k in sort: return 'i' + k
        return {'l': '(Forall_build %s)', 'o': '(OAll_build %s)'}[k[0]] % lift(k[1:])
    return '(%s %s)' % (lift(k), v)
def fields(s): return [tuple(f.split(':')) for f in s.split()]
out = ['''(** The messages of a Substrait plan as far as any modelled function looks at them
    (substrait/algebra.proto and plan.proto; the .proto sources are not part of /repo,
    the fields are those used in src/substrait/textplan/converter/BasePlanProtoVisitor.cpp 21-1252).

    An optional or singular message field is an [option], a repeated field a list.
    A field [p] of type [N] stands for everything else in the message
    (names, types, constants, options, emit, ...), which the modelled functions copy without looking at it.
    Written by tools/gen_proto.py. *)
From Verif Require Import Base.
''']
first = True
for n, s, doc, cs in T:
    out.append('(** %s *)' % doc)
    out.append(('Inductive ' if first else 'with ') + n + ' :=')
    first = False
    for c, f, d in cs:
        out.append('| %s%s (* %s *)' % (c, ''.join(' (%s : %s)' % (v, ty(k)) for v, k in fields(f)), d))
out[-1] = out[-1].replace(' (*', '. (*')
out.append('''
(** ** Induction over all of them at once *)
Definition OAll {A} (P : A -> Prop) (o : option A) : Prop := match o with Some x => P x | None => True end.
Definition OAll_build {A} {P : A -> Prop} (f : forall x, P x) (o : option A) : OAll P o :=
  match o with Some x => f x | None => I end.
Definition Forall_build {A} {P : A -> Prop} (f : forall x, P x) : forall l, Forall P l :=
  fix go l := match l with [] => Forall_nil P | x :: r => Forall_cons x (f x) (go r) end.
Section Induction.''')
out.append('  Variables %s.' % ' '.join('(P%s : %s -> Prop)' % (s, n) for n, s, _, _ in T))
for n, s, doc, cs in T:
    for c, f, d in cs:
        fs = fields(f)
        ps = [prem(k, v) for v, k in fs]
        body = ' -> '.join([p for p in ps if p] + ['P%s %s' % (s, '(%s %s)' % (c, ' '.join(v for v, _ in fs)) if fs else c)])
        q = 'forall %s, ' % ' '.join('%s' % v for v, _ in fs) if fs else ''
        out.append('  Hypothesis H%s : %s%s.' % (c, q, body))
first = True
for n, s, doc, cs in T:
    out.append('  %s i%s (z : %s) : P%s z :=\n    match z with' % ('Fixpoint' if first else 'with', s, n, s))
    first = False
    for c, f, d in cs:
        fs = fields(f)
        vs = ' '.join(v for v, _ in fs)
        args = ' '.join([v for v, _ in fs] + [build(k, v) for v, k in fs if k != 'N'])
        out.append('    | %s => H%s' % ((c + ' ' + vs).strip(), (c + ' ' + args).strip()))
    out.append('    end')
out[-1] += '.'
out.append('  Definition plan_ind : %s :=\n    %s.' % (' /\\ '.join('(forall z, P%s z)' % s for _, s, _, _ in T),
   ''.join('conj i%s (' % s for _, s, _, _ in T[:-1]) + 'i' + T[-1][1] + ')' * (len(T) - 1)))
out.append('End Induction.')
out.append('''
(** A plan (Plan): extension spaces, extension declarations, relations. *)
Record space := { sp_anchor : N; sp_uri : str }.                   (* SimpleExtensionURI *)
Inductive decl :=                                                  (* SimpleExtensionDeclaration *)
| DFun (space anchor : N) (name : str)                             (* extension_function *)
| DOther (p : N).                                                  (* extension_type, extension_type_variation or not set *)
Inductive prel :=                                                  (* PlanRel *)
| PNone
| PRel (r : rel)                                                   (* rel *)
| PRoot (i : option rel) (p : N).                                  (* root: input; the names are in p *)
Record plan := { p_spaces : list space; p_decls : list decl; p_rels : list prel; p_rest : N }.''')
open(os.path.join(root, 'rocq/theories/ProtoModel.v'), 'w').write('\n'.join(out) + '\n')
