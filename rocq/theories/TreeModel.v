(** Model of how a tree of relations is recorded (InitialPlanProtoVisitor.cpp, PipelineVisitor.cpp), printed (SymbolTablePrinter.cpp,
    PlanPrinterVisitor.cpp), read back (SubstraitPlanVisitor.cpp, SubstraitPlanPipelineVisitor.cpp and the relation visitors) and reassembled
    (SymbolTablePrinter.cpp).  What a relation says apart from its inputs and its expressions, and what an expression says apart from its
    operands and its subquery, is an opaque text here. *)
From Verif Require Import Base PipeModel.

(** * Plans *)
(** The cases of Rel (PipelineVisitor.cpp 74-209); [KUnset]: no relation type, the relation of a symbol that only pipelines mention. *)
Inductive kind := KRead | KFilter | KFetch | KAggregate | KSort | KProject | KJoin | KCross | KSet | KExtensionSingle | KExtensionMulti | KExtensionLeaf
  | KHashJoin | KMergeJoin | KNestedLoopJoin | KWindow | KExchange | KExpand | KWrite | KDdl | KReference | KUnset.
Inductive subkind := SScalar | SIn | SPredicate | SComparison.
(** A relation with its inputs in the order of the message (left before right) and its expressions in the order they are visited; labels of type
    [A] are the names of the symbols.  [Absent]: a message field that is not set. *)
Inductive rel (A : Type) := Absent | Rel (n : A) (k : kind) (body : str) (ins : list (rel A)) (es : list (expr A))
with expr (A : Type) := EOp (body : str) (args : list (expr A)) | ESub (s : subkind) (body : str) (ops : list (expr A)) (q : rel A).
Arguments Absent {A}. Arguments Rel {A}. Arguments EOp {A}. Arguments ESub {A}.
(** Forgetting the names. *)
Fixpoint strip {A} (t : rel A) : rel unit :=
  match t with Absent => Absent | Rel _ k b ins es => Rel tt k b (map strip ins) (map strip_e es) end
with strip_e {A} (e : expr A) : expr unit :=
  match e with EOp b args => EOp b (map strip_e args) | ESub s b ops q => ESub s b (map strip_e ops) (strip q) end.

(** * Recording *)
(** PipelineVisitor::visitRelation, PipelineVisitor.cpp 74-209: which relations continue the pipeline of their input, and which start new ones *)
Inductive shape := Leaf | Single | Branch.
Definition shape_of (k : kind) : shape :=
  match k with
  | KFilter | KFetch | KAggregate | KSort | KProject | KExtensionSingle | KWindow | KExchange | KExpand | KWrite => Single
  | KJoin | KCross | KSet | KExtensionMulti | KHashJoin | KMergeJoin | KNestedLoopJoin => Branch
  | KRead | KExtensionLeaf | KDdl | KReference | KUnset => Leaf
  end.
(** BasePlanProtoVisitor.cpp: filter 807-822, aggregate 838-856, sort 858-873 visit their expressions before their input, the others after *)
Definition expressions_first (k : kind) : bool := match k with KFilter | KAggregate | KSort => true | _ => false end.
(** The relations of the subqueries in the order they are recorded (PipelineVisitor::visitExpression, 12-60, InitialPlanProtoVisitor.cpp
    157-200): only the comparison visits its operand, before its own relation; the needles of an IN are not visited
    (BasePlanProtoVisitor.cpp 22-56). *)
Fixpoint pushes {A} (e : expr A) : list (rel A) :=
  match e with
  | EOp _ args => flat_map pushes args
  | ESub s _ ops q => match s with SComparison => flat_map pushes ops | _ => [] end ++ [q]
  end.
(** The symbols of relations in the order they are defined (InitialPlanProtoVisitor::visitRelation, 254-297): after everything below. *)
Fixpoint symbols {A} (t : rel A) : list (rel A) :=
  match t with
  | Absent => []
  | Rel n k b ins es =>
    (if expressions_first k then flat_map symbols_e es ++ flat_map symbols ins else flat_map symbols ins ++ flat_map symbols_e es) ++ [t]
  end
with symbols_e {A} (e : expr A) : list (rel A) :=
  match e with
  | EOp _ args => flat_map symbols_e args
  | ESub s _ ops q => match s with SComparison => flat_map symbols_e ops | _ => [] end ++ symbols q
  end.
Definition absent {A} (t : rel A) : bool := match t with Absent => true | _ => false end.
Definition node_pushes {A} (t : rel A) : list (rel A) := match t with Absent => [] | Rel _ _ _ _ es => flat_map pushes es end.
(** The symbol of a subquery's relation is dereferenced without a check (InitialPlanProtoVisitor.cpp 192-195). *)
Definition recorded_ok {A} (t : rel A) : bool := forallb (fun s => forallb (fun q => negb (absent q)) (node_pushes s)) (symbols t).

(** A relation without a type cannot be visited (BasePlanProtoVisitor.cpp 1182-1188). *)
Definition typed {A} (t : rel A) : bool := match t with Rel _ KUnset _ _ _ => false | _ => true end.

(** * Printing *)
Definition node_name (t : rel str) : str := match t with Absent => [] | Rel n _ _ _ _ => n end.
(** [pipelineToPath], SymbolTablePrinter.cpp 108-123: down the continuing pipelines *)
Fixpoint path (t : rel str) : list str :=
  match t with
  | Absent => []
  | Rel n k _ ins _ => n :: match shape_of k with Single => match ins with i :: _ => path i | [] => [] end | _ => [] end
  end.
Definition new_pipelines {A} (t : rel A) : list (rel A) := match t with Absent => [] | Rel _ k _ ins _ => match shape_of k with Branch => ins | _ => [] end end.
(** [outputPipelinesSection], 125-170, for one symbol: a pipeline is printed from its deepest relation *)
Definition pipes (t : rel str) : list (list str) :=
  map (fun i => rev (node_name t :: path i)) (new_pipelines t) ++ map (fun q => rev (path q)) (node_pushes t).
(** An input that is not set is a null pointer in the new pipelines (dereferenced in 112). *)
Definition pipes_ok {A} (t : rel A) : bool := forallb (fun i => negb (absent i)) (new_pipelines t).

Inductive texpr := TOp (body : str) (args : list texpr) | TSub (s : subkind) (body : str) (ops : list texpr) (q : str).
Inductive terr := ENoSymbol | ENoInput | EKind (k : kind) | EDefined (n : str) | ERoot | EMissing (n : str) | EPipe (e : perr).
(** PlanPrinterVisitor::printRelation 88-113 with visitRelation 976-995: the relations that have a text *)
Definition printable (k : kind) : bool := match k with KRead | KFilter | KFetch | KAggregate | KSort | KProject | KJoin | KCross => true | _ => false end.
(** visitSubqueryScalar 274-293, visitSubqueryInPredicate 296-324, visitSubquerySetPredicate 326-364, visitSubquerySetComparison 366-444: the
    operands, then the name of the subquery recorded for this relation under the next number.  [subs]: the recorded ones in order. *)
Fixpoint printExpr (subs : list (rel str)) (i : nat) (e : expr str) : texpr * nat * list terr :=
  let list := fix list i l := match l with [] => ([], i, []) | e :: l => let '(x, i, er) := printExpr subs i e in let '(xs, i, ers) := list i l in (x :: xs, i, er ++ ers) end in
  match e with
  | EOp b args => let '(xs, i, er) := list i args in (TOp b xs, i, er)
  | ESub s b ops q =>
    let '(xs, i, er) := list i ops in
    match q with
    | Absent => (TSub s b xs [], i, er ++ [ENoInput])
    | _ => match nth_error subs i with Some r => (TSub s b xs (node_name r), S i, er) | None => (TSub s b xs [], S i, er ++ [ENoSymbol]) end
    end
  end.
Fixpoint printExprs (subs : list (rel str)) (i : nat) (l : list (expr str)) : list texpr * nat * list terr :=
  match l with [] => ([], i, []) | e :: l => let '(x, i, er) := printExpr subs i e in let '(xs, i, ers) := printExprs subs i l in (x :: xs, i, er ++ ers) end.
(** A relation's section: name, kind, the rest, the expressions. *)
Record section := { x_name : str; x_kind : kind; x_body : str; x_exprs : list texpr }.
Definition printRelation (t : rel str) : list section * list terr :=
  match t with
  | Absent => ([], [])
  | Rel n k b _ es => if printable k then let '(xs, _, er) := printExprs (node_pushes t) 0 es in ([{| x_name := n; x_kind := k; x_body := b; x_exprs := xs |}], er) else ([], [EKind k])
  end.
(** A text plan: the sections that matter here, in the order they are printed (outputToText, SymbolTablePrinter.cpp 491-548), and the names
    that all other sections define (schemas, columns, sources, extension spaces, functions). *)
Record text := { x_pipes : list (list str); x_rels : list section; x_roots : list (list str); x_others : list str }.
(** A relation of the plan: the name of its symbol, the output names ([]: none, as for a relation that is not a root), the relation. *)
Record plan_rel := { p_label : str; p_names : list str; p_rel : rel str }.
Definition plan_pipes (p : plan_rel) : list (list str) := flat_map pipes (symbols (p_rel p)) ++ [rev (p_label p :: path (p_rel p))].
Definition print (plan : list plan_rel) (others : list str) : outcome (text * list terr) :=
  let all := flat_map (fun p => symbols (p_rel p)) plan in
  if negb (forallb typed all) then Throw EUnsupported else
  if negb (forallb (fun p => recorded_ok (p_rel p)) plan) then UB else
  if negb (forallb pipes_ok all && forallb (fun p => negb (absent (p_rel p))) plan) then UB else
  let rels := map printRelation all in
  Ok ({| x_pipes := flat_map plan_pipes plan; x_rels := flat_map fst rels;
         x_roots := filter (fun l => match l with [] => false | _ => true end) (map p_names plan); x_others := others |}, flat_map snd rels).

(** * Reading *)
(** SubstraitPlanVisitor::visitPlan 71-100, visitRelation 265-300, visitRoot_relation 228-263.  The other sections are visited first. *)
Definition root_name : str := $"root".
Fixpoint define_rels (t : ptab) (rs : list section) : ptab * list terr :=
  match rs with
  | [] => (t, [])
  | r :: rs => match plookup t (x_name r) with
    | Some _ => let '(t, er) := define_rels t rs in (t, EDefined (x_name r) :: er)
    | None => define_rels (t ++ [(x_name r, PRel no_data)]) rs
    end
  end.
Fixpoint define_roots (t : ptab) (defined : bool) (l : list (list str)) : ptab * list terr :=
  match l with
  | [] => (t, [])
  | _ :: l => if defined then let '(t, er) := define_roots t defined l in (t, ERoot :: er) else
    match plookup t root_name with
    | Some _ => let '(t, er) := define_roots t defined l in (t, ERoot :: er)
    | None => define_roots (t ++ [(root_name, PRel no_data)]) true l
    end
  end.
(** The subqueries of an expression in the order SubstraitPlanPipelineVisitor.cpp 173-243 records them: before those of the operands. *)
Fixpoint tsubs (e : texpr) : list str := match e with TOp _ args => flat_map tsubs args | TSub _ _ ops q => q :: flat_map tsubs ops end.
Record read_plan := { r_tab : ptab; r_rels : list section; r_roots : list (list str) }.
Definition readText (x : text) : outcome (read_plan * list terr) :=
  let t0 := map (fun n => (n, POther)) (x_others x) in
  let '(t1, e1) := define_rels t0 (x_rels x) in
  let '(t2, e2) := define_roots t1 false (x_roots x) in
  r <- visitPipelines t2 (map (map (fun n => (n, n))) (x_pipes x)) ;;
  let e3 := map EPipe (snd r) in
  let e4 := flat_map (fun s => match plookup (fst r) s with None => [EMissing s] | Some _ => [] end) (flat_map (fun s => flat_map tsubs (x_exprs s)) (x_rels x)) in
  Ok ({| r_tab := fst r; r_rels := x_rels x; r_roots := x_roots x |}, e1 ++ e2 ++ e3 ++ e4).

(** * Reassembling *)
Definition find_section (S : read_plan) (n : str) : option section := find (fun s => x_name s =s n) (r_rels S).
Definition rel_data (S : read_plan) (n : str) : rdata := match plookup (r_tab S) n with Some (PRel d) => d | _ => no_data end.
(** What the relation visitors leave in place of a subquery that is never attached (SubstraitPlanSubqueryRelationVisitor.cpp 1287-1395).  A
    scalar one keeps a copy of the relation without its inputs; the model leaves it out. *)
Fixpoint unattached (e : texpr) : expr unit := match e with TOp b args => EOp b (map unattached args) | TSub s b ops _ => ESub s b (map unattached ops) Absent end.
(** [addInputsToExpression], SymbolTablePrinter.cpp 860-1086: the operands first, then the next recorded subquery.  [c]: how many have been
    consumed.  Operands of any other expression are visited in order; nested expressions, which are not, are left out. *)
Fixpoint attach (build : str -> outcome (rel unit)) (subs : list str) (c : nat) (e : texpr) : outcome (expr unit * nat) :=
  let list := fix list c l := match l with [] => Ok ([], c) | e :: l => x <- attach build subs c e ;; y <- list (snd x) l ;; Ok (fst x :: fst y, snd y) end in
  match e with
  | TOp b args => x <- list c args ;; Ok (EOp b (fst x), snd x)
  | TSub s b ops _ =>
    x <- list c ops ;;
    match nth_error subs (snd x) with
    | None => Throw EInvalidState                                                            (* ran out of subquery symbols *)
    | Some q => r <- build q ;; Ok (ESub s b (fst x) r, S (snd x))
    end
  end.
Fixpoint attaches (build : str -> outcome (rel unit)) (subs : list str) (c : nat) (l : list texpr) : outcome (list (expr unit) * nat) :=
  match l with [] => Ok ([], c) | e :: l => x <- attach build subs c e ;; y <- attaches build subs (snd x) l ;; Ok (fst x :: fst y, snd y) end.
(** [getNextSinglePipeline], 98-106 *)
Definition getNextSinglePipeline (d : rdata) : option str := match d.(cont) with Some n => Some n | None => match d.(news) with [n] => Some n | _ => None end end.
(** A relation without its inputs. *)
Definition bare (S : read_plan) (n : str) : rel unit :=
  match find_section S n with None => Rel tt KUnset [] [] [] | Some s => Rel tt (x_kind s) (x_body s) [] (map unattached (x_exprs s)) end.
Fixpoint omap_list {A B} (f : A -> outcome B) (l : list A) : outcome (list B) := match l with [] => Ok [] | x :: l => y <- f x ;; ys <- omap_list f l ;; Ok (y :: ys) end.
(** A relation with its inputs: [addInputsToRelation], 550-858, on a copy of the symbol's relation.  The recursion follows pointers and is not
    bounded in the program; here [fuel] bounds it. *)
Fixpoint build (S : read_plan) (fuel : nat) (n : str) : outcome (rel unit) :=
  match fuel with
  | 0 => Throw EFuel
  | Datatypes.S fuel =>
    match find_section S n with
    | None => Ok (bare S n)                                                                  (* 560-563, and RelationType::kUnknown *)
    | Some s =>
      let d := rel_data S n in
      let subs := flat_map tsubs (x_exprs s) in
      let finish ins := x <- attaches (build S fuel) subs 0 (x_exprs s) ;; Ok (Rel tt (x_kind s) (x_body s) ins (fst x)) in
      match x_kind s with
      | KFilter | KAggregate | KSort | KProject | KFetch | KExtensionSingle =>
          match getNextSinglePipeline d with None => Throw EInvalidState | Some i => r <- build S fuel i ;; finish [r] end
      | KJoin | KCross | KHashJoin | KMergeJoin =>
          match d.(news) with [l; r] => x <- build S fuel l ;; y <- build S fuel r ;; finish [x; y] | _ => Ok (bare S n) end
      | KSet | KExtensionMulti => xs <- omap_list (build S fuel) d.(news) ;; Ok (Rel tt (x_kind s) (x_body s) xs (map unattached (x_exprs s)))
      | _ => Ok (bare S n)
      end
    end
  end.
(** [outputToBinaryPlan], 1088-1135: every symbol of a relation that is not a subquery's and that no pipeline goes on from becomes a root *)
Definition parents (S : read_plan) : list str := flat_map (fun s => flat_map tsubs (x_exprs s)) (r_rels S).
Definition starts (S : read_plan) : list (str * rdata) :=
  flat_map (fun s => match s with (n, PRel d) => if existsb (fun q => q =s n) (parents S) then [] else match d.(start) with Some _ => [] | None => [(n, d)] end | _ => [] end) (r_tab S).
Definition outputToBinaryPlan (S : read_plan) (fuel : nat) : outcome (list (rel unit * list str)) :=
  omap_list (fun s => match (snd s).(news) with
    | [] => Ok (bare S (fst s), [])
    | i :: _ => r <- build S fuel i ;; Ok (r, match r_roots S with names :: _ => names | [] => [] end)
    end) (starts S).
(** [outputToBinaryPlan], 1088-1135, on the table of the converter itself: [addInputsToRelation] returns at once because the subtype there is not
    a RelationType (560-563, InitialPlanProtoVisitor.cpp 287-292), and only the relations of a subquery's own pipeline have a pipeline start
    (PipelineVisitor.cpp 43-55).  eraseInputs (InitialPlanProtoVisitor.cpp 34-99) leaves the expressions as they are. *)
Definition erased {A} (t : rel A) : rel unit := match t with Absent => Absent | Rel _ k b _ es => Rel tt k b [] (map strip_e es) end.
Definition outputDirect (plan : list plan_rel) : list (rel unit * list str) :=
  let all := flat_map (fun p => symbols (p_rel p)) plan in
  let skipped := flat_map (fun s => flat_map path (node_pushes s)) all in
  flat_map (fun s => if existsb (fun q => q =s node_name s) skipped then [] else
    match new_pipelines s with [] => [(erased s, [])] | i :: _ => [(erased i, match plan with p :: _ => p_names p | [] => [] end)] end) all.
