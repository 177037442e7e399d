(** Model of the two conversions of whole plans: a binary plan to text (InitialPlanProtoVisitor.cpp, PlanPrinterVisitor.cpp and
    SymbolTablePrinter.cpp, with what PipelineVisitor.cpp does to pipelines) and a text to a binary plan (the passes of the parser and
    SymbolTablePrinter.cpp).  The parts are those of the other models: declarations (DeclModel), names (SymbolModel), columns (FieldModel),
    relations (RelModel), pipelines and trees (TreeModel), sections (SectionModel); here they are put together, and nothing is a parameter.
    Not modelled: subqueries (their relations are not among the inputs of a relation here; SubModel reads them), advanced extensions, hints and versions. *)
From Verif Require Import Base TypeModel LexModel NameModel ExprModel RelModel SectionModel.
From Verif Require SymbolModel FieldModel DeclModel PipeModel TreeModel.

(** * Binary plans *)
(** A relation with its inputs.  A read relation has its source and its schema beside it; the names in its [BRead] are not part of the message. *)
Inductive tree := Node (r : relation) (src : option source) (sch : option named_struct) (ins : list tree).
(** The declared extension spaces and functions, and the relations of the plan with the output names of those that are roots *)
Record bplan := BPlan { b_uris : list (str * N); b_decls : list DeclModel.fdecl; b_rels : list (tree * option (list str)) }.

(** * From a binary plan to symbols: InitialPlanProtoVisitor.cpp *)
Definition names := SymbolModel.table.
Definition unique : names -> str -> names * str := SymbolModel.getUniqueName.
Fixpoint uniques (t : names) (base : str) (n : nat) : names * list str :=
  match n with O => (t, []) | S n => let '(t, u) := unique t base in let '(t, l) := uniques t base n in (t, u :: l) end.
(** What the symbol of a relation has: its name, the relation with the names of its source and its schema, these two, its columns, the names
    of the measures and the texts that replace expressions *)
Record recorded := Recorded {
  rn_name : str; rn_relation : relation; rn_source : option (str * source); rn_schema : option (str * named_struct); rn_data : FieldModel.data;
  rn_measures : list str; rn_alternatives : list (nat * str) }.
Inductive rtree := RTree (x : recorded) (ins : list rtree).
Definition top (t : rtree) : recorded := let 'RTree x _ := t in x.
Definition source_base (s : source) : str :=
  match s with NamedTable _ => $"named" | LocalFiles _ => $"local" | VirtualTable => $"virtual" | ExtensionTable => $"extensiontable" end.
Definition is_read (b : body) : bool := match b with BRead _ _ _ _ _ => true | _ => false end.
Definition is_aggregate (b : body) : bool := match b with BAggregate _ _ => true | _ => false end.
Definition listed_name {A} (x : option (str * A)) : list str := match x with Some (n, _) => [n] | None => [] end.
(** 461-480: the columns of a read relation *)
Definition stored_column (schema : str) (n : str) : FieldModel.column :=
  {| FieldModel.c_id := 0; FieldModel.c_name := n; FieldModel.c_alias := []; FieldModel.c_loc := 0; FieldModel.c_schema := Some schema |}.
(** 487-508: the column of a measure; 561-573: the column of an expression, whose alias is its name *)
Definition new_column (n alias : str) : FieldModel.column :=
  {| FieldModel.c_id := 0; FieldModel.c_name := n; FieldModel.c_alias := alias; FieldModel.c_loc := 0; FieldModel.c_schema := None |}.
(** 518-575 *)
Fixpoint project_exprs (t : names) (l : list expr) : names * list FieldModel.gexpr :=
  match l with
  | [] => (t, [])
  | ESel (SegField z _) _ :: l => let '(t, r) := project_exprs t l in (t, FieldModel.GColumn z :: r)
  | _ :: l => let '(t, n) := unique t $"intermediate" in let '(t, r) := project_exprs t l in (t, FieldModel.GOther (new_column n n) :: r)
  end.
(** 669-690: the number of a column is 0 if the selection selects anything else *)
Definition grouping_expr (e : expr) : FieldModel.gexpr :=
  match e with
  | ESel (SegField z _) _ => FieldModel.GColumn z
  | ESel _ _ | EMasked _ | ESelNone _ => FieldModel.GColumn 0
  | _ => FieldModel.GOther (new_column [] [])
  end.
(** 524-553 generatedFieldReferenceAlternativeExpression: a column whose name was copied before is written with its schema, and so is the first
    one of that name *)
Definition with_schema (k : nat) (c : FieldModel.column) (name : str) : list (nat * str) :=
  match FieldModel.c_schema c with Some s => if FieldModel.nonempty s then [(k, s ++ $"." ++ name)] else [] | None => [] end.
Fixpoint seen_at (n : str) (seen : list (str * nat)) : option nat := match seen with [] => None | (m, k) :: r => if m =s n then Some k else seen_at n r end.
Fixpoint alternatives (fields : list FieldModel.column) (l : list FieldModel.gexpr) (g : list FieldModel.column) (seen : list (str * nat)) : list (nat * str) :=
  match l with
  | [] => []
  | FieldModel.GOther c :: l => alternatives fields l (g ++ [c]) seen
  | FieldModel.GColumn z :: l =>
    match FieldModel.at_index fields z with
    | None => alternatives fields l g seen
    | Some c =>
      let n := FieldModel.c_name c in
      if FieldModel.nonempty (FieldModel.c_alias c) then alternatives fields l (g ++ [c]) seen else
      match seen_at n seen with
      | Some p => with_schema (length g) c n ++ match nth_error (g ++ [c]) p with Some c0 => with_schema p c0 n | None => [] end ++ alternatives fields l (g ++ [c]) seen
      | None => alternatives fields l (g ++ [c]) ((n, length g) :: seen)
      end
    end
  end.
(** 254-297 visitRelation after the inputs, 317-332 visitReadRelation, 334-388, 461-667 updateLocalSchema *)
Definition record_node (t : names) (r : relation) (src : option source) (sch : option named_struct) (fields : list FieldModel.column) : names * recorded :=
  let b := r_body r in
  let '(t, schema) := match sch with Some s => if is_read b then let '(t, n) := unique t $"schema" in (t, Some (n, s)) else (t, None) | None => (t, None) end in
  let '(t, from) := match src with Some s => if is_read b then let '(t, n) := unique t (source_base s) in (t, Some (n, s)) else (t, None) | None => (t, None) end in
  let b := match b with BRead _ _ f g p => BRead (listed_name from) (listed_name schema) f g p | _ => b end in
  let '(t, data, measures, alts) :=
    match b with
    | BRead _ _ _ _ _ =>
        let cols := match schema with Some (n, s) => map (stored_column n) (ns_names s) | None => [] end in
        (t, FieldModel.convert_emit false cols [] [] (Some (r_emit r)), [], [])
    | BAggregate gs ms =>
        let '(t, ns) := uniques t $"measurename" (length ms) in
        let '(cs, e) := FieldModel.convert_groupings fields (map grouping_expr (concat gs)) in
        let g := cs ++ map (fun n => new_column n []) ns in
        (t, FieldModel.also e (FieldModel.convert_emit true fields g g (Some (r_emit r))), ns, [])
    | BProject es =>
        let '(t, gx) := project_exprs t es in
        let '(cs, e) := FieldModel.convert_exprs fields gx in
        (t, FieldModel.also e (FieldModel.convert_emit false fields cs [] (Some (r_emit r))), [], alternatives fields gx [] [])
    | _ => (t, FieldModel.convert_emit false fields [] [] (Some (r_emit r)), [], [])
    end in
  let '(t, n) := unique t (kind_name b) in
  (t, Recorded n (Relation b (r_emit r)) from schema data measures alts).
Fixpoint record (t : names) (x : tree) : names * rtree :=
  match x with
  | Node r src sch ins =>
    let '(t, ins) := (fix go (t : names) (l : list tree) : names * list rtree :=
      match l with [] => (t, []) | i :: l => let '(t, i) := record t i in let '(t, l) := go t l in (t, i :: l) end) t ins in
    let '(t, x) := record_node t r src sch (flat_map (fun i => FieldModel.exposed (rn_data (top i))) ins) in
    (t, RTree x ins)
  end.
(** A relation of the plan: its symbol, that of its output names, and these, 238-252 visitPlanRelation, 299-312 visitRelationRoot *)
Record entry_of := Entry { e_label : str; e_symbol : str; e_names : option (list str); e_tree : rtree }.
Definition record_entry (t : names) (x : tree * option (list str)) : names * entry_of :=
  let '(t, u) := match snd x with Some _ => unique t $"root.names" | None => (t, []) end in
  let '(t, r) := record t (fst x) in
  let '(t, n) := unique t (match snd x with Some _ => $"root" | None => $"rel" end) in
  (t, Entry n u (snd x) r).
Fixpoint record_all (t : names) (l : list (tree * option (list str))) : names * list entry_of :=
  match l with [] => (t, []) | x :: l => let '(t, e) := record_entry t x in let '(t, r) := record_all t l in (t, e :: r) end.
(** 202-225: the functions get their names before all relations *)
Definition function_names (l : list DeclModel.fdecl) : names :=
  fold_left (fun t d => fst (unique t (DeclModel.shortName (DeclModel.d_name d)))) l SymbolModel.empty_table.
Definition entries_of (b : bplan) : list entry_of := snd (record_all (function_names (b_decls b)) (b_rels b)).
(** The symbols of the relations in order *)
Fixpoint inorder (t : rtree) : list recorded := match t with RTree x ins => flat_map inorder ins ++ [x] end.
Definition all_recorded (l : list entry_of) : list recorded := flat_map (fun e => inorder (e_tree e)) l.

(** * To text *)
(** The relation types of TreeModel *)
Definition kind_of (b : body) : TreeModel.kind :=
  match b with
  | BRead _ _ _ _ _ => TreeModel.KRead | BFilter _ => TreeModel.KFilter | BFetch _ _ => TreeModel.KFetch | BAggregate _ _ => TreeModel.KAggregate | BSort _ => TreeModel.KSort
  | BProject _ => TreeModel.KProject | BJoin _ _ _ => TreeModel.KJoin | BCross => TreeModel.KCross
  | BOther n =>
      if n =s $"set" then TreeModel.KSet else if n =s $"extensionsingle" then TreeModel.KExtensionSingle else if n =s $"extensionmulti" then TreeModel.KExtensionMulti
      else if n =s $"extensionleaf" then TreeModel.KExtensionLeaf else if n =s $"hashjoin" then TreeModel.KHashJoin else if n =s $"mergejoin" then TreeModel.KMergeJoin else TreeModel.KReference
  end.
Fixpoint named_tree (t : rtree) : TreeModel.rel str :=
  match t with RTree x ins => TreeModel.Rel (rn_name x) (kind_of (r_body (rn_relation x))) (rn_name x) (map named_tree ins) [] end.
Definition plan_rel_of (e : entry_of) : TreeModel.plan_rel :=
  {| TreeModel.p_label := e_label e; TreeModel.p_names := match e_names e with Some l => l | None => [] end; TreeModel.p_rel := named_tree (e_tree e) |}.
(** The names that printing a relation looks up, PlanPrinterVisitor.cpp 136-272, 1081-1108, 1159-1187.  (Without subqueries nothing is found further out; an expression of
    a project relation that has no column, because it asks for one that is not there, has no alias.) *)
Fixpoint at_position (k : nat) (l : list (nat * str)) : option str := match l with [] => None | (j, s) :: l => if j =? k then Some s else at_position k l end.
Definition naming_of (fs : list DeclModel.entry) (x : recorded) : naming :=
  let d := rn_data x in
  Naming (DeclModel.lookupFunctionReference fs)
    (fun steps z => if (steps =? 0)%N then FieldModel.lookupFieldReference (FieldModel.d_fields d) (FieldModel.d_generated d) z else None)
    (FieldModel.lookupFieldReferenceForEmit (is_aggregate (r_body (rn_relation x))) (FieldModel.d_fields d) (FieldModel.d_generated d))
    (nth_error (rn_measures x))
    (fun k => at_position k (rn_alternatives x))
    (fun k => match nth_error (FieldModel.d_generated d) k with Some c => if FieldModel.nonempty (FieldModel.c_alias c) then Some (FieldModel.c_alias c) else None | None => None end).
Definition declarations (b : bplan) : list DeclModel.entry := DeclModel.import_decls (b_uris b) (b_decls b).
Definition some_list {A} (x : option A) : list A := match x with Some a => [a] | None => [] end.
Definition plan_of (b : bplan) : outcome plan :=
  spaces <- DeclModel.outputFunctionsSection (declarations b) ;;
  let es := entries_of b in
  let all := all_recorded es in
  Ok (Plan (flat_map TreeModel.plan_pipes (map plan_rel_of es)) (map (fun x => (naming_of (declarations b) x, rn_name x, rn_relation x)) all) (flat_map (fun e => some_list (e_names e)) es)
        (flat_map (fun x => some_list (rn_schema x)) all) (flat_map (fun x => some_list (rn_source x)) all) spaces).
(** The text and the number of errors: columns that are not there, and what printing reports *)
Definition to_text (b : bplan) : outcome printed :=
  p <- plan_of b ;; r <- outputToText p ;; Ok (fst r, length (flat_map (fun x => FieldModel.d_missing (rn_data x)) (all_recorded (entries_of b))) + snd r).

(** * From text *)
(** The symbols of the text as DeclModel has them *)
Definition file_names (s : snode) : list str := match s with SLocal fs => map fn_text fs | SNamed ns => map extractFromString ns | SVirtual | SExtension => [] end.
Fixpoint entries (ns nf : N) (l : list pnode) : list DeclModel.entry :=
  match l with
  | [] => []
  | PSchema n items :: l => map DeclModel.EOther (n :: map fst items) ++ entries ns nf l
  | PSource n s :: l => map DeclModel.EOther (n :: file_names s) ++ entries ns nf l
  | PSpace u fs :: l =>
      let b := (u, map (fun f => (referenceName f, fst f)) fs) in
      DeclModel.read_blocks ns nf [b] ++ entries (match u with Some _ => (ns + 1)%N | None => ns end) (nf + N.of_nat (length fs))%N l
  | _ :: l => entries ns nf l
  end.
Definition kind_read (k : str) : TreeModel.kind := match empty_body k with Some b => kind_of b | None => TreeModel.KUnset end.
(** The sections as TreeModel has them.  Of symbols with the same name only the first is ever found. *)
Definition text_of (nodes : list pnode) (tab : table) : TreeModel.text :=
  {| TreeModel.x_pipes := map (map fst) (pipelines_of nodes);
     TreeModel.x_rels := map (fun n => {| TreeModel.x_name := n_name n; TreeModel.x_kind := kind_read (n_kind n); TreeModel.x_body := n_name n; TreeModel.x_exprs := [] |}) (relations_of nodes);
     TreeModel.x_roots := roots_of nodes; TreeModel.x_others := nodup (list_eq_dec Ascii.ascii_dec) (map s_name tab) |}.
(** The columns of the reader: the location of a column of a schema is that of the schema; other symbols are somewhere else. *)
Definition read_column (loc : nat) (n : str) : FieldModel.column :=
  {| FieldModel.c_id := 0; FieldModel.c_name := n; FieldModel.c_alias := []; FieldModel.c_loc := loc; FieldModel.c_schema := None |}.
Definition column_named : str -> FieldModel.column := read_column 0.
Definition schema_list (tab : table) : FieldModel.schemas := flat_map (fun s => match s_what s with WSchema => [(s_name s, S (fst (s_loc s)))] | _ => [] end) tab.
Definition schema_columns (tab : table) (n : str) : list FieldModel.column :=
  match find_symbol tab n with Some s => map (fun c => read_column (S (fst (s_loc s))) (s_name c)) (columns_at tab (s_loc s)) | None => [] end.
Definition used_schemas (l : list detail) : list str := flat_map (fun d => match d with OnSchema n => [n] | _ => [] end) l.

Section VisitColumns.
  Variable find_function : str -> option N.
  Variable find_relation : str -> option bool.
  Variable known_name : str -> bool.
  Variable ss : FieldModel.schemas.
  Variable aggregate : bool.
  Variable fields : list FieldModel.column.
  Definition scope_with (g : list FieldModel.column) : FieldModel.scope :=
    {| FieldModel.q_fields := fields; FieldModel.q_generated := g; FieldModel.q_aggregate := aggregate; FieldModel.q_parent := None; FieldModel.q_start := None |}.
  Definition find_field (g : list FieldModel.column) (name : str) : option (N * Z) := option_map (fun z => (0%N, z)) (FieldModel.find_in ss false (scope_with g) name).
  Definition find_emit (g : list FieldModel.column) (name : str) : N * Z * bool :=
    match FieldModel.find_in ss true (scope_with g) name with Some z => (0%N, z, false) | None => (0%N, (-1)%Z, true) end.
  (** The columns that are there when the detail of a measure at position j is visited, SubstraitPlanSubqueryRelationVisitor.cpp 978-994 *)
  Definition own_columns (j : nat) (d : detail) : list FieldModel.column := match d with OnMeasure l => map column_named (measure_given (firstn j l)) | _ => [] end.
  (** What a visited detail adds: 720-757 visitRelationGrouping the column grouped by, 759-806 visitRelationMeasure those of the measure.
      (Simplification: the measure's, even if an error ended it early.) *)
  Definition added_columns (d : detail) (b : body) : list FieldModel.column :=
    match d with
    | OnGrouping _ => match b with
                      | BAggregate (g :: _) _ => match rev g with ESel (SegField z _) _ :: _ => some_list (nth_error fields (Z.to_nat z)) | _ => [] end
                      | _ => []
                      end
    | OnMeasure l => map column_named (measure_given l)
    | _ => []
    end.
  Fixpoint track (i : nat) (g : list FieldModel.column) (b : body) (l : list detail) : visited (body * list FieldModel.column) :=
    match l with
    | [] => fine (b, g)
    | d :: l => bindR (visitDetail find_function find_relation (fun _ j => find_field (g ++ own_columns j d)) (length fields) known_name known_name i b d)
                  (fun b => track (S i) (g ++ added_columns d b) b l)
    end.
  (** 2121-2148 addExpressionsToSchema *)
  Fixpoint add_expressions (given : list str) (l : list expr) (g : list FieldModel.column) : list FieldModel.column :=
    match l with
    | [] => g
    | ESel (SegField z _) _ :: l => add_expressions given l (g ++ some_list (FieldModel.at_index fields z))
    | _ :: l => add_expressions given l (g ++ [column_named (nth (length g) given [])])
    end.
  (** 395-463 visitRelation; [given]: the names of the expressions of a project relation, [schema]: the columns of its schemas *)
  Definition visitColumns (given : list str) (schema : list FieldModel.column) (b0 : body) (ds : list detail) : visited (relation * FieldModel.data) :=
    bindR (track 0 [] b0 ds) (fun x =>
    let '(b, g) := x in
    let g := match b with BProject es => add_expressions given es g | _ => g end in
    bindR (visitEmits (find_emit g) ds) (fun emit =>
    let output := if aggregate then schema ++ g else schema in
    let '(output, missing) := FieldModel.applyOutputMapping aggregate fields g output emit in
    fine (Relation (finish b) emit,
      {| FieldModel.d_fields := fields; FieldModel.d_generated := g; FieldModel.d_output := output; FieldModel.d_refs := []; FieldModel.d_mapping := emit; FieldModel.d_missing := missing |}))).
End VisitColumns.

Inductive werr := WSyntax | WPass (e : pass_error) | WTree (e : TreeModel.terr) | WRelation (e : rerr) | WColumnMissing (z : Z).
(** SubstraitPlanRelationVisitor.cpp 628-668: the names of the expressions of a project relation *)
Fixpoint given_names (t : names) (l : list detail) : names * list str :=
  match l with
  | [] => (t, [])
  | OnExpression _ (Some n) :: l => let '(t, r) := given_names t l in (t, n :: r)
  | OnExpression _ None :: l => let '(t, u) := unique t $"intermediate" in let '(t, r) := given_names t l in (t, u :: r)
  | _ :: l => given_names t l
  end.
Definition known_rel := (str * (relation * FieldModel.data))%type.
Fixpoint find_rel (n : str) (l : list known_rel) : option (relation * FieldModel.data) := match l with [] => None | (m, x) :: l => if m =s n then Some x else find_rel n l end.
Definition inputs_of (S : TreeModel.read_plan) (n : str) : list str :=
  let d := TreeModel.rel_data S n in some_list (PipeModel.cont d) ++ PipeModel.news d.
(** 248-312 addInputFieldsToSchema; [known]: the relations visited so far, then (in the second pass) those of the first pass.  A relation that comes later in the text
    has no columns yet in the first pass, and those of the first pass in the second. *)
Definition fields_of (S : TreeModel.read_plan) (known : list known_rel) (n : str) : list FieldModel.column :=
  flat_map (fun i => match find_rel i known with Some (_, d) => FieldModel.exposed d | None => [] end) (inputs_of S n).
Section Relations.
  Variable find_function : str -> option N.
  Variable tab : table.
  Variable S : TreeModel.read_plan.
  Variable earlier : list known_rel.
  Definition find_relation (n : str) : option bool := match PipeModel.plookup (TreeModel.r_tab S) n with Some (PipeModel.PRel _) => Some true | Some PipeModel.POther => Some false | None => None end.
  Definition known_symbol (n : str) : bool := match find_symbol tab n with Some _ => true | None => false end.
  (** A section whose name is taken has no symbol of its own and is left out (the error was reported before). *)
  Definition taken (known : list known_rel) (n : str) : bool :=
    match find_rel n known with Some _ => true | None => match find_relation n with Some true => false | _ => true end end.
  Definition visit_node (t : names) (known : list known_rel) (node : rnode) : outcome (names * list known_rel * list werr) :=
    if taken known (n_name node) then Ok (t, known, []) else
    match empty_body (n_kind node) with
    | None => Ok (t, known, [WRelation (RKind (n_kind node))])
    | Some b0 =>
      let '(t, given) := match b0 with BProject _ => given_names t (n_details node) | _ => (t, []) end in
      x <- visitColumns find_function find_relation known_symbol (schema_list tab) (is_aggregate b0) (fields_of S (known ++ earlier) (n_name node)) given
             (flat_map (schema_columns tab) (used_schemas (n_details node))) b0 (n_details node) ;;
      Ok (t, known ++ [(n_name node, fst x)], map WRelation (snd x) ++ map WColumnMissing (FieldModel.d_missing (snd (fst x))))
    end.
  Fixpoint visit_nodes (t : names) (known : list known_rel) (l : list rnode) : outcome (list known_rel * list werr) :=
    match l with
    | [] => Ok (known, [])
    | n :: l => x <- visit_node t known n ;; let '(t, known, e) := x in y <- visit_nodes t known l ;; Ok (fst y, e ++ snd y)
    end.
End Relations.
(** 1018-1077, 645-684: the sources and the schemas that a read relation uses, one after the other; setting another read type drops the one before *)
Definition merge_source (a b : option source) : option source :=
  match a, b with
  | Some (NamedTable x), Some (NamedTable y) => Some (NamedTable (x ++ y))
  | Some (LocalFiles x), Some (LocalFiles y) => Some (LocalFiles (x ++ y))
  | _, Some y => Some y
  | _, None => a
  end.
Fixpoint message_source (tab : table) (acc : option source) (l : list str) : outcome (option source) :=
  match l with [] => Ok acc | n :: l => s <- use_source tab n ;; message_source tab (merge_source acc s) l end.
Definition merge_schema (a b : option named_struct) : option named_struct :=
  match a, b with
  | Some x, Some y => Some (NamedStruct (ns_names x ++ ns_names y) (ns_types x ++ ns_types y) (match ns_types y with [] => ns_null x | _ => ns_null y end))
  | None, _ => b
  | _, None => a
  end.
Definition message_schema (tab : table) (l : list str) : option named_struct := fold_left (fun acc n => merge_schema acc (use_schema tab n)) l None.
Definition message (r : relation) : relation := Relation (match r_body r with BRead _ _ f g p => BRead [] [] f g p | b => b end) (r_emit r).
(** SymbolTablePrinter.cpp 550-858: TreeModel has the tree of the relations by their names *)
Fixpoint fill (tab : table) (known : list known_rel) (t : TreeModel.rel unit) : outcome tree :=
  match t with
  | TreeModel.Absent => Ok (Node (Relation (BOther $"unknown") []) None None [])
  | TreeModel.Rel _ _ n ins _ =>
    l <- (fix go (l : list (TreeModel.rel unit)) : outcome (list tree) := match l with [] => Ok [] | i :: l => x <- fill tab known i ;; r <- go l ;; Ok (x :: r) end) ins ;;
    match find_rel n known with
    | None => Ok (Node (Relation (BOther $"unknown") []) None None l)
    | Some (r, _) =>
      s <- message_source tab None (sources_of (r_body r)) ;;
      Ok (Node (message r) s (message_schema tab (schemas_of (r_body r))) l)
    end
  end.
Fixpoint fill_all (tab : table) (known : list known_rel) (l : list (TreeModel.rel unit * list str)) : outcome (list (tree * option (list str))) :=
  match l with [] => Ok [] | (t, ns) :: l => x <- fill tab known t ;; r <- fill_all tab known l ;; Ok ((x, Some ns) :: r) end.
(** What the first pass over the relations (SubstraitPlanRelationVisitor.cpp) reports: all but columns that are not there (2075-2077), which the second one reports.
    (Simplification: its other errors are taken to be those of the second one; FirstFacts has the two side by side for expressions.) *)
Definition reported_first (e : werr) : bool := match e with WRelation (RExpr (XNoField _)) | WRelation REmitMissing => false | _ => true end.
(** All passes (ParseText.cpp 40-150), and the binary plan of the symbols (outputToBinaryPlan, SymbolTablePrinter.cpp 1088-1135).  [None]: there are errors before the
    last pass, which is then left out. *)
Definition from_text (s : str) : outcome (option bplan * list werr) :=
  match parse s with
  | None => Ok (None, [WSyntax])
  | Some nodes =>
    p <- symbols nodes ;;
    let '(tab, e1) := p in
    q <- TreeModel.readText (text_of nodes tab) ;;
    let '(rp, e2) := q in
    let fs := entries 0 0 nodes in
    v <- visit_nodes (DeclModel.resolve_function fs) tab rp [] SymbolModel.empty_table [] (relations_of nodes) ;;
    let '(first, e3) := v in
    match map WPass e1 ++ map WTree e2 ++ filter reported_first e3 with
    | [] =>
      v <- visit_nodes (DeclModel.resolve_function fs) tab rp first SymbolModel.empty_table [] (relations_of nodes) ;;
      let '(known, e4) := v in
      l <- TreeModel.outputToBinaryPlan rp (Datatypes.S (length (relations_of nodes))) ;;
      rels <- fill_all tab known l ;;
      Ok (Some (BPlan (DeclModel.outputExtensionSpaces fs) (DeclModel.outputFunctions fs) rels), e4)
    | e => Ok (None, e)
    end
  end.
