(** Model of the conversion of whole texts with subqueries: WholeModel leaves them out, SubAgreeFacts shows that this is the same for texts that have none.
    SubstraitPlanPipelineVisitor.cpp records the relations of subqueries and the relation each one is in, SubstraitPlanRelationVisitor.cpp leaves columns in subqueries to
    SubstraitPlanSubqueryRelationVisitor.cpp, which looks for them outwards, and SymbolTablePrinter.cpp puts the recorded relations into the expressions.
    Simplifications: as in WholeModel; the first pass reports what the last pass does in arguments that hold subqueries (it leaves them out). *)
From Verif Require Import Base StringsModel TypeModel LexModel NameModel ExprModel RelModel SectionModel WholeModel.
From Verif Require SymbolModel FieldModel DeclModel PipeModel TreeModel.

(** * Binary plans *)
(** A relation with its inputs and with the relations of its subqueries, which its expressions name *)
Inductive qtree := QNode (r : relation) (src : option source) (sch : option named_struct) (ins : list qtree) (subs : list (str * qtree)).
Record qplan := QPlan { q_uris : list (str * N); q_decls : list DeclModel.fdecl; q_rels : list (qtree * option (list str)) }.

(** * Recording *)
(** relation_ref, SubstraitPlanParser.g4: the first id of the reference, without the schema in parentheses *)
Fixpoint id_of (s : str) : str := match s with [] => [] | c :: s => if Ascii.eqb c "("%char then [] else c :: id_of s end.
(** The subqueries of an expression: a subquery is recorded, then those of its operands (SubstraitPlanPipelineVisitor.cpp 173-243) *)
Fixpoint subs (e : enode) : list TreeModel.texpr :=
  match e with
  | NConst _ | NCol _ => []
  | NFun _ args _ => flat_map (fun a => let '(_, x) := a in subs x) args
  | NCast e _ => subs e
  | NScalar n => [TreeModel.TSub TreeModel.SScalar [] [] (id_of n)]
  | NIn l n => [TreeModel.TSub TreeModel.SIn [] (flat_map subs l) (id_of n)]
  | NSet _ n => [TreeModel.TSub TreeModel.SPredicate [] [] (id_of n)]
  | NCompare e _ _ n => [TreeModel.TSub TreeModel.SComparison [] (subs e) (id_of n)]
  end.
(** The expressions of a detail in the order of the text *)
Definition mdetail_exprs (d : mdetail) : list enode := match d with MMeasure e _ _ | MFilter e | MSort e _ => [e] | MInvocation _ => [] end.
Definition detail_exprs (d : detail) : list enode :=
  match d with
  | OnFilter _ e | OnExpression e _ | OnGrouping e | OnSort e _ => [e]
  | OnMeasure l => flat_map mdetail_exprs l
  | _ => []
  end.
Definition node_subs (n : rnode) : list TreeModel.texpr := flat_map (fun d => flat_map subs (detail_exprs d)) (n_details n).
(** The sections as TreeModel has them; [WholeModel.text_of] with the subqueries *)
Definition text_of (nodes : list pnode) (tab : table) : TreeModel.text :=
  {| TreeModel.x_pipes := map (map fst) (pipelines_of nodes);
     TreeModel.x_rels := map (fun n => {| TreeModel.x_name := n_name n; TreeModel.x_kind := kind_read (n_kind n); TreeModel.x_body := n_name n; TreeModel.x_exprs := node_subs n |}) (relations_of nodes);
     TreeModel.x_roots := roots_of nodes; TreeModel.x_others := nodup (list_eq_dec Ascii.ascii_dec) (map s_name tab) |}.

(** * Scopes *)
(** SymbolTable.cpp 127-144 setParentQueryLocation: the relation whose subquery this one is; the last one counts *)
Definition section_subs (s : TreeModel.section) : list str := flat_map TreeModel.tsubs (TreeModel.x_exprs s).
Definition parent_of (S : TreeModel.read_plan) (n : str) : option str :=
  fold_left (fun acc s => if existsb (fun q => q =s n) (section_subs s) then Some (TreeModel.x_name s) else acc) (TreeModel.r_rels S) None.
(** SubstraitPlanSubqueryRelationVisitor.cpp 323-340 getParentQueryLocation.  The loop along the starts of pipelines has no bound in the code; here [fuel] bounds it. *)
Inductive enclosed := Inside (p : str) | Outermost | Endless.
Fixpoint enclosing (S : TreeModel.read_plan) (fuel : nat) (n : str) : enclosed :=
  match parent_of S n with
  | Some p => Inside p
  | None => match PipeModel.start (TreeModel.rel_data S n) with
            | None => Outermost
            | Some m => match fuel with O => Endless | Datatypes.S fuel => enclosing S fuel m end
            end
  end.
(** The relations around a relation from the inside out (the recursion of 2213-2231), and whether there is an outermost one *)
Fixpoint outward (S : TreeModel.read_plan) (bound fuel : nat) (n : str) : list str * bool :=
  match enclosing S bound n with
  | Outermost => ([], true)
  | Endless => ([], false)
  | Inside p => match fuel with O => ([], false) | Datatypes.S fuel => let '(l, e) := outward S bound fuel p in (p :: l, e) end
  end.
Definition around (S : TreeModel.read_plan) (n : str) : list str * bool := let k := length (TreeModel.r_tab S) in outward S k k n.
Definition empty_scope : FieldModel.scope :=
  {| FieldModel.q_fields := []; FieldModel.q_generated := []; FieldModel.q_aggregate := false; FieldModel.q_parent := None; FieldModel.q_start := None |}.
(** The columns of relation p when relation n is visited.  n itself has, at that time, no column that was looked for before. *)
Definition scope_at (known : list known_rel) (n p : str) : FieldModel.scope :=
  if p =s n then empty_scope else
  match find_rel p known with
  | Some (r, d) => {| FieldModel.q_fields := FieldModel.d_fields d; FieldModel.q_generated := FieldModel.d_generated d; FieldModel.q_aggregate := WholeModel.is_aggregate (r_body r);
                      FieldModel.q_parent := None; FieldModel.q_start := None |}
  | None => empty_scope
  end.
(** SubstraitPlanSubqueryRelationVisitor.cpp 2168-2235 findFieldReferenceByName: steps out and field number *)
Fixpoint look (ss : FieldModel.schemas) (emit : bool) (q : FieldModel.scope) (outs : list FieldModel.scope) (name : str) {struct outs} : option (N * Z) :=
  match outs with
  | [] => option_map (fun z => (0%N, z)) (FieldModel.find_in ss emit q name)
  | p :: outs => match FieldModel.find_in ss emit q name with
                 | Some z => Some (0%N, z)
                 | None => match look ss emit p outs name with Some (k, z) => Some ((k + 1)%N, z) | None => None end
                 end
  end.

Section VisitColumns.
  Variable find_function : str -> option N.
  Variable find_relation : str -> option bool.
  Variable known_name : str -> bool.
  Variable ss : FieldModel.schemas.
  Variable aggregate : bool.
  Variable fields : list FieldModel.column.
  (** the scopes around, and whether this is a subquery in the first pass (SubstraitPlanRelationVisitor.cpp 1220-1229: columns are not looked up) *)
  Variable outs : list FieldModel.scope.
  Variable inner : bool.
  Definition find_field (g : list FieldModel.column) (name : str) : option (N * Z) := if inner then None else look ss false (scope_with aggregate fields g) outs name.
  Definition find_emit (g : list FieldModel.column) (name : str) : N * Z * bool :=
    match outs with
    | [] => WholeModel.find_emit ss aggregate fields g name
    | _ => match look ss true (scope_with aggregate fields g) outs name with Some (k, z) => (k, z, false) | None => (N.of_nat (length outs), (-1)%Z, true) end
    end.
  Fixpoint track (i : nat) (g : list FieldModel.column) (b : body) (l : list detail) : visited (body * list FieldModel.column) :=
    match l with
    | [] => fine (b, g)
    | d :: l => bindR (visitDetail find_function find_relation (fun _ j => find_field (g ++ own_columns j d)) (length fields) known_name known_name i b d)
                  (fun b => track (S i) (g ++ added_columns fields d b) b l)
    end.
  (** 395-463 visitRelation and SubstraitPlanRelationVisitor.cpp 339-403: the first pass leaves out what follows the expressions of a subquery (377) *)
  Definition visitColumns (given : list str) (schema : list FieldModel.column) (b0 : body) (ds : list detail) : visited (relation * FieldModel.data) :=
    bindR (track 0 [] b0 ds) (fun x =>
    let '(b, g) := x in
    let g := match b with BProject es => add_expressions fields given es g | _ => g end in
    if inner then
      fine (Relation b [],
        {| FieldModel.d_fields := fields; FieldModel.d_generated := g; FieldModel.d_output := schema; FieldModel.d_refs := []; FieldModel.d_mapping := []; FieldModel.d_missing := [] |})
    else
    bindR (visitEmits (find_emit g) ds) (fun emit =>
    let output := if aggregate then schema ++ g else schema in
    let '(output, missing) := FieldModel.applyOutputMapping aggregate fields g output emit in
    fine (Relation (finish b) emit,
      {| FieldModel.d_fields := fields; FieldModel.d_generated := g; FieldModel.d_output := output; FieldModel.d_refs := []; FieldModel.d_mapping := emit; FieldModel.d_missing := missing |}))).
End VisitColumns.

(** A column that was not found *)
Definition lost (e : rerr) : bool := match e with RExpr (XNoField _) | REmitMissing => true | _ => false end.
Section Relations.
  Variable find_function : str -> option N.
  Variable tab : table.
  Variable S : TreeModel.read_plan.
  Variable earlier : list known_rel.
  (** which of the two passes *)
  Variable first : bool.
  Definition scopes_around (known : list known_rel) (n : str) : list FieldModel.scope := if first then [] else map (scope_at (known ++ earlier) n) (fst (around S n)).
  Definition is_inner (n : str) : bool := first && match parent_of S n with Some _ => true | None => false end.
  (** whether looking for a column of this name that is nowhere ends; the first pass does not look outwards.
      (Simplification: exceptions and undefined behaviour elsewhere in the relation come first.) *)
  Definition gives_up (n : str) : bool := first || snd (around S n).
  Definition visit_node (t : names) (known : list known_rel) (node : rnode) : outcome (names * list known_rel * list werr) :=
    if taken S known (n_name node) then Ok (t, known, []) else
    match empty_body (n_kind node) with
    | None => Ok (t, known, [WRelation (RKind (n_kind node))])
    | Some b0 =>
      let '(t, given) := match b0 with BProject _ => given_names t (n_details node) | _ => (t, []) end in
      x <- visitColumns find_function (find_relation S) (known_symbol tab) (schema_list tab) (is_aggregate b0) (fields_of S (known ++ earlier) (n_name node))
             (scopes_around known (n_name node)) (is_inner (n_name node)) given (flat_map (schema_columns tab) (used_schemas (n_details node))) b0 (n_details node) ;;
      if existsb lost (snd x) && negb (gives_up (n_name node)) then Throw EFuel else
      Ok (t, known ++ [(n_name node, fst x)], map WRelation (snd x) ++ map WColumnMissing (FieldModel.d_missing (snd (fst x))))
    end.
  Fixpoint visit_nodes (t : names) (known : list known_rel) (l : list rnode) : outcome (list known_rel * list werr) :=
    match l with
    | [] => Ok (known, [])
    | n :: l => x <- visit_node t known n ;; let '(t, known, e) := x in y <- visit_nodes t known l ;; Ok (fst y, e ++ snd y)
    end.
End Relations.

(** * Reassembling *)
(** How many subqueries of a relation are looked at when the relations are put in: none in an argument that is an enumeration (its text ends in _enum), and none in the
    sorts of a measure (SymbolTablePrinter.cpp 656-708) *)
Fixpoint seen_in (e : enode) : nat :=
  match e with
  | NConst _ | NCol _ => 0
  | NFun n args _ => list_sum (map (fun a => let '(text, x) := a in if negb (to_lower n =s $"ifthen") && endsWith text enum_suffix then 0 else seen_in x) args)
  | NCast e _ => seen_in e
  | NScalar _ | NSet _ _ => 1
  | NIn l _ => Datatypes.S (list_sum (map seen_in l))
  | NCompare e _ _ _ => Datatypes.S (seen_in e)
  end.
Definition attached_exprs (d : detail) : list enode :=
  match d with OnMeasure l => flat_map (fun m => match m with MSort _ _ => [] | m => mdetail_exprs m end) l | d => detail_exprs d end.
Definition seen_subs (nodes : list rnode) (n : str) : nat :=
  match find (fun r => n_name r =s n) nodes with Some r => list_sum (map (fun d => list_sum (map seen_in (attached_exprs d))) (n_details r)) | None => 0 end.
(** The tree of the relations by their names *)
Inductive srel := SRel (n : str) (ins : list srel) (subs : list (str * srel)).
Section Build.
  Variable S : TreeModel.read_plan.
  Variable seen : str -> nat.
  Definition recorded_subs (n : str) : list str := match TreeModel.find_section S n with Some s => section_subs s | None => [] end.
  Definition alone (n : str) : srel := SRel (match TreeModel.find_section S n with Some s => TreeModel.x_body s | None => [] end) [] [].
  (** SymbolTablePrinter.cpp 550-858 addInputsToRelation, 860-1086 addInputsToExpression; as [TreeModel.build], but only as many subqueries as there are in the message.
      The recursion is not bounded in the code; here [fuel] bounds it. *)
  Fixpoint sbuild (fuel : nat) (n : str) : outcome srel :=
    match fuel with
    | 0 => Throw EFuel
    | Datatypes.S fuel =>
      match TreeModel.find_section S n with
      | None => Ok (alone n)
      | Some s =>
        let d := TreeModel.rel_data S n in
        let finish ins :=
          x <- TreeModel.omap_list (fun q => r <- sbuild fuel q ;; Ok (q, r)) (firstn (seen n) (section_subs s)) ;;
          if length (section_subs s) <? seen n then Throw EInvalidState else Ok (SRel (TreeModel.x_body s) ins x) in
        match TreeModel.x_kind s with
        | TreeModel.KFilter | TreeModel.KAggregate | TreeModel.KSort | TreeModel.KProject | TreeModel.KFetch | TreeModel.KExtensionSingle =>
            match TreeModel.getNextSinglePipeline d with None => Throw EInvalidState | Some i => r <- sbuild fuel i ;; finish [r] end
        | TreeModel.KJoin | TreeModel.KCross | TreeModel.KHashJoin | TreeModel.KMergeJoin =>
            match PipeModel.news d with [l; r] => x <- sbuild fuel l ;; y <- sbuild fuel r ;; finish [x; y] | _ => Ok (alone n) end
        | TreeModel.KSet | TreeModel.KExtensionMulti => xs <- TreeModel.omap_list (sbuild fuel) (PipeModel.news d) ;; Ok (SRel (TreeModel.x_body s) xs [])
        | _ => Ok (alone n)
        end
      end
    end.
  (** 1088-1135 outputToBinaryPlan *)
  Definition soutput (fuel : nat) : outcome (list (srel * list str)) :=
    TreeModel.omap_list (fun s => match PipeModel.news (snd s) with
      | [] => Ok (alone (fst s), [])
      | i :: _ => r <- sbuild fuel i ;; Ok (r, match TreeModel.r_roots S with names :: _ => names | [] => [] end)
      end) (TreeModel.starts S).
End Build.
(** 860-1086 addInputsToExpression: the operands, then the next of the recorded relations [l].  Of what is left out only a scalar subquery keeps its relation. *)
Definition take (l : list str) (r kept : option str) : option str * list str := match r, l with Some _, n :: l => (Some n, l) | Some _, [] => (kept, []) | None, l => (None, l) end.
Fixpoint relabel (l : list str) (e : expr) : expr * list str :=
  match e with
  | EFun f args dep opts ty =>
      let '(args, l) := (fix go l args := match args with
        | [] => ([], l)
        | AValue x :: r => let '(x, l) := relabel l x in let '(r, l) := go l r in (AValue x :: r, l)
        | a :: r => let '(r, l) := go l r in (a :: r, l)
        end) l args in (EFun f args dep opts ty, l)
  | EIfThen ifs els =>
      let opt := fun l (x : option expr) => match x with Some x => let '(x, l) := relabel l x in (Some x, l) | None => (None, l) end in
      let '(ifs, l) := (fix go l ifs := match ifs with
        | [] => ([], l)
        | (a, b) :: r => let '(a, l) := opt l a in let '(b, l) := opt l b in let '(r, l) := go l r in ((a, b) :: r, l)
        end) l ifs in
      let '(els, l) := opt l els in (EIfThen ifs els, l)
  | ECast x ty k => let '(x, l) := relabel l x in (ECast x ty k, l)
  | EScalar r => let '(r, l) := take l r r in (EScalar r, l)
  | EIn xs r =>
      let '(xs, l) := (fix go l xs := match xs with [] => ([], l) | x :: r => let '(x, l) := relabel l x in let '(r, l) := go l r in (x :: r, l) end) l xs in
      let '(r, l) := take l r None in (EIn xs r, l)
  | ESet op r => let '(r, l) := take l r None in (ESet op r, l)
  | ECompare op red x r =>
      let '(x, l) := match x with Some x => let '(x, l) := relabel l x in (Some x, l) | None => (None, l) end in
      let '(r, l) := take l r None in (ECompare op red x r, l)
  | e => (e, l)
  end.
Fixpoint through {A} (f : list str -> A -> A * list str) (l : list str) (xs : list A) : list A * list str :=
  match xs with [] => ([], l) | x :: r => let '(x, l) := f l x in let '(r, l) := through f l r in (x :: r, l) end.
Definition relabel_option (l : list str) (x : option expr) : option expr * list str := match x with Some x => let '(x, l) := relabel l x in (Some x, l) | None => (None, l) end.
Definition relabel_arg (l : list str) (a : arg expr) : arg expr * list str := match a with AValue x => let '(x, l) := relabel l x in (AValue x, l) | a => (a, l) end.
Definition relabel_measure (l : list str) (m : measure) : measure * list str :=
  let '(f, l) := match m_function m with
                 | Some f => let '(args, l) := through relabel_arg l (af_args f) in
                             (Some (AF (af_ref f) args (af_deprecated f) (af_options f) (af_type f) (af_phase f) (af_invocation f) (map (fun s => (fst (relabel [] (fst s)), snd s)) (af_sorts f))), l)
                 | None => (None, l)
                 end in
  let '(c, l) := relabel_option l (m_filter m) in (Measure f c, l).
(** 550-858: in the order of the message; nothing is put into the filters of a read relation *)
Definition relabel_body (l : list str) (b : body) : body :=
  match b with
  | BRead s sc f g p => BRead s sc (fst (relabel_option [] f)) (fst (relabel_option [] g)) p
  | BProject es => BProject (fst (through relabel l es))
  | BJoin t e p => let '(e, l) := relabel_option l e in BJoin t e (fst (relabel_option l p))
  | BAggregate gs ms => let '(gs, l) := through (through relabel) l gs in BAggregate gs (fst (through relabel_measure l ms))
  | BSort ss => BSort (fst (through (fun l s => let '(x, l) := relabel l (fst s) in ((x, snd s), l)) l ss))
  | BFilter c => BFilter (fst (relabel_option l c))
  | b => b
  end.
Definition relabeled (recorded l : list str) (r : relation) : relation := match recorded with [] => r | _ => Relation (relabel_body l (r_body r)) (r_emit r) end.
Section Fill.
  Variable tab : table.
  Variable known : list known_rel.
  Variable recorded : str -> list str.
  Fixpoint sfill (t : srel) : outcome qtree :=
    match t with
    | SRel n ins sub =>
      l <- (fix go (l : list srel) : outcome (list qtree) := match l with [] => Ok [] | i :: l => x <- sfill i ;; r <- go l ;; Ok (x :: r) end) ins ;;
      m <- (fix go (l : list (str * srel)) : outcome (list (str * qtree)) := match l with [] => Ok [] | (k, i) :: l => x <- sfill i ;; r <- go l ;; Ok ((k, x) :: r) end) sub ;;
      match find_rel n known with
      | None => Ok (QNode (Relation (BOther $"unknown") []) None None l m)
      | Some (r, _) =>
        s <- message_source tab None (sources_of (r_body r)) ;;
        Ok (QNode (message (relabeled (recorded n) (map fst sub) r)) s (message_schema tab (schemas_of (r_body r))) l m)
      end
    end.
  Fixpoint sfill_all (l : list (srel * list str)) : outcome (list (qtree * option (list str))) :=
    match l with [] => Ok [] | (t, ns) :: l => x <- sfill t ;; r <- sfill_all l ;; Ok ((x, Some ns) :: r) end.
End Fill.
(** All passes (ParseText.cpp 40-150), and the binary plan of the symbols *)
Definition from_text (s : str) : outcome (option qplan * list werr) :=
  match parse s with
  | None => Ok (None, [WSyntax])
  | Some nodes =>
    p <- symbols nodes ;;
    let '(tab, e1) := p in
    q <- TreeModel.readText (text_of nodes tab) ;;
    let '(rp, e2) := q in
    let fs := entries 0 0 nodes in
    v <- visit_nodes (DeclModel.resolve_function fs) tab rp [] true SymbolModel.empty_table [] (relations_of nodes) ;;
    let '(before, e3) := v in
    match map WPass e1 ++ map WTree e2 ++ filter reported_first e3 with
    | [] =>
      v <- visit_nodes (DeclModel.resolve_function fs) tab rp before false SymbolModel.empty_table [] (relations_of nodes) ;;
      let '(known, e4) := v in
      l <- soutput rp (seen_subs (relations_of nodes)) (Datatypes.S (length (relations_of nodes))) ;;
      rels <- sfill_all tab known (recorded_subs rp) l ;;
      Ok (Some (QPlan (DeclModel.outputExtensionSpaces fs) (DeclModel.outputFunctions fs) rels), e4)
    | e => Ok (None, e)
    end
  end.
