(** The order of sections of different kinds in texts with subqueries; as KindOrderFacts. *)
From Verif Require Import Base BaseFacts StringsModel TypeModel LexModel ExprModel RelModel SectionModel WholeModel SubModel ExtFacts RenumberFacts KindOrderFacts.
From Verif Require FieldModel DeclModel SymbolModel TreeModel PipeModel.
From Coq Require Import Lia.

(** What happens to a text that is accepted *)
Definition from_nodes (nodes : list pnode) : outcome (option qplan * list werr) :=
    p <- symbols nodes ;;
    let '(tab, e1) := p in
    q <- TreeModel.readText (SubModel.text_of nodes tab) ;;
    let '(rp, e2) := q in
    let fs := entries 0 0 nodes in
    v <- SubModel.visit_nodes (DeclModel.resolve_function fs) tab rp [] true SymbolModel.empty_table [] (relations_of nodes) ;;
    let '(before, e3) := v in
    match map WPass e1 ++ map WTree e2 ++ filter reported_first e3 with
    | [] =>
      v <- SubModel.visit_nodes (DeclModel.resolve_function fs) tab rp before false SymbolModel.empty_table [] (relations_of nodes) ;;
      let '(known, e4) := v in
      l <- soutput rp (seen_subs (relations_of nodes)) (Datatypes.S (length (relations_of nodes))) ;;
      rels <- sfill_all tab known (recorded_subs rp) l ;;
      Ok (Some (QPlan (DeclModel.outputExtensionSpaces fs) (DeclModel.outputFunctions fs) rels), e4)
    | e => Ok (None, e)
    end.
Lemma from_text_nodes s : SubModel.from_text s = match parse s with None => Ok (None, [WSyntax]) | Some nodes => from_nodes nodes end.
Proof. reflexivity. Qed.

Section Renumber.
  Variable g : nat -> nat.
  Hypothesis Hg : forall a b, g a = g b -> a = b.
  Notation ren := (ren g).
  Definition ren_scope (q : FieldModel.scope) : FieldModel.scope :=
    {| FieldModel.q_fields := map ren (FieldModel.q_fields q); FieldModel.q_generated := map ren (FieldModel.q_generated q); FieldModel.q_aggregate := FieldModel.q_aggregate q;
       FieldModel.q_parent := FieldModel.q_parent q; FieldModel.q_start := FieldModel.q_start q |}.
  Lemma find_in_scope_ren ss em q n : FieldModel.find_in (ren_ss g ss) em (ren_scope q) n = FieldModel.find_in ss em q n.
  Proof. exact (find_in_ren g Hg ss em (FieldModel.q_aggregate q) (FieldModel.q_fields q) (FieldModel.q_generated q) n). Qed.
  Lemma look_ren ss em n outs : forall q, look (ren_ss g ss) em (ren_scope q) (map ren_scope outs) n = look ss em q outs n.
  Proof. induction outs as [|p outs IH]; intros q; cbn [look map]; rewrite find_in_scope_ren; [reflexivity|]. destruct (FieldModel.find_in ss em q n); [reflexivity|]. rewrite IH. reflexivity. Qed.
  Section Columns.
  Variables (ff : str -> option N) (fr : str -> option bool) (kn kn' : str -> bool) (Hk : forall n, kn' n = kn n) (ss : FieldModel.schemas) (ag : bool) (fields : list FieldModel.column)
    (outs : list FieldModel.scope) (inner : bool).
  Lemma find_field_ren h n : find_field (ren_ss g ss) ag (map ren fields) (map ren_scope outs) inner (map ren h) n = find_field ss ag fields outs inner h n.
  Proof. unfold find_field. destruct inner; [reflexivity|]. exact (look_ren ss false n outs (scope_with ag fields h)). Qed.
  Lemma find_emit_ren h n : find_emit (ren_ss g ss) ag (map ren fields) (map ren_scope outs) (map ren h) n = find_emit ss ag fields outs h n.
  Proof.
    unfold find_emit. pose proof (look_ren ss true n outs (scope_with ag fields h)) as L. destruct outs as [|p ps]; cbn [map] in *.
    - unfold WholeModel.find_emit. rewrite (find_in_ren g Hg). reflexivity.
    - change (ren_scope (scope_with ag fields h)) with (scope_with ag (map ren fields) (map ren h)) in L. rewrite L. cbn [length]. rewrite map_length. reflexivity.
  Qed.
  Lemma track_ren ds : forall i h b, track ff fr kn' (ren_ss g ss) ag (map ren fields) (map ren_scope outs) inner i (map ren h) b ds = bindR (track ff fr kn ss ag fields outs inner i h b ds) (fun x => fine (fst x, map ren (snd x))).
  Proof.
    induction ds as [|d ds IH]; intros i h b; [reflexivity|]. cbn [track].
    rewrite (visitDetail_ext ff fr fr (fun n => eq_refl) _ (fun _ j => find_field ss ag fields outs inner (h ++ own_columns j d))) with (ks' := kn) (kc' := kn); [| |exact Hk|exact Hk].
    - rewrite map_length. unfold bindR. destruct (visitDetail _ _ _ _ _ _ _ _ _) as [[b1 m1]| |]; cbn [obind fst snd]; try reflexivity.
      specialize (IH (S i) (h ++ added_columns fields d b1) b1). assert (E : map ren (h ++ added_columns fields d b1) = map ren h ++ added_columns (map ren fields) d b1).
      { rewrite map_app. f_equal. destruct d; try reflexivity; cbn [added_columns]; [|apply names_ren]. destruct b1 as [| | |[|y r] ms| | | | |]; try reflexivity. destruct (rev y) as [|[| |[z o| | |] q| | | | | | | | | |] t]; try reflexivity. rewrite some_ren, nth_error_map. reflexivity. }
      rewrite E in IH. rewrite IH. clear IH E. unfold bindR. destruct (track ff fr kn ss ag fields outs inner (S i) (h ++ added_columns fields d b1) b1 ds) as [[[b2 g2] m2]| |]; cbn; rewrite ?app_nil_r; reflexivity.
    - intros _ j n. rewrite <- (find_field_ren (h ++ own_columns j d) n), map_app. f_equal. f_equal. destruct d; cbn [own_columns]; try reflexivity. symmetry. apply names_ren.
  Qed.
  Lemma columns_ren given schema b0 ds : visitColumns ff fr kn' (ren_ss g ss) ag (map ren fields) (map ren_scope outs) inner given (map ren schema) b0 ds = bindR (visitColumns ff fr kn ss ag fields outs inner given schema b0 ds) (fun x => fine (ren_result g x)).
  Proof.
    unfold visitColumns. pose proof (track_ren ds 0 [] b0) as T. cbn [map] in T. rewrite T. clear T. unfold bindR. destruct (track _ _ _ _ _ _ _ _ _ _) as [[[b h] m]| |]; cbn [obind fst snd fine]; try reflexivity.
    assert (E : match b with BProject es => add_expressions (map ren fields) given es (map ren h) | _ => map ren h end = map ren (match b with BProject es => add_expressions fields given es h | _ => h end)) by (destruct b; try reflexivity; symmetry; apply added_ren).
    rewrite E. set (h1 := match b with BProject es => add_expressions fields given es h | _ => h end). clearbody h1. clear E.
    destruct inner; [cbn; rewrite !app_nil_r; reflexivity|].
    rewrite (visitEmits_ext (find_emit (ren_ss g ss) ag (map ren fields) (map ren_scope outs) (map ren h1)) (find_emit ss ag fields outs h1)) by (intros n; apply find_emit_ren).
    destruct (visitEmits _ ds) as [[emit m2]| |]; cbn [obind fst snd]; try reflexivity.
    assert (Eo : (if ag then map ren schema ++ map ren h1 else map ren schema) = map ren (if ag then schema ++ h1 else schema)) by (destruct ag; [rewrite map_app|]; reflexivity). rewrite Eo, mapping_ren.
    destruct (FieldModel.applyOutputMapping _ _ _ _ _) as [o e]. cbn. rewrite !app_nil_r. reflexivity.
  Qed.
  End Columns.
  Variables (ff : str -> option N) (tab : table) (S : TreeModel.read_plan).
  Lemma scope_at_ren known n p : scope_at (ren_known g known) n p = ren_scope (scope_at known n p).
  Proof. unfold scope_at. destruct (p =s n); [reflexivity|]. rewrite find_rel_ren. destruct (find_rel p known) as [[r d]|]; reflexivity. Qed.
  Lemma visit_node_ren earlier first t known n : SubModel.visit_node ff (map (ren_sym g) tab) S (ren_known g earlier) first t (ren_known g known) n =
    (x <- SubModel.visit_node ff tab S earlier first t known n ;; let '(t, k, e) := x in Ok (t, ren_known g k, e)).
  Proof.
    unfold SubModel.visit_node. rewrite taken_ren. destruct (taken S known (n_name n)); [reflexivity|]. destruct (empty_body (n_kind n)) as [b0|]; [|reflexivity]. destruct (match b0 with BProject _ => _ | _ => _ end) as [t' given].
    rewrite schema_list_ren. replace (ren_known g known ++ ren_known g earlier) with (ren_known g (known ++ earlier)) by (unfold ren_known; apply map_app). rewrite fields_ren.
    assert (E : flat_map (schema_columns (map (ren_sym g) tab)) (used_schemas (n_details n)) = map ren (flat_map (schema_columns tab) (used_schemas (n_details n)))).
    { induction (used_schemas (n_details n)) as [|x l IH]; [reflexivity|]. cbn [flat_map]. rewrite map_app, IH, (schema_columns_ren g Hg). reflexivity. }
    assert (Es : scopes_around S (ren_known g earlier) first (ren_known g known) (n_name n) = map ren_scope (scopes_around S earlier first known (n_name n))).
    { unfold scopes_around. destruct first; [reflexivity|]. replace (ren_known g known ++ ren_known g earlier) with (ren_known g (known ++ earlier)) by (unfold ren_known; apply map_app). rewrite map_map. apply map_ext. intros p. apply scope_at_ren. }
    rewrite E, Es, (columns_ren ff (find_relation S) (known_symbol tab) (known_symbol (map (ren_sym g) tab)) (known_symbol_ren g tab)). unfold bindR. destruct (visitColumns _ _ _ _ _ _ _ _ _ _) as [[[r d] m]| |]; cbn [obind fst snd fine]; try reflexivity.
    rewrite app_nil_r. destruct (existsb lost m && negb (gives_up S first (n_name n))); [reflexivity|]. cbn [obind]. unfold ren_known. rewrite map_app. reflexivity.
  Qed.
  Lemma visit_nodes_ren earlier first l : forall t known, SubModel.visit_nodes ff (map (ren_sym g) tab) S (ren_known g earlier) first t (ren_known g known) l =
    (x <- SubModel.visit_nodes ff tab S earlier first t known l ;; Ok (ren_known g (fst x), snd x)).
  Proof.
    induction l as [|n l IH]; intros t known; [reflexivity|]. cbn [SubModel.visit_nodes]. rewrite visit_node_ren. destruct (SubModel.visit_node _ _ _ _ _ _ _) as [[[t1 k1] e1]| |]; cbn [obind]; try reflexivity.
    rewrite IH. destruct (SubModel.visit_nodes _ _ _ _ _ _ _) as [[k2 e2]| |]; reflexivity.
  Qed.
  Variables (known : list known_rel) (recorded : str -> list str).
  Lemma sfill_ren t : sfill (map (ren_sym g) tab) (ren_known g known) recorded t = sfill tab known recorded t.
  Proof.
    revert t. fix IH 1. intros [n ins sub]. cbn [sfill].
    match goal with |- (x <- ?a ins ;; _) = (y <- ?b ins ;; _) => assert (E : a ins = b ins) by (induction ins as [|i ins IHl]; [reflexivity|]; cbn; rewrite IH, IHl; reflexivity); rewrite E end. clear E.
    match goal with |- (x <- ?a ;; _) = _ => destruct a; cbn [obind]; try reflexivity end.
    match goal with |- (x <- ?a sub ;; _) = (y <- ?b sub ;; _) => assert (E : a sub = b sub) by (induction sub as [|[k i] sub IHl]; [reflexivity|]; cbn; rewrite IH, IHl; reflexivity); rewrite E end. clear E.
    match goal with |- (x <- ?a ;; _) = _ => destruct a; cbn [obind]; try reflexivity end.
    rewrite find_rel_ren. destruct (find_rel n known) as [[r d]|]; cbn [option_map ren_result fst snd]; [|reflexivity]. rewrite (message_source_ren g Hg), (message_schema_ren g Hg). reflexivity.
  Qed.
  Lemma sfill_all_ren l : sfill_all (map (ren_sym g) tab) (ren_known g known) recorded l = sfill_all tab known recorded l.
  Proof. induction l as [|[t ns] l IH]; [reflexivity|]. cbn [sfill_all]. rewrite sfill_ren, IH. reflexivity. Qed.
End Renumber.
(** Only the definitions and the lists of the others count. *)
Definition from_parts (defs : list pnode) (pipes : list (list (str * str))) (rels : list rnode) (roots : list (list str)) : outcome (option qplan * list werr) :=
    p <- symbols defs ;;
    let '(tab, e1) := p in
    q <- TreeModel.readText {| TreeModel.x_pipes := map (map fst) pipes;
     TreeModel.x_rels := map (fun n => {| TreeModel.x_name := n_name n; TreeModel.x_kind := kind_read (n_kind n); TreeModel.x_body := n_name n; TreeModel.x_exprs := node_subs n |}) rels;
     TreeModel.x_roots := roots; TreeModel.x_others := nodup (list_eq_dec Ascii.ascii_dec) (map s_name tab) |} ;;
    let '(rp, e2) := q in
    let fs := entries 0 0 defs in
    v <- SubModel.visit_nodes (DeclModel.resolve_function fs) tab rp [] true SymbolModel.empty_table [] rels ;;
    let '(before, e3) := v in
    match map WPass e1 ++ map WTree e2 ++ filter reported_first e3 with
    | [] =>
      v <- SubModel.visit_nodes (DeclModel.resolve_function fs) tab rp before false SymbolModel.empty_table [] rels ;;
      let '(known, e4) := v in
      l <- soutput rp (seen_subs rels) (Datatypes.S (length rels)) ;;
      r <- sfill_all tab known (recorded_subs rp) l ;;
      Ok (Some (QPlan (DeclModel.outputExtensionSpaces fs) (DeclModel.outputFunctions fs) r), e4)
    | e => Ok (None, e)
    end.
Lemma from_nodes_parts l : from_nodes l = from_parts (definitions l) (pipelines_of l) (relations_of l) (roots_of l).
Proof.
  unfold from_nodes, from_parts. rewrite symbols_ren, entries_definitions. destruct (symbols (definitions l)) as [[tab e1]| |]; cbn [obind fst snd]; try reflexivity.
  unfold SubModel.text_of. set (g := pos 0 l). pose proof (pos_inj 0 l) as Hg. fold g in Hg. clearbody g. rewrite names_kept. destruct (TreeModel.readText _) as [[rp e2]| |]; cbn [obind]; try reflexivity.
  pose proof (visit_nodes_ren g Hg (DeclModel.resolve_function (entries 0 0 (definitions l))) tab rp [] true (relations_of l) SymbolModel.empty_table []) as V. match type of V with _ = ?r => match goal with |- obind ?a _ = _ => change (a = r) in V; rewrite V; clear V end end.
  destruct (SubModel.visit_nodes _ tab rp [] true _ _ _) as [[before e3]| |]; cbn [obind fst snd]; try reflexivity. destruct (map WPass e1 ++ map WTree e2 ++ filter reported_first e3); [|reflexivity].
  pose proof (visit_nodes_ren g Hg (DeclModel.resolve_function (entries 0 0 (definitions l))) tab rp before false (relations_of l) SymbolModel.empty_table []) as V. match type of V with _ = ?r => match goal with |- obind ?a _ = _ => change (a = r) in V; rewrite V; clear V end end.
  destruct (SubModel.visit_nodes _ tab rp before false _ _ _) as [[known e4]| |]; cbn [obind fst snd]; try reflexivity. destruct (soutput _ _ _) as [o| |]; cbn [obind]; try reflexivity. rewrite (sfill_all_ren g Hg). reflexivity.
Qed.
Theorem subqueries_kinds s s' a b : parse s = Some a -> parse s' = Some b -> same_kinds a b -> SubModel.from_text s = SubModel.from_text s'.
Proof. intros Ha Hb (E1 & E2 & E3 & E4). rewrite !from_text_nodes, Ha, Hb, !from_nodes_parts, E1, E2, E3, E4. reflexivity. Qed.
