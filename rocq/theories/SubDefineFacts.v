(** The order of the definitions in texts with subqueries; as DefineOrderFacts. *)
From Verif Require Import Base BaseFacts StringsModel TypeModel LexModel ExprModel RelModel SectionModel WholeModel SubModel SoundFacts ExtFacts RenumberFacts KindOrderFacts RelOrderFacts DefineOrderFacts SubOrderFacts.
From Verif Require FieldModel DeclModel SymbolModel TreeModel PipeModel.
From Coq Require Import Lia Permutation.

Section Ext.
  Variables (ff ff' : str -> option N) (Hf : forall n, ff n = ff' n) (fr fr' : str -> option bool) (Hr : forall n, fr n = fr' n) (kn kn' : str -> bool) (Hk : forall n, kn n = kn' n)
    (ss ss' : FieldModel.schemas) (Hs : forall c, FieldModel.fullyQualifiedReference ss c = FieldModel.fullyQualifiedReference ss' c) (ag : bool) (fields : list FieldModel.column) (outs : list FieldModel.scope) (inner : bool).
  Lemma look_same em n os : forall q, look ss em q os n = look ss' em q os n.
  Proof. induction os as [|p os IH]; intros q; cbn [look]; rewrite (find_in_same ss ss' Hs); [reflexivity|]. destruct (FieldModel.find_in ss' em q n); [reflexivity|]. rewrite IH. reflexivity. Qed.
  Lemma strack_same ds : forall i g b, SubModel.track ff fr kn ss ag fields outs inner i g b ds = SubModel.track ff' fr' kn' ss' ag fields outs inner i g b ds.
  Proof.
    induction ds as [|d ds IH]; intros i g b; [reflexivity|]. cbn [SubModel.track].
    rewrite (visitDetail_same ff ff' Hf fr _ (fun _ j => SubModel.find_field ss' ag fields outs inner (g ++ own_columns j d))) with (ks' := kn'); [|intros x j n; unfold SubModel.find_field; rewrite look_same; reflexivity|exact Hk].
    rewrite (visitDetail_ext ff' fr fr' Hr _ _ (fun _ _ _ => eq_refl) (length fields) kn' kn' kn' kn' (fun _ => eq_refl) (fun _ => eq_refl)). apply bindR_ext. intros b1. apply IH.
  Qed.
  Lemma scolumns_same given schema b0 ds : SubModel.visitColumns ff fr kn ss ag fields outs inner given schema b0 ds = SubModel.visitColumns ff' fr' kn' ss' ag fields outs inner given schema b0 ds.
  Proof.
    unfold SubModel.visitColumns. rewrite strack_same. apply bindR_ext. intros [b g]. cbv zeta. destruct inner; [reflexivity|]. rewrite (visitEmits_ext _ (SubModel.find_emit ss' ag fields outs (match b with BProject es => add_expressions fields given es g | _ => g end))); [reflexivity|].
    intros n. unfold SubModel.find_emit. rewrite look_same. destruct outs; [|reflexivity]. unfold WholeModel.find_emit. rewrite (find_in_same ss ss' Hs). reflexivity.
  Qed.
End Ext.

Section Others.
  Variables (o o' : list str) (Ho : forall n, In n o <-> In n o') (Hl : length o = length o') (rp rp' : TreeModel.read_plan) (A : alike_plans o o' rp rp').
  Lemma alike_parent n : parent_of rp n = parent_of rp' n. Proof. unfold parent_of. rewrite (al_rels _ _ _ _ A). reflexivity. Qed.
  Lemma alike_enclosing fuel : forall n, enclosing rp fuel n = enclosing rp' fuel n.
  Proof. induction fuel as [|fuel IH]; intros n; cbn [enclosing]; rewrite alike_parent, (alike_data o o' Ho rp rp' A); [reflexivity|]. destruct (parent_of rp' n); [reflexivity|]. destruct (PipeModel.start _); [apply IH|reflexivity]. Qed.
  Lemma alike_outward bound fuel : forall n, outward rp bound fuel n = outward rp' bound fuel n.
  Proof. induction fuel as [|fuel IH]; intros n; cbn [outward]; rewrite alike_enclosing; [reflexivity|]. destruct (enclosing rp' bound n); [rewrite IH|..]; reflexivity. Qed.
  Lemma alike_around n : around rp n = around rp' n.
  Proof.
    unfold around. assert (E : length (TreeModel.r_tab rp) = length (TreeModel.r_tab rp')) by (destruct (al_tab _ _ _ _ A) as (r & -> & ->); unfold others_and; rewrite !app_length, !map_length, Hl; reflexivity). rewrite E. apply alike_outward.
  Qed.
  Lemma alike_recorded n : recorded_subs rp n = recorded_subs rp' n. Proof. unfold recorded_subs. rewrite (alike_section o o' rp rp' A). reflexivity. Qed.
  Lemma alike_alone n : SubModel.alone rp n = SubModel.alone rp' n. Proof. unfold SubModel.alone. rewrite (alike_section o o' rp rp' A). reflexivity. Qed.
  Variable seen : str -> nat.
  Lemma alike_sbuild fuel : forall n, sbuild rp seen fuel n = sbuild rp' seen fuel n.
  Proof.
    induction fuel as [|fuel IH]; intros n; [reflexivity|]. cbn [sbuild]. rewrite <- (alike_section o o' rp rp' A), <- (alike_data o o' Ho rp rp' A), <- alike_alone. destruct (TreeModel.find_section rp n) as [s|]; [|reflexivity]. cbv zeta.
    assert (Eo : forall l, TreeModel.omap_list (fun q => r <- sbuild rp seen fuel q ;; Ok (q, r)) l = TreeModel.omap_list (fun q => r <- sbuild rp' seen fuel q ;; Ok (q, r)) l) by (intros l; apply omap_ext; intros q; rewrite IH; reflexivity).
    rewrite Eo, (omap_ext _ _ _ IH). destruct (TreeModel.x_kind s); try reflexivity.
    all: try (destruct (TreeModel.getNextSinglePipeline (TreeModel.rel_data rp n)); [|reflexivity]; rewrite IH; reflexivity).
    all: destruct (PipeModel.news (TreeModel.rel_data rp n)) as [|x [|y [|z l]]]; try reflexivity; rewrite !IH; reflexivity.
  Qed.
  Lemma alike_soutput fuel : soutput rp seen fuel = soutput rp' seen fuel.
  Proof.
    unfold soutput. rewrite (alike_starts o o' rp rp' A). apply omap_ext. intros [n d]. cbn [fst snd]. destruct (PipeModel.news d); [rewrite alike_alone; reflexivity|]. rewrite alike_sbuild, (al_roots _ _ _ _ A). reflexivity.
  Qed.
End Others.
Section Visit.
  Variables (ff ff' : str -> option N) (Hf : forall n, ff n = ff' n) (t1 t2 : table) (Hk : forall n, known_symbol t1 n = known_symbol t2 n)
    (Hs : forall c, FieldModel.fullyQualifiedReference (schema_list t1) c = FieldModel.fullyQualifiedReference (schema_list t2) c) (o o' : list str) (Ho : forall n, In n o <-> In n o') (Hl : length o = length o')
    (rp rp' : TreeModel.read_plan) (A : alike_plans o o' rp rp') (earlier : list known_rel) (first : bool).
  Lemma svisit_same l : (forall n x, In n l -> In x (asked n) -> schema_columns t1 x = schema_columns t2 x) ->
    forall t known, SubModel.visit_nodes ff t1 rp earlier first t known l = SubModel.visit_nodes ff' t2 rp' earlier first t known l.
  Proof.
    induction l as [|n l IH]; intros H t known; [reflexivity|]. cbn [SubModel.visit_nodes].
    assert (E : SubModel.visit_node ff t1 rp earlier first t known n = SubModel.visit_node ff' t2 rp' earlier first t known n).
    { unfold SubModel.visit_node. replace (taken rp' known (n_name n)) with (taken rp known (n_name n)) by (unfold taken; rewrite (alike_relation o o' Ho rp rp' A); reflexivity). destruct (taken rp known (n_name n)); [reflexivity|].
      destruct (empty_body (n_kind n)) as [b0|]; [|reflexivity]. destruct (match b0 with BProject _ => _ | _ => _ end) as [t' given].
      assert (E : flat_map (schema_columns t1) (used_schemas (n_details n)) = flat_map (schema_columns t2) (used_schemas (n_details n))).
      { specialize (H n). unfold asked, used_schemas in *. assert (H' := fun x => H x (or_introl eq_refl)). clear H. induction (n_details n) as [|d ds IHd]; [reflexivity|]. cbn [flat_map] in *. rewrite !flat_map_app, IHd by (intros x I; apply H', in_or_app; right; exact I).
        f_equal. destruct d; try reflexivity. cbn [flat_map]. rewrite H'; [reflexivity|left; reflexivity]. }
      rewrite E, (scolumns_same ff ff' Hf (find_relation rp) (find_relation rp') (alike_relation o o' Ho rp rp' A) _ _ Hk _ _ Hs).
      unfold scopes_around, is_inner, gives_up, fields_of, inputs_of. rewrite (alike_data o o' Ho rp rp' A), (alike_parent o o' rp rp' A), (alike_around o o' Ho Hl rp rp' A). reflexivity. }
    rewrite E. destruct (SubModel.visit_node ff' t2 rp' earlier first t known n) as [[[t' k'] e']| |]; cbn [obind]; try reflexivity. rewrite IH; [reflexivity|]. intros m x I. apply H. right. exact I.
  Qed.
End Visit.

Section Asked.
  Variables (ff : str -> option N) (fr : str -> option bool) (kn : str -> bool).
  Lemma strack_asks ss ag fields outs inner ds : forall i g b b' g' e, SubModel.track ff fr kn ss ag fields outs inner i g b ds = Ok ((b', g'), e) -> forall x, In x (body_asks b') -> In x (body_asks b) \/ In x (flat_map (fun d => match d with OnSchema x | OnSource x => [x] | _ => [] end) ds).
  Proof.
    induction ds as [|d ds IH]; intros i g b b' g' e H x I; cbn [SubModel.track] in H; [injection H as <- <- _; left; exact I|]. apply bindR_ok in H as (b1 & e1 & e2 & H1 & H2). cbn [flat_map].
    destruct (IH _ _ _ _ _ _ H2 x I) as [J|J]; [|right; apply in_or_app; right; exact J]. destruct (detail_asks _ _ _ _ _ _ _ _ _ _ H1 x J) as [K|K]; [left; exact K|right; apply in_or_app; left; exact K].
  Qed.
  Lemma scolumns_ask ss ag fields outs inner given schema b0 ds r d e : body_asks b0 = [] -> SubModel.visitColumns ff fr kn ss ag fields outs inner given schema b0 ds = Ok ((r, d), e) -> forall x, In x (body_asks (r_body r)) -> In x (flat_map (fun d => match d with OnSchema x | OnSource x => [x] | _ => [] end) ds).
  Proof.
    intros B H x I. unfold SubModel.visitColumns in H. apply bindR_ok in H as ([b g] & e1 & e2 & H1 & H). cbv zeta in H. assert (J : In x (body_asks b)).
    { destruct inner; [injection H as <- _ _; exact I|]. apply bindR_ok in H as (emit & e3 & e4 & _ & H).
      destruct (FieldModel.applyOutputMapping _ _ _ _ _) as [out missing]. injection H as <- _ _. cbn [r_body] in I. unfold finish in I; destruct b; try exact I; match type of I with context [match ?q with _ => _ end] => destruct q end; exact I. }
    destruct (strack_asks _ _ _ _ _ _ _ _ _ _ _ _ H1 x J) as [K|K]; [rewrite B in K; destruct K|exact K].
  Qed.
End Asked.
Lemma snodes_ask ff tab rp earlier first (U : str -> Prop) l : (forall n x, In n l -> In x (asked n) -> U x) ->
  forall t known known' e, SubModel.visit_nodes ff tab rp earlier first t known l = Ok (known', e) -> (forall n r d x, In (n, (r, d)) known -> In x (body_asks (r_body r)) -> U x) -> forall n r d x, In (n, (r, d)) known' -> In x (body_asks (r_body r)) -> U x.
Proof.
  induction l as [|m l IH]; intros Hu t known known' e H K; cbn [SubModel.visit_nodes] in H; [injection H as <- _; exact K|].
  destruct (SubModel.visit_node ff tab rp earlier first t known m) as [[[t1 k1] e1]| |] eqn:V; cbn [obind] in H; try discriminate H. destruct (SubModel.visit_nodes ff tab rp earlier first t1 k1 l) as [[k2 e2]| |] eqn:V2; cbn [obind fst snd] in H; try discriminate H. injection H as <- _.
  refine (IH (fun n x I => Hu n x (or_intror I)) _ _ _ _ V2 _). unfold SubModel.visit_node in V. destruct (taken rp known (n_name m)); [injection V as _ <- _; exact K|]. destruct (empty_body (n_kind m)) as [b0|] eqn:B; [|injection V as _ <- _; exact K].
  destruct (match b0 with BProject _ => _ | _ => _ end) as [t' given]. destruct (SubModel.visitColumns _ _ _ _ _ _ _ _ _ _) as [[[r d] ee]| |] eqn:C; cbn [obind fst snd] in V; try discriminate V.
  destruct (existsb lost ee && negb (gives_up rp first (n_name m))); [discriminate V|]. injection V as _ <- _.
  intros n r' d' x I J. apply in_app_or in I as [I|[I|[]]]; [exact (K n r' d' x I J)|]. injection I as <- <- <-. apply (Hu m x (or_introl eq_refl)). exact (scolumns_ask _ _ _ _ _ _ _ _ _ _ _ _ _ _ _ (empty_asks _ _ B) C x J).
Qed.
Section Fill.
  Variables (t1 t2 : table) (known : list known_rel) (U : str -> Prop) (Hu : forall n r d x, In (n, (r, d)) known -> In x (body_asks (r_body r)) -> U x)
    (Hc : forall x, U x -> use_schema t1 x = use_schema t2 x) (Hs : forall x, U x -> use_source t1 x = use_source t2 x) (rec rec' : str -> list str) (Hr : forall n, rec n = rec' n).
  Lemma sfill_tables t : sfill t1 known rec t = sfill t2 known rec' t.
  Proof.
    revert t. fix IH 1. intros [n ins sub]. cbn [sfill].
    match goal with |- (x <- ?a ins ;; _) = (y <- ?b ins ;; _) => assert (E : a ins = b ins) by (induction ins as [|i ins IHl]; [reflexivity|]; cbn; rewrite IH, IHl; reflexivity); rewrite E end. clear E.
    match goal with |- (x <- ?a ;; _) = _ => destruct a; cbn [obind]; try reflexivity end.
    match goal with |- (x <- ?a sub ;; _) = (y <- ?b sub ;; _) => assert (E : a sub = b sub) by (induction sub as [|[k i] sub IHl]; [reflexivity|]; cbn; rewrite IH, IHl; reflexivity); rewrite E end. clear E.
    match goal with |- (x <- ?a ;; _) = _ => destruct a; cbn [obind]; try reflexivity end. destruct (find_rel n known) as [[r d]|] eqn:F; [|reflexivity]. apply find_rel_in in F.
    rewrite (source_tables t1 t2 U Hs), (schema_tables t1 t2 U Hc), Hr; [reflexivity|intros x I; apply (Hu n r d x F), in_or_app; right; exact I|intros x I; apply (Hu n r d x F), in_or_app; left; exact I].
  Qed.
  Lemma sfill_all_tables l : sfill_all t1 known rec l = sfill_all t2 known rec' l.
  Proof. induction l as [|[t ns] l IH]; [reflexivity|]. cbn [sfill_all]. rewrite sfill_tables, IH. reflexivity. Qed.
End Fill.

(** All passes with a table *)
Definition from_table (tab : table) (fs : list DeclModel.entry) (pipes : list (list (str * str))) (rels : list rnode) (roots : list (list str)) (e1 : list pass_error) : outcome (option qplan * list werr) :=
    q <- TreeModel.readText {| TreeModel.x_pipes := map (map fst) pipes;
     TreeModel.x_rels := map (fun n => {| TreeModel.x_name := n_name n; TreeModel.x_kind := kind_read (n_kind n); TreeModel.x_body := n_name n; TreeModel.x_exprs := node_subs n |}) rels;
     TreeModel.x_roots := roots; TreeModel.x_others := nodup (list_eq_dec Ascii.ascii_dec) (map s_name tab) |} ;;
    let '(rp, e2) := q in
    v <- SubModel.visit_nodes (DeclModel.resolve_function fs) tab rp [] true SymbolModel.empty_table [] rels ;;
    let '(before, e3) := v in
    match map WPass e1 ++ map WTree e2 ++ filter reported_first e3 with
    | [] =>
      v <- SubModel.visit_nodes (DeclModel.resolve_function fs) tab rp before false SymbolModel.empty_table [] rels ;;
      let '(known, e4) := v in
      l <- soutput rp (seen_subs rels) (Datatypes.S (length rels)) ;;
      r <- sfill_all tab known (recorded_subs rp) l ;;
      Ok (Some (QPlan (DeclModel.outputExtensionSpaces fs) (DeclModel.outputFunctions fs) r), e4)
    | e => Ok (None, e)
    end.
Lemma sparts_table defs pipes rels roots : SubOrderFacts.from_parts defs pipes rels roots = (p <- symbols defs ;; from_table (fst p) (entries 0 0 defs) pipes rels roots (snd p)).
Proof. unfold SubOrderFacts.from_parts, from_table. destruct (symbols defs) as [[tab e1]| |]; reflexivity. Qed.
Lemma stable_ren g (Hg : forall a b, g a = g b -> a = b) tab fs pipes rels roots e1 : from_table (map (ren_sym g) tab) fs pipes rels roots e1 = from_table tab fs pipes rels roots e1.
Proof.
  unfold from_table. rewrite names_kept. destruct (TreeModel.readText _) as [[rp e2]| |]; cbn [obind]; try reflexivity.
  pose proof (SubOrderFacts.visit_nodes_ren g Hg (DeclModel.resolve_function fs) tab rp [] true rels SymbolModel.empty_table []) as V. match type of V with _ = ?r => match goal with |- obind ?a _ = _ => change (a = r) in V; rewrite V; clear V end end.
  destruct (SubModel.visit_nodes _ tab rp [] _ _ _) as [[before e3]| |]; cbn [obind fst snd]; try reflexivity. destruct (map WPass e1 ++ map WTree e2 ++ filter reported_first e3); [|reflexivity].
  pose proof (SubOrderFacts.visit_nodes_ren g Hg (DeclModel.resolve_function fs) tab rp before false rels SymbolModel.empty_table []) as V. match type of V with _ = ?r => match goal with |- obind ?a _ = _ => change (a = r) in V; rewrite V; clear V end end.
  destruct (SubModel.visit_nodes _ tab rp before _ _ _) as [[known e4]| |]; cbn [obind fst snd]; try reflexivity. destruct (soutput _ _ _) as [o| |]; cbn [obind]; try reflexivity. rewrite (sfill_all_ren g Hg). reflexivity.
Qed.
Lemma ssame_tables t1 t2 f1 f2 rels pipes roots e1 : same_answers t1 t2 f1 f2 rels -> from_table t1 f1 pipes rels roots e1 = from_table t2 f2 pipes rels roots e1.
Proof.
  intros (Hn & Hf & Hx & Hd & Hs & Ha).
  unfold from_table. set (o := nodup (list_eq_dec Ascii.ascii_dec) (map s_name t1)). set (o' := nodup (list_eq_dec Ascii.ascii_dec) (map s_name t2)). assert (Ho : forall n, In n o <-> In n o') by (intros n; unfold o, o'; rewrite !nodup_In; apply Hn).
  assert (Hl : length o = length o') by (apply Permutation_length, NoDup_Permutation; [apply NoDup_nodup|apply NoDup_nodup|exact Ho]). clearbody o o'.
  set (rs := map _ rels). set (ps := map (map fst) pipes). pose proof (alike_read o o' Ho ps rs roots) as A. destruct (TreeModel.readText _) as [[rp e2]| |], (TreeModel.readText _) as [[rp' e2']| |]; try contradiction; cbn [obind]; [|subst; reflexivity|reflexivity].
  destruct A as [A <-]. assert (Hk : forall n, known_symbol t1 n = known_symbol t2 n) by (intros n; apply Bool.eq_iff_eq_true; rewrite !known_in; apply Hn).
  assert (V : forall earlier first t known, SubModel.visit_nodes (DeclModel.resolve_function f1) t1 rp earlier first t known rels = SubModel.visit_nodes (DeclModel.resolve_function f2) t2 rp' earlier first t known rels).
  { intros earlier first. apply (svisit_same _ _ Hf t1 t2 Hk Hs o o' Ho Hl rp rp' A earlier first). intros n x I J. apply (Ha n x I J). }
  rewrite V. destruct (SubModel.visit_nodes _ t2 rp' [] _ _ _) as [[before e3]| |]; cbn [obind]; try reflexivity. destruct (map WPass e1 ++ map WTree e2 ++ filter reported_first e3); [|reflexivity].
  rewrite V. destruct (SubModel.visit_nodes _ t2 rp' before _ _ _) as [[known e4]| |] eqn:V2; cbn [obind]; try reflexivity. rewrite (alike_soutput o o' Ho rp rp' A). destruct (soutput _ _ _) as [l| |]; cbn [obind]; try reflexivity.
  rewrite (sfill_all_tables t1 t2 known (fun x => exists n, In n rels /\ In x (asked n))) with (rec' := recorded_subs rp'); [rewrite Hx, Hd; reflexivity| | | |apply (alike_recorded o o' rp rp' A)].
  - refine (snodes_ask _ _ _ _ _ (fun x => exists n, In n rels /\ In x (asked n)) rels _ _ _ _ _ V2 _); [intros n x I J; eauto|intros n r d x []].
  - intros x (n & I & J). apply (Ha n x I J).
  - intros x (n & I & J). apply (Ha n x I J).
Qed.
Lemma sdefinitions_nodes a c b e : definitions_moved a c -> distinct_names a -> SubOrderFacts.from_nodes a = Ok (Some b, e) -> SubOrderFacts.from_nodes c = Ok (Some b, e).
Proof.
  intros M D H. pose proof M as (_ & _ & Ep & Er & Eo). rewrite SubOrderFacts.from_nodes_parts in H. rewrite SubOrderFacts.from_nodes_parts, <- Ep, <- Er, <- Eo.
  rewrite sparts_table in H |- *. destruct (symbols (definitions a)) as [[tab e1]| |] eqn:Sy; cbn [obind fst snd] in H; try discriminate H.
  assert (E1 : e1 = []). { unfold from_table in H. destruct (TreeModel.readText _) as [[rp e2]| |]; cbn [obind] in H; try discriminate H. destruct (SubModel.visit_nodes _ _ _ _ _ _ _) as [[first e3]| |]; cbn [obind] in H; try discriminate H. destruct e1; [reflexivity|]. cbn [map app] in H. discriminate H. }
  subst e1. destruct (moved_tables a c tab M D Sy) as (tab' & g & -> & Hg & Q). cbn [obind fst snd]. rewrite <- (stable_ren g Hg), <- H. symmetry. apply ssame_tables, Q.
Qed.
Theorem subqueries_definitions s s' a c b e : parse s = Some a -> parse s' = Some c -> definitions_moved a c -> distinct_names a -> SubModel.from_text s = Ok (Some b, e) -> SubModel.from_text s' = Ok (Some b, e).
Proof. intros Ha Hc M D H. rewrite SubOrderFacts.from_text_nodes, Ha in H. rewrite SubOrderFacts.from_text_nodes, Hc. exact (sdefinitions_nodes a c b e M D H). Qed.
