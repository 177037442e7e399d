(** Theorems about whole text plans: schemas, sources, pipelines, roots, extension spaces, and all of them together. *)
From Verif Require Import Base BaseFacts StringsModel StringsFacts EscapeModel EnumModel EnumFacts TypeModel TypeProtoFacts LexModel LexFacts NameModel NameFacts CutFacts FloatModel
  CalendarModel ExprModel TypeTokenFacts LiteralFacts ExprFacts RelModel RelFacts SectionModel SectionFacts SectionLossFacts PropExpr PropRel.
From Verif Require DeclModel DeclFacts PropDecl SymbolMoreFacts.
From Coq Require Import Lia ZifyBool ZifyNat ZifyN.

(** * C81: whole plans *)
(** Every plan of readable parts ([PlanReads]: any number of pipelines, relations, roots, schemas, sources and extension spaces) is printed without errors as a
    text that is parsed without errors and means the same ([Says]): the pipelines, the relations in the same order and under the same names, the roots that
    have names, the extension spaces with their functions; every schema and source that no earlier name hides, and files if they are not listed twice. *)
Theorem C81_round_trip_partial p rs : PlanReads p rs -> exists t nodes tab, outputToText p = Ok (t, 0) /\ Says t p rs nodes tab.
Proof. exact (plan_reads p rs). Qed.
(** Plans that are printed alike agree: nothing of these parts is lost in the text. *)
Theorem C81_injective p q rs qs : PlanReads p rs -> PlanReads q qs -> outputToText p = outputToText q ->
  pl_pipelines p = pl_pipelines q /\ map (fun x => snd (fst x)) (pl_relations p) = map (fun x => snd (fst x)) (pl_relations q) /\
  filter has_names (pl_roots p) = filter has_names (pl_roots q) /\ pl_spaces p = pl_spaces q /\ (map fst rs = map fst qs -> map snd rs = map snd qs).
Proof.
  intros Hp Hq E. destruct (plan_reads p rs Hp) as (t & nodes & tab & P & S1). destruct (plan_reads q qs Hq) as (u & nodes' & tab' & P' & S2). rewrite E, P' in P. injection P as ->.
  assert (nodes' = nodes) as -> by (pose proof (sy_parse _ _ _ _ _ S1) as A; pose proof (sy_parse _ _ _ _ _ S2) as B; rewrite A in B; congruence).
  assert (tab' = tab) as -> by (pose proof (sy_symbols _ _ _ _ _ S1) as A; pose proof (sy_symbols _ _ _ _ _ S2) as B; rewrite A in B; congruence).
  split; [|split; [|split; [|split]]].
  - pose proof (sy_pipelines _ _ _ _ _ S1) as A. pose proof (sy_pipelines _ _ _ _ _ S2) as B. rewrite A in B. apply (f_equal (map (map fst))) in B. rewrite !map_map in B. assert (X : forall l : list str, map fst (map twice l) = l) by (intros l; rewrite map_map; apply List.map_id).
    rewrite (map_ext _ (fun l => l) X), (map_ext _ (fun l => l) X), !List.map_id in B. exact B.
  - rewrite <- (sy_names _ _ _ _ _ S1). apply (sy_names _ _ _ _ _ S2).
  - rewrite <- (sy_roots _ _ _ _ _ S1). apply (sy_roots _ _ _ _ _ S2).
  - rewrite <- (sy_spaces _ _ _ _ _ S1). apply (sy_spaces _ _ _ _ _ S2).
  - pose proof (sy_relations _ _ _ _ _ S1) as A. pose proof (sy_relations _ _ _ _ _ S2) as B. clear - A B. revert qs B. induction A as [|n y ns rs Hy _ IH]; intros qs B F; inversion B as [|? z ? zs Hz Hzs]; subst; [reflexivity|].
    cbn [map] in *. assert (F1 : fst y = fst z) by congruence. rewrite F1 in Hy. rewrite Hy in Hz. f_equal; [congruence|]. apply IH; [exact Hzs|congruence].
Qed.
(** Together with the declarations of functions: if the spaces of a plan are those of a binary plan then every function reference is printed under a name
    that, in the text as it is parsed, resolves to a declaration with the same URI and the same function. *)
Theorem C81_functions uris ds p rs : DeclFacts.declared uris ds -> SymbolMoreFacts.Independent (map (fun d => DeclModel.shortName (DeclModel.d_name d)) ds) ->
  let b := DeclModel.import_decls uris ds in
  DeclModel.outputFunctionsSection b = Ok (pl_spaces p) -> PlanReads p rs ->
  (forall f, In f (DeclModel.functions b) -> Name (DeclModel.f_short f) /\ ~ In (DeclModel.f_short f) (schema_names (pl_schemas p) ++ source_names (pl_sources p)) /\ ~ In (DeclModel.f_short f) (map fst uris)) ->
  exists t nodes tab before, outputToText p = Ok (t, 0) /\ parse t = Some nodes /\ symbols nodes = Ok (tab, []) /\
    let r := DeclModel.read_text before (spaces_of nodes) in map s_name tab = map DeclModel.entry_name r /\
    forall a uri name, DeclFacts.denotes uris ds a uri name -> exists short a', DeclModel.lookupFunctionReference b a = Some short /\ DeclModel.resolve_function r short = Some a' /\
      DeclFacts.denotes_only (DeclModel.outputExtensionSpaces r) (DeclModel.outputFunctions r) a' uri name.
Proof.
  intros Hd Hi b Hb Hp Hf. destruct (plan_reads p rs Hp) as (t & nodes & tab & P & S1). destruct (sy_order _ _ _ _ _ S1) as (before & E & N1). exists t, nodes, tab, before. split; [exact P|]. split; [exact (sy_parse _ _ _ _ _ S1)|]. split; [exact (sy_symbols _ _ _ _ _ S1)|].
  rewrite (sy_spaces _ _ _ _ _ S1). split; [exact E|]. apply (PropDecl.C62_round_trip_partial uris ds before (pl_spaces p) Hd Hi); [|exact Hb]. intros f Hin. destruct (Hf f Hin) as (A & B & C). split; [|exact C]. intros Q. apply B, N1; assumption.
Qed.
Print Assumptions C81_round_trip_partial. Print Assumptions C81_injective. Print Assumptions C81_functions.

(** A plan with every section *)
Definition exs_schema : named_struct := NamedStruct [$"price"; $"due"] [PtScalar SI64 NRequired; PtScalar SDate NNullable] NNullable.
Definition exs_file : file := File (UriFile $"/data/orders.parquet") 3 0 1024 Parquet.
Definition exs_naming : naming := Naming exr_fn exr_field exr_emit exr_measure exr_none exr_none.
Definition exs_reading : reading := Reading exr_find exr_rel exr_find_field exr_find_emit 2.
Definition exs_read : relation := Relation (BRead [$"db"; $"disk"] [$"s1"] None None false) [].
Definition exs_plan : plan :=
  {| pl_pipelines := [[$"input"; $"sums"; $"root"]]; pl_relations := [(exs_naming, $"input", exs_read); (exs_naming, $"sums", exr_aggregate)]; pl_roots := [[$"due"; $"total"]; []];
     pl_schemas := [($"s1", exs_schema)]; pl_sources := [($"db", NamedTable [$"shop"; $"orders 2024"]); ($"disk", LocalFiles [exs_file])];
     pl_spaces := [(Some $"/arithmetic.yaml", [($"add", $"add:i64_i64"); ($"lt", $"lt:any_any")]); (None, [($"sum", $"sum:i64")])] |}.
Definition exs_schema' : named_struct := NamedStruct [$"price"; $"due"] [PtScalar SI64 NRequired; PtScalar SDate NNullable] NRequired.
Lemma exs_schema_reads : SchemaReads exs_schema exs_schema'.
Proof. apply SchemaR; [reflexivity|constructor; [name|constructor; [name|constructor]]|]. constructor; [apply (PR_scalar SI64 NRequired); cbn; tauto|]. constructor; [apply (PR_scalar SDate NNullable); cbn; tauto|constructor]. Qed.
Lemma exs_file_reads : FileReads exs_file exs_file.
Proof. apply (FileR (UriFile $"/data/orders.parquet") $"/data/orders.parquet" 3 0 1024 Parquet); try reflexivity. left. reflexivity. Qed.
Lemma exs_reads : PlanReads exs_plan [(exs_reading, exs_read); (exs_reading, exr_aggregate)].
Proof.
  split.
  - constructor; [|constructor]. split; [discriminate|]. constructor; [name|constructor; [name|constructor; [name|constructor]]].
  - constructor; [|constructor; [|constructor]]; (split; [name|]).
    + apply RR_read; [discriminate| | |constructor].
      * constructor; [split; [name|reflexivity]|constructor; [split; [name|reflexivity]|constructor]].
      * constructor; [split; [name|reflexivity]|constructor].
    + eapply rel_reads_more; [| |exact (proj1 C74_case)]; intros n Hn; apply seq_eqb_eq in Hn; subst n; reflexivity.
  - constructor; [|constructor; [constructor|constructor]]. constructor; [name|constructor; [name|constructor]].
  - constructor; [|constructor]. split; [name|]. exists exs_schema'. exact exs_schema_reads.
  - constructor; [|constructor; [|constructor]]; (split; [name|]).
    + eexists. apply SourceR_named; [discriminate|]. constructor; [reflexivity|constructor; [reflexivity|constructor]].
    + eexists. apply SourceR_file. exact exs_file_reads.
  - constructor; [|constructor; [|constructor]]; split; cbn [fst snd]; try exact I.
    + apply declared_uri. vm_compute. reflexivity.
    + constructor; [split; [name|exists $"add", $"i64_i64"; split; [name|split; [name|reflexivity]]]|]. constructor; [|constructor]. split; [name|exists $"lt", $"any_any"; split; [name|split; [name|reflexivity]]].
    + constructor; [|constructor]. split; [name|exists $"sum", $"i64"; split; [name|split; [name|reflexivity]]].
Qed.
Example C81_case : PlanReads exs_plan [(exs_reading, exs_read); (exs_reading, exr_aggregate)] /\ outputToText exs_plan = Ok ($"pipelines {
  input -> sums -> root;
}

read relation input {
  source db;
  source disk;
  base_schema s1;
}

aggregate relation sums {
  grouping due;
  measure {
    measure sum(orders.price)->i64?@AGGREGATION_PHASE_INITIAL_TO_RESULT NAMED total;
    filter lt(orders.price, due)->bool?;
    invocation all;
  }

  emit due;
  emit orders.total;
}

root {
  names = [
    due,
    total
  ]
}

schema s1 {
  price i64;
  due date?;
}

source named_table db {
  names = [
    ""shop"",
    ""orders 2024"",
  ]
}

source local_files disk {
  items = [
    {uri_file: ""/data/orders.parquet"" partition_index: 3 start: 0 length: 1024 parquet: {}}
  ]
}

extension_space /arithmetic.yaml {
  function add:i64_i64 as add;
  function lt:any_any as lt;
}

extension_space {
  function sum:i64 as sum;
}
", 0).
Proof. split; [exact exs_reads|vm_compute; reflexivity]. Qed.

(** * C78: schemas *)
(** Schemas of readable names and types, in any number: the text of each is parsed, and everyone who refers to it by its name gets its columns in order,
    with the types they are printed as. *)
Definition only_schemas (l : list (str * named_struct)) : plan := {| pl_pipelines := []; pl_relations := []; pl_roots := []; pl_schemas := l; pl_sources := []; pl_spaces := [] |}.
Lemma only_schemas_text l : outputToText (only_schemas l) = Ok (printSchemas l, 0).
Proof.
  unfold outputToText, only_schemas. cbn [pl_pipelines pl_relations pl_roots pl_schemas pl_sources pl_spaces]. set (t := printSchemas l). change (printRelations []) with (@Ok printed ([], 0)). change (printSources []) with (@Ok str []). cbn [obind fst snd].
  do 2 f_equal. change (printRoots []) with (@nil ascii). cbn [printPipelines DeclModel.section_text filter nonempty]. destruct t; reflexivity.
Qed.
Theorem C78_round_trip_partial l : Forall (fun x => Name (fst x) /\ exists s', SchemaReads (snd x) s') l ->
  exists nodes tab, parse (printSchemas l) = Some nodes /\ symbols nodes = Ok (tab, []) /\
    forall a n s b s', l = a ++ (n, s) :: b -> ~ In n (schema_names a) -> SchemaReads s s' -> use_schema tab n = Some s'.
Proof.
  intros H. destruct (plan_reads (only_schemas l) []) as (t & nodes & tab & P & S1); [split; try constructor; exact H|]. exists nodes, tab.
  rewrite only_schemas_text in P. injection P as <-.
  split; [exact (sy_parse _ _ _ _ _ S1)|]. split; [exact (sy_symbols _ _ _ _ _ S1)|]. intros a n s b s' E Hn Hs. eapply (sy_schemas _ _ _ _ _ S1); [exact E|left; reflexivity|exact Hn|exact Hs].
Qed.
(** Finding: a schema whose name an earlier schema or one of its columns has is replaced by that schema, without a report. *)
Theorem C78_hidden_refuted a m s b n t c s' : let l := a ++ (m, s) :: b ++ (n, t) :: c in Forall (fun x => Name (fst x) /\ exists s', SchemaReads (snd x) s') l ->
  ~ In n (schema_names a) -> n = m \/ In n (ns_names s) -> SchemaReads s s' ->
  exists nodes tab, parse (printSchemas l) = Some nodes /\ symbols nodes = Ok (tab, []) /\ use_schema tab n = Some s'.
Proof.
  intros l H Hn Hin Hs. destruct (plan_reads (only_schemas l) []) as (u & nodes & tab & P & S1); [split; try constructor; exact H|]. exists nodes, tab.
  rewrite only_schemas_text in P. injection P as <-.
  split; [exact (sy_parse _ _ _ _ _ S1)|]. split; [exact (sy_symbols _ _ _ _ _ S1)|]. eapply (sy_schemas _ _ _ _ _ S1); [reflexivity|destruct Hin as [-> | Hin]; [left; reflexivity|right; exact Hin]|exact Hn|exact Hs].
Qed.
(** Findings: names without a type and types without a name, and whether the struct is nullable, are left out without a report. *)
Theorem C78_truncated_refuted n names types u : printSchema n (NamedStruct names types u) =
  printSchema n (NamedStruct (firstn (length types) names) (firstn (length names) types) u).
Proof.
  unfold printSchema. cbn [ns_names ns_types]. do 5 f_equal. f_equal. f_equal. revert types. induction names as [|a names IH]; intros [|b types]; try reflexivity. cbn [combine length firstn]. f_equal. apply IH.
Qed.
Theorem C78_nullability_refuted n names types u v : printSchema n (NamedStruct names types u) = printSchema n (NamedStruct names types v).
Proof. reflexivity. Qed.
(** Finding: a type that the printer reports an error for is printed all the same, and the report is lost. *)
Theorem C78_error_refuted l : exists t, outputToText (only_schemas l) = Ok (t, 0).
Proof. exists (printSchemas l). apply only_schemas_text. Qed.
Print Assumptions C78_round_trip_partial. Print Assumptions C78_hidden_refuted. Print Assumptions C78_truncated_refuted. Print Assumptions C78_nullability_refuted. Print Assumptions C78_error_refuted.
Example C78_case : SchemaReads exs_schema exs_schema' /\ printSchema $"s1" exs_schema = $"schema s1 {" ++ nl ++ $"  price i64;" ++ nl ++ $"  due date?;" ++ nl ++ $"}" ++ nl.
Proof. split; [exact exs_schema_reads|vm_compute; reflexivity]. Qed.
(** the column due of s1 hides the schema due *)
Example C78_hidden_case : exists nodes tab, parse (printSchemas [($"s1", exs_schema); ($"due", NamedStruct [$"x"] [PtScalar SString NNullable] NRequired)]) = Some nodes /\ symbols nodes = Ok (tab, []) /\ use_schema tab $"due" = Some exs_schema'.
Proof.
  apply (C78_hidden_refuted [] $"s1" exs_schema [] $"due" _ []); [|intros []|right; cbn; tauto|exact exs_schema_reads]. constructor; [split; [name|exists exs_schema'; exact exs_schema_reads]|]. constructor; [|constructor]. split; [name|].
  eexists. apply SchemaR; [reflexivity|constructor; [name|constructor]|]. constructor; [apply (PR_scalar SString NNullable); cbn; tauto|constructor].
Qed.
Example C78_error_case : snd (printType PtNone) = 1 /\ outputToText (only_schemas [($"s", NamedStruct [$"a"] [PtNone] NRequired)]) = Ok ($"schema s {" ++ nl ++ $"  a " ++ fst (printType PtNone) ++ $";" ++ nl ++ $"}" ++ nl, 0).
Proof. split; vm_compute; reflexivity. Qed.

(** * C79: sources *)
Definition only_sources (l : list (str * source)) : plan := {| pl_pipelines := []; pl_relations := []; pl_roots := []; pl_schemas := []; pl_sources := l; pl_spaces := [] |}.
Lemma only_sources_text l t : outputToText (only_sources l) = Ok (t, 0) -> printSources l = Ok t.
Proof.
  unfold outputToText, only_sources. cbn [pl_pipelines pl_relations pl_roots pl_schemas pl_sources pl_spaces]. change (printRelations []) with (@Ok printed ([], 0)). cbn [obind]. destruct (printSources l) as [u| |]; cbn [obind fst snd]; try discriminate.
  change (printRoots []) with (@nil ascii). change (printSchemas []) with (@nil ascii). cbn [printPipelines DeclModel.section_text filter nonempty]. intros [= <-]. destruct u; reflexivity.
Qed.
(** Tables of at least one name without stray quotes, and single files in the formats parquet and orc: the text of each is parsed, and everyone who refers to
    it by its name gets the names, or the file: its partition, start, length and format; its address if it is that of a file. *)
Theorem C79_round_trip_partial l : Forall (fun x => Name (fst x) /\ exists s', SourceReads (snd x) s') l ->
  exists t nodes tab, printSources l = Ok t /\ parse t = Some nodes /\ symbols nodes = Ok (tab, []) /\
    forall a n s b s', l = a ++ (n, s) :: b -> ~ In n (source_names a) -> (forall f, In f (files_of s) -> ~ In f (flat_map (fun x => files_of (snd x)) a)) -> SourceReads s s' -> use_source tab n = Ok (Some s').
Proof.
  intros H. destruct (plan_reads (only_sources l) []) as (t & nodes & tab & P & S1); [split; try constructor; exact H|]. exists t, nodes, tab.
  split; [apply only_sources_text, P|].
  split; [exact (sy_parse _ _ _ _ _ S1)|]. split; [exact (sy_symbols _ _ _ _ _ S1)|]. intros a n s b s' E Hn Hf Hs. eapply (sy_sources _ _ _ _ _ S1); [exact E|intros []|exact Hn|exact Hf|exact Hs].
Qed.
(** Finding: a file that an earlier source has, too, is read as a file without address and format. *)
Theorem C79_file_again_refuted a n f b : let l := a ++ (n, LocalFiles [f]) :: b in Forall (fun x => Name (fst x) /\ exists s', SourceReads (snd x) s') l ->
  ~ In n (source_names a) -> In f (flat_map (fun x => files_of (snd x)) a) ->
  exists t nodes tab, printSources l = Ok t /\ parse t = Some nodes /\ symbols nodes = Ok (tab, []) /\ use_source tab n = Ok (Some (LocalFiles [no_file])).
Proof.
  intros l H Hn Hf. destruct (plan_reads (only_sources l) []) as (t & nodes & tab & P & S1); [split; try constructor; exact H|]. exists t, nodes, tab.
  split; [apply only_sources_text, P|].
  split; [exact (sy_parse _ _ _ _ _ S1)|]. split; [exact (sy_symbols _ _ _ _ _ S1)|]. eapply (sy_file_again _ _ _ _ _ S1); [reflexivity|intros []|exact Hn|exact Hf].
Qed.
(** Findings: a source named like a schema, a column or a table of an earlier source is found as that, and using it is a bad cast. *)
Theorem C79_hidden_refuted p rs : PlanReads p rs -> exists t nodes tab, outputToText p = Ok (t, 0) /\ parse t = Some nodes /\ symbols nodes = Ok (tab, []) /\
  (forall n, In n (schema_names (pl_schemas p)) -> use_source tab n = Throw EBadAnyCast) /\
  (forall a m l b n, pl_sources p = a ++ (m, NamedTable l) :: b -> In n l -> n <> m -> Name n -> ~ In n (schema_names (pl_schemas p)) -> ~ In n (source_names a) -> use_source tab n = Throw EBadAnyCast).
Proof.
  intros H. destruct (plan_reads p rs H) as (t & nodes & tab & P & S1). exists t, nodes, tab. split; [exact P|]. split; [exact (sy_parse _ _ _ _ _ S1)|]. split; [exact (sy_symbols _ _ _ _ _ S1)|].
  split; [exact (sy_hidden _ _ _ _ _ S1)|exact (sy_table _ _ _ _ _ S1)].
Qed.
(** Findings: any number of files but one, and files in the formats arrow and dwrf, are printed as a text that cannot be parsed, and so are tables without names. *)
Theorem C79_files_refuted n l : Name n -> Forall PrintableFile l -> (forall f, l = [f] -> f_format f = Arrow \/ f_format f = Dwrf) -> exists t, printSource n (LocalFiles l) = Ok t /\ Unreadable t.
Proof. intros Hn Hl Hu. apply files_stuck; [exact Hn|exact Hl|]. intros f E. destruct (Hu f E) as [-> | ->]; reflexivity. Qed.
Theorem C79_no_names_refuted n : Name n -> exists t, printSource n (NamedTable []) = Ok t /\ Unreadable t.
Proof. exact (no_names n). Qed.
(** Finding: names are not escaped.  A name with a quote, a comma and a quote in it is read as two names. *)
Theorem C79_quotes_refuted n l m a b : Name n -> Forall Quotable l -> Forall Quotable m -> Quotable a -> Quotable b ->
  exists t u nodes, printSource n (NamedTable (l ++ (a ++ [dquote] ++ $"," ++ [dquote] ++ b) :: m)) = Ok t /\ printSource n (NamedTable (l ++ a :: b :: m)) = Ok u /\ parse t = Some nodes /\ parse u = Some nodes.
Proof.
  intros Hn Hl Hm Ha Hb. destruct (glued_detail n l m a b Hn Hl Hm Ha Hb) as (t & P & D). destruct (named_detail n (l ++ a :: b :: m) Hn ltac:(destruct l; discriminate) ltac:(apply Forall_app; split; [exact Hl|constructor; [exact Ha|constructor; [exact Hb|exact Hm]]])) as (u & P' & D').
  eexists t, u, _. split; [exact P|]. split; [exact P'|]. split; [apply texts_parse, texts_detail, D|apply texts_parse, texts_detail, D'].
Qed.
(** Finding: where the files are is lost unless the address is that of a single file. *)
Theorem C79_location_refuted l s p b n f : l = UriPath s \/ l = UriPathGlob s \/ l = UriFolder s -> Quotable s -> (p < 2 ^ 64)%N -> (b < 2 ^ 64)%N -> (n < 2 ^ 64)%N -> f = Parquet \/ f = Orc ->
  SourceReads (LocalFiles [File l p b n f]) (LocalFiles [File NoLocation p b n f]) /\ localFileToText (File NoLocation p b n f) = Throw EUnsupported.
Proof. intros Hl Hq Hp Hb Hn Hf. split; [|reflexivity]. replace NoLocation with (kept l) by (destruct Hl as [-> | [-> | ->]]; reflexivity). apply SourceR_file. eapply FileR; try eassumption. destruct Hl as [-> | [-> | ->]]; reflexivity. Qed.
(** Finding: one virtual table, extension table, or file without address or format anywhere stops the printing of the whole plan. *)
Theorem C79_stops_refuted p a n s b : pl_sources p = a ++ (n, s) :: b ->
  match s with VirtualTable | ExtensionTable => True | LocalFiles l => exists f, In f l /\ (f_location f = NoLocation \/ f_format f = ExtensionFormat \/ f_format f = NoFormat) | NamedTable _ => False end ->
  forall t, outputToText p <> Ok t.
Proof.
  intros E Hs t H. unfold outputToText in H. destruct (printRelations (pl_relations p)) as [r| |]; cbn [obind] in H; try discriminate H. unfold printSources in H. rewrite E in H.
  assert (X : forall a, match each (fun s => printSource (fst s) (snd s)) (a ++ (n, s) :: b) with Ok _ => False | _ => True end).
  { assert (Y : match printSource n s with Ok _ => False | _ => True end).
    { destruct s as [l|l| |]; [destruct Hs| |exact I|exact I]. cbn [printSource]. destruct Hs as (f & Hf & Hb). assert (Z : match each localFileToText l with Ok _ => False | _ => True end); [|destruct (each localFileToText l); [destruct Z|exact I|exact I]].
      clear E H. induction l as [|g l IH]; [destruct Hf|]. cbn [each]. destruct Hf as [-> | Hf].
      - unfold localFileToText. destruct f as [lo pa st le fo]. cbn [f_location f_format] in Hb. destruct Hb as [-> | [-> | ->]]; cbn; try exact I; destruct lo; exact I.
      - specialize (IH Hf). destruct (localFileToText g); try exact I. cbn [obind]. destruct (each localFileToText l); [destruct IH|exact I|exact I]. }
    clear E H. intros a0. induction a0 as [|x a0 IH]; cbn [app each fst snd].
    - destruct (printSource n s); [destruct Y|exact I|exact I].
    - destruct (printSource (fst x) (snd x)); try exact I. cbn [obind]. destruct (each (fun s => printSource (fst s) (snd s)) (a0 ++ (n, s) :: b)); [destruct IH|exact I|exact I]. }
  specialize (X a). destruct (each _ (a ++ (n, s) :: b)); [destruct X|discriminate H|discriminate H].
Qed.
Print Assumptions C79_round_trip_partial. Print Assumptions C79_file_again_refuted. Print Assumptions C79_hidden_refuted. Print Assumptions C79_files_refuted. Print Assumptions C79_no_names_refuted. Print Assumptions C79_quotes_refuted.
Print Assumptions C79_location_refuted. Print Assumptions C79_stops_refuted.
Example C79_case : SourceReads (LocalFiles [exs_file]) (LocalFiles [exs_file]) /\ (forall t nodes, printSources [($"disk", LocalFiles [exs_file]); ($"again", LocalFiles [exs_file])] = Ok t -> parse t = Some nodes ->
  match symbols nodes with Ok (tab, e) => e = [] /\ use_source tab $"disk" = Ok (Some (LocalFiles [exs_file])) /\ use_source tab $"again" = Ok (Some (LocalFiles [no_file])) | _ => False end).
Proof.
  split; [apply SourceR_file; exact exs_file_reads|]. intros t nodes P Q. vm_compute in P. injection P as <-. vm_compute in Q. injection Q as <-. vm_compute. auto.
Qed.
Example C79_hidden_case : In $"due" (schema_names (pl_schemas exs_plan)) /\ In $"shop" (source_names (pl_sources exs_plan)).
Proof. split; cbn; tauto. Qed.
Example C79_files_case : Forall PrintableFile [exs_file; File (UriFolder $"/tmp") 0 0 0 Orc] /\ PrintableFile (File (UriFile $"/x") 0 0 0 Arrow) /\ Quotable $"shop".
Proof. split; [constructor; [eexists; repeat split|constructor; [eexists; repeat split|constructor]]|]. split; [eexists; repeat split|reflexivity]. Qed.

(** * C80: pipelines, roots and extension spaces *)
(** The characters of pipelines, of a root and of extension spaces are parsed as the same pipelines, names, URIs and functions. *)
Theorem C80_pipelines_partial l : Forall (fun l => l <> [] /\ Forall Name l) l -> exists nodes, parse (printPipelines l) = Some nodes /\ pipelines_of nodes = map (map (fun n => (n, n))) l.
Proof.
  intros H. destruct l as [|x l]; [exists []; split; reflexivity|]. eexists. split; [apply texts_parse, texts_detail, pipelines_detail; [discriminate|exact H]|]. cbn [pipelines_of flat_map]. rewrite app_nil_r. reflexivity.
Qed.
Theorem C80_roots_partial l : Forall (Forall Name) l -> exists nodes, parse (printRoots l) = Some nodes /\ roots_of nodes = filter has_names l.
Proof.
  intros H. exists (map PRoot (filter has_names l)). split.
  - apply texts_parse, texts_details. apply (details_map root_text PRoot (fun l => l <> [] /\ Forall Name l)); [intros x [? ?]; apply root_detail; assumption|]. apply Forall_forall. intros x Hx. apply filter_In in Hx as [Hx Hne]. rewrite Forall_forall in H. split; [destruct x; discriminate|apply H, Hx].
  - unfold roots_of. rewrite flat_map_map. apply flat_single.
Qed.
Theorem C80_spaces_partial l : Forall SpaceReads l -> exists nodes, parse (DeclModel.section_text l) = Some nodes /\ spaces_of nodes = l.
Proof.
  intros H. destruct (plan_reads {| pl_pipelines := []; pl_relations := []; pl_roots := []; pl_schemas := []; pl_sources := []; pl_spaces := l |} []) as (t & nodes & tab & P & S1); [split; try constructor; exact H|]. exists nodes. split; [|exact (sy_spaces _ _ _ _ _ S1)].
  rewrite <- (sy_parse _ _ _ _ _ S1). f_equal. unfold outputToText in P. cbn [pl_pipelines pl_relations pl_roots pl_schemas pl_sources pl_spaces] in P. change (printRelations []) with (@Ok printed ([], 0)) in P. change (printSources []) with (@Ok str []) in P. cbn [obind fst snd] in P. injection P as <-.
  change (printRoots []) with (@nil ascii). change (printSchemas []) with (@nil ascii). cbn [printPipelines filter nonempty]. destruct (DeclModel.section_text l); reflexivity.
Qed.
(** Findings: a pipeline without relations and a function whose name has no colon make the text unreadable. *)
Theorem C80_no_pipeline_refuted l m : Forall (fun l => l <> [] /\ Forall Name l) l -> Forall (fun l => l <> [] /\ Forall Name l) m -> Unreadable (printPipelines (l ++ [] :: m)).
Proof. exact (no_pipeline l m). Qed.
Theorem C80_no_colon_refuted u fs short n gs : match u with Some u => LUri u | None => True end -> Forall (fun f => Name (fst f) /\ FunctionName (snd f)) fs -> Forall (fun f => Name (fst f) /\ FunctionName (snd f)) gs ->
  Name short -> Name n -> Unreadable (DeclModel.block_text (u, fs ++ (short, n) :: gs)).
Proof. exact (no_colon u fs short n gs). Qed.
Print Assumptions C80_pipelines_partial. Print Assumptions C80_roots_partial. Print Assumptions C80_spaces_partial. Print Assumptions C80_no_pipeline_refuted. Print Assumptions C80_no_colon_refuted.
Example C80_case : parse (DeclModel.section_text [(Some $"/arithmetic.yaml", [($"add", $"add:i64_i64")]); (None, [])]) = Some [PSpace (Some $"/arithmetic.yaml") [($"add:i64_i64", Some $"add")]; PSpace None []] /\
  parse (DeclModel.section_text [(Some $"/arithmetic.yaml", [($"count", $"count")])]) = None /\ parse (printPipelines [[$"a"; $"b"]; []]) = None /\ parse (printPipelines [[$"a"; $"b"]]) <> None.
Proof. split; [vm_compute; reflexivity|]. split; [vm_compute; reflexivity|]. split; [vm_compute; reflexivity|vm_compute; discriminate]. Qed.
