(** C100: what becomes of subqueries when a text is read. *)
From Coq Require Import Permutation.
From Verif Require Import Base BaseFacts StringsModel LexModel ExprModel RelModel SectionModel WholeModel SoundFacts TrapPlanFacts SubFacts StepFacts SubPlanFacts SubAgreeFacts SubTrapFacts ColumnFacts OuterFacts.
From Verif Require FieldModel DeclModel PipeFacts TreeModel SymbolModel SubModel.

(** Texts without subqueries are read as in C91 to C99.  The only exception: looking for a column that is nowhere may not end, where a report is expected. *)
Theorem C100_same s nodes : parse s = Some nodes -> no_subqueries nodes ->
  SubModel.from_text s = mapo embed_result (from_text s) \/
  SubModel.from_text s = Throw EFuel /\ forall x, from_text s = Ok x -> existsb not_found (snd x) = true.
Proof. apply same_text. Qed.
Print Assumptions C100_same.
(** So the same texts are accepted, with the same plans. *)
Theorem C100_same_accepted s nodes b : parse s = Some nodes -> no_subqueries nodes -> from_text s = Ok (Some b, []) <-> SubModel.from_text s = Ok (Some (embed_plan b), []).
Proof.
  intros Hp Hn. destruct (same_text s nodes Hp Hn) as [E|[E N]]; rewrite E.
  - split; [intros ->; reflexivity|]. destruct (from_text s) as [[[b'|] l]| |]; cbn; try discriminate. intros H. injection H as H1 H2 H3 ->. f_equal. f_equal. f_equal. destruct b as [u d r], b' as [u' d' r']. cbn in *. subst u' d'. f_equal.
    clear -H3. revert r' H3. induction r as [|[t o] r IH]; intros [|[t' o'] r'] H; cbn in H; try discriminate; [reflexivity|]. injection H as H1 H2 H3. rewrite (IH r' H3), H2. do 2 f_equal. apply embed_inj. exact H1.
  - split; [|discriminate]. intros H. specialize (N _ H). discriminate N.
Qed.
Print Assumptions C100_same_accepted.

(** Every function that is called anywhere, in a subquery or outside, is declared in the plan. *)
Theorem C100_functions s p : SubModel.from_text s = Ok (Some p, []) -> forall t names x, In (t, names) (SubModel.q_rels p) -> In x (qnodes t) ->
  (forall e f, In e (body_exprs (r_body (q_rel x))) -> In f (e_functions e) -> exists d, In d (SubModel.q_decls p) /\ DeclModel.d_anchor d = f) /\
  (forall f, In f (body_measures (r_body (q_rel x))) -> (exists d, In d (SubModel.q_decls p) /\ DeclModel.d_anchor d = af_ref f) \/ af_args f = [] /\ af_ref f = 0%N).
Proof.
  intros H t names x I J. pose proof (functions_declared_everywhere s p H t names I) as K. rewrite Forall_forall in K. destruct (K x J) as [K1 K2]. rewrite Forall_forall in K1, K2. split; [|exact K2].
  intros e f Ie If. apply (K1 f). apply in_flat_map. eauto.
Qed.
Print Assumptions C100_functions.

(** Every root of the plan, every input and the relation of every subquery is made of the relation of the text with its name: it is of this kind, the columns it reads are its own or those of relations around it, its inputs are relations that feed it,
    and if it has inputs then the subqueries in its message are those of its part of the text, in the order in which they were found there.  No root is a subquery. *)
Theorem C100_subqueries s p nodes : SubModel.from_text s = Ok (Some p, []) -> parse s = Some nodes -> forall t names, In (t, names) (SubModel.q_rels p) ->
  exists n m, Stands nodes n t /\ (forall r, In r (relations_of nodes) -> ~ In m (named_in r)) /\ (n = m /\ names = Some [] \/ feeds nodes n m).
Proof. apply subqueries_stand. Qed.
Print Assumptions C100_subqueries.
(** So a relation with inputs has no subqueries but those of its part of the text, and all of those unless some are where no message has room for them (C100_hidden_refuted). *)
Theorem C100_all_subqueries s p nodes : SubModel.from_text s = Ok (Some p, []) -> parse s = Some nodes -> forall t names x, In (t, names) (SubModel.q_rels p) -> In x (qnodes t) -> q_ins x <> [] ->
  exists node, In node (relations_of nodes) /\ kind_name (r_body (q_rel x)) = to_lower (n_kind node) /\
    message_subs (r_body (q_rel x)) = map Some (map fst (q_subs x)) /\ (forall q, In q (map fst (q_subs x)) -> In q (named_in node)) /\
    (length (written_subs node) = length (named_in node) -> map fst (q_subs x) = named_in node /\ Permutation (named_in node) (map SubModel.id_of (written_subs node))).
Proof.
  intros H Hp t names x I J Hi. destruct (subqueries_stand s p nodes H Hp t names I) as (n & _ & St & _). destruct (stands_everywhere nodes n t St x J) as (k & Sk). inversion Sk as [? r src sch _ E1 E2|node r src sch ks ins subs In_ Kn _ _ _ _ G E1 E2]; subst x; cbn [q_ins q_rel q_subs] in *; [contradiction|].
  destruct (G Hi) as [G1 G2]. exists node. split; [exact In_|]. split; [exact Kn|]. split; [exact G1|]. split.
  - rewrite G2. intros q Iq. rewrite <- (firstn_skipn (length (written_subs node)) (named_in node)). apply in_or_app. left. exact Iq.
  - intros L. split; [rewrite G2, L; apply firstn_all|apply named_all; symmetry; exact L].
Qed.
Print Assumptions C100_all_subqueries.

(** A column that is read k steps outwards is in a relation that has a subquery, within which (k - 1 times over) the reading relation is.  (What is made of a name that is no relation of the text has no inputs.) *)
Theorem C100_around s p nodes : SubModel.from_text s = Ok (Some p, []) -> parse s = Some nodes -> forall t names x, In (t, names) (SubModel.q_rels p) -> In x (qnodes t) ->
  exists n, Stands nodes n x /\
    ((forall e k, In e (body_exprs (r_body (q_rel x))) -> In k (e_steps e) -> exists o, within nodes k n o) \/ ~ In n (map n_name (relations_of nodes)) /\ q_ins x = [] /\ q_subs x = []).
Proof.
  intros H Hp t names x I J. destruct (subqueries_stand s p nodes H Hp t names I) as (n & _ & St & _). destruct (stands_everywhere nodes n t St x J) as (k & Sk). exists k. split; [exact Sk|].
  inversion Sk as [? r src sch N E1 E2|node r src sch ks ins subs In_ Kn A _ _ _ G E1 E2]; subst x; cbn [q_ins q_rel q_subs] in *; [right; auto|left; exact A].
Qed.
Print Assumptions C100_around.
(** So a relation that is neither the relation of a subquery nor feeds one, over whatever others, reads its own columns only. *)
Theorem C100_own s p nodes : SubModel.from_text s = Ok (Some p, []) -> parse s = Some nodes -> forall t names x, In (t, names) (SubModel.q_rels p) -> In x (qnodes t) -> q_ins x <> [] ->
  exists node, In node (relations_of nodes) /\ kind_name (r_body (q_rel x)) = to_lower (n_kind node) /\
    ((forall r q, In r (relations_of nodes) -> In q (named_in r) -> n_name node <> q /\ ~ reaches (feeds nodes) (n_name node) q) -> forall e k, In e (body_exprs (r_body (q_rel x))) -> In k (e_steps e) -> k = 0%N).
Proof.
  intros H Hp t names x I J Hi. destruct (subqueries_stand s p nodes H Hp t names I) as (n & _ & St & _). destruct (stands_everywhere nodes n t St x J) as (k & Sk).
  inversion Sk as [? r src sch _ E1 E2|node r src sch ks ins subs In_ Kn A _ _ _ G E1 E2]; subst x; cbn [q_ins q_rel q_subs] in *; [contradiction|]. exists node. split; [exact In_|]. split; [exact Kn|].
  intros N e k0 Ie Ik. destruct (A e k0 Ie Ik) as (o & W). inversion W as [|k1 ? q o' Q _]; subst; [reflexivity|]. exfalso. destruct Q as (r' & q' & Ir & _ & Iq & [Q|Q]); destruct (N r' q' Ir Iq) as [N1 N2]; auto.
Qed.
Print Assumptions C100_own.

(** A name in a section of a relation (no aggregation) stands for the column of that name of the relation's inputs, and if these have none then for the one of the nearest relation around it that has one:
    among the columns that this relation makes, or else among its inputs'.  The plan has the number of steps outwards and the column's number there. *)
Theorem C100_columns_partial ff fr kn ss fields outs given schema b0 ds r d : WholeModel.is_aggregate b0 = false -> body_exprs b0 = [] -> Forall plain fields -> (Z.of_nat (length fields) < 2 ^ 31)%Z -> Forall simple_scope outs ->
  SubModel.visitColumns ff fr kn ss false fields outs false given schema b0 ds = Ok ((r, d), []) ->
  exists columns, Permutation (flat_map e_refs (body_exprs (r_body r))) columns /\ Forall2 (found ((map (lab ss) fields, []) :: map (seen_by ss) outs)) (flat_map detail_names ds) columns.
Proof. apply columns_outwards. Qed.
Print Assumptions C100_columns_partial.
(** a filter of relations c and d, in a subquery of a relation with columns b and e and a new column a, in a subquery of one with columns a and f *)
Example C100_columns_case :
  let call l := NFun $"equal" (map (fun x => ($x, NCol $x)) l) None in
  let scope l g := {| FieldModel.q_fields := map column_named l; FieldModel.q_generated := map column_named g; FieldModel.q_aggregate := false; FieldModel.q_parent := None; FieldModel.q_start := None |} in
  exists d, SubModel.visitColumns (fun _ => Some 7%N) (fun _ => None) (fun _ => false) [] false (map column_named [$"c"; $"d"]) [scope [$"b"; $"e"] [$"a"]; scope [$"a"; $"f"] []] false [] [] (BFilter None) [OnFilter None (call ["d"; "a"; "f"; "b"]%string)] =
    Ok ((Relation (BFilter (Some (EFun 7 (map (fun x => AValue (ESel (SegField (snd x) None) (fst x))) [(RootRef, 1%Z); (RootOuter 1, 2%Z); (RootOuter 2, 1%Z); (RootOuter 1, 0%Z)]) [] [] TypeModel.PtNone))) [], d), []).
Proof. eexists. vm_compute. reflexivity. Qed.

(** The relations around a relation of a text are those that have subqueries within which it is; what their columns are is known when the relation is read. *)
Theorem C100_section nodes tab rp ff earlier t known node t' r d : TreeModel.readText (SubModel.text_of nodes tab) = Ok (rp, []) -> simple_known (known ++ earlier) ->
  let inputs := fields_of rp (known ++ earlier) (n_name node) in Forall plain inputs -> (Z.of_nat (length inputs) < 2 ^ 31)%Z -> ~ is_kind node $"aggregate" ->
  SubModel.visit_node ff tab rp earlier false t known node = Ok (t', known ++ [(n_name node, (r, d))], []) ->
  exists l, surround nodes (n_name node) l /\ exists columns, Permutation (flat_map e_refs (body_exprs (r_body r))) columns /\
    Forall2 (found ((map (lab (schema_list tab)) inputs, []) :: map (known_columns (schema_list tab) (known ++ earlier) (n_name node)) l)) (flat_map columns_in (expressions_of node)) columns.
Proof. apply section_outwards. Qed.
Print Assumptions C100_section.

(** Reading ends unless a relation supplies itself, over whatever others: by feeding them in a pipeline or as the relation of a subquery of theirs. *)
Theorem C100_ends s : SubModel.from_text s = Throw EFuel -> exists nodes, parse s = Some nodes /\ entangled nodes.
Proof. apply sends_unless_entangled. Qed.
Print Assumptions C100_ends.
(** If the behaviour is undefined then the text has one of the traps of C98, or an aggregation within a subquery groups by a name that no column of its inputs has. *)
Theorem C100_defined s : SubModel.from_text s = UB -> exists nodes, parse s = Some nodes /\ sub_trap nodes.
Proof. apply sdefined_unless_trap. Qed.
Print Assumptions C100_defined.

(** * Cases *)
Definition sections_after : str := $"source named_table t { names = [""t""] } schema s { a i32; b i32; } schema s2 { c i32; d i32; } extension_space /f.yaml { function and:bool as and; function equal:any as equal; } root { names = [x] }".
Definition reads : str := $"read relation r { source t; base_schema s; } read relation q { source t; base_schema s2; } read relation p { source t; base_schema s2; } ".
(** A subquery that reads a column of the relation around it *)
Definition text_outer : str := $"pipelines { r -> f -> root; q -> g; } " ++ reads ++ $"filter relation g { filter equal(c, b); } filter relation f { filter and(EXISTS IN SUBQUERY g); } " ++ sections_after.
Example C100_case : exists p t x, SubModel.from_text text_outer = Ok (Some p, []) /\ In (t, Some [$"x"]) (SubModel.q_rels p) /\
  r_body (q_rel t) = BFilter (Some (EFun 0 [AValue (ESet QExists (Some $"g"))] [] [] TypeModel.PtNone)) /\ q_subs t = [($"g", x)] /\ In x (qnodes t) /\
  r_body (q_rel x) = BFilter (Some (EFun 1 [AValue (ESel (SegField 0 None) RootRef); AValue (ESel (SegField 1 None) (RootOuter 1))] [] [] TypeModel.PtNone)).
Proof.
  destruct (SubModel.from_text text_outer) as [[[p|] e]| |] eqn:E; vm_compute in E; try discriminate E. injection E as <- <-. do 3 eexists. split; [reflexivity|]. split; [cbn; right; left; reflexivity|]. split; [reflexivity|]. split; [reflexivity|]. split; [cbn; right; right; left; reflexivity|reflexivity].
Qed.
Definition nodes_outer : list pnode := match parse text_outer with Some l => l | None => [] end.
Definition tab_outer : table := match symbols nodes_outer with Ok (t, _) => t | _ => [] end.
Definition plan_outer : option TreeModel.read_plan := match TreeModel.readText (SubModel.text_of nodes_outer tab_outer) with Ok (rp, []) => Some rp | _ => None end.
Definition first_outer : list known_rel := match plan_outer with Some rp => match SubModel.visit_nodes (DeclModel.resolve_function (entries 0 0 nodes_outer)) tab_outer rp [] true SymbolModel.empty_table [] (relations_of nodes_outer) with Ok (k, _) => k | _ => [] end | None => [] end.
Definition node_g : option rnode := find (fun n => n_name n =s $"g") (relations_of nodes_outer).
(** Relation g of this text meets the hypotheses of C100_section: no relation was read before it, the columns of the first pass are known *)
Example C100_section_case : exists rp node t' r d, plan_outer = Some rp /\ node_g = Some node /\
  SubModel.visit_node (DeclModel.resolve_function (entries 0 0 nodes_outer)) tab_outer rp first_outer false SymbolModel.empty_table [] node = Ok (t', [(n_name node, (r, d))], []) /\ flat_map e_refs (body_exprs (r_body r)) = [(0%N, 0%Z); (1%N, 1%Z)] /\
  map FieldModel.c_name (fields_of rp first_outer $"g") = [$"c"; $"d"] /\ Forall plain (fields_of rp first_outer $"g") /\ simple_known first_outer.
Proof.
  destruct plan_outer as [rp|] eqn:Ep; [|vm_compute in Ep; discriminate Ep]. destruct node_g as [node|] eqn:En; [|vm_compute in En; discriminate En].
  exists rp, node. vm_compute in Ep. vm_compute in En. injection Ep as <-. injection En as <-.
  destruct (SubModel.visit_node _ _ _ _ _ _ _ _) as [[[t' k] e]| |] eqn:E; vm_compute in E; try discriminate E. injection E as <- <- <-.
  do 3 eexists. split; [vm_compute; reflexivity|]. split; [vm_compute; reflexivity|]. split; [reflexivity|]. split; [reflexivity|]. split; [vm_compute; reflexivity|].
  assert (K : Forall (fun x => Forall plain (FieldModel.d_fields (snd (snd x))) /\ Forall plain (FieldModel.d_generated (snd (snd x))) /\ (Z.of_nat (length (FieldModel.d_fields (snd (snd x))) + length (FieldModel.d_generated (snd (snd x)))) <? 2 ^ 31 = true)%Z) first_outer) by (let v := eval vm_compute in first_outer in replace first_outer with v by (vm_compute; reflexivity); repeat (constructor; [cbn; repeat split; repeat constructor|]); constructor).
  split; [match goal with |- Forall plain ?x => let v := eval vm_compute in x in replace x with v by (vm_compute; reflexivity) end; repeat constructor|]. intros n r d H. apply find_rel_in in H. rewrite Forall_forall in K. destruct (K _ H) as (K1 & K2 & K3). cbn [snd] in *. split; [exact K1|]. split; [exact K2|]. apply Z.ltb_lt. exact K3.
Qed.

(** * Findings *)
(** A subquery can name a column that the project around it makes.  The column is outside of the relation's input: here the input r has two columns, and the subquery reads column 2. *)
Definition text_new : str := $"pipelines { r -> f -> root; q -> g; } " ++ reads ++ $"project relation f { expression equal(a, b) NAMED x; expression and(EXISTS IN SUBQUERY g) NAMED y; } filter relation g { filter equal(x, c); } " ++ sections_after.
Theorem C100_new_refuted : exists p t x i, SubModel.from_text text_new = Ok (Some p, []) /\ In (t, Some [$"x"]) (SubModel.q_rels p) /\ q_subs t = [($"g", x)] /\ q_ins t = [i] /\ In x (qnodes t) /\
  r_body (q_rel x) = BFilter (Some (EFun 1 [AValue (ESel (SegField 2 None) (RootOuter 1)); AValue (ESel (SegField 0 None) RootRef)] [] [] TypeModel.PtNone)) /\
  exists r src sch, i = SubModel.QNode r src (Some sch) [] [] /\ ns_names sch = [$"a"; $"b"].
Proof.
  destruct (SubModel.from_text text_new) as [[[p|] e]| |] eqn:E; vm_compute in E; try discriminate E. injection E as <- <-. do 4 eexists. split; [reflexivity|]. split; [cbn; right; left; reflexivity|]. split; [reflexivity|]. split; [reflexivity|].
  split; [cbn; right; right; left; reflexivity|]. split; [reflexivity|]. do 3 eexists. split; reflexivity.
Qed.
Print Assumptions C100_new_refuted.
(** The subqueries of a join go to the expression first, in whatever order the text has them: here the expression gets the one of the filter, and the filter that of the expression. *)
Definition text_swapped : str := $"pipelines { r -> j; l -> j; j -> root; } read relation l { source t; base_schema s; } " ++ reads ++ $"join relation j { type inner; post-join filter and(EXISTS IN SUBQUERY q); expression and(UNIQUE IN SUBQUERY p); } " ++ sections_after.
Theorem C100_swapped_refuted : exists p t, SubModel.from_text text_swapped = Ok (Some p, []) /\ In (t, Some [$"x"]) (SubModel.q_rels p) /\
  r_body (q_rel t) = BJoin EnumModel.JInner (Some (EFun 0 [AValue (ESet QUnique (Some $"q"))] [] [] TypeModel.PtNone)) (Some (EFun 0 [AValue (ESet QExists (Some $"p"))] [] [] TypeModel.PtNone)).
Proof. destruct (SubModel.from_text text_swapped) as [[[p|] e]| |] eqn:E; vm_compute in E; try discriminate E. injection E as <- <-. do 2 eexists. split; [reflexivity|]. split; [cbn; left; reflexivity|reflexivity]. Qed.
Print Assumptions C100_swapped_refuted.
(** The relation of a subquery and that of a subquery among its operands are swapped. *)
Definition text_operand : str := $"pipelines { r -> f -> root; } " ++ reads ++ $"filter relation f { filter and((SUBQUERY q) IN SUBQUERY p); } " ++ sections_after.
Theorem C100_operand_refuted : exists p t, SubModel.from_text text_operand = Ok (Some p, []) /\ In (t, Some [$"x"]) (SubModel.q_rels p) /\
  r_body (q_rel t) = BFilter (Some (EFun 0 [AValue (EIn [EScalar (Some $"p")] (Some $"q"))] [] [] TypeModel.PtNone)).
Proof. destruct (SubModel.from_text text_operand) as [[[p|] e]| |] eqn:E; vm_compute in E; try discriminate E. injection E as <- <-. do 2 eexists. split; [reflexivity|]. split; [cbn; left; reflexivity|reflexivity]. Qed.
Print Assumptions C100_operand_refuted.
(** Nothing is put into the sorts of a measure, and the relations meant for these go to what comes next: here the filter gets the relation of the sort. *)
Definition text_hidden : str := $"pipelines { r -> g -> root; } " ++ reads ++ $"aggregate relation g { grouping a; measure { measure and(b)->i32@AGGREGATION_PHASE_INITIAL_TO_RESULT NAMED m; sort and(SUBQUERY q); filter and(SUBQUERY p); } } " ++ sections_after.
Theorem C100_hidden_refuted : exists p t m, SubModel.from_text text_hidden = Ok (Some p, []) /\ In (t, Some [$"x"]) (SubModel.q_rels p) /\ r_body (q_rel t) = BAggregate [[ESel (SegField 0 None) RootRef]] [m] /\
  m_filter m = Some (EFun 0 [AValue (EScalar (Some $"q"))] [] [] TypeModel.PtNone) /\ map fst (q_subs t) = [$"q"].
Proof. destruct (SubModel.from_text text_hidden) as [[[p|] e]| |] eqn:E; vm_compute in E; try discriminate E. injection E as <- <-. do 3 eexists. split; [reflexivity|]. split; [cbn; left; reflexivity|]. split; [reflexivity|]. split; reflexivity. Qed.
Print Assumptions C100_hidden_refuted.
(** A relation that two relations have as a subquery is read with the columns around the last of them: in [f] the column a is the first, but it is said to be the third, which [f] does not even have. *)
Definition text_shared : str := $"pipelines { r -> f; l -> h; f -> j; h -> j; j -> root; p -> g; } " ++ reads ++ $"schema s3 { e i32; b i32; a i32; } read relation l { source t; base_schema s3; } filter relation f { filter and(EXISTS IN SUBQUERY g); } filter relation h { filter and(EXISTS IN SUBQUERY g); } cross relation j { } filter relation g { filter equal(a, c); } " ++ sections_after.
Theorem C100_shared_refuted : exists p t f i g, SubModel.from_text text_shared = Ok (Some p, []) /\ In (t, Some [$"x"]) (SubModel.q_rels p) /\ In f (q_ins t) /\ q_subs f = [($"g", g)] /\ q_ins f = [i] /\
  (exists src, i = SubModel.QNode (Relation (BRead [] [] None None false) []) src (Some (NamedStruct [$"a"; $"b"] [TypeModel.PtScalar TypeModel.SI32 TypeModel.NRequired; TypeModel.PtScalar TypeModel.SI32 TypeModel.NRequired] TypeModel.NRequired)) [] []) /\
  r_body (q_rel g) = BFilter (Some (EFun 1 [AValue (ESel (SegField 2 None) (RootOuter 1)); AValue (ESel (SegField 0 None) RootRef)] [] [] TypeModel.PtNone)).
Proof.
  destruct (SubModel.from_text text_shared) as [[[p|] e]| |] eqn:E; vm_compute in E; try discriminate E. injection E as <- <-. do 5 eexists. split; [reflexivity|]. split; [cbn; right; left; reflexivity|]. split; [left; reflexivity|]. split; [reflexivity|]. split; [reflexivity|]. split; [eexists; reflexivity|reflexivity].
Qed.
Print Assumptions C100_shared_refuted.
(** A subquery in an argument is an enumeration if the name of its relation ends in _enum. *)
Definition text_enum : str := $"pipelines { r -> f -> root; } read relation my_enum { source t; base_schema s; } " ++ reads ++ $"filter relation f { filter and(SUBQUERY my_enum); } " ++ sections_after.
Theorem C100_enum_refuted : exists p t, SubModel.from_text text_enum = Ok (Some p, []) /\ In (t, Some [$"x"]) (SubModel.q_rels p) /\ r_body (q_rel t) = BFilter (Some (EFun 0 [AEnum $"SUBQUERYmy"] [] [] TypeModel.PtNone)) /\ q_subs t = [].
Proof. destruct (SubModel.from_text text_enum) as [[[p|] e]| |] eqn:E; vm_compute in E; try discriminate E. injection E as <- <-. do 2 eexists. split; [reflexivity|]. split; [cbn; right; right; left; reflexivity|]. split; reflexivity. Qed.
Print Assumptions C100_enum_refuted.
(** A relation that has itself as a subquery, and a column that is nowhere in circular pipelines: reading does not end. *)
Definition text_itself : str := $"pipelines { r -> f -> root; } " ++ reads ++ $"filter relation f { filter and(EXISTS IN SUBQUERY f); } " ++ sections_after.
Definition text_circle : str := $"pipelines { f -> g; g -> f; } " ++ reads ++ $"filter relation f { filter z; } filter relation g { filter true_boolean; } " ++ sections_after.
Theorem C100_ends_refuted : SubModel.from_text text_itself = Throw EFuel /\ SubModel.from_text text_circle = Throw EFuel.
Proof. split; vm_compute; reflexivity. Qed.
Print Assumptions C100_ends_refuted.
(** Grouping by a column of the relation around the subquery: by the own column with its number, which need not be there. *)
Definition text_group : str := $"pipelines { r -> f -> root; q -> g; } " ++ reads ++ $"aggregate relation g { grouping b; } filter relation f { filter and(EXISTS IN SUBQUERY g); } " ++ sections_after.
Definition text_group2 : str := $"pipelines { r -> f -> root; o -> g; } " ++ reads ++ $"read relation o { source t; base_schema s3; } schema s3 { e i32; } aggregate relation g { grouping b; } filter relation f { filter and(EXISTS IN SUBQUERY g); } " ++ sections_after.
Theorem C100_grouping_refuted : (exists p t x, SubModel.from_text text_group = Ok (Some p, []) /\ In (t, Some [$"x"]) (SubModel.q_rels p) /\ q_subs t = [($"g", x)] /\ r_body (q_rel x) = BAggregate [[ESel (SegField 1 None) RootRef]] []) /\
  SubModel.from_text text_group2 = UB.
Proof.
  split; [|vm_compute; reflexivity]. destruct (SubModel.from_text text_group) as [[[p|] e]| |] eqn:E; vm_compute in E; try discriminate E. injection E as <- <-. do 3 eexists. split; [reflexivity|]. split; [cbn; right; left; reflexivity|]. split; reflexivity.
Qed.
Print Assumptions C100_grouping_refuted.
