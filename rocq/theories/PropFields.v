(** C41 - C43, C58 - C61: columns, their names and their numbers. *)
From Verif Require Import Base FieldModel FieldFacts.
From Coq Require Import ZArith Lia.

Definition col (i : nat) (name : str) : column := {| c_id := i; c_name := name; c_alias := []; c_loc := 100 + i; c_schema := None |}.
(** A column declared in the schema at location [l]. *)
Definition scol (i : nat) (name : str) (l : nat) : column := {| c_id := i; c_name := name; c_alias := []; c_loc := l; c_schema := None |}.
Definition simple (fields generated : list column) : scope :=
  {| q_fields := fields; q_generated := generated; q_aggregate := false; q_parent := None; q_start := None |}.

Definition over {A B} (f : A -> B) (o : outcome A) : outcome B := r <- o ;; Ok (f r).

(** ** C41 *)
Theorem C41_field_number : forall ss emit q name r, q_aggregate q && emit = false -> fits (q_fields q ++ q_generated q) ->
  findFieldReferenceByName ss emit q name = (0%Z, r) <->
  ((exists i, resolves ss (q_fields q) (q_generated q) name (Some i) /\ r = i) \/ (resolves ss (q_fields q) (q_generated q) name None /\ r = (-1)%Z)).
Proof.
  intros ss emit q name r A F. unfold findFieldReferenceByName. pose proof (find_in_resolves ss emit q name A F) as R. destruct (find_in ss emit q name) as [i|].
  - split; [intros H; injection H as <-; eauto|]. intros [(j & K & ->)|(K & _)]; pose proof (resolves_fun _ _ _ _ _ _ R K) as X; [injection X as ->; auto|discriminate].
  - split; [intros H; injection H as <-; eauto|]. intros [(j & K & ->)|(K & ->)]; auto. pose proof (resolves_fun _ _ _ _ _ _ R K). discriminate.
Qed.
Print Assumptions C41_field_number.
(** Each name has exactly one meaning. *)
Theorem C41_unique : forall ss f g name r r', resolves ss f g name r -> resolves ss f g name r' -> r = r'.
Proof. exact resolves_fun. Qed.
Print Assumptions C41_unique.
(** Emitted names of an aggregation count from the first generated column. *)
Theorem C41_aggregate_emit : forall ss q name i, q_aggregate q = true -> fits (q_fields q ++ q_generated q) -> last_with (named name) (q_generated q) i ->
  findFieldReferenceByName ss true q name = (0%Z, Z.of_nat i).
Proof. intros ss q name i A F W. unfold findFieldReferenceByName. rewrite (proj1 (find_in_aggregate ss q name A F) i W). reflexivity. Qed.
Print Assumptions C41_aggregate_emit.
(** Finding: the name of an input column in an emit of an aggregation gets a number near 2^31 that has nothing to do with the column. *)
Theorem C41_aggregate_emit_refuted : forall ss q name i, q_aggregate q = true -> fits (q_fields q ++ q_generated q) ->
  none_with (named name) (q_generated q) -> last_with (called ss name) (q_fields q) i ->
  findFieldReferenceByName ss true q name = (0%Z, 2147483647 - Z.of_nat (length (q_fields q) - 1 - i))%Z.
Proof. intros ss q name i A F N0 W. unfold findFieldReferenceByName. rewrite (find_in_aggregate_input ss q name i A F N0 W). reflexivity. Qed.
Print Assumptions C41_aggregate_emit_refuted.
Definition ex_ss : schemas := [($"s", 7); ($"t", 8); ($"u", 7)].
Definition ex_q := simple [scol 0 $"a" 7; scol 1 $"a" 8; scol 2 $"b" 8] [col 3 $"sum"; {| c_id := 4; c_name := $"expr"; c_alias := $"b"; c_loc := 200; c_schema := None |}].
Example C41_ex : map (fun n => snd (findFieldReferenceByName ex_ss false ex_q n)) [$"a"; $"s.a"; $"b"; $"t.b"; $"sum"; $"x"; $"u.a"] = [1; 0; 4; 2; 3; -1; -1]%Z.
Proof. reflexivity. Qed.
Example C41_ex_hypotheses : q_aggregate ex_q && true = false /\ fits (q_fields ex_q ++ q_generated ex_q) /\
  resolves ex_ss (q_fields ex_q) (q_generated ex_q) $"s.a" (Some 0%Z).
Proof. split; [reflexivity|]. split; [unfold fits; cbn; lia|]. apply (proj1 (find_in_iff ex_ss false ex_q $"s.a" (Some 0%Z) eq_refl ltac:(unfold fits; cbn; lia))). reflexivity. Qed.
Definition ex_aggregate : scope := {| q_fields := [scol 0 $"a" 7; scol 1 $"b" 7]; q_generated := [scol 0 $"a" 7]; q_aggregate := true; q_parent := None; q_start := None |}.
Example C41_ex_aggregate : findFieldReferenceByName ex_ss true ex_aggregate $"a" = (0, 0)%Z /\ findFieldReferenceByName ex_ss true ex_aggregate $"b" = (0, 2147483647)%Z.
Proof. split; reflexivity. Qed.

(** ** C42 *)
(** The mapping of a text plan: the listed columns in order, and an error for every listed number without a column. *)
Theorem C42_mapping : forall fields generated output ms, ms <> [] -> Forall int32 ms -> fits (fields ++ generated) -> fits output ->
  (exists cs e, mapped (fields ++ generated) ms cs e /\ applyOutputMapping false fields generated output ms = (output ++ cs, e)) /\
  (exists cs e, mapped output ms cs e /\ applyOutputMapping true fields generated output ms = (cs, e)).
Proof. exact apply_mapping. Qed.
Print Assumptions C42_mapping.
Theorem C42_all_present : forall cols ms cs, mapped cols ms cs [] <-> Forall2 (selects cols) ms cs.
Proof. exact mapped_all. Qed.
Print Assumptions C42_all_present.
Theorem C42_reported : forall cols ms cs e m, mapped cols ms cs e -> (In m e <-> In m ms /\ absent cols m).
Proof. exact mapped_missing. Qed.
Print Assumptions C42_reported.
(** The mapping of a binary plan. *)
Theorem C42_converter : forall aggregate fields generated output ms, ms <> [] -> Forall int32 ms -> fits (fields ++ generated) ->
  let d := convert_emit aggregate fields generated output (Some ms) in
  exists cs, mapped (if aggregate then generated else fields ++ generated) ms cs (d_missing d) /\ d_output d = (if aggregate then [] else output) ++ cs.
Proof.
  intros aggregate fields generated output ms NE I F. unfold convert_emit. destruct ms as [|m ms]; [congruence|]. destruct aggregate.
  - destruct (map_columns_iff generated ltac:(unfold fits in *; rewrite app_length in F; lia) _ I []) as (cs & e & E & M). rewrite E. cbn. eauto.
  - destruct (map_columns_iff _ F _ I output) as (cs & e & E & M). rewrite E. cbn. eauto.
Qed.
Print Assumptions C42_converter.
Example C42_ex : applyOutputMapping false [col 0 $"a"; col 1 $"b"] [col 2 $"c"] [] [2; 0; -1; 0; 3]%Z = ([col 2 $"c"; col 0 $"a"; col 0 $"a"], [-1; 3]%Z).
Proof. reflexivity. Qed.
Example C42_ex_hypotheses : Forall int32 [2; 0; -1; 0; 3]%Z /\ fits ([col 0 $"a"; col 1 $"b"] ++ [col 2 $"c"]).
Proof. split; [repeat constructor; unfold int32; lia|unfold fits; cbn; lia]. Qed.

(** ** C43 *)
(** [l]: the enclosing queries from the inside out.  The bound on the recursion does not matter once it is large enough. *)
Theorem C43_nearest : forall t ss emit name q l, chain t q l -> forall k q' i, nth_error (q :: l) k = Some q' -> find_in ss emit q' name = Some i ->
  (forall j q'', j < k -> nth_error (q :: l) j = Some q'' -> find_in ss emit q'' name = None) ->
  exists n, forall f, n <= f -> findOuter t ss emit f q name = Ok (Z.of_nat k, i, false).
Proof. exact find_nearest. Qed.
Print Assumptions C43_nearest.
Theorem C43_not_found : forall t ss emit name q l, chain t q l -> Forall (fun q => find_in ss emit q name = None) (q :: l) ->
  exists n, forall f, n <= f -> findOuter t ss emit f q name = Ok (Z.of_nat (length l), (-1)%Z, true).
Proof. exact find_nowhere. Qed.
Print Assumptions C43_not_found.
(** Where [find_in] is the lookup of C41 in one query. *)
Theorem C43_in_one_query : forall ss emit q name r, q_aggregate q && emit = false -> fits (q_fields q ++ q_generated q) ->
  (find_in ss emit q name = r <-> resolves ss (q_fields q) (q_generated q) name r).
Proof. exact find_in_iff. Qed.
Print Assumptions C43_in_one_query.
(** 0: outermost query; 1: start of a subquery in 0; 2: end of the pipeline of 1; 3: a subquery inside 2. *)
Definition ex_chain : list scope :=
  [ simple [col 0 $"a"; col 1 $"b"] [];
    {| q_fields := [col 2 $"b"]; q_generated := []; q_aggregate := false; q_parent := Some 0; q_start := None |};
    {| q_fields := [col 2 $"b"]; q_generated := []; q_aggregate := false; q_parent := None; q_start := Some 1 |};
    {| q_fields := [col 3 $"c"]; q_generated := []; q_aggregate := false; q_parent := Some 2; q_start := None |} ].
Example C43_ex : map (findOuter ex_chain [] false 9 (nth 3 ex_chain ex_q)) [$"c"; $"b"; $"a"; $"z"] = [Ok (0, 0, false); Ok (1, 0, false); Ok (2, 0, false); Ok (2, -1, true)]%Z.
Proof. reflexivity. Qed.
Example C43_ex_chain : chain ex_chain (nth 3 ex_chain ex_q) [nth 2 ex_chain ex_q; nth 0 ex_chain ex_q].
Proof.
  apply (chain_next ex_chain _ 2); [apply enclosing_own; reflexivity|reflexivity|]. apply (chain_next ex_chain _ 0); [|reflexivity|].
  - apply (enclosing_start ex_chain _ 1 (nth 1 ex_chain ex_q)); try reflexivity. apply enclosing_own. reflexivity.
  - apply chain_end, outermost_first; reflexivity.
Qed.

(** ** C58 *)
(** The columns a relation sees are those its inputs expose, in order; inputs further down in the text contribute nothing. *)
Theorem C58_inputs_partial : forall ss nodes ds, visitPlan ss nodes = Ok ds -> length ds = length nodes /\
  forall i n, nth_error nodes i = Some n ->
    d_fields (nth i ds no_data) = flat_map (fun j => if j <? i then exposed (nth j ds no_data) else []) (n_inputs n).
Proof.
  intros ss nodes ds H. destruct (visitPlan_spec _ _ _ H) as [L V]. split; auto. intros i n E. destruct (V i n E) as (before & R & A & B).
  destruct (relation_parts _ _ _ _ R) as (-> & _). unfold input_fields. apply flat_map_ext. intros j. destruct (Nat.ltb_spec j i); [rewrite A; auto|rewrite B; auto].
Qed.
Print Assumptions C58_inputs_partial.
Theorem C58_outputs : forall ss nodes ds i n, visitPlan ss nodes = Ok ds -> nth_error nodes i = Some n -> let d := nth i ds no_data in
  fits (d_fields d ++ d_generated d) -> fits (schema_columns n ++ d_generated d) -> exposes n d (exposed d).
Proof.
  intros ss nodes ds i n H E. destruct (visitPlan_spec _ _ _ H) as [L V]. destruct (V i n E) as (before & R & _ & _). destruct (relation_parts _ _ _ _ R) as (_ & _ & X). exact X.
Qed.
Print Assumptions C58_outputs.
Theorem C58_project : forall ss nodes ds i n, visitPlan ss nodes = Ok ds -> nth_error nodes i = Some n -> Forall project_detail (n_details n) -> fits (d_fields (nth i ds no_data)) ->
  Forall2 (expression_column ss (d_fields (nth i ds no_data))) (n_details n) (d_generated (nth i ds no_data)).
Proof.
  intros ss nodes ds i n H E P F. destruct (visitPlan_spec _ _ _ H) as [L V]. destruct (V i n E) as (before & R & _ & _). eapply project_columns; eauto.
Qed.
Print Assumptions C58_project.
Definition read_node cols := {| n_aggregate := false; n_inputs := []; n_details := [DSchema cols]; n_emit := [] |}.
Definition project_node ins details emit := {| n_aggregate := false; n_inputs := ins; n_details := details; n_emit := emit |}.
Definition ex_read1 := read_node [scol 0 $"a" 7; scol 1 $"b" 7].
Definition ex_read2 := read_node [scol 2 $"a" 8].
Definition ex_project := project_node [0; 1] [DColumn $"s.a" (col 3 $"x"); DExpression [$"t.a"; $"b"] (col 4 $"y")] [$"y"; $"b"].
Example C58_ex : over (map (fun d => (map c_id (d_fields d), map c_id (d_generated d), map c_id (exposed d)))) (visitPlan ex_ss [ex_read1; ex_read2; ex_project; project_node [2] [] []])
  = Ok [([], [], [0; 1]); ([], [], [2]); ([0; 1; 2], [0; 4], [4; 1]); ([4; 1], [], [4; 1])].
Proof. reflexivity. Qed.
Example C58_ex_project : Forall project_detail (n_details ex_project).
Proof. repeat constructor. Qed.
(** Finding: a relation defined in the text before its input has no columns and its names resolve to nothing. *)
Theorem C58_order_refuted : exists nodes nodes' i i', nth_error nodes i = Some (project_node [1] [DUse [$"b"]] []) /\ nth_error nodes' i' = Some (project_node [0] [DUse [$"b"]] []) /\
  nth_error nodes 1 = nth_error nodes' 0 /\
  (exists ds, visitPlan ex_ss nodes = Ok ds /\ d_fields (nth i ds no_data) = [] /\ d_refs (nth i ds no_data) = [-1]%Z) /\
  (exists ds, visitPlan ex_ss nodes' = Ok ds /\ length (d_fields (nth i' ds no_data)) = 2 /\ d_refs (nth i' ds no_data) = [1]%Z).
Proof.
  exists [project_node [1] [DUse [$"b"]] []; ex_read1], [ex_read1; project_node [0] [DUse [$"b"]] []], 0, 1. repeat split; auto; eexists; split; try reflexivity; auto.
Qed.
Print Assumptions C58_order_refuted.
(** Finding: a relation that emits only unknown columns exposes all its columns. *)
Theorem C58_unknown_emit_refuted : exists nodes ds d, visitPlan ex_ss nodes = Ok ds /\ nth_error ds 1 = Some d /\ d_missing d = [-1]%Z /\ d_mapping d = [-1]%Z /\ length (exposed d) = 2.
Proof. exists [ex_read1; project_node [0] [] [$"zz"]]. eexists. eexists. repeat split; vm_compute; reflexivity. Qed.
Print Assumptions C58_unknown_emit_refuted.

(** ** C59 *)
(** The printed name of a column is found again, if only columns with the same identity are called so. *)
Theorem C59_found_again_partial : forall ss agg fields generated fields' generated' i c q,
  Forall2 (stands_for ss) fields fields' -> Forall2 (stands_for ss) generated generated' -> fits (fields' ++ generated') ->
  q_fields q = fields' -> q_generated q = generated' -> q_aggregate q = agg ->
  nth_error (fields ++ generated) i = Some c -> i < length fields \/ In c fields \/ c_alias c <> [] \/ c_schema c = None ->
  unambiguous ss fields' generated' (column_text c) (c_id c) ->
  exists j p, findFieldReferenceByName ss false q (column_text c) = (0%Z, Z.of_nat j) /\ nth_error (fields' ++ generated') j = Some p /\ c_id p = c_id c.
Proof. exact printed_resolves. Qed.
Print Assumptions C59_found_again_partial.
(** The printer prints column [i] as [column_text]. *)
Theorem C59_printed : forall fields generated i text, (0 <= i < 4294967296)%Z ->
  lookupFieldReference fields generated i = Some text <-> exists c, nth_error (fields ++ generated) (Z.to_nat i) = Some c /\ text = column_text c.
Proof.
  intros fields generated i text R. unfold lookupFieldReference. rewrite Z.mod_small by (change (2 ^ 32)%Z with 4294967296%Z; lia).
  destruct (nth_error _ _) as [c|]; cbn; split; intros H; [injection H as <-; eauto|destruct H as (c' & E & ->); congruence|discriminate|destruct H as (c' & E & _); discriminate].
Qed.
Print Assumptions C59_printed.
(** An emitted column is looked up among the columns the relation makes, which are only the new ones for an aggregation. *)
Theorem C59_emit_printed : forall aggregate fields generated i text, (0 <= i < 4294967296)%Z ->
  lookupFieldReferenceForEmit aggregate fields generated i = Some text <->
  exists c, nth_error ((if aggregate then [] else fields) ++ generated) (Z.to_nat i) = Some c /\ text = column_text c.
Proof.
  intros aggregate fields generated i text R. unfold lookupFieldReferenceForEmit. rewrite Z.mod_small by (change (2 ^ 32)%Z with 4294967296%Z; lia).
  replace (if aggregate then generated else fields ++ generated) with ((if aggregate then [] else fields) ++ generated) by (destruct aggregate; auto).
  destruct (nth_error _ _) as [c|]; cbn; split; intros H; [injection H as <-; eauto|destruct H as (c' & E & ->); congruence|discriminate|destruct H as (c' & E & _); discriminate].
Qed.
Print Assumptions C59_emit_printed.
Example C59_emit_case : lookupFieldReferenceForEmit true [col 0 $"a"; col 1 $"b"] [col 1 $"b"; col 5 $"total"] 1 = Some $"total" /\
  lookupFieldReferenceForEmit false [col 0 $"a"; col 1 $"b"] [col 5 $"total"] 1 = Some $"b".
Proof. split; reflexivity. Qed.
Definition conv (c : column) (s : str) : column := {| c_id := c_id c; c_name := c_name c; c_alias := []; c_loc := 300 + c_loc c; c_schema := Some s |}.
Definition ex_conv := [conv (scol 0 $"a" 7) $"s"; conv (scol 2 $"a" 8) $"t"].
Example C59_ex : Forall2 (stands_for ex_ss) ex_conv [scol 0 $"a" 7; scol 2 $"a" 8] /\ map (lookupFieldReference ex_conv []) [0; 1; 2]%Z = [Some $"s.a"; Some $"t.a"; None] /\
  map (fun n => snd (findFieldReferenceByName ex_ss false (simple [scol 0 $"a" 7; scol 2 $"a" 8] []) n)) [$"s.a"; $"t.a"; $"a"] = [0; 1; 1]%Z.
Proof.
  split; [|split; reflexivity]. constructor; [|constructor; [|constructor]]; (split; [reflexivity|split; [reflexivity|cbn; split; [reflexivity|]]]).
  - exists [], [($"t", 8); ($"u", 7)]. split; [reflexivity|constructor].
  - exists [($"s", 7)], [($"u", 7)]. split; [reflexivity|constructor; [cbn; discriminate|constructor]].
Qed.
(** Finding: a grouping column emitted by an aggregation is printed with its schema and then not found. *)
Theorem C59_aggregate_emit_refuted : forall ss q s c output, q_aggregate q = true -> fits (q_fields q ++ q_generated q) -> c_alias c = [] -> c_schema c = Some s ->
  none_with (named (s ++ $"." ++ c_name c)) (q_generated q) -> (Z.of_nat (length output) + Z.of_nat (length (q_fields q)) < 2147483648)%Z ->
  exists m, findFieldReferenceByName ss true q (column_text c) = (0%Z, m) /\ absent output m.
Proof. exact aggregate_emit_lost. Qed.
Print Assumptions C59_aggregate_emit_refuted.
Example C59_ex_aggregate : lookupFieldReferenceForEmit true [conv (scol 0 $"a" 7) $"s"] [conv (scol 0 $"a" 7) $"s"] 0 = Some $"s.a" /\
  findFieldReferenceByName ex_ss true ex_aggregate $"s.a" = (0, 2147483646)%Z.
Proof. split; reflexivity. Qed.
(** Finding: two columns with the same alias are printed alike; the text refers to the second one. *)
Theorem C59_same_alias_refuted : exists c c', c_id c <> c_id c' /\ lookupFieldReference [c; c'] [] 0 = lookupFieldReference [c; c'] [] 1 /\
  findFieldReferenceByName [] false (simple [c; c'] []) (column_text c) = (0, 1)%Z.
Proof.
  exists {| c_id := 0; c_name := $"a"; c_alias := $"x"; c_loc := 1; c_schema := None |}, {| c_id := 1; c_name := $"b"; c_alias := $"x"; c_loc := 2; c_schema := None |}.
  split; [discriminate|]. split; reflexivity.
Qed.
Print Assumptions C59_same_alias_refuted.

(** ** C60 *)
Theorem C60_names_partial : forall ss before n, Forall aggregate_detail (n_details n) -> unshadowed ss (input_fields before n) [] (n_details n) ->
  (Z.of_nat (length (input_fields before n) + length (n_details n)) < 2147483648)%Z ->
  exists d parts, visitRelation ss before n = Ok d /\ Forall2 (aggregate_columns ss (d_fields d)) (n_details n) parts /\ d_generated d = concat parts /\
  Forall2 (input_number ss (d_fields d)) (flat_map detail_names (n_details n)) (d_refs d).
Proof. exact aggregate_names. Qed.
Print Assumptions C60_names_partial.
Definition known_read : list data := [{| d_fields := []; d_generated := []; d_output := [scol 0 $"a" 7; scol 1 $"b" 7]; d_refs := []; d_mapping := []; d_missing := [] |}].
Definition aggregate_node details := {| n_aggregate := true; n_inputs := [0]; n_details := details; n_emit := [] |}.
Definition ex_group := aggregate_node [DGroupColumn $"a"; DMeasure [$"b"] (Some (col 5 $"total")); DMeasure [$"s.a"] (Some (col 6 $"n"))].
Example C60_ex : Forall aggregate_detail (n_details ex_group) /\ unshadowed ex_ss (input_fields known_read ex_group) [] (n_details ex_group) /\
  over (fun d => (map c_id (d_generated d), d_refs d)) (visitRelation ex_ss known_read ex_group) = Ok ([0; 5; 6], [0; 1; 0]%Z).
Proof.
  split; [repeat constructor|]. split; [|reflexivity].
  apply unshadowed_cons with (cols := [scol 0 $"a" 7]).
  - repeat constructor.
  - left. exists 0, (scol 0 $"a" 7). split; [|split; reflexivity]. exists (scol 0 $"a" 7). split; [reflexivity|]. split; [left; right; reflexivity|].
    intros [|[|j]] c' L E; [lia| |destruct j; discriminate]. injection E as <-. intros H. apply match_input_iff in H. vm_compute in H. discriminate.
  - apply unshadowed_cons with (cols := [col 5 $"total"]); [|reflexivity|].
    + constructor; [|constructor]. constructor; [|constructor]. rewrite <- match_generated_iff. vm_compute. discriminate.
    + apply unshadowed_cons with (cols := [col 6 $"n"]); [|reflexivity|constructor].
      constructor; [|constructor]. constructor; [|constructor; [|constructor]]; rewrite <- match_generated_iff; vm_compute; discriminate.
Qed.
(** Finding: after grouping by a column, its plain name in a measure is the number of the output column. *)
Theorem C60_shadowed_refuted : exists n d, visitRelation ex_ss known_read n = Ok d /\ n_details n = [DGroupColumn $"a"; DMeasure [$"a"] (Some (col 5 $"n"))] /\
  length (d_fields d) = 2 /\ d_refs d = [0; 2]%Z.
Proof. exists (aggregate_node [DGroupColumn $"a"; DMeasure [$"a"] (Some (col 5 $"n"))]). eexists. repeat split; reflexivity. Qed.
Print Assumptions C60_shadowed_refuted.
(** Finding: grouping twice by the same plain name reads past the end of the input columns. *)
Theorem C60_twice_refuted : forall ss before n name i c rest, n_details n = DGroupColumn name :: DGroupColumn name :: rest -> fits (input_fields before n ++ [c]) ->
  last_with (called ss name) (input_fields before n) i -> nth_error (input_fields before n) i = Some c -> named name c -> visitRelation ss before n = UB.
Proof. exact grouping_twice. Qed.
Print Assumptions C60_twice_refuted.
Example C60_ex_twice : visitRelation ex_ss known_read (aggregate_node [DGroupColumn $"b"; DGroupColumn $"b"]) = UB.
Proof. reflexivity. Qed.
(** Finding: a measure without a name has no column, so the columns after it move. *)
Theorem C60_unnamed_refuted : exists n d, visitRelation ex_ss known_read n = Ok d /\
  n_details n = [DGroupColumn $"a"; DMeasure [$"b"] None; DMeasure [$"b"] (Some (col 5 $"n"))] /\ map c_id (exposed d) = [0; 5].
Proof. exists (aggregate_node [DGroupColumn $"a"; DMeasure [$"b"] None; DMeasure [$"b"] (Some (col 5 $"n"))]). eexists. repeat split; reflexivity. Qed.
Print Assumptions C60_unnamed_refuted.

(** ** C61 *)
Theorem C61_columns_partial : forall r cols, produces r cols -> supported r -> exposed (convert r) = cols /\ d_missing (convert r) = [].
Proof. exact convert_columns. Qed.
Print Assumptions C61_columns_partial.
(** The missing columns that an aggregation groups by, and those that a projection selects, are reported, each as often as it occurs. *)
Theorem C61_missing_reported : forall input keys measures, Forall key_number keys -> fits (exposed (convert input)) ->
  d_missing (convert (CAggregate input [keys] measures None)) = missing_numbers (exposed (convert input)) keys /\
  d_missing (convert (CProject input keys None)) = missing_numbers (exposed (convert input)) keys.
Proof. exact missing_reported. Qed.
Print Assumptions C61_missing_reported.
Example C61_missing_case : let keys := [GColumn 5; GOther (col 7 $"x"); GColumn 1; GColumn (-1); GColumn 5] in let input := CRead [col 0 $"a"; col 1 $"b"] None in
  Forall key_number keys /\ d_missing (convert (CAggregate input [keys] [] None)) = [5; -1; 5]%Z.
Proof. split; [|reflexivity]. repeat (constructor; [unfold key_number, int32; lia|]). constructor. Qed.
(** A number in an expression of a relation is printed as the name of that column of the inputs. *)
Theorem C61_printed_partial : forall r inputs i c, (forall cols e, r <> CRead cols e) -> Forall supported (inputs_of r) -> Forall2 produces (inputs_of r) inputs ->
  (0 <= i < 4294967296)%Z -> nth_error (concat inputs) (Z.to_nat i) = Some c -> lookupFieldReference (d_fields (convert r)) (d_generated (convert r)) i = Some (column_text c).
Proof.
  intros r inputs i c NR S P R E. apply (proj2 (C59_printed _ _ _ _ R)). exists c. split; auto. rewrite convert_fields by auto.
  assert (X : flat_map (fun i => exposed (convert i)) (inputs_of r) = concat inputs).
  { revert S P. generalize (inputs_of r). clear. intros l S P. induction P as [|x y l l' Px _ IH]; cbn; auto. inversion S; subst. destruct (convert_columns _ _ Px) as [-> _]; auto. rewrite IH; auto. }
  rewrite X. rewrite nth_error_app1; auto. apply nth_error_Some. congruence.
Qed.
Print Assumptions C61_printed_partial.
Definition ex_crel := CProject (CJoin false (CRead [col 0 $"a"; col 1 $"b"] (Some [1; 0]%Z)) (CAggregate (CRead [col 2 $"c"] None) [[GColumn 0]] [col 3 $"m"] None) None) [GColumn 1; GOther (col 4 $"x")] (Some [5; 0; 4]%Z).
Example C61_ex : supported ex_crel /\ produces ex_crel [col 4 $"x"; col 1 $"b"; col 0 $"a"].
Proof.
  split.
  - assert (I : forall m, (0 <= m <= 5)%Z -> int32 m) by (unfold int32; lia). cbn. repeat split; try discriminate.
    + repeat constructor; apply I; lia.
    + constructor; [apply I; lia|constructor].
    + left. discriminate.
    + constructor; [apply I; lia|constructor; [exact Logic.I|constructor]].
    + repeat constructor; apply I; lia.
  - unfold ex_crel. apply produces_project with (cols := [col 1 $"b"; col 0 $"a"; col 2 $"c"; col 3 $"m"]) (values := [col 0 $"a"; col 4 $"x"]).
    + apply produces_join with (lcols := [col 1 $"b"; col 0 $"a"]) (rcols := [col 2 $"c"; col 3 $"m"]); [apply produces_read| |reflexivity].
      * repeat constructor; discriminate.
      * apply produces_aggregate with (cols := [col 2 $"c"]) (values := [col 2 $"c"]); [apply produces_read; reflexivity| |reflexivity]. repeat constructor; discriminate.
    + repeat constructor; discriminate.
    + repeat constructor; discriminate.
Qed.
(** Findings: relations whose columns come out wrong. *)
Definition wrong (r : crel) : Prop := exists cols, produces r cols /\ exposed (convert r) <> cols.
Definition ex_ab := CRead [col 0 $"a"; col 1 $"b"] None.
Definition ex_cd := CRead [col 2 $"c"; col 3 $"d"] None.
Lemma ex_ab_cols : produces ex_ab [col 0 $"a"; col 1 $"b"]. Proof. apply produces_read. reflexivity. Qed.
Lemma ex_cd_cols : produces ex_cd [col 2 $"c"; col 3 $"d"]. Proof. apply produces_read. reflexivity. Qed.
Theorem C61_set_refuted : wrong (CSet ex_ab [ex_cd] None).
Proof. eexists. split; [eapply produces_set; [exact ex_ab_cols| |reflexivity]|discriminate]. constructor; [|constructor]. exists [col 2 $"c"; col 3 $"d"]. split; [exact ex_cd_cols|reflexivity]. Qed.
Print Assumptions C61_set_refuted.
Theorem C61_semi_join_refuted : wrong (CJoin true ex_ab ex_cd None).
Proof. eexists. split; [eapply produces_semijoin; [exact ex_ab_cols|exact ex_cd_cols|reflexivity]|discriminate]. Qed.
Print Assumptions C61_semi_join_refuted.
Theorem C61_group_expression_refuted : wrong (CAggregate ex_ab [[GOther (col 5 $"x")]] [col 6 $"m"] None).
Proof. eexists. split; [eapply produces_aggregate; [exact ex_ab_cols| |reflexivity]; repeat constructor|discriminate]. Qed.
Print Assumptions C61_group_expression_refuted.
Theorem C61_window_refuted : wrong (CWindow ex_ab [col 5 $"w"] None).
Proof. eexists. split; [eapply produces_window; [exact ex_ab_cols|reflexivity]|discriminate]. Qed.
Print Assumptions C61_window_refuted.
Theorem C61_empty_emit_refuted : wrong (CSame ex_ab (Some [])).
Proof. eexists. split; [eapply produces_same; [exact ex_ab_cols|constructor]|discriminate]. Qed.
Print Assumptions C61_empty_emit_refuted.
