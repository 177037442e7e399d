(** Theorems about what relations in texts say and what is reported about them. *)
From Verif Require Import Base BaseFacts StringsModel StringsFacts EnumModel TypeModel LexModel ExprModel RelModel RelFacts RelReadFacts PropExpr PropRel.
From Coq Require Import Lia ZifyBool ZifyNat.

(** * C93: nothing is reported about a relation exactly if everything in it belongs there *)
(** [RelationSays] gives the relation that the details of a text say: every detail belongs to relations of the kind, filters, expressions of joins and functions and
    filters of measures are given at most once, and expressions, types, phases, directions and counts can be read.  Exactly then there is no report,
    and the relation is the one that is read. *)
Theorem C93_exact_partial find_function find_relation find_field find_emit columns known_source known_schema n r :
  visitRelation find_function find_relation find_field find_emit columns known_source known_schema n = Ok (r, []) <->
  exists s, r = Some s /\ RelationSays find_function find_relation find_field find_emit columns known_source known_schema n s.
Proof. apply relation_iff. Qed.
(** A detail that does not belong to relations of the kind is reported, wherever it is and whatever else is there. *)
Theorem C93_misplaced find_function find_relation find_field find_emit columns known_source known_schema n d r errors : In d (n_details n) ->
  (forall i x, ItemSays find_function find_relation find_field columns i d x -> ~ belongs (to_lower (n_kind n)) x) ->
  visitRelation find_function find_relation find_field find_emit columns known_source known_schema n = Ok (r, errors) -> errors <> [].
Proof.
  intros I H V ->. apply relation_iff in V as (s & _ & S). destruct S as [items b e F B _ _]. revert I. generalize (n_details n) as l, 0 as i, F. clear F. intros l i F. revert B.
  induction F as [|i d' x l items X _ IH]; intros B I; [destruct I|]. inversion B. subst. destruct I as [->|I]; [|apply IH; assumption]. exact (H i x X H2).
Qed.
(** Relations of other kinds are reported. *)
Theorem C93_kind find_function find_relation find_field find_emit columns known_source known_schema n r errors :
  ~ In (to_lower (n_kind n)) [$"read"; $"filter"; $"fetch"; $"aggregate"; $"sort"; $"project"; $"join"; $"cross"; $"set"] ->
  visitRelation find_function find_relation find_field find_emit columns known_source known_schema n = Ok (r, errors) -> errors <> [].
Proof.
  intros H V ->. apply relation_iff in V as (s & _ & S). destruct S as [items b e _ _ A _]. apply H. destruct A; cbn [In]; auto 12.
Qed.
(** A column that is not known, or one of an outer relation, cannot be emitted without a report. *)
Theorem C93_emit find_function find_relation find_field find_emit columns known_source known_schema n c r errors : In (OnEmit c) (n_details n) -> (forall z, find_emit c <> (0%N, z, false)) ->
  visitRelation find_function find_relation find_field find_emit columns known_source known_schema n = Ok (r, errors) -> errors <> [].
Proof.
  intros I H V ->. apply relation_iff in V as (s & _ & S). destruct S as [items b e _ _ _ E]. assert (I' : In c (emit_columns (n_details n))) by (apply in_flat_map; exists (OnEmit c); split; [exact I|left; reflexivity]).
  induction E as [|c' z l l' Ec _ IH]; [destruct I'|]. destruct I' as [->|I']; [exact (H z Ec)|exact (IH I')].
Qed.
(** Findings.  The last of several counts, types of joins and invocations is taken, without a report. *)
Theorem C93_counts_refuted find_function find_relation find_field find_emit columns known_source known_schema t z ts : (forall t, In t ts -> exists z, stol t = Ok z) -> stol t = Ok z ->
  visitRelation find_function find_relation find_field find_emit columns known_source known_schema (RNode $"fetch" $"f" (map OnCount (ts ++ [t]))) = Ok (Some (Relation (BFetch 0 z) []), []).
Proof.
  intros H Ht. apply relation_iff. eexists. split; [reflexivity|]. assert (X : exists zs, ForallAt (ItemSays find_function find_relation find_field columns) 0 (map OnCount (ts ++ [t])) (map IsCount (zs ++ [z]))).
  { clear -H Ht. generalize 0. induction ts as [|s ts IH]; intros i.
    - exists []. constructor; [constructor; exact Ht|constructor].
    - destruct (H s (or_introl eq_refl)) as (y & Hy). destruct (IH (fun t I => H t (or_intror I)) (S i)) as (zs & F). exists (y :: zs). constructor; [constructor; exact Hy|exact F]. }
  destruct X as (zs & F). assert (E : BFetch 0 z = BFetch 0 (last (counts (map IsCount (zs ++ [z]))) 0%Z)).
  { f_equal. rewrite map_app. unfold counts. rewrite flat_map_app. cbn. symmetry. apply last_last. }
  econstructor; [exact F| |cbn [n_kind]; rewrite E; apply AS_fetch|].
  - cbn [n_kind]. clear. induction (zs ++ [z]); constructor; [reflexivity|assumption].
  - cbn [n_details]. clear. induction (ts ++ [t]); [constructor|assumption].
Qed.
Print Assumptions C93_exact_partial. Print Assumptions C93_misplaced. Print Assumptions C93_kind. Print Assumptions C93_emit. Print Assumptions C93_counts_refuted.
(** A sum over sorted rows *)
Example C93_measure_case : exr_read $"Aggregate relation g { measure { sort due by asc_nulls_first; measure sum(orders.price)->i64@AGGREGATION_PHASE_INITIAL_TO_RESULT NAMED total; invocation distinct; sort orders.price; } emit due; grouping due; }" =
  Some ($"g", Ok (Some (Relation (BAggregate [[ex_col 1]] [Measure (Some (AF 2 [AValue (ex_col 0)] [] [] (PtScalar SI64 NRequired) PInitialToResult IDistinct [(ex_col 1, SortDirection DAscNullsFirst); (ex_col 0, SortUnset)])) None]) [0%Z]), [])).
Proof. vm_compute. reflexivity. Qed.
Example C93_join_case : exr_read $"join relation j { post-join filter due; type left; expression lt(orders.price, due)->bool?; }" = Some ($"j", Ok (Some (Relation (BJoin JLeft (Some exr_lt) (Some (ex_col 1))) []), [])).
Proof. vm_compute. reflexivity. Qed.
Definition exr_reported (s : str) : option (list rerr) := match exr_read s with Some (_, Ok (_, e)) => Some e | _ => None end.
(** Details that do not belong there, are given twice, or cannot be read *)
Example C93_reported_cases : map exr_reported [
    $"filter relation f { count 5; }"; $"fetch relation f { sort due; }"; $"sort relation f { expression due; }"; $"project relation f { filter due; }"; $"filter relation f { filter due; filter due; }"; $"filter relation f { best effort filter due; }";
    $"read relation f { source db; some other filter due; }"; $"scan relation f { source db; }"; $"cross relation f { emit nothing; }"; $"aggregate relation f { measure { measure sum(due)->i64@initialtoresult; measure sum(due)->i64@initialtoresult; } }";
    $"aggregate relation f { measure { measure due@initialtoresult; } }"; $"aggregate relation f { measure { filter due; filter due; } }"; $"join relation f { expression due; expression due; }"; $"join relation f { type middle; }"] =
  map Some [[RNoCount]; [RNoSort]; [RNoExpression]; [RNoFilter]; [RConditionTwice]; [RFilterBehavior]; [RBehavior; RBehavior]; [RKind $"scan"]; [REmitMissing]; [RMeasureTwice]; [RNoFunction]; [RMeasureFilterTwice]; [RExpressionTwice]; [RJoinType]].
Proof. vm_compute. reflexivity. Qed.
