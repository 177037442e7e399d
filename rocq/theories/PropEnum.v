(** C44: names of enumeration values. *)
From Verif Require Import Base EnumModel EnumFacts.

Definition ex_variant : str := $"aggregation-PHASE #1: Initial.To.Result".
Lemma ex_variant_names : plain ex_variant /\ names $"aggregationphase" (phase_word PInitialToResult) ex_variant.
Proof. split; [apply plain_iff; reflexivity|]. right. apply spells_iff. vm_compute. reflexivity. Qed.

(** A text made of the letters of the name in any case, with anything but letters in between and with or without the prefix,
    is read as the value; no other text is. *)
Theorem C44_names_partial : forall t, plain t ->
  (forall j, j <> JUnspecified -> (visitRelationJoinType t = Ok (j, false) <-> names $"jointype" (join_word j) t)) /\
  (forall i, visitAggregationInvocation t = Ok (i, false) <-> names $"aggregationinvocation" (invocation_word i) t) /\
  (forall p, visitAggregationPhase t = Ok (p, false) <-> names $"aggregationphase" (phase_word p) t) /\
  (forall d, visitSortDirection t = Ok (d, false) <-> names $"sortdirection" (direction_word d) t).
Proof.
  intros t P. split; [|split; [|split]]; intros.
  - apply join_iff; auto.
  - apply invocation_iff; auto.
  - apply phase_iff; auto.
  - apply direction_iff; auto.
Qed.
Print Assumptions C44_names_partial.
Example C44_names_ex : plain ex_variant /\ visitAggregationPhase ex_variant = Ok (PInitialToResult, false).
Proof. split; [apply ex_variant_names|vm_compute; reflexivity]. Qed.

(** Every other text is reported as an error and read as the unspecified value. *)
Theorem C44_errors : forall t, plain t ->
  ((exists j, j <> JUnspecified /\ visitRelationJoinType t = Ok (j, false)) \/ visitRelationJoinType t = Ok (JUnspecified, true)) /\
  ((exists i, visitAggregationInvocation t = Ok (i, false)) \/ visitAggregationInvocation t = Ok (IUnspecified, true)) /\
  ((exists i, visitAggregationPhase t = Ok (i, false)) \/ visitAggregationPhase t = Ok (PUnspecified, true)) /\
  ((exists i, visitSortDirection t = Ok (i, false)) \/ visitSortDirection t = Ok (DUnspecified, true)).
Proof.
  intros t P. split; [|apply others; exact P]. destruct (normalize_plain t $"jointype" P) as (w & _ & E). unfold visitRelationJoinType. rewrite E. cbn [obind].
  destruct (join_of _) eqn:J; [right; auto|..]; left; eexists; (split; [|reflexivity]); discriminate.
Qed.
Print Assumptions C44_errors.
Example C44_errors_ex : plain $"in ner t" /\ visitRelationJoinType $"in ner t" = Ok (JUnspecified, true) /\ visitRelationJoinType $"in_ner" = Ok (JInner, false).
Proof. split; [apply plain_iff; reflexivity|]. vm_compute. auto. Qed.

(** The printed name is read back as the same value. *)
Theorem C44_round_trip_partial :
  (forall j, j <> JUnspecified -> visitRelationJoinType (join_name j) = Ok (j, false)) /\
  (forall i, parse_invocation (print_invocation i) = Ok (i, false)) /\
  (forall p, visitAggregationPhase (phase_name p) = Ok (p, false)) /\
  (forall d, d <> Some DUnspecified -> visitSort_field (print_direction d) = Ok (d, false)) /\
  (forall c t, print_comparison c = Some t -> comparisonToProto t = c).
Proof.
  split; [|split; [|split; [|split]]].
  - intros j N0. rewrite join_round. destruct j; congruence.
  - exact invocation_round.
  - exact phase_round.
  - exact direction_round.
  - exact comparison_round.
Qed.
Print Assumptions C44_round_trip_partial.
Example C44_round_ex : join_name JSingle = $"JOIN_TYPE_SINGLE" /\ print_direction (Some DClustered) = Some $"CLUSTERED".
Proof. vm_compute. auto. Qed.

(** Comparison operators may only vary in case. *)
Theorem C44_comparisons : forall c t, c <> CUnspecified -> (comparisonToProto t = c <-> map lower t = comparison_word c).
Proof. exact comparison_iff. Qed.
Print Assumptions C44_comparisons.
Example C44_comparisons_ex : comparisonToProto $"Le" = CLe /\ comparisonToProto $"l_e" = CUnspecified.
Proof. vm_compute. auto. Qed.

(** An unspecified join type is printed as a name that is rejected when read; a sort field with the direction explicitly unspecified
    is read back as a sort field without a direction; bytes outside of ASCII are undefined behaviour. *)
Theorem C44_unspecified_refuted :
  visitRelationJoinType (join_name JUnspecified) = Ok (JUnspecified, true) /\
  visitSort_field (print_direction (Some DUnspecified)) = Ok (None, false) /\
  visitRelationJoinType ($"inner" ++ [Ascii.ascii_of_N 195]) = UB.
Proof. vm_compute. auto. Qed.
Print Assumptions C44_unspecified_refuted.
