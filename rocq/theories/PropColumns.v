(** C101: which columns the names in a text stand for. *)
From Verif Require Import Base BaseFacts StringsModel LexModel ExprModel RelModel SectionModel WholeModel SoundFacts ColumnFacts.
From Verif Require FieldModel DeclModel DefineFacts PipeFacts TreeModel.
From Coq Require Import Lia Permutation.

(** If a text makes a plan without a report then each relation tree of the plan says what the relations of the text say, with the columns that their names stand for: the last column of
    the inputs with that name, or with that name of that schema.  The columns of a relation are those of its inputs and its own, or those that it emits, and there are as many as the
    message has.  For texts in which relations come after their inputs, and which rename no columns, group by columns before they measure, and name each measure once.
    Missing: names in measures that are also columns of the aggregation (C97_grouped_refuted), and all other texts, see below. *)
Theorem C101_columns_partial s b pn : from_text s = Ok (Some b, []) -> parse s = Some pn -> orderly pn -> tidy pn -> forall t names, In (t, names) (b_rels b) -> narrow t ->
  t = Node (Relation (BOther $"unknown") []) None None [] \/ exists n labels, Named pn n t labels /\ length labels = width t.
Proof. exact (names_resolved s b pn). Qed.
Print Assumptions C101_columns_partial.
(** A name in an expression stands for one column, and there is one if it is read at all. *)
Theorem C101_one (inputs : list label) x k1 k2 : meant inputs x k1 -> meant inputs x k2 -> k1 = k2.
Proof.
  intros (A & l & N & P & L) (A' & l' & N' & P' & L'). destruct (Z.lt_trichotomy k1 k2) as [Q|[Q|Q]]; [|exact Q|]; exfalso.
  - apply (L (Z.to_nat k2) l'); [lia|exact N'|exact P'].
  - apply (L' (Z.to_nat k1) l); [lia|exact N|exact P].
Qed.
Print Assumptions C101_one.
(** The same for a name that is emitted. *)
Theorem C101_one_emitted (inputs own : list label) x k1 k2 : picks inputs own x k1 -> picks inputs own x k2 -> k1 = k2.
Proof.
  assert (Last : forall P ls j1 j2, last_at P ls j1 -> last_at P ls j2 -> j1 = j2).
  { intros P ls j1 j2 (A & l & N & Pl & L) (A' & l' & N' & Pl' & L'). destruct (Z.lt_trichotomy j1 j2) as [Q|[Q|Q]]; [|exact Q|]; exfalso; [apply (L (Z.to_nat j2) l')|apply (L' (Z.to_nat j1) l)]; try assumption; lia. }
  intros [(j & J & ->)|[N J]] [(j' & J' & ->)|[N' J']].
  - f_equal. exact (Last _ _ _ _ J J').
  - exfalso. destruct J as (_ & l & E & C & _). exact (N' l (nth_error_In _ _ E) C).
  - exfalso. destruct J' as (_ & l & E & C & _). exact (N l (nth_error_In _ _ E) C).
  - exact (Last _ _ _ _ J J').
Qed.
Print Assumptions C101_one_emitted.
(** A case: a join of two tables with a column of the same name, which emits some columns, a computed column, and an aggregation that emits in another order *)
Definition columns_after : str := $"source named_table t { names = [""t""] } schema s { a i32; b i32; } schema u { a i32; d i32; } extension_space /f.yaml { function add:i32_i32 as add; function sum:i32 as sum; } root { names = [x] }".
Definition columns_r : str := $"read relation r { source t; base_schema s; } ".
Definition columns_q : str := $"read relation q { source t; base_schema u; } ".
Definition columns_j : str := $"join relation j { type inner; expression add(s.a, a)->i32; emit d; emit s.b; emit u.a; } ".
Definition columns_p : str := $"project relation p { expression add(b, a)->i32 NAMED c; } ".
Definition columns_g : str := $"aggregate relation g { grouping c; grouping d; measure { measure sum(b)->i32@AGGREGATION_PHASE_INITIAL_TO_RESULT NAMED m; sort a by DESC_NULLS_LAST; } emit m; emit c; } ".
Definition columns_f : str := $"filter relation f { filter add(c, m)->i32; } ".
Definition text_columns : str := $"pipelines { r -> j; q -> j; j -> p -> g -> f -> root; } " ++ columns_r ++ columns_q ++ columns_j ++ columns_p ++ columns_g ++ columns_f ++ columns_after.
Definition all_read (b : bplan) : list (list Z) := map (fun x => flat_map e_columns (body_exprs (r_body (rel_of x)))) (flat_map (fun t => nodes (fst t)) (b_rels b)).
Definition all_emitted (b : bplan) : list (list Z) := map (fun x => r_emit (rel_of x)) (flat_map (fun t => nodes (fst t)) (b_rels b)).
Ltac each_relation In_ := vm_compute in In_; repeat destruct In_ as [<-|In_]; [..|destruct In_].
Example C101_case : exists b pn, from_text text_columns = Ok (Some b, []) /\ parse text_columns = Some pn /\ orderly pn /\ tidy pn /\ Forall (fun t => narrow (fst t)) (b_rels b) /\ length (b_rels b) = 1 /\
  all_read b = [[1; 0]; [3; 0; 1; 2]; [1; 2]; [0; 2]; []; []]%Z /\ all_emitted b = [[]; [2; 0]; []; [3; 1; 2]; []; []]%Z.
Proof.
  destruct (from_text text_columns) as [[[b|] e]| |] eqn:E; [|vm_compute in E; discriminate E..]. destruct (parse text_columns) as [pn|] eqn:Ep; [|vm_compute in Ep; discriminate Ep].
  vm_compute in E. injection E as <- <-. vm_compute in Ep. injection Ep as <-. eexists _, _. split; [reflexivity|]. split; [reflexivity|]. split; [|split; [|split; [|split; [|split]]]].
  - constructor.
    + intros before n after x Eq Ix. vm_compute in Eq.
      do 6 (destruct before as [|? before]; [injection Eq as <- <-; vm_compute in Ix |- *; tauto|injection Eq as <- Eq]). destruct before; discriminate Eq.
    + intros n In_. each_relation In_; vm_compute; repeat split; try discriminate.
    + intros x. vm_compute. intros Q. repeat destruct Q as [<-|Q]; [..|destruct Q]; auto 12. right. split; [reflexivity|discriminate].
    + vm_compute. intros Q. repeat destruct Q as [Q|Q]; try discriminate; exact Q.
    + intros n In_. each_relation In_; cbn; intros Q; try discriminate Q. right. right. left. vm_compute. eexists _, _, _, _, _, _. split; [reflexivity|]. left. reflexivity.
  - constructor.
    + intros n x In_. each_relation In_; intros Q; vm_compute in Q; repeat destruct Q as [<-|Q]; try destruct Q.
      * eexists. match goal with |- schema_named ?l _ _ => exists (firstn 8 l), (skipn 9 l) end. split; [vm_compute; reflexivity|]. intros J. vm_compute in J. repeat destruct J as [J|J]; try discriminate J; exact J.
      * eexists. match goal with |- schema_named ?l _ _ => exists (firstn 9 l), (skipn 10 l) end. split; [vm_compute; reflexivity|]. intros J. vm_compute in J. repeat destruct J as [J|J]; try discriminate J; exact J.
    + intros n x y In_. each_relation In_; vm_compute; intros Q; repeat destruct Q as [Q|Q]; try discriminate Q; exact Q.
    + intros n x In_. each_relation In_; vm_compute; intros Q; repeat destruct Q as [<-|Q]; try destruct Q; eexists; reflexivity.
    + intros n x In_. each_relation In_; vm_compute; intros Q; repeat destruct Q as [<-|Q]; try destruct Q; eexists; reflexivity.
    + intros n before l after x In_. each_relation In_; cbn [n_details]; intros Q; do 7 (try (destruct before as [|? before]; [try discriminate Q; injection Q as <- <-; vm_compute; intros J; repeat destruct J as [J|J]; try discriminate J; exact J|try discriminate Q; injection Q as <- Q]));
        try (destruct before; discriminate Q); try discriminate Q.
  - repeat constructor; vm_compute; reflexivity.
  - reflexivity.
  - vm_compute. reflexivity.
  - vm_compute. reflexivity.
Qed.
(** Findings: for other texts a name may stand for another column than the one that was given that name, without a report.  The filter ought to read the last column of each. *)
Definition filters (b : bplan) (z w : Z) : Prop := exists t names, b_rels b = [(t, names)] /\ r_body (rel_of t) = BFilter (Some (ESel (SegField z None) RootRef)) /\ Z.of_nat (widths (ins_of t)) = w.
(** a new name for a column that is already there is ignored *)
Definition text_renamed : str := $"pipelines { r -> p -> f -> root; } " ++ columns_r ++ $"project relation p { expression s.b NAMED a; } filter relation f { filter a; } " ++ columns_after.
Theorem C101_renamed_refuted : exists b, from_text text_renamed = Ok (Some b, []) /\ filters b 0 3.
Proof.
  destruct (from_text text_renamed) as [[[b|] e]| |] eqn:E; [|vm_compute in E; discriminate E..]. vm_compute in E. injection E as <- <-. eexists. split; [reflexivity|]. eexists _, _. split; [reflexivity|]. split; vm_compute; reflexivity.
Qed.
Print Assumptions C101_renamed_refuted.
(** an expression that is grouped by is no column when the measures are counted *)
Definition text_shifted : str := $"pipelines { r -> g -> f -> root; } " ++ columns_r ++
  $"aggregate relation g { grouping add(s.a, s.b)->i32; measure { measure sum(s.a)->i32@AGGREGATION_PHASE_INITIAL_TO_RESULT NAMED m; } } filter relation f { filter m; } " ++ columns_after.
Theorem C101_shifted_refuted : exists b, from_text text_shifted = Ok (Some b, []) /\ filters b 0 2.
Proof.
  destruct (from_text text_shifted) as [[[b|] e]| |] eqn:E; [|vm_compute in E; discriminate E..]. vm_compute in E. injection E as <- <-. eexists. split; [reflexivity|]. eexists _, _. split; [reflexivity|]. split; vm_compute; reflexivity.
Qed.
Print Assumptions C101_shifted_refuted.
(** the columns of an aggregation are counted in the order of the text, but its measures come last in the message *)
Definition text_measured_first : str := $"pipelines { r -> g -> f -> root; } " ++ columns_r ++
  $"aggregate relation g { measure { measure sum(s.a)->i32@AGGREGATION_PHASE_INITIAL_TO_RESULT NAMED m; } grouping s.b; } filter relation f { filter m; } " ++ columns_after.
Theorem C101_measured_first_refuted : exists b, from_text text_measured_first = Ok (Some b, []) /\ filters b 0 2.
Proof.
  destruct (from_text text_measured_first) as [[[b|] e]| |] eqn:E; [|vm_compute in E; discriminate E..]. vm_compute in E. injection E as <- <-. eexists. split; [reflexivity|]. eexists _, _. split; [reflexivity|]. split; vm_compute; reflexivity.
Qed.
Print Assumptions C101_measured_first_refuted.
