(** C97: what a plan refers to that is made from a text without a report. *)
From Verif Require Import Base BaseFacts StringsModel LexModel ExprModel RelModel SectionModel WholeModel SoundFacts.
From Verif Require FieldModel DeclModel PipeFacts TreeModel.
From Coq Require Import Lia.

(** Every function that is called anywhere, in whatever text, is declared in the plan; a measure calls one too, unless nothing is said but how it is invoked or sorted. *)
Theorem C97_functions s b : from_text s = Ok (Some b, []) -> forall t names x, In (t, names) (b_rels b) -> In x (nodes t) ->
  (forall e f, In e (body_exprs (r_body (rel_of x))) -> In f (e_functions e) -> exists d, In d (b_decls b) /\ DeclModel.d_anchor d = f) /\
  (forall f, In f (body_measures (r_body (rel_of x))) -> (exists d, In d (b_decls b) /\ DeclModel.d_anchor d = af_ref f) \/ af_args f = [] /\ af_ref f = 0%N).
Proof.
  intros H t names x I J. pose proof (functions_declared s b H t names I) as K. rewrite Forall_forall in K. destruct (K x J) as [K1 K2]. rewrite Forall_forall in K1, K2. split.
  - intros e f Ie If. apply (K1 f). apply in_flat_map. eauto.
  - intros f If. destruct (K2 f If) as [D|N]; [left; exact D|right]. rewrite N. auto.
Qed.
Print Assumptions C97_functions.
(** The half that holds for columns.  If each relation comes after its inputs and has as many as it needs, and each aggregation names a measure, then every column outside of
    aggregations is one of the inputs', and every column that is emitted is there.  Missing: texts in any other order, with other inputs, and the columns in aggregations, see below. *)
Theorem C97_columns_partial s b pn : from_text s = Ok (Some b, []) -> parse s = Some pn -> orderly pn -> forall t names x, In (t, names) (b_rels b) -> In x (nodes t) ->
  (WholeModel.is_aggregate (r_body (rel_of x)) = false -> forall e z, In e (body_exprs (r_body (rel_of x))) -> In z (e_columns e) -> (0 <= z < Z.of_nat (widths (ins_of x)))%Z) /\
  (forall z, In z (r_emit (rel_of x)) -> (0 <= z < Z.of_nat (full x))%Z).
Proof.
  intros H Hp O t names x I J. pose proof (columns_there s b pn H Hp O t names I) as K. rewrite Forall_forall in K. destruct (K x J) as [K1 K2]. rewrite Forall_forall in K2. split; [|exact K2].
  intros Ha e z Ie Iz. specialize (K1 Ha). rewrite Forall_forall in K1. apply K1. apply in_flat_map. eauto.
Qed.
Print Assumptions C97_columns_partial.
(** A case *)
Definition sections_after : str := $"source named_table t { names = [""t""] } schema s { a i32; b i32; } extension_space /f.yaml { function add:i32_i32 as add; function sum:i32 as sum; } root { names = [x] }".
Definition section_r : str := $"read relation r { source t; base_schema s; } ".
Definition section_p : str := $"project relation p { expression add(s.a, s.b)->i32 NAMED c; } ".
Definition section_g : str := $"aggregate relation g { grouping c; measure { measure sum(s.b)->i32@AGGREGATION_PHASE_INITIAL_TO_RESULT NAMED m; } } ".
Definition section_f : str := $"filter relation f { filter c; } ".
Definition text_rpgf : str := $"pipelines { r -> p -> g -> f -> root; } " ++ section_r ++ section_p ++ section_g ++ section_f ++ sections_after.
Example C97_case : exists b pn, from_text text_rpgf = Ok (Some b, []) /\ parse text_rpgf = Some pn /\ orderly pn /\
  exists t names, In (t, names) (b_rels b) /\ r_body (rel_of t) = BFilter (Some (ESel (SegField 0 None) RootRef)) /\ widths (ins_of t) = 2 /\ length (nodes t) = 4.
Proof.
  destruct (from_text text_rpgf) as [[[b|] e]| |] eqn:E; [|vm_compute in E; discriminate E..]. destruct (parse text_rpgf) as [pn|] eqn:Ep; [|vm_compute in Ep; discriminate Ep].
  vm_compute in E. injection E as <- <-. vm_compute in Ep. injection Ep as <-. eexists _, _. split; [reflexivity|]. split; [reflexivity|]. split.
  - constructor.
    + intros before n after x Eq Ix. cbn [relations_of n_kind n_name] in Eq. vm_compute in Eq.
      destruct before as [|n1 before]; [injection Eq as <- <-; vm_compute in Ix; tauto|]. injection Eq as <- Eq. destruct before as [|n2 before]; [injection Eq as <- <-; vm_compute in Ix |- *; tauto|]. injection Eq as <- Eq.
      destruct before as [|n3 before]; [injection Eq as <- <-; vm_compute in Ix |- *; tauto|]. injection Eq as <- Eq. destruct before as [|n4 before]; [injection Eq as <- <-; vm_compute in Ix |- *; tauto|]. injection Eq as <- Eq.
      destruct before; discriminate Eq.
    + intros n In_. vm_compute in In_. repeat destruct In_ as [<-|In_]; [..|destruct In_]; vm_compute; repeat split; try discriminate.
    + intros x. vm_compute. intros Q. repeat destruct Q as [<-|Q]; [..|destruct Q]; auto 10. right. split; [reflexivity|discriminate].
    + vm_compute. intros Q. repeat destruct Q as [Q|Q]; try discriminate; exact Q.
    + intros n In_. vm_compute in In_. repeat destruct In_ as [<-|In_]; [..|destruct In_]; cbn; intros Q; try discriminate Q. right. left. vm_compute. eexists _, _, _, _, _, _. split; [reflexivity|]. left. reflexivity.
  - eexists _, _. split; [left; reflexivity|]. repeat split; vm_compute; reflexivity.
Qed.
(** Finding: the columns of a relation are those that its inputs have when it is read.  If the sections are in another order the same text makes another plan, without a report:
    the filter of the computed column becomes a filter of the first one. *)
Definition text_in_order : str := $"pipelines { r -> p -> f -> root; } " ++ section_r ++ section_p ++ section_f ++ sections_after.
Definition text_reversed : str := $"pipelines { r -> p -> f -> root; } " ++ section_f ++ section_p ++ section_r ++ sections_after.
Definition filters_column (b : bplan) (z : Z) : Prop := exists t names, b_rels b = [(t, names)] /\ r_body (rel_of t) = BFilter (Some (ESel (SegField z None) RootRef)) /\ widths (ins_of t) = 3.
Theorem C97_order_refuted : exists b1 b2, from_text text_in_order = Ok (Some b1, []) /\ from_text text_reversed = Ok (Some b2, []) /\ filters_column b1 2 /\ filters_column b2 0.
Proof.
  destruct (from_text text_in_order) as [[[b1|] e1]| |] eqn:E1; [|vm_compute in E1; discriminate E1..]. destruct (from_text text_reversed) as [[[b2|] e2]| |] eqn:E2; [|vm_compute in E2; discriminate E2..].
  vm_compute in E1, E2. injection E1 as <- <-. injection E2 as <- <-. eexists _, _. split; [reflexivity|]. split; [reflexivity|]. split; eexists _, _; (split; [reflexivity|]); split; vm_compute; reflexivity.
Qed.
Print Assumptions C97_order_refuted.
(** Findings: columns that are not there, without a report.  A plan has such a column if a relation reads one that none of its inputs has. *)
Definition reads_missing (b : bplan) : Prop := exists t names x e z, In (t, names) (b_rels b) /\ In x (nodes t) /\ In e (body_exprs (r_body (rel_of x))) /\ In z (e_columns e) /\ (Z.of_nat (widths (ins_of x)) <= z)%Z.
(** a filter that is in one pipeline and ends another one counts the columns of both, but only one becomes its input *)
Definition text_two_inputs : str := $"pipelines { q -> f; r -> f -> root; } " ++ section_r ++ $"read relation q { source t; base_schema s; } filter relation f { filter s.b; } " ++ sections_after.
Theorem C97_inputs_refuted : exists b, from_text text_two_inputs = Ok (Some b, []) /\ reads_missing b.
Proof.
  destruct (from_text text_two_inputs) as [[[b|] e]| |] eqn:E; [|vm_compute in E; discriminate E..]. vm_compute in E. injection E as <- <-. eexists. split; [reflexivity|]. eexists _, _, _, _, 3%Z. split; [left; reflexivity|].
  split; [left; reflexivity|]. split; [left; reflexivity|]. split; [left; reflexivity|]. vm_compute. discriminate.
Qed.
Print Assumptions C97_inputs_refuted.
(** an aggregation without named measures has the columns of its input for the next relation *)
Definition text_unnamed : str := $"pipelines { r -> g -> f -> root; } " ++ section_r ++ $"aggregate relation g { measure { measure sum(s.a)->i32; } } filter relation f { filter s.b; } " ++ sections_after.
Theorem C97_unnamed_refuted : exists b, from_text text_unnamed = Ok (Some b, []) /\ reads_missing b.
Proof.
  destruct (from_text text_unnamed) as [[[b|] e]| |] eqn:E; [|vm_compute in E; discriminate E..]. vm_compute in E. injection E as <- <-. eexists. split; [reflexivity|]. eexists _, _, _, _, 1%Z. split; [left; reflexivity|].
  split; [left; reflexivity|]. split; [left; reflexivity|]. split; [left; reflexivity|]. vm_compute. discriminate.
Qed.
Print Assumptions C97_unnamed_refuted.
(** a measure of a column that is also grouped by *)
Definition text_grouped : str := $"pipelines { r -> g -> root; } " ++ section_r ++ $"aggregate relation g { grouping a; measure { measure sum(a)->i32@AGGREGATION_PHASE_INITIAL_TO_RESULT NAMED m; } } " ++ sections_after.
Theorem C97_grouped_refuted : exists b, from_text text_grouped = Ok (Some b, []) /\ reads_missing b.
Proof.
  destruct (from_text text_grouped) as [[[b|] e]| |] eqn:E; [|vm_compute in E; discriminate E..]. vm_compute in E. injection E as <- <-. eexists. split; [reflexivity|]. eexists _, _, _, _, 2%Z. split; [left; reflexivity|].
  split; [left; reflexivity|]. split; [right; left; reflexivity|]. split; [left; reflexivity|]. vm_compute. discriminate.
Qed.
Print Assumptions C97_grouped_refuted.
(** Finding: a join with another number of inputs than two is one without inputs. *)
Definition text_one_side : str := $"pipelines { r -> j -> root; } " ++ section_r ++ $"join relation j { type inner; } " ++ sections_after.
Theorem C97_join_refuted : exists b t names, from_text text_one_side = Ok (Some b, []) /\ b_rels b = [(t, names)] /\ ins_of t = [] /\ exists ty, r_body (rel_of t) = BJoin ty None None.
Proof.
  destruct (from_text text_one_side) as [[[b|] e]| |] eqn:E; [|vm_compute in E; discriminate E..]. vm_compute in E. injection E as <- <-. eexists _, _, _. split; [reflexivity|]. split; [reflexivity|]. split; [reflexivity|]. eexists. reflexivity.
Qed.
Print Assumptions C97_join_refuted.
(** Finding: a measure that calls nothing calls the first function of the plan, without arguments. *)
Definition text_no_call : str := $"pipelines { r -> g -> root; } " ++ section_r ++ $"aggregate relation g { measure { invocation all; } } " ++ sections_after.
Theorem C97_no_call_refuted : exists b t names m f, from_text text_no_call = Ok (Some b, []) /\ b_rels b = [(t, names)] /\ r_body (rel_of t) = BAggregate [[]] [m] /\ m_function m = Some f /\
  hd_error (map DeclModel.d_name (b_decls b)) = Some $"add:i32_i32" /\ hd_error (map DeclModel.d_anchor (b_decls b)) = Some (af_ref f) /\ af_args f = [].
Proof.
  destruct (from_text text_no_call) as [[[b|] e]| |] eqn:E; [|vm_compute in E; discriminate E..]. vm_compute in E. injection E as <- <-. eexists _, _, _, _, _. split; [reflexivity|]. split; [reflexivity|]. split; [reflexivity|]. split; [reflexivity|].
  repeat split; vm_compute; reflexivity.
Qed.
Print Assumptions C97_no_call_refuted.
