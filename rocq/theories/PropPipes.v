(** Theorems about pipelines. *)
From Verif Require Import Base BaseFacts PipeModel PipeFacts.

(** * C37: accepted text pipelines describe a forest *)
(** Reading never fails badly when every name in the pipelines is free or a relation's, and there is no error exactly when no pipeline repeats a
    name and no relation in the middle of a pipeline occurs in a later one. *)
Theorem C37_accepted t ps : fresh t -> only_relations t ps ->
  exists t' errs, visitPipelines t (map plain ps) = Ok (t', errs) /\ (errs = [] <-> well_connected ps).
Proof. intros F O. destruct (read_pipelines t ps F O) as (t' & errs & E & A & _). eauto. Qed.
(** Then what flows into each relation is recorded in the order of the text, and a relation counts as started elsewhere exactly when it is not
    the last of some pipeline. *)
Theorem C37_recorded t ps t' : fresh t -> only_relations t ps -> visitPipelines t (map plain ps) = Ok (t', []) -> recorded t' ps.
Proof. intros F O E. destruct (read_pipelines t ps F O) as (t'' & errs & E' & _ & R & _). rewrite E in E'. injection E' as <- <-. auto. Qed.
(** The half of the property that holds: a relation in the middle of one accepted pipeline is in no other one's middle.  Missing: there may be
    cycles, and inputs may be shared, see below. *)
Theorem C37_middle_partial t ps t' : fresh t -> only_relations t ps -> visitPipelines t (map plain ps) = Ok (t', []) ->
  forall before p between q after x, ps = before ++ p :: between ++ q :: after -> middle x p -> ~ middle x q.
Proof.
  intros F O E before p between q after x Eq M (l & r & _ & _ & Q). destruct (read_pipelines t ps F O) as (t'' & errs & E' & A & _). rewrite E in E'. injection E' as <- <-.
  destruct (proj1 A eq_refl) as [_ W]. subst ps. assert (W' : ForallOrdPairs (fun p q => forall x, middle x p -> ~ In x q) (p :: between ++ q :: after)).
  { clear - W. induction before as [|b before IH]; auto. inversion W; subst. auto. }
  inversion W' as [|? ? Fa _]; subst. rewrite Forall_forall in Fa. apply (Fa (l ++ x :: r)) with (x := x); auto; apply in_or_app; right; left; auto.
Qed.
Print Assumptions C37_accepted. Print Assumptions C37_recorded. Print Assumptions C37_middle_partial.
Example C37_case : let ps := [[$"r1"; $"filter1"; $"join"]; [$"r2"; $"join"]; [$"join"; $"project"; $"root"]] in
  well_connected ps /\ exists t, visitPipelines [] (map plain ps) = Ok (t, []) /\ news (data t ($"join")) = [$"filter1"; $"r2"] /\ cont (data t ($"filter1")) = Some ($"r1").
Proof.
  cbv zeta. set (ps := [_; _; _]).
  assert (H : exists t, visitPipelines [] (map plain ps) = Ok (t, []) /\ news (data t ($"join")) = [$"filter1"; $"r2"] /\ cont (data t ($"filter1")) = Some ($"r1")).
  { eexists. split; [vm_compute; reflexivity|]. split; vm_compute; reflexivity. }
  split; [|exact H]. destruct (C37_accepted [] ps) as (t & errs & E & A); [intros n d Q; discriminate|intros n _; discriminate|]. destruct H as (t' & H & _). rewrite H in E. injection E as <- <-. apply A. auto.
Qed.
(** What flows into a relation, directly and in any number of steps. *)
Definition inputs (t : ptab) (n : str) : list str := match cont (data t n) with Some l => [l] | None => [] end ++ news (data t n).
Inductive feeds (t : ptab) : str -> str -> Prop := feeds_one a b : In a (inputs t b) -> feeds t a b | feeds_more a b c : In a (inputs t b) -> feeds t b c -> feeds t a c.
(** Finding: two relations that feed each other are accepted, whatever their names. *)
Theorem C37_cycle_refuted a b : a <> b -> exists t, visitPipelines [] (map plain [[a; b]; [b; a]]) = Ok (t, []) /\ feeds t a a.
Proof.
  intros N. assert (N' : b <> a) by auto. destruct (read_pipelines [] [[a; b]; [b; a]]) as (t & errs & E & A & R & _); [intros n d Q; discriminate|intros n _; discriminate|].
  assert (W : well_connected [[a; b]; [b; a]]).
  { assert (NM : forall x c d, ~ middle x [c; d]) by (intros x c d (l & r & Nl & Nr & Q); destruct l as [|y [|z l]]; [congruence|injection Q as _ _ Q; congruence|destruct l; discriminate]).
    split; [repeat constructor; cbn; intuition congruence|]. constructor; [|constructor; [constructor|constructor]]. constructor; [|constructor]. intros x M. exfalso. exact (NM _ _ _ M). }
  rewrite (proj2 A W) in *. exists t. split; auto. specialize (R eq_refl).
  apply seq_eqb_neq in N, N'.
  assert (Ia : In a (inputs t b)) by (unfold inputs; destruct (R b) as (-> & _); apply in_or_app; right; unfold into; cbn; rewrite seq_eqb_refl, N; cbn; auto).
  assert (Ib : In b (inputs t a)) by (unfold inputs; destruct (R a) as (-> & _); apply in_or_app; right; unfold into; cbn; rewrite seq_eqb_refl, N'; cbn; auto).
  eapply feeds_more; [exact Ia|]. apply feeds_one. exact Ib.
Qed.
(** Finding: a relation may feed several others. *)
Theorem C37_shared_refuted a b c : NoDup [a; b; c] -> exists t, visitPipelines [] (map plain [[a; b]; [a; c]]) = Ok (t, []) /\ In a (inputs t b) /\ In a (inputs t c).
Proof.
  intros ND. inversion ND as [|? ? N1 ND1]; subst. inversion ND1 as [|? ? N2 _]; subst. destruct (read_pipelines [] [[a; b]; [a; c]]) as (t & errs & E & A & R & _); [intros n d Q; discriminate|intros n _; discriminate|].
  assert (W : well_connected [[a; b]; [a; c]]).
  { assert (NM : forall x c d, ~ middle x [c; d]) by (intros x y d (l & r & Nl & Nr & Q); destruct l as [|z [|w l]]; [congruence|injection Q as _ _ Q; congruence|destruct l; discriminate]).
    cbn in N1, N2. split; [repeat constructor; cbn; intuition congruence|]. constructor; [|constructor; [constructor|constructor]]. constructor; [|constructor]. intros x M. exfalso. exact (NM _ _ _ M). }
  rewrite (proj2 A W) in *. exists t. split; auto. specialize (R eq_refl).
  assert (Nbc : (b =s c) = false) by (apply seq_eqb_neq; intros ->; apply N2; left; auto). assert (Ncb : (c =s b) = false) by (apply seq_eqb_neq; intros ->; apply N2; left; auto).
  split; unfold inputs; [destruct (R b) as (-> & _)|destruct (R c) as (-> & _)]; apply in_or_app; right; unfold into; cbn; rewrite ?seq_eqb_refl, ?Nbc, ?Ncb; cbn; auto.
Qed.
(** Finding: within one pipeline a relation may follow itself when a schema is given, because the check compares the whole reference. *)
Theorem C37_schema_loop_refuted : exists t, visitPipelines [] [[($"a", $"a"); ($"b", $"b"); ($"a", $"a(schema s)"); ($"root", $"root")]] = Ok (t, []) /\ feeds t ($"a") ($"a").
Proof. eexists. split; [vm_compute; reflexivity|]. apply (feeds_more _ _ ($"b")); [vm_compute; left; reflexivity|]. apply feeds_one. vm_compute. left. reflexivity. Qed.
(** Finding: a name in a pipeline that is a schema's, a function's or any other symbol's is never reported: alone it is ignored, and next to a
    relation it is a null pointer. *)
Theorem C37_other_name_refuted t n m : plookup t n = Some POther -> is_rel t m = true ->
  visitPipelines t [plain [n]] = Ok (t, []) /\ (cont (data t m) = None -> visitPipelines t [plain [n; m]] = UB).
Proof.
  intros P R. unfold is_rel in R. destruct (plookup t m) as [[d|]|] eqn:E; try discriminate. split.
  - cbn [plain map visitPipelines rev app visitPipeline fst snd]. unfold updateRelationSymbol. rewrite P. cbn [obind fst snd]. rewrite P. reflexivity.
  - unfold data. rewrite E. intros C. cbn [plain map visitPipelines rev app visitPipeline fst snd]. unfold updateRelationSymbol. rewrite E. cbn [obind fst snd]. rewrite P. cbn [obind fst snd].
    rewrite P. cbn [obind fst snd]. rewrite E. unfold connect, is_rel. rewrite C, P. reflexivity.
Qed.
Print Assumptions C37_cycle_refuted. Print Assumptions C37_shared_refuted. Print Assumptions C37_schema_loop_refuted. Print Assumptions C37_other_name_refuted.
Example C37_other_name_case : let t := [($"schema1", POther); ($"read", PRel no_data)] in plookup t ($"schema1") = Some POther /\ is_rel t ($"read") = true /\ cont (data t ($"read")) = None.
Proof. repeat split. Qed.
